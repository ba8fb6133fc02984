(** Concrete cases for the theorems about formatting and parsing. *)
From Coq Require Import String.
From Coq Require Import ZArith List Bool Lia QArith Qabs.
From Verif Require Import Base Str FmtOps Format Parse FmtSpec StrProofs SpecProofs.
Import ListNotations.
Local Open Scope Z_scope.

(** Digits and white space of ASCII, and the Arabic-Indic digits. *)
Definition uni : Unicode := {|
  u_dig := fun c => if (48 <=? c) && (c <=? 57) then Some (c - 48)
                    else if (1632 <=? c) && (c <=? 1641) then Some (c - 1632) else None;
  u_spc := fun c => (9 <=? c) && (c <=? 13) || (28 <=? c) && (c <=? 32) |}.
Lemma uni_laws : UniLaws uni.
Proof.
  constructor; cbn [u_dig u_spc uni].
  - intros c H. replace ((48 <=? c) && (c <=? 57)) with true by lia. reflexivity.
  - intros c d. destruct ((48 <=? c) && (c <=? 57)) eqn:E; [intros X; injection X; lia|].
    destruct ((1632 <=? c) && (c <=? 1641)) eqn:E2; [intros X; injection X; lia|discriminate].
  - intros c H N. replace ((48 <=? c) && (c <=? 57)) with false by lia.
    replace ((1632 <=? c) && (c <=? 1641)) with false by lia. reflexivity.
  - intros c H. cbn in H. repeat destruct H as [<-|H]; try (split; reflexivity). destruct H.
  - intros c H. lia.
  - intros c H. destruct ((48 <=? c) && (c <=? 57)) eqn:E; [lia|].
    destruct ((1632 <=? c) && (c <=? 1641)) eqn:E2; [lia|congruence].
Qed.

(** '*^+010,.2ufSL'. *)
Definition full_parts : parts :=
  mkParts (lit "*") (lit "^") (lit "+") (lit "0") (lit "10") (lit ",") (Some (lit "2")) (lit "u") (lit "f") (lit "SL").
Lemma full_assembled : assembled uni full_parts (lit "*^+010,.2ufSL") /\ zero_apart full_parts /\ fill_aligned full_parts.
Proof.
  assert (one : forall l c, existsb (Z.eqb c) (lit l) = true -> at_most_one l [c]).
  { intros l c H. right. exists c. split; [|reflexivity]. apply existsb_exists in H. destruct H as (x & I & E).
    apply Z.eqb_eq in E. subst. exact I. }
  split; [|split; [discriminate|discriminate]].
  constructor; try (apply one; reflexivity).
  - reflexivity.
  - right. exists 42. split; [reflexivity|]. lia.
  - repeat (constructor; [discriminate|]). constructor.
  - intros d H. injection H as <-. split; [discriminate|]. repeat (constructor; [discriminate|]). constructor.
  - repeat (constructor; [cbn; tauto|]). constructor.
Qed.
Lemma full_spec : parse_spec uni (lit "*^+010,.2ufSL") = Ok full_parts.
Proof. apply spec_assembled; [exact uni_laws|apply full_assembled..]. Qed.

Lemma one_in : forall l s, at_most_one l s -> Forall (fun c => In c (lit l)) s.
Proof. intros l s [->|(c & I & ->)]; repeat constructor; assumption. Qed.
(** No specification of two characters or more ends with such a character. *)
Lemma bad_last : forall (a : str) (y : Z), a <> [] -> ~ In y (lit "<>=^-+ 0,.ueEfFgG%PSLp") -> u_dig uni y = None ->
  forall p, ~ assembled uni p (a ++ [y]).
Proof.
  intros a y NE NI ND p A.
  destruct A as [W F1 F2 F3 F4 F5 F6 F7 F8 F9 F10].
  assert (last_char : forall a b : str, b <> [] -> last (a ++ b) 0 = last b 0).
  { clear. intros a b N. destruct (exists_last N) as (b' & z & ->). rewrite app_assoc, !last_last. reflexivity. }
  assert (X : last (a ++ [y]) 0 = y) by apply last_last. rewrite W in X.
  assert (bad : forall (P : Z -> Prop) (s : str), Forall P s -> ~ P y -> s <> [] -> last s 0 <> y).
  { intros P s FA N NEs Q. destruct (exists_last NEs) as (b' & z & ->). rewrite last_last in Q. subst.
    apply Forall_app in FA. destruct FA as (_ & FA). inversion FA. contradiction. }
  assert (step : forall (P : Z -> Prop) (a b : str), Forall P b -> ~ P y -> last (a ++ b) 0 = y -> b = []).
  { intros P a0 b FA N Q. destruct b as [|z b]; [reflexivity|]. rewrite last_char in Q by discriminate.
    exfalso. revert Q. apply (bad P); [exact FA|exact N|discriminate]. }
  cbn in NI.
  repeat rewrite app_assoc in X.
  assert (E10 := step _ _ _ F10 ltac:(cbn; lia) X). rewrite E10, app_nil_r in X.
  assert (E9 := step _ _ _ (one_in _ _ F9) ltac:(cbn; lia) X). rewrite E9, app_nil_r in X.
  assert (E8 := step _ _ _ (one_in _ _ F8) ltac:(cbn; lia) X). rewrite E8, app_nil_r in X.
  assert (E7 : match p_prec p with Some d => 46 :: d | None => [] end = []).
  { destruct (p_prec p) as [d|] eqn:Ed; [|reflexivity]. destruct (F7 d eq_refl) as (N & G). exfalso.
    revert X. rewrite last_char by discriminate.
    apply (bad (fun c => c = 46 \/ u_dig uni c <> None)); [|intros [Q|Q]; [lia|apply Q; exact ND]|discriminate].
    constructor; [left; reflexivity|]. eapply Forall_impl; [|exact G]. auto. }
  rewrite E7, app_nil_r in X.
  assert (E6 := step _ _ _ (one_in _ _ F6) ltac:(cbn; lia) X). rewrite E6, app_nil_r in X.
  assert (E5 := step _ _ _ F5 ltac:(intros Q; apply Q; exact ND) X). rewrite E5, app_nil_r in X.
  assert (E4 := step _ _ _ (one_in _ _ F4) ltac:(cbn; lia) X). rewrite E4, app_nil_r in X.
  assert (E3 := step _ _ _ (one_in _ _ F3) ltac:(cbn; lia) X). rewrite E3, app_nil_r in X.
  assert (E2 := step _ _ _ (one_in _ _ F2) ltac:(cbn; lia) X). rewrite E2, app_nil_r in X.
  rewrite E2, E3, E4, E5, E6, E7, E8, E9, E10 in W. rewrite ?app_nil_r in W.
  assert (LW := f_equal (@length Z) W). rewrite app_length in LW. cbn [length] in LW.
  assert (La : (0 < length a)%nat) by (destruct a; [congruence|cbn [length]; lia]).
  destruct F1 as [E1|(c & E1 & _)]; rewrite E1 in LW; cbn [length app] in LW; lia.
Qed.
(** Not a specification: an unknown type. *)
Lemma no_spec : forall p, ~ assembled uni p (lit "10d") /\ forall t, lit "10d" = t ++ [10] -> ~ assembled uni p t.
Proof.
  intros p. split.
  - apply (bad_last (lit "10") 100); [discriminate|cbn; lia|reflexivity].
  - intros t E. exfalso. assert (X : last (lit "10d") 0 = 10) by (rewrite E; apply last_last). discriminate X.
Qed.
(** Accepted although it is not documented: any character in front, and a newline at the end. *)
Definition x2f : parts := mkParts (lit "x") [] [] [] [] [] (Some (lit "2")) [] (lit "f") [].
Lemma junk_fill : parse_spec uni (lit "x.2f") = Ok x2f /\ ~ fill_aligned x2f.
Proof. split; [reflexivity|]. intros H. apply (H ltac:(discriminate)). reflexivity. Qed.
Lemma trailing_newline : parse_spec uni (lit ".2f" ++ [10]) = parse_spec uni (lit ".2f") /\
  forall p, ~ assembled uni p (lit ".2f" ++ [10]).
Proof.
  split; [reflexivity|]. apply bad_last; [discriminate|cbn; lia|reflexivity].
Qed.
