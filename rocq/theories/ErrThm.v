(** Exceptions of the parsing of strings, and the forms of ufloat(). *)
From Coq Require Import String.
From Coq Require Import ZArith List Bool Lia.
From Verif Require Import Base Str FmtOps Format Parse StrProofs FmtSpec ParseSpec.
Import ListNotations.
Local Open Scope Z_scope.

(** ** Which exceptions *)
(** Powers of ten and conversions of integers only overflow (10^n is not 0 for n >= -1). *)
Record OnlyOverflow (K : FmtOps) : Prop := mkOnlyOverflow {
  oo_mul : forall x n e, x_mul10 K x n = Err e -> e = EOverflow;
  oo_int : forall n e, x_of_Z K n = Err e -> e = EOverflow;
  oo_div : forall x n e, -1 <= n -> x_div10 K x n = Err e -> e = EOverflow }.
(** Nothing overflows. *)
Record NoOverflow (K : FmtOps) : Prop := mkNoOverflow {
  no_mul : forall x n e, x_mul10 K x n <> Err e;
  no_int : forall n e, x_of_Z K n <> Err e;
  no_div : forall x n e, x_div10 K x n <> Err e }.

Lemma exact_no_overflow : NoOverflow DecOps.
Proof. split; intros; discriminate. Qed.

Section Errors.
Context (K : FmtOps) (U : Unicode) (ok : exn -> Prop).
Hypothesis ok_value : ok EValue.
Hypothesis ok_mul : forall x n e, x_mul10 K x n = Err e -> ok e.
Hypothesis ok_int : forall n e, x_of_Z K n = Err e -> ok e.
Hypothesis ok_div : forall x n e, -1 <= n -> x_div10 K x n = Err e -> ok e.
Hypothesis ok_neg : ok ENegStd.

Lemma int_err : forall s e, py_int U s = Err e -> ok e.
Proof.
  intros s e H. unfold py_int in H. destruct (take_sign _) as (g & t). destruct (digit_run U false t) as (ds & r).
  destruct ds; destruct r; inversion H; exact ok_value.
Qed.
Lemma float_err : forall s e, py_float (K := K) U s = Err e -> ok e.
Proof.
  intros s e H. unfold py_float in H. destruct (take_sign _) as (g & t).
  destruct (is_word t "nan"); [discriminate|]. destruct (is_word t "inf" || is_word t "infinity"); [discriminate|].
  destruct (digit_run U false t) as (i & t1).
  destruct (match t1 with [] => _ | _ :: _ => _ end) as (f & t2).
  destruct (exponent_of U t2); [|inversion H; exact ok_value].
  destruct (isnil i && isnil f); inversion H; exact ok_value.
Qed.
Lemma bind_err : forall {A B} (x : res A) (f : A -> res B) e, rbind x f = Err e ->
  x = Err e \/ exists a, x = Ok a /\ f a = Err e.
Proof. intros A B [a|e'] f e H; simpl in H; [right; eauto|left; congruence]. Qed.
Lemma sup_err : forall s e, nrmlze_superscript U s = Err e -> ok e.
Proof. intros s e H. unfold nrmlze_superscript in H. apply int_err in H. exact H. Qed.
Lemma ten_err : forall n e, ten_to (K := K) n = Err e -> ok e.
Proof. intros n e H. unfold ten_to in H. apply bind_err in H. destruct H as [H|(a & _ & H)]; [apply (ok_mul _ _ _ H)|discriminate]. Qed.
Lemma times_err : forall factor (x : fl K) e,
  match factor with Some n => x_mul10 K x n | None => Ok x end = Err e -> ok e.
Proof. intros [n|] x e H; [apply (ok_mul _ _ _ H)|discriminate]. Qed.
Ltac step H := apply bind_err in H; destruct H as [H|(? & _ & H)].
Lemma paren_err : forall s e, parse_error_in_parentheses (K := K) U s = Err e -> ok e.
Proof.
  intros s e H. unfold parse_error_in_parentheses in H. destruct (re_match _ s) as [c|]; [|inversion H; exact ok_value].
  step H.
  { destruct (group c 8) as [[|y t]|]; try discriminate. step H; [apply (sup_err _ _ H)|]. step H; [apply (ten_err _ _ H)|discriminate]. }
  cbv zeta in H. step H; [apply (float_err _ _ H)|]. step H; [apply (times_err _ _ _ H)|]. step H.
  - destruct (_ || _); [apply (float_err _ _ H)|]. step H; [apply (int_err _ _ H)|]. step H; [apply (ok_int _ _ H)|].
    eapply ok_div; [|exact H]. destruct (group c 4) as [d|]; [unfold len; lia|lia].
  - step H; [apply (times_err _ _ _ H)|discriminate].
Qed.
Lemma to_float_err : forall s e, to_float (K := K) U s = Err e -> ok e.
Proof.
  intros s e H. unfold to_float in H. destruct (py_float (K := K) U s) as [x|e'] eqn:E; [discriminate|].
  assert (ok e') by (apply (float_err _ _ E)). destruct e'; try (inversion H; subst; assumption).
  destruct (re_match _ s) as [c|]; [|inversion H; exact ok_value].
  step H; [apply (float_err _ _ H)|]. step H; [apply (sup_err _ _ H)|]. apply (ok_mul _ _ _ H).
Qed.
Lemma str_err : forall s e, str_to_number_with_uncert (K := K) U s = Err e -> ok e.
Proof.
  intros s e H. unfold str_to_number_with_uncert in H. cbv zeta in H. step H.
  - destruct (re_match _ _) as [c|]; [|discriminate]. step H; [apply (sup_err _ _ H)|]. step H; [apply (ten_err _ _ H)|discriminate].
  - destruct x as (factor & t). destruct (re_match _ t) as [c|]; [|apply (paren_err _ _ H)].
    step H; [apply (to_float_err _ _ H)|]. step H; [apply (times_err _ _ _ H)|].
    step H; [apply (to_float_err _ _ H)|]. step H; [apply (times_err _ _ _ H)|discriminate].
Qed.
Lemma fromstr_err : forall s tag e, ufloat_fromstr (K := K) U s tag = Err e -> ok e.
Proof.
  intros s tag e H. unfold ufloat_fromstr in H. step H; [apply (str_err _ _ H)|].
  unfold variable in H. cbn [rbind] in H. destruct (_ && _) in H; inversion H; exact ok_neg.
Qed.
End Errors.

Section Forms.
Context (K : FmtOps) (U : Unicode).
(** A refused standard deviation: a negative finite number. *)
Definition refused (s : fl K) : bool := x_sign K s && negb (x_iszero K s) && negb (x_isinf K s || x_isnan K s).

(** Every string gives a variable, with the tag given, or one of three exceptions. *)
Theorem string_errors : OnlyOverflow K -> forall s tag,
  (exists v u, ufloat_fromstr (K := K) U s tag = Ok (v, u, tag, 0%nat) /\ refused u = false) \/
  ufloat_fromstr (K := K) U s tag = Err EValue \/
  ufloat_fromstr (K := K) U s tag = Err EOverflow \/
  ufloat_fromstr (K := K) U s tag = Err ENegStd.
Proof.
  intros [M I D] s tag. destruct (ufloat_fromstr (K := K) U s tag) as [r|e] eqn:E.
  - left. unfold ufloat_fromstr in E. destruct (str_to_number_with_uncert U (strip U s)) as [(v & u)|]; [|discriminate].
    unfold variable in E. cbn [rbind fst snd] in E. exists v, u. unfold refused. unfold isinfinite in E.
    destruct (_ && negb (_ || _)); inversion E. split; reflexivity.
  - right. pose proof (fromstr_err K U (fun e => e = EValue \/ e = EOverflow \/ e = ENegStd)) as G.
    cbv beta in G. enough (e = EValue \/ e = EOverflow \/ e = ENegStd) as [->|[->| ->]] by auto.
    apply (fun a b c d f => G a b c d f s tag e E); auto; intros; right; left; eauto.
Qed.
Theorem string_errors_exact : NoOverflow K -> forall s tag,
  (exists v u, ufloat_fromstr (K := K) U s tag = Ok (v, u, tag, 0%nat) /\ refused u = false) \/
  ufloat_fromstr (K := K) U s tag = Err EValue \/
  ufloat_fromstr (K := K) U s tag = Err ENegStd.
Proof.
  intros [M I D] s tag. destruct (ufloat_fromstr (K := K) U s tag) as [r|e] eqn:E.
  - left. unfold ufloat_fromstr in E. destruct (str_to_number_with_uncert U (strip U s)) as [(v & u)|]; [|discriminate].
    unfold variable in E. cbn [rbind fst snd] in E. exists v, u. unfold refused. unfold isinfinite in E.
    destruct (_ && negb (_ || _)); inversion E. split; reflexivity.
  - right. pose proof (fromstr_err K U (fun e => e = EValue \/ e = ENegStd)) as G.
    cbv beta in G. enough (e = EValue \/ e = ENegStd) as [->| ->] by auto.
    apply (fun a b c d f => G a b c d f s tag e E); auto; intros; exfalso.
    + eapply M; eassumption.
    + eapply I; eassumption.
    + eapply D; eassumption.
Qed.


(** ** Forms of ufloat() *)
(** One deprecation warning more. *)
Definition warned (r : res (made (K := K))) : res (made (K := K)) :=
  match r with Ok m => Ok (fst m, S (snd m)) | Err e => Err e end.
Definition number_arg (a : arg (K := K)) : Prop := exists x, a = ANum x.
(** The tag: third argument if given, otherwise the second one. *)
Definition the_tag (second third : arg (K := K)) : arg (K := K) := match third with ANone => second | _ => third end.

Theorem new_form : forall v s tag,
  ufloat (K := K) U (ANum v) (ANum s) tag = if refused s then Err ENegStd else Ok (v, s, tag, 0%nat).
Proof. intros v s tag. unfold ufloat, variable, refused, isinfinite. simpl. destruct (_ && _); reflexivity. Qed.
Theorem tuple_form : forall a b l second third,
  ufloat (K := K) U (ATup (a :: b :: l)) second third = warned (ufloat (K := K) U a b (the_tag second third)).
Proof.
  intros a b l second third. cbn [ufloat]. unfold variable at 1. unfold the_tag, warned.
  destruct (ufloat (K := K) U a b _); reflexivity.
Qed.
Theorem short_tuple : forall l second third, (length l < 2)%nat -> ufloat (K := K) U (ATup l) second third = Err EIndex.
Proof. intros [|a [|b l]] second third H; simpl in H; try lia; reflexivity. Qed.
Theorem string_form : forall s second third, ~ number_arg second ->
  ufloat (K := K) U (AStr s) second third = warned (ufloat_fromstr (K := K) U s (the_tag second third)).
Proof.
  intros s second third H. cbn [ufloat]. unfold variable at 1. unfold the_tag, warned.
  destruct (py_float (K := K) U s) as [v|e] eqn:E; cbn [rbind].
  - destruct second; try (exfalso; apply H; eexists; reflexivity); destruct (ufloat_fromstr (K := K) U s _); reflexivity.
  - assert (e = EValue) as -> by (apply (float_err K U (fun e => e = EValue) eq_refl s e E)).
    destruct (ufloat_fromstr (K := K) U s _); reflexivity.
Qed.
Theorem other_form : forall second third, ufloat (K := K) U ANone second third = Err EAttr /\
  ufloat (K := K) U AObj second third = Err EAttr /\
  (forall v, ~ number_arg second -> ufloat (K := K) U (ANum v) second third = Err EAttr).
Proof.
  intros second third. repeat split. intros v H. destruct second; try reflexivity. exfalso. apply H. eexists. reflexivity.
Qed.
(** With a number as second argument, a string that is a number is the nominal value. *)
Theorem string_number : forall s v x third, py_float (K := K) U s = Ok v ->
  ufloat (K := K) U (AStr s) (ANum x) third = if refused x then Err ENegStd else Ok (v, x, third, 0%nat).
Proof.
  intros s v x third E. cbn [ufloat]. unfold variable at 1. rewrite E. simpl. unfold refused, isinfinite. destruct (_ && _); reflexivity.
Qed.
Theorem string_tag : forall s x third, (forall v, py_float (K := K) U s <> Ok v) ->
  ufloat (K := K) U (AStr s) (ANum x) third = warned (ufloat_fromstr (K := K) U s (the_tag (ANum x) third)).
Proof.
  intros s x third E. cbn [ufloat]. unfold variable at 1. destruct (py_float (K := K) U s) as [v|e] eqn:Ef; [destruct (E v eq_refl)|].
  assert (e = EValue) as -> by (apply (float_err K U (fun e => e = EValue) eq_refl s e Ef)). simpl.
  destruct (ufloat_fromstr (K := K) U s _); reflexivity.
Qed.
End Forms.
