(** What the functions of the library do to the state of a program. *)
From Coq Require Import String.
From Coq Require Import ZArith List Bool Lia.
From Verif Require Import Base Str FmtOps Format Parse ErrThm Fixer FixerSpec FixerProofs PyEval PyThm PyLib PyInst.
Import ListNotations.
Local Open Scope string_scope.
Local Open Scope list_scope.

Definition below0 (K : FmtOps) (u : fl K) : bool := x_sign K u && negb (x_iszero K u) && negb (isinfinite u).

Section Eff.
Context (K : FmtOps) (U : Unicode).
Notation Lib := (Library (K := K) U).
Lemma elements_numbers : forall (ns us : list (fl K)) (s : state (K := K)), length ns = length us -> Forall (fun u => below0 K u = false) us ->
  elements_of U (map VNum ns) (map VNum us) s =
    Ok (seq (length (vars s)) (length ns), mkState (vars s ++ map (fun p => (fst p, snd p, ANone)) (List.combine ns us)) (names s) (items s)).
Proof.
  induction ns as [|n ns IH]; intros [|u us] s H F; try discriminate H.
  - destruct s. cbn. unfold cret. rewrite app_nil_r. reflexivity.
  - inversion F as [|? ? F1 F2]; subst. cbn [map elements_of to_arg]. unfold variable, below0 in *. cbn [rbind]. rewrite F1. unfold cbind at 1, alloc.
    unfold cbind. rewrite IH by (auto; cbn in H; lia). cbn [vars names items]. unfold cret. rewrite app_length. cbn [length List.combine map seq fst snd].
    rewrite Nat.add_1_r, <- app_assoc. reflexivity.
Qed.
Lemma set_nth_same : forall A i (a : A) l, (i < length l)%nat -> nth_error (set_nth i a l) i = Some a.
Proof.
  intros A i a l H. unfold set_nth. rewrite nth_error_app2; rewrite firstn_length_le by lia; [|lia]. rewrite Nat.sub_diag. reflexivity.
Qed.
Lemma set_nth_other : forall A i j (a : A) l, (i < length l)%nat -> j <> i -> nth_error (set_nth i a l) j = nth_error l j.
Proof.
  intros A i. induction i as [|i IH]; intros j a [|b l] H N; cbn [length] in H; try lia.
  - destruct j as [|j]; [lia|]. reflexivity.
  - change (set_nth (S i) a (b :: l)) with (b :: set_nth i a l). destruct j as [|j]; [reflexivity|]. cbn [nth_error]. apply IH; lia.
Qed.
Lemma set_nth_length : forall A i (a : A) l, (i < length l)%nat -> length (set_nth i a l) = length l.
Proof. intros A i a l H. unfold set_nth. rewrite app_length. cbn [length]. rewrite firstn_length_le, skipn_length by lia. lia. Qed.
Lemma effects0 : forall s : state (K := K),
  (forall v u t, p_call Lib VUfloat [VNum v; VNum u; VStr t] [] s =
     if below0 K u then Err ENegStd else Ok (VVar (length (vars s)), mkState (vars s ++ [(v, u, AStr t)]) (names s) (items s))) /\
  (forall m ns us, length ns = length us -> Forall (fun u => below0 K u = false) us ->
     p_call Lib (VUarray m) [VTup (map VNum ns); VTup (map VNum us)] [] s =
       Ok (VArray m (seq (length (vars s)) (length ns)), mkState (vars s ++ map (fun p => (fst p, snd p, ANone)) (List.combine ns us)) (names s) (items s))) /\
  (forall i v u0 t u, nth_error (vars s) i = Some (v, u0, t) ->
     if below0 K u then p_setattr Lib (VVar i) "std_dev" (VNum u) s = Err ENegStd
     else exists s', p_setattr Lib (VVar i) "std_dev" (VNum u) s = Ok (tt, s') /\ names s' = names s /\ items s' = items s /\
       length (vars s') = length (vars s) /\ nth_error (vars s') i = Some (v, u, t) /\ forall j, j <> i -> nth_error (vars s') j = nth_error (vars s) j) /\
  (forall i v u t, nth_error (vars s) i = Some (v, u, t) ->
     p_attr Lib (VVar i) "nominal_value" s = Ok (VNum v, s) /\ p_attr Lib (VVar i) "std_dev" s = Ok (VStdDev u, s)) /\
  (forall l, Forall (fun i => (i < length (vars s))%nat) l -> exists us, p_attr Lib (VArray true l) "std_devs" s = Ok (VStdDevs us, s) /\
     Forall2 (fun i u => exists v t, nth_error (vars s) i = Some (v, u, t)) l us).
Proof.
  intros s. split; [|split; [|split; [|split]]].
  - intros v u t. cbn [Library p_call l_call bind_args assoc remove filter String.eqb rbind default to_arg]. unfold ufloat. cbn [rbind]. unfold variable, below0. cbn [rbind].
    destruct (_ && _ && _); reflexivity.
  - intros m ns us H F. cbn [Library p_call l_call bind_args assoc remove filter String.eqb rbind default to_arg]. unfold uarray, cbind at 1. cbn [cret].
    unfold cret. unfold cbind. rewrite elements_numbers by assumption. reflexivity.
  - intros i v u0 t u H. cbn [Library p_setattr l_setattr]. change (String.eqb "std_dev" "std_dev") with true. cbv iota. unfold set_std_dev, below0. rewrite H. cbn [to_arg].
    assert (L : (i < length (vars s))%nat) by (apply nth_error_Some; congruence).
    destruct (_ && _ && _); [reflexivity|]. eexists. split; [reflexivity|]. cbn [vars names items]. split; [reflexivity|]. split; [reflexivity|].
    split; [now apply set_nth_length|]. split; [now apply set_nth_same|]. intros j N. now apply set_nth_other.
  - intros i v u t H. cbn [Library p_attr l_attr]. rewrite H. split; reflexivity.
  - intros l F. cbn [Library p_attr l_attr]. eexists. split; [reflexivity|]. induction F as [|i l Hi F IH]; [constructor|]. cbn [flat_map].
    destruct (nth_error (vars s) i) as [[[v u] t]|] eqn:E; [|apply nth_error_None in E; lia]. cbn [app]. constructor; [eauto|exact IH].
Qed.

(** ** Arguments of calls *)
(** No more positional arguments than parameters; keyword arguments are among the other parameters. *)
Definition fits (params : list string) (pos : list (value (K := K))) (kw : list (string * value (K := K))) : Prop :=
  (length pos <= length params)%nat /\ forall n, In n (map fst kw) -> In n (skipn (length pos) params).
Lemma in_remove : forall A n m (l : list (string * A)), In m (map fst (remove n l)) <-> In m (map fst l) /\ m <> n.
Proof.
  intros A n m l. unfold remove. induction l as [|[a b] l IH]; cbn [filter map fst In]; [tauto|].
  destruct (String.eqb_spec n a) as [<-|N]; cbn [negb map fst In].
  - rewrite IH. split; [tauto|]. intros [[<-|H] X]; [now destruct X|tauto].
  - rewrite IH. split; [intros [<-|H]; [split; auto|tauto]|tauto].
Qed.
Lemma bind_outcome : forall params pos kw, (exists l, bind_args (K := K) params pos kw = Ok l) \/ bind_args (K := K) params pos kw = Err EType.
Proof.
  induction params as [|n params IH]; intros pos kw; cbn [bind_args].
  - destruct pos, kw; eauto.
  - destruct pos as [|v pos].
    + destruct (IH [] (remove n kw)) as [[l ->]| ->]; cbn [rbind]; eauto.
    + destruct (assoc n kw); [auto|]. destruct (IH pos kw) as [[l ->]| ->]; cbn [rbind]; eauto.
Qed.
Lemma bind_fits : forall params pos kw l, bind_args (K := K) params pos kw = Ok l -> fits params pos kw.
Proof.
  induction params as [|n params IH]; intros pos kw l; cbn [bind_args].
  - destruct pos, kw; try discriminate. intros _. split; [cbn; lia|]. intros n [].
  - destruct pos as [|v pos].
    + destruct (bind_args params [] (remove n kw)) as [r|] eqn:E; [|discriminate]. intros _. destruct (IH _ _ _ E) as (A & B). split; [cbn; lia|].
      intros m Hm. cbn [length skipn] in *. destruct (String.eqb_spec n m) as [<-|X]; [now left|]. right. apply B, in_remove. auto.
    + destruct (assoc n kw) eqn:N; [discriminate|]. destruct (bind_args params pos kw) as [r|] eqn:E; [|discriminate]. intros _.
      destruct (IH _ _ _ E) as (A & B). split; [cbn; lia|]. exact B.
Qed.
Theorem arguments0 : forall (s : state (K := K)) pos kw,
  (~ fits ["nominal_value"; "std_dev"; "tag"] pos kw -> p_call Lib VUfloat pos kw s = Err EType) /\
  (~ fits ["representation"; "tag"] pos kw -> p_call Lib VFromstr pos kw s = Err EType) /\
  (forall m, ~ fits ["nominal_values"; "std_devs"] pos kw -> p_call Lib (VUarray m) pos kw s = Err EType) /\
  (forall x, ~ fits [] pos kw -> p_call Lib (VStdDev x) pos kw s = Err EType) /\
  (forall l, ~ fits [] pos kw -> p_call Lib (VStdDevs l) pos kw s = Err EType).
Proof.
  intros s pos kw.
  assert (X : forall params, ~ fits params pos kw -> bind_args (K := K) params pos kw = Err EType).
  { intros params N. destruct (bind_outcome params pos kw) as [[l E]|E]; [|exact E]. now apply bind_fits in E. }
  repeat split; intros; cbn [Library p_call l_call]; rewrite X by assumption; reflexivity.
Qed.
End Eff.
Theorem library_effects : forall (K : FmtOps) (U : Unicode) (s : state (K := K)), let Lib := Library (K := K) U in
  (forall v u t, p_call Lib VUfloat [VNum v; VNum u; VStr t] [] s =
     if below0 K u then Err ENegStd else Ok (VVar (length (vars s)), mkState (vars s ++ [(v, u, AStr t)]) (names s) (items s))) /\
  (forall m ns us, length ns = length us -> Forall (fun u => below0 K u = false) us ->
     p_call Lib (VUarray m) [VTup (map VNum ns); VTup (map VNum us)] [] s =
       Ok (VArray m (seq (length (vars s)) (length ns)), mkState (vars s ++ map (fun p => (fst p, snd p, ANone)) (List.combine ns us)) (names s) (items s))) /\
  (forall i v u0 t u, nth_error (vars s) i = Some (v, u0, t) ->
     if below0 K u then p_setattr Lib (VVar i) "std_dev" (VNum u) s = Err ENegStd
     else exists s', p_setattr Lib (VVar i) "std_dev" (VNum u) s = Ok (tt, s') /\ names s' = names s /\ items s' = items s /\
       length (vars s') = length (vars s) /\ nth_error (vars s') i = Some (v, u, t) /\ forall j, j <> i -> nth_error (vars s') j = nth_error (vars s) j) /\
  (forall i v u t, nth_error (vars s) i = Some (v, u, t) ->
     p_attr Lib (VVar i) "nominal_value" s = Ok (VNum v, s) /\ p_attr Lib (VVar i) "std_dev" s = Ok (VStdDev u, s)) /\
  (forall l, Forall (fun i => (i < length (vars s))%nat) l -> exists us, p_attr Lib (VArray true l) "std_devs" s = Ok (VStdDevs us, s) /\
     Forall2 (fun i u => exists v t, nth_error (vars s) i = Some (v, u, t)) l us).
Proof.
  exact effects0.
Qed.
Theorem library_arguments : forall (K : FmtOps) (U : Unicode) (s : state (K := K)) pos kw, let Lib := Library (K := K) U in
  (~ fits K ["nominal_value"; "std_dev"; "tag"] pos kw -> p_call Lib VUfloat pos kw s = Err EType) /\
  (~ fits K ["representation"; "tag"] pos kw -> p_call Lib VFromstr pos kw s = Err EType) /\
  (forall m, ~ fits K ["nominal_values"; "std_devs"] pos kw -> p_call Lib (VUarray m) pos kw s = Err EType) /\
  (forall x, ~ fits K [] pos kw -> p_call Lib (VStdDev x) pos kw s = Err EType) /\
  (forall l, ~ fits K [] pos kw -> p_call Lib (VStdDevs l) pos kw s = Err EType).
Proof.
  exact arguments0.
Qed.
(** ufloat(None, nominal_value=None) *)
Lemma ex_arguments : forall K : FmtOps, ~ fits K ["nominal_value"; "std_dev"; "tag"] [VNone] [("nominal_value", VNone)] /\
  fits K ["nominal_value"; "std_dev"; "tag"] [VNone] [("tag", VNone); ("std_dev", VNone)].
Proof.
  intros K. split.
  - intros [_ H]. specialize (H "nominal_value" (or_introl eq_refl)). cbn in H. intuition discriminate.
  - split; [cbn; lia|]. cbn. intuition.
Qed.
