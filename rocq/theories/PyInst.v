(** The library of this repository satisfies what PyEval expects. *)
From Coq Require Import String.
From Coq Require Import ZArith List Bool Lia.
From Verif Require Import Base Str FmtOps Format Parse ErrThm Fixer FixerSpec FixerProofs PyEval PyThm PyLib.
Import ListNotations.
Local Open Scope string_scope.
Local Open Scope list_scope.

Section Inst.
Context (K : FmtOps) (U : Unicode).
Notation Lib := (Library (K := K) U).
Lemma alloc_warned : forall r s, alloc (warned K r) s = alloc (K := K) r s.
Proof. intros [[[[v u] t] n]|e] s; reflexivity. Qed.
Ltac call := cbn [Lib p_call p_tuple p_lit pv ps l_call bind_args assoc remove filter fst String.eqb Ascii.eqb Bool.eqb negb rbind default to_arg map].
Lemma lit_cases : forall v s x, l_lit (K := K) U v s = Ok x -> (exists t, x = VStr t) \/ exists y, x = VNum y.
Proof.
  intros [|c r] s x H; [discriminate|]. unfold l_lit in H. destruct (Ascii.eqb c quote).
  - destruct (unquoted r); [|discriminate]. injection H as <-. left. eauto.
  - destruct (py_float U _); [|discriminate]. injection H as <-. right. eauto.
Qed.
Lemma not_none : forall t, ~ number_arg K t -> forall v third, exists e, ufloat (K := K) U (ANum v) t third = Err e.
Proof. intros t H v third. destruct (other_form K U t third) as (_ & _ & O). rewrite (O v H). eauto. Qed.
Theorem the_library : library Lib VUfloat VFromstr is_array is_number.
Proof.
  assert (NN : ~ number_arg K ANone) by (intros (? & E); discriminate E).
  constructor.
  - intros s f H. injection H as <-. split; reflexivity.
  - intros o s f s' H. cbn [Lib p_attr l_attr] in *. destruct o; try discriminate H; cbn in H.
    + destruct (nth_error _ _) as [[[v u] t]|]; discriminate H.
    + destruct matrix; discriminate H.
    + injection H as <- <-. split; reflexivity.
  - intros n s f [-> | ->] H; injection H as <-; eexists; reflexivity.
  - intros n o s f s' Hn H. cbn [Lib p_attr] in H. destruct o; destruct Hn as [-> | ->]; try discriminate H; cbn in H.
    + destruct (nth_error _ _) as [[[v u] t]|]; discriminate H.
    + destruct (nth_error _ _) as [[[v u] t]|]; discriminate H.
    + destruct matrix; discriminate H.
    + destruct matrix; discriminate H.
    + injection H as <- <-. eexists; reflexivity.
    + injection H as <- <-. eexists; reflexivity.
  - intros a b s r. call. rewrite tuple_form. rewrite alloc_warned. exact (fun H => H).
  - intros a b t s r. call. rewrite tuple_form. rewrite alloc_warned. exact (fun H => H).
  - intros a b t s r. call. rewrite tuple_form. rewrite alloc_warned. unfold the_tag. destruct (to_arg t); exact (fun H => H).
  - intros v s0 x Hx s r. destruct (lit_cases _ _ _ Hx) as [(t & ->)|(y & ->)]; call.
    + rewrite (string_form K U t ANone ANone NN), alloc_warned. exact (fun H => H).
    + destruct (not_none _ NN y ANone) as (e & ->). discriminate.
  - intros v s0 x t Hx Ht s r. assert (Nt : ~ number_arg K (to_arg t)) by exact Ht.
    destruct (lit_cases _ _ _ Hx) as [(q & ->)|(y & ->)]; call.
    + rewrite (string_form K U q _ ANone Nt), alloc_warned. exact (fun H => H).
    + destruct (not_none _ Nt y ANone) as (e & ->). discriminate.
  - intros v s0 x t Hx s r. destruct (lit_cases _ _ _ Hx) as [(q & ->)|(y & ->)]; call.
    + rewrite (string_form K U q ANone _ NN), alloc_warned. unfold the_tag. destruct (to_arg t); exact (fun H => H).
    + destruct (not_none _ NN y (to_arg t)) as (e & ->). discriminate.
  - intros f t s r (m & ->) H. cbn [Lib p_call p_iter] in *. revert H. call. unfold uarray, cbind at 1 2.
    destruct (l_iter t s) as [[l s']|] eqn:E; [|discriminate]. intros H. exists l, s'. split; [reflexivity|].
    destruct l as [|n [|u [|? ?]]]; try discriminate H. call. unfold uarray, cbind at 1 2 3. cbn [cret] in *. destruct u; exact H || (cbn in H; destruct n; discriminate H).
  - intros l s. reflexivity.
  - intros n o s v s' r Hn H1 H2. cbn [Lib p_attr p_call] in *. unfold l_attr in H1.
    destruct o; destruct Hn as [-> | ->]; try discriminate H1; cbn [String.eqb Ascii.eqb Bool.eqb] in H1.
    + destruct (nth_error _ _) as [[[a u] t]|]; [|discriminate H1]. injection H1 as <- <-. injection H2 as <-. reflexivity.
    + destruct (nth_error _ _) as [[[a u] t]|]; discriminate H1.
    + destruct matrix; discriminate H1.
    + destruct matrix; [|discriminate H1]. injection H1 as <- <-. injection H2 as <-. reflexivity.
  - intros o s m s' H. cbn [Lib p_attr p_call p_setattr] in *. unfold l_attr in H. destruct o; try discriminate H; cbn [String.eqb Ascii.eqb Bool.eqb] in H.
    + destruct (nth_error _ _) as [[[a u] t]|]; [|discriminate H]. injection H as <- <-. split; [reflexivity|].
      intros v s1 x s2 Q. cbn in Q. unfold cbind in Q. unfold l_setattr. cbn [String.eqb Ascii.eqb Bool.eqb].
      destruct (set_std_dev i v s1) as [[[] s3]|]; [|discriminate Q]. injection Q as _ <-. reflexivity.
    + destruct matrix; discriminate H.
  - intros ms ms' _. split; intros; intros s r H; exact H.
  - intros ty ms ms' _. split; intros; intros s r H; exact H.
Qed.
Lemma library_same0 : forall t t', everywhere treated t -> everywhere (careful Lib is_number) t -> sets_in_statements t ->
  refactor t = Some t' -> forall s s', execute Lib t s = Ok s' -> execute Lib t' s = Ok s'.
Proof. exact (updated_same _ _ _ _ _ the_library). Qed.
End Inst.

Theorem updater_same : forall (P : python) uf fromstr array number, library P uf fromstr array number ->
  forall t t', everywhere treated t -> everywhere (careful P number) t -> sets_in_statements t -> refactor t = Some t' ->
  forall s s', execute P t s = Ok s' -> execute P t' s = Ok s'.
Proof.
  intros P uf fromstr array number L. exact (updated_same P uf fromstr array number L).
Qed.
Theorem library_same : forall (K : FmtOps) (U : Unicode) t t', everywhere treated t ->
  everywhere (careful (Library (K := K) U) is_number) t -> sets_in_statements t -> refactor t = Some t' ->
  forall s s', execute (Library (K := K) U) t s = Ok s' -> execute (Library (K := K) U) t' s = Ok s'.
Proof.
  exact library_same0.
Qed.
Theorem is_library : forall (K : FmtOps) (U : Unicode), library (Library (K := K) U) VUfloat VFromstr is_array is_number.
Proof.
  exact the_library.
Qed.
