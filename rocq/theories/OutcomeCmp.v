(** What can come out of a comparison in binary64. *)
From Coq Require Import ZArith List Bool Arith Lia.
From Flocq Require Import Core IEEE754.BinarySingleNaN.
From Verif Require Import Base NumF Heap HeapProofs Affine Ops UMath Machine Cov Copy Calls Unumpy UMatrix History CallProofs Fuel Ordered TermSpec Term TermF DepSpec Deps TwinSpec Twin OutcomeSpec Outcome.
Import ListNotations.

Section Cmp.
Variables (lm : Libm) (SQ : squares_not_negative lm).
Notation FN := (FOps lm).
Variables (st : state FN) (L : list (option (list varid))) (i j : nat) (vi vj : list varid) (x y : uf FN).
Hypotheses (R : reachable st) (H : history st L) (Li : nth_error L i = Some (Some vi)) (Lj : nth_error L j = Some (Some vj))
  (X : is_number st i x) (Y : is_number st j y).

Lemma eq_result : forall k, (exists h', eq_aff k x y (st_heap st) = (Err EFuel, h')) \/ (exists h', eq_aff k x y (st_heap st) = (Err EOverflow, h')) \/
  exists b h', eq_aff k x y (st_heap st) = (Ok b, h').
Proof.
  intros k. assert (D : exists d h', method_op Bsub x (VUF y) (st_heap st) = (Ok (VUF d), h') /\ uf_var d = None) by (eexists; eexists; split; reflexivity).
  destruct D as (d & h' & D & V). unfold eq_aff, bind. rewrite D. destruct (n_truth FN (uf_nom d)); [right; right; unfold ret; eauto|].
  set (st1 := mkState h' (st_env st ++ [VUF d])).
  assert (LL : length L = length (st_env st)) by (destruct (history_tracks _ _ H) as (Lm & _ & K); exact (proj1 K)).
  assert (Dn : is_number st1 (length (st_env st)) d) by (unfold is_number, st1; cbn [st_env]; rewrite nth_error_app2, Nat.sub_diag by apply le_n; reflexivity).
  assert (Dd : does st (IBin Bsub i j) st1 ONone).
  { exists 0%nat. intros f _. cbn [step get_args]. unfold is_number in X, Y. rewrite X, Y. unfold py_binop, bind. rewrite D. reflexivity. }
  assert (R1 : reachable st1) by (apply (reach_runs st [IBin Bsub i j] st1 [ONone] R); destruct Dd as (k0 & Dd); exists k0; intros f Hf; cbn [run]; rewrite (Dd f Hf); reflexivity).
  assert (H1 : history st1 (L ++ [Some (vi ++ vj ++ [])])).
  { eapply history_operator; [exact H|exact Dd|exact Dn|]. apply (operands_number st L i x); [exact X|exact Li|]. apply (operands_number st L j y); [exact Y|exact Lj|]. constructor. }
  assert (I1 : nth_error (L ++ [Some (vi ++ vj ++ [])]) (length (st_env st)) = Some (Some (vi ++ vj ++ []))) by (rewrite nth_error_app2, LL, Nat.sub_diag by lia; reflexivity).
  assert (A := affine_result lm SQ st1 _ _ _ d R1 H1 I1 Dn k). change (st_heap st1) with h' in A.
  unfold std_dev. rewrite V. destruct A as [(h2 & ->)|[(h2 & ->)|(s & h2 & -> & _)]]; [left; eauto|right; left; eauto|right; right; unfold ret; eauto].
Qed.
Lemma cmp_result : forall c k, (exists h', cmp_aff k c x y (st_heap st) = (Err EFuel, h')) \/ (exists h', cmp_aff k c x y (st_heap st) = (Err EOverflow, h')) \/
  exists b h', cmp_aff k c x y (st_heap st) = (Ok b, h').
Proof.
  intros c k. assert (E := eq_result k). destruct c; cbn [cmp_aff]; try exact E; try (right; right; unfold ret; eauto; fail).
  - unfold ne_aff, bind. destruct E as [(h2 & ->)|[(h2 & ->)|(s & h2 & ->)]]; [left; eauto|right; left; eauto|right; right; unfold ret; eauto].
  - unfold ge_aff. destruct (gt_aff x y); [right; right; unfold ret; eauto|exact E].
  - unfold le_aff. destruct (lt_aff x y); [right; right; unfold ret; eauto|exact E].
Qed.
Lemma comparison_outcome : forall c o, reads st (ICmp c i j) o -> o = OExn EOverflow \/ exists b, o = OBool b.
Proof.
  intros c o Q. assert (C := not_cut lm st (ICmp c i j) o R eq_refl Q). destruct Q as (st' & k & Q). specialize (Q k (le_n _)).
  cbn [step] in Q. unfold with_uf, with_val in Q. unfold is_number in X, Y. rewrite X, Y in Q. unfold observe, py_cmp, bind, method_cmp in Q. cbn [to_affine_scalar ret] in Q.
  unfold ret in Q. destruct (cmp_result c k) as [(h' & E)|[(h' & E)|(b & h' & E)]]; rewrite E in Q; cbn in Q; injection Q as _ <-; [congruence|now left|right; eauto].
Qed.
End Cmp.
Theorem comparison_or_overflow : forall lm, squares_not_negative lm -> forall (st : state (FOps lm)) L i j vi vj x y c, reachable st -> history st L ->
  nth_error L i = Some (Some vi) -> nth_error L j = Some (Some vj) -> is_number st i x -> is_number st j y ->
  exists o, reads st (ICmp c i j) o /\ (o = OExn EOverflow \/ exists b, o = OBool b).
Proof.
  intros lm SQ st L i j vi vj x y c R H Li Lj X Y. destruct (reads_end (binary64_ends lm) st (ICmp c i j) R eq_refl) as (st' & o & D & _). exists o.
  assert (Q : reads st (ICmp c i j) o) by (exists st'; exact D). split; [exact Q|]. exact (comparison_outcome lm SQ st L i j vi vj x y R H Li Lj X Y c o Q).
Qed.
