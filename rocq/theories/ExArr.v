(** Concrete instances for the theorems about arrays and matrices. *)
From Coq Require Import String.
From Coq Require Import ZArith List Bool Reals Lra Lia Arith Permutation.
From Coquelicot Require Import Coquelicot.
From Verif Require Import Base Heap Affine Ops UMath NumR HeapSpec Machine History HistoryProofs CovSpec Unumpy UnumpySpec
  MatrixSpec MxProofs InvThm WArrThm ArrProofs UarrProofs VecProofs Examples ExPrim.
Import ListNotations.
Local Open Scope R_scope.

Section ExArr.
Context {g lg : R -> R}.
Notation RN := (ROps g lg).
Local Notation length := List.length.

(** ** uarray([[1], [2]], [3, 4, 5]) *)
Definition n21 : arr (pynum RN) := mkArr ANd [2; 1]%nat [PZ 1; PF (N:=RN) 2].
Definition s3 : arr (pynum RN) := mkArr ANd [3]%nat [PF (N:=RN) 3; PZ 4; PF (N:=RN) 5].
Lemma ex_C48 : wf_arr n21 /\ wf_arr s3 /\ broadcasts (a_shape n21) (a_shape s3) [2; 3]%nat /\
  (forall idx p q, valid [2; 3]%nat idx -> pair_at n21 s3 idx p q ->
     (exists x, pn_float p = Ok x) /\ (exists y, check_std q = Ok y)) /\
  pair_at n21 s3 [1; 2]%nat (PF (N:=RN) 2) (PF (N:=RN) 5) /\
  exists a h', uarray (UArr n21) (Some (UArr s3)) (st_heap (init (N:=RN))) = (Ok a, h') /\
    a_shape a = [2; 3]%nat /\ length (a_flat a) = 6%nat.
Proof.
  assert (Bs : broadcasts [2; 1]%nat [3]%nat [2; 3]%nat).
  { split; [reflexivity|]. intros [|[|k]]; cbn; split; auto. destruct k; reflexivity. }
  assert (Hq : forall idx p q, valid [2; 3]%nat idx -> pair_at n21 s3 idx p q ->
     (exists x, pn_float p = Ok x) /\ (exists y, check_std q = Ok y)).
  { intros idx p q _ [_ E]. split; [destruct p; cbn; eauto|].
    unfold elem in E. cbn [s3 a_flat a_shape] in E. destruct (rank _ _) as [|[|[|k]]]; cbn in E; try discriminate.
    - injection E; intros <-. exists 3. unfold check_std. cbn. unfold Rltb. destruct (Rlt_dec 3 0); [lra|reflexivity].
    - injection E; intros <-. exists 4. unfold check_std. cbn. unfold Rltb. destruct (Rlt_dec 4 0); [lra|reflexivity].
    - injection E; intros <-. exists 5. unfold check_std. cbn. unfold Rltb. destruct (Rlt_dec 5 0); [lra|reflexivity].
    - destruct k; discriminate. }
  split; [reflexivity|]. split; [reflexivity|]. split; auto. split; auto. split; [split; reflexivity|].
  destruct (uarray_spec n21 s3 [2; 3]%nat (st_heap (init (N:=RN))) eq_refl eq_refl Bs Hq) as (a & h' & E & W & Es & _).
  exists a, h'. split; auto. split; auto. unfold wf_arr in W. rewrite Es in W. exact W.
Qed.

(** ** uarray([[1, 2], [3, 4]]) is uarray([1, 2], [3, 4]); so is umatrix(), in two dimensions *)
Definition n22 : arr (pynum RN) := mkArr ANd [2; 2]%nat [PZ 1; PF (N:=RN) 2; PF (N:=RN) 3; PZ 4].
Definition n2 : arr (pynum RN) := mkArr ANd [2]%nat [PZ 1; PF (N:=RN) 2].
Definition s2 : arr (pynum RN) := mkArr ANd [2]%nat [PF (N:=RN) 3; PZ 4].
Lemma ex_C48_pair : wf_arr n22 /\ wf_arr n2 /\ wf_arr s2 /\ a_shape n22 = 2%nat :: a_shape n2 /\
  (forall idx, valid [2]%nat idx -> elem n2 idx = elem n22 (0%nat :: idx) /\ elem s2 idx = elem n22 (1%nat :: idx)) /\
  exists m h', umatrix (UArr n2) (Some (UArr s2)) (st_heap (init (N:=RN))) = (Ok m, h') /\ a_shape m = [1; 2]%nat.
Proof.
  split; [reflexivity|]. split; [reflexivity|]. split; [reflexivity|]. split; [reflexivity|]. split.
  - intros idx V. inversion V as [|i n idx' sh' Hi V']; subst. inversion V'; subst. destruct i as [|[|i]]; [split; reflexivity..|lia].
  - assert (Bs : broadcasts [2]%nat [2]%nat [2]%nat) by (split; [reflexivity|]; intros [|[|k]]; cbn; split; auto).
    destruct (uarray_spec n2 s2 [2]%nat (st_heap (init (N:=RN))) eq_refl eq_refl Bs) as (a & h' & E & W & Es & _).
    { intros idx p q _ [_ E]. split; [destruct p; cbn; eauto|].
      unfold elem in E. cbn [s2 a_flat a_shape] in E. destruct (rank _ _) as [|[|k]]; cbn in E; try discriminate.
      - injection E; intros <-. exists 3. unfold check_std. cbn. unfold Rltb. destruct (Rlt_dec 3 0); [lra|reflexivity].
      - injection E; intros <-. exists 4. unfold check_std. cbn. unfold Rltb. destruct (Rlt_dec 4 0); [lra|reflexivity].
      - destruct k; discriminate. }
    destruct (umatrix_returns n2 s2 _ a h' E) as (m & Em); [rewrite Es; cbn; lia|]. exists m, h'. split; [exact Em|].
    destruct (umatrix_spec n2 s2 _ m h' Em) as (a' & Ea' & _ & Hm). rewrite E in Ea'. injection Ea' as <-.
    destruct Hm as [(k & l & X & _)|[(l & X & Y & _)|(X & _)]]; rewrite Es in X; [discriminate X| |discriminate X].
    injection X as <-. exact Y.
Qed.

(** ** Inverse of [[x, y], [y, x]], x = 1 +/- 3, y = 2 +/- 4 *)
Definition M2 (a b c d : R) : mx := fun i j =>
  match i, j with O, O => a | O, _ => b | _, O => c | _, _ => d end.
(** numpy.linalg.inv for 2 x 2 matrices. *)
Definition linv2 (a : arr R) : res (arr R) :=
  match a_shape a, a_flat a with
  | [2; 2]%nat, [p; q; r; s] =>
      let det := p * s - q * r in
      if Req_EM_T det 0 then Err EValue
      else Ok (mkArr (a_cls a) [2; 2]%nat [s / det; - q / det; - r / det; p / det])
  | _, _ => Err EValue
  end.
Lemma two : forall i, (i < 2)%nat -> i = 0%nat \/ i = 1%nat.
Proof. intros; lia. Qed.
Ltac two i H := let K := fresh in pose proof (two i H) as K; clear H; destruct K as [-> | ->].
Lemma entries2 : forall a A, entries a 2 2 A -> a_shape a = [2; 2]%nat /\ a_flat a = [A 0 0; A 0 1; A 1 0; A 1 1]%nat.
Proof.
  intros [c sh fl] A (E & W & H). cbn in E. subst sh. unfold wf_arr in W. cbn in W.
  destruct fl as [|p [|q [|r [|s [|]]]]]; try discriminate. split; auto. cbn.
  pose proof (H 0 0 ltac:(lia) ltac:(lia))%nat as H1. pose proof (H 0 1 ltac:(lia) ltac:(lia))%nat as H2.
  pose proof (H 1 0 ltac:(lia) ltac:(lia))%nat as H3. pose proof (H 1 1 ltac:(lia) ltac:(lia))%nat as H4.
  cbn in *. congruence.
Qed.
Lemma M2_entries : forall c a b d e, entries (mkArr c [2; 2]%nat [a; b; d; e]) 2 2 (M2 a b d e).
Proof.
  intros. split; [reflexivity|]. split; [reflexivity|]. intros i j Hi Hj. two i Hi; two j Hj; reflexivity.
Qed.
Lemma M2_inverse : forall A, A 0%nat 0%nat * A 1%nat 1%nat - A 0%nat 1%nat * A 1%nat 0%nat <> 0 ->
  let det := A 0%nat 0%nat * A 1%nat 1%nat - A 0%nat 1%nat * A 1%nat 0%nat in
  is_inverse 2 A (M2 (A 1%nat 1%nat / det) (- A 0%nat 1%nat / det) (- A 1%nat 0%nat / det) (A 0%nat 0%nat / det)).
Proof.
  intros A H det. split; intros i j Hi Hj; two i Hi; two j Hj; unfold mprod, Sum, kron, det; cbn; field; exact H.
Qed.
Lemma linv2_inverts : forall A, inverts linv2 2 A.
Proof.
  intros A a b Ha E. destruct (entries2 a A Ha) as [Es Ef]. unfold linv2 in E. rewrite Es, Ef in E.
  destruct (Req_EM_T _ 0) as [|D]; [discriminate|]. injection E; intros <-. eexists. split; [apply M2_entries|].
  now apply M2_inverse.
Qed.
Definition ia2 : arr nat := mkArr ANd [2; 2]%nat [0; 1; 1; 0]%nat.
Definition A2 : mx := M2 1 2 2 1.
Lemma ia2_nominal : nominal_matrix (g:=g) (lg:=lg) xy_st ia2 2 2 A2.
Proof.
  split; [reflexivity|]. intros i j Hi Hj.
  two i Hi; two j Hj; eexists _, (PF (N:=RN) _); (split; [reflexivity|split; [eexists; split; reflexivity|reflexivity]]).
Qed.
Lemma ia2_deriv : deriv_matrix (g:=g) (lg:=lg) xy_st ia2 2 2 0%nat (M2 1 0 0 1).
Proof.
  destruct (xy_dx (g:=g) (lg:=lg)) as [D0 D1]. split; [reflexivity|]. intros i j Hi Hj.
  two i Hi; two j Hj; eexists; (split; [reflexivity|]); assumption.
Qed.
(** A line through the nominal matrix, in the direction of its derivative, and the inverse. *)
Definition F2 (i j : nat) (t : R) : R := M2 (1 + t) 2 2 (1 + t) i j.
Definition G2 (i j : nat) (t : R) : R :=
  let det := (1 + t) * (1 + t) - 2 * 2 in M2 ((1 + t) / det) (- 2 / det) (- 2 / det) ((1 + t) / det) i j.
Lemma ex_C49 : reachable (xy_st (g:=g) (lg:=lg)) /\ inverts linv2 2 A2 /\ nominal_matrix (g:=g) (lg:=lg) xy_st ia2 2 2 A2 /\
  deriv_matrix (g:=g) (lg:=lg) xy_st ia2 2 2 0%nat (M2 1 0 0 1) /\
  (forall i j, (i < 2)%nat -> (j < 2)%nat -> F2 i j 0 = A2 i j /\ is_derive (F2 i j) 0 (M2 1 0 0 1 i j)) /\
  locally 0 (fun s => is_inverse 2 (fun i j => F2 i j s) (fun i j => G2 i j s)) /\
  exists ir st', array_call (inv (N:=RN) linv2 (fun l => l)) xy_st ia2 (Ok ir) st' /\
    nominal_matrix st' ir 2 2 (M2 (-1/3) (2/3) (2/3) (-1/3)) /\
    deriv_matrix st' ir 2 2 0%nat (M2 (-5/9) (4/9) (4/9) (-5/9)).
Proof.
  split; [exact xy_reach|]. split; [apply linv2_inverts|]. split; [exact ia2_nominal|]. split; [exact ia2_deriv|].
  split.
  { intros i j Hi Hj. split; [two i Hi; two j Hj; unfold F2, A2, M2; lra|].
    two i Hi; two j Hj; unfold F2, M2; auto_derive; auto; ring. }
  split.
  { exists (mkposreal (1/2) ltac:(lra)). intros t Ht. unfold ball in Ht. cbn in Ht. unfold AbsRing_ball, abs, minus, plus, opp in Ht. cbn in Ht.
    apply Rabs_def2 in Ht.
    assert (D : (1 + t) * (1 + t) - 2 * 2 <> 0) by nra.
    apply (M2_inverse (fun i j => F2 i j t)). exact D. }
  destruct (inv_succeeds (g:=g) (lg:=lg) linv2 (fun l => l) xy_st ia2 2 A2 xy_reach (fun l => Permutation_refl l)
    (linv2_inverts A2) eq_refl ia2_nominal) as (ir & st' & C).
  { intros a Ha. destruct (entries2 a A2 Ha) as [Es Ef]. unfold linv2. rewrite Es, Ef.
    destruct (Req_EM_T _ 0) as [D|D]; [|eauto]. exfalso. unfold A2, M2 in D. lra. }
  exists ir, st'. split; auto.
  destruct (inv_result linv2 (fun l => l) xy_st st' ia2 ir 2 A2 xy_reach (fun l => Permutation_refl l) (linv2_inverts A2) ia2_nominal C)
    as (B & NB & IB & Hv).
  assert (QB : meq 2 2 B (M2 (-1/3) (2/3) (2/3) (-1/3))).
  { apply (is_inverse_unique 2 A2); auto.
    split; intros i j Hi Hj; two i Hi; two j Hj; unfold mprod, Sum, kron; cbn; lra. }
  split; [eapply nominal_matrix_meq; eauto|].
  destruct (Hv 0%nat) as (D & HD & HR & _). pose proof (deriv_matrix_unique _ _ _ _ _ _ _ HD ia2_deriv) as QD.
  eapply deriv_matrix_meq; [exact HR|]. intros i j Hi Hj.
  rewrite (mprod_meq 2 2 2 _ _ _ _ (mprod_meq 2 2 2 _ _ _ _ QB QD) QB i j Hi Hj).
  two i Hi; two j Hj; unfold mprod, Sum; cbn; lra.
Qed.

(** ** Pseudo-inverse of the column [[x], [y]] *)
Definition C2 (a b : R) : mx := fun i _ => match i with O => a | _ => b end.
Definition R2 (a b : R) : mx := fun _ j => match j with O => a | _ => b end.
(** numpy.linalg.pinv for columns of two elements. *)
Definition lpinv2 (a : arr R) : res (arr R) :=
  match a_shape a, a_flat a with
  | [2; 1]%nat, [p; q] =>
      let s := p * p + q * q in
      if Req_EM_T s 0 then Ok (mkArr (a_cls a) [1; 2]%nat [0; 0])
      else Ok (mkArr (a_cls a) [1; 2]%nat [p / s; q / s])
  | _, _ => Err EValue
  end.
Lemma entries_col : forall a A, entries a 2 1 A -> a_shape a = [2; 1]%nat /\ a_flat a = [A 0 0; A 1 0]%nat.
Proof.
  intros [c sh fl] A (E & W & H). cbn in E. subst sh. unfold wf_arr in W. cbn in W.
  destruct fl as [|p [|q [|]]]; try discriminate. split; auto. cbn.
  pose proof (H 0 0 ltac:(lia) ltac:(lia))%nat as H1. pose proof (H 1 0 ltac:(lia) ltac:(lia))%nat as H2.
  cbn in *. congruence.
Qed.
Lemma R2_entries : forall c a b, entries (mkArr c [1; 2]%nat [a; b]) 1 2 (R2 a b).
Proof.
  intros. split; [reflexivity|]. split; [reflexivity|]. intros i j Hi Hj. assert (i = 0%nat) as -> by lia. two j Hj; reflexivity.
Qed.
Lemma col_pinv : forall A, let s := A 0%nat 0%nat * A 0%nat 0%nat + A 1%nat 0%nat * A 1%nat 0%nat in s <> 0 ->
  is_pinv 2 1 A (R2 (A 0%nat 0%nat / s) (A 1%nat 0%nat / s)).
Proof.
  intros A s H. split; [|split; [|split]]; intros i j Hi Hj;
    repeat match goal with H : (?x < 1)%nat |- _ => assert (x = 0%nat) by lia; subst x; clear H
                         | H : (?x < 2)%nat |- _ => two x H end;
    unfold mtr, mprod, Sum; cbn; unfold s in *; field; exact H.
Qed.
Lemma lpinv2_exact : forall A, pseudo_inverts lpinv2 2 1 A.
Proof.
  intros A a b Ha E. destruct (entries_col a A Ha) as [Es Ef]. unfold lpinv2 in E. rewrite Es, Ef in E.
  destruct (Req_EM_T _ 0) as [D|D].
  - injection E; intros <-. eexists. split; [apply R2_entries|].
    assert (A 0%nat 0%nat = 0 /\ A 1%nat 0%nat = 0) as [Z0 Z1] by nra.
    split; [|split; [|split]]; intros i j Hi Hj;
    repeat match goal with H : (?x < 1)%nat |- _ => assert (x = 0%nat) by lia; subst x; clear H
                         | H : (?x < 2)%nat |- _ => two x H end;
    unfold mtr, mprod, Sum; cbn; rewrite ?Z0, ?Z1; ring.
  - injection E; intros <-. eexists. split; [apply R2_entries|]. now apply col_pinv.
Qed.
Definition ic2 : arr nat := mkArr ANd [2; 1]%nat [0; 1]%nat.
Lemma ic2_nominal : nominal_matrix (g:=g) (lg:=lg) xy_st ic2 2 1 (C2 1 2).
Proof.
  split; [reflexivity|]. intros i j Hi Hj. assert (j = 0%nat) as -> by lia.
  two i Hi; eexists _, (PF (N:=RN) _); (split; [reflexivity|split; [eexists; split; reflexivity|reflexivity]]).
Qed.
Lemma ic2_deriv : deriv_matrix (g:=g) (lg:=lg) xy_st ic2 2 1 0%nat (C2 1 0).
Proof.
  destruct (xy_dx (g:=g) (lg:=lg)) as [D0 D1]. split; [reflexivity|]. intros i j Hi Hj. assert (j = 0%nat) as -> by lia.
  two i Hi; eexists; (split; [reflexivity|]); assumption.
Qed.
Definition Fc (i j : nat) (t : R) : R := C2 (1 + t) 2 i j.
Definition Gc (i j : nat) (t : R) : R :=
  let s := (1 + t) * (1 + t) + 2 * 2 in R2 ((1 + t) / s) (2 / s) i j.
Lemma Gc_derive : forall i j, (i < 1)%nat -> (j < 2)%nat -> is_derive (Gc i j) 0 (R2 (3/25) (-4/25) i j).
Proof.
  intros i j Hi Hj. assert (i = 0%nat) as -> by lia. two j Hj; unfold Gc, R2; auto_derive; try lra; field.
Qed.
Lemma Gc_pinv : forall t, is_pinv 2 1 (fun i j => Fc i j t) (fun i j => Gc i j t).
Proof. intros t. apply (col_pinv (fun i j => Fc i j t)). cbn. nra. Qed.
Lemma ex_C50 : reachable (xy_st (g:=g) (lg:=lg)) /\ pseudo_inverts lpinv2 2 1 (C2 1 2) /\
  nominal_matrix (g:=g) (lg:=lg) xy_st ic2 2 1 (C2 1 2) /\ deriv_matrix (g:=g) (lg:=lg) xy_st ic2 2 1 0%nat (C2 1 0) /\
  (forall i j, (i < 2)%nat -> (j < 1)%nat -> Fc i j 0 = C2 1 2 i j /\ is_derive (Fc i j) 0 (C2 1 0 i j)) /\
  locally 0 (fun s => is_pinv 2 1 (fun i j => Fc i j s) (fun i j => Gc i j s)) /\
  (forall i j, (i < 1)%nat -> (j < 2)%nat -> continuous (Gc i j) 0) /\
  exists ir st', array_call (pinv (N:=RN) lpinv2 (fun l => l)) xy_st ic2 (Ok ir) st' /\
    nominal_matrix st' ir 1 2 (R2 (1/5) (2/5)) /\
    deriv_matrix st' ir 1 2 0%nat (R2 (3/25) (-4/25)).
Proof.
  split; [exact xy_reach|]. split; [apply lpinv2_exact|]. split; [exact ic2_nominal|]. split; [exact ic2_deriv|].
  assert (HF : forall i j, (i < 2)%nat -> (j < 1)%nat -> Fc i j 0 = C2 1 2 i j /\ is_derive (Fc i j) 0 (C2 1 0 i j)).
  { intros i j Hi Hj. split; [two i Hi; unfold Fc, C2; lra|]. two i Hi; unfold Fc, C2; auto_derive; auto; ring. }
  assert (HG : locally 0 (fun s => is_pinv 2 1 (fun i j => Fc i j s) (fun i j => Gc i j s))).
  { exists (mkposreal 1 ltac:(lra)). intros t _. apply Gc_pinv. }
  assert (HC : forall i j, (i < 1)%nat -> (j < 2)%nat -> continuous (Gc i j) 0).
  { intros i j Hi Hj. apply (ex_derive_continuous (K := R_AbsRing) (V := R_NormedModule) (Gc i j)). exists (R2 (3/25) (-4/25) i j). now apply Gc_derive. }
  split; auto. split; auto. split; auto.
  destruct (pinv_succeeds (g:=g) (lg:=lg) lpinv2 (fun l => l) xy_st ic2 2 1 (C2 1 2) xy_reach (fun l => Permutation_refl l)
    (lpinv2_exact (C2 1 2)) eq_refl ic2_nominal) as (ir & st' & C).
  { intros a Ha. destruct (entries_col a _ Ha) as [Es Ef]. unfold lpinv2. rewrite Es, Ef. destruct (Req_EM_T _ 0); eauto. }
  exists ir, st'. split; auto.
  destruct (pinv_derivatives lpinv2 (fun l => l) xy_st st' ic2 ir 2 1 (C2 1 2) 0%nat (C2 1 0) Fc Gc 0 xy_reach
    (fun l => Permutation_refl l) (lpinv2_exact (C2 1 2)) ic2_nominal ic2_deriv C HF HG HC) as (N1 & D' & HD & H').
  split.
  - eapply nominal_matrix_meq; [exact N1|]. intros i j Hi Hj. two j Hj; unfold Gc, R2; field.
  - eapply deriv_matrix_meq; [exact HD|]. intros i j Hi Hj.
    rewrite <- (is_derive_unique _ _ _ (H' i j Hi Hj)). apply is_derive_unique. now apply Gc_derive.
Qed.

(** ** Standard deviations of [x, 7, x] *)
(** ** The wrapped function [a, b] -> [a*a, a*b], at [x, y] *)
Definition sq_list (l : list R) : list R := match l with [a; b] => [a * a; a * b] | _ => [] end.
Definition sq_arr (a : arr R) : res (arr R) :=
  match a_shape a with [2]%nat => Ok (mkArr (a_cls a) [2]%nat (sq_list (a_flat a))) | _ => Err EValue end.
Lemma sq_computes : computes sq_arr [2]%nat [2]%nat sq_list.
Proof.
  intros [c sh l] b W E H. cbn in E. subst sh. unfold sq_arr in H. cbn in H. injection H; intros <-.
  unfold wf_arr in *. cbn in *. destruct l as [|p [|q [|]]]; try discriminate. auto.
Qed.
Definition ixy : arr nat := mkArr ANd [2]%nat [0; 1]%nat.
Lemma ixy_nominal : nominal_list (g:=g) (lg:=lg) xy_st ixy [1; 2].
Proof. repeat constructor; (eexists; split; [eexists; split; reflexivity|reflexivity]). Qed.
Lemma ixy_deriv : deriv_list (g:=g) (lg:=lg) xy_st ixy 0%nat [1; 0].
Proof.
  repeat constructor; (eexists; split; [eexists; exists 9%nat; intros fuel Hf; do 9 (destruct fuel; [lia|]); reflexivity|reflexivity]).
Qed.
Lemma ex_C62 : reachable (xy_st (g:=g) (lg:=lg)) /\ computes sq_arr (a_shape ixy) [2]%nat sq_list /\
  nominal_list (g:=g) (lg:=lg) xy_st ixy [1; 2] /\ deriv_list (g:=g) (lg:=lg) xy_st ixy 0%nat [1; 0] /\
  (exists o, get_var (st_heap (xy_st (g:=g) (lg:=lg))) 0%nat = Some o /\ step_for (v_nom o) (v_std o) (3 / 100000)) /\
  exists ir st', array_call (wrap_array_func (N:=RN) (fun l => l) sq_arr) xy_st ixy (Ok ir) st' /\
    nominal_list st' ir [1; 2] /\ deriv_list st' ir 0%nat [2 + 3 / 100000; 2].
Proof.
  split; [exact xy_reach|]. split; [exact sq_computes|]. split; [exact ixy_nominal|]. split; [exact ixy_deriv|].
  assert (O : exists o, get_var (st_heap (xy_st (g:=g) (lg:=lg))) 0%nat = Some o /\ step_for (v_nom o) (v_std o) (3 / 100000)).
  { eexists. split; [reflexivity|]. unfold step_for. cbn. rewrite Rabs_pos_eq by lra. rewrite Rmax_left by lra. split; [auto|lra]. }
  split; [exact O|].
  destruct (wrapped_returns (g:=g) (lg:=lg) sq_arr (fun l => l) xy_st ixy [2]%nat sq_list [1; 2] xy_reach (fun l => Permutation_refl l) eq_refl
    sq_computes) as (ir & st' & C).
  { intros [c sh l] _ E. cbn in E. subst. eexists. reflexivity. }
  { discriminate. }
  { exact ixy_nominal. }
  exists ir, st'. split; auto. destruct O as (o & Ho & St).
  destruct (wrapped_result sq_arr (fun l => l) xy_st st' ixy ir [2]%nat sq_list [1; 2] xy_reach (fun l => Permutation_refl l) sq_computes ixy_nominal C)
    as (_ & N & Hv). destruct (Hv 0%nat o [1; 0] _ Ho St ixy_deriv) as (_ & D & _).
  replace [1; 2] with (sq_list [1; 2]) by (cbn; repeat f_equal; lra). split; [exact N|].
  replace [2 + 3 / 100000; 2] with (quotients (3 / 100000) (sq_list [1; 2]) (sq_list (moved [1; 2] [1; 0] (3 / 100000)))); [exact D|].
  unfold quotients, moved, sq_list. cbn. apply f_equal2; [field|]. apply f_equal2; [field|reflexivity].
Qed.

Definition xc_st : state RN := fst (run 0 xy_st [IConst (PZ 7)]).
Lemma xc_reach : reachable xc_st.
Proof.
  eapply (reach_runs xy_st [IConst (PZ 7)] xc_st [ONone] xy_reach). exists 0%nat. intros. reflexivity.
Qed.
Definition ix3 : arr nat := mkArr ANd [3]%nat [0; 2; 0]%nat.
Lemma ex_C48_std : reachable xc_st /\ wf_arr ix3 /\ List.Forall (fun i => (i < length (st_env xc_st))%nat) (a_flat ix3) /\
  std_is xc_st 0 (3 : num RN) /\ std_is xc_st 2 (0 : num RN).
Proof.
  split; [exact xc_reach|]. split; [reflexivity|]. split; [repeat constructor|].
  split; [|reflexivity]. cbn. eexists. exists 0%nat. intros. reflexivity.
Qed.

(** ** unumpy.sin([[x], [y]]); fsum of the pairs of [[x], [y]] and [x, y] *)
Definition ix21 : arr nat := mkArr ANd [2; 1]%nat [0; 1]%nat.
Definition ix2 : arr nat := mkArr ANd [2]%nat [0; 1]%nat.
Lemma ex_C51_one : exists st' ir,
  array_call (N:=RN) (fun _ a => vectorize (arg1 (fun x => wcall (m1_fun F_sin) (m1_pos F_sin) (m1_kw F_sin) [x] [])) [a])
    xy_st ix21 (Ok ir) st' /\ length (a_flat ir) = 2%nat.
Proof.
  eexists (mkState _ _), (mkArr ANd [2; 1]%nat [2; 3]%nat).
  split; [|reflexivity]. eexists (mkArr _ _ _), 0%nat. split; [reflexivity|]. split; [split; [|split]; reflexivity|].
  eexists (mkArr ANd [2; 1]%nat [_; _]). cbn [st_env st_heap].
  split; [split; [|split]; [reflexivity|reflexivity|]|].
  2:{ split; [reflexivity|]. split; [reflexivity|]. intros fuel _. reflexivity. }
  reflexivity.
Qed.
Lemma ex_C51_two : exists (st' : state RN) ir (a b c : arr (value RN)), wf_arr ix21 /\ wf_arr ix2 /\
  broadcasts (a_shape ix21) (a_shape ix2) [2; 2]%nat /\
  array_of xy_st ix21 a /\ array_of xy_st ix2 b /\ array_of st' ir c /\
  st_env st' = (st_env xy_st ++ a_flat c)%list /\
  vectorize (fun l => wcall flat_fsum fsum_pos fsum_kw l []) [a; b] (st_heap xy_st) = (Ok c, st_heap st').
Proof.
  eexists (mkState _ _), (mkArr ANd [2; 2]%nat [2; 3; 4; 5]%nat), (mkArr _ _ _), (mkArr _ _ _), (mkArr ANd [2; 2]%nat [_; _; _; _]).
  split; [reflexivity|]. split; [reflexivity|].
  split; [split; [reflexivity|]; intros [|[|k]]; cbn; split; auto; destruct k; reflexivity|].
  split; [split; [|split]; reflexivity|]. split; [split; [|split]; reflexivity|].
  cbn [st_env st_heap]. split; [split; [|split]; [reflexivity|reflexivity|]|].
  2:{ split; [reflexivity|]. reflexivity. }
  reflexivity.
Qed.
End ExArr.

(** ** Names *)
Local Open Scope string_scope.
Lemma ex_C51 : In "atan2" (umath_all ["atan2"; "asinh"; "pow"]) /\ numpy_name "atan2" = Some "arctan2" /\
  ~ In "atan2" ["asinh"; "pow"; "frexp"] /\ In ("arctan2", "atan2") (unumpy_funcs ["atan2"; "asinh"; "pow"]).
Proof.
  cbn. split; auto. split; auto. split; auto.
  intros [H|[H|[H|[]]]]; discriminate.
Qed.
