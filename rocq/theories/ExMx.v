(** Concrete instances for the theorems about operators on arrays and products of matrices. *)
From Coq Require Import String.
From Coq Require Import ZArith List Bool Reals Lra Lia Arith Permutation.
From Coquelicot Require Import Coquelicot.
From Verif Require Import Base Heap Affine Ops UMath NumR HeapSpec Machine History HistoryProofs CovSpec Unumpy UnumpySpec
  MatrixSpec UMatrix UMxThm MxProofs InvThm ArrProofs UarrProofs VecProofs Examples ExPrim ExArr.
Import ListNotations.
Local Open Scope R_scope.

Section ExMx.
Context {g lg : R -> R}.
Notation RN := (ROps g lg).
Local Notation length := List.length.
Ltac both i H := let K := fresh in pose proof (two i H) as K; clear H; destruct K as [-> | ->].

(** ** [[x], [y]] / [x, y], x = 1 +/- 3, y = 2 +/- 4 *)
Definition col2 : arr nat := mkArr ANd [2; 1]%nat [0; 1]%nat.
Definition row2 : arr nat := mkArr ANd [2]%nat [0; 1]%nat.
Lemma xy_nominal : forall k p, has_nominal (g:=g) (lg:=lg) xy_st k p -> pval p <> 0.
Proof.
  intros [|[|k]] p (x & E & H).
  - cbn in E. injection E; intros <-. cbn in H. injection H; intros <-. cbn. lra.
  - cbn in E. injection E; intros <-. cbn in H. injection H; intros <-. cbn. lra.
  - cbn in E. destruct k; discriminate.
Qed.
Lemma xy_has : forall k, In k [0; 1]%nat -> exists p, has_nominal (g:=g) (lg:=lg) xy_st k p.
Proof. intros k [<-|[<-|[]]]; eexists; eexists; (split; [reflexivity|reflexivity]). Qed.
Lemma ex_C70 : reachable (xy_st (g:=g) (lg:=lg)) /\ broadcasts (a_shape col2) (a_shape row2) [2; 2]%nat /\
  valid [2; 2]%nat [0; 1]%nat /\ pair_at col2 row2 [0; 1]%nat 0%nat 1%nat /\
  has_nominal (g:=g) (lg:=lg) xy_st 0 (PF (N:=RN) 1) /\ has_nominal (g:=g) (lg:=lg) xy_st 1 (PF (N:=RN) 2) /\
  exists ir st' k r, array_call2 (array_op (N:=RN) Btruediv) xy_st col2 row2 (Ok ir) st' /\ a_shape ir = [2; 2]%nat /\
    elem ir [0; 1]%nat = Some k /\ has_nominal st' k r /\ pval r = 1 / 2 /\ deriv_is st' k 0%nat (1 / 2).
Proof.
  assert (Bs : broadcasts (a_shape col2) (a_shape row2) [2; 2]%nat).
  { split; [reflexivity|]. intros [|[|k]]; cbn; split; auto. destruct k; reflexivity. }
  assert (V : valid [2; 2]%nat [0; 1]%nat) by (repeat constructor).
  assert (P : pair_at col2 row2 [0; 1]%nat 0%nat 1%nat) by (split; reflexivity).
  assert (H0 : has_nominal (g:=g) (lg:=lg) xy_st 0 (PF (N:=RN) 1)) by (eexists; split; reflexivity).
  assert (H1 : has_nominal (g:=g) (lg:=lg) xy_st 1 (PF (N:=RN) 2)) by (eexists; split; reflexivity).
  split; [exact xy_reach|]. split; auto. split; auto. split; auto. split; auto. split; auto.
  assert (F4 : four Btruediv) by (unfold four; auto).
  destruct (operator_returns (g:=g) (lg:=lg) Btruediv xy_st col2 row2 _ F4 xy_reach eq_refl eq_refl Bs) as (ir & st' & C).
  { intros k [I|I]; now apply xy_has. } { intros _ k p _ Hp. now apply (xy_nominal k). }
  destruct (operator_result Btruediv xy_st st' col2 row2 _ ir F4 xy_reach Bs C) as (Es & R).
  destruct (R _ _ _ _ _ V P H0 H1) as (_ & k & r & Ek & Hk & Vk & Dk & _).
  destruct (xy_dx (g:=g) (lg:=lg)) as [D0 D1].
  exists ir, st', k, r. split; auto. split; auto. split; auto. split; auto.
  split; [exact Vk|]. pose proof (Dk 0%nat _ _ D0 D1) as Q. cbn [real_dx real_dy pval] in Q.
  replace (1 / 2) with (1 / 2 * 1 + - (1) / 2 ^ 2 * 0) by field. exact Q.
Qed.

(** ** [[x, y], [y, x]] times itself *)
Lemma ex_C71 : reachable (xy_st (g:=g) (lg:=lg)) /\ wf_arr ia2 /\ nominal_matrix (g:=g) (lg:=lg) xy_st ia2 2 2 A2 /\
  deriv_matrix (g:=g) (lg:=lg) xy_st ia2 2 2 0%nat (M2 1 0 0 1) /\
  exists ir st', array_call2 (obj_matmul (N:=RN)) xy_st ia2 ia2 (Ok ir) st' /\
    nominal_matrix st' ir 2 2 (M2 5 4 4 5) /\ deriv_matrix st' ir 2 2 0%nat (M2 2 4 4 2).
Proof.
  split; [exact xy_reach|]. split; [reflexivity|]. split; [exact ia2_nominal|]. split; [exact ia2_deriv|].
  destruct (product_returns (g:=g) (lg:=lg) xy_st ia2 ia2 2 2 2 A2 A2 xy_reach eq_refl eq_refl ia2_nominal ia2_nominal ltac:(lia)) as (ir & st' & C).
  destruct (product_result xy_st st' ia2 ia2 ir 2 2 2 A2 A2 xy_reach ia2_nominal ia2_nominal C) as (R1 & R2 & _).
  exists ir, st'. split; auto. split.
  - eapply nominal_matrix_meq; [exact R1|]. intros i j Hi Hj. both i Hi; both j Hj; unfold mprod, Sum, A2, M2; cbn; lra.
  - eapply deriv_matrix_meq; [exact (R2 _ _ _ ia2_deriv ia2_deriv)|].
    intros i j Hi Hj. both i Hi; both j Hj; unfold madd, mprod, Sum, A2, M2; cbn. all: lra.
Qed.
(** y * [[x, y], [y, x]] *)
Definition io1 : arr nat := mkArr ANd [] [1]%nat.
Lemma ex_C71_scalar : elem io1 [] = Some 1%nat /\ has_nominal (g:=g) (lg:=lg) xy_st 1 (PF (N:=RN) 2) /\
  exists ir st', array_call2 (fun o s => matrix_rmul (N:=RN) s o) xy_st io1 ia2 (Ok ir) st' /\
    nominal_matrix st' ir 2 2 (M2 2 4 4 2) /\ deriv_matrix st' ir 2 2 0%nat (M2 2 0 0 2).
Proof.
  split; [reflexivity|]. assert (H1 : has_nominal (g:=g) (lg:=lg) xy_st 1 (PF (N:=RN) 2)) by (eexists; split; reflexivity).
  split; auto. assert (F4 : four Bmul) by (unfold four; auto).
  destruct (operator_returns (g:=g) (lg:=lg) Bmul xy_st io1 ia2 _ F4 xy_reach eq_refl eq_refl (broadcasts_nil_l [2; 2]%nat)) as (ir & st' & C).
  { intros k [I|I]; apply xy_has; cbn in I |- *; tauto. } { discriminate. }
  assert (C' : array_call2 (fun o s => matrix_rmul (N:=RN) s o) xy_st io1 ia2 (Ok ir) st').
  { destruct C as (a & b & W1 & W2 & Ha & Hb & c & C1 & C2 & C3 & C4). exists a, b. split; auto. split; auto. split; auto. split; auto.
    exists c. split; auto. split; auto. split; auto. destruct Ha as (_ & Ha2 & Ha3). unfold matrix_rmul. cbn in Ha2, Ha3. injection Ha3; intros <-.
    rewrite Ha2. exact C4. }
  exists ir, st'. split; auto.
  destruct (scalar_product xy_st st' io1 ia2 ir 1 _ 2 2 A2 xy_reach eq_refl eq_refl H1 ia2_nominal C') as (R1 & R2).
  split.
  - eapply nominal_matrix_meq; [exact R1|]. intros i j Hi Hj. both i Hi; both j Hj; unfold mscal, A2, M2; cbn; lra.
  - eapply deriv_matrix_meq; [exact (R2 _ _ _ (proj2 xy_dx) ia2_deriv)|].
    intros i j Hi Hj. both i Hi; both j Hj; unfold madd, mscal, A2, M2; cbn; lra.
Qed.
(** ** [[x, y], [y, x]] times its inverse *)
Lemma ex_C71_inverse : exists ib st1 ir st2, array_call (inv (N:=RN) linv2 (fun l => l)) xy_st ia2 (Ok ib) st1 /\
  dependent st1 ib /\ array_call2 (obj_matmul (N:=RN)) st1 ia2 ib (Ok ir) st2 /\
  nominal_matrix st2 ir 2 2 kron /\ forall v, deriv_matrix st2 ir 2 2 v (fun _ _ => 0).
Proof.
  destruct (ex_C49 (g:=g) (lg:=lg)) as (_ & _ & _ & _ & _ & _ & ib & st1 & C & NB & DB).
  assert (Wb : wf_arr ib) by exact (inv_wf linv2 (fun l => l) xy_st st1 ia2 ib 2 A2 xy_reach (fun l => Permutation_refl l) (linv2_inverts A2) ia2_nominal C).
  assert (Dp : dependent st1 ib).
  { eapply (matrix_dependent st1 ib 2 2); [exact Wb|exact DB|]. intros i j Hi Hj. both i Hi; both j Hj; unfold M2; lra. }
  assert (Re1 : reachable st1).
  { eapply reach_array; [exact xy_reach|intros l; apply Permutation_refl|exact C|]. intros ir E. injection E; intros <-. exact Dp. }
  assert (HA1 : nominal_matrix st1 ia2 2 2 A2).
  { destruct (call_keeps _ _ xy_st st1 ia2 ib xy_reach (InvConv.uncert_conv (fun l => l) _ (fun l => Permutation_refl l)) C Dp) as (KN & _).
    destruct (ia2_nominal (g:=g) (lg:=lg)) as [Es HA]. split; auto. intros i j Hi Hj. destruct (HA i j Hi Hj) as (k & p & Ek & Hk & V). eauto 6. }
  destruct (product_returns (g:=g) (lg:=lg) st1 ia2 ib 2 2 2 A2 _ Re1 eq_refl Wb HA1 NB ltac:(lia)) as (ir & st2 & C2).
  exists ib, st1, ir, st2. split; auto. split; auto. split; auto.
  destruct (times_inverse linv2 (fun l => l) xy_st st1 st2 ia2 ib ir 2 A2 xy_reach (fun l => Permutation_refl l) (linv2_inverts A2) ia2_nominal C Dp (or_introl C2)) as (R1 & R2 & _).
  auto.
Qed.
End ExMx.
