(** Correlated values in binary64. *)
From Coq Require Import ZArith List Bool Lia.
From Flocq Require Import Core BinarySingleNaN.
From Verif Require Import Base NumF Heap HeapSpec Affine Ops UMath Machine Cov Calls Unumpy UMatrix History FRefute DepSpec TwinSpec CorrAny.
Import ListNotations.

(** Eigenvalues 2 and -2**-60 (a rounding error of 0), and eigenvectors that are not normalised. *)
Definition eigh_f : matrix FN -> res (list (num FN) * matrix FN) :=
  fun _ => Ok ([fnorm 2 0; fnorm (-1) (-60)] : list f64, [[fnorm 3 (-2); fnorm 3 (-2)]; [fnorm 3 (-2); fnorm (-3) (-2)]] : list (list f64)).
Definition vals_f : list (num FN * num FN) := [(fnorm 10 0, fnorm 2 0); (fnorm 20 0, fnorm 3 0)].
Definition ones_f : matrix FN := [[fone; fone]; [fone; fone]].
Lemma no_outcome : forall p : state FN * out FN, match snd p with ONone => true | _ => false end = true -> exists st', p = (st', ONone).
Proof. intros [st' o] H. destruct o; try discriminate H. now exists st'. Qed.
Lemma ex_correlated_norm : exists st' lam rows, eigh_f ones_f = Ok (lam, rows) /\ length lam = length vals_f /\ tags_ok (length vals_f) (Some [None; Some 4%nat]) /\
  call_step init (CCorrNorm eigh_f vals_f ones_f (Some [None; Some 4%nat])) = (st', ONone).
Proof.
  destruct (no_outcome (call_step init (CCorrNorm eigh_f vals_f ones_f (Some [None; Some 4%nat])))) as (st' & E); [vm_cast_no_check (eq_refl true)|].
  exists st'. do 2 eexists. split; [reflexivity|]. split; [reflexivity|]. split; [reflexivity|]. exact E.
Qed.
(** The covariance matrix ((4, 6), (6, 9)). *)
Definition cov_f : matrix FN := [[fnorm 4 0; fnorm 6 0]; [fnorm 6 0; fnorm 9 0]].
Lemma ex_correlated : exists st', length cov_f = length [fnorm 10 0; fnorm 20 0] /\ call_step init (CCorr eigh_f ([fnorm 10 0; fnorm 20 0] : list f64) cov_f None) = (st', ONone).
Proof.
  destruct (no_outcome (call_step init (CCorr eigh_f ([fnorm 10 0; fnorm 20 0] : list f64) cov_f None))) as (st' & E); [vm_cast_no_check (eq_refl true)|]. exists st'. split; [reflexivity|exact E].
Qed.
