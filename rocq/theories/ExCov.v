(** Concrete instances of the hypotheses of the theorems about covariances and copies. *)
From Coq Require Import ZArith List Bool Reals Lra Lia Permutation.
From Verif Require Import Base Heap Affine Ops UMath NumR HeapSpec Machine Spec Refine Cov Copy Calls History
  HistoryProofs CovSpec CopySpec CovProofs CorrProofs CopyProofs Examples.
Import ListNotations.
Local Open Scope R_scope.

Section ExCov.
Context {g lg : R -> R}.
Notation RN := (ROps g lg).
Notation est := (ex_st (g:=g) (lg:=lg)).

Ltac big fuel H := match type of H with (?k <= _)%nat =>
  replace fuel with (k + (fuel - k))%nat by lia; cbn [Nat.add] end.

Lemma ex_uncertain : Forall (uncertain est) [0%nat; 2%nat; 3%nat].
Proof. repeat constructor; eexists; reflexivity. Qed.
Lemma ex_sd0 : sd est 0%nat = 3.
Proof. reflexivity. Qed.
Lemma ex_deriv0 : reads est (IDeriv 0%nat) (ODict (N:=RN) [(0%nat, 1)]).
Proof. eexists; exists 5%nat; intros fuel H; big fuel H; reflexivity. Qed.
(** x and z = x + y: variance of x 9, covariance 9; the matrix for [x; z; p] exists. *)
Lemma ex_C17 : exists (m : matrix RN) st', reachable est /\ Forall (uncertain est) [0%nat; 2%nat; 3%nat] /\
  (forall l : list varid, Permutation (rev l) l) /\
  covariance (@rev varid) est [0%nat; 2%nat; 3%nat] (Ok m) st' /\ mat m 0%nat 1%nat = 9.
Proof.
  assert (P : forall l : list varid, Permutation (rev l) l) by (intros; apply Permutation_sym, Permutation_rev).
  destruct (covariance_total (g:=g) (lg:=lg) (@rev varid) est [0%nat; 2%nat; 3%nat] ex_reach P ex_uncertain) as (m & st' & C).
  exists m, st'. split; [exact ex_reach|]. split; [exact ex_uncertain|]. split; [exact P|]. split; [exact C|].
  rewrite (covariance_entries _ _ _ _ _ 0%nat 1%nat 0%nat 2%nat _ _ ex_reach P ex_uncertain C eq_refl eq_refl ex_deriv0 ex_deriv2).
  unfold covsum. cbn [map Rsum fst snd]. rewrite ex_sd0. unfold dval. cbn. lra.
Qed.
Lemma ex_C18 : exists s, reads est (IStd 0) (ONum (N:=RN) s) /\ s = 3.
Proof. exists 3. split; auto. eexists; exists 5%nat; intros fuel H; big fuel H; reflexivity. Qed.
Lemma ex_C20 : forall i, In i [0%nat; 1%nat] -> exists s, reads est (IStd i) (ONum (N:=RN) s) /\ s <> 0.
Proof.
  intros i [<-|[<-|[]]].
  - exists 3. split; [|lra]. eexists; exists 5%nat; intros fuel H; big fuel H; reflexivity.
  - exists 4. split; [|lra]. eexists; exists 5%nat; intros fuel H; big fuel H; reflexivity.
Qed.

(** An eigen-decomposition of [[1; 1/2]; [1/2; 1]]. *)
Definition half_corr : matrix RN := [[1; 1/2]; [1/2; 1]].
Definition c2 : R := sqrt (1 / 2).
Lemma c2_sq : c2 * c2 = 1 / 2.
Proof. unfold c2. apply sqrt_sqrt. lra. Qed.
Definition eigh2 (m : matrix RN) : res (list R * matrix RN) :=
  match m with
  | [[a; b]; [c; d]] =>
      if Req_EM_T a 1 then if Req_EM_T b (1/2) then if Req_EM_T c (1/2) then if Req_EM_T d 1
      then Ok ([1/2; 3/2], [[- c2; c2]; [c2; c2]])
      else Err EValue else Err EValue else Err EValue else Err EValue
  | _ => Err EValue
  end.
Lemma eigh2_inv : forall m r, eigh2 m = Ok r -> m = half_corr /\ r = ([1/2; 3/2], [[- c2; c2]; [c2; c2]]).
Proof.
  intros m r H. unfold eigh2 in H.
  destruct m as [|[|a [|b [|]]] [|[|c [|d [|]]] [|]]]; try discriminate H.
  destruct (Req_EM_T a 1), (Req_EM_T b (1/2)), (Req_EM_T c (1/2)), (Req_EM_T d 1); try discriminate H.
  injection H; intros <-. subst. auto.
Qed.
Lemma eigh2_half : eigh2 half_corr = Ok ([1/2; 3/2], [[- c2; c2]; [c2; c2]]).
Proof.
  unfold eigh2, half_corr.
  repeat (match goal with |- context [Req_EM_T ?x ?y] => destruct (Req_EM_T x y) as [_|N]; [|elim N; reflexivity] end).
  reflexivity.
Qed.
Lemma square2 : forall n, square n half_corr -> n = 2%nat.
Proof. intros n [L _]. exact (eq_sym L). Qed.
Lemma ex_C19 : eigh_shape eigh2 /\ eigh_exact eigh2 /\ square 2 half_corr /\
  (forall a b, mat half_corr a b = mat half_corr b a) /\ psd 2 (mat half_corr) /\ tags_ok 2 None /\
  exists st', call_step (N:=RN) init (CCorrNorm (N:=RN) eigh2 [(10, 2); (20, 3)] half_corr None) = (st', ONone).
Proof.
  assert (Sh : eigh_shape eigh2).
  { intros n m lam V Hq H. apply eigh2_inv in H as [-> H]. injection H; intros -> ->.
    rewrite (square2 n Hq). repeat split; repeat constructor. }
  assert (Sq : square 2 half_corr) by (repeat split; repeat constructor).
  split; [exact Sh|]. split.
  { intros n m lam V Hq Sy H. apply eigh2_inv in H as [-> H]. injection H; intros -> ->.
    rewrite (square2 n Hq). split; [reflexivity|]. split; [repeat split; repeat constructor|]. split.
    - intros i j Hi Hj. pose proof c2_sq as E.
      destruct i as [|[|i]]; [| |lia]; (destruct j as [|[|j]]; [| |lia]); unfold Sum, mat, half_corr; cbn; nra.
    - intros i j Hi Hj. pose proof c2_sq as E.
      destruct i as [|[|i]]; [| |lia]; (destruct j as [|[|j]]; [| |lia]); unfold Sum, mat, kron; cbn; nra. }
  split; [exact Sq|]. split.
  { intros [|[|[|a]]] [|[|[|b]]]; reflexivity. }
  split.
  { intros x. unfold Sum, mat, half_corr. cbn. nra. }
  split; [exact I|].
  exists (fst (call_step (N:=RN) init (CCorrNorm (N:=RN) eigh2 [(10, 2); (20, 3)] half_corr None))).
  rewrite (surjective_pairing (call_step _ _)) at 1. f_equal.
  apply (correlated_norm_total (g:=g) (lg:=lg) init eigh2 [(10, 2); (20, 3)] half_corr None _ reach_init Sh Sq I ltac:(discriminate) eigh2_half).
Qed.

(** Copies of x, and of p = (x + y)*x. *)
Lemma ex_C32 : exists st' o, reachable est /\
  (exists u, is_number est 3 u /\ uf_var u = None) /\ (exists u, is_number est 0 u /\ uf_var u = Some 0%nat) /\
  call_step est (CDeepcopy 3) = (st', o).
Proof.
  do 2 eexists. split; [exact ex_reach|]. split; [eexists; split; reflexivity|]. split; [eexists; split; reflexivity|].
  apply surjective_pairing.
Qed.
Lemma ex_C33 : exists st' o, reachable est /\ NoDup [3%nat; 0%nat; 2%nat] /\
  Forall (uncertain est) [3%nat; 0%nat; 2%nat] /\ call_step est (CPickle [3%nat; 0%nat; 2%nat]) = (st', o).
Proof.
  do 2 eexists. split; [exact ex_reach|]. split; [repeat constructor; cbn; intuition discriminate|].
  split; [repeat constructor; eexists; reflexivity|]. apply surjective_pairing.
Qed.
End ExCov.
