(** Property theorems about covariance matrices, correlated values and copies. *)
From Coq Require Import ZArith List Bool Reals Permutation.
From Verif Require Import Base Heap Affine Ops UMath NumR HeapSpec Machine Spec Cov Copy Calls History CovSpec CopySpec
  HistoryProofs CovProofs CorrProofs CopyProofs Examples ExCov NumF FRefute.
Import ListNotations.
Local Open Scope R_scope.

(** ** C17 *)
(** C17. The call returns a matrix, in whatever order sets of variables are iterated. *)
Theorem C17_succeeds : forall (g lg : R -> R), forall order st is, reachable st -> (forall l, Permutation (order l) l) ->
  Forall (uncertain st) is -> exists (m : matrix (ROps g lg)) st', covariance order st is (Ok m) st'.
Proof. exact @covariance_total. Qed.
Print Assumptions C17_succeeds.
(** Size, symmetry, positive semi-definiteness. *)
Theorem C17_shape : forall (g lg : R -> R), forall order st is (m : matrix (ROps g lg)) st', reachable st ->
  (forall l, Permutation (order l) l) -> Forall (uncertain st) is -> covariance order st is (Ok m) st' ->
  square (length is) m /\ (forall a b, mat m a b = mat m b a) /\ psd (length is) (mat m).
Proof. exact @covariance_shape. Qed.
Print Assumptions C17_shape.
(** Element (a, b) is the sum over the variables of the product of the two derivatives and of the variance. *)
Theorem C17_entries : forall (g lg : R -> R), forall order st is (m : matrix (ROps g lg)) st' a b i j d d', reachable st ->
  (forall l, Permutation (order l) l) -> Forall (uncertain st) is -> covariance order st is (Ok m) st' ->
  nth_error is a = Some i -> nth_error is b = Some j ->
  reads st (IDeriv i) (ODict d) -> reads st (IDeriv j) (ODict d') -> mat m a b = covsum st d d'.
Proof. exact @covariance_entries. Qed.
Print Assumptions C17_entries.
(** Calculating the matrix does not change what is observed later. *)
Theorem C17_invisible : forall (g lg : R -> R), forall order (st : state (ROps g lg)) is r st' prog st1 os1 st2 os2, reachable st ->
  covariance order st is r st' -> runs st prog st1 os1 -> runs st' prog st2 os2 -> Forall2 same_out os1 os2.
Proof. exact @covariance_invisible. Qed.
Print Assumptions C17_invisible.
(** The matrix does not depend on the iteration order, nor on matrices calculated before. *)
Theorem C17_repeatable : forall (g lg : R -> R), forall order order' st is (m m' : matrix (ROps g lg)) st' st'' r js st0, reachable st ->
  (forall l, Permutation (order l) l) -> (forall l, Permutation (order' l) l) -> Forall (uncertain st) is ->
  covariance order st is (Ok m) st' -> covariance order' st js r st0 ->
  covariance order' st0 is (Ok m') st'' -> m = m'.
Proof. exact @covariance_repeat. Qed.
Print Assumptions C17_repeatable.
(** x = 1 +/- 3, y = 2 +/- 4, z = x + y, p = z*x: the matrix of [x; z; p]. *)
Example C17_example : forall (g lg : R -> R), exists (m : matrix (ROps g lg)) st', reachable (ex_st (g:=g) (lg:=lg)) /\ Forall (uncertain (ex_st (g:=g) (lg:=lg))) [0%nat; 2%nat; 3%nat] /\
  (forall l : list varid, Permutation (rev l) l) /\
  covariance (@rev varid) (ex_st (g:=g) (lg:=lg)) [0%nat; 2%nat; 3%nat] (Ok m) st' /\ mat m 0%nat 1%nat = 9.
Proof. exact @ex_C17. Qed.
(** ** C18 *)
(** C18, in exact arithmetic: variances are the squares of the standard deviations. Not in binary64, when a derivative is undefined: see below. *)
Theorem C18_diagonal : forall (g lg : R -> R), forall order st is (m : matrix (ROps g lg)) st' a i s, reachable st ->
  (forall l, Permutation (order l) l) -> Forall (uncertain st) is -> covariance order st is (Ok m) st' ->
  nth_error is a = Some i -> reads st (IStd i) (ONum s) -> mat m a a = s ^ 2.
Proof. exact @covariance_diagonal. Qed.
Print Assumptions C18_diagonal.
(** Covariances are bounded by the standard deviations. *)
Theorem C18_bound : forall (g lg : R -> R), forall order st is (m : matrix (ROps g lg)) st' a b i j s t, reachable st ->
  (forall l, Permutation (order l) l) -> Forall (uncertain st) is -> covariance order st is (Ok m) st' ->
  nth_error is a = Some i -> nth_error is b = Some j ->
  reads st (IStd i) (ONum s) -> reads st (IStd j) (ONum t) -> Rabs (mat m a b) <= s * t.
Proof. exact @covariance_bound. Qed.
Print Assumptions C18_bound.
Example C18_example : forall (g lg : R -> R), exists s, reads (ex_st (g:=g) (lg:=lg)) (IStd 0) (ONum (N:=ROps g lg) s) /\ s = 3.
Proof. exact @ex_C18. Qed.
(** In binary64, x**0.5 for x = 0 +/- 0 has a standard deviation of 0 and a variance of NaN. *)
Theorem C18_undefined_derivative_refuted : exists u st', reachable (after roots) /\ is_number (after roots) 4 u /\
  reads (after roots) (IStd 4) (ONum (N:=FN) f0) /\
  covariance (fun l => l) (after roots) [4%nat] (Ok [[fnan]]) st'.
Proof. exact f_cov_nan. Qed.
Print Assumptions C18_undefined_derivative_refuted.
(** ** C19 *)
(** C19. Nominal values, covariance matrix, independence from all older numbers. eigh is numpy.linalg.eigh. *)
Theorem C19_correlated_values : forall (g lg : R -> R), forall st eigh (noms : list R) (cov : matrix (ROps g lg)) tags st' o,
  reachable st -> eigh_shape eigh -> eigh_exact eigh -> square (length noms) cov ->
  (forall a b, mat cov a b = mat cov b a) -> psd (length noms) (mat cov) -> tags_ok (length noms) tags ->
  call_step st (CCorr eigh noms cov tags) = (st', o) -> o = ONone ->
  length (st_env st') = (length (st_env st) + length noms)%nat /\
  (forall a, (a < length noms)%nat ->
     has_nominal st' (length (st_env st) + a)%nat (PF (N:=ROps g lg) (nth a noms 0))) /\
  (forall order (m : matrix (ROps g lg)) st'', (forall l, Permutation (order l) l) ->
     covariance order st' (seq (length (st_env st)) (length noms)) (Ok m) st'' ->
     forall a b, (a < length noms)%nat -> (b < length noms)%nat -> mat m a b = mat cov a b) /\
  (forall a j d d' v, (a < length noms)%nat -> (j < length (st_env st))%nat ->
     reads st' (IDeriv (length (st_env st) + a)%nat) (ODict (N:=ROps g lg) d) -> reads st' (IDeriv j) (ODict d') ->
     dget d v = None \/ dget d' v = None).
Proof. exact @correlated_spec. Qed.
Print Assumptions C19_correlated_values.
(** The same for correlated_values_norm(). *)
Theorem C19_correlated_values_norm : forall (g lg : R -> R), forall st eigh (vals : list (R * R)) (corr : matrix (ROps g lg)) tags st' o,
  reachable st -> eigh_shape eigh -> eigh_exact eigh -> square (length vals) corr ->
  (forall a b, mat corr a b = mat corr b a) -> psd (length vals) (mat corr) -> tags_ok (length vals) tags ->
  call_step st (CCorrNorm eigh vals corr tags) = (st', o) -> o = ONone ->
  length (st_env st') = (length (st_env st) + length vals)%nat /\
  (forall a, (a < length vals)%nat ->
     has_nominal st' (length (st_env st) + a)%nat (PF (N:=ROps g lg) (fst (nth a vals (0, 0))))) /\
  (forall order (m : matrix (ROps g lg)) st'', (forall l, Permutation (order l) l) ->
     covariance order st' (seq (length (st_env st)) (length vals)) (Ok m) st'' ->
     forall a b, (a < length vals)%nat -> (b < length vals)%nat ->
       mat m a b = snd (nth a vals (0, 0)) * snd (nth b vals (0, 0)) * mat corr a b) /\
  (forall a j d d' v, (a < length vals)%nat -> (j < length (st_env st))%nat ->
     reads st' (IDeriv (length (st_env st) + a)%nat) (ODict (N:=ROps g lg) d) -> reads st' (IDeriv j) (ODict d') ->
     dget d v = None \/ dget d' v = None).
Proof. exact @correlated_norm_spec. Qed.
Print Assumptions C19_correlated_values_norm.
(** correlated_values() returns when eigh does. *)
Theorem C19_returns : forall (g lg : R -> R), forall st eigh (noms : list R) (cov : matrix (ROps g lg)) tags,
  reachable st -> eigh_shape eigh -> square (length noms) cov -> psd (length noms) (mat cov) ->
  tags_ok (length noms) tags -> noms <> [] -> (forall m : matrix (ROps g lg), square (length noms) m -> exists r, eigh m = Ok r) ->
  snd (call_step st (CCorr eigh noms cov tags)) = ONone.
Proof. exact @correlated_total. Qed.
Print Assumptions C19_returns.
(** correlated_values_norm() returns when eigh does. *)
Theorem C19_norm_returns : forall (g lg : R -> R), forall st eigh (vals : list (R * R)) (corr : matrix (ROps g lg)) tags r,
  reachable st -> eigh_shape eigh -> square (length vals) corr -> tags_ok (length vals) tags -> vals <> [] ->
  eigh corr = Ok r -> snd (call_step st (CCorrNorm eigh vals corr tags)) = ONone.
Proof. exact @correlated_norm_total. Qed.
Print Assumptions C19_norm_returns.
(** Two values with correlation 1/2. *)
Example C19_example : forall (g lg : R -> R), eigh_shape (eigh2 (g:=g) (lg:=lg)) /\ eigh_exact (eigh2 (g:=g) (lg:=lg)) /\ square 2 (half_corr (g:=g) (lg:=lg)) /\
  (forall a b, mat (half_corr (g:=g) (lg:=lg)) a b = mat (half_corr (g:=g) (lg:=lg)) b a) /\ psd 2 (mat (half_corr (g:=g) (lg:=lg))) /\ tags_ok 2 None /\
  exists st', call_step (N:=ROps g lg) init (CCorrNorm (N:=ROps g lg) (eigh2 (g:=g) (lg:=lg)) [(10, 2); (20, 3)] (half_corr (g:=g) (lg:=lg)) None) = (st', ONone).
Proof. exact @ex_C19. Qed.
(** ** C20 *)
(** C20. The call returns, and the properties of the result. *)
Theorem C20_correlation : forall (g lg : R -> R), forall order st is, reachable st -> (forall l, Permutation (order l) l) ->
  Forall (uncertain st) is ->
  (forall i, In i is -> exists s, reads st (IStd i) (ONum (N:=ROps g lg) s) /\ s <> 0) ->
  exists (c m : matrix (ROps g lg)) st', correlation order st is (Ok c) st' /\ covariance order st is (Ok m) st' /\
    square (length is) c /\ (forall a b, mat c a b = mat c b a) /\
    (forall a, (a < length is)%nat -> mat c a a = 1) /\
    (forall a b, Rabs (mat c a b) <= 1) /\
    (forall a b i j s t, nth_error is a = Some i -> nth_error is b = Some j ->
       reads st (IStd i) (ONum s) -> reads st (IStd j) (ONum t) -> mat c a b = mat m a b / (s * t)).
Proof. exact @correlation_spec. Qed.
Print Assumptions C20_correlation.
Example C20_example : forall (g lg : R -> R), forall i, In i [0%nat; 1%nat] -> exists s, reads (ex_st (g:=g) (lg:=lg)) (IStd i) (ONum (N:=ROps g lg) s) /\ s <> 0.
Proof. exact @ex_C20. Qed.
(** ** C32 *)
(** C32. copy.deepcopy(): the copy depends on new variables, in the same way as the original on its own. *)
Theorem C32_deepcopy : forall (g lg : R -> R), forall (st : state (ROps g lg)) i u st' o, reachable st -> is_number st i u ->
  call_step st (CDeepcopy i) = (st', o) ->
  o = ONone /\ length (st_env st') = S (length (st_env st)) /\
  exists rho, fresh_renaming rho st st' /\ is_copy rho st st' i (length (st_env st)).
Proof. exact @deepcopy_spec. Qed.
Print Assumptions C32_deepcopy.
(** copy.copy() of a variable is copy.deepcopy(). *)
Theorem C32_copy_variable : forall (g lg : R -> R), forall (st : state (ROps g lg)) i u v, is_number st i u -> uf_var u = Some v ->
  call_step st (CCopy i) = call_step st (CDeepcopy i).
Proof. exact @copy_variable. Qed.
Print Assumptions C32_copy_variable.
(** copy.copy() of a calculated number has the same derivatives: fully correlated, and equal. *)
Theorem C32_copy_calculated : forall (g lg : R -> R), forall (st : state (ROps g lg)) i u st' o, reachable st -> is_number st i u -> uf_var u = None ->
  call_step st (CCopy i) = (st', o) ->
  o = ONone /\ length (st_env st') = S (length (st_env st)) /\
  exists u', is_number st' (length (st_env st)) u' /\ uf_var u' = None /\
    (forall p, has_nominal st' (length (st_env st)) p <-> has_nominal st' i p) /\
    (forall o, reads st' (IDeriv (length (st_env st))) o <-> reads st' (IDeriv i) o) /\
    (forall o, reads st' (IStd (length (st_env st))) o <-> reads st' (IStd i) o) /\
    reads st' (ICmp Ceq (length (st_env st)) i) (OBool true).
Proof. exact @copy_calculated. Qed.
Print Assumptions C32_copy_calculated.
(** Existing numbers are unaffected (also for pickling and for correlated values). *)
Theorem C32_unaffected : forall (g lg : R -> R), forall (st : state (ROps g lg)) c j, reachable st -> call_ok c -> (j < length (st_env st))%nat ->
  unaffected st (fst (call_step st c)) j.
Proof. exact @call_unaffected. Qed.
Print Assumptions C32_unaffected.
(** Numbers that are deep-copied one by one lose their mutual correlations. *)
Theorem C32_deepcopies_independent : forall (g lg : R -> R), forall st i u st1 o1 j u' st2 o2 d1 d2 v, reachable st ->
  is_number st i u -> call_step st (CDeepcopy i) = (st1, o1) ->
  is_number st1 j u' -> call_step st1 (CDeepcopy j) = (st2, o2) ->
  reads st2 (IDeriv (length (st_env st))) (ODict (N:=ROps g lg) d1) ->
  reads st2 (IDeriv (length (st_env st1))) (ODict d2) -> dget d1 v = None \/ dget d2 v = None.
Proof. exact @deepcopies_independent. Qed.
Print Assumptions C32_deepcopies_independent.
Example C32_example : forall (g lg : R -> R), exists st' o, reachable (ex_st (g:=g) (lg:=lg)) /\
  (exists u, is_number (ex_st (g:=g) (lg:=lg)) 3 u /\ uf_var u = None) /\ (exists u, is_number (ex_st (g:=g) (lg:=lg)) 0 u /\ uf_var u = Some 0%nat) /\
  call_step (ex_st (g:=g) (lg:=lg)) (CDeepcopy 3) = (st', o).
Proof. exact @ex_C32. Qed.
(** ** C33 *)
(** C33. The restored numbers depend on new variables, in the same way as the originals on theirs (with a common renaming). *)
Theorem C33_pickle : forall (g lg : R -> R), forall (st : state (ROps g lg)) is st' o, reachable st -> NoDup is ->
  Forall (fun i => (i < length (st_env st))%nat) is -> call_step st (CPickle is) = (st', o) ->
  o = ONone /\ length (st_env st') = (length (st_env st) + length is)%nat /\
  exists rho, fresh_renaming rho st st' /\
    (forall a i, nth_error is a = Some i -> uncertain st i -> is_copy rho st st' i (length (st_env st) + a)%nat) /\
    (forall a i p, nth_error is a = Some i -> nth_error (st_env st) i = Some (VPlain p) ->
       nth_error (st_env st') (length (st_env st) + a)%nat = Some (VPlain p)).
Proof. exact @pickle_spec. Qed.
Print Assumptions C33_pickle.
(** Mutual covariances are kept. *)
Theorem C33_covariance : forall (g lg : R -> R), forall st is st' o order order' (m m' : matrix (ROps g lg)) st1 st2 a b, reachable st -> NoDup is ->
  Forall (uncertain st) is -> call_step st (CPickle is) = (st', o) ->
  (forall l, Permutation (order l) l) -> (forall l, Permutation (order' l) l) ->
  covariance order st is (Ok m) st1 ->
  covariance order' st' (seq (length (st_env st)) (length is)) (Ok m') st2 ->
  (a < length is)%nat -> (b < length is)%nat -> mat m' a b = mat m a b.
Proof. exact @pickle_covariance. Qed.
Print Assumptions C33_covariance.
Example C33_example : forall (g lg : R -> R), exists st' o, reachable (ex_st (g:=g) (lg:=lg)) /\ NoDup [3%nat; 0%nat; 2%nat] /\
  Forall (uncertain (ex_st (g:=g) (lg:=lg))) [3%nat; 0%nat; 2%nat] /\ call_step (ex_st (g:=g) (lg:=lg)) (CPickle [3%nat; 0%nat; 2%nat]) = (st', o).
Proof. exact @ex_C33. Qed.
