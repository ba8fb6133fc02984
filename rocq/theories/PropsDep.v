(** Property theorems about dependencies on variables, in any arithmetic. *)
From Coq Require Import ZArith List Bool Permutation.
From Flocq Require Import Core BinarySingleNaN.
From Verif Require Import Base Heap HeapSpec NumF Affine Ops UMath Machine Cov Calls Unumpy UMatrix History FRefute DepSpec Deps ExDeps.
Import ListNotations.

(** ** C78 *)
(** C78: the variables listed by derivatives are exactly those from which the number was calculated. *)
Theorem C78_dependencies : forall (N : NumOps), forall (st : state N) L i vs u d, history st L -> nth_error L i = Some (Some vs) -> is_number st i u ->
  reads st (IDeriv i) (ODict d) ->
  NoDup (dkeys d) /\ (forall v, In v (dkeys d) <-> In v vs) /\ (forall v, In v vs -> get_var (st_heap st) v <> None).
Proof. exact @dependencies. Qed.
Print Assumptions C78_dependencies.
(** x = ufloat(2.0**1023, 1); y = ufloat(2, 1); z = x*x; w = z - z; t = w*y in binary64. The derivative of w is NaN. *)
Example C78_dependencies_example : history d6 d_known /\ nth_error d_known 3 = Some (Some [0; 0; 0; 0]%nat) /\ is_number d6 3 (uf_at d6 3) /\
  reads d6 (IDeriv 3) (ODict (N:=FN) (dict_at d6 3)) /\ dkeys (dict_at d6 3) = [0%nat] /\ nan_for (dict_at d6 3) 0 = true /\
  is_number d6 4 (uf_at d6 4) /\ reads d6 (IDeriv 4) (ODict (N:=FN) (dict_at d6 4)) /\ dkeys (dict_at d6 4) = [1; 0]%nat.
Proof. exact ex_dependencies. Qed.
(** error_components() works whenever derivatives does, for the same variables. *)
Theorem C78_components : forall (N : NumOps), forall (st : state N) L i vs u d, history st L -> nth_error L i = Some (Some vs) -> is_number st i u ->
  reads st (IDeriv i) (ODict d) -> exists e, reads st (IErrs i) (OErrs e) /\ dkeys e = dkeys d.
Proof. exact @components_exist. Qed.
Print Assumptions C78_components.
(** A new variable: no existing number depends on it. *)
Theorem C78_fresh : forall (N : NumOps), forall (st : state N) L n s tag st' w v, history st L -> does st (INew n s tag) st' ONone ->
  is_number st' (length (st_env st)) w -> uf_var w = Some v ->
  get_var (st_heap st) v = None /\ get_var (st_heap st') v <> None /\
  (forall i vs u d, nth_error L i = Some (Some vs) -> is_number st' i u -> reads st' (IDeriv i) (ODict d) -> ~ In v (dkeys d)) /\
  forall d x, reads st' (IDeriv (length (st_env st))) (ODict d) -> (In x (dkeys d) <-> x = v).
Proof. exact @fresh_variable. Qed.
Print Assumptions C78_fresh.
(** ufloat(0, 1) after the above. *)
Example C78_fresh_example : history d6 d_known /\ does d6 (INew (fl 0 0) (fl 1 0) None) d7 ONone /\
  is_number d7 (length (st_env d6)) (uf_at d7 5) /\ uf_var (uf_at d7 5) = Some 2%nat.
Proof. exact ex_fresh. Qed.
(** Setting the standard deviation of a variable: no effect on numbers that were calculated from other variables. *)
Theorem C78_unaffected : forall (N : NumOps), forall (st : state N) L i vs u j w v s st' o, history st L -> nth_error L i = Some (Some vs) -> is_number st i u ->
  is_number st j w -> uf_var w = Some v -> ~ In v vs -> does st (ISet j s) st' o ->
  is_number st' i u /\ forall ins o', about i ins -> (reads st ins o' <-> reads st' ins o').
Proof. exact @unaffected. Qed.
Print Assumptions C78_unaffected.
(** y.std_dev = 0: the standard deviation of w remains NaN. *)
Example C78_unaffected_example : exists st', history d6 d_known /\ nth_error d_known 3 = Some (Some [0; 0; 0; 0]%nat) /\ is_number d6 3 (uf_at d6 3) /\
  is_number d6 1 (uf_at d6 1) /\ uf_var (uf_at d6 1) = Some 1%nat /\ ~ In 1%nat [0; 0; 0; 0]%nat /\
  does d6 (ISet 1 (PF (N:=FN) f0)) st' ONone /\ reads d6 (IStd 3) (ONum (N:=FN) fnan) /\ reads st' (IStd 1) (ONum (N:=FN) f0).
Proof. exact ex_unaffected. Qed.
(** Numbers calculated from different variables: the covariance is exactly zero. *)
Theorem C78_uncorrelated : forall (N : NumOps), forall order (st : state N) L is m st' p q i j vs ws, (forall l, Permutation (order l) l) -> history st L ->
  covariance order st is (Ok m) st' -> nth_error is p = Some i -> nth_error is q = Some j ->
  nth_error L i = Some (Some vs) -> nth_error L j = Some (Some ws) -> (forall v, In v vs -> In v ws -> False) -> entry m p q = n_zero N.
Proof. exact @uncorrelated. Qed.
Print Assumptions C78_uncorrelated.
(** The covariance of w and y is zero, the one of w with itself is NaN. *)
Example C78_uncorrelated_example : exists m st', history d6 d_known /\ covariance (fun l => l) d6 [3; 1]%nat (Ok m) st' /\
  nth_error d_known 3 = Some (Some [0; 0; 0; 0]%nat) /\ nth_error d_known 1 = Some (Some [1]%nat) /\
  (forall v, In v [0; 0; 0; 0]%nat -> In v [1]%nat -> False) /\ entry m 0 0 = (fnan : f64) /\ entry m 0 1 = (f0 : f64).
Proof. exact ex_uncorrelated. Qed.
