(** Property theorems: uncertainties and covariances in terms of the derivatives, in any arithmetic. *)
From Coq Require Import ZArith List Bool.
From Flocq Require Import Core BinarySingleNaN.
From Verif Require Import Base NumF Heap HeapSpec Affine Ops UMath Machine Cov Calls Unumpy UMatrix History FRefute DepSpec AnySpec AnyArith ExAny.
Import ListNotations.

(** ** C03, C04, C08, C15 *)
(** C15 in any arithmetic: the components are the products of the derivatives and of the standard deviations. *)
Theorem C15_any_arithmetic : forall (N : NumOps), forall (st : state N) i u d e, is_number st i u -> reads st (IDeriv i) (ODict d) -> reads st (IErrs i) (OErrs e) ->
  e = map (fun p => (fst p, component (sd st (fst p)) (snd p))) d.
Proof. exact @components_any. Qed.
Print Assumptions C15_any_arithmetic.
(** C03 in any arithmetic: the standard deviation is the root of the sum of the squares of the components. *)
Theorem C03_any_arithmetic : forall (N : NumOps), forall (st : state N) i u e ins, is_number st i u -> reads st (IErrs i) (OErrs e) ->
  ins = IStdS i \/ (ins = IStd i /\ uf_var u = None) -> reads st ins (as_number (root_of_squares (map snd e))).
Proof. exact @std_any. Qed.
Print Assumptions C03_any_arithmetic.
(** C04 in any arithmetic: reading a number does not change what is then read of it. *)
Theorem C04_same_number_any : forall (N : NumOps), forall (st : state N) i u d ins st' o, is_number st i u -> reads st (IDeriv i) (ODict d) -> about i ins -> does st ins st' o ->
  is_number st' i u /\ forall ins' o', about i ins' -> (reads st ins' o' <-> reads st' ins' o').
Proof. exact @same_number. Qed.
Print Assumptions C04_same_number_any.
(** C08 in any arithmetic: the setter of a standard deviation changes this standard deviation only. *)
Theorem C08_any_arithmetic : forall (N : NumOps), forall (st : state N) j w v s st', is_number st j w -> uf_var w = Some v -> does st (ISet j s) st' ONone ->
  st_env st' = st_env st /\ check_std s = Ok (sd st' v) /\ (forall x, x <> v -> sd st' x = sd st x) /\
  forall i o, reads st (IDeriv i) o <-> reads st' (IDeriv i) o.
Proof. exact @set_any. Qed.
Print Assumptions C08_any_arithmetic.
(** q = x + y in binary64, its two derivatives and its two components. *)
Example any_arithmetic_example : exists u, is_number (after cors) 2 u /\ uf_var u = None /\ reads (after cors) (IDeriv 2) (ODict (N:=FN) q_dict) /\ dkeys q_dict = [1; 0]%nat /\
  reads (after cors) (IErrs 2) (OErrs q_errs) /\ dkeys q_errs = [1; 0]%nat /\ about (N:=FN) 2 (IStd 2).
Proof. exact ex_read_q. Qed.
(** x.std_dev = 0. *)
Example any_set_example : exists u st', is_number (after cors) 0 u /\ uf_var u = Some 0%nat /\ does (after cors) (ISet 0 (PZ 0)) st' ONone /\ reads st' (IStd 0) (ONum (N:=FN) f0).
Proof. exact ex_set_x. Qed.
(** ** C17, C20 *)
(** C17 in any arithmetic: covariance matrices are exactly symmetric. *)
Theorem C17_symmetric_any : forall (N : NumOps), forall order (st : state N) is m st', covariance order st is (Ok m) st' ->
  square (length is) m /\ forall a b, entry m a b = entry m b a.
Proof. exact @symmetric_any. Qed.
Print Assumptions C17_symmetric_any.
(** ... and their entries are the sums of products of derivatives and of variances. *)
Theorem C17_entries_any : forall (N : NumOps), forall order (st : state N) is m st' a b i j d d', covariance order st is (Ok m) st' -> nth_error is a = Some i -> nth_error is b = Some j ->
  (b <= a)%nat -> reads st' (IDeriv i) (ODict d) -> reads st' (IDeriv j) (ODict d') -> covariance_sum (sd st') d d' (order (both d d')) = Ok (entry m a b).
Proof. exact @entries_any. Qed.
Print Assumptions C17_entries_any.
(** C20 in binary64: a correlation matrix with different symmetric entries and a diagonal entry greater than 1. *)
Theorem C20_binary64_refuted : exists c m st', reachable (after cors) /\ correlation (fun l => l) (after cors) [0; 2; 6]%nat (Ok c) st' /\
  covariance (fun l => l) (after cors) [0; 2; 6]%nat (Ok m) st' /\
  Bltb (entry (N:=FN) c 0 1 : f64) (entry (N:=FN) c 1 0) = true /\ Bltb fone (entry (N:=FN) c 2 2 : f64) = true.
Proof. exact f_correlation. Qed.
Print Assumptions C20_binary64_refuted.
