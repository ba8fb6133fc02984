(** Property theorems: what comes out of reads of uncertainties, in binary64. *)
From Coq Require Import ZArith List Bool.
From Flocq Require Import Core BinarySingleNaN.
From Verif Require Import Base NumF Heap HeapSpec Affine Ops UMath Machine Cov Calls Unumpy UMatrix History FRefute DepSpec OutcomeSpec Outcome OutcomeCov OutcomeCmp ExOutcome.
Import ListNotations.

(** ** C81 *)
(** C81: a read of the derivatives of any number ends, with a dictionary or with OverflowError. *)
Theorem C81_derivatives : forall lm (st : state (FOps lm)) i u, reachable st -> is_number st i u ->
  exists o, reads st (IDeriv i) o /\ (o = OExn EOverflow \/ exists d, o = ODict d).
Proof. exact derivatives_or_overflow. Qed.
Print Assumptions C81_derivatives.
(** Both happen: a sum of two variables, and a function of which the derivative is given as an int greater than all floats. *)
Example C81_derivatives_example : reachable (after far) /\ is_number (after far) 3 (uf_at (after far) 3) /\ reads (after far) (IDeriv 3) (OExn EOverflow) /\
  is_number (after far) 2 (uf_at (after far) 2) /\ exists d, reads (after far) (IDeriv 2) (ODict d) /\ length d = 2%nat.
Proof. exact ex_derivatives. Qed.
(** ... Error components are never negative (zero, a float that is not below zero, or NaN), and only OverflowError can be raised. *)
Theorem C81_components : forall lm, forall (st : state (FOps lm)) L i vs u, reachable st -> history st L -> nth_error L i = Some (Some vs) -> is_number st i u ->
  exists o, reads st (IErrs i) o /\ (o = OExn EOverflow \/ exists c, o = OErrs c /\ forall v p, In (v, p) c -> size_of_error p).
Proof. exact errors_or_overflow. Qed.
Print Assumptions C81_components.
(** The components of z = x + y (history_e3 is the history that C81_components asks for; see C81_overflow_example). *)
Example C81_components_example : exists c, reads e3 (IErrs 2) (OErrs c) /\ length c = 2%nat.
Proof. exact ex_components. Qed.
(** ... The standard deviation of a calculated number is never negative, and only OverflowError can be raised when it is read: never the ValueError of a square root. The same holds for x.s. *)
Theorem C81_deviation : forall lm, squares_not_negative lm -> forall (st : state (FOps lm)) L i vs u ins, reachable st -> history st L -> nth_error L i = Some (Some vs) -> is_number st i u ->
  ins = IStdS i \/ (ins = IStd i /\ uf_var u = None) ->
  exists o, reads st ins o /\ (o = OExn EOverflow \/ exists s : f64, o = ONum (N:=FOps lm) s /\ ~ negative s).
Proof. exact deviation_or_overflow. Qed.
Print Assumptions C81_deviation.
(** x = ufloat(1, 2.0**600): the uncertainty of x + y raises OverflowError. *)
Example C81_overflow_example : squares_not_negative lm0 /\ reachable e3 /\ history e3 o_known /\ nth_error o_known 2 = Some (Some [0; 1]%nat) /\ is_number e3 2 (uf_at e3 2) /\
  uf_var (uf_at e3 2) = None /\ reads e3 (IStd 2) (OExn EOverflow).
Proof. exact ex_overflows. Qed.
(** y.s is greater than zero. *)
Example C81_deviation_example : exists s : f64, reads e3 (IStdS 1) (ONum (N:=FN) s) /\ Bltb f0 s = true.
Proof. exact ex_deviation_y. Qed.
(** ... The diagonal of a covariance matrix is never negative. *)
Theorem C81_variances : forall lm, squares_not_negative lm -> forall order (st : state (FOps lm)) is m st' a i, covariance order st is (Ok m) st' ->
  nth_error is a = Some i -> ~ negative (entry (N:=FOps lm) m a a).
Proof. exact variances_not_negative. Qed.
Print Assumptions C81_variances.
(** The variance of y is greater than zero. *)
Example C81_variances_example : exists m st', covariance (fun l => l) e3 [1]%nat (Ok m) st' /\ nth_error [1]%nat 0 = Some 1%nat /\ Bltb f0 (entry (N:=FN) m 0 0 : f64) = true.
Proof. exact ex_variance. Qed.
(** ... A comparison of two such numbers ends, with a boolean or with OverflowError. *)
Theorem C81_comparison : forall lm, squares_not_negative lm -> forall (st : state (FOps lm)) L i j vi vj x y c, reachable st -> history st L ->
  nth_error L i = Some (Some vi) -> nth_error L j = Some (Some vj) -> is_number st i x -> is_number st j y ->
  exists o, reads st (ICmp c i j) o /\ (o = OExn EOverflow \/ exists b, o = OBool b).
Proof. exact comparison_or_overflow. Qed.
Print Assumptions C81_comparison.
(** x == x and x < y. *)
Example C81_comparison_example : nth_error o_known 0 = Some (Some [0]%nat) /\ nth_error o_known 1 = Some (Some [1]%nat) /\ is_number e3 0 (uf_at e3 0) /\ is_number e3 1 (uf_at e3 1) /\
  reads e3 (ICmp Ceq 0 0) (OBool true) /\ reads e3 (ICmp Clt 0 1) (OBool true) /\ reads e3 (ICmp Cge 0 1) (OBool false).
Proof. exact ex_comparisons. Qed.
