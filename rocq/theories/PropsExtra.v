(** Property theorems: functions of umath, arrays built from tuples, correlations of numbers
    without uncertainty. *)
From Coq Require Import String ZArith List Bool.
From Flocq Require Import BinarySingleNaN.
From Verif Require Import Base Heap Affine Machine History Cov Unumpy UnumpySpec NumF FRefute Extra.
Import ListNotations.
Local Open Scope string_scope.

(** ** C51 *)
(** umath has the functions of real numbers of the math module, and no other function. *)
Theorem C51_functions : forall dir_math s,
  In s (umath_all dir_math) <-> In s real_functions /\ (In s dir_math \/ In s ["modf"; "ldexp"; "factorial"; "fsum"; "frexp"]).
Proof. exact umath_complete. Qed.
Print Assumptions C51_functions.
Example C51_functions_example : In "gamma" (umath_all ["gamma"; "gcd"]) /\ ~ In "gcd" (umath_all ["gamma"; "gcd"]).
Proof. exact ex_umath_complete. Qed.
(** ** C48 *)
(** A tuple of arrays of the same shape is used like the array made of these rows. *)
Theorem C48_tuple : forall (N : NumOps), forall (l : list (arr (pynum N))) sh A s h, l <> [] -> List.Forall (fun b => wf_arr b /\ a_shape b = sh) l ->
  wf_arr A -> a_cls A = ANd -> a_shape A = List.length l :: sh ->
  (forall k b idx, nth_error l k = Some b -> valid sh idx -> elem A (k :: idx) = elem b idx) ->
  uarray (UTuple l) (Some s) h = uarray (UArr A) (Some s) h /\ uarray s (Some (UTuple l)) h = uarray s (Some (UArr A)) h.
Proof. exact @uarray_tuple. Qed.
Print Assumptions C48_tuple.
(** ([1, 2], [3, 4]). *)
Example C48_tuple_example : forall (N : NumOps), [row (N:=N) [1; 2]%Z; row [3; 4]%Z] <> [] /\ List.Forall (fun b => wf_arr b /\ a_shape b = [2]) [row (N:=N) [1; 2]%Z; row [3; 4]%Z] /\
  wf_arr (two_rows (N:=N)) /\ a_cls (two_rows (N:=N)) = ANd /\ a_shape (two_rows (N:=N)) = List.length [row (N:=N) [1; 2]%Z; row [3; 4]%Z] :: [2] /\
  (forall k b idx, nth_error [row (N:=N) [1; 2]%Z; row [3; 4]%Z] k = Some b -> valid [2] idx -> elem (two_rows (N:=N)) (k :: idx) = elem b idx).
Proof. exact @ex_uarray_tuple. Qed.
(** Tuples of arrays of different shapes are refused. *)
Theorem C48_ragged : forall (N : NumOps), forall a b (l : list (arr (pynum N))) s h, In b l -> a_shape b <> a_shape a ->
  uarray (UTuple (a :: l)) (Some s) h = (Err EValue, h) /\
  (forall n, uarray (UArr n) (Some (UTuple (a :: l))) h = (Err EValue, h)).
Proof. exact @uarray_ragged. Qed.
Print Assumptions C48_ragged.
(** ([1, 2], [3]). *)
Example C48_ragged_example : forall (N : NumOps), In (row (N:=N) [3]%Z) [row [3]%Z] /\ a_shape (row (N:=N) [3]%Z) <> a_shape (row (N:=N) [1; 2]%Z).
Proof. exact @ex_uarray_ragged. Qed.
(** uarray((), ()) is an empty array of one dimension. *)
Theorem C48_empty : forall (N : NumOps), forall h, uarray (N:=N) (UTuple []) (Some (UTuple [])) h = (Ok (mkArr ANd [0] []), h).
Proof. exact @uarray_empty. Qed.
Print Assumptions C48_empty.
(** ** C20 *)
(** Binary64: the correlation matrix is calculated even if some variances are zero; the correlations with these numbers are NaN if the covariance is zero, and in any case NaN or infinite. *)
Theorem C20_no_variance : forall (lm : Libm), forall order (st st' : state (FOps lm)) is m, covariance order st is (Ok m) st' ->
  exists c, correlation order st is (Ok c) st' /\
    forall a b, a < List.length m -> b < List.length m -> Beqb (entry m a a : f64) f0 = true ->
      is_finite (entry c a b : f64) = false /\ is_finite (entry c b a : f64) = false /\
      (Beqb (entry m a b : f64) f0 = true -> is_nanf (entry c a b) = true) /\ (Beqb (entry m b a : f64) f0 = true -> is_nanf (entry c b a) = true).
Proof. exact correlation_zero. Qed.
Print Assumptions C20_no_variance.
(** ufloat(1, 0) and ufloat(2, 1). *)
Example C20_no_variance_example : exists st' m, covariance (fun l => l) zo [0; 1] (Ok m) st' /\ List.length m = 2 /\ Beqb (entry m 0 0 : f64) f0 = true /\ Beqb (entry m 1 1 : f64) fone = true.
Proof. exact ex_correlation_zero. Qed.
(** An infinite correlation: the variance of x*2.**-560 underflows for x = ufloat(1, 1), its covariance with x does not. *)
Example C20_infinite_example : exists st' c, correlation (fun l => l) tn [0; 2] (Ok c) st' /\
  is_inf (entry c 0 1 : f64) = true /\ is_inf (entry c 1 0 : f64) = true /\ is_nanf (entry c 1 1 : f64) = true /\ Beqb (entry c 0 0 : f64) fone = true.
Proof. exact ex_correlation_infinite. Qed.
