(** Property theorems about derivatives in binary64 against calculus. *)
From Coq Require Import ZArith List Bool Reals Permutation Relations.Relation_Operators.
From Coquelicot Require Import Coquelicot.
From Flocq Require Import Core BinarySingleNaN.
From Verif Require Import Base Heap HeapSpec NumF Affine Ops UMath Machine Cov Calls Unumpy UMatrix History FRefute BinStd GradSpec BinGradThm GradStd BinSqrt ExGrad BinCov ExBinCov Prim CalcSpec CalcPow CalcTop ExCalc.
Import ListNotations.
Local Open Scope R_scope.

(** ** C74 *)
(** C74: derivatives of the math functions, as computed, against the derivatives of calculus. *)
Theorem C74_functions : forall lm f (x : f64), libm_ok lm -> settled f (B2R x) -> is_finite x = true -> m1_dom f (B2R x) -> tame (B2R x) ->
  exists c, is_derive (real_fun f) (B2R x) c /\
    (tame c -> exists c', m1_pos (N:=FOps lm) f 0 [PNum (PF (N:=FOps lm) x)] [] = Ok c' /\ cfinite lm c' = true /\ about (cval lm c') c).
Proof. exact calculus_functions. Qed.
Print Assumptions C74_functions.
(** The exponential at 1, for a C library that rounds correctly. *)
Example C74_functions_example : exists lm (x : f64), libm_ok lm /\ settled F_exp (B2R x) /\ is_finite x = true /\ m1_dom F_exp (B2R x) /\ tame (B2R x) /\
  B2R x = 1 /\ is_derive (real_fun F_exp) 1 (exp 1) /\ tame (exp 1).
Proof. exact ex_function. Qed.
(** acos at 1/2. *)
Example C74_functions_example_acos : exists lm (x : f64), libm_ok lm /\ settled F_acos (B2R x) /\ is_finite x = true /\ m1_dom F_acos (B2R x) /\ tame (B2R x) /\
  B2R x = / 2 /\ is_derive (real_fun F_acos) (/ 2) (- (1) / sqrt (1 - (/ 2) ^ 2)) /\ tame (- (1) / sqrt (1 - (/ 2) ^ 2)).
Proof. exact ex_acos. Qed.
(** Functions of two arguments: atan2, copysign, hypot, log with a base, pow. *)
Theorem C74_functions2 : forall lm f (p q : pynum (FOps lm)), libm_ok lm -> libm2_ok lm -> cfinite lm p = true -> cfinite lm q = true ->
  representable (cval lm p) -> representable (cval lm q) -> m2_dom f true true (cval lm p) (cval lm q) -> tame (cval lm p) -> tame (cval lm q) -> settled2 f (cval lm p) (cval lm q) ->
  exists cx cy, is_derive (fun t => real_fun2 f t (cval lm q)) (cval lm p) cx /\ is_derive (fun t => real_fun2 f (cval lm p) t) (cval lm q) cy /\
    (tame cx -> exists c, m2_pos (N:=FOps lm) f 0 [PNum p; PNum q] [] = Ok c /\ cfinite lm c = true /\ about (cval lm c) cx) /\
    (tame cy -> exists c, m2_pos (N:=FOps lm) f 1 [PNum p; PNum q] [] = Ok c /\ cfinite lm c = true /\ about (cval lm c) cy).
Proof. exact calculus_functions2. Qed.
Print Assumptions C74_functions2.
(** hypot(3, 4). *)
Example C74_functions2_example : exists lm (p q : pynum (FOps lm)), libm_ok lm /\ libm2_ok lm /\ cfinite lm p = true /\ cfinite lm q = true /\
  representable (cval lm p) /\ representable (cval lm q) /\ m2_dom G_hypot true true (cval lm p) (cval lm q) /\ tame (cval lm p) /\ tame (cval lm q) /\
  settled2 G_hypot (cval lm p) (cval lm q) /\ cval lm p = 3 /\ cval lm q = 4 /\
  is_derive (fun t => real_fun2 G_hypot t 4) 3 (3 / 5) /\ is_derive (fun t => real_fun2 G_hypot 3 t) 4 (4 / 5) /\ tame (3 / 5) /\ tame (4 / 5).
Proof. exact ex_function2. Qed.
(** The four operations, and powers of positive numbers, with respect to both operands. *)
Theorem C74_operators : forall lm op (p q : pynum (FOps lm)), libm_ok lm -> cfinite lm p = true -> cfinite lm q = true -> op_dom op (cval lm p) (cval lm q) ->
  exists cx cy, is_derive (fun t => real_op op t (cval lm q)) (cval lm p) cx /\ is_derive (fun t => real_op op (cval lm p) t) (cval lm q) cy /\
    (tame cx -> exists c, op_der_x op p q = Ok c /\ cfinite lm c = true /\ about (cval lm c) cx) /\
    (tame cy -> exists c, op_der_y op p q = Ok c /\ cfinite lm c = true /\ about (cval lm c) cy).
Proof. exact calculus_operators. Qed.
Print Assumptions C74_operators.
(** 2.0**3, of derivative 12. *)
Example C74_operators_example : exists lm (p q : pynum (FOps lm)), libm_ok lm /\ cfinite lm p = true /\ cfinite lm q = true /\ op_dom Bpow (cval lm p) (cval lm q) /\
  cval lm p = 2 /\ cval lm q = 3 /\ is_derive (fun t => real_op Bpow t 3) 2 12 /\ tame 12.
Proof. exact ex_operator. Qed.
(** Integer powers, of negative numbers too. *)
Theorem C74_integer_powers : forall lm (x : f64) (q : pynum (FOps lm)) n, libm_ok lm -> is_finite x = true -> B2R x <> 0 -> tame (B2R x) ->
  cfinite lm q = true -> cval lm q = IZR n -> tame (IZR n) -> representable (IZR n) -> representable (IZR n - 1) ->
  exists c, is_derive (fun t => powerRZ t n) (B2R x) c /\
    (tame c -> exists c', op_der_x Bpow (PF (N:=FOps lm) x) q = Ok c' /\ cfinite lm c' = true /\ about (cval lm c') c).
Proof. exact calculus_powers. Qed.
Print Assumptions C74_integer_powers.
(** (-2.0)**3. *)
Example C74_integer_powers_example : exists lm (x : f64) (q : pynum (FOps lm)), libm_ok lm /\ is_finite x = true /\ B2R x = -2 /\ tame (B2R x) /\ cfinite lm q = true /\
  cval lm q = IZR 3 /\ tame (IZR 3) /\ representable (IZR 3) /\ representable (IZR 3 - 1) /\ is_derive (fun t => powerRZ t 3) (-2) 12 /\ tame 12.
Proof. exact ex_power. Qed.
(** Whole calculations: derivatives against the chain rule with exact derivatives at each step. *)
Theorem C74_histories : forall lm st L i a, libm_ok lm -> libm2_ok lm -> analytic lm st L -> nth_error L i = Some (Some a) -> well_in_range a ->
  exists d, reads st (IDeriv i) (ODict d) /\ NoDup (dkeys d) /\ (forall v x, dget d v = Some x -> is_finite (x : f64) = true) /\
    forall v, Rabs (fval lm d v - grad a v) <= INR (roundings a) / 2 ^ 52 * paths a v.
Proof. exact calculus_histories. Qed.
Print Assumptions C74_histories.
(** x = ufloat(4, 1); y = sqrt(x); z = y*x; w = z/2. *)
Example C74_histories_example : exists lm L, libm_ok lm /\ libm2_ok lm /\ analytic lm (c5 lm) L /\ nth_error L 4%nat = Some (Some lin_w) /\
  well_in_range lin_w /\ grad lin_w 0%nat = 3 / 2 /\ paths lin_w 0%nat = 3 / 2 /\ roundings lin_w = 156%nat.
Proof. exact ex_analytic. Qed.
(** The derivative of tanh is not accurate, whatever the C library: at 30, for instance. *)
Theorem C74_tanh_refuted : exists (x : f64) c, is_finite x = true /\ m1_dom F_tanh (B2R x) /\ tame (B2R x) /\ is_derive (real_fun F_tanh) (B2R x) c /\ tame c /\
  forall lm c', m1_pos (N:=FOps lm) F_tanh 0 [PNum (PF (N:=FOps lm) x)] [] = Ok c' -> cfinite lm c' = true -> ~ about (cval lm c') c.
Proof. exact tanh_derivative_refuted. Qed.
Print Assumptions C74_tanh_refuted.
