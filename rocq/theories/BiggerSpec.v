(** Specification: comparisons of uncertainties in binary64. *)
From Coq Require Import ZArith List Bool.
From Flocq Require Import Core IEEE754.BinarySingleNaN.
From Verif Require Import Base NumF Heap Affine Machine.

(** What is assumed of the pow() of the C library: a**2 <= b**2 for floats 0 <= a <= b. *)
Definition squares_grow (lm : Libm) : Prop := forall a b x y : f64, Bleb f0 a = true -> Bleb a b = true ->
  f_pow lm a ftwo = Ok (Some x) -> f_pow lm b ftwo = Ok (Some y) -> Bleb x y = true.
(** This is so for the exact square rounded to the nearest float (FRefute.exact_squares). *)
