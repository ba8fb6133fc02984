(** Specification: what can come out of a read of an uncertainty in binary64. *)
From Coq Require Import ZArith List Bool.
From Flocq Require Import Core IEEE754.BinarySingleNaN.
From Verif Require Import Base NumF Heap Affine Machine.

(** A float is negative when it is below zero: neither zero (of any sign) nor NaN is. *)
Definition negative (x : f64) : Prop := Bltb x f0 = true.

(** What is assumed of the pow() of the C library: the square of a positive number is not negative. *)
Definition squares_not_negative (lm : Libm) : Prop :=
  forall a : f64, Bltb f0 a = true -> ~ negative (lm_pow lm a ftwo).

(** A Python number that is not negative: the int 0, or a float. *)
Definition size_of_error {lm : Libm} (p : pynum (FOps lm)) : Prop :=
  match p with PZ z => z = 0%Z | PF x => ~ negative x end.
