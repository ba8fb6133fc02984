(** Basic vocabulary of the model: Python exceptions as values, Python numbers, float
    operations as a record, insertion-ordered dictionaries. No proofs in this file. *)
From Coq Require Import ZArith List Bool.
Import ListNotations.

(** Exceptions that the modelled code can raise. [EFuel] is not a Python exception: it marks
    a model loop that ran out of fuel and is excluded by the termination theorems. [ENaN] is
    not a Python exception either: the exact real-number instance has no NaN, and a
    calculation that would produce one stops with [ENaN] there (the binary64 instance has
    real NaNs and never produces [ENaN]). *)
Inductive exn :=
| EValue | EZeroDiv | EOverflow | EType | EKey | EAttr | EIndex
| ENegStd      (* NegativeStdDev, core.py 2711-2713 *)
| ENotUpcast   (* NotUpcast, core.py 267-268 *)
| EInterrupt   (* KeyboardInterrupt, MemoryError... raised from outside *)
| EUser        (* any other exception, raised by a user function *)
| EStop        (* StopIteration *)
| EFuel | ENaN.

Inductive res (A : Type) := Ok (a : A) | Err (e : exn).
Arguments Ok {A} a.
Arguments Err {A} e.

Definition rbind {A B} (m : res A) (k : A -> res B) : res B :=
  match m with Ok a => k a | Err e => Err e end.
Definition rmap {A B} (f : A -> B) (m : res A) : res B :=
  match m with Ok a => Ok (f a) | Err e => Err e end.

Declare Scope res_scope.
Notation "x <- m ;; k" := (rbind m (fun x => k))
  (at level 61, m at next level, right associativity) : res_scope.

(** math functions of one and two float arguments that umath wraps
    (umath_core.py 180-213 and 62-72). [F_log] is the one-argument form of math.log and
    [G_log] the two-argument form. *)
Inductive mfun1 :=
| F_acos | F_acosh | F_asin | F_asinh | F_atan | F_atanh | F_cos | F_cosh | F_degrees
| F_erf | F_erfc | F_exp | F_expm1 | F_fabs | F_log | F_log10 | F_log1p | F_radians
| F_sin | F_sinh | F_sqrt | F_tan | F_tanh | F_gamma | F_lgamma.
Inductive mfun2 := G_atan2 | G_copysign | G_hypot | G_log | G_pow | G_fmod.

(** The operations on Python floats used by the modelled code. The model is written once
    over this record; [NumR.v] instantiates it with the real numbers and [NumF.v] with IEEE
    binary64 numbers. The record contains operations only, no laws. *)
Record NumOps := mkNumOps {
  num :> Type;
  n_zero : num;                          (* 0. *)
  n_one : num;                           (* 1. *)
  n_half : num;                          (* 0.5 *)
  n_two : num;                           (* 2. *)
  n_ten : num;                           (* 10. *)
  n_pi : num;                            (* math.pi *)
  n_step : num;                          (* core.py 295: STEP_SIZE *)
  n_nan : res num;                       (* float('nan') *)
  n_of_Z : Z -> res num;                 (* float(int): OverflowError if too large *)
  n_add : num -> num -> num;
  n_sub : num -> num -> num;
  n_mul : num -> num -> num;
  n_div : num -> num -> res num;         (* ZeroDivisionError *)
  n_npdiv : num -> num -> res num;       (* NumPy's division: NaN or infinity *)
  n_divZ : Z -> Z -> res num;            (* int/int true division *)
  n_floordiv : num -> num -> res num;
  n_mod : num -> num -> res num;
  n_pow : num -> num -> res (option num);(* x**y; [Ok None] is a complex result *)
  n_neg : num -> num;
  n_abs : num -> num;
  n_eq : num -> num -> bool;             (* == *)
  n_lt : num -> num -> bool;             (* <  *)
  n_le : num -> num -> bool;             (* <= *)
  n_isinfinite : num -> bool;            (* core.py 29-33: isinf(x) or isnan(x) *)
  n_trunc : num -> res Z;                (* float.__trunc__ *)
  n_floor : num -> res Z;                (* math.floor *)
  n_ceil : num -> res Z;                 (* math.ceil *)
  n_isinf : num -> bool;                 (* math.isinf *)
  n_isnan : num -> bool;                 (* math.isnan *)
  n_fun1 : mfun1 -> num -> res num;      (* math functions of one argument *)
  n_fun2 : mfun2 -> num -> num -> res num;
  n_fsum : list num -> res num;          (* math.fsum *)
  n_modf : num -> num * num;             (* math.modf: (fractional, integral) *)
  n_frexp : num -> num * Z;              (* math.frexp: (mantissa, exponent) *)
  n_ldexp : num -> Z -> res num          (* math.ldexp *)
}.

(** Truth value of a float: everything but 0.0 and -0.0 is true, NaN included. *)
Definition n_truth (N : NumOps) (x : num N) : bool := negb (n_eq N x (n_zero N)).

(** A Python number: an int of any size or a float (numpy floats count as floats). *)
Inductive pynum (N : NumOps) := PZ (z : Z) | PF (x : num N).
Arguments PZ {N} z.
Arguments PF {N} x.

Section PyNum.
Context {N : NumOps}.
Open Scope res_scope.

(** float(x) for an int or a float. *)
Definition pn_float (a : pynum N) : res (num N) :=
  match a with PZ z => n_of_Z N z | PF x => Ok x end.

(** Python's binary arithmetic on a mix of ints and floats: int op int stays int (except
    /), anything else converts the ints to float first. *)
Definition pn_add (a b : pynum N) : res (pynum N) :=
  match a, b with
  | PZ x, PZ y => Ok (PZ (x + y))
  | _, _ => x <- pn_float a ;; y <- pn_float b ;; Ok (PF (n_add N x y))
  end.
Definition pn_sub (a b : pynum N) : res (pynum N) :=
  match a, b with
  | PZ x, PZ y => Ok (PZ (x - y))
  | _, _ => x <- pn_float a ;; y <- pn_float b ;; Ok (PF (n_sub N x y))
  end.
Definition pn_mul (a b : pynum N) : res (pynum N) :=
  match a, b with
  | PZ x, PZ y => Ok (PZ (x * y))
  | _, _ => x <- pn_float a ;; y <- pn_float b ;; Ok (PF (n_mul N x y))
  end.
Definition pn_div (a b : pynum N) : res (pynum N) :=
  match a, b with
  | PZ x, PZ y => r <- n_divZ N x y ;; Ok (PF r)
  | _, _ => x <- pn_float a ;; y <- pn_float b ;; r <- n_div N x y ;; Ok (PF r)
  end.
Definition pn_neg (a : pynum N) : pynum N :=
  match a with PZ x => PZ (- x) | PF x => PF (n_neg N x) end.
Definition pn_abs (a : pynum N) : pynum N :=
  match a with PZ x => PZ (Z.abs x) | PF x => PF (n_abs N x) end.

(** float**float where the code expects a float back; a complex value would then fail in
    later float operations (TypeError). *)
Definition n_powf (x y : num N) : res (num N) :=
  r <- n_pow N x y ;; match r with Some z => Ok z | None => Err EType end.

(** x**2 on a Python number (core.py 1836, 2512): exact on ints, libm pow on floats. *)
Definition pn_square (a : pynum N) : res (pynum N) :=
  match a with
  | PZ x => Ok (PZ (x * x))
  | PF x => r <- n_powf x (n_two N) ;; Ok (PF r)
  end.

(** x == 0, truth value, x > 0 on a Python number. *)
Definition pn_is0 (a : pynum N) : bool :=
  match a with PZ z => Z.eqb z 0 | PF x => n_eq N x (n_zero N) end.
Definition pn_gt0 (a : pynum N) : bool :=
  match a with PZ z => Z.ltb 0 z | PF x => n_lt N (n_zero N) x end.
Definition pn_lt0 (a : pynum N) : bool :=
  match a with PZ z => Z.ltb z 0 | PF x => n_lt N x (n_zero N) end.

(** math.sqrt of a Python number. *)
Definition pn_sqrt (a : pynum N) : res (num N) :=
  x <- pn_float a ;; n_fun1 N F_sqrt x.

End PyNum.

(** Insertion-ordered dictionaries keyed by variable identities: Python dicts with Variable
    keys (hash and equality by identity, core.py 2806-2811). *)
Section Dict.
Context {V : Type}.

Fixpoint dget (d : list (nat * V)) (k : nat) : option V :=
  match d with
  | [] => None
  | (k', v) :: d' => if Nat.eqb k k' then Some v else dget d' k
  end.

(** d[k] = v: an existing key keeps its position, a new key goes last. *)
Fixpoint dset (d : list (nat * V)) (k : nat) (v : V) : list (nat * V) :=
  match d with
  | [] => [(k, v)]
  | (k', v') :: d' => if Nat.eqb k k' then (k', v) :: d' else (k', v') :: dset d' k v
  end.

Definition dkeys (d : list (nat * V)) : list nat := map fst d.
End Dict.

(** Replacement of the i-th element of a list (no effect if out of range). *)
Fixpoint list_set {A} (l : list A) (i : nat) (x : A) : list A :=
  match l, i with
  | [], _ => []
  | _ :: l', O => x :: l'
  | y :: l', S i' => y :: list_set l' i' x
  end.
