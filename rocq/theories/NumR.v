(** Exact instance of the float operations: real numbers, no rounding, no NaN, no infinity.
    Definitions only. Trusted reading: this is the idealisation in which the package's
    documentation states its claims ("derivatives", "standard deviation"). *)
From Coq Require Import ZArith List Bool Reals Lra.
From Coquelicot Require Import Coquelicot.
From Flocq Require Import Core.
From Verif Require Import Base.
Import ListNotations.
Local Open Scope R_scope.

Definition Reqb (x y : R) : bool := if Req_EM_T x y then true else false.
Definition Rltb (x y : R) : bool := if Rlt_dec x y then true else false.
Definition Rleb (x y : R) : bool := if Rle_dec x y then true else false.

(** A real that is an integer. *)
Definition Ris_int (y : R) : bool := Reqb (IZR (Zfloor y)) y.

(** float.__pow__ without rounding: 0**negative raises ZeroDivisionError, a negative base
    with a non-integral exponent gives a complex number. *)
Definition Rpow_py (x y : R) : res (option R) :=
  if Reqb y 0 then Ok (Some 1)
  else if Rltb 0 x then Ok (Some (Rpower x y))
  else if Reqb x 0 then (if Rltb 0 y then Ok (Some 0) else Err EZeroDiv)
  else if Ris_int y then Ok (Some (powerRZ x (Zfloor y))) else Ok None.

(** math.pow: ValueError instead of a complex number or of ZeroDivisionError. *)
Definition Rpow_math (x y : R) : res R :=
  match Rpow_py x y with
  | Ok (Some r) => Ok r
  | _ => Err EValue
  end.

Definition Racosh (x : R) : R := ln (x + sqrt (x ^ 2 - 1)).
Definition Rasinh (x : R) : R := ln (x + sqrt (x ^ 2 + 1)).
Definition Ratanh (x : R) : R := / 2 * ln ((1 + x) / (1 - x)).
Definition Rerf (x : R) : R := 2 / sqrt PI * RInt (fun t => exp (- t ^ 2)) 0 x.
Definition Ratan2 (y x : R) : R :=
  if Rltb 0 x then atan (y / x)
  else if Rltb 0 y then PI / 2 - atan (x / y)
  else if Rltb y 0 then - (PI / 2) - atan (x / y)
  else if Rltb x 0 then PI else 0.
Definition Rcopysign (x y : R) : R := if Rleb 0 y then Rabs x else - Rabs x.

Definition Rfun1 (gammaR lgammaR : R -> R) (f : mfun1) (x : R) : res R :=
  match f with
  | F_acos => if Rleb (Rabs x) 1 then Ok (acos x) else Err EValue
  | F_acosh => if Rleb 1 x then Ok (Racosh x) else Err EValue
  | F_asin => if Rleb (Rabs x) 1 then Ok (asin x) else Err EValue
  | F_asinh => Ok (Rasinh x)
  | F_atan => Ok (atan x)
  | F_atanh => if Rltb (Rabs x) 1 then Ok (Ratanh x) else Err EValue
  | F_cos => Ok (cos x)
  | F_cosh => Ok (cosh x)
  | F_degrees => Ok (x * (180 / PI))
  | F_erf => Ok (Rerf x)
  | F_erfc => Ok (1 - Rerf x)
  | F_exp => Ok (exp x)
  | F_expm1 => Ok (exp x - 1)
  | F_fabs => Ok (Rabs x)
  | F_log => if Rltb 0 x then Ok (ln x) else Err EValue
  | F_log10 => if Rltb 0 x then Ok (ln x / ln 10) else Err EValue
  | F_log1p => if Rltb (-1) x then Ok (ln (1 + x)) else Err EValue
  | F_radians => Ok (x * (PI / 180))
  | F_sin => Ok (sin x)
  | F_sinh => Ok (sinh x)
  | F_sqrt => if Rleb 0 x then Ok (sqrt x) else Err EValue
  | F_tan => if Reqb (cos x) 0 then Err EValue else Ok (tan x)
  | F_tanh => Ok (tanh x)
  | F_gamma => if Ris_int x && Rleb x 0 then Err EValue else Ok (gammaR x)
  | F_lgamma => if Ris_int x && Rleb x 0 then Err EValue else Ok (lgammaR x)
  end.

Definition Rfun2 (f : mfun2) (x y : R) : res R :=
  match f with
  | G_atan2 => Ok (Ratan2 x y)
  | G_copysign => Ok (Rcopysign x y)
  | G_hypot => Ok (sqrt (x ^ 2 + y ^ 2))
  | G_log => if Rltb 0 x && Rltb 0 y
             then (if Reqb y 1 then Err EZeroDiv else Ok (ln x / ln y)) else Err EValue
  | G_pow => Rpow_math x y
  | G_fmod => if Reqb y 0 then Err EValue else Ok (x - y * IZR (Ztrunc (x / y)))
  end.

Definition Rdiv_py (x y : R) : res R := if Reqb y 0 then Err EZeroDiv else Ok (x / y).

Definition Rfrexp (x : R) : R * Z :=
  if Reqb x 0 then (0, 0%Z)
  else (x * bpow radix2 (- mag_val _ _ (mag radix2 x)), mag_val _ _ (mag radix2 x)).

(** The real-number instance; the gamma functions are not defined in the libraries used and
    are left as arguments. *)
Definition ROps (gammaR lgammaR : R -> R) : NumOps := {|
  num := R;
  n_zero := 0; n_one := 1; n_half := / 2; n_two := 2; n_ten := 10; n_pi := PI;
  n_step := bpow radix2 (-26);
  n_nan := Err ENaN;
  n_of_Z := fun z => Ok (IZR z);
  n_add := Rplus; n_sub := Rminus; n_mul := Rmult;
  n_div := Rdiv_py;
  n_npdiv := fun x y => if Reqb y 0 then Err ENaN else Ok (x / y);
  n_divZ := fun a b => Rdiv_py (IZR a) (IZR b);
  n_floordiv := fun x y => if Reqb y 0 then Err EZeroDiv else Ok (IZR (Zfloor (x / y)));
  n_mod := fun x y => if Reqb y 0 then Err EZeroDiv else Ok (x - y * IZR (Zfloor (x / y)));
  n_pow := Rpow_py;
  n_neg := Ropp; n_abs := Rabs;
  n_eq := Reqb; n_lt := Rltb; n_le := Rleb;
  n_isinfinite := fun _ => false;
  n_trunc := fun x => Ok (Ztrunc x);
  n_floor := fun x => Ok (Zfloor x);
  n_ceil := fun x => Ok (Zceil x);
  n_isinf := fun _ => false;
  n_isnan := fun _ => false;
  n_fun1 := Rfun1 gammaR lgammaR;
  n_fun2 := Rfun2;
  n_fsum := fun l => Ok (fold_right Rplus 0 l);
  n_modf := fun x => (x - IZR (Ztrunc x), IZR (Ztrunc x));
  n_frexp := Rfrexp;
  n_ldexp := fun x i => Ok (x * bpow radix2 i)
|}.
