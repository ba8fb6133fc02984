(** IEEE binary64 instance of the float operations, on Flocq's computable numbers (a single
    NaN). Basic operations, sqrt, conversions, fmod-based operations and fsum are exact
    transcriptions; the C library functions are the fields of a record of oracles.
    Definitions only. *)
From Coq Require Import ZArith List Bool Lia.
From Flocq Require Import Core BinarySingleNaN.
From Verif Require Import Base.
Import ListNotations.
Local Open Scope Z_scope.

Definition f64 := binary_float 53 1024.
Definition prec_gt_0_64 : Prec_gt_0 53 := eq_refl.
Definition prec_lt_emax_64 : Prec_lt_emax 53 1024 := eq_refl.
#[global] Existing Instance prec_gt_0_64.
#[global] Existing Instance prec_lt_emax_64.

Definition fadd (x y : f64) : f64 := Bplus mode_NE x y.
Definition fsub (x y : f64) : f64 := Bminus mode_NE x y.
Definition fmul (x y : f64) : f64 := Bmult mode_NE x y.
Definition fdiv (x y : f64) : f64 := Bdiv mode_NE x y.
Definition fneg (x : f64) : f64 := Bopp x.
Definition fabs (x : f64) : f64 := Babs x.
(** Nearest float to m * 2^e. *)
Definition fnorm (m e : Z) : f64 := binary_normalize 53 1024 _ _ mode_NE m e false.
Definition f0 : f64 := B754_zero false.
Definition fnan : f64 := B754_nan.
Definition finf (s : bool) : f64 := B754_infinity s.
Definition is_inf (x : f64) : bool := match x with B754_infinity _ => true | _ => false end.
Definition is_nanf (x : f64) : bool := match x with B754_nan => true | _ => false end.
Definition sign_of (x : f64) : bool := Bsign x.
Definition fzero_s (s : bool) : f64 := B754_zero s.

(** Exact value of a finite float as (m, e): m * 2^e. *)
Definition fexact (x : f64) : option (Z * Z) :=
  match x with
  | B754_zero _ => Some (0, 0)
  | B754_finite s m e _ => Some (cond_Zopp s (Zpos m), e)
  | _ => None
  end.

(** float(int): OverflowError if the rounded value is not finite. *)
Definition f_of_Z (z : Z) : res f64 :=
  let x := fnorm z 0 in if is_inf x then Err EOverflow else Ok x.

(** Nearest float to a/b (b > 0, a any integer): enough quotient bits, and a sticky bit. *)
Definition fratio (a b : Z) : f64 :=
  let k := Z.max 0 (70 + Z.log2 b - Z.log2 (Z.abs a)) in
  let n := Z.abs a * 2 ^ k in
  let q := n / b in
  let s := if n mod b =? 0 then 2 * q else 2 * q + 1 in
  fnorm (if a <? 0 then - s else s) (- k - 1).

(** int/int: true division, correctly rounded. *)
Definition f_divZ (a b : Z) : res f64 :=
  if b =? 0 then Err EZeroDiv
  else let x := if b <? 0 then fratio (- a) (- b) else fratio a b in
       if is_inf x then Err EOverflow else Ok x.

(** float/float in Python: ZeroDivisionError. *)
Definition f_div (x y : f64) : res f64 :=
  if Beqb y f0 then Err EZeroDiv else Ok (fdiv x y).

(** C fmod on floats: exact. *)
Definition fmodC (x y : f64) : f64 :=
  match fexact x, fexact y with
  | Some (mx, ex), Some (my, ey) =>
      if my =? 0 then fnan
      else
        let e := Z.min ex ey in
        let r := Z.rem (mx * 2 ^ (ex - e)) (my * 2 ^ (ey - e)) in
        if r =? 0 then fzero_s (sign_of x) else fnorm r e
  | Some _, None => if is_inf y then x else fnan
  | _, _ => fnan
  end.

Definition nonzero (x : f64) : bool := negb (Beqb x f0).
Definition is_neg (x : f64) : bool := Bltb x f0.

(** CPython's float_rem (Objects/floatobject.c). *)
Definition f_mod (x y : f64) : res f64 :=
  if Beqb y f0 then Err EZeroDiv
  else
    let m := fmodC x y in
    if nonzero m then
      if Bool.eqb (is_neg y) (is_neg m) then Ok m else Ok (fadd m y)
    else Ok (fzero_s (sign_of y)).

(** floor of a float, as a float. *)
Definition ffloor (x : f64) : f64 := Bnearbyint mode_DN x.
Definition fone : f64 := fnorm 1 0.
Definition fhalf : f64 := fnorm 1 (-1).
Definition ftwo : f64 := fnorm 2 0.

(** CPython's float_floor_div / _float_div_mod. *)
Definition f_floordiv (x y : f64) : res f64 :=
  if Beqb y f0 then Err EZeroDiv
  else
    let m := fmodC x y in
    let d0 := fdiv (fsub x m) y in
    let d := if nonzero m && negb (Bool.eqb (is_neg y) (is_neg m))
             then fsub d0 fone else d0 in
    if nonzero d then
      let f := ffloor d in
      Ok (if Bltb fhalf (fsub d f) then fadd f fone else f)
    else Ok (fzero_s (sign_of (fdiv x y))).

(** Rounding to an integer: OverflowError on infinities, ValueError on NaN. *)
Definition f_to_Z (rnd : Z -> Z -> Z) (x : f64) : res Z :=
  match x with
  | B754_nan => Err EValue
  | B754_infinity _ => Err EOverflow
  | B754_zero _ => Ok 0
  | B754_finite s m e _ =>
      let z := cond_Zopp s (Zpos m) in
      Ok (if 0 <=? e then z * 2 ^ e else rnd z (2 ^ (- e)))
  end.
Definition f_trunc := f_to_Z Z.quot.
Definition f_floor := f_to_Z Z.div.
Definition f_ceil := f_to_Z (fun a b => - (- a / b)).

Definition is_odd_int (y : f64) : bool :=
  match fexact y with
  | Some (m, e) =>
      if 0 <? e then false
      else if e =? 0 then Z.odd m
      else if m mod 2 ^ (- e) =? 0 then Z.odd (m / 2 ^ (- e)) else false
  | None => false
  end.
Definition is_integral (y : f64) : bool :=
  match fexact y with
  | Some (m, e) => if 0 <=? e then true else m mod 2 ^ (- e) =? 0
  | None => true      (* floor(inf) == inf *)
  end.

(** C library functions: arbitrary oracles. [lm_pow] is C's pow on a finite positive base
    different from 1 and a finite exponent; [lm_fun1], [lm_fun2] are Python's math functions
    (value or exception), except the exactly defined ones below. *)
Record Libm := mkLibm {
  lm_fun1 : mfun1 -> f64 -> res f64;
  lm_fun2 : mfun2 -> f64 -> f64 -> res f64;
  lm_pow : f64 -> f64 -> f64
}.

Section WithLibm.
Variable lm : Libm.

(** CPython's float_pow; [Ok None] is a complex result. *)
Definition f_pow (x y : f64) : res (option f64) :=
  let ok r := Ok (Some r) in
  if Beqb y f0 then ok fone
  else if is_nanf x then ok x
  else if is_nanf y then ok (if Beqb x fone then fone else y)
  else if is_inf y then
    let a := fabs x in
    if Beqb a fone then ok fone
    else if Bool.eqb (Bltb f0 y) (Bltb fone a) then ok (fabs y) else ok f0
  else if is_inf x then
    let odd := is_odd_int y in
    if Bltb f0 y then ok (if odd then x else fabs x)
    else ok (if odd then fzero_s (sign_of x) else f0)
  else if Beqb x f0 then
    if Bltb y f0 then Err EZeroDiv
    else ok (if is_odd_int y then x else f0)
  else if Bltb x f0 && negb (is_integral y) then Ok None
  else
    let neg := Bltb x f0 && is_odd_int y in
    let a := fabs x in
    if Beqb a fone then ok (if neg then fneg fone else fone)
    else
      let r := lm_pow lm a y in
      if is_inf r then Err EOverflow
      else ok (if neg then fneg r else r).

Definition f_sqrt (x : f64) : res f64 :=
  if Bltb x f0 then Err EValue else Ok (Bsqrt mode_NE x).

Definition f_copysign (x y : f64) : f64 :=
  if Bool.eqb (sign_of x) (sign_of y) then x else fneg x.

Definition f_fun1 (f : mfun1) (x : f64) : res f64 :=
  match f with
  | F_sqrt => f_sqrt x
  | F_fabs => Ok (fabs x)
  | _ => lm_fun1 lm f x
  end.
(** Simplification: copysign of a NaN sign is not tracked (single NaN). *)
Definition f_fun2 (f : mfun2) (x y : f64) : res f64 :=
  match f with
  | G_copysign => Ok (f_copysign x y)
  | G_fmod =>
      if is_nanf x || is_nanf y then Ok fnan
      else if is_inf x || Beqb y f0 then Err EValue else Ok (fmodC x y)
  | _ => lm_fun2 lm f x y
  end.

(** math.fsum: correctly rounded exact sum; OverflowError on overflow, ValueError on
    inf - inf. Simplification: intermediate overflow is not modelled separately. *)
Fixpoint exact_sum (l : list f64) (m e : Z) : option (Z * Z) :=
  match l with
  | [] => Some (m, e)
  | x :: l' =>
      match fexact x with
      | Some (mx, ex) =>
          let e' := Z.min e ex in
          exact_sum l' (m * 2 ^ (e - e') + mx * 2 ^ (ex - e')) e'
      | None => None
      end
  end.
Definition f_fsum (l : list f64) : res f64 :=
  match exact_sum l 0 0 with
  | Some (m, e) => let r := fnorm m e in if is_inf r then Err EOverflow else Ok r
  | None =>
      if existsb is_nanf l then Ok fnan
      else if existsb (fun x => is_inf x && sign_of x) l then
        if existsb (fun x => is_inf x && negb (sign_of x)) l then Err EValue
        else Ok (finf true)
      else Ok (finf false)
  end.

(** math.modf, math.frexp, math.ldexp: exact. *)
Definition f_modf (x : f64) : f64 * f64 :=
  match x with
  | B754_nan => (fnan, fnan)
  | B754_infinity s => (fzero_s s, x)
  | B754_zero s => (x, x)
  | B754_finite s m e _ =>
      let i := Bnearbyint mode_ZR x in
      let fr := fsub x i in
      (if Beqb fr f0 then fzero_s s else fr, i)
  end.
Definition f_frexp (x : f64) : f64 * Z :=
  match x with
  | B754_finite s m e _ =>
      let k := Z.log2 (Zpos m) + 1 in
      (fnorm (cond_Zopp s (Zpos m)) (- k), e + k)
  | _ => (x, 0)
  end.
Definition f_ldexp (x : f64) (i : Z) : res f64 :=
  match x with
  | B754_finite s m e _ =>
      let i' := Z.max (-3000) (Z.min 3000 i) in
      let r := fnorm (cond_Zopp s (Zpos m)) (e + i') in
      if is_inf r then Err EOverflow
      else Ok (if Beqb r f0 then fzero_s s else r)
  | _ => Ok x
  end.

(** math.pi, the double 0x1.921fb54442d18p+1. *)
Definition fpi : f64 := fnorm 884279719003555 (-48).

Definition FOps : NumOps := {|
  num := f64;
  n_zero := f0; n_one := fone; n_half := fhalf; n_two := ftwo; n_ten := fnorm 10 0;
  n_pi := fpi;
  n_step := fnorm 1 (-26);
  n_nan := Ok fnan;
  n_of_Z := f_of_Z;
  n_add := fadd; n_sub := fsub; n_mul := fmul;
  n_div := f_div;
  n_npdiv := fun x y => Ok (fdiv x y);
  n_divZ := f_divZ;
  n_floordiv := f_floordiv;
  n_mod := f_mod;
  n_pow := f_pow;
  n_neg := fneg; n_abs := fabs;
  n_eq := fun x y => Beqb x y;
  n_lt := fun x y => Bltb x y;
  n_le := fun x y => Bleb x y;
  n_isinfinite := fun x => is_inf x || is_nanf x;
  n_trunc := f_trunc; n_floor := f_floor; n_ceil := f_ceil;
  n_isinf := is_inf; n_isnan := is_nanf;
  n_fun1 := f_fun1; n_fun2 := f_fun2;
  n_fsum := f_fsum; n_modf := f_modf; n_frexp := f_frexp; n_ldexp := f_ldexp
|}.
End WithLibm.
