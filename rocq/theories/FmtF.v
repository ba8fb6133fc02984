(** Binary64 instance of the operations of formatting and parsing. The decimal conversions of
    Python are exact (correctly rounded); log10 and powers of ten are those of the C library, which
    are the fields of a record of oracles. No proofs in this file. *)
From Coq Require Import ZArith List Bool.
From Flocq Require Import Core BinarySingleNaN.
From Verif Require Import Base Str NumF FmtOps.
Import ListNotations.
Local Open Scope Z_scope.

(** int(math.floor(math.log10(x))) for a finite x > 0, and 10.**n. *)
Record Libm10 := mkLibm10 { lg10 : f64 -> Z; pw10 : Z -> f64 }.

(** The exact value of a float, as a decimal number: 2^-e is 5^e * 10^-e. *)
Definition fdec (x : f64) : dec :=
  match x with
  | B754_zero s => DNum s 0 0
  | B754_infinity s => DInf s
  | B754_nan => DNan
  | B754_finite s m e _ => if 0 <=? e then DNum s (Zpos m * 2 ^ e) 0 else DNum s (Zpos m * 5 ^ (- e)) e
  end.
(** The float nearest to +/- m*10^e, infinite if it is too large (float() of a text, and round();
    simplification: round() raises OverflowError instead). *)
Definition fdecimal (s : bool) (m e : Z) : f64 :=
  if m =? 0 then fzero_s s
  else let a := if s then - m else m in if 0 <=? e then fnorm (a * 10 ^ e) 0 else fratio a (10 ^ (- e)).
(** The digits of repr(): the smallest number of digits for which the decimal number nearest to x
    converts to x; at most 17. Simplification: for powers of 2, a decimal number that is not the nearest
    one might do with one digit less. *)
Fixpoint fshort (fuel n : nat) (x : f64) (m e : Z) : Z * Z :=
  let (d, X) := dsci m e n in
  let k := X - Z.of_nat n + 1 in
  match fuel with
  | O => (d, k)
  | S f => if Beqb (fdecimal false d k) x then (d, k) else fshort f (S n) x m e
  end.

Section Bin.
Variable lm : Libm10.
(** 10.**n: OverflowError. *)
Definition fpow10 (n : Z) : res f64 := let y := pw10 lm n in if is_inf y then Err EOverflow else Ok y.
Definition BinOps : FmtOps := {|
  fl := f64;
  x_nan := fnan;
  x_inf := finf;
  x_isnan := is_nanf;
  x_isinf := is_inf;
  x_sign := sign_of;
  x_lt := fun x y => Bltb x y;
  x_iszero := fun x => Beqb x f0;
  x_abs := fabs;
  x_mul := fmul;
  x_of_Z := f_of_Z;
  x_div10 := fun x n => rbind (fpow10 n) (fun y => f_div x y);
  x_mul10 := fun x n => rbind (fpow10 n) (fun y => Ok (fmul x y));
  x_log := fun x =>
    match x with
    | B754_finite false _ _ _ => Ok (lg10 lm x)
    | B754_infinity false => Err EOverflow          (* int(floor(inf)) *)
    | _ => Err EValue
    end;
  x_trunc := f_trunc;
  x_dec := fdecimal;
  x_fix := fun x p => x_fix DecOps (fdec x) p;
  x_sci := fun x n => x_sci DecOps (fdec x) n;
  x_short := fun x =>
    match fdec x with
    | DNum _ m e => if m =? 0 then (0, 0) else fshort 16 1 (fabs x) m e
    | _ => (0, 0)
    end
|}.
End Bin.
