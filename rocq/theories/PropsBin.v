(** Property theorems about the text of binary64 numbers. *)
From Coq Require Import String.
From Coq Require Import ZArith List Bool Reals QArith Qabs Qminmax.
From Flocq Require Import BinarySingleNaN.
From Verif Require Import Base Str NumF FmtOps FmtF Format Parse FmtSpec BinSpec BinRepr BinThm BinLibm ExFmt ExBin.
Import ListNotations.
Local Open Scope Z_scope.

(** ** C45 *)
(** C45 for binary64 numbers: repr() is read as the same floats. *)
Theorem C45_binary64 : forall (U : Unicode), UniLaws U -> forall (lm : Libm10) (nom s : f64) tag,
  (is_finite s = true -> (0 <= B2R s)%R) ->
  ufloat_fromstr (K := BinOps lm) U (repr_ufloat (K := BinOps lm) nom s) tag =
    Ok (nom, (match s with B754_zero _ => B754_zero false | _ => s end), tag, 0%nat).
Proof. exact bin_repr_back. Qed.
Print Assumptions C45_binary64.
Example C45_binary64_example : (fval (fl_of (-1) (-1)) == -3602879701896397 # 36028797018963968)%Q /\
  repr_ufloat (K := BinOps lmx) (fl_of (-1) (-1)) (fl_of 3 (-2)) = lit "-0.1+/-0.03".
Proof. exact ex_bin_repr. Qed.
(** ** C63 *)
(** C63: with binary64 numbers the display is that of numbers within a relative error of 10^-11. *)
Theorem C63_display : forall (lm : Libm10), LibmLaws lm -> forall (U : Unicode), UniLaws U -> forall (nom s : f64) (spec : str) (p : parts),
  is_finite nom = true -> ((fval nom == 0)%Q \/ medium (Qabs (fval nom))) ->
  is_finite s = true -> medium (fval s) -> parse_spec U spec = Ok p ->
  (p_align p = lit "=" -> p_width p = []) ->
  (p_uncert p <> [] -> forall d, p_prec p = Some d -> uval U d <> 0) ->
  (forall d, p_prec p = Some d -> uval U d <= 100) ->
  let V0 := (unit_of p * fval nom)%Q in
  let S0 := (unit_of p * fval s)%Q in
  exists r V S k e d n m,
    format_ufloat (K := BinOps lm) U nom s spec = Ok r /\
    near V0 V /\ last_place_near U p V0 S0 S k /\
    common_exponent_near (p_type p) (Qmax (Qabs V0) S0) k e /\
    (opt (p_opts p) 83 = false \/ (d <= 14)%nat -> output U p V S (Bsign nom) k e d n m r).
Proof. exact bin_display. Qed.
Print Assumptions C63_display.
Example C63_example : LibmLaws lmx /\
  (is_finite (fl_of (-314159) (-5)) = true /\ medium (Qabs (fval (fl_of (-314159) (-5)))) /\
   is_finite (fl_of 12 (-3)) = true /\ medium (fval (fl_of 12 (-3)))) /\
  shown_x (fl_of (-314159) (-5)) (fl_of 12 (-3)) "" = Ok (lit "-3.142+/-0.012") /\
  shown_x (fl_of (-314159) (-5)) (fl_of 12 (-3)) ".1uS" = Ok (lit "-3.14(1)") /\
  shown_x (fl_of 314159 20) (fl_of 12 22) "L" = Ok (lit "\left(3.142 \pm 0.012\right) \times 10^{25}") /\
  shown_x (fl_of 314159 (-5)) (fl_of 12 (-3)) "%" = Ok (lit "(314.2+/-1.2)%").
Proof. exact ex_bin_display. Qed.
(** In fixed-point notation the digits are those of the exact values. *)
Theorem C63_fixed : forall (U : Unicode), UniLaws U -> forall (lm : Libm10) (nom s : f64) (spec : str) (p : parts) (d : str),
  is_finite nom = true -> is_finite s = true -> (0 < fval s)%Q -> parse_spec U spec = Ok p ->
  (p_align p = lit "=" -> p_width p = []) ->
  p_type p = lit "f" \/ p_type p = lit "F" -> p_uncert p = [] -> p_prec p = Some d -> opt (p_opts p) 83 = false ->
  exists r n m,
    format_ufloat (K := BinOps lm) U nom s spec = Ok r /\
    output U p (fval nom) (fval s) (Bsign nom) (- uval U d) None (Z.to_nat (uval U d)) n m r.
Proof. exact bin_fixed. Qed.
Print Assumptions C63_fixed.
Example C63_fixed_example : (is_finite (fl_of 1 (-1)) = true /\ is_finite (fl_of 3 (-2)) = true /\ (0 < fval (fl_of 3 (-2)))%Q /\
   exists p, parse_spec uni (lit ".25f") = Ok p /\ p_type p = lit "f" /\ p_uncert p = [] /\ p_prec p = Some (lit "25") /\ opt (p_opts p) 83 = false) /\
  shown_x (fl_of 1 (-1)) (fl_of 3 (-2)) ".25f" = Ok (lit "0.1000000000000000055511151+/-0.0299999999999999988897770").
Proof. exact ex_bin_fixed. Qed.
(** What is supposed about the C library holds if log10 and powers of ten are correctly rounded. *)
Theorem C63_libm : forall lm, ExactLibm lm -> LibmLaws lm.
Proof. exact exact_libm. Qed.
Print Assumptions C63_libm.
Example C63_libm_example : exists lm, ExactLibm lm /\ LibmLaws lm.
Proof. exact ex_exact_libm. Qed.
(** Otherwise they are not: the number of digits depends on a rounded quotient... *)
Theorem C63_exact_refuted : pdg_rule (fval (fl_of 355 (-3))) (fval (fl_of 355 (-3))) (-2) /\
  shown_x (fl_of 1 0) (fl_of 355 (-3)) "" = Ok (lit "1.0+/-0.4").
Proof. exact pdg_rounded. Qed.
Print Assumptions C63_exact_refuted.
(** ... the shorthand notation is exact for few digits only... *)
Theorem C63_shorthand_refuted : shown_x (fl_of 1 (-1)) (fl_of 1 (-1)) ".25f" = Ok (lit "0.1000000000000000055511151+/-0.1000000000000000055511151") /\
  shown_x (fl_of 1 (-1)) (fl_of 1 (-1)) ".25fS" = Ok (lit "0.1000000000000000055511151(1000000000000000117440512)").
Proof. exact short_inexact. Qed.
Print Assumptions C63_shorthand_refuted.
(** ... and very small numbers cannot be displayed. *)
Theorem C63_subnormal_refuted : shown_x (fl_of 5 (-324)) (fl_of 5 (-324)) "" = Err EZeroDiv.
Proof. exact subnormal_fails. Qed.
Print Assumptions C63_subnormal_refuted.
