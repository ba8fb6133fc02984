(** Property theorems: parsing in binary64. *)
From Coq Require Import String.
From Coq Require Import ZArith List Bool QArith Qabs.
From Flocq Require Import BinarySingleNaN.
From Verif Require Import Base Str NumF FmtOps FmtF Format Parse FmtSpec ParseSpec BinSpec ExFmt ExParse ExBin ParseBin BinTrip.
Import ListNotations.
Local Open Scope Z_scope.

(** ** C68 *)
(** The numbers read are within a relative error of 1e-14 of those that the text denotes. *)
Theorem C68_accuracy : forall (U : Unicode), UniLaws U -> forall (lm : Libm10), LibmLaws lm ->
  forall s m sp sp' tag, notation U s m -> spaces U sp -> spaces U sp' -> moderate m ->
  exists v u, denoted_near m v u /\
    ((~ (is_finite u = true /\ (fval u < 0)%Q) /\ ufloat_fromstr (K := BinOps lm) U (sp ++ s ++ sp') tag = Ok (v, u, tag, 0%nat)) \/
     ((is_finite u = true /\ (fval u < 0)%Q) /\ ufloat_fromstr (K := BinOps lm) U (sp ++ s ++ sp') tag = Err ENegStd)).
Proof. exact bin_notation. Qed.
Print Assumptions C68_accuracy.
(** (-1.23 +/- 0.4)e5, -1.23(45)e5 (notations by C46_example; LibmLaws lmx is part of C63). *)
Example C68_accuracy_example : moderate (MPair (LDec true 123 (-2)) None (LDec false 4 (-1)) None (Some 5)) /\
  moderate (MParen (LDec true 123 (-2)) 2 (UUnits 45) (Some 5)) /\
  read_x (lit "(-1.23 +/- 0.4)e5") (fl_of (-123) 3) (fl_of 4 4) = true /\
  read_x (lit "-1.23(45)e5") (fl_of (-123) 3) (fl_of 45 3) = true.
Proof. exact ex_moderate. Qed.
(** Numbers that are not multiplied by a power of ten, and uncertainties that are not in units of the last digit, are the nearest floats. *)
Theorem C68_nearest : forall (U : Unicode), UniLaws U -> forall (lm : Libm10) s m sp sp' tag v u, notation U s m -> spaces U sp -> spaces U sp' ->
  ufloat_fromstr (K := BinOps lm) U (sp ++ s ++ sp') tag = Ok (v, u, tag, 0%nat) ->
  (forall l, fst (written m) = Some l -> nearest v l) /\ (forall l, snd (written m) = Some l -> nearest u l).
Proof. exact bin_nearest. Qed.
Print Assumptions C68_nearest.
(** 12.3(4.5). *)
Example C68_nearest_example : notation uni (lit "12.3(4.5)") (MParen (LDec false 123 (-1)) 1 (UNumber (LDec false 45 (-1))) None) /\
  written (MParen (LDec false 123 (-1)) 1 (UNumber (LDec false 45 (-1))) None) = (Some (LDec false 123 (-1)), Some (LDec false 45 (-1))) /\
  read_x (lit "12.3(4.5)") (fl_of 123 (-1)) (fl_of 45 (-1)) = true.
Proof. exact ex_written. Qed.
(** ** C44 *)
(** C44 in binary64: the display is parsed, and the floats read are within a relative error of 1e-14 of what is displayed. Partial: numbers between 1e-90 and 1e90, precisions up to 100; up to 14 decimals in shorthand notation. *)
Theorem C44_binary64_partial : forall (lm : Libm10), LibmLaws lm -> forall (U : Unicode), UniLaws U -> forall (nom s : f64) (spec : str) (p : parts) tag,
  is_finite nom = true -> ((fval nom == 0)%Q \/ medium (Qabs (fval nom))) ->
  is_finite s = true -> medium (fval s) -> parse_spec U spec = Ok p ->
  (p_align p = lit "=" -> p_width p = []) ->
  (p_uncert p <> [] -> forall d, p_prec p = Some d -> uval U d <> 0) ->
  (forall d, p_prec p = Some d -> uval U d <= 100) ->
  p_type p <> lit "%" -> p_comma p = [] -> opt (p_opts p) 76 = false ->
  (p_width p = [] \/ (u_spc U (fill_of p) = true /\ fill_of p <> 10)) ->
  let V0 := (unit_of p * fval nom)%Q in
  let S0 := (unit_of p * fval s)%Q in
  exists r V S k e d n m,
    format_ufloat (K := BinOps lm) U nom s spec = Ok r /\
    near V0 V /\ last_place_near U p V0 S0 S k /\
    (opt (p_opts p) 83 = false \/ (d <= 14)%nat ->
     output U p V S (Bsign nom) k e d n m r /\
     exists v u, ufloat_fromstr (K := BinOps lm) U r tag = Ok (v, u, tag, 0%nat) /\
       let w := p10 (match e with Some X => X | None => 0 end - Z.of_nat d) in
       (is_finite v = true /\ Qabs (fval v - qsigned (Bsign nom) (inject_Z n * w)) <= (1 # 100000000000000) * (inject_Z n * w))%Q /\
       (is_finite u = true /\ Qabs (fval u - inject_Z m * w) <= (1 # 100000000000000) * (inject_Z m * w))%Q /\
       (Qabs (fval v - fval nom) <= (1 # 2) * w + (2 # 100000000000) * (Qabs (fval nom) + w))%Q).
Proof. exact bin_round_trip. Qed.
Print Assumptions C44_binary64_partial.
(** -3.142+/-0.012, -3.14(1), and 3.142(12)e25 in pretty-print notation. *)
Example C44_binary64_example : (LibmLaws lmx /\ is_finite (fl_of (-314159) (-5)) = true /\ medium (Qabs (fval (fl_of (-314159) (-5)))) /\
   is_finite (fl_of 12 (-3)) = true /\ medium (fval (fl_of 12 (-3)))) /\
  (exists p, parse_spec uni (lit "20.1u") = Ok p /\ fill_of p = 32 /\ p_width p <> [] /\ p_comma p = [] /\ opt (p_opts p) 76 = false /\ p_type p <> lit "%") /\
  trips (fl_of (-314159) (-5)) (fl_of 12 (-3)) "" (fl_of (-3142) (-3)) (fl_of 12 (-3)) = true /\
  trips (fl_of (-314159) (-5)) (fl_of 12 (-3)) "20.1u" (fl_of (-314) (-2)) (fl_of 1 (-2)) = true /\
  trips (fl_of (-314159) (-5)) (fl_of 12 (-3)) ".1uS" (fl_of (-314) (-2)) (fl_of 1 (-2)) = true /\
  trips (fl_of 314159 20) (fl_of 12 22) "P" (fmul (fl_of 3142 (-3)) (pw10 lmx 25)) (fmul (fl_of 12 (-3)) (pw10 lmx 25)) = true.
Proof. exact ex_bin_trip. Qed.
