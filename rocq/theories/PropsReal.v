(** Property theorems about the digits that are displayed. *)
From Coq Require Import String.
From Coq Require Import ZArith List Bool QArith Qabs Qminmax.
From Verif Require Import Base Str FmtOps Format FmtSpec RealThm ZeroFmt SpecialFmt GenFmt ExFmt ExReal.
Import ListNotations.
Local Open Scope Z_scope.

(** The numbers are exact decimal numbers (every binary64 number is one). *)
(** ** C37 *)
(** C37: both numbers are correctly rounded to the same number of decimals, after division by the common power of ten; the specification tells the place of the last digit, the exponent and the layout. *)
Theorem C37_same_precision : forall (U : Unicode), UniLaws U -> forall (nom s : dec) (spec : str) (p : parts),
  real nom -> real s -> (0 < dq s)%Q -> parse_spec U spec = Ok p ->
  (p_align p = lit "=" -> p_width p = []) ->
  (p_uncert p <> [] -> forall d, p_prec p = Some d -> uval U d <> 0) ->
  let V := (unit_of p * dq nom)%Q in
  let S0 := (unit_of p * dq s)%Q in
  exists r S k e d n m,
    format_ufloat (K := DecOps) U nom s spec = Ok r /\
    last_place U p V S0 S k /\
    common_exponent (p_type p) (Qmax (Qabs V) S0) k e /\
    output U p V S (signbit nom) k e d n m r.
Proof. exact real_display. Qed.
Print Assumptions C37_same_precision.
Example C37_example : real (DNum false 12345 (-4)) /\ real (DNum false 123 (-4)) /\ (0 < dq (DNum false 123 (-4)))%Q /\
  parse_spec uni [] = Ok (mkParts [] [] [] [] [] [] None [] [] []) /\
  format_ufloat (K := DecOps) uni (DNum false 12345 (-4)) (DNum false 123 (-4)) [] = Ok (lit "1.234+/-0.012").
Proof. exact ex_display. Qed.
(** ** C38 *)
(** C38: .Nu displays the uncertainty with N digits, or with all the digits of an integer of more than N digits. *)
Theorem C38_uncertainty_digits : forall (U : Unicode), UniLaws U -> forall (nom s : dec) (spec : str) (p : parts) (u : str),
  real nom -> real s -> (0 < dq s)%Q -> parse_spec U spec = Ok p ->
  (p_align p = lit "=" -> p_width p = []) ->
  p_uncert p <> [] -> p_prec p = Some u -> 1 <= uval U u ->
  exists r k e d n m,
    format_ufloat (K := DecOps) U nom s spec = Ok r /\
    output U p (unit_of p * dq nom)%Q (unit_of p * dq s)%Q (signbit nom) k e d n m r /\
    (10 ^ (uval U u - 1) <= m < 10 ^ uval U u \/ (e = None /\ d = O /\ 10 ^ uval U u <= m)).
Proof. exact uncert_digits. Qed.
Print Assumptions C38_uncertainty_digits.
Example C38_example : real (DNum false 12345 (-4)) /\ real (DNum false 996 (-3)) /\ (0 < dq (DNum false 996 (-3)))%Q /\
  parse_spec uni (lit ".1u") = Ok (mkParts [] [] [] [] [] [] (Some (lit "1")) (lit "u") [] []) /\ uval uni (lit "1") = 1 /\
  format_ufloat (K := DecOps) uni (DNum false 12345 (-4)) (DNum false 996 (-3)) (lit ".1u") = Ok (lit "1+/-1") /\
  format_ufloat (K := DecOps) uni (DNum false 12345 3) (DNum false 996 2) (lit ".1uf") = Ok (lit "12345000+/-99600").
Proof. exact ex_carry. Qed.
(** ** C39 *)
(** C39: the rule of the Particle Data Group, when there is no precision. *)
Theorem C39_pdg_rule : forall (U : Unicode), UniLaws U -> forall (nom s : dec) (spec : str) (p : parts),
  real nom -> real s -> (0 < dq s)%Q -> parse_spec U spec = Ok p ->
  (p_align p = lit "=" -> p_width p = []) -> p_prec p = None ->
  let S0 := (unit_of p * dq s)%Q in
  exists r S k e d n m f D,
    format_ufloat (K := DecOps) U nom s spec = Ok r /\
    output U p (unit_of p * dq nom)%Q S (signbit nom) k e d n m r /\
    (p10 f <= S0 < p10 (f + 1))%Q /\ (inject_Z D <= S0 * p10 (2 - f) < inject_Z (D + 1))%Q /\
    let digits N := 10 ^ (N - 1) <= m < 10 ^ N \/ (e = None /\ d = O /\ 10 ^ N <= m) in
    ((100 <= D <= 354 /\ (S == S0)%Q /\ digits 2) \/
     (355 <= D <= 949 /\ (S == S0)%Q /\ digits 1) \/
     (950 <= D <= 999 /\ (S == p10 (f + 1))%Q /\ digits 2)).
Proof. exact pdg_digits. Qed.
Print Assumptions C39_pdg_rule.
Example C39_example : format_ufloat (K := DecOps) uni (DNum false 12345678 (-7)) (DNum false 354 (-6)) [] = Ok (lit "1.23457+/-0.00035") /\
  format_ufloat (K := DecOps) uni (DNum false 12345678 (-7)) (DNum false 355 (-6)) [] = Ok (lit "1.2346+/-0.0004") /\
  format_ufloat (K := DecOps) uni (DNum false 12345678 (-7)) (DNum false 9499 (-7)) [] = Ok (lit "1.2346+/-0.0009") /\
  format_ufloat (K := DecOps) uni (DNum false 12345678 (-7)) (DNum false 950 (-6)) [] = Ok (lit "1.2346+/-0.0010").
Proof. exact ex_pdg. Qed.
(** ** C40 *)
(** C40: the common exponent; the larger number is displayed as a number in [1, 10). *)
Theorem C40_common_exponent : forall (U : Unicode), UniLaws U -> forall (nom s : dec) (spec : str) (p : parts),
  real nom -> real s -> (0 < dq s)%Q -> parse_spec U spec = Ok p ->
  (p_align p = lit "=" -> p_width p = []) ->
  (p_uncert p <> [] -> forall d, p_prec p = Some d -> uval U d <> 0) ->
  let V := (unit_of p * dq nom)%Q in
  let S0 := (unit_of p * dq s)%Q in
  exists r S k e d n m,
    format_ufloat (K := DecOps) U nom s spec = Ok r /\
    output U p V S (signbit nom) k e d n m r /\
    common_exponent (p_type p) (Qmax (Qabs V) S0) k e /\
    (e <> None -> 10 ^ Z.of_nat d <= Z.max n m < 10 ^ (Z.of_nat d + 1)).
Proof. exact common_exp. Qed.
Print Assumptions C40_common_exponent.
Example C40_example : real (DNum true 12345 3) /\ real (DNum false 9600 0) /\ (0 < dq (DNum false 9600 0))%Q /\
  parse_spec uni (lit "*^20") = Ok (mkParts (lit "*") (lit "^") [] [] (lit "20") [] None [] [] []) /\
  format_ufloat (K := DecOps) uni (DNum true 12345 3) (DNum false 9600 0) (lit "*^20") =
    Ok (lit "****-1.2345e+07*****+/-*****0.0010e+07*****") /\
  format_ufloat (K := DecOps) uni (DNum false 9996 (-3)) (DNum false 1 (-3)) (lit ".3e") = Ok (lit "(9.996+/-0.001)e+00") /\
  format_ufloat (K := DecOps) uni (DNum false 9996 (-3)) (DNum false 1 (-3)) (lit ".2e") = Ok (lit "(1.00+/-0.00)e+01").
Proof. exact ex_exponent. Qed.
(** ** C41 *)
(** C41: a zero uncertainty is displayed as 0, without exponent, whatever the nominal value (padded with zeros if required). *)
Theorem C41_zero : forall (U : Unicode), UniLaws U -> forall (nom s : dec) (spec : str) (p : parts) (r : str),
  dzero s -> parse_spec U spec = Ok p -> format_ufloat (K := DecOps) U nom s spec = Ok r ->
  exists e nx x ns es,
    laid_out U p (str_eqb (p_type p) (lit "%")) e nx false x ns es r /\
    (opt (p_opts p) 83 = true \/ pads p = false -> es = lit "0") /\
    (opt (p_opts p) 83 = false -> shown [] (pads p) (commas p) (uval U (p_width p)) false 0 0 es).
Proof. exact zero_uncertainty. Qed.
Print Assumptions C41_zero.
Example C41_zero_example : dzero (DNum false 0 0) /\
  parse_spec uni (lit "+.3e") = Ok (mkParts [] [] (lit "+") [] [] [] (Some (lit "3")) [] (lit "e") []) /\
  format_ufloat (K := DecOps) uni (DNum false 314159 (-5)) (DNum false 0 0) (lit "+.3e") = Ok (lit "(+3.142+/-0)e+00").
Proof. exact ex_zero. Qed.
(** C41, converse: another uncertainty is not displayed as 0 if its digits are chosen by the package or with u. Partial: false with other precisions, see below. *)
Theorem C41_converse_partial : forall (U : Unicode), UniLaws U -> forall (nom s : dec) (spec : str) (p : parts),
  real nom -> real s -> (0 < dq s)%Q -> parse_spec U spec = Ok p ->
  (p_align p = lit "=" -> p_width p = []) ->
  (p_prec p = None \/ p_uncert p <> []) ->
  (p_uncert p <> [] -> forall d, p_prec p = Some d -> uval U d <> 0) ->
  exists r S k e d n m,
    format_ufloat (K := DecOps) U nom s spec = Ok r /\
    output U p (unit_of p * dq nom)%Q S (signbit nom) k e d n m r /\ 1 <= m.
Proof. exact shown_nonzero. Qed.
Print Assumptions C41_converse_partial.
Example C41_converse_example : real (DNum false 12345 (-4)) /\ real (DNum false 996 (-3)) /\ (0 < dq (DNum false 996 (-3)))%Q /\
  parse_spec uni (lit ".1u") = Ok (mkParts [] [] [] [] [] [] (Some (lit "1")) (lit "u") [] []) /\ uval uni (lit "1") = 1 /\
  format_ufloat (K := DecOps) uni (DNum false 12345 (-4)) (DNum false 996 (-3)) (lit ".1u") = Ok (lit "1+/-1") /\
  format_ufloat (K := DecOps) uni (DNum false 12345 3) (DNum false 996 2) (lit ".1uf") = Ok (lit "12345000+/-99600").
Proof. exact ex_carry. Qed.
Theorem C41_converse_refuted : (0 < dq (DNum false 1 (-1)))%Q /\
  format_ufloat (K := DecOps) uni (DNum false 3 0) (DNum false 1 (-1)) (lit ".0f") = Ok (lit "3+/-0").
Proof. exact shown_zero. Qed.
Print Assumptions C41_converse_refuted.
(** ** C42 *)
(** C42: the precision counts for the types e, E, f, F and %, when the uncertainty is zero, infinite or NaN. Partial: false for g, G and no type. *)
Theorem C42_precision_partial : forall (U : Unicode), UniLaws U -> forall (nom s : dec) (spec : str) (p : parts) (u : str),
  real nom -> special s -> parse_spec U spec = Ok p -> (p_align p = lit "=" -> p_width p = []) ->
  p_prec p = Some u -> ~ gen_type (p_type p) ->
  let V := (unit_of p * dq nom)%Q in
  let N := uval U u in
  exists r e n x ns es,
    format_ufloat (K := DecOps) U nom s spec = Ok r /\
    laid_out U p (str_eqb (p_type p) (lit "%")) e true false x ns es r /\
    (fixed_type (p_type p) -> e = None) /\
    (exp_type (p_type p) -> exists X, e = Some X /\ (10 ^ N <= n < 10 ^ (N + 1) \/ (V == 0)%Q /\ X = 0)) /\
    half_even (Qabs V * p10 (N - match e with Some X => X | None => 0 end)) n /\
    exists w, shown (p_sign p) (pads p) (commas p) w (signbit nom) n (Z.to_nat N) ns.
Proof. exact special_precision. Qed.
Print Assumptions C42_precision_partial.
Example C42_example : dzero (DNum false 0 0) /\
  parse_spec uni (lit "+.3e") = Ok (mkParts [] [] (lit "+") [] [] [] (Some (lit "3")) [] (lit "e") []) /\
  format_ufloat (K := DecOps) uni (DNum false 314159 (-5)) (DNum false 0 0) (lit "+.3e") = Ok (lit "(+3.142+/-0)e+00").
Proof. exact ex_zero. Qed.
Theorem C42_precision_refuted : format_ufloat (K := DecOps) uni (DNum false 314159 (-5)) (DNum false 0 0) (lit ".3g") = Ok (lit "3.14159+/-0") /\
  format_ufloat (K := DecOps) uni (DNum false 314159 (-5)) (DNum false 0 0) (lit ".3") = Ok (lit "3.14159+/-0") /\
  format_ufloat (K := DecOps) uni (DNum false 314159 (-5)) (DInf false) (lit ".3G") = Ok (lit "3.14159+/-INF") /\
  format_ufloat (K := DecOps) uni (DNum false 314159 (-5)) (DNum false 0 0) (lit ",.3g") = Err EValue /\
  format_ufloat (K := DecOps) uni (DNum false 314159 (-5)) (DNum false 0 0) (lit ".9g") = Ok (lit "  3.14159+/-0").
Proof. exact precision_lost. Qed.
Print Assumptions C42_precision_refuted.
(** ** C43 *)
(** C43, in any arithmetic: with a width, each number or the whole shorthand notation is aligned in a field of this width; without width nothing is added. (See C37 for padding with zeros.) *)
Theorem C43_width : forall (K : FmtOps) (U : Unicode), UniLaws U -> forall (nom s : fl K) spec p r, parse_spec U spec = Ok p -> format_ufloat U nom s spec = Ok r ->
  exists e nx ex x ns es, laid_out U p (str_eqb (p_type p) (lit "%")) e nx ex x ns es r.
Proof. exact @layout. Qed.
Print Assumptions C43_width.
Example C43_example : parse_spec uni (lit "+010") = Ok (mkParts [] [] (lit "+") (lit "0") (lit "10") [] None [] [] []) /\
  format_ufloat (K := DecOps) uni (DNum false 314159 (-5)) (DNum false 1 0) (lit "+010") = Ok (lit "+0000003.1+/-00000001.0").
Proof. exact ex_width. Qed.
(** Alignment after the sign is refused, for all numbers. *)
Theorem C43_sign_align_refuted : forall (K : FmtOps) (U : Unicode), UniLaws U -> forall (nom s : fl K) spec p, parse_spec U spec = Ok p -> p_align p = lit "=" -> p_width p <> [] ->
  forall r, format_ufloat U nom s spec <> Ok r.
Proof. exact @sign_align. Qed.
Print Assumptions C43_sign_align_refuted.
Example C43_sign_align_example : parse_spec uni (lit "=10") = Ok (mkParts [] (lit "=") [] [] (lit "10") [] None [] [] []) /\
  format_ufloat (K := DecOps) uni (DNum false 314159 (-5)) (DNum false 1 0) (lit "=10") = Err EValue.
Proof. exact sign_align_error. Qed.
(** ** C40, when only one number is real *)
(** The exponent when the uncertainty is zero, infinite or NaN, or when the nominal value is infinite or NaN: it is decided by the digits of the real number, in a number given by the precision, by default 7 with e, 6 with g and 12 without type. *)
Theorem C40_special_exponent : forall (U : Unicode), UniLaws U -> forall (nom s : dec) spec p r (M : Q), parse_spec U spec = Ok p -> ~ fixed_type (p_type p) ->
  (real nom /\ special s /\ M = Qabs (dq nom)) \/ (nonreal nom /\ real s /\ (0 < dq s)%Q /\ M = dq s) ->
  (nonreal nom -> p_uncert p = []) ->
  format_ufloat (K := DecOps) U nom s spec = Ok r ->
  exists e nx ex x ns es,
    laid_out U p false e nx ex x ns es r /\
    ((M == 0)%Q -> (gen_type (p_type p) -> e = None) /\ (exp_type (p_type p) -> e = Some 0)) /\
    ((0 < M)%Q -> exists k, sig_limit M (ref_digits U p) k /\ common_exponent (p_type p) M k e).
Proof. exact ref_exponent. Qed.
Print Assumptions C40_special_exponent.
Example C40_special_example : special (DNum false 0 0) /\ special DNan /\
  format_ufloat (K := DecOps) uni (DNum false 123456789123 0) (DNum false 0 0) [] = Ok (lit "123456789123.0+/-0") /\
  format_ufloat (K := DecOps) uni (DNum false 1234567891234 0) (DNum false 0 0) [] = Ok (lit "(1.234567891234+/-0)e+12") /\
  format_ufloat (K := DecOps) uni (DNum false 1234567 0) DNan (lit "g") = Ok (lit "(1.23457+/-nan)e+06") /\
  format_ufloat (K := DecOps) uni (DNum false 12345678 0) DNan (lit "e") = Ok (lit "(1.234568+/-nan)e+07") /\
  format_ufloat (K := DecOps) uni DNan (DNum false 1234567 0) (lit "g") = Ok (lit "(nan+/-1.23457)e+06") /\
  format_ufloat (K := DecOps) uni (DNum false 0 0) DNan (lit "e") = Ok (lit "(0.000000+/-nan)e+00").
Proof. exact ex_special_exponent. Qed.
(** ** C60 *)
(** C60, for exact decimal numbers, infinities and NaN: formatting succeeds when it is possible, *)
Theorem C60_formats : forall (U : Unicode), UniLaws U -> forall (nom s : dec) spec p, (real nom \/ nonreal nom) -> std_like s -> parse_spec U spec = Ok p ->
  acceptable U p nom s -> exists r, format_ufloat (K := DecOps) U nom s spec = Ok r.
Proof. exact formats. Qed.
Print Assumptions C60_formats.
Example C60_example : let p := mkParts [] [] [] [] [] (lit ",") (Some (lit "2")) (lit "u") [] (lit "S") in
  nonreal DNan /\ std_like (DNum false 25 (-1)) /\ parse_spec uni (lit ",.2uS") = Ok p /\
  acceptable uni p DNan (DNum false 25 (-1)) /\
  format_ufloat (K := DecOps) uni DNan (DNum false 25 (-1)) (lit ",.2uS") = Ok (lit "nan(2.5)").
Proof. exact ex_acceptable. Qed.
(** only then, *)
Theorem C60_formats_only : forall (U : Unicode), UniLaws U -> forall (nom s : dec) spec p r, (real nom \/ nonreal nom) -> std_like s -> parse_spec U spec = Ok p ->
  format_ufloat (K := DecOps) U nom s spec = Ok r -> acceptable U p nom s.
Proof. exact formats_only. Qed.
Print Assumptions C60_formats_only.
Example C60_only_example : let p := mkParts [] [] [] [] [] (lit ",") (Some (lit "2")) (lit "u") [] [] in
  parse_spec uni (lit ",.2u") = Ok p /\ ~ acceptable uni p DNan (DNum false 25 (-1)) /\
  format_ufloat (K := DecOps) uni DNan (DNum false 25 (-1)) (lit ",.2u") = Err EValue.
Proof. exact ex_not_acceptable. Qed.
(** and it raises ValueError otherwise, for all numbers and all specifications, correct or not. *)
Theorem C60_value_error : forall (U : Unicode), UniLaws U -> forall (nom s : dec) spec,
  (exists r, format_ufloat (K := DecOps) U nom s spec = Ok r) \/ format_ufloat (K := DecOps) U nom s spec = Err EValue.
Proof. exact value_error_only. Qed.
Print Assumptions C60_value_error.
Example C60_error_example : format_ufloat (K := DecOps) uni (DNum false 1 0) (DNum false 25 (-1)) (lit ".0u") = Err EValue /\
  format_ufloat (K := DecOps) uni (DNum false 1 0) (DNum false 25 (-1)) (lit ".0") = Ok (lit "1+/-2").
Proof. exact ex_value_error. Qed.
(** ** C61 *)
(** C61, without zero padding, and without precision for the types g, G and none: infinite numbers and NaN are shown as words, without exponent. *)
Theorem C61_words_partial : forall (U : Unicode), UniLaws U -> forall (nom s : dec) spec p r, (real nom \/ nonreal nom) -> std_like s -> parse_spec U spec = Ok p ->
  pads p = false -> (p_prec p = None \/ ~ gen_type (p_type p)) ->
  format_ufloat (K := DecOps) U nom s spec = Ok r ->
  exists e nx ex x ns es,
    laid_out U p (str_eqb (p_type p) (lit "%")) e nx ex x ns es r /\
    (nonreal nom -> nx = false /\ ns = word_text p (p_sign p) nom) /\
    (nonreal s -> ex = false /\ es = word_text p [] s) /\
    (nonreal nom -> nonreal s -> e = None).
Proof. exact words. Qed.
Print Assumptions C61_words_partial.
Example C61_example : let p := mkParts [] [] (lit "+") [] [] [] None [] (lit "E") (lit "L") in
  nonreal (DInf true) /\ std_like DNan /\ nonreal DNan /\ parse_spec uni (lit "+EL") = Ok p /\ pads p = false /\
  format_ufloat (K := DecOps) uni (DInf true) DNan (lit "+EL") = Ok (lit "-\infty \pm \mathrm{NAN}") /\
  word_text p (p_sign p) (DInf true) = lit "-\infty" /\ word_text p [] DNan = lit "\mathrm{NAN}" /\
  format_ufloat (K := DecOps) uni (DInf false) (DNum false 12345 3) (lit "*^+12") = Ok (lit "****+inf****+/-*12345000.0*").
Proof. exact ex_words. Qed.
(** Otherwise there may be zeros or spaces before the word. *)
Theorem C61_padding_refuted : format_ufloat (K := DecOps) uni DNan DNan (lit "06") = Ok (lit "000nan+/-000nan") /\
  format_ufloat (K := DecOps) uni DNan DNan (lit ".5g") = Ok (lit "  nan+/-  nan").
Proof. exact words_padded. Qed.
Print Assumptions C61_padding_refuted.
(** ** C64 *)
(** C64: without precision, the types g, G and none show the nominal value like a float of Python, without trailing zeros, divided by the common power of ten. *)
Theorem C64_general : forall (U : Unicode), UniLaws U -> forall (nom s : dec) (spec : str) (p : parts),
  real nom -> special s -> parse_spec U spec = Ok p -> (p_align p = lit "=" -> p_width p = []) ->
  p_prec p = None -> gen_type (p_type p) ->
  (p_type p = [] -> ~ ((p10 (-4) - 5 * p10 (-16) <= Qabs (dq nom))%Q /\ (Qabs (dq nom) < p10 (-4))%Q)) ->
  let V := Qabs (dq nom) in
  exists r e n d x ns es,
    format_ufloat (K := DecOps) U nom s spec = Ok r /\
    laid_out U p false e true false x ns es r /\
    ((V == 0)%Q -> e = None) /\
    ((0 < V)%Q -> exists k, sig_limit V (if isnil (p_type p) then 12 else 6) k /\ common_exponent (p_type p) V k e) /\
    (exists w, shown (p_sign p) (pads p) (commas p) w (signbit nom) n d ns) /\
    let X := match e with Some X => X | None => 0 end in
    (p_type p = [] -> (inject_Z n == V * p10 (Z.of_nat d - X))%Q /\ (1 <= d)%nat /\ (d = 1%nat \/ n mod 10 <> 0)) /\
    (p_type p <> [] -> (d = 0%nat \/ n mod 10 <> 0) /\ ((V == 0)%Q -> n = 0) /\
       ((0 < V)%Q -> exists k N, sig_limit V 6 k /\ half_even (V * p10 (- k)) N /\
          (inject_Z n * p10 (X - Z.of_nat d) == inject_Z N * p10 k)%Q)).
Proof. exact general_display. Qed.
Print Assumptions C64_general.
Example C64_example : real (DNum true 1500 (-3)) /\ special (DNum false 0 0) /\
  parse_spec uni [] = Ok (mkParts [] [] [] [] [] [] None [] [] []) /\
  ~ ((p10 (-4) - 5 * p10 (-16) <= Qabs (dq (DNum true 1500 (-3))))%Q /\ (Qabs (dq (DNum true 1500 (-3))) < p10 (-4))%Q) /\
  format_ufloat (K := DecOps) uni (DNum true 1500 (-3)) (DNum false 0 0) [] = Ok (lit "-1.5+/-0") /\
  format_ufloat (K := DecOps) uni (DNum true 150 1) DNan (lit "S") = Ok (lit "-1500.0(nan)") /\
  format_ufloat (K := DecOps) uni (DNum false 120001 (-3)) (DInf false) (lit "g") = Ok (lit "120.001+/-inf") /\
  format_ufloat (K := DecOps) uni (DNum false 120000400 (-6)) (DInf false) (lit "g") = Ok (lit "120+/-inf") /\
  format_ufloat (K := DecOps) uni (DNum false 1200000 0) (DInf false) (lit ",g") = Ok (lit "(1.2+/-inf)e+06") /\
  format_ufloat (K := DecOps) uni (DNum false 0 0) (DInf false) (lit "G") = Ok (lit "0+/-INF").
Proof. exact ex_general. Qed.
(** The range of magnitudes that is left out: the nominal value is shown with its own exponent. *)
Theorem C64_own_exponent_refuted : exists nom s p r, real nom /\ special s /\ parse_spec uni [] = Ok p /\
  format_ufloat (K := DecOps) uni nom s [] = Ok r /\ r = lit "9.99999999999999e-05+/-0" /\
  forall e nx ex x ns es w n d, laid_out uni p false e nx ex x ns es r -> ~ shown (p_sign p) (pads p) (commas p) w (signbit nom) n d ns.
Proof. exact own_exponent. Qed.
Print Assumptions C64_own_exponent_refuted.
