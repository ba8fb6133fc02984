(** Property theorems about parsing. *)
From Coq Require Import String.
From Coq Require Import ZArith List Bool QArith Qabs.
From Verif Require Import Base Str FmtOps Format Parse FmtSpec ParseSpec LangSpec ParseThm RoundTrip SpecialTrip Repr ErrThm ReprThm LangThm LangRead TagThm ExFmt ExParse ExTrip ExLang LangLetters.
Import ListNotations.
Local Open Scope Z_scope.

(** ** C44 *)
(** C44: what is displayed can be parsed, and the result is exactly what is displayed. Partial: numbers with a real nominal value and a positive real uncertainty; exact decimal numbers. *)
Theorem C44_round_trip_partial : forall (U : Unicode), UniLaws U -> forall (nom s : dec) (spec : str) (p : parts) tag,
  real nom -> real s -> (0 < dq s)%Q -> parse_spec U spec = Ok p ->
  (p_align p = lit "=" -> p_width p = []) ->
  (p_uncert p <> [] -> forall d, p_prec p = Some d -> uval U d <> 0) ->
  p_type p <> lit "%" -> p_comma p = [] -> opt (p_opts p) 76 = false ->
  (p_width p = [] \/ (u_spc U (fill_of p) = true /\ fill_of p <> 10)) ->
  let V := (unit_of p * dq nom)%Q in
  let S0 := (unit_of p * dq s)%Q in
  exists r S k e d n m v u,
    format_ufloat (K := DecOps) U nom s spec = Ok r /\
    last_place U p V S0 S k /\
    output U p V S (signbit nom) k e d n m r /\
    ufloat_fromstr (K := DecOps) U r tag = Ok (v, u, tag, 0%nat) /\
    let w := p10 (match e with Some X => X | None => 0 end - Z.of_nat d) in
    (real v /\ dq v == qsigned (signbit nom) (inject_Z n * w))%Q /\ (real u /\ dq u == inject_Z m * w)%Q /\
    (Qabs (dq v - dq nom) <= (1 # 2) * w)%Q.
Proof. exact round_trip. Qed.
Print Assumptions C44_round_trip_partial.
Example C44_example : (real (DNum true 12345 3) /\ real (DNum false 96 3) /\ (0 < dq (DNum false 96 3))%Q /\
   exists p, parse_spec uni (lit "^15") = Ok p /\ (p_align p = lit "=" -> p_width p = []) /\ p_uncert p = [] /\
     p_type p <> lit "%" /\ p_comma p = [] /\ opt (p_opts p) 76 = false /\
     u_spc uni (fill_of p) = true /\ fill_of p <> 10) /\
  format_ufloat (K := DecOps) uni (DNum true 12345 3) (DNum false 96 3) (lit "^15") =
    Ok (lit "  -1.234e+07   +/-   0.010e+07   ") /\
  parsed (lit "  -1.234e+07   +/-   0.010e+07   ") = Ok (DNum true 1234 4, DNum false 10 4, X, 0%nat).
Proof. exact ex_round_trip. Qed.
(** False for NaN padded with zeros, and for zero uncertainties in shorthand notation with the type g. *)
Theorem C44_unreadable_refuted : (format_ufloat (K := DecOps) uni DNan (DNum false 1 0) (lit "010") = Ok (lit "0000000nan+/-00000001.0") /\
   parsed (lit "0000000nan+/-00000001.0") = Err EValue) /\
  (format_ufloat (K := DecOps) uni (DNum false 12345678 0) (DNum false 0 0) (lit ".9gS") = Ok (lit "1.23457e+07(0)") /\
   parsed (lit "1.23457e+07(0)") = Err EValue).
Proof. exact unreadable. Qed.
Print Assumptions C44_unreadable_refuted.
(** C44 for uncertainties that are zero, infinite or NaN: types e, E, f and F, with or without a precision. Partial: words are not padded with zeros. *)
Theorem C44_special_partial : forall (U : Unicode), UniLaws U -> forall (nom s : dec) spec p r tag, real nom -> special_std s -> parse_spec U spec = Ok p ->
  p_type p <> lit "%" -> p_comma p = [] -> opt (p_opts p) 76 = false -> ~ gen_type (p_type p) ->
  (p_width p = [] \/ (u_spc U (fill_of p) = true /\ fill_of p <> 10)) ->
  (nonreal s -> opt (p_opts p) 83 = false -> pads p = false) ->
  format_ufloat (K := DecOps) U nom s spec = Ok r ->
  exists e d n v u,
    ufloat_fromstr (K := DecOps) U r tag = Ok (v, u, tag, 0%nat) /\
    (exists nx ex x ns es w, laid_out U p false e nx ex x ns es r /\ shown (p_sign p) (pads p) false w (signbit nom) n d ns) /\
    let w := p10 (oz e - Z.of_nat d) in
    half_even (Qabs (dq nom) * p10 (Z.of_nat d - oz e)) n /\
    (real v /\ dq v == qsigned (signbit nom) (inject_Z n * w))%Q /\ special_read s u.
Proof. exact special_trip. Qed.
Print Assumptions C44_special_partial.
Example C44_special_example : (plain_spec (lit "<14.2e") /\
   exists p, parse_spec uni (lit "<14.2e") = Ok p /\ ~ gen_type (p_type p)) /\
  real (DNum true 12345 3) /\ special_std DNan /\ special_std (DNum false 0 0) /\
  format_ufloat (K := DecOps) uni (DNum true 12345 3) DNan (lit "<14.2e") = Ok (lit "-1.23e+07     +/-nan           ") /\
  parsed (lit "-1.23e+07     +/-nan           ") = Ok (DNum true 123 5, DNan, X, 0%nat) /\
  format_ufloat (K := DecOps) uni (DNum true 12345 3) (DNum false 0 0) (lit ".2eSP") = Ok (lit "-1.23(0)" ++ 215 :: lit "10" ++ [8311]) /\
  parsed (lit "-1.23(0)" ++ 215 :: lit "10" ++ [8311]) = Ok (DNum true 123 5, DNum false 0 5, X, 0%nat).
Proof. exact ex_special_trip. Qed.
(** The same for the types g, G and none, without a precision: the nominal value is recovered exactly with the type none. Partial: words are not padded with zeros; see C64 for the excluded interval. *)
Theorem C44_general_partial : forall (U : Unicode), UniLaws U -> forall (nom s : dec) spec p tag, real nom -> special_std s -> parse_spec U spec = Ok p ->
  (p_align p = lit "=" -> p_width p = []) ->
  p_comma p = [] -> opt (p_opts p) 76 = false -> p_prec p = None -> gen_type (p_type p) ->
  (p_type p = [] -> ~ ((p10 (-4) - 5 * p10 (-16) <= Qabs (dq nom))%Q /\ (Qabs (dq nom) < p10 (-4))%Q)) ->
  (p_width p = [] \/ (u_spc U (fill_of p) = true /\ fill_of p <> 10)) ->
  (nonreal s -> opt (p_opts p) 83 = false -> pads p = false) ->
  exists r v u,
    format_ufloat (K := DecOps) U nom s spec = Ok r /\
    ufloat_fromstr (K := DecOps) U r tag = Ok (v, u, tag, 0%nat) /\
    real v /\ special_read s u /\
    (p_type p = [] -> dq v == dq nom)%Q /\
    (p_type p <> [] -> (dq nom == 0 -> dq v == 0)%Q /\
       (~ dq nom == 0 -> exists k N, sig_limit (Qabs (dq nom)) 6 k /\ half_even (Qabs (dq nom) * p10 (- k)) N /\
          dq v == qsigned (signbit nom) (inject_Z N * p10 k))%Q).
Proof. exact general_trip. Qed.
Print Assumptions C44_general_partial.
Example C44_general_example : plain_spec [] /\ real (DNum true 314159265358979 (-5)) /\ special_std (DInf false) /\
  format_ufloat (K := DecOps) uni (DNum true 314159265358979 (-5)) (DInf false) [] = Ok (lit "-3141592653.58979+/-inf") /\
  parsed (lit "-3141592653.58979+/-inf") = Ok (DNum true 314159265358979 (-5), DInf false, X, 0%nat) /\
  plain_spec (lit "g") /\
  format_ufloat (K := DecOps) uni (DNum true 314159265358979 (-5)) (DInf false) (lit "g") = Ok (lit "(-3.14159+/-inf)e+09") /\
  parsed (lit "(-3.14159+/-inf)e+09") = Ok (DNum true 314159 4, DInf false, X, 0%nat).
Proof. exact ex_general_trip. Qed.
(** C44 for infinite and NaN nominal values with such uncertainties... *)
Theorem C44_words_partial : forall (U : Unicode), UniLaws U -> forall (nom s : dec) spec p r tag, nonreal nom -> special_std s -> parse_spec U spec = Ok p ->
  p_type p <> lit "%" -> p_comma p = [] -> opt (p_opts p) 76 = false -> (p_prec p = None \/ ~ gen_type (p_type p)) ->
  (p_width p = [] \/ (u_spc U (fill_of p) = true /\ fill_of p <> 10)) -> pads p = false ->
  format_ufloat (K := DecOps) U nom s spec = Ok r ->
  exists u, ufloat_fromstr (K := DecOps) U r tag = Ok (nom, u, tag, 0%nat) /\ special_read s u.
Proof. exact word_trip. Qed.
Print Assumptions C44_words_partial.
Example C44_words_example : plain_spec (lit "+10") /\ plain_spec (lit "S") /\
  nonreal (DInf true) /\ special_std DNan /\
  format_ufloat (K := DecOps) uni (DInf true) DNan (lit "+10") = Ok (lit "      -inf+/-       nan") /\
  parsed (lit "      -inf+/-       nan") = Ok (DInf true, DNan, X, 0%nat) /\
  format_ufloat (K := DecOps) uni (DInf true) DNan (lit "S") = Ok (lit "-inf(nan)") /\
  parsed (lit "-inf(nan)") = Ok (DInf true, DNan, X, 0%nat).
Proof. exact ex_word_trip. Qed.
(** ... and with positive uncertainties: types e, E, f and F with a precision, no shorthand notation. *)
Theorem C44_word_real_partial : forall (U : Unicode), UniLaws U -> forall (nom s : dec) spec p r tag, nonreal nom -> real s -> (0 < dq s)%Q -> parse_spec U spec = Ok p ->
  p_type p <> lit "%" -> p_comma p = [] -> opt (p_opts p) 76 = false -> ~ gen_type (p_type p) -> p_prec p <> None ->
  opt (p_opts p) 83 = false ->
  (p_width p = [] \/ (u_spc U (fill_of p) = true /\ fill_of p <> 10)) -> pads p = false ->
  format_ufloat (K := DecOps) U nom s spec = Ok r ->
  exists e d n u,
    ufloat_fromstr (K := DecOps) U r tag = Ok (nom, u, tag, 0%nat) /\
    (exists nx ex x ns es w, laid_out U p false e nx ex x ns es r /\ shown [] (pads p) false w false n d es) /\
    half_even (dq s * p10 (Z.of_nat d - oz e)) n /\
    (real u /\ dq u == inject_Z n * p10 (oz e - Z.of_nat d))%Q.
Proof. exact word_real_trip. Qed.
Print Assumptions C44_word_real_partial.
Example C44_word_real_example : plain_spec (lit ".3e") /\ nonreal DNan /\ real (DNum false 12344 (-3)) /\ (0 < dq (DNum false 12344 (-3)))%Q /\
  format_ufloat (K := DecOps) uni DNan (DNum false 12344 (-3)) (lit ".3e") = Ok (lit "(nan+/-1.234)e+01") /\
  parsed (lit "(nan+/-1.234)e+01") = Ok (DNan, DNum false 1234 (-2), X, 0%nat).
Proof. exact ex_word_real_trip. Qed.
(** False in shorthand notation: nan+/-0.1 is shown as nan(100000000000), and read so. *)
Theorem C44_units_refuted : plain_spec (lit "S") /\
  format_ufloat (K := DecOps) uni DNan (DNum false 1 (-1)) (lit "S") = Ok (lit "nan(100000000000)") /\
  parsed (lit "nan(100000000000)") = Ok (DNan, DNum false 100000000000 0, X, 0%nat).
Proof. exact word_units. Qed.
Print Assumptions C44_units_refuted.
(** ** C45 *)
(** C45: repr() can be parsed, and the result is the same number; the sign of a zero uncertainty is lost. *)
Theorem C45_repr : forall (U : Unicode), UniLaws U -> forall (nom s : dec) tag, dgood nom -> dgood s ->
  ~ negative s -> exists v u,
  ufloat_fromstr (K := DecOps) U (repr_ufloat (K := DecOps) nom s) tag = Ok (v, u, tag, 0%nat) /\
  dsame v nom /\ (dsame u s \/ (real s /\ real u /\ dq s == 0 /\ dq u == 0)%Q).
Proof. exact exact_repr_back. Qed.
Print Assumptions C45_repr.
Example C45_example : dgood (DNum true 12345 (-2)) /\ dgood (DNum false 5 (-9)) /\ ~ negative (DNum false 5 (-9)) /\
  refused DecOps (DNum false 5 (-9)) = false /\
  repr_ufloat (K := DecOps) (DNum true 12345 (-2)) (DNum false 5 (-9)) = lit "-123.45+/-5e-09" /\
  parsed (lit "-123.45+/-5e-09") = Ok (DNum true 12345 (-2), DNum false 5 (-9), X, 0%nat).
Proof. exact ex_repr. Qed.
(** C45, in any arithmetic in which the digits of repr() convert to the float. *)
Theorem C45_repr_any : forall (U : Unicode), UniLaws U ->
  forall (K : FmtOps) (good : fl K -> Prop) (eqv : fl K -> fl K -> Prop), ReprLaws K good eqv ->
  forall nom s tag, good nom -> good s -> refused K s = false -> exists v u,
  ufloat_fromstr (K := K) U (repr_ufloat nom s) tag = Ok (v, u, tag, 0%nat) /\
  eqv v nom /\ (if x_iszero K s then u = x_dec K false 0 0 else eqv u s).
Proof. exact repr_reads. Qed.
Print Assumptions C45_repr_any.
Example C45_repr_any_example : ReprLaws DecOps dgood dsame.
Proof. exact exact_repr. Qed.
(** C45, variables with a tag: it is shown, and the text is never taken for a number. *)
Theorem C45_tagged : forall (K : FmtOps) (U : Unicode), UniLaws U -> forall t (nom s : fl K) tag,
  repr_variable (Some t) nom s = lit "< " ++ t ++ lit " = " ++ repr_variable None nom s ++ lit " >" /\
  ufloat_fromstr (K := K) U (repr_variable (Some t) nom s) tag = Err EValue.
Proof. exact tagged_any. Qed.
Print Assumptions C45_tagged.
Example C45_tagged_example : repr_variable (K := DecOps) (Some (lit "x")) (DNum true 12345 (-2)) (DNum false 5 (-9)) = lit "< x = -123.45+/-5e-09 >" /\
  parsed (lit "< x = -123.45+/-5e-09 >") = Err EValue /\ parsed (lit "-123.45+/-5e-09") = Ok (DNum true 12345 (-2), DNum false 5 (-9), X, 0%nat).
Proof. exact ex_tagged. Qed.
(** Without a tag, repr() is the one of the theorems above. *)
Theorem C45_untagged : forall (K : FmtOps) (nom s : fl K), repr_variable None nom s = repr_ufloat nom s.
Proof. exact untagged_repr. Qed.
Print Assumptions C45_untagged.
(** ** C46 *)
(** C46: the values of the notations, in exact decimal arithmetic, with spaces around them. *)
Theorem C46_notations : forall (U : Unicode), UniLaws U -> forall s m sp sp' tag, notation U s m -> spaces U sp -> spaces U sp' ->
  exists v u, denoted m v u /\
    ((~ negative u /\ ufloat_fromstr (K := DecOps) U (sp ++ s ++ sp') tag = Ok (v, u, tag, 0%nat)) \/
     (negative u /\ ufloat_fromstr (K := DecOps) U (sp ++ s ++ sp') tag = Err ENegStd)).
Proof. exact exact_notation. Qed.
Print Assumptions C46_notations.
Example C46_example : notation uni (lit "(-1.23 +/- 0.4)e5") (MPair (LDec true 123 (-2)) None (LDec false 4 (-1)) None (Some 5)) /\
  notation uni (lit "-1.23(45)e5") (MParen (LDec true 123 (-2)) 2 (UUnits 45) (Some 5)) /\
  notation uni (lit "12.3(4.5)") (MParen (LDec false 123 (-1)) 1 (UNumber (LDec false 45 (-1))) None) /\
  notation uni (lit "(12.3)") (MParen (LDec false 123 (-1)) 1 ULast None).
Proof. exact ex_notations. Qed.
Example C46_example_values : parsed (lit " (-1.23 +/- 0.4)e5 ") = Ok (DNum true 123 3, DNum false 4 4, X, 0%nat) /\
  parsed (lit "-1.23(45)e5") = Ok (DNum true 123 3, DNum false 45 3, X, 0%nat) /\
  parsed (lit "12.3(4.5)") = Ok (DNum false 123 (-1), DNum false 45 (-1), X, 0%nat) /\
  parsed (lit "(12.3)") = Ok (DNum false 123 (-1), DNum false 1 (-1), X, 0%nat) /\
  parsed (lit "(1.2" ++ [177] ++ lit "0.1)" ++ [215] ++ lit "10" ++ [8315; 178]) = Ok (DNum false 12 (-3), DNum false 1 (-3), X, 0%nat) /\
  parsed (lit "nan(inf)") = Ok (DNan, DInf false, X, 0%nat).
Proof. exact ex_values. Qed.
(** C46, in any arithmetic: numbers are read as the nearest floats, and multiplied by powers of ten. *)
Theorem C46_floats : forall (U : Unicode), UniLaws U -> forall (K : FmtOps) s m sp sp' tag, notation U s m -> spaces U sp -> spaces U sp' ->
  ufloat_fromstr (K := K) U (sp ++ s ++ sp') tag =
  match meaning_fl m with
  | Ok (v, u) =>
      if x_sign K u && negb (x_iszero K u) && negb (x_isinf K u || x_isnan K u) then Err ENegStd
      else Ok (v, u, tag, 0%nat)
  | Err e => Err e
  end.
Proof. exact float_notation. Qed.
Print Assumptions C46_floats.
Example C46_floats_example : notation uni (lit "(-1.23 +/- 0.4)e5") (MPair (LDec true 123 (-2)) None (LDec false 4 (-1)) None (Some 5)) /\
  notation uni (lit "-1.23(45)e5") (MParen (LDec true 123 (-2)) 2 (UUnits 45) (Some 5)) /\
  notation uni (lit "12.3(4.5)") (MParen (LDec false 123 (-1)) 1 (UNumber (LDec false 45 (-1))) None) /\
  notation uni (lit "(12.3)") (MParen (LDec false 123 (-1)) 1 ULast None).
Proof. exact ex_notations. Qed.
(** ** C47 *)
(** C47: every string gives a number or one of three exceptions, in any arithmetic where powers of ten only overflow. Partial: the exceptions are not all ValueErrors, see below. *)
Theorem C47_errors_partial : forall (K : FmtOps) (U : Unicode), OnlyOverflow K -> forall s tag,
  (exists v u, ufloat_fromstr (K := K) U s tag = Ok (v, u, tag, 0%nat) /\ refused K u = false) \/
  ufloat_fromstr (K := K) U s tag = Err EValue \/
  ufloat_fromstr (K := K) U s tag = Err EOverflow \/
  ufloat_fromstr (K := K) U s tag = Err ENegStd.
Proof. exact string_errors. Qed.
Print Assumptions C47_errors_partial.
Example C47_example : NoOverflow DecOps /\ OnlyOverflow DecOps /\
  parsed (lit "1+/-x") = Err EValue /\ parsed [] = Err EValue /\ parsed (lit "1(2") = Err EValue.
Proof. exact ex_errors. Qed.
(** Without overflows there are only two exceptions. *)
Theorem C47_errors_exact : forall (K : FmtOps) (U : Unicode), NoOverflow K -> forall s tag,
  (exists v u, ufloat_fromstr (K := K) U s tag = Ok (v, u, tag, 0%nat) /\ refused K u = false) \/
  ufloat_fromstr (K := K) U s tag = Err EValue \/
  ufloat_fromstr (K := K) U s tag = Err ENegStd.
Proof. exact string_errors_exact. Qed.
Print Assumptions C47_errors_exact.
(** A negative uncertainty raises another exception... *)
Theorem C47_negative_refuted : parsed (lit "1+/--1") = Err ENegStd.
Proof. exact negative_error. Qed.
Print Assumptions C47_negative_refuted.
(** ... and so do large exponents, if 10.**400 overflows. *)
Theorem C47_overflow_refuted : forall (K : FmtOps), x_mul10 K (x_nan K) 400 = Err EOverflow -> forall tag,
  ufloat_fromstr (K := K) uni (lit "(1+/-1)e400") tag = Err EOverflow.
Proof. exact overflow_error. Qed.
Print Assumptions C47_overflow_refuted.
(** C59, false: texts which are not notations are accepted. *)
Theorem C59_strange_refuted : parsed (lit "1+/-2" ++ [10] ++ lit "foo") = Ok (DNum false 1 0, DNum false 2 0, X, 0%nat) /\
  parsed (lit "1.2e") = Ok (DNum false 12 (-1), DNum false 1 (-1), X, 0%nat) /\
  parsed (lit "(1.23(4))e5") = Ok (DNum false 123 (-2), DNum false 4 (-2), X, 0%nat) /\
  parsed (lit "1+/--inf") = Ok (DNum false 1 0, DInf true, X, 0%nat).
Proof. exact strange_texts. Qed.
Print Assumptions C59_strange_refuted.
(** ** C59 *)
(** C59: whatever is accepted is a text of the grammar of LangSpec, with the value which this grammar gives; in any arithmetic. *)
Theorem C59_accepted : forall (K : FmtOps) (U : Unicode), UniLaws U ->
  forall s (v u : fl K) tag w, ufloat_fromstr (K := K) U s tag = Ok (v, u, tag, w) ->
  exists m f, accepted U s m f /\ reading (K := K) m f = Ok (v, u).
Proof. exact accepted_any. Qed.
Print Assumptions C59_accepted.
Example C59_example : (accepted uni (lit " (10.5(2))e-3") (MParen (LDec false 105 (-1)) 1 (UUnits 2) None) (Some (-3)) /\
   parsed (lit " (10.5(2))e-3") = Ok (DNum false 105 (-1), DNum false 2 (-1), X, 0%nat)) /\
  (accepted uni (lit "1_0+/-2" ++ [10] ++ lit "metres") (MPair (LDec false 10 0) None (LDec false 2 0) None None) None /\
   parsed (lit "1_0+/-2" ++ [10] ++ lit "metres") = Ok (DNum false 10 0, DNum false 2 0, X, 0%nat)).
Proof. exact ex_accepted. Qed.
(** Every other text raises. *)
Theorem C59_refused : forall (K : FmtOps) (U : Unicode), UniLaws U ->
  forall s tag, (forall m f, ~ accepted U s m f) -> exists e, ufloat_fromstr (K := K) U s tag = Err e.
Proof. exact refused_any. Qed.
Print Assumptions C59_refused.
Example C59_refused_example : forall m f, ~ accepted uni (lit "(x+/-y)e-.") m f.
Proof. exact ex_refused. Qed.
(** ** C76 *)
(** C76: all the texts of the grammar are read, with the values of the grammar. *)
Theorem C76_read : forall (K : FmtOps) (U : Unicode), UniLaws U ->
  forall s m f tag, accepted U s m f ->
  match reading (K := K) m f with
  | Ok (v, u) =>
      ufloat_fromstr (K := K) U s tag = Ok (v, u, tag, 0%nat) \/
      ufloat_fromstr (K := K) U s tag = Err ENegStd /\ x_sign K u = true /\ x_iszero K u = false /\ isinfinite u = false
  | Err e => ufloat_fromstr (K := K) U s tag = Err e
  end.
Proof. exact read_any. Qed.
Print Assumptions C76_read.
(** Two derivations of a text give the same value. *)
Theorem C76_unambiguous : forall (K : FmtOps) (U : Unicode), UniLaws U ->
  forall s m f m' f', accepted U s m f -> accepted U s m' f' -> reading (K := K) m f = reading (K := K) m' f'.
Proof. exact read_unique. Qed.
Print Assumptions C76_unambiguous.
Example C76_example : (accepted uni (lit " (10.5(2))e-3") (MParen (LDec false 105 (-1)) 1 (UUnits 2) None) (Some (-3)) /\
   parsed (lit " (10.5(2))e-3") = Ok (DNum false 105 (-1), DNum false 2 (-1), X, 0%nat)) /\
  (accepted uni (lit "1_0+/-2" ++ [10] ++ lit "metres") (MPair (LDec false 10 0) None (LDec false 2 0) None None) None /\
   parsed (lit "1_0+/-2" ++ [10] ++ lit "metres") = Ok (DNum false 10 0, DNum false 2 0, X, 0%nat)).
Proof. exact ex_accepted. Qed.
(** ** C55 *)
(** C55, in any arithmetic: the current form. *)
Theorem C55_current_form : forall (K : FmtOps) (U : Unicode), forall v s tag,
  ufloat (K := K) U (ANum v) (ANum s) tag = if refused K s then Err ENegStd else Ok (v, s, tag, 0%nat).
Proof. exact new_form. Qed.
Print Assumptions C55_current_form.
(** A tuple is the current form, with a warning; the tag is the third or the second argument. *)
Theorem C55_tuple : forall (K : FmtOps) (U : Unicode), forall a b l second third,
  ufloat (K := K) U (ATup (a :: b :: l)) second third = warned K (ufloat (K := K) U a b (the_tag K second third)).
Proof. exact tuple_form. Qed.
Print Assumptions C55_tuple.
Theorem C55_short_tuple : forall (K : FmtOps) (U : Unicode), forall l second third, (length l < 2)%nat -> ufloat (K := K) U (ATup l) second third = Err EIndex.
Proof. exact short_tuple. Qed.
Print Assumptions C55_short_tuple.
(** A string is parsed, with a warning. Partial: the second argument must not be a number. *)
Theorem C55_string_partial : forall (K : FmtOps) (U : Unicode), forall s second third, ~ number_arg K second ->
  ufloat (K := K) U (AStr s) second third = warned K (ufloat_fromstr (K := K) U s (the_tag K second third)).
Proof. exact string_form. Qed.
Print Assumptions C55_string_partial.
(** Other arguments raise. *)
Theorem C55_others : forall (K : FmtOps) (U : Unicode), forall second third, ufloat (K := K) U ANone second third = Err EAttr /\
  ufloat (K := K) U AObj second third = Err EAttr /\
  (forall v, ~ number_arg K second -> ufloat (K := K) U (ANum v) second third = Err EAttr).
Proof. exact other_form. Qed.
Print Assumptions C55_others.
(** With a number as second argument, a string that is a number is the nominal value... *)
Theorem C55_string_number : forall (K : FmtOps) (U : Unicode), forall s v x third, py_float (K := K) U s = Ok v ->
  ufloat (K := K) U (AStr s) (ANum x) third = if refused K x then Err ENegStd else Ok (v, x, third, 0%nat).
Proof. exact string_number. Qed.
Print Assumptions C55_string_number.
(** ... and for other strings the number is the tag. *)
Theorem C55_string_tag : forall (K : FmtOps) (U : Unicode), forall s x third, (forall v, py_float (K := K) U s <> Ok v) ->
  ufloat (K := K) U (AStr s) (ANum x) third = warned K (ufloat_fromstr (K := K) U s (the_tag K (ANum x) third)).
Proof. exact string_tag. Qed.
Print Assumptions C55_string_tag.
Example C55_example : new (ATup [n3; n1]) tx ANone = Ok (DNum false 3 0, DNum false 1 (-1), X, 1%nat) /\
  new (AStr (lit "3.0(1)")) tx ANone = Ok (DNum false 30 (-1), DNum false 1 (-1), X, 1%nat) /\
  ~ number_arg DecOps tx /\ ~ number_arg DecOps ANone /\
  new n3 ANone ANone = Err EAttr /\ new (ATup [n3]) ANone ANone = Err EIndex.
Proof. exact ex_forms. Qed.
Theorem C55_number_refuted : new (AStr (lit "3")) n1 ANone = Ok (DNum false 3 0, DNum false 1 (-1), TNone, 0%nat) /\
  seen (ufloat_fromstr (K := DecOps) uni (lit "3") n1) = Ok (DNum false 3 0, DNum false 1 0, T1, 0%nat) /\
  new (AStr (lit "1.2(3)")) n1 ANone = Ok (DNum false 12 (-1), DNum false 3 (-1), T1, 1%nat).
Proof. exact string_and_number. Qed.
Print Assumptions C55_number_refuted.
(** Some incorrect arguments do not raise. *)
Theorem C55_tuples_refuted : new (ATup [ATup [n3; n1]; n3]) ANone ANone = Ok (DNum false 3 0, DNum false 1 (-1), TNum (DNum false 3 0), 2%nat) /\
  new (ATup [n3; n1; n3; n3]) ANone ANone = Ok (DNum false 3 0, DNum false 1 (-1), TNone, 1%nat).
Proof. exact strange_tuples. Qed.
Print Assumptions C55_tuples_refuted.
