(** Property theorems about calculations in binary64. *)
From Coq Require Import ZArith List Bool Reals.
From Coquelicot Require Import Coquelicot.
From Flocq Require Import Core BinarySingleNaN.
From Verif Require Import Base Heap HeapSpec NumR NumF Affine Ops UMath Machine History GenProofs FRefute BinProofs BinStd BinArith NumFacts NumState FmodState ExFmod BinDeriv GradSpec BinEq.
Import ListNotations.
Local Open Scope R_scope.

(** ** C65 *)
(** C65: error components and standard deviations in binary64. *)
Theorem C65_std_dev : forall lm, squares_ok lm -> forall (st : state (FOps lm)) i u d ec ins, is_number st i u ->
  reads st (IDeriv i) (ODict d) -> reads st (IErrs i) (OErrs ec) ->
  List.Forall (entry_ok lm st) d -> INR (length d) <= 1000000 ->
  ins = IStdS i \/ (ins = IStd i /\ uf_var u = None) ->
  Forall2 (fun p c => fst p = fst c /\ near lm (prod lm st p) (snd c)) d ec /\
  let S := sqrt (Rsum (map (fun p => prod lm st p ^ 2) d)) in
  exists s : f64, reads st ins (ONum (N:=FOps lm) s) /\ is_finite s = true /\
    Rabs (B2R s - S) <= INR (length d + 7) / 2 ^ 53 * S.
Proof. exact std_accurate. Qed.
Print Assumptions C65_std_dev.
(** ufloat(1, 3) + ufloat(2, 4). *)
Example C65_example : exists u, squares_ok lm0 /\ is_number sf 2 u /\ uf_var u = None /\
  reads sf (IDeriv 2) (ODict (N:=FN) sf_dict) /\ reads sf (IErrs 2) (OErrs sf_errs) /\
  List.Forall (entry_ok lm0 sf) sf_dict /\ length sf_dict = 2%nat /\
  exists s : f64, reads sf (IStd 2) (ONum (N:=FN) s) /\ B2R s = 5.
Proof. exact ex_std_accurate. Qed.
(** What is supposed about the C library holds if squares are correctly rounded. *)
Theorem C65_libm : forall lm, exact_squares lm -> squares_ok lm.
Proof. exact exact_squares_ok. Qed.
Print Assumptions C65_libm.
Example C65_libm_example : exact_squares lm0.
Proof. exact lm0_squares. Qed.
(** Large standard deviations cannot be calculated: ufloat(1, 2**700) * 1. *)
Theorem C65_overflow_refuted : reachable (after large_std) /\ has_uf (after large_std) 2 = true /\
  match snd (step 40 (after large_std) (IErrs 2)) with
  | OErrs [(v, PF c)] => is_finite (c : f64) && Beqb (c : f64) (fnorm 1 700)
  | _ => false
  end = true /\
  reads (after large_std) (IStd 2) (OExn EOverflow).
Proof. exact std_overflows. Qed.
Print Assumptions C65_overflow_refuted.
(** ** C10 *)
(** C10 in binary64, for numbers of which the derivatives have been read: == is true exactly if the nominal values are equal and the derivatives with respect to all variables with a nonzero standard deviation are. Missing: numbers not read yet (C10_binary64_refuted), and differences so small that their squares underflow (C16_binary64_refuted). *)
Theorem C10_read_binary64_partial : forall lm, squares_ok lm -> forall (st : state (FOps lm)) i j u w di dj,
  is_number st i u -> is_number st j w -> comparable lm st i j di dj ->
  is_finite (uf_nom u : f64) = true -> is_finite (uf_nom w : f64) = true ->
  exists b, reads st (ICmp Ceq i j) (OBool b) /\
    (b = true <-> B2R (uf_nom u : f64) = B2R (uf_nom w : f64) /\ forall v, fval lm di v = fval lm dj v \/ B2R (sd st v : f64) = 0).
Proof. exact equal_when_read. Qed.
Print Assumptions C10_read_binary64_partial.
(** x + x == 2*x, x + x != x. *)
Example C10_read_example : squares_ok lm0 /\ (exists u w, is_number st_tw 1 u /\ is_number st_tw 3 w /\ is_finite (uf_nom u : f64) = true /\ is_finite (uf_nom w : f64) = true) /\
  comparable lm0 st_tw 1 3 (dict_at st_tw 1) (dict_at st_tw 3) /\ reads st_tw (ICmp Ceq 1 3) (OBool true) /\
  reads st_tw (ICmp Ceq 1 0) (OBool false).
Proof. exact ex_equal. Qed.
(** Under these conditions == is symmetric in binary64. *)
Theorem C10_read_sym_partial : forall lm, squares_ok lm -> forall (st : state (FOps lm)) i j u w di dj,
  is_number st i u -> is_number st j w -> comparable lm st i j di dj ->
  is_finite (uf_nom u : f64) = true -> is_finite (uf_nom w : f64) = true ->
  exists b, reads st (ICmp Ceq i j) (OBool b) /\ reads st (ICmp Ceq j i) (OBool b).
Proof. exact equal_when_read_sym. Qed.
Print Assumptions C10_read_sym_partial.
(** A number of which the derivatives have been read is equal to itself, if its nominal value, its derivatives and the standard deviations of its variables are finite. *)
Theorem C10_read_refl_partial : forall lm, squares_ok lm -> forall (st : state (FOps lm)) i u d e,
  reachable st -> is_number st i u -> known_dict lm st i d -> reads st (IErrs i) (OErrs e) ->
  NoDup (dkeys d) -> all_finite lm d -> (INR (length d) <= 500000)%R -> (forall v, In v (dkeys d) -> is_finite (sd st v : f64) = true) ->
  is_finite (uf_nom u : f64) = true -> reads st (ICmp Ceq i i) (OBool true) /\ reads st (ICmp Cne i i) (OBool false).
Proof. exact equal_when_read_refl. Qed.
Print Assumptions C10_read_refl_partial.
(** ** C54 *)
(** C54 in binary64, for divisors with uncertainties that are zero or whose squares neither overflow nor underflow; without any condition for the other operators and for divisors without uncertainty. *)
Theorem C54_binary64_partial : forall (lm : Libm), squares_ok lm -> forall (st : state (FOps lm)) op i j a b p q st' e,
  nth_error (st_env st) i = Some a -> nth_error (st_env st) j = Some b ->
  nominal_value a = PNum p -> nominal_value b = PNum q -> is_uf a = true \/ is_uf b = true ->
  (forall u, b = VUF u -> divisor_ok op (uf_nom u)) ->
  does st (IBin op i j) st' (OExn e) -> arith e = true ->
  rbind (pn_float p) (fun x => rbind (pn_float q) (fun y => float_op (N:=FOps lm) op x y)) = Err e.
Proof. exact operator_raises_f. Qed.
Print Assumptions C54_binary64_partial.
(** ufloat(1, 1) / ufloat(0, 1). *)
Example C54_binary64_example : squares_ok lm0 /\ has_uf (after one_zero) 0 = true /\ has_uf (after one_zero) 1 = true /\
  divisor_ok Btruediv (uf_nom (uf_at (after one_zero) 1)) /\ reads (after one_zero) (IBin Btruediv 0 1) (OExn EZeroDiv) /\
  arith EZeroDiv = true.
Proof. exact ex_operator_raises. Qed.
(** C54 for abs(), the signs and math.trunc(). *)
Theorem C54_unary : forall (lm : Libm), forall (st : state (FOps lm)) op i u st' e, is_number st i u ->
  does st (ICall (unop_fun op) (unop_pos op) no_kw [i] []) st' (OExn e) -> float_unop (N:=FOps lm) op (uf_nom u) = Err e.
Proof. exact unop_raises_f. Qed.
Print Assumptions C54_unary.
(** math.trunc(ufloat(inf, 1)). *)
Example C54_unary_example : has_uf (after infinite_one) 0 = true /\
  reads (after infinite_one) (ICall (unop_fun Utrunc) (unop_pos Utrunc) no_kw [0%nat] []) (OExn EOverflow).
Proof. exact ex_unop_raises. Qed.
(** ** C66 *)
(** C66: x % y. *)
Theorem C66_mod : forall (lm : Libm), forall (st : state (FOps lm)) i j x y st', nominal_f st i x -> nominal_f st j y -> ~ (certain st i /\ certain st j) ->
  is_finite x = true -> is_finite y = true -> does st (IBin Bmod i j) st' ONone ->
  B2R y <> 0 /\ exists w, is_number st' (length (st_env st)) w /\ @is_finite 53 1024 (uf_nom w) = true /\
    @B2R 53 1024 (uf_nom w) = rnd64 (B2R x - B2R y * IZR (Zfloor (B2R x / B2R y))).
Proof. exact mod_value. Qed.
Print Assumptions C66_mod.
(** x = ufloat(-7.5, 1), y = ufloat(2, 1): x % y, x // y, fsum([x, y]), modf(x), ldexp(x, 2), x ** 2.0 and x ** 0.5. *)
Example C66_example : (exists x, nominal_f sv 0 x /\ is_finite x = true /\ B2R x = - 15 / 2) /\ (exists x, nominal_f sv 1 x /\ is_finite x = true /\ B2R x = 2) /\
  ~ certain sv 0 /\
  (exists st' (r : f64), does sv (IBin Bmod 0 1) st' ONone /\ nominal_f st' 4 r /\ B2R r = / 2) /\
  (exists st' (r : f64), does sv (IBin Bfloordiv 0 1) st' ONone /\ nominal_f st' 4 r /\ B2R r = -4) /\
  (exists st' (r : f64), does sv (ICall flat_fsum fsum_pos fsum_kw [0; 1]%nat []) st' ONone /\ nominal_f st' 4 r /\ B2R r = - 11 / 2) /\
  (exists st' (r : f64), does sv (IModf 0) st' ONone /\ nominal_f st' 4 r /\ B2R r = - / 2) /\
  (exists st' (r : f64), does sv (ILdexp 0 2) st' ONone /\ nominal_f st' 4 r /\ B2R r = -30) /\
  (exists st' (r : f64), does sv (IBin Bpow 0 2) st' ONone /\ nominal_f st' 4 r /\ B2R r = 225 / 4) /\
  reads sv (IBin Bpow 0 3) (OExn EValue).
Proof. exact ex_nominal_values. Qed.
(** x // y, for quotients up to 2**50. *)
Theorem C66_floordiv : forall (lm : Libm), forall (st : state (FOps lm)) i j x y st', nominal_f st i x -> nominal_f st j y -> ~ (certain st i /\ certain st j) ->
  is_finite x = true -> is_finite y = true -> does st (IBin Bfloordiv i j) st' ONone -> Rabs (B2R x / B2R y) <= 2 ^ 50 ->
  exists w, is_number st' (length (st_env st)) w /\ @is_finite 53 1024 (uf_nom w) = true /\
    @B2R 53 1024 (uf_nom w) = IZR (Zfloor (B2R x / B2R y)).
Proof. exact floordiv_value. Qed.
Print Assumptions C66_floordiv.
(** x ** y for x < 0: a complex result is refused; the sign depends on the parity of y. *)
Theorem C66_pow : forall (lm : Libm), forall (st : state (FOps lm)) i j x y st' o, nominal_f st i x -> nominal_f st j y -> ~ (certain st i /\ certain st j) ->
  is_finite x = true -> is_finite y = true -> B2R x < 0 -> B2R y <> 0 -> does st (IBin Bpow i j) st' o ->
  ((~ exists z, B2R y = IZR z) -> o <> ONone) /\
  (o = ONone -> exists w z r, is_number st' (length (st_env st)) w /\ B2R y = IZR z /\ f_pow lm (fabs x) y = Ok (Some r) /\
     uf_nom w = if Z.odd z then fneg r else r).
Proof. exact pow_value. Qed.
Print Assumptions C66_pow.
(** umath.fsum(). *)
Theorem C66_fsum : forall (lm : Libm), forall (st : state (FOps lm)) is xs st', Forall2 (nominal_f st) is xs -> (exists i, In i is /\ ~ certain st i) ->
  forallb (@is_finite 53 1024) xs = true -> does st (ICall flat_fsum fsum_pos fsum_kw is []) st' ONone ->
  exists w, is_number st' (length (st_env st)) w /\ @is_finite 53 1024 (uf_nom w) = true /\ @B2R 53 1024 (uf_nom w) = rnd64 (Rsum (map B2R xs)).
Proof. exact fsum_value. Qed.
Print Assumptions C66_fsum.
(** umath.modf()[0]. *)
Theorem C66_modf : forall (lm : Libm), forall (st : state (FOps lm)) i x st', nominal_f st i x -> is_finite x = true -> does st (IModf i) st' ONone ->
  exists r, nominal_f st' (length (st_env st)) r /\ is_finite r = true /\ B2R r = B2R x - IZR (Ztrunc (B2R x)) /\ Bsign r = Bsign x.
Proof. exact modf_value. Qed.
Print Assumptions C66_modf.
(** umath.ldexp(). *)
Theorem C66_ldexp : forall (lm : Libm), forall (st : state (FOps lm)) i e x st', nominal_f st i x -> is_finite x = true -> does st (ILdexp i e) st' ONone ->
  exists r, nominal_f st' (length (st_env st)) r /\ is_finite r = true /\ B2R r = rnd64 (B2R x * bpow radix2 e) /\ Bsign r = Bsign x.
Proof. exact ldexp_value. Qed.
Print Assumptions C66_ldexp.
(** math.frexp(), of which umath.frexp() returns the results. *)
Theorem C66_frexp : forall x : f64, is_finite x = true ->
  is_finite (fst (f_frexp x)) = true /\ B2R x = B2R (fst (f_frexp x)) * bp (snd (f_frexp x)) /\
  (B2R x = 0 -> fst (f_frexp x) = x /\ snd (f_frexp x) = 0%Z) /\ (B2R x <> 0 -> / 2 <= Rabs (B2R (fst (f_frexp x))) < 1).
Proof. exact frexp_exact. Qed.
Print Assumptions C66_frexp.
(** Both parts of math.modf(). *)
Theorem C66_modf_parts : forall x : f64, is_finite x = true ->
  is_finite (fst (f_modf x)) = true /\ is_finite (snd (f_modf x)) = true /\
  B2R (snd (f_modf x)) = IZR (Ztrunc (B2R x)) /\ B2R (fst (f_modf x)) = B2R x - IZR (Ztrunc (B2R x)) /\
  Bsign (fst (f_modf x)) = Bsign x /\ Bsign (snd (f_modf x)) = Bsign x.
Proof. exact modf_exact. Qed.
Print Assumptions C66_modf_parts.
(** math.fsum() of finite numbers raises OverflowError only if the rounded sum overflows. *)
Theorem C66_fsum_overflow : forall l : list f64, forallb (@is_finite 53 1024) l = true -> let S := rnd64 (Rsum (map B2R l)) in
  (exists r, f_fsum l = Ok r /\ is_finite r = true /\ B2R r = S /\ Rabs S < bp 1024) \/ (f_fsum l = Err EOverflow /\ bp 1024 <= Rabs S).
Proof. exact fsum_rounded. Qed.
Print Assumptions C66_fsum_overflow.
(** math.ldexp(), too. *)
Theorem C66_ldexp_overflow : forall (x : f64) i, is_finite x = true -> let S := rnd64 (B2R x * bp i) in
  (exists r, f_ldexp x i = Ok r /\ is_finite r = true /\ B2R r = S /\ Bsign r = Bsign x /\ Rabs S < bp 1024) \/
  (f_ldexp x i = Err EOverflow /\ bp 1024 <= Rabs S).
Proof. exact ldexp_rounded. Qed.
Print Assumptions C66_ldexp_overflow.
(** umath.fmod() is exact: x - y*trunc(x/y). *)
Theorem C66_fmod : forall (lm : Libm), forall (st : state (FOps lm)) i j x y st', nominal_f st i x -> nominal_f st j y -> ~ (certain st i /\ certain st j) ->
  is_finite x = true -> is_finite y = true -> does st (ICall (m2_fun G_fmod) (m2_pos G_fmod) (m2_kw G_fmod) [i; j] []) st' ONone ->
  B2R y <> 0 /\ exists w, is_number st' (length (st_env st)) w /\ @is_finite 53 1024 (uf_nom w) = true /\
    @B2R 53 1024 (uf_nom w) = B2R x - B2R y * IZR (Ztrunc (B2R x / B2R y)).
Proof. exact fmod_value. Qed.
Print Assumptions C66_fmod.
(** fmod(ufloat(-7.5, 1), ufloat(2, 1)). *)
Example C66_fmod_example : (exists x, nominal_f sv 0 x /\ is_finite x = true /\ B2R x = - 15 / 2) /\ (exists x, nominal_f sv 1 x /\ is_finite x = true /\ B2R x = 2) /\ ~ certain sv 0 /\
  exists st' (r : f64), does sv (ICall (m2_fun G_fmod) (m2_pos G_fmod) (m2_kw G_fmod) [0; 1]%nat []) st' ONone /\ nominal_f st' 4 r /\ B2R r = - 3 / 2.
Proof. exact ex_fmod_value. Qed.
(** umath.fmod() of an infinity, or by zero, raises ValueError ... *)
Theorem C66_fmod_domain : forall (lm : Libm), forall (st : state (FOps lm)) i j x y, nominal_f st i x -> nominal_f st j y -> is_nanf x = false -> is_nanf y = false -> is_inf x = true \/ B2R y = 0 /\ is_finite y = true ->
  exists st', does st (ICall (m2_fun G_fmod) (m2_pos G_fmod) (m2_kw G_fmod) [i; j] []) st' (OExn EValue).
Proof. exact fmod_domain. Qed.
Print Assumptions C66_fmod_domain.
(** x = ufloat(inf, 1), y = ufloat(0, 1), z = ufloat(nan, 1). *)
Example C66_fmod_odd_example : exists x y z : f64, nominal_f odd 0 x /\ nominal_f odd 1 y /\ nominal_f odd 2 z /\
  is_nanf x = false /\ is_inf x = true /\ is_nanf y = false /\ (B2R y = 0 /\ is_finite y = true) /\ is_nanf z = true.
Proof. exact ex_fmod_odd. Qed.
(** ... but not if the other argument is NaN. *)
Theorem C66_fmod_nan : forall (lm : Libm), forall (st : state (FOps lm)) i j x y, nominal_f st i x -> nominal_f st j y -> is_nanf x = true \/ is_nanf y = true ->
  exists st', does st (ICall (m2_fun G_fmod) (m2_pos G_fmod) (m2_kw G_fmod) [i; j] []) st' ONone /\ exists r, nominal_f st' (length (st_env st)) r /\ is_nanf r = true.
Proof. exact fmod_nan. Qed.
Print Assumptions C66_fmod_nan.
(** Constants in the code of derivatives. *)
Theorem C66_constants : forall lm, @B2R 53 1024 (n_zero (FOps lm)) = 0 /\ @B2R 53 1024 (n_one (FOps lm)) = 1 /\ @B2R 53 1024 (n_half (FOps lm)) = / 2 /\ @B2R 53 1024 (n_two (FOps lm)) = 2 /\
  @B2R 53 1024 (n_ten (FOps lm)) = 10 /\ @B2R 53 1024 (n_step (FOps lm)) = / 2 ^ 26 /\ @B2R 53 1024 (n_pi (FOps lm)) = rnd64 PI.
Proof. exact constants_R. Qed.
Print Assumptions C66_constants.
(** ** C29 *)
(** C29 in binary64: the derivative calculated is within V + E/T + 2**-26 (|F1 x| + V + E/T) + 1e-170 of the derivative F1 x, where T is the step (2**-26 times |x|, or 2**-26 at zero), V bounds the variation of F1 at a distance of at most 2T from x, and E bounds the error of the function. *)
Theorem C29_binary64 : forall (lm : Libm), forall (f : pyfun (FOps lm)) r args kw (x : f64) (F F1 : R -> R) V E,
  arg_get r args kw = Some (PNum (PF (N:=FOps lm) x)) -> is_finite x = true -> ordinary_x (B2R x) ->
  let T := stepR (B2R x) in
  (forall t, Rabs (t - B2R x) <= 2 * T -> is_derive F t (F1 t) /\ Rabs (F1 t - F1 (B2R x)) <= V) ->
  (forall y : f64, is_finite y = true -> Rabs (B2R y - B2R x) <= 2 * T ->
     exists z : f64, (let (a, k) := arg_set r args kw (PNum (PF (N:=FOps lm) y)) in f a k) = Ok (PNum (PF (N:=FOps lm) z)) /\
       is_finite z = true /\ Rabs (B2R z - F (B2R y)) <= E) ->
  E / T + Rabs (F1 (B2R x)) + V <= 10 ^ 140 ->
  exists d : f64, partial_derivative f r args kw = Ok (PF (N:=FOps lm) d) /\ is_finite d = true /\
    Rabs (B2R d - F1 (B2R x)) <= V + E / T + (Rabs (F1 (B2R x)) + V + E / T) / 2 ^ 26 + / 10 ^ 170.
Proof. exact numerical_f. Qed.
Print Assumptions C29_binary64.
(** The square, at 1. *)
Example C29_binary64_example : arg_get (APos 0) [PNum (PF (N:=FOps lm0) fone)] [] = Some (PNum (PF (N:=FOps lm0) fone)) /\
  is_finite fone = true /\ ordinary_x (B2R fone) /\
  let T := stepR (B2R fone) in
  (forall t, Rabs (t - B2R fone) <= 2 * T -> is_derive (fun t => t * t) t (2 * t) /\ Rabs (2 * t - 2 * B2R fone) <= 4 * T) /\
  (forall y : f64, is_finite y = true -> Rabs (B2R y - B2R fone) <= 2 * T ->
     exists z : f64, (let (a, k) := arg_set (APos 0) [PNum (PF (N:=FOps lm0) fone)] [] (PNum (PF (N:=FOps lm0) y)) in sq a k) = Ok (PNum (PF (N:=FOps lm0) z)) /\
       is_finite z = true /\ Rabs (B2R z - B2R y * B2R y) <= 2 * u53) /\
  2 * u53 / T + Rabs (2 * B2R fone) + 4 * T <= 10 ^ 140.
Proof. exact ex_numerical_f. Qed.
