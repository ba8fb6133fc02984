(** Formatting with an uncertainty which is zero, infinite or NaN; layout in any arithmetic. *)
From Coq Require Import String.
From Coq Require Import ZArith List Bool Lia QArith Qpower Qabs Qminmax Lqa.
From Verif Require Import Base Str FmtOps Format FmtSpec StrProofs SpecProofs FixedProofs FormatProofs DecProofs RealFmt RealThm.
Import ListNotations.
Local Open Scope Z_scope.
Local Open Scope res_scope.

Section Any.
Context {K : FmtOps} (U : Unicode) (L : UniLaws U).
(** What format_ufloat() computes, when it succeeds. *)
Lemma format_inv : forall (nom s : fl K) spec p r, parse_spec U spec = Ok p -> format_ufloat U nom s spec = Ok r ->
  exists s0 f100 nom1 s1 lim s2 prec0 ce nm sm prec,
    assembled U p s0 /\ x_of_Z K 100 = Ok f100 /\
    nom1 = (if str_eqb (p_type p) (lit "%") then x_mul K nom f100 else nom) /\
    s1 = (if str_eqb (p_type p) (lit "%") then x_mul K s f100 else s) /\
    digits_limit U nom1 s1 p (fmt_type p) = Ok (lim, s2, prec0) /\
    use_exponent (fmt_type p) (max_value (real_values nom1 s1)) lim = Ok ce /\
    match ce with Some e => x_div10 K nom1 e | None => Ok nom1 end = Ok nm /\
    match ce with Some e => x_div10 K s2 e | None => Ok s2 end = Ok sm /\
    prec = match lim with
           | Some l => Z.max (- match ce with Some e => l - e | None => l end)
                             (if isnil (fmt_type p) && x_iszero K s2 then 1 else 0)
           | None => prec0
           end /\
    format_num U nm sm ce p prec (if upper p then 70 else 102)
      (if str_eqb (p_type p) (lit "%") then 37 :: p_opts p else p_opts p) = Ok r.
Proof.
  intros nom s spec p r Hp H. destruct (spec_parts U L spec p Hp) as (HA & _).
  assert (A : exists s0, assembled U p s0) by (destruct HA as [A|(t & _ & A)]; eauto). destruct A as (s0 & A).
  unfold format_ufloat in H. rewrite Hp in H. cbn [rbind] in H.
  apply rbind_ok in H. destruct H as (f100 & E100 & H). cbv zeta in H.
  apply rbind_ok in H. destruct H as (((lim & s2) & prec0) & ED & H).
  apply rbind_ok in H. destruct H as (ce & EC & H). apply rbind_ok in H. destruct H as (nm & EN & H).
  apply rbind_ok in H. destruct H as (sm & ES & H).
  exists s0, f100. do 2 eexists. exists lim, s2, prec0, ce, nm, sm. eexists.
  split; [exact A|]. split; [exact E100|]. split; [reflexivity|]. split; [reflexivity|].
  split; [exact ED|]. split; [exact EC|]. split; [exact EN|]. split; [exact ES|]. split; [reflexivity|].
  rewrite <- (main_eq p (as_type _ _ _ A)). exact H.
Qed.

(** The layout, in any arithmetic. *)
Theorem layout : forall (nom s : fl K) spec p r, parse_spec U spec = Ok p -> format_ufloat U nom s spec = Ok r ->
  exists e nx ex x ns es, laid_out U p (str_eqb (p_type p) (lit "%")) e nx ex x ns es r.
Proof.
  intros nom s spec p r Hp H.
  destruct (format_inv nom s spec p r Hp H) as (s0 & f100 & nom1 & s1 & lim & s2 & prec0 & ce & nm & sm & prec & A & _ & _ & _ & _ & _ & _ & _ & _ & HF).
  destruct (format_num_laid_out U L nm sm ce p s0 prec _ _ r A eq_refl HF) as (x & n0 & es & LO & _).
  do 6 eexists. exact LO.
Qed.
(** An alignment after the sign is refused. *)
Theorem sign_align : forall (nom s : fl K) spec p, parse_spec U spec = Ok p -> p_align p = lit "=" -> p_width p <> [] ->
  forall r, format_ufloat U nom s spec <> Ok r.
Proof.
  intros nom s spec p Hp Ha Hw r H.
  destruct (format_inv nom s spec p r Hp H) as (s0 & f100 & nom1 & s1 & lim & s2 & prec0 & ce & nm & sm & prec & A & _ & _ & _ & _ & _ & _ & _ & _ & HF).
  assert (No : forall t u, robust_align U t (p_fill p) (match p_align p with [] => lit ">" | a => a end) (p_width p) <> Ok u).
  { intros t u. rewrite Ha. discriminate. }
  unfold format_num in HF. cbv zeta in HF.
  assert (Nw : negb (isnil (p_width p)) = true) by (destruct (p_width p); [congruence|reflexivity]). rewrite Nw in HF.
  destruct (has _ 83).
  - apply rbind_ok in HF. destruct HF as (u & _ & HF). apply rbind_ok in HF. destruct HF as (n0 & _ & HF). exact (No _ _ HF).
  - apply rbind_ok in HF. destruct HF as (u & _ & HF). apply rbind_ok in HF. destruct HF as (n0 & _ & HF).
    apply rbind_ok in HF. destruct HF as (a & HF & _). exact (No _ _ HF).
Qed.
End Any.

(** ** Exact decimal numbers *)
Lemma dfix_0 : forall k, dfix 0 k = 0.
Proof.
  intros k. destruct (dfix_half_even 0 k ltac:(lia)) as (H & _). eapply half_even_unique; [exact H|].
  eapply half_even_comp; [|apply half_even_Z]. change (inject_Z 0) with 0%Q. ring.
Qed.
Lemma dval_nonneg : forall s, ascii_digits s -> 0 <= dval s.
Proof.
  induction s as [|c s IH]; intros F; [cbn; lia|]. inversion F as [|? ? Fc Fs]; subst. cbn [dval].
  specialize (IH Fs). assert (0 < 10 ^ len s) by (apply pow10_pos; unfold len; lia). nia.
Qed.
Lemma grouped_digits : forall i, grouped i -> ascii_digits (no_commas i) /\ exists c r, i = c :: r /\ 48 <= c <= 57.
Proof.
  intros i (h & gs & -> & Lh & Fh & Fg). split.
  - unfold no_commas. rewrite filter_app. apply Forall_app. split.
    + apply Forall_forall. intros x Ix. apply filter_In in Ix. destruct Ix as (Ix & _). unfold ascii_digits in Fh. rewrite Forall_forall in Fh. auto.
    + clear Lh Fh h. induction gs as [|g gs IH]; [constructor|]. inversion Fg as [|? ? (_ & Fg1) Fg2]; subst.
      cbn [flat_map app filter]. change (negb (44 =? 44)) with false. cbn iota. rewrite filter_app. apply Forall_app.
      split; [|apply IH; exact Fg2]. apply Forall_forall. intros x Ix. apply filter_In in Ix. destruct Ix as (Ix & _).
      unfold ascii_digits in Fg1. rewrite Forall_forall in Fg1. auto.
  - destruct h as [|c h]; [cbn in Lh; lia|]. inversion Fh; subst. exists c. eexists. split; [reflexivity|assumption].
Qed.
Lemma numeral_zero : forall comma t, numeral comma 0 0 t -> no_padding 0 t -> t = lit "0".
Proof.
  intros comma t (i & f & -> & Lf & Ff & Ni & Gi & Vi) NP. destruct f; [|discriminate]. rewrite !app_nil_r in *.
  assert (X : ascii_digits (no_commas i) /\ exists c r, i = c :: r /\ 48 <= c <= 57).
  { destruct comma; [apply grouped_digits; exact Gi|]. split; [rewrite no_commas_ascii; assumption|].
    destruct i as [|c r]; [congruence|]. inversion Gi; subst. eauto. }
  destruct X as (F & c & r & -> & Hc).
  assert (E : no_commas (c :: r) = c :: no_commas r) by (unfold no_commas; cbn [filter]; destruct (Z.eqb_spec c 44); [lia|reflexivity]).
  rewrite E in *. inversion F; subst. cbn [dval] in Vi. assert (N := dval_nonneg _ H2).
  assert (P : 0 < 10 ^ len (no_commas r)) by (apply pow10_pos; unfold len; lia).
  assert (c = 48) by nia. subst c. apply no_padding_0 in NP. rewrite NP. reflexivity.
Qed.

Section Zero.
Context (U : Unicode) (L : UniLaws U).

(** A zero uncertainty is shown as 0. *)
Theorem zero_uncertainty : forall (nom s : dec) (spec : str) (p : parts) (r : str),
  dzero s -> parse_spec U spec = Ok p -> format_ufloat (K := DecOps) U nom s spec = Ok r ->
  exists e nx x ns es,
    laid_out U p (str_eqb (p_type p) (lit "%")) e nx false x ns es r /\
    (opt (p_opts p) 83 = true \/ pads p = false -> es = lit "0") /\
    (opt (p_opts p) 83 = false -> shown [] (pads p) (commas p) (uval U (p_width p)) false 0 0 es).
Proof.
  intros nom s spec p r (z & ->) Hp H.
  destruct (format_inv (K := DecOps) U L nom _ spec p r Hp H) as
    (s0 & f100 & nom1 & s1 & lim & s2 & prec0 & ce & nm & sm & prec & A & E100 & _ & E1 & ED & _ & _ & ES & _ & HF).
  injection E100 as <-.
  assert (S1 : exists z1, s1 = DNum false 0 z1).
  { rewrite E1. destruct (str_eqb _ _); eexists; reflexivity. }
  destruct S1 as (z1 & S1).
  assert (S2 : s2 = DNum false 0 z1).
  { rewrite S1 in ED. unfold digits_limit in ED. cbn [x_iszero DecOps negb] in ED. rewrite Z.eqb_refl in ED. cbn [negb] in ED.
    rewrite andb_false_r in ED. cbn [andb] in ED. destruct (is_f _); [injection ED as _ <- _; reflexivity|].
    destruct (max_value _); [|injection ED as _ <- _; reflexivity].
    apply rbind_ok in ED. destruct ED as (l & _ & ED). injection ED as _ <- _. reflexivity. }
  assert (SM : exists z2, sm = DNum false 0 z2).
  { rewrite S2 in ES. destruct ce; [injection ES as <-|injection ES as <-]; eexists; reflexivity. }
  destruct SM as (z2 & SM).
  destruct (format_num_laid_out (K := DecOps) U L nm sm ce p s0 prec _ _ r A eq_refl HF) as (x & n0 & es & LO & Htxt).
  assert (Zs : x_iszero DecOps sm = true) by (rewrite SM; reflexivity).
  rewrite Zs in LO. cbn [orb negb] in LO. exists ce. do 2 eexists. eexists. exists es. split; [exact LO|].
  destruct (opt (p_opts p) 83).
  - destruct Htxt as (_ & T2). unfold shorthand_uncert in T2. rewrite Zs in T2. injection T2 as <-.
    split; [reflexivity|discriminate].
  - destruct Htxt as (_ & e3 & Ee & T2). rewrite Zs in T2. cbn [orb] in T2.
    assert (LE : (if opt (p_opts p) 76 then latex_err (K := DecOps) sm e3 else e3) = e3) by (rewrite SM; destruct (opt (p_opts p) 76); reflexivity).
    assert (E3 : es = e3) by (rewrite <- LE; exact Ee). clear Ee LE. subst e3. unfold err_suffix in T2. rewrite Zs in T2.
    assert (Up := uval_nonneg U L _ (as_width _ _ _ A)).
    assert (R0 : room U p 0 = uval U (p_width p)) by (unfold room; lia). rewrite R0 in T2.
    destruct (py_fixed (K := DecOps) U L sm [] p s0 (uval U (p_width p)) 0 (if upper p then 70 else 102) A ltac:(left; reflexivity) Up ltac:(lia)) as (t & Et & Sh).
    + destruct (upper p); auto.
    + rewrite SM. reflexivity.
    + rewrite SM. reflexivity.
    + rewrite SM. apply dfix_half_even. lia.
    + assert (Et2 : Ok t = Ok es) by (rewrite <- Et; exact T2). injection Et2 as ->.
      assert (Fz : x_fix DecOps sm 0 = 0).
      { rewrite SM. apply dfix_0. }
      rewrite Fz in Sh. assert (Sg : x_sign DecOps sm = false) by (rewrite SM; reflexivity). rewrite Sg in Sh. change (Z.to_nat 0) with O in Sh.
      split; [|intros _; exact Sh]. intros [X|X]; [discriminate|].
      destruct Sh as (t & Es & Nt & NP & _). cbn [sign_text] in Es. rewrite Es. exact (numeral_zero _ _ Nt (NP X)).
Qed.

Lemma special_iff : forall s, special s -> (x_iszero DecOps s || isinfinite (K := DecOps) s) = true.
Proof. intros s [(e & ->)|[(b & ->)| ->]]; reflexivity. Qed.
Lemma special_div : forall s e, special s -> exists s', x_div10 DecOps s e = Ok s' /\ special s'.
Proof.
  intros s e [(z & ->)|[(b & ->)| ->]]; (eexists; split; [reflexivity|]); unfold special, dzero; [left; eauto|right; left; eauto|right; right; reflexivity].
Qed.
Lemma special_mul : forall s, special s -> special (x_mul DecOps s (DNum false 100 0)).
Proof.
  intros s [(z & ->)|[(b & ->)| ->]]; unfold special, dzero; cbn; [left|right; left|right; right; reflexivity]; eauto.
Qed.
Lemma type_fspec : forall main, main = 102 \/ main = 70 -> parse_fspec U [main] = Ok (mkFspec [] false 0 false None [main]).
Proof.
  intros main Hm. assert (N : is_digit U main = false) by (apply (ascii_nodig U L); lia). unfold parse_fspec.
  assert (E1 : take_opt (oneof "+- ") [main] = ([], [main])) by (destruct Hm as [-> | ->]; reflexivity).
  assert (E2 : take_opt (ch 48) [main] = ([], [main])) by (destruct Hm as [-> | ->]; reflexivity).
  assert (E3 : span (is_digit U) [main] = ([], [main])) by (cbn [span]; rewrite N; reflexivity).
  rewrite E1, E2, E3. destruct Hm as [-> | ->]; reflexivity.
Qed.
Lemma special_short : forall s prec main latex, special s -> (main = 102 \/ main = 70) ->
  exists u, shorthand_uncert (K := DecOps) U s prec main latex = Ok u.
Proof.
  intros s prec main latex [(z & ->)|[(b & ->)| ->]] Hm; unfold shorthand_uncert; cbn [x_iszero x_isnan x_isinf DecOps].
  - rewrite Z.eqb_refl. eauto.
  - destruct latex; [eauto|]. unfold py_format. rewrite type_fspec by exact Hm. cbn. eauto.
  - unfold py_format. rewrite type_fspec by exact Hm. cbn [rbind]. eauto.
Qed.
Lemma py_total : forall (x : dec) sg p s0 w prec main, assembled U p s0 -> at_most_one "-+ " sg -> 0 <= w -> 0 <= prec ->
  (main = 102 \/ main = 70) -> exists t, py_format (K := DecOps) U x (prefix sg p w ++ fixed_suffix prec main) = Ok t.
Proof.
  intros x sg p s0 w prec main A Hsg Hw Hp Hm.
  destruct (py_fixed (K := DecOps) U L (DNum false 0 0) sg p s0 w prec main A Hsg Hw Hp Hm eq_refl eq_refl) as (t & Et & _).
  { apply dfix_half_even. lia. }
  unfold py_format in *. destruct (parse_fspec _ _); [cbn; eauto|discriminate].
Qed.

Lemma signif_zero : forall s e n, signif_dgt_to_limit (K := DecOps) (DNum s 0 e) n = Ok (- n + 1).
Proof.
  intros s e n. unfold signif_dgt_to_limit. rewrite first_digit_dec0. cbn [rbind]. rewrite round_dec, dfix_0, first_digit_dec0.
  reflexivity.
Qed.

(** The precision counts for e, E, f, F and %. *)
Theorem special_precision : forall (nom s : dec) (spec : str) (p : parts) (u : str),
  real nom -> special s -> parse_spec U spec = Ok p -> (p_align p = lit "=" -> p_width p = []) ->
  p_prec p = Some u -> ~ gen_type (p_type p) ->
  let V := (unit_of p * dq nom)%Q in
  let N := uval U u in
  exists r e n x ns es,
    format_ufloat (K := DecOps) U nom s spec = Ok r /\
    laid_out U p (str_eqb (p_type p) (lit "%")) e true false x ns es r /\
    (fixed_type (p_type p) -> e = None) /\
    (exp_type (p_type p) -> exists X, e = Some X /\ (10 ^ N <= n < 10 ^ (N + 1) \/ (V == 0)%Q /\ X = 0)) /\
    half_even (Qabs V * p10 (N - match e with Some X => X | None => 0 end)) n /\
    exists w, shown (p_sign p) (pads p) (commas p) w (signbit nom) n (Z.to_nat N) ns.
Proof.
  intros nom s spec p u Rn Sp Hspec Hal Hpr Hty V N.
  destruct (spec_parts U L spec p Hspec) as (HA & _).
  assert (A : exists s0, assembled U p s0) by (destruct HA as [A|(t & _ & A)]; eauto). destruct A as (s0 & A).
  destruct (real_num nom Rn) as (m1 & e1 & En & H1).
  set (percent := str_eqb (p_type p) (lit "%")).
  assert (NN : exists mN eN, (if percent then x_mul DecOps nom (DNum false 100 0) else nom) = DNum (signbit nom) mN eN /\ 0 <= mN /\
     (Qabs V == inject_Z mN * p10 eN)%Q).
  { unfold V, unit_of. fold percent. assert (Q1 := dq_abs (signbit nom) m1 e1 H1). rewrite <- En in Q1.
    destruct percent.
    - exists (m1 * 100), (e1 + 0). split; [etransitivity; [exact (f_equal (fun z => x_mul DecOps z (DNum false 100 0)) En)|]; cbn [x_mul DecOps]; rewrite xorb_false_r; reflexivity|]. split; [lia|].
      rewrite Qabs_Qmult, Q1, inject_Z_mult. replace (e1 + 0) with e1 by lia. change (Qabs 100) with 100%Q. change (inject_Z 100) with 100%Q. ring.
    - exists m1, e1. split; [exact En|]. split; [exact H1|]. rewrite Qabs_Qmult, Q1. change (Qabs 1) with 1%Q. ring. }
  destruct NN as (mN & eN & EN & HN & QN). set (sg := signbit nom) in *.
  set (s1 := if percent then x_mul DecOps s (DNum false 100 0) else s).
  assert (S1 : special s1) by (unfold s1; destruct percent; [apply special_mul|]; exact Sp).
  destruct (as_prec _ _ _ A u Hpr) as (_ & Fu). assert (Nn : 0 <= N) by (apply (uval_nonneg U L); exact Fu).
  assert (MV : max_value (K := DecOps) (real_values (K := DecOps) (DNum sg mN eN) s1) = Some (DNum false mN eN)).
  { destruct S1 as [(z & ->)|[(b & ->)| ->]]; [|reflexivity|reflexivity].
    unfold real_values, isinfinite. cbn [filter x_abs x_isinf x_isnan DecOps orb negb max_value x_lt].
    destruct (dlt (DNum false mN eN) (DNum false 0 z)) eqn:Ed; [|reflexivity].
    apply dlt_spec in Ed; [|lia..]. assert (X := mq_nonneg mN eN HN). change (inject_Z 0) with 0%Q in Ed. lra. }
  (* the digits and the exponent *)
  assert (G : exists l ce X, digits_limit (K := DecOps) U (DNum sg mN eN) s1 p (fmt_type p) = Ok (Some l, s1, N) /\
     use_exponent (K := DecOps) (fmt_type p) (Some (DNum false mN eN)) (Some l) = Ok ce /\
     match ce with Some e => e - l | None => - l end = N /\
     (fixed_type (p_type p) -> ce = None) /\ (exp_type (p_type p) -> ce = Some X) /\
     (ce = Some X -> (0 < mN -> exists n, half_even (Qabs V * p10 (N - X)) n /\ 10 ^ N <= n < 10 ^ (N + 1)) /\ (mN = 0 -> X = 0))).
  { unfold digits_limit. rewrite Hpr.
    assert (Csp : negb (x_iszero DecOps s1) && negb (isinfinite (K := DecOps) s1) = false).
    { assert (Y := special_iff s1 S1). destruct (x_iszero DecOps s1); [reflexivity|]. cbn [orb] in Y. rewrite Y. reflexivity. }
    rewrite <- andb_assoc, Csp, andb_false_r. rewrite <- (uval_val U u Fu). fold N.
    destruct (type_cases p (as_type _ _ _ A)) as [(T1 & T2 & T3 & Ef)|[(T1 & T2 & T3 & Ef & Ee)|(T1 & _)]]; [| |contradiction].
    - rewrite Ef. exists (- N), None, 0. split; [reflexivity|]. unfold use_exponent. rewrite Ef. split; [reflexivity|].
      split; [lia|]. split; [reflexivity|]. split; [contradiction|discriminate].
    - rewrite Ef, Ee, MV. destruct (Z.eq_dec mN 0) as [E0|N0].
      + rewrite E0. rewrite signif_zero. cbn [rbind]. exists (- (N + 1) + 1), (Some 0), 0.
        split; [reflexivity|]. unfold use_exponent. rewrite Ef, round_dec, dfix_0, first_digit_dec0. cbn [rbind]. rewrite Ee.
        split; [reflexivity|]. split; [lia|]. split; [contradiction|]. split; [reflexivity|]. intros _. split; [lia|reflexivity].
      + destruct (signif_num mN eN (N + 1) ltac:(lia) ltac:(lia)) as (l & -> & M & M' & HM & BM & _ & _). cbn [rbind].
        replace (N + 1 - 1) with N in BM by lia.
        assert (P1 : 0 < 10 ^ N) by (apply pow10_pos; lia).
        set (R := dfix mN (eN + - l)).
        assert (HR : half_even (inject_Z mN * p10 eN * p10 (- l)) R).
        { eapply half_even_comp; [|apply dfix_half_even; lia]. rewrite p10_add. ring. }
        assert (ER : R = M) by (eapply half_even_unique; [exact HR|exact HM]).
        assert (EX : dexp R l = N + l).
        { assert (Pl := p10_pos l). apply dexp_unique; [lia| |].
          - rewrite p10_add. apply Qmult_le_compat_r; [|lra]. apply inject_le_pow; [lia|]. rewrite ER. lia.
          - replace (N + l + 1) with (N + 1 + l) by lia. rewrite p10_add. apply Qmult_lt_compat_r; [exact Pl|].
            apply inject_lt_pow; [lia|]. rewrite ER. lia. }
        exists l, (Some (N + l)), (N + l). split; [reflexivity|]. unfold use_exponent. rewrite Ef, round_dec. fold R.
        rewrite first_digit_dec by lia. cbn [rbind]. replace (- - l) with l by lia. rewrite Ee, EX. split; [reflexivity|].
        split; [lia|]. split; [contradiction|]. split; [reflexivity|]. intros _. split; [|lia]. intros _.
        exists M. split; [|exact BM]. eapply half_even_comp; [|exact HM]. rewrite QN. replace (N - (N + l)) with (- l) by lia. reflexivity. }
  destruct G as (l & ce & X & ED & ECE & Epr & GF & GE & GX).
  set (e0 := match ce with Some X => X | None => 0 end).
  set (nm := DNum sg mN (eN - e0)). set (main := if upper p then 70 else 102).
  assert (Hmain : main = 102 \/ main = 70) by (unfold main; destruct (upper p); auto).
  assert (SM : exists sm, match ce with Some e => x_div10 DecOps s1 e | None => Ok s1 end = Ok sm /\ special sm).
  { destruct ce; [apply special_div; exact S1|eauto]. }
  destruct SM as (sm & Esm & Ssm).
  set (opts := if percent then 37 :: p_opts p else p_opts p).
  assert (Nty : isnil (fmt_type p) = false).
  { unfold fmt_type. destruct (str_eqb (p_type p) (lit "%")); [reflexivity|]. destruct (p_type p) eqn:Et; [|reflexivity].
    exfalso. apply Hty. left. reflexivity. }
  assert (EF : format_ufloat (K := DecOps) U nom s spec = format_num (K := DecOps) U nm sm ce p N main opts).
  { unfold format_ufloat. rewrite Hspec. cbn [rbind x_of_Z DecOps]. change (DNum (100 <? 0) (Z.abs 100) 0) with (DNum false 100 0).
    fold percent.
    match goal with |- context[digits_limit U ?a ?b p ?t] =>
      assert (Ea : a = DNum sg mN eN) by exact EN; change b with s1; change t with (fmt_type p) in *; rewrite Ea end.
    rewrite ED. cbn [rbind]. rewrite MV, ECE. cbn [rbind].
    assert (X1 : match ce with Some e => x_div10 DecOps (DNum sg mN eN) e | None => Ok (DNum sg mN eN) end = Ok nm).
    { unfold nm, e0. destruct ce; [reflexivity|]. replace (eN - 0) with eN by lia. reflexivity. }
    match goal with |- rbind ?t _ = _ => assert (Y1 : t = Ok nm) by exact X1; rewrite Y1 end. cbn [rbind].
    match goal with |- rbind ?t _ = _ => assert (Y2 : t = Ok sm) by exact Esm; rewrite Y2 end. cbn [rbind].
    f_equal.
    - rewrite Nty. cbn [andb]. destruct ce; lia.
    - unfold main. apply main_eq. exact (as_type _ _ _ A). }
  rewrite EF.
  assert (Ing : in_g (p_type p) = false).
  { apply not_true_is_false. intros Y. apply Hty. unfold in_g in Y. apply orb_true_iff in Y. unfold gen_type.
    destruct Y as [Y|Y]; [apply orb_true_iff in Y; destruct Y as [Y|Y]|].
    - left. destruct (p_type p); [reflexivity|discriminate].
    - right. left. apply str_eqb_eq. exact Y.
    - right. right. apply str_eqb_eq. exact Y. }
  assert (NS : nom_suffix (K := DecOps) sm p N main = fixed_suffix N main).
  { unfold nom_suffix. rewrite Ing, andb_false_r. reflexivity. }
  assert (EFx : exists q, 0 <= q /\ err_suffix (K := DecOps) nm sm p N main = fixed_suffix q main).
  { unfold err_suffix. destruct (x_iszero DecOps sm); [exists 0; split; [lia|reflexivity]|]. rewrite Ing, andb_false_r. exists N. auto. }
  destruct EFx as (q & Hq & EFx).
  assert (Fn : 0 <= x_fix DecOps nm N) by (apply dfix_half_even; exact HN).
  assert (PN : forall w, 0 <= w -> exists t, py_format (K := DecOps) U nm (prefix (p_sign p) p w ++ fixed_suffix N main) = Ok t /\
     shown (p_sign p) (pads p) (commas p) w sg (x_fix DecOps nm N) (Z.to_nat N) t).
  { intros w Hw. apply (py_fixed (K := DecOps) U L nm (p_sign p) p s0 w N main); try assumption; try reflexivity. exact (as_sign _ _ _ A). }
  assert (TOT : exists r, format_num (K := DecOps) U nm sm ce p N main opts = Ok r).
  { apply format_num_total; [exact Hal| | | |].
    - intros _. apply special_short; assumption.
    - intros w Hw. rewrite NS. destruct (PN w Hw) as (t & Et & _). eauto.
    - intros _ w Hw. rewrite EFx. eapply py_total; try eassumption. left. reflexivity.
    - rewrite <- (uval_val U _ (as_width _ _ _ A)). apply (uval_nonneg U L). exact (as_width _ _ _ A). }
  destruct TOT as (r & Er). rewrite Er.
  destruct (format_num_laid_out (K := DecOps) U L nm sm ce p s0 N main percent r A eq_refl Er) as (x & n0 & es & LO & Htxt).
  assert (LN : (if opt (p_opts p) 76 then latex_nom (K := DecOps) nm n0 else n0) = n0) by (destruct (opt (p_opts p) 76); reflexivity).
  rewrite LN in LO. rewrite (special_iff sm Ssm) in LO. rewrite NS in Htxt.
  assert (Hn : half_even (Qabs V * p10 (N - e0)) (x_fix DecOps nm N)).
  { eapply half_even_comp; [|apply (proj1 (dfix_half_even mN _ HN))]. rewrite QN, <- Qmult_assoc, <- p10_add.
    replace (eN - e0 + N) with (eN + (N - e0)) by lia. reflexivity. }
  exists r, ce, (x_fix DecOps nm N), x, n0, es. split; [reflexivity|]. split; [exact LO|]. split; [exact GF|].
  split.
  { intros T. specialize (GE T). exists X. split; [exact GE|]. destruct (GX GE) as (G1 & G2).
    destruct (Z.eq_dec mN 0) as [E0|N0].
    - right. split; [|exact (G2 E0)]. rewrite E0 in QN. change (inject_Z 0) with 0%Q in QN. rewrite Qmult_0_l in QN.
      assert (Y : (Qabs V <= 0)%Q) by lra. apply Qabs_Qle_condition in Y. lra.
    - left. destruct (G1 ltac:(lia)) as (n & Hn2 & B). unfold e0 in Hn. rewrite GE in Hn.
      assert (x_fix DecOps nm N = n) by (eapply half_even_unique; eassumption). rewrite H. exact B. }
  split; [exact Hn|].
  destruct (opt (p_opts p) 83).
  - destruct Htxt as (T1 & _). eexists. destruct (PN (room U p (len (lit "(" ++ es ++ lit ")" ++ x ++ percent_text (p_opts p) percent))) ltac:(unfold room; lia)) as (t & Et & Sh).
    assert (t = n0) by congruence. subst t. exact Sh.
  - destruct Htxt as (T1 & _). eexists. destruct (PN (room U p (len x)) ltac:(unfold room; lia)) as (t & Et & Sh).
    assert (t = n0) by (change (isinfinite (K := DecOps) nm) with false in T1; congruence). subst t. exact Sh.
Qed.
End Zero.
