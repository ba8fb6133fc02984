(** Formatting of exact decimal numbers with a non-zero real uncertainty: the result. *)
From Coq Require Import String.
From Coq Require Import ZArith List Bool Lia QArith Qpower Qabs Qminmax Lqa.
From Verif Require Import Base Str FmtOps Format FmtSpec StrProofs SpecProofs FixedProofs FormatProofs DecProofs RealFmt.
Import ListNotations.
Local Open Scope Z_scope.
Local Open Scope res_scope.

Definition fmt_type (p : parts) : str := if str_eqb (p_type p) (lit "%") then lit "f" else p_type p.
Lemma type_cases : forall p, at_most_one "eEfFgG%" (p_type p) ->
  (fixed_type (p_type p) /\ ~ exp_type (p_type p) /\ ~ gen_type (p_type p) /\ is_f (fmt_type p) = true) \/
  (exp_type (p_type p) /\ ~ fixed_type (p_type p) /\ ~ gen_type (p_type p) /\ is_f (fmt_type p) = false /\ is_e (fmt_type p) = true) \/
  (gen_type (p_type p) /\ ~ fixed_type (p_type p) /\ ~ exp_type (p_type p) /\ is_f (fmt_type p) = false /\ is_e (fmt_type p) = false).
Proof.
  intros p H. unfold fmt_type, fixed_type, exp_type, gen_type.
  assert (D : forall a b : str, a <> b -> (a = b -> False)) by auto.
  destruct H as [E|(c & I & E)]; rewrite E.
  - right. right. split; [left; reflexivity|]. repeat split; try (intros [X|[X|X]]; discriminate X); try (intros [X|X]; discriminate X).
  - cbn in I. destruct I as [<-|[<-|[<-|[<-|[<-|[<-|[<-|[]]]]]]]].
    1,2: right; left; split; [first [left; reflexivity|right; reflexivity]|];
         repeat split; try (intros [X|[X|X]]; discriminate X); try (intros [X|X]; discriminate X).
    1,2,5: left; split; [first [left; reflexivity|right; left; reflexivity|right; right; reflexivity]|];
         repeat split; try (intros [X|[X|X]]; discriminate X); try (intros [X|X]; discriminate X).
    all: right; right; split; [first [left; reflexivity|right; left; reflexivity|right; right; reflexivity]|];
         repeat split; try (intros [X|[X|X]]; discriminate X); try (intros [X|X]; discriminate X).
Qed.
Lemma main_eq : forall p, at_most_one "eEfFgG%" (p_type p) ->
  (if str_eqb (fmt_type p) (lit "E") || str_eqb (fmt_type p) (lit "F") || str_eqb (fmt_type p) (lit "G") then 70 else 102) =
  (if upper p then 70 else 102).
Proof.
  intros p H. unfold fmt_type, upper. destruct H as [E|(c & I & E)]; rewrite E; [reflexivity|].
  cbn in I. destruct I as [<-|[<-|[<-|[<-|[<-|[<-|[<-|[]]]]]]]]; reflexivity.
Qed.

Lemma real_num : forall x, real x -> exists m e, x = DNum (signbit x) m e /\ 0 <= m.
Proof. intros x (s & m & e & -> & H). exists m, e. split; [reflexivity|exact H]. Qed.
Lemma real_pos : forall x, real x -> (0 < dq x)%Q -> exists m e, x = DNum false m e /\ 0 < m /\ (dq x == inject_Z m * p10 e)%Q.
Proof.
  intros x (s & m & e & -> & H) P. assert (N := mq_nonneg m e H). exists m, e. cbn [dq] in *. destruct s; [lra|].
  split; [reflexivity|]. split; [|reflexivity]. destruct (Z.eq_dec m 0) as [->|]; [|lia].
  change (inject_Z 0) with 0%Q in P. lra.
Qed.

Lemma signif_num : forall m e n, 0 < m -> 1 <= n ->
  exists l, signif_dgt_to_limit (K := DecOps) (DNum false m e) n = Ok l /\ sig_limit (inject_Z m * p10 e) n l.
Proof. intros m e n Hm Hn. destruct (signif_dec false m e n Hm Hn) as (l & A & B & _). exists l. auto. Qed.

Section Real.
Context (U : Unicode) (L : UniLaws U).

(** A number of at least one digit is not rounded to zero. *)
Lemma sig_limit_rounds : forall v M n l R, 1 <= n -> sig_limit v n l -> (v <= M)%Q -> half_even (M * p10 (- l)) R -> 1 <= R.
Proof.
  intros v M n l R Hn (A & A' & HA & B & _) Hv HR. assert (P := p10_pos (- l)).
  assert (A <= R). { eapply half_even_mono; [|exact HA|exact HR]. nra. }
  assert (0 < 10 ^ (n - 1)) by (apply pow10_pos; lia). lia.
Qed.
Lemma sig_limit_p10 : forall f k, sig_limit (p10 (f + 1)) 2 k -> k = f.
Proof.
  intros f k (M & M' & H & B & _). change (10 ^ (2 - 1)) with 10 in B. change (10 ^ 2) with 100 in B.
  assert (E : (p10 (f + 1) * p10 (- k) == p10 (f + 1 - k))%Q) by (rewrite <- p10_add; reflexivity).
  assert (H2 := half_even_comp _ _ _ E H).
  destruct (Z_le_gt_dec 0 (f + 1 - k)) as [G|G].
  - assert (EM : M = 10 ^ (f + 1 - k)).
    { eapply half_even_unique; [exact H2|]. eapply half_even_comp; [|apply half_even_Z]. symmetry. apply p10_Z. exact G. }
    assert (X : f + 1 - k < 2) by (apply pow10_lt_inv; [lia|change (10 ^ 2) with 100; lia]).
    assert (Y : 0 < f + 1 - k) by (apply pow10_lt_inv; [lia|change (10 ^ 0) with 1; lia]). lia.
  - exfalso. assert (X : (p10 (f + 1 - k) <= p10 (-1))%Q) by (apply p10_le; lia).
    change (p10 (-1)) with (1 # 10)%Q in X.
    assert (M <= 0). { eapply half_even_le; [exact H2|]. change (inject_Z 0) with 0%Q. lra. } lia.
Qed.

Lemma digits_dec : forall s mN eN mS eS p s0, 0 <= mN -> 0 < mS -> assembled U p s0 ->
  (p_uncert p <> [] -> forall d, p_prec p = Some d -> uval U d <> 0) ->
  let V := dq (DNum s mN eN) in let S0 := (inject_Z mS * p10 eS)%Q in
  exists k m' e' prec0,
    digits_limit (K := DecOps) U (DNum s mN eN) (DNum false mS eS) p (fmt_type p) = Ok (Some k, DNum false m' e', prec0) /\
    0 < m' /\ last_place U p V S0 (inject_Z m' * p10 e') k /\
    (~ fixed_type (p_type p) -> forall R, half_even (Qmax (Qabs V) S0 * p10 (- k)) R -> 1 <= R).
Proof.
  intros s mN eN mS eS p s0 HN HS A Hd V S0. unfold digits_limit, last_place.
  assert (EV : (Qabs V == inject_Z mN * p10 eN)%Q) by (apply dq_abs; exact HN).
  assert (LM : (S0 <= Qmax (Qabs V) S0)%Q) by apply Q.le_max_r.
  destruct (larger_dec s mN eN mS eS HN HS) as (M & E & EM & PM & QM). rewrite <- EV in QM. fold S0 in QM.
  assert (Lrv : Nat.eqb (List.length (real_values (K := DecOps) (DNum s mN eN) (DNum false mS eS))) 2 = true) by reflexivity.
  rewrite Lrv. unfold isinfinite. cbn [x_iszero x_isinf x_isnan DecOps orb negb].
  destruct (Z.eqb_spec mS 0); [lia|]. cbn [negb andb]. rewrite !andb_true_r.
  destruct (p_prec p) as [d|] eqn:Ep; cbn [orb].
  - destruct (as_prec _ _ _ A d Ep) as (Nd & Fd).
    rewrite <- (uval_val U d Fd). assert (Nn := uval_nonneg U L d Fd). set (N := uval U d) in *.
    destruct (p_uncert p) as [|c u] eqn:Eu; cbn [isnil negb].
    + destruct (type_cases p (as_type _ _ _ A)) as [(T1 & T2 & T3 & ->)|[(T1 & T2 & T3 & -> & ->)|(T1 & T2 & T3 & -> & ->)]].
      * exists (- N), mS, eS, N. split; [reflexivity|]. split; [exact HS|]. split; [|contradiction].
        split; [reflexivity|]. split; [intros X; exfalso; apply X; reflexivity|]. intros _. split; [reflexivity|]. split; intros; contradiction.
      * rewrite EM. destruct (signif_num M E (N + 1) PM ltac:(lia)) as (l & -> & Hl). cbn [rbind].
        assert (Hl2 := sig_limit_comp _ _ _ _ QM Hl).
        exists l, mS, eS, N. split; [reflexivity|]. split; [exact HS|]. split.
        -- split; [reflexivity|]. split; [intros X; exfalso; apply X; reflexivity|]. intros _. split; [intros; contradiction|]. split; [intros _; exact Hl2|intros; contradiction].
        -- intros _ R HR. eapply (sig_limit_rounds _ _ (N + 1)); [lia|exact Hl2|apply Qle_refl|exact HR].
      * rewrite EM. assert (En : (if N =? 0 then 1 else N) = Z.max 1 N) by (destruct (Z.eqb_spec N 0); lia). rewrite En.
        destruct (signif_num M E (Z.max 1 N) PM ltac:(lia)) as (l & -> & Hl). cbn [rbind].
        assert (Hl2 := sig_limit_comp _ _ _ _ QM Hl).
        exists l, mS, eS, N. split; [reflexivity|]. split; [exact HS|]. split.
        -- split; [reflexivity|]. split; [intros X; exfalso; apply X; reflexivity|]. intros _. split; [intros; contradiction|]. split; [intros; contradiction|intros _; exact Hl2].
        -- intros _ R HR. eapply (sig_limit_rounds _ _ (Z.max 1 N)); [lia|exact Hl2|apply Qle_refl|exact HR].
    + assert (N <> 0) by (apply Hd; [discriminate|reflexivity]). destruct (Z.eqb_spec N 0); [contradiction|].
      destruct (signif_num mS eS N HS ltac:(lia)) as (l & -> & Hl). cbn [rbind].
      exists l, mS, eS, 0. split; [reflexivity|]. split; [exact HS|]. split.
      * split; [reflexivity|]. split; [intros _; exact Hl|discriminate].
      * intros _ R HR. eapply (sig_limit_rounds _ _ N); [lia|exact Hl|exact LM|exact HR].
  - destruct (pdg_dec mS eS HS) as (n0 & m' & e' & -> & Pm & Hn & Hp). cbn [rbind fst snd].
    destruct (signif_num m' e' n0 Pm Hn) as (l & -> & Hl). cbn [rbind].
    exists l, m', e', 0. split; [reflexivity|]. split; [exact Pm|]. specialize (Hp l Hl). split; [exact Hp|].
    intros _ R HR. fold S0 in Hp. destruct Hp as (f & D & B1 & B2 & B3 & B4 & C).
    destruct C as [(C1 & C2 & C3)|[(C1 & C2 & C3)|(C1 & C2 & C3)]].
    + eapply (sig_limit_rounds _ _ 2); [lia|exact C3| |exact HR]. lra.
    + eapply (sig_limit_rounds _ _ 1); [lia|exact C3| |exact HR]. lra.
    + assert (Ek : l = f) by (apply sig_limit_p10; eapply sig_limit_comp; [exact C2|exact C3]). subst l.
      apply (half_even_ge _ _ _ HR). assert (P := p10_pos (- f)).
      assert (X : (p10 f * p10 (- f) <= Qmax (Qabs V) S0 * p10 (- f))%Q) by (apply Qmult_le_compat_r; lra).
      rewrite p10_opp in X. change (inject_Z 1) with 1%Q. lra.
Qed.

Lemma exponent_dec : forall M E p s0 k, 0 < M -> assembled U p s0 ->
  (~ fixed_type (p_type p) -> forall R, half_even (inject_Z M * p10 E * p10 (- k)) R -> 1 <= R) ->
  exists ce, use_exponent (K := DecOps) (fmt_type p) (Some (DNum false M E)) (Some k) = Ok ce /\
    common_exponent (p_type p) (inject_Z M * p10 E) k ce /\ (forall X, ce = Some X -> k <= X).
Proof.
  intros M E p s0 k HM A HR. unfold use_exponent, common_exponent.
  assert (T := type_cases p (as_type _ _ _ A)).
  destruct (is_f (fmt_type p)) eqn:Ef.
  - exists None. split; [reflexivity|]. split; [|discriminate]. split; [reflexivity|].
    intros X. exfalso. destruct T as [(T1 & _)|[(_ & _ & _ & T & _)|(_ & _ & _ & T & _)]]; [contradiction|discriminate..].
  - assert (NF : ~ fixed_type (p_type p)).
    { destruct T as [(_ & _ & _ & T)|[(_ & T & _)|(_ & T & _)]]; [discriminate|exact T..]. }
    rewrite round_dec. set (R := dfix M (E + - k)).
    assert (H : half_even (inject_Z M * p10 E * p10 (- k)) R).
    { eapply half_even_comp; [|apply dfix_half_even; lia]. rewrite p10_add. ring. }
    assert (R1 := HR NF R H). rewrite first_digit_dec by lia. cbn [rbind]. replace (- - k) with k by lia.
    destruct (dexp_bounds R k ltac:(lia)) as (B1 & B2). set (X := dexp R k) in *.
    assert (Xk : k <= X).
    { assert (p10 k < p10 (X + 1))%Q.
      { assert (P := p10_pos k). assert (1 <= inject_Z R)%Q by (change 1%Q with (inject_Z 1); rewrite <- Zle_Qle; exact R1). nra. }
      apply p10_lt_inv in H0. lia. }
    eexists. split; [reflexivity|]. split.
    + split; [contradiction|]. intros _. exists R, X. split; [exact H|]. split; [exact B1|]. split; [exact B2|].
      destruct T as [(_ & _ & _ & T)|[(T1 & _ & T3 & _ & ->)|(T1 & _ & T3 & _ & ->)]]; [discriminate| |].
      * split; [reflexivity|contradiction].
      * split; [contradiction|reflexivity].
    + intros Y. destruct (is_e (fmt_type p)); [intros EY; injection EY as <-; exact Xk|].
      destruct (_ && _); [discriminate|intros EY; injection EY as <-; exact Xk].
Qed.

Lemma Qmax_comp : forall a b a' b', (a == a')%Q -> (b == b')%Q -> (Qmax a b == Qmax a' b')%Q.
Proof. intros a b a' b' E F. rewrite E, F. reflexivity. Qed.
Lemma common_exponent_comp : forall ty M M' k e, (M == M')%Q -> common_exponent ty M k e -> common_exponent ty M' k e.
Proof.
  intros ty M M' k e E (A & B). split; [exact A|]. intros N. destruct (B N) as (R & X & H & Rest).
  exists R, X. split; [|exact Rest]. eapply half_even_comp; [|exact H]. rewrite E. reflexivity.
Qed.
Lemma pdg_rule_comp : forall S0 S0' S k, (S0 == S0')%Q -> pdg_rule S0 S k -> pdg_rule S0' S k.
Proof.
  intros S0 S0' S k E (f & D & B1 & B2 & B3 & B4 & C). exists f, D. rewrite <- E. auto.
Qed.
Lemma last_place_comp : forall p V V' S0 S0' S k, (Qabs V == Qabs V')%Q -> (S0 == S0')%Q ->
  last_place U p V S0 S k -> last_place U p V' S0' S k.
Proof.
  intros p V V' S0 S0' S k EV ES H. unfold last_place in *. destruct (p_prec p) as [d|].
  - destruct H as (H1 & H2 & H3). split; [rewrite <- ES; exact H1|]. split; [exact H2|].
    intros X. destruct (H3 X) as (A & B & C). split; [exact A|].
    split; intros T; (eapply sig_limit_comp; [apply Qmax_comp; [exact EV|exact ES]|]); auto.
  - eapply pdg_rule_comp; [exact ES|exact H].
Qed.

Theorem real_display : forall (nom s : dec) (spec : str) (p : parts),
  real nom -> real s -> (0 < dq s)%Q -> parse_spec U spec = Ok p ->
  (p_align p = lit "=" -> p_width p = []) ->
  (p_uncert p <> [] -> forall d, p_prec p = Some d -> uval U d <> 0) ->
  let V := (unit_of p * dq nom)%Q in
  let S0 := (unit_of p * dq s)%Q in
  exists r S k e d n m,
    format_ufloat (K := DecOps) U nom s spec = Ok r /\
    last_place U p V S0 S k /\
    common_exponent (p_type p) (Qmax (Qabs V) S0) k e /\
    output U p V S (signbit nom) k e d n m r.
Proof.
  intros nom s spec p Rn Rs Ps Hspec Hal Hd V S0.
  destruct (spec_parts U L spec p Hspec) as (HA & _).
  assert (A : exists s0, assembled U p s0) by (destruct HA as [A|(t & _ & A)]; eauto). destruct A as (s0 & A).
  destruct (real_num nom Rn) as (m1 & e1 & En & H1). destruct (real_pos s Rs Ps) as (m2 & e2 & Es & H2 & Qs).
  set (percent := str_eqb (p_type p) (lit "%")).
  (* after the multiplication by 100 *)
  assert (N : exists mN eN, (if percent then x_mul DecOps nom (DNum false 100 0) else nom) = DNum (signbit nom) mN eN /\ 0 <= mN /\
     (Qabs V == inject_Z mN * p10 eN)%Q).
  { unfold V, unit_of. fold percent. assert (Q1 := dq_abs (signbit nom) m1 e1 H1). rewrite <- En in Q1.
    destruct percent.
    - exists (m1 * 100), (e1 + 0). split; [etransitivity; [exact (f_equal (fun z => x_mul DecOps z (DNum false 100 0)) En)|]; cbn [x_mul DecOps]; rewrite xorb_false_r; reflexivity|]. split; [lia|].
      rewrite Qabs_Qmult, Q1, inject_Z_mult. replace (e1 + 0) with e1 by lia. change (Qabs 100) with 100%Q. change (inject_Z 100) with 100%Q. ring.
    - exists m1, e1. split; [exact En|]. split; [exact H1|]. rewrite Qabs_Qmult, Q1. change (Qabs 1) with 1%Q. ring. }
  destruct N as (mN & eN & EN & HN & QN).
  assert (Sx : exists mS eS, (if percent then x_mul DecOps s (DNum false 100 0) else s) = DNum false mS eS /\ 0 < mS /\
     (S0 == inject_Z mS * p10 eS)%Q).
  { unfold S0, unit_of. fold percent. rewrite Es. rewrite Es in Qs. destruct percent.
    - exists (m2 * 100), (e2 + 0). split; [reflexivity|]. split; [lia|].
      rewrite Qs, inject_Z_mult. replace (e2 + 0) with e2 by lia. change (inject_Z 100) with 100%Q. ring.
    - exists m2, e2. split; [reflexivity|]. split; [exact H2|]. rewrite Qs. ring. }
  destruct Sx as (mS & eS & ES & HS & QS).
  set (sg := signbit nom) in *.
  assert (QV : (Qabs (dq (DNum sg mN eN)) == Qabs V)%Q) by (rewrite dq_abs by exact HN; symmetry; exact QN).
  destruct (digits_dec sg mN eN mS eS p s0 HN HS A Hd) as (k & m' & e' & prec0 & ED & Hm' & Hplace & HR).
  destruct (larger_dec sg mN eN mS eS HN HS) as (M & E & EM & PM & QM).
  destruct (exponent_dec M E p s0 k PM A) as (ce & ECE & Hexp & Hk).
  { intros NF R H. apply (HR NF R). eapply half_even_comp; [|exact H]. rewrite QM, dq_abs by exact HN. reflexivity. }
  set (e0 := match ce with Some X => X | None => 0 end).
  set (prec := Z.max (match ce with Some X => X - k | None => - k end) 0).
  set (main := if upper p then 70 else 102).
  set (nm := DNum sg mN (eN - e0)). set (sm := DNum false m' (e' - e0)).
  assert (Hprec : 0 <= prec) by (unfold prec; lia).
  assert (Hmain : main = 102 \/ main = 70) by (unfold main; destruct (upper p); auto).
  set (opts := if percent then 37 :: p_opts p else p_opts p).
  assert (EF : format_ufloat (K := DecOps) U nom s spec = format_num (K := DecOps) U nm sm ce p prec main opts).
  { unfold format_ufloat. rewrite Hspec. cbn [rbind x_of_Z DecOps]. change (DNum (100 <? 0) (Z.abs 100) 0) with (DNum false 100 0).
    fold percent.
    match goal with |- context[digits_limit U ?a ?b p ?t] =>
      assert (Ea : a = DNum sg mN eN) by exact EN; assert (Eb : b = DNum false mS eS) by exact ES;
      change t with (fmt_type p) in *; rewrite Ea, Eb end.
    rewrite ED. cbn [rbind]. rewrite EM, ECE. cbn [rbind].
    assert (X1 : match ce with Some e => x_div10 DecOps (DNum sg mN eN) e | None => Ok (DNum sg mN eN) end = Ok nm).
    { unfold nm, e0. destruct ce; [reflexivity|]. replace (eN - 0) with eN by lia. reflexivity. }
    assert (X2 : match ce with Some e => x_div10 DecOps (DNum false m' e') e | None => Ok (DNum false m' e') end = Ok sm).
    { unfold sm, e0. destruct ce; [reflexivity|]. replace (e' - 0) with e' by lia. reflexivity. }
    match goal with |- rbind ?t _ = _ => assert (Y1 : t = Ok nm) by exact X1; rewrite Y1 end. cbn [rbind].
    match goal with |- rbind ?t _ = _ => assert (Y2 : t = Ok sm) by exact X2; rewrite Y2 end. cbn [rbind].
    assert (X3 : Z.max (- match ce with Some e => k - e | None => k end) (if isnil (fmt_type p) && x_iszero DecOps (DNum false m' e') then 1 else 0) = prec).
    { cbn [x_iszero DecOps]. destruct (Z.eqb_spec m' 0); [lia|]. rewrite andb_false_r. unfold prec. destruct ce; f_equal; lia. }
    f_equal; [exact X3|]. unfold main. apply main_eq. exact (as_type _ _ _ A). }
  rewrite EF.
  (* roundings *)
  assert (Fn : 0 <= x_fix DecOps nm prec) by (apply dfix_half_even; exact HN).
  assert (Fs : 0 <= x_fix DecOps sm prec) by (apply dfix_half_even; lia).
  assert (Zs : x_iszero DecOps sm = false) by (cbn; lia).
  assert (NS : nom_suffix (K := DecOps) sm p prec main = fixed_suffix prec main) by (unfold nom_suffix; rewrite Zs; reflexivity).
  assert (EFx : err_suffix (K := DecOps) nm sm p prec main = fixed_suffix prec main) by (unfold err_suffix; rewrite Zs; reflexivity).
  assert (PN : forall w, 0 <= w -> exists t, py_format (K := DecOps) U nm (prefix (p_sign p) p w ++ fixed_suffix prec main) = Ok t /\
     shown (p_sign p) (pads p) (commas p) w sg (x_fix DecOps nm prec) (Z.to_nat prec) t).
  { intros w Hw. apply (py_fixed (K := DecOps) U L nm (p_sign p) p s0 w prec main); try assumption; try reflexivity. exact (as_sign _ _ _ A). }
  assert (PE : forall w, 0 <= w -> exists t, py_format (K := DecOps) U sm (prefix [] p w ++ fixed_suffix prec main) = Ok t /\
     shown [] (pads p) (commas p) w false (x_fix DecOps sm prec) (Z.to_nat prec) t).
  { intros w Hw. apply (py_fixed (K := DecOps) U L sm [] p s0 w prec main); try assumption; try reflexivity. left. reflexivity. }
  destruct (short_dec U m' (e' - e0) prec main (opt (p_opts p) 76) Hm' Hprec) as (u & Eu & Hu).
  assert (TOT : exists r, format_num (K := DecOps) U nm sm ce p prec main opts = Ok r).
  { apply format_num_total; [exact Hal| | | |].
    - intros _. exists u. unfold opts. rewrite has_pct by lia. exact Eu.
    - intros w Hw. rewrite NS. destruct (PN w Hw) as (t & Et & _). eauto.
    - intros _ w Hw. rewrite EFx. destruct (PE w Hw) as (t & Et & _). eauto.
    - rewrite <- (uval_val U _ (as_width _ _ _ A)). apply (uval_nonneg U L). exact (as_width _ _ _ A). }
  destruct TOT as (r & Er). rewrite Er.
  exists r, (inject_Z m' * p10 e')%Q, k, ce, (Z.to_nat prec), (x_fix DecOps nm prec), (x_fix DecOps sm prec).
  split; [reflexivity|]. split.
  { eapply last_place_comp; [exact QV|symmetry; exact QS|exact Hplace]. }
  split.
  { eapply common_exponent_comp; [|exact Hexp]. rewrite QM. apply Qmax_comp; symmetry; assumption. }
  constructor.
  - rewrite Z2Nat.id by exact Hprec. reflexivity.
  - rewrite Z2Nat.id by exact Hprec. fold e0. cbn [x_fix DecOps nm].
    eapply half_even_comp; [|apply (proj1 (dfix_half_even mN _ HN))]. rewrite QN, <- Qmult_assoc, <- p10_add.
    replace (eN - e0 + prec) with (eN + (prec - e0)) by lia. reflexivity.
  - rewrite Z2Nat.id by exact Hprec. fold e0. cbn [x_fix DecOps sm].
    eapply half_even_comp; [|apply (proj1 (dfix_half_even m' _ ltac:(lia)))]. rewrite <- Qmult_assoc, <- p10_add.
    replace (e' - e0 + prec) with (e' + (prec - e0)) by lia. reflexivity.
  - destruct (format_num_laid_out (K := DecOps) U L nm sm ce p s0 prec main percent r A eq_refl Er) as (x & n0 & es & LO & Htxt).
    assert (LN : (if opt (p_opts p) 76 then latex_nom (K := DecOps) nm n0 else n0) = n0) by (destruct (opt (p_opts p) 76); reflexivity).
    rewrite LN in LO. rewrite Zs in LO. rewrite NS, EFx in Htxt.
    exists x, n0, es. cbv zeta. fold percent. split; [exact LO|].
    destruct (opt (p_opts p) 83).
    + destruct Htxt as (T1 & T2). split.
      * destruct (PN (room U p (len (lit "(" ++ es ++ lit ")" ++ x ++ percent_text (p_opts p) percent))) ltac:(unfold room; lia)) as (t & Et & Sh).
        assert (t = n0) by congruence. subst t. exact Sh.
      * assert (T3 : Ok u = Ok es) by (rewrite <- Eu; exact T2). injection T3 as ->. exact Hu.
    + destruct Htxt as (T1 & e3 & Ee & T2).
      assert (LE : (if opt (p_opts p) 76 then latex_err (K := DecOps) sm e3 else e3) = e3) by (destruct (opt (p_opts p) 76); reflexivity).
      rewrite LE in Ee. subst e3. rewrite Zs in T2. split.
      * destruct (PN (room U p (len x)) ltac:(unfold room; lia)) as (t & Et & Sh).
        assert (t = n0) by (change (isinfinite (K := DecOps) nm) with false in T1; congruence). subst t. exact Sh.
      * destruct (PE (room U p (len x)) ltac:(unfold room; lia)) as (t & Et & Sh).
        assert (t = es) by (change (isinfinite (K := DecOps) sm) with false in T2; cbn [orb] in T2; congruence). subst t. exact Sh.
Qed.

(** The integers that are displayed. *)
Lemma place_digits : forall p V S S0 neg k e d n m r, output U p V S neg k e d n m r ->
  common_exponent (p_type p) (Qmax (Qabs V) S0) k e -> at_most_one "eEfFgG%" (p_type p) ->
  (match e with Some X => X - k | None => - k end = Z.of_nat d /\
   Z.of_nat d - match e with Some X => X | None => 0 end = - k) \/ (e = None /\ d = O /\ 0 < k).
Proof.
  intros p V S S0 neg k e d n m r O C T. assert (D := out_decimals _ _ _ _ _ _ _ _ _ _ _ O).
  destruct e as [X|].
  - left. assert (NF : ~ fixed_type (p_type p)) by (intros F; destruct C as (C & _); specialize (C F); discriminate).
    destruct C as (_ & C). destruct (C NF) as (R & Y & H & B1 & B2 & E1 & E2).
    assert (EX : X = Y).
    { destruct (type_cases p T) as [(F & _)|[(F & _)|(F & _)]]; [contradiction|specialize (E1 F); congruence|].
      specialize (E2 F). destruct (_ && _); congruence. }
    subst Y. assert (PX := p10_pos X). assert (Pk := p10_pos k).
    assert (R0 : 1 <= R).
    { destruct (Z_le_gt_dec 1 R) as [|G]; [assumption|exfalso].
      assert (inject_Z R <= 0)%Q by (change 0%Q with (inject_Z 0); rewrite <- Zle_Qle; lia). nra. }
    assert (k < X + 1).
    { apply p10_lt_inv. assert (1 <= inject_Z R)%Q by (change 1%Q with (inject_Z 1); rewrite <- Zle_Qle; exact R0). nra. }
    lia.
  - destruct (Z_le_gt_dec k 0); [left; lia|right]. split; [reflexivity|]. split; lia.
Qed.
(** [m] has [N] significant digits, or it is an integer with more digits. *)
Lemma sig_digits : forall p V S S0 neg k e d n m r N, output U p V S neg k e d n m r ->
  common_exponent (p_type p) (Qmax (Qabs V) S0) k e -> at_most_one "eEfFgG%" (p_type p) ->
  sig_limit S N k -> (0 <= S)%Q ->
  10 ^ (N - 1) <= m < 10 ^ N \/ (e = None /\ d = O /\ 10 ^ N <= m).
Proof.
  intros p V S S0 neg k e d n m r N O C T (M & M' & H & B & H' & B') PS.
  assert (Hm := out_uncert _ _ _ _ _ _ _ _ _ _ _ O).
  destruct (place_digits _ _ _ _ _ _ _ _ _ _ _ O C T) as [(_ & E)|(E1 & E2 & E3)].
  - left. rewrite E in Hm. assert (m = M) by (eapply half_even_unique; eassumption). subst. exact B.
  - right. split; [exact E1|]. split; [exact E2|]. subst e d. cbn [Z.of_nat] in Hm. change (0 - 0) with 0 in Hm.
    eapply Z.le_trans; [exact B'|]. eapply half_even_mono; [|exact H'|exact Hm].
    assert (p10 (1 - k) <= p10 0)%Q by (apply p10_le; lia). nra.
Qed.

Lemma unit_pos : forall p, (0 < unit_of p)%Q.
Proof. intros. unfold unit_of. destruct (str_eqb _ _); reflexivity. Qed.
Lemma parsed_type : forall spec p, parse_spec U spec = Ok p -> at_most_one "eEfFgG%" (p_type p).
Proof.
  intros spec p H. destruct (spec_parts U L spec p H) as ([A|(t & _ & A)] & _); exact (as_type _ _ _ A).
Qed.

Theorem uncert_digits : forall (nom s : dec) (spec : str) (p : parts) (u : str),
  real nom -> real s -> (0 < dq s)%Q -> parse_spec U spec = Ok p ->
  (p_align p = lit "=" -> p_width p = []) ->
  p_uncert p <> [] -> p_prec p = Some u -> 1 <= uval U u ->
  exists r k e d n m,
    format_ufloat (K := DecOps) U nom s spec = Ok r /\
    output U p (unit_of p * dq nom)%Q (unit_of p * dq s)%Q (signbit nom) k e d n m r /\
    (10 ^ (uval U u - 1) <= m < 10 ^ uval U u \/ (e = None /\ d = O /\ 10 ^ uval U u <= m)).
Proof.
  intros nom s spec p u Rn Rs Ps Hp Ha Hu Hpr Hn.
  destruct (real_display nom s spec p Rn Rs Ps Hp Ha) as (r & S & k & e & d & n & m & F & P & C & O).
  { intros _ d' E. rewrite Hpr in E. injection E as <-. lia. }
  exists r, k, e, d, n, m. split; [exact F|].
  unfold last_place in P. rewrite Hpr in P. destruct P as (ES & P & _). specialize (P Hu).
  assert (T := parsed_type _ _ Hp). assert (US := unit_pos p).
  split.
  - destruct O as [O1 O2 O3 O4]. constructor; [exact O1|exact O2| |exact O4].
    eapply half_even_comp; [|exact O3]. rewrite ES. reflexivity.
  - eapply sig_digits; [exact O|exact C|exact T|exact P|]. rewrite ES. nra.
Qed.

Theorem pdg_digits : forall (nom s : dec) (spec : str) (p : parts),
  real nom -> real s -> (0 < dq s)%Q -> parse_spec U spec = Ok p ->
  (p_align p = lit "=" -> p_width p = []) -> p_prec p = None ->
  let S0 := (unit_of p * dq s)%Q in
  exists r S k e d n m f D,
    format_ufloat (K := DecOps) U nom s spec = Ok r /\
    output U p (unit_of p * dq nom)%Q S (signbit nom) k e d n m r /\
    (p10 f <= S0 < p10 (f + 1))%Q /\ (inject_Z D <= S0 * p10 (2 - f) < inject_Z (D + 1))%Q /\
    let digits N := 10 ^ (N - 1) <= m < 10 ^ N \/ (e = None /\ d = O /\ 10 ^ N <= m) in
    ((100 <= D <= 354 /\ (S == S0)%Q /\ digits 2) \/
     (355 <= D <= 949 /\ (S == S0)%Q /\ digits 1) \/
     (950 <= D <= 999 /\ (S == p10 (f + 1))%Q /\ digits 2)).
Proof.
  intros nom s spec p Rn Rs Ps Hp Ha Hpr S0.
  destruct (real_display nom s spec p Rn Rs Ps Hp Ha) as (r & S & k & e & d & n & m & F & P & C & O).
  { intros _ d' E. rewrite Hpr in E. discriminate. }
  unfold last_place in P. rewrite Hpr in P. destruct P as (f & D & B1 & B2 & B3 & B4 & P). fold S0 in B1, B2, B3, B4, P, C.
  exists r, S, k, e, d, n, m, f, D. split; [exact F|]. split; [exact O|].
  split; [split; assumption|]. split; [split; assumption|]. cbv zeta.
  assert (T := parsed_type _ _ Hp). assert (US := unit_pos p).
  assert (PS : (0 < S0)%Q) by (unfold S0; nra). assert (Pf := p10_pos (f + 1)).
  destruct P as [(E & ES & P)|[(E & ES & P)|(E & ES & P)]]; [left|right; left|right; right];
    (split; [exact E|]; split; [exact ES|]; eapply sig_digits; [exact O|exact C|exact T|exact P|rewrite ES; lra]).
Qed.

(** The uncertainty that is displayed is not zero, if its digits are chosen by the package. *)
Theorem shown_nonzero : forall (nom s : dec) (spec : str) (p : parts),
  real nom -> real s -> (0 < dq s)%Q -> parse_spec U spec = Ok p ->
  (p_align p = lit "=" -> p_width p = []) ->
  (p_prec p = None \/ p_uncert p <> []) ->
  (p_uncert p <> [] -> forall d, p_prec p = Some d -> uval U d <> 0) ->
  exists r S k e d n m,
    format_ufloat (K := DecOps) U nom s spec = Ok r /\
    output U p (unit_of p * dq nom)%Q S (signbit nom) k e d n m r /\ 1 <= m.
Proof.
  intros nom s spec p Rn Rs Ps Hp Ha [Hn|Hu] Hd.
  - destruct (pdg_digits nom s spec p Rn Rs Ps Hp Ha Hn) as (r & S & k & e & d & n & m & f & D & F & O & _ & _ & H).
    exists r, S, k, e, d, n, m. split; [exact F|]. split; [exact O|]. cbv zeta in H.
    destruct H as [(_ & _ & H)|[(_ & _ & H)|(_ & _ & H)]]; cbn in H; lia.
  - destruct (p_prec p) as [u|] eqn:Ep.
    + destruct (spec_parts U L spec p Hp) as (HA & _).
      assert (A : exists s0, assembled U p s0) by (destruct HA as [A|(t & _ & A)]; eauto). destruct A as (s0 & A).
      destruct (as_prec _ _ _ A u Ep) as (_ & Fu). assert (N0 := uval_nonneg U L u Fu). assert (N1 := Hd Hu u eq_refl).
      destruct (uncert_digits nom s spec p u Rn Rs Ps Hp Ha Hu Ep ltac:(lia)) as (r & k & e & d & n & m & F & O & H).
      eexists r, _, k, e, d, n, m. split; [exact F|]. split; [exact O|].
      assert (0 < 10 ^ (uval U u - 1)) by (apply pow10_pos; lia). assert (0 < 10 ^ uval U u) by (apply pow10_pos; lia). lia.
    + destruct (pdg_digits nom s spec p Rn Rs Ps Hp Ha Ep) as (r & S & k & e & d & n & m & f & D & F & O & _ & _ & H).
      exists r, S, k, e, d, n, m. split; [exact F|]. split; [exact O|]. cbv zeta in H.
      destruct H as [(_ & _ & H)|[(_ & _ & H)|(_ & _ & H)]]; cbn in H; lia.
Qed.

Theorem common_exp : forall (nom s : dec) (spec : str) (p : parts),
  real nom -> real s -> (0 < dq s)%Q -> parse_spec U spec = Ok p ->
  (p_align p = lit "=" -> p_width p = []) ->
  (p_uncert p <> [] -> forall d, p_prec p = Some d -> uval U d <> 0) ->
  let V := (unit_of p * dq nom)%Q in
  let S0 := (unit_of p * dq s)%Q in
  exists r S k e d n m,
    format_ufloat (K := DecOps) U nom s spec = Ok r /\
    output U p V S (signbit nom) k e d n m r /\
    common_exponent (p_type p) (Qmax (Qabs V) S0) k e /\
    (e <> None -> 10 ^ Z.of_nat d <= Z.max n m < 10 ^ (Z.of_nat d + 1)).
Proof.
  intros nom s spec p Rn Rs Ps Hp Ha Hd V S0.
  destruct (real_display nom s spec p Rn Rs Ps Hp Ha Hd) as (r & S & k & e & d & n & m & F & P & C & O).
  fold V in C, O, P. fold S0 in C, P.
  exists r, S, k, e, d, n, m. split; [exact F|]. split; [exact O|]. split; [exact C|]. intros NE.
  assert (T := parsed_type _ _ Hp).
  assert (On := out_nominal _ _ _ _ _ _ _ _ _ _ _ O). assert (Om := out_uncert _ _ _ _ _ _ _ _ _ _ _ O).
  destruct (place_digits _ _ _ _ _ _ _ _ _ _ _ O C T) as [(Ed & E)|(E1 & _)]; [|contradiction].
  rewrite E in On, Om. destruct e as [X|]; [|contradiction]. clear NE.
  (* S0 is rounded like S *)
  assert (Om0 : half_even (S0 * p10 (- k)) m).
  { unfold last_place in P. destruct (p_prec p) as [u|].
    - destruct P as (ES & _). eapply half_even_comp; [|exact Om]. rewrite ES. reflexivity.
    - destruct P as (f & D & B1 & B2 & B3 & B4 & P). destruct P as [(_ & ES & _)|[(_ & ES & _)|(BD & ES & P)]];
        [eapply half_even_comp; [|exact Om]; rewrite ES; reflexivity..|].
      assert (Ek : k = f) by (apply sig_limit_p10; eapply sig_limit_comp; [exact ES|exact P]). subst k.
      assert (Em : m = 10).
      { eapply half_even_unique; [exact Om|]. eapply half_even_comp; [|apply half_even_Z].
        rewrite ES, <- p10_add. replace (f + 1 + - f) with 1 by lia. reflexivity. }
      subst m. assert (Pf := p10_pos (- f)). assert (Of := p10_opp f).
      assert (E2 : (p10 (2 - f) == 100 * p10 (- f))%Q) by (unfold Zminus; rewrite p10_add; reflexivity).
      assert (E3 : (p10 (f + 1) == 10 * p10 f)%Q) by apply p10_succ.
      assert (L1 : (inject_Z 950 <= S0 * p10 (2 - f))%Q).
      { eapply Qle_trans; [|exact B3]. rewrite <- Zle_Qle. lia. }
      change (inject_Z 950) with 950%Q in L1. rewrite E2 in L1.
      assert (L2 : (S0 * p10 (- f) < 10 * p10 f * p10 (- f))%Q) by (apply Qmult_lt_compat_r; [exact Pf|rewrite <- E3; exact B2]).
      rewrite <- Qmult_assoc, Of in L2.
      destruct (Qeq_dec (S0 * p10 (- f)) (95 # 10)) as [Eq|Ne].
      + right. split; [rewrite Eq; reflexivity|exists 5; reflexivity].
      + left. change (inject_Z 10) with 10%Q. apply Qabs_Qlt_condition.
        assert (~ (S0 * p10 (- f) <= 95 # 10)%Q) by (intros G; apply Ne; lra). lra. }
  assert (NF : ~ fixed_type (p_type p)) by (intros G; destruct C as (C & _); specialize (C G); discriminate).
  destruct C as (_ & C). destruct (C NF) as (R & Y & H & B1 & B2 & E1 & E2).
  assert (EX : X = Y).
  { destruct (type_cases p T) as [(G & _)|[(G & _)|(G & _)]]; [contradiction|specialize (E1 G); congruence|].
    specialize (E2 G). destruct (_ && _); congruence. }
  subst Y.
  assert (ER : R = Z.max n m).
  { assert (Pk := p10_pos (- k)).
    destruct (Qlt_le_dec (Qabs V) S0) as [G|G].
    - apply (half_even_comp _ (S0 * p10 (- k))) in H; [|rewrite Q.max_r by lra; reflexivity]. assert (R = m) by (eapply half_even_unique; eassumption). subst R.
      assert (n <= m) by (eapply half_even_mono; [|exact On|exact Om0]; nra). lia.
    - apply (half_even_comp _ (Qabs V * p10 (- k))) in H; [|rewrite Q.max_l by lra; reflexivity]. assert (R = n) by (eapply half_even_unique; eassumption). subst R.
      assert (m <= n) by (eapply half_even_mono; [|exact Om0|exact On]; nra). lia. }
  rewrite <- ER. assert (Pk := p10_pos (- k)). assert (Ok1 := p10_opp k).
  rewrite <- (inject_le_pow R (Z.of_nat d)), <- (inject_lt_pow R (Z.of_nat d + 1)) by lia.
  assert (C1 : (p10 X * p10 (- k) <= inject_Z R * p10 k * p10 (- k))%Q) by (apply Qmult_le_compat_r; lra).
  assert (C2 : (inject_Z R * p10 k * p10 (- k) < p10 (X + 1) * p10 (- k))%Q) by (apply Qmult_lt_compat_r; lra).
  rewrite <- Qmult_assoc, Ok1, <- p10_add, Qmult_1_r in C1. rewrite <- Qmult_assoc, Ok1, <- p10_add, Qmult_1_r in C2.
  replace (X + - k) with (Z.of_nat d) in C1 by lia. replace (X + 1 + - k) with (Z.of_nat d + 1) in C2 by lia.
  split; assumption.
Qed.
End Real.
