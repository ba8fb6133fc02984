(** Formatting of binary64 numbers with a non-zero uncertainty: the result. *)
From Coq Require Import String.
From Coq Require Import ZArith List Bool Lia QArith Qpower Qabs Qminmax Lqa.
From Flocq Require Import BinarySingleNaN.
From Verif Require Import Base Str NumF FmtOps FmtF Format FmtSpec BinSpec StrProofs SpecProofs FixedProofs FormatProofs
  DecProofs RealFmt RealThm BinProofs BinRepr BinQ BinFmt.
Import ListNotations.
Local Open Scope Z_scope.

Lemma Qabs_shift : forall a n D, (Qabs (a * p10 n - inject_Z D) == Qabs (a - inject_Z D * p10 (- n)) * p10 n)%Q.
Proof.
  intros a n D. assert (P := p10_pos n). assert (O := p10_opp n).
  setoid_replace (a * p10 n - inject_Z D)%Q with ((a - inject_Z D * p10 (- n)) * p10 n)%Q.
  - rewrite Qabs_Qmult, (Qabs_pos (p10 n)) by lra. reflexivity.
  - assert (E : (inject_Z D * p10 (- n) * p10 n == inject_Z D)%Q) by (rewrite <- Qmult_assoc, (Qmult_comm (p10 (- n))), O; ring).
    setoid_replace ((a - inject_Z D * p10 (- n)) * p10 n)%Q with (a * p10 n - inject_Z D * p10 (- n) * p10 n)%Q by ring. rewrite E. reflexivity.
Qed.
Lemma within_refl : forall c a b, (0 <= c)%Q -> (a == b)%Q -> within c a b.
Proof. intros c a b H E. unfold within. rewrite E. setoid_replace (b - b)%Q with 0%Q by ring. assert (N := Qabs_nonneg b). simpl Qabs at 1. nra. Qed.
Lemma within_max : forall c a a' b b', (0 <= a)%Q -> (0 <= b)%Q -> (0 <= c)%Q -> within c a a' -> within c b b' -> within c (Qmax a b) (Qmax a' b').
Proof.
  intros c a a' b b' Pa Pb Pc Wa Wb. apply within_pos in Wa; [|exact Pa]. apply within_pos in Wb; [|exact Pb].
  assert (M1 := Q.le_max_l a b). assert (M2 := Q.le_max_r a b).
  unfold within. rewrite (Qabs_pos (Qmax a b)) by lra. apply Qabs_Qle_condition. split.
  - assert (X : (Qmax a b <= Qmax a' b' + c * Qmax a b)%Q).
    { apply Q.max_case_strong with (n := a) (m := b) (P := fun z => (z <= Qmax a' b' + c * Qmax a b)%Q).
      - intros x y E H. rewrite <- E. exact H.
      - intros _. assert (Y := Q.le_max_l a' b'). nra.
      - intros _. assert (Y := Q.le_max_r a' b'). nra. }
    lra.
  - assert (X : (Qmax a' b' <= Qmax a b + c * Qmax a b)%Q) by (apply Q.max_lub; nra). lra.
Qed.
Lemma within_abs : forall c a b, within c a b -> within c (Qabs a) (Qabs b).
Proof.
  intros c a b H. unfold within in *. rewrite (Qabs_pos (Qabs a)) by apply Qabs_nonneg. eapply Qle_trans; [|exact H].
  apply Qabs_Qle_condition. assert (A := Qabs_triangle_reverse a b). assert (B := Qabs_triangle_reverse b a).
  assert (E : (Qabs (a - b) == Qabs (b - a))%Q) by (rewrite <- Qabs_opp; apply Qabs_wd; ring). rewrite E in A. lra.
Qed.
Lemma within_scale : forall c a b k, within c a b -> within c (a * k) (b * k).
Proof.
  intros c a b k H. unfold within in *. setoid_replace (b * k - a * k)%Q with ((b - a) * k)%Q by ring. rewrite !Qabs_Qmult, Qmult_assoc.
  apply Qmult_le_compat_r; [exact H|apply Qabs_nonneg].
Qed.

Section Bin.
Context (lm : Libm10) (LL : LibmLaws lm) (U : Unicode) (L : UniLaws U).
Notation K := (BinOps lm).

(** ** The shorthand notation *)
Lemma short_bin : forall (sm : f64) prec main latex, fin sm -> (0 < bq sm)%Q -> Bsign sm = false -> (bq sm <= p10 200)%Q -> 0 <= prec <= 297 ->
  exists es m S', shorthand_uncert (K := K) U sm prec main latex = Ok es /\ 0 <= m /\
    half_even (S' * p10 prec) m /\ within (1 # 50000000000000) (bq sm) S' /\ (prec <= 14 -> short_text m (Z.to_nat prec) es).
Proof.
  intros sm prec main latex F P Sg B (Hp0 & Hp). unfold shorthand_uncert.
  assert (Z0 : x_iszero K sm = false). { destruct (x_iszero K sm) eqn:E; [|reflexivity]. apply (bq_zero sm F) in E. lra. }
  assert (N0 : x_isnan K sm = false) by (destruct sm; try discriminate F; reflexivity).
  assert (I0 : x_isinf K sm = false) by (destruct sm; try discriminate F; reflexivity).
  rewrite Z0, N0, I0.
  destruct (bq_fix sm prec F) as (D0 & HD). apply (half_even_comp _ (bq sm * p10 prec)) in HD; [|rewrite (Qabs_pos (bq sm)) by lra; reflexivity].
  assert (ER : py_round (K := K) sm prec = fdecimal false (x_fix DecOps (fdec sm) prec) (- prec)).
  { unfold py_round, isinfinite. rewrite N0, I0. cbn [orb x_dec x_sign x_fix BinOps]. unfold sign_of. rewrite Sg. reflexivity. }
  rewrite ER. set (D := x_fix DecOps (fdec sm) prec) in *.
  assert (Pp := p10_pos prec). assert (Op := p10_opp prec). assert (P1 := p10_ge1 prec Hp0).
  assert (P10p : (p10 prec == inject_Z (10 ^ prec))%Q) by (apply p10_Z; exact Hp0).
  destruct (Z.eq_dec D 0) as [E0|N1].
  - rewrite E0 in *. rewrite q_dec0.
    replace (first_digit (K := K) (B754_zero false)) with (@Ok Z 0) by reflexivity. cbn [rbind].
    change (0 <=? 0) with true. change (x_iszero K (B754_zero false)) with true. cbn [andb negb].
    assert (W : within (1 # 50000000000000) (bq sm) (bq sm)) by (apply within_refl; [discriminate|reflexivity]).
    destruct (0 <? prec) eqn:Ep.
    + eexists _, 0, (bq sm). split; [reflexivity|]. split; [lia|]. split; [exact HD|]. split; [exact W|]. intros _.
      unfold short_text. rewrite Z2Nat.id, Ep by exact Hp0. change (0 =? 0) with true. cbn [andb orb].
      assert (Z1 : x_fix K (B754_zero false) prec = 0).
      { destruct (bq_fix (B754_zero false) prec eq_refl) as (_ & X). apply (half_even_comp _ (inject_Z 0)) in X; [|simpl; ring].
        exact (half_even_unique _ _ _ X (half_even_Z 0)). }
      rewrite Z1.
      apply fixed_numeral. lia.
    + eexists _, 0, (bq sm). split; [reflexivity|]. split; [lia|]. split; [exact HD|]. split; [exact W|]. intros _.
      unfold short_text. rewrite Z2Nat.id, Ep by exact Hp0. reflexivity.
  - assert (HD1 : 1 <= D) by lia. assert (B1 := half_even_bounds _ _ HD).
    assert (I1 : (1 <= inject_Z D)%Q) by (change 1%Q with (inject_Z 1); apply inject_le'; exact HD1).
    set (v := (inject_Z D * p10 (- prec))%Q).
    assert (Ev : (v * p10 prec == inject_Z D)%Q) by (unfold v; rewrite <- Qmult_assoc, (Qmult_comm (p10 (- prec))), Op; ring).
    assert (Pm := p10_pos (- prec)).
    assert (Pv : (0 < v)%Q) by (unfold v; nra).
    assert (R1 : (p10 (-300) <= v)%Q).
    { unfold v. assert (X : (p10 (-300) <= p10 (- prec))%Q) by (apply p10_le; lia). nra. }
    assert (R2 : (v <= p10 300)%Q).
    { assert (X : (v * p10 prec <= (2 * bq sm) * p10 prec)%Q) by (rewrite Ev; nra).
      apply Qmult_le_r in X; [|exact Pp]. assert (2 * p10 200 <= p10 300)%Q by (vm_compute; discriminate). lra. }
    destruct (q_dec false D (- prec) ltac:(lia) R1 R2) as (Fu & Su & Wu). fold v in Wu.
    assert (NU : forall y, fin y -> (Qabs (Qabs (bq (fdecimal false D (- prec))) - v) <= Qabs (Qabs (bq y) - v))%Q)
      by (intros y Fy; exact (q_nearest false D (- prec) y ltac:(lia) Fu Fy)).
    set (u := fdecimal false D (- prec)) in *.
    assert (Au : (Qabs (bq u) == bq u)%Q). { apply Qabs_pos. assert (X := bq_sign u Fu). rewrite Su in X. exact X. }
    rewrite Au in Wu. assert (Wu2 := Wu). apply Qabs_Qle_condition in Wu2.
    assert (HU2 : (hulp <= 1 # 9000000000000000)%Q) by (vm_compute; discriminate).
    assert (T3 : (hulp * v <= (1 # 9000000000000000) * v)%Q) by (apply Qmult_le_compat_r; lra).
    assert (Pu : (0 < bq u)%Q) by lra.
    assert (Zu : x_iszero K u = false). { destruct (x_iszero K u) eqn:E; [|reflexivity]. apply (bq_zero u Fu) in E. lra. }
    rewrite (fd_pos lm u Fu Pu). cbn [rbind].
    (* the rounded number has the same digits *)
    assert (HDu : half_even (bq u * p10 prec) D).
    { specialize (NU sm F). rewrite Au, (Qabs_pos (bq sm)) in NU by lra. unfold half_even in HD |- *.
      rewrite Qabs_shift in HD |- *. fold v in HD |- *.
      assert (X : (Qabs (bq u - v) * p10 prec <= Qabs (bq sm - v) * p10 prec)%Q) by (apply Qmult_le_compat_r; lra).
      destruct HD as [Y|(Y & Ev0)]; [left; lra|].
      destruct (Qlt_le_dec (Qabs (bq u - v) * p10 prec) (1 # 2)) as [Z1|Z1]; [left; exact Z1|right; split; [lra|exact Ev0]]. }
    assert (Efx : x_fix K u prec = D).
    { destruct (bq_fix u prec Fu) as (_ & X). apply (half_even_comp _ (bq u * p10 prec)) in X; [|rewrite Au; reflexivity]. exact (half_even_unique _ _ _ X HDu). }
    assert (Elg : (0 <=? lg10 lm u) = (10 ^ prec <=? D)).
    { apply eq_iff_eq_true. rewrite !Z.leb_le, (ll_sign lm LL u Fu Pu). change (fval u) with (bq u).
      rewrite <- (inject_le_pow D prec Hp0). split; intros X.
      - rewrite inject_le_pow by exact Hp0.
        apply (half_even_mono (inject_Z (10 ^ prec)) (bq u * p10 prec)); [|apply half_even_Z|exact HDu].
        rewrite <- P10p. nra.
      - destruct q_small_Z as (_ & _ & _ & _ & Q1 & _). specialize (NU (fnorm 1 0) eq_refl).
        assert (V1 : (1 <= v)%Q). { assert (Y : (1 * p10 prec <= v * p10 prec)%Q) by (rewrite Ev; lra). apply Qmult_le_r in Y; assumption. }
        rewrite Au, Q1 in NU. change (Qabs 1) with 1%Q in NU. rewrite (Qabs_neg (1 - v)) in NU by lra. apply Qabs_Qle_condition in NU. lra. }
    rewrite Elg. assert (WR : within (1 # 50000000000000) (bq sm) (bq sm)) by (apply within_refl; [discriminate|reflexivity]).
    rewrite andb_comm.
    destruct ((0 <? prec) && (10 ^ prec <=? D)) eqn:EB.
    + eexists _, D, (bq sm). split; [reflexivity|]. split; [lia|]. split; [exact HD|]. split; [exact WR|]. intros _.
      rewrite Efx. replace (x_sign K u) with false by (cbn [x_sign BinOps]; unfold sign_of; rewrite Su; reflexivity).
      unfold short_text. rewrite Z2Nat.id by exact Hp0.
      destruct (Z.eqb_spec D 0); [contradiction|]. cbn [orb]. rewrite EB. apply fixed_numeral. lia.
    + rewrite Zu. cbn [negb].
      assert (UD : within (1 # 9000000000000000) (inject_Z D) (bq u * p10 prec)).
      { unfold within. rewrite Qabs_shift, (Qabs_pos (inject_Z D)) by lra. fold v.
        setoid_replace ((1 # 9000000000000000) * inject_Z D)%Q with ((1 # 9000000000000000) * v * p10 prec)%Q by (rewrite <- Ev; ring). apply Qmult_le_compat_r; [|lra]. eapply Qle_trans; [exact Wu|exact T3]. }
      assert (UD2 := UD). apply within_pos in UD2; [|lra].
      assert (SMALL : prec <> 0 -> (inject_Z D < p10 prec)%Q).
      { intros Hnz. destruct (Z.ltb_spec 0 prec); [|lia]. destruct (Z.leb_spec (10 ^ prec) D); [discriminate|]. rewrite P10p. apply inject_lt'. assumption. }
      assert (DB : (inject_Z D <= p10 297)%Q).
      { destruct (Z.eq_dec prec 0) as [E|E].
        - assert (X : (v == inject_Z D)%Q) by (rewrite <- Ev, E, p10_0; ring).
          assert (Y : (v <= 2 * bq sm)%Q). { rewrite X. rewrite E, p10_0 in B1. lra. }
          assert (2 * p10 200 <= p10 297)%Q by (vm_compute; discriminate). lra.
        - specialize (SMALL E). assert (X : (p10 prec <= p10 297)%Q) by (apply p10_le; lia). lra. }
      destruct (mul_pos_bin lm LL u prec Fu Pu) as (y & Ey & Fy & Sy & Wy).
      { assert (p10 (-298) <= 1 # 2)%Q by (vm_compute; discriminate). lra. }
      { assert (2 * p10 297 <= p10 298)%Q by (vm_compute; discriminate). lra. }
      { lia. }
      rewrite Ey. cbn [rbind].
      assert (YD : within (1 # 450000000000000) (inject_Z D) (bq y)) by (eapply within_trans; [exact UD|exact Wy| |]; vm_compute; discriminate).
      assert (YD2 := YD). apply within_pos in YD2; [|lra].
      assert (Ay : (Qabs (bq y) == bq y)%Q) by (apply Qabs_pos; lra).
      replace (x_sign K y) with false by (cbn [x_sign BinOps]; unfold sign_of; rewrite Sy; reflexivity).
      destruct (bq_fix y 0 Fy) as (M0 & HM). change (x_fix DecOps (fdec y) 0) with (x_fix K y 0) in M0, HM.
      set (m := x_fix K y 0) in *. apply (half_even_comp _ (bq y)) in HM; [|rewrite Ay, p10_0; ring].
      assert (M1 : 1 <= m) by (apply (half_even_ge _ _ _ HM); change (inject_Z 1) with 1%Q; lra).
      assert (TXT : short_text m (Z.to_nat prec) (show_Z m) \/ 14 < prec).
      { destruct (Z_lt_le_dec 14 prec) as [X|X]; [right; exact X|left]. unfold short_text. rewrite Z2Nat.id by exact Hp0.
        destruct (Z.eqb_spec m 0); [lia|]. cbn [orb].
        replace ((0 <? prec) && (10 ^ prec <=? m)) with false.
        - rewrite show_Z_nonneg by lia. apply numeral_digs. lia.
        - symmetry. destruct (Z.eq_dec prec 0) as [->|Hnz]; [reflexivity|]. apply andb_false_intro2. apply Z.leb_gt.
          specialize (SMALL Hnz). assert (X14 : (p10 prec <= 100000000000000)%Q) by (change 100000000000000%Q with (p10 14); apply p10_le; lia).
          assert (m <= D) by (apply (half_even_le _ _ _ HM); lra).
          assert (Y : (inject_Z D < inject_Z (10 ^ prec))%Q) by (rewrite <- P10p; exact SMALL). rewrite <- Zlt_Qlt in Y. lia. }
      assert (TXT2 : prec <= 14 -> short_text m (Z.to_nat prec) (show_Z m)) by (intros; destruct TXT; [assumption|lia]).
      destruct (Z.eq_dec m D) as [EmD|NmD].
      * exists (show_Z m), m, (bq sm). split; [reflexivity|]. split; [lia|]. split; [rewrite EmD; exact HD|]. split; [exact WR|exact TXT2].
      * assert (BM := half_even_bounds _ _ HM).
        assert (LARGE : (100000000000000 <= inject_Z D)%Q).
        { destruct (Qlt_le_dec (inject_Z D) 100000000000000) as [X|X]; [exfalso|exact X]. apply NmD.
          apply Z.le_antisymm; [apply (half_even_le _ _ _ HM)|apply (half_even_ge _ _ _ HM)]; lra. }
        exists (show_Z m), m, (inject_Z m * p10 (- prec))%Q. split; [reflexivity|]. split; [lia|]. split; [|split; [|exact TXT2]].
        -- eapply half_even_comp; [|apply half_even_Z]. rewrite <- Qmult_assoc, (Qmult_comm (p10 (- prec))), Op. ring.
        -- assert (Q0 : (bq sm == (bq sm * p10 prec) * p10 (- prec))%Q) by (rewrite <- Qmult_assoc, Op; ring).
           unfold within. rewrite Q0 at 1 2. apply (within_scale _ (bq sm * p10 prec) (inject_Z m) (p10 (- prec))).
           unfold within. set (t := (bq sm * p10 prec)%Q) in *. assert (Pt : (0 < t)%Q) by (unfold t; nra).
           rewrite (Qabs_pos t) by lra. apply Qabs_Qle_condition. lra.
Qed.

(** ** Divided by the common power of ten *)
Lemma scaled_bin : forall (x : f64) ce, sized x -> (forall X, ce = Some X -> -100 <= X <= 100) ->
  exists y, match ce with Some X => x_div10 K x X | None => Ok x end = Ok y /\ fin y /\ Bsign y = Bsign x /\
    within (1 # 500000000000000) (bq x) (bq y * p10 (match ce with Some X => X | None => 0 end)).
Proof.
  intros x ce (F & R) H. destruct ce as [X|].
  - specialize (H X eq_refl). destruct R as [Z0|(R1 & R2)].
    + exists (B754_zero (Bsign x)). split; [apply div_zero_bin; [exact LL|exact F|exact Z0|lia]|]. split; [reflexivity|]. split; [reflexivity|].
      apply within_refl; [discriminate|]. rewrite Z0. assert (E : (bq (B754_zero (Bsign x)) == 0)%Q) by (destruct (Bsign x); reflexivity). rewrite E. ring.
    + destruct (div_pos_bin lm LL x X F) as (y & Ey & Fy & Sy & Wy); [| |lia|eauto].
      * eapply Qle_trans; [|exact R1]. apply p10_le. lia.
      * eapply Qle_trans; [exact R2|]. apply p10_le. lia.
  - exists x. repeat split; [exact F|]. apply within_refl; [discriminate|]. rewrite p10_0. ring.
Qed.
(** Percentages. *)
Definition hundred (p : parts) (x : f64) : f64 := if str_eqb (p_type p) (lit "%") then fmul x (fnorm 100 0) else x.
Lemma hundred_bin : forall p (x : f64), fin x -> ((fval x == 0)%Q \/ medium (Qabs (fval x))) ->
  sized (hundred p x) /\ Bsign (hundred p x) = Bsign x /\ within hulp (unit_of p * fval x) (bq (hundred p x)).
Proof.
  intros p x F R. unfold hundred, unit_of, sized. change (fval x) with (bq x) in *.
  assert (WR : forall a b, (a == b)%Q -> within hulp a b) by (intros; apply within_refl; [discriminate|assumption]).
  assert (SZ : medium (Qabs (bq x)) -> (p10 (-93) <= Qabs (bq x))%Q /\ (Qabs (bq x) <= p10 93)%Q).
  { intros (A & B). assert (p10 (-93) <= p10 (-90))%Q by (apply p10_le; lia). assert (p10 90 <= p10 93)%Q by (apply p10_le; lia). lra. }
  destruct (str_eqb (p_type p) (lit "%")).
  - destruct q_small_Z as (_ & _ & _ & _ & _ & Q100 & _).
    destruct R as [Z0|M].
    + assert (E := q_mul0 x (fnorm 100 0) F eq_refl Z0). assert (Z1 : (bq (fmul x (fnorm 100 0)) == 0)%Q) by (rewrite E; destruct (xorb _ _); reflexivity).
      split; [split; [rewrite E; reflexivity|left; exact Z1]|]. split; [rewrite E; simpl; apply xorb_false_r|]. apply WR. rewrite Z1, Z0. ring.
    + assert (SM := M). destruct SM as (A & B).
      assert (E : (bq x * bq (fnorm 100 0) == 100 * bq x)%Q) by (rewrite Q100; ring).
      assert (EA : (Qabs (bq x * bq (fnorm 100 0)) == 100 * Qabs (bq x))%Q) by (rewrite E, Qabs_Qmult; reflexivity).
      destruct (q_mul x (fnorm 100 0) F eq_refl) as (D1 & D2 & D3).
      * rewrite EA. assert (p10 (-300) <= p10 (-90))%Q by (apply p10_le; lia). assert (0 < p10 (-90))%Q by apply p10_pos. lra.
      * rewrite EA. assert (100 * p10 90 <= p10 300)%Q by (vm_compute; discriminate). lra.
      * rewrite E in D2 at 1. rewrite E in D2 at 1.
        assert (W : within hulp (100 * bq x) (bq (fmul x (fnorm 100 0)))) by exact D2.
        split; [|split; [rewrite D3; apply xorb_false_r|exact W]]. split; [exact D1|right].
        apply within_abs, within_pos in W; [|apply Qabs_nonneg].
        rewrite Qabs_Qmult in W. change (Qabs 100) with 100%Q in W.
        assert (HU2 : (0 <= hulp)%Q /\ (hulp <= 1 # 10)%Q) by (split; vm_compute; discriminate).
        set (a := Qabs (bq x)) in *. set (b := Qabs (bq (fmul x (fnorm 100 0)))) in *.
        assert (p10 (-93) <= 1 * p10 (-90))%Q by (vm_compute; discriminate). assert (200 * p10 90 <= p10 93)%Q by (vm_compute; discriminate).
        assert (0 < p10 (-90))%Q by apply p10_pos. split; nra.
  - split; [|split; [reflexivity|apply WR; ring]]. split; [exact F|]. destruct R as [Z0|M]; [left; exact Z0|right; apply SZ; exact M].
Qed.
Lemma near_of : forall c a b, (c <= 1 # 100000000000)%Q -> within c a b -> near a b.
Proof. intros c a b H W. exact (within_weak _ _ _ _ H W). Qed.
Lemma sig_near : forall c d v w n l, within c v w -> sig_within d w n l -> (0 <= d)%Q -> (c + d + c * d <= 1 # 100000000000)%Q -> sig_limit_near v n l.
Proof. intros c d v w n l W (v' & X & Y) Hd H. exists v'. split; [|exact Y]. exact (within_trans _ _ _ _ _ _ W X Hd H). Qed.

Theorem bin_display : forall (nom s : f64) (spec : str) (p : parts),
  is_finite nom = true -> ((fval nom == 0)%Q \/ medium (Qabs (fval nom))) ->
  is_finite s = true -> medium (fval s) -> parse_spec U spec = Ok p ->
  (p_align p = lit "=" -> p_width p = []) ->
  (p_uncert p <> [] -> forall d, p_prec p = Some d -> uval U d <> 0) ->
  (forall d, p_prec p = Some d -> uval U d <= 100) ->
  let V0 := (unit_of p * fval nom)%Q in
  let S0 := (unit_of p * fval s)%Q in
  exists r V S k e d n m,
    format_ufloat (K := K) U nom s spec = Ok r /\
    near V0 V /\ last_place_near U p V0 S0 S k /\
    common_exponent_near (p_type p) (Qmax (Qabs V0) S0) k e /\
    (opt (p_opts p) 83 = false \/ (d <= 14)%nat -> output U p V S (Bsign nom) k e d n m r).
Proof.
  intros nom s spec p FN RN FS MS Hspec Hal Hd Hmax V0 S0.
  destruct (spec_parts U L spec p Hspec) as (HA & _).
  assert (A : exists s0, assembled U p s0) by (destruct HA as [A|(t & _ & A)]; eauto). destruct A as (s0 & A).
  assert (P90 := p10_pos (-90)). assert (Ps : (0 < fval s)%Q) by (destruct MS; lra).
  assert (RS : (fval s == 0)%Q \/ medium (Qabs (fval s))).
  { right. unfold medium in *. rewrite (Qabs_pos (fval s)) by lra. exact MS. }
  destruct (hundred_bin p nom FN RN) as (ZN & SN & WN). destruct (hundred_bin p s FS RS) as (ZS & SS & WS). fold V0 in WN. fold S0 in WS.
  set (nom1 := hundred p nom) in *. set (s1 := hundred p s) in *.
  assert (Pu : (1 <= unit_of p)%Q) by (unfold unit_of; destruct (str_eqb _ _); vm_compute; discriminate).
  assert (PS0 : (0 < S0)%Q) by (unfold S0; nra).
  assert (WS2 := WS). apply within_pos in WS2; [|lra].
  assert (HU2 : (0 <= hulp)%Q /\ (hulp <= 1 # 9000000000000000)%Q) by (split; vm_compute; discriminate).
  assert (Ps1 : (0 < bq s1)%Q) by nra.
  destruct ZS as (Fs1 & [Z0|(Rs1 & Rs2)]); [exfalso; lra|]. rewrite (Qabs_pos (bq s1)) in Rs1, Rs2 by lra.
  assert (Fn1 := proj1 ZN).
  destruct (digits_bin lm LL U L nom1 s1 p s0 ZN Fs1 Rs1 Rs2 A Hd Hmax) as (k & s' & prec0 & ED & Fs' & L1 & L2 & Hplace & Hk0 & HR).
  destruct (larger_bin lm nom1 s1 Fn1 Fs1 Ps1) as (M & EM & FM & PM & QM & Len).
  assert (RM : (p10 (-95) <= bq M)%Q /\ (bq M <= p10 95)%Q).
  { rewrite QM. split.
    - eapply Qle_trans; [|apply Q.le_max_r]. eapply Qle_trans; [|exact Rs1]. apply p10_le. lia.
    - assert (X : (p10 93 <= p10 95)%Q) by (apply p10_le; lia). apply Q.max_lub; [|lra].
      destruct ZN as (_ & [Z0|(_ & Y)]); [rewrite Z0; apply Qlt_le_weak, p10_pos|lra]. }
  destruct (exponent_bin lm LL M p s0 k U FM PM (proj1 RM) (proj2 RM) A) as (ce & ECE & (M' & WM & Hexp) & Hk).
  { intros NF R H. apply (HR NF R). eapply half_even_comp; [|exact H]. rewrite QM. reflexivity. }
  set (e0 := match ce with Some X => X | None => 0 end).
  set (prec := Z.max (match ce with Some X => X - k | None => - k end) 0).
  set (main := if upper p then 70 else 102).
  assert (HX : forall X, ce = Some X -> -100 <= X <= 100) by (intros X E; apply (Hk X E)).
  assert (He0 : -100 <= e0 <= 100) by (unfold e0; destruct ce; [apply HX; reflexivity|lia]).
  assert (Hprec : 0 <= prec <= 297) by (unfold prec, e0 in *; destruct ce; lia).
  destruct (scaled_bin nom1 ce ZN HX) as (nm & Enm & Fnm & Snm & Wnm). fold e0 in Wnm.
  assert (P93 := p10_pos (-93)). assert (Ps' : (0 < bq s')%Q) by lra.
  assert (B95 : (p10 (-95) <= Qabs (bq s'))%Q /\ (Qabs (bq s') <= p10 95)%Q).
  { rewrite (Qabs_pos (bq s')) by lra. assert (p10 (-95) * 2 <= p10 (-93))%Q by (vm_compute; discriminate).
    assert (2 * p10 93 <= p10 95)%Q by (vm_compute; discriminate). split; lra. }
  assert (SC : exists y, match ce with Some X => x_div10 K s' X | None => Ok s' end = Ok y /\ fin y /\ Bsign y = Bsign s' /\
    within (1 # 500000000000000) (bq s') (bq y * p10 e0)).
  { unfold e0. destruct ce as [X|]; [apply (div_pos_bin lm LL s' X Fs' (proj1 B95) (proj2 B95)); specialize (HX X eq_refl); lia|].
    exists s'. repeat split; [exact Fs'|]. apply within_refl; [discriminate|]. rewrite p10_0. ring. }
  destruct SC as (sm & Esm & Fsm & Ssm & Wsm).
  assert (Sg' : Bsign s' = false). { assert (X := bq_sign s' Fs'). destruct (Bsign s'); [exfalso; lra|reflexivity]. }
  rewrite Sg' in Ssm.
  assert (Pe0 := p10_pos e0). assert (Wsm2 := Wsm). apply within_pos in Wsm2; [|lra].
  assert (Psm : (0 < bq sm)%Q).
  { assert (X := bq_sign sm Fsm). rewrite Ssm in X. assert (Y : (0 < bq sm * p10 e0)%Q) by nra.
    destruct (Qlt_le_dec 0 (bq sm)) as [Z1|Z1]; [exact Z1|exfalso; nra]. }
  assert (Bsm : (bq sm <= p10 200)%Q).
  { assert (X : (bq sm * p10 e0 <= 2 * (2 * p10 93))%Q) by nra.
    assert (Y : (p10 (-100) <= p10 e0)%Q) by (apply p10_le; lia).
    assert (Z1 : (bq sm * p10 (-100) <= bq sm * p10 e0)%Q) by (rewrite !(Qmult_comm (bq sm)); apply Qmult_le_compat_r; lra).
    assert (Z2 : (2 * (2 * p10 93) <= p10 200 * p10 (-100))%Q) by (vm_compute; discriminate).
    assert (Z3 : (bq sm * p10 (-100) <= p10 200 * p10 (-100))%Q) by lra. apply Qmult_le_r in Z3; [exact Z3|apply p10_pos]. }
  assert (Hmain : main = 102 \/ main = 70) by (unfold main; destruct (upper p); auto).
  set (percent := str_eqb (p_type p) (lit "%")).
  set (opts := if percent then 37 :: p_opts p else p_opts p).
  assert (EF : format_ufloat (K := K) U nom s spec = format_num (K := K) U nm sm ce p prec main opts).
  { unfold format_ufloat. rewrite Hspec. cbn [rbind x_of_Z BinOps]. destruct q_small_Z as (_ & Z100 & _). rewrite Z100. cbn [rbind].
    fold percent.
    match goal with |- context[digits_limit U ?a ?b p ?t] =>
      assert (Ea : a = nom1) by reflexivity; assert (Eb : b = s1) by reflexivity;
      change t with (fmt_type p) in *; rewrite Ea, Eb end.
    rewrite ED. cbn [rbind]. rewrite EM.
    match goal with |- context[use_exponent ?a ?b ?c] => assert (EU : use_exponent a b c = Ok ce) by exact ECE; rewrite EU end. cbn [rbind].
    match goal with |- rbind ?t _ = _ => assert (Y1 : t = Ok nm) by exact Enm; rewrite Y1 end. cbn [rbind].
    match goal with |- rbind ?t _ = _ => assert (Y2 : t = Ok sm) by exact Esm; rewrite Y2 end. cbn [rbind].
    assert (Zs' : x_iszero K s' = false). { destruct (x_iszero K s') eqn:E; [|reflexivity]. apply (bq_zero s' Fs') in E. lra. }
    assert (X3 : Z.max (- match ce with Some e => k - e | None => k end) (if isnil (fmt_type p) && x_iszero K s' then 1 else 0) = prec).
    { rewrite Zs', andb_false_r. unfold prec. destruct ce; f_equal; lia. }
    f_equal; [exact X3|]. unfold main. apply main_eq. exact (as_type _ _ _ A). }
  rewrite EF.
  destruct (bq_fix nm prec Fnm) as (Fn & Hn). change (x_fix DecOps (fdec nm) prec) with (x_fix K nm prec) in Fn, Hn.
  destruct (bq_fix sm prec Fsm) as (Fs & Hs). change (x_fix DecOps (fdec sm) prec) with (x_fix K sm prec) in Fs, Hs.
  assert (Zs : x_iszero K sm = false). { destruct (x_iszero K sm) eqn:E; [|reflexivity]. apply (bq_zero sm Fsm) in E. lra. }
  assert (NI : forall x : f64, fin x -> x_isnan K x = false /\ x_isinf K x = false) by (intros x; destruct x; try discriminate; split; reflexivity).
  destruct (NI nm Fnm) as (Nn1 & Nn2). destruct (NI sm Fsm) as (Ns1 & Ns2).
  assert (In : isinfinite (K := K) nm = false) by (unfold isinfinite; rewrite Nn1, Nn2; reflexivity).
  assert (Is : isinfinite (K := K) sm = false) by (unfold isinfinite; rewrite Ns1, Ns2; reflexivity).
  assert (NS : nom_suffix (K := K) sm p prec main = fixed_suffix prec main) by (unfold nom_suffix; rewrite ?Zs, ?In, ?Is; reflexivity).
  assert (EFx : err_suffix (K := K) nm sm p prec main = fixed_suffix prec main) by (unfold err_suffix; rewrite ?Zs, ?In, ?Is; reflexivity).
  assert (Xn : x_sign K nm = Bsign nom).
  { transitivity (Bsign nm); [destruct nm; try discriminate Fnm; reflexivity|]. rewrite Snm. exact SN. }
  assert (Xs : x_sign K sm = false) by (transitivity (Bsign sm); [destruct sm; try discriminate Fsm; reflexivity|exact Ssm]).
  assert (PN : forall w, 0 <= w -> exists t, py_format (K := K) U nm (prefix (p_sign p) p w ++ fixed_suffix prec main) = Ok t /\
     shown (p_sign p) (pads p) (commas p) w (Bsign nom) (x_fix K nm prec) (Z.to_nat prec) t).
  { intros w Hw. rewrite <- Xn. apply (py_fixed (K := K) U L nm (p_sign p) p s0 w prec main); try assumption; try lia. exact (as_sign _ _ _ A). }
  assert (PE : forall w, 0 <= w -> exists t, py_format (K := K) U sm (prefix [] p w ++ fixed_suffix prec main) = Ok t /\
     shown [] (pads p) (commas p) w false (x_fix K sm prec) (Z.to_nat prec) t).
  { intros w Hw. rewrite <- Xs. apply (py_fixed (K := K) U L sm [] p s0 w prec main); try assumption; try lia. left. reflexivity. }
  destruct (short_bin sm prec main (opt (p_opts p) 76) Fsm Psm Ssm Bsm Hprec) as (u & mu & Su & Eu & Hmu & HSu & WSu & Hu).
  assert (TOT : exists r, format_num (K := K) U nm sm ce p prec main opts = Ok r).
  { apply format_num_total; [exact Hal| | | |].
    - intros _. exists u. unfold opts. rewrite has_pct by lia. exact Eu.
    - intros w Hw. rewrite NS. destruct (PN w Hw) as (t & Et & _). eauto.
    - intros _ w Hw. rewrite EFx. destruct (PE w Hw) as (t & Et & _). eauto.
    - rewrite <- (uval_val U _ (as_width _ _ _ A)). apply (uval_nonneg U L). exact (as_width _ _ _ A). }
  destruct TOT as (r & Er). rewrite Er.
  set (short := opt (p_opts p) 83).
  set (m := if short then mu else x_fix K sm prec). set (S1 := if short then Su else bq sm).
  assert (WS1 : within (1 # 50000000000000) (bq sm) S1).
  { unfold S1. destruct short; [exact WSu|apply within_refl; [discriminate|reflexivity]]. }
  assert (HS1 : half_even (S1 * p10 prec) m).
  { unfold S1, m. destruct short; [exact HSu|]. eapply half_even_comp; [|exact Hs]. rewrite (Qabs_pos (bq sm)) by lra. reflexivity. }
  (* the uncertainty that is shown, compared to the one that was found *)
  assert (W' : within (1 # 40000000000000) (bq s') (S1 * p10 e0)).
  { eapply within_trans; [exact Wsm|apply within_scale; exact WS1| |]; vm_compute; discriminate. }
  exists r, (bq nm * p10 e0)%Q, (S1 * p10 e0)%Q, k, ce, (Z.to_nat prec), (x_fix K nm prec), m.
  split; [reflexivity|]. split.
  { eapply near_of; [|eapply within_trans; [exact WN|exact Wnm| |apply Qle_refl]]; vm_compute; discriminate. }
  assert (WMAX : within hulp (Qmax (Qabs V0) S0) (Qmax (Qabs (bq nom1)) (bq s1))).
  { apply within_max; [apply Qabs_nonneg|lra|tauto|apply within_abs; exact WN|exact WS]. }
  split.
  { unfold place_within in Hplace. unfold last_place_near. destruct (p_prec p) as [d|].
    - destruct Hplace as (E & H1 & H2).
      assert (E' : within hulp S0 (bq s')) by (unfold within in *; rewrite E; exact WS).
      split; [eapply near_of; [|eapply within_trans; [exact E'|exact W'| |apply Qle_refl]]; vm_compute; discriminate|].
      split; [intros X; eapply sig_near; [exact WS|exact (H1 X)| |]; vm_compute; discriminate|].
      intros X. destruct (H2 X) as (H3 & H4 & H5). split; [exact H3|].
      split; intros T; (eapply sig_near; [exact WMAX|eauto| |]; vm_compute; discriminate).
    - destruct Hplace as (Sx & f & D & X1 & X2 & X3 & X4 & X5 & X6). exists Sx, f, D.
      split; [eapply near_of; [|eapply within_trans; [exact WS|exact X1| |apply Qle_refl]]; vm_compute; discriminate|].
      repeat (split; [assumption|]). destruct X6 as [(Y1 & Y2 & Y3)|[(Y1 & Y2 & Y3)|(Y1 & Y2 & Y3)]].
      + left. split; [exact Y1|]. assert (E' : within hulp S0 (bq s')) by (unfold within in *; rewrite Y2; exact WS).
        split; [eapply near_of; [|eapply within_trans; [exact E'|exact W'| |apply Qle_refl]]; vm_compute; discriminate|].
        eapply sig_near; [exact WS|exact Y3| |]; vm_compute; discriminate.
      + right. left. split; [exact Y1|]. assert (E' : within hulp S0 (bq s')) by (unfold within in *; rewrite Y2; exact WS).
        split; [eapply near_of; [|eapply within_trans; [exact E'|exact W'| |apply Qle_refl]]; vm_compute; discriminate|].
        eapply sig_near; [exact WS|exact Y3| |]; vm_compute; discriminate.
      + right. right. split; [exact Y1|].
        split; [eapply near_of; [|eapply within_trans; [exact Y2|exact W'| |apply Qle_refl]]; vm_compute; discriminate|].
        eapply (sig_near 0); [apply within_refl; [apply Qle_refl|reflexivity]|exact Y3| |]; vm_compute; discriminate. }
  split.
  { exists M'. split; [|exact Hexp]. unfold within in WM. rewrite QM in WM.
    eapply near_of; [|eapply within_trans; [exact WMAX|exact WM| |apply Qle_refl]]; vm_compute; discriminate. }
  intros Hshort.
  constructor.
  - rewrite Z2Nat.id by lia. reflexivity.
  - rewrite Z2Nat.id by lia. fold e0. eapply half_even_comp; [|exact Hn].
    rewrite Qabs_Qmult, (Qabs_pos (p10 e0)) by lra. rewrite <- Qmult_assoc, <- p10_add. replace (e0 + (prec - e0)) with prec by lia. reflexivity.
  - rewrite Z2Nat.id by lia. fold e0. eapply half_even_comp; [|exact HS1].
    rewrite <- Qmult_assoc, <- p10_add. replace (e0 + (prec - e0)) with prec by lia. reflexivity.
  - destruct (format_num_laid_out (K := K) U L nm sm ce p s0 prec main percent r A eq_refl Er) as (x & n0 & es & LO & Htxt).
    assert (LN : (if opt (p_opts p) 76 then latex_nom (K := K) nm n0 else n0) = n0)
      by (destruct (opt (p_opts p) 76); [|reflexivity]; unfold latex_nom; rewrite Nn1, Nn2; reflexivity).
    rewrite LN, Zs, In, Is in LO. rewrite NS, EFx in Htxt.
    exists x, n0, es. cbv zeta. fold percent. split; [exact LO|].
    fold short in Htxt, Hshort |- *. unfold m. destruct short.
    + destruct Htxt as (T1 & T2). split.
      * destruct (PN (room U p (len (lit "(" ++ es ++ lit ")" ++ x ++ percent_text (p_opts p) percent))) ltac:(unfold room; lia)) as (t & Et & Sh).
        assert (t = n0) by congruence. subst t. exact Sh.
      * assert (T3 : Ok u = Ok es) by (rewrite <- Eu; exact T2). injection T3 as ->. apply Hu. destruct Hshort as [X|X]; [discriminate X|lia].
    + destruct Htxt as (T1 & e3 & Ee & T2).
      assert (LE : (if opt (p_opts p) 76 then latex_err (K := K) sm e3 else e3) = e3)
        by (destruct (opt (p_opts p) 76); [|reflexivity]; unfold latex_err; rewrite Ns1, Ns2; reflexivity).
      rewrite LE in Ee. subst e3. rewrite Zs, Is in T2. rewrite In in T1. split.
      * destruct (PN (room U p (len x)) ltac:(unfold room; lia)) as (t & Et & Sh).
        assert (t = n0) by congruence. subst t. exact Sh.
      * destruct (PE (room U p (len x)) ltac:(unfold room; lia)) as (t & Et & Sh).
        assert (t = es) by (cbn [orb] in T2; congruence). subst t. exact Sh.
Qed.
End Bin.

(** Fixed-point notation with a given number of decimals: the digits are those of the exact values. *)
Theorem bin_fixed : forall (U : Unicode), UniLaws U -> forall (lm : Libm10) (nom s : f64) (spec : str) (p : parts) (d : str),
  is_finite nom = true -> is_finite s = true -> (0 < fval s)%Q -> parse_spec U spec = Ok p ->
  (p_align p = lit "=" -> p_width p = []) ->
  p_type p = lit "f" \/ p_type p = lit "F" -> p_uncert p = [] -> p_prec p = Some d -> opt (p_opts p) 83 = false ->
  exists r n m,
    format_ufloat (K := BinOps lm) U nom s spec = Ok r /\
    output U p (fval nom) (fval s) (Bsign nom) (- uval U d) None (Z.to_nat (uval U d)) n m r.
Proof.
  intros U L lm nom s spec p d Fnm Fsm Psm Hspec Hal Hty Hun Hp Hsh. change (fval s) with (bq s) in *. change (fval nom) with (bq nom).
  set (K := BinOps lm).
  destruct (spec_parts U L spec p Hspec) as (HA & _).
  assert (A : exists s0, assembled U p s0) by (destruct HA as [A|(t & _ & A)]; eauto). destruct A as (s0 & A).
  destruct (as_prec _ _ _ A d Hp) as (Nd & Fd). assert (Nn := uval_nonneg U L d Fd). set (prec := uval U d) in *.
  set (main := if upper p then 70 else 102). assert (Hmain : main = 102 \/ main = 70) by (unfold main; destruct (upper p); auto).
  assert (Zs : x_iszero K s = false). { destruct (x_iszero K s) eqn:E; [|reflexivity]. apply (bq_zero s Fsm) in E. lra. }
  assert (NI : forall x : f64, fin x -> x_isnan K x = false /\ x_isinf K x = false) by (intros x; destruct x; try discriminate; split; reflexivity).
  destruct (NI nom Fnm) as (Nn1 & Nn2). destruct (NI s Fsm) as (Ns1 & Ns2).
  assert (In : isinfinite (K := K) nom = false) by (unfold isinfinite; rewrite Nn1, Nn2; reflexivity).
  assert (Is : isinfinite (K := K) s = false) by (unfold isinfinite; rewrite Ns1, Ns2; reflexivity).
  assert (Ssm : Bsign s = false). { assert (X := bq_sign s Fsm). destruct (Bsign s); [exfalso; lra|reflexivity]. }
  assert (Hpc : str_eqb (p_type p) (lit "%") = false) by (destruct Hty as [-> | ->]; reflexivity).
  assert (Hft : fmt_type p = p_type p) by (unfold fmt_type; rewrite Hpc; reflexivity).
  assert (Hif : is_f (fmt_type p) = true) by (rewrite Hft; destruct Hty as [-> | ->]; reflexivity).
  destruct (larger_bin lm nom s Fnm Fsm Psm) as (M & EM & FM & PM & QM & Len).
  assert (EF : format_ufloat (K := K) U nom s spec = format_num (K := K) U nom s None p prec main (p_opts p)).
  { unfold format_ufloat. rewrite Hspec. destruct q_small_Z as (_ & Z100 & _). cbn [rbind].
    replace (x_of_Z K 100) with (@Ok f64 (fnorm 100 0)) by (symmetry; exact Z100). cbn [rbind]. rewrite Hpc.
    change (digits_limit (K := K) U nom s p (p_type p)) with (digits_limit (K := K) U nom s p (p_type p)).
    assert (ED : digits_limit (K := K) U nom s p (p_type p) = Ok (Some (- prec), s, prec)).
    { unfold digits_limit. rewrite Hp, Hun. rewrite <- Hft, Hif. cbn [isnil negb orb andb].
      rewrite <- (uval_val U d Fd). fold prec. reflexivity. }
    rewrite ED. cbn [rbind].
    assert (EU : forall x, use_exponent (K := K) (p_type p) x (Some (- prec)) = Ok None).
    { intros x. unfold use_exponent. rewrite <- Hft, Hif. reflexivity. }
    rewrite EU. cbn [rbind]. rewrite Zs, andb_false_r. f_equal; [lia|]. unfold main. rewrite <- Hft. apply main_eq. exact (as_type _ _ _ A). }
  rewrite EF.
  destruct (bq_fix nom prec Fnm) as (Fn & Hn). change (x_fix DecOps (fdec nom) prec) with (x_fix K nom prec) in Fn, Hn.
  destruct (bq_fix s prec Fsm) as (Fs & Hs). change (x_fix DecOps (fdec s) prec) with (x_fix K s prec) in Fs, Hs.
  assert (NS : nom_suffix (K := K) s p prec main = fixed_suffix prec main) by (unfold nom_suffix; rewrite Zs, Is; reflexivity).
  assert (EFx : err_suffix (K := K) nom s p prec main = fixed_suffix prec main) by (unfold err_suffix; rewrite Zs, In; reflexivity).
  assert (Xn : x_sign K nom = Bsign nom) by (destruct nom; try discriminate Fnm; reflexivity).
  assert (Xs : x_sign K s = false) by (transitivity (Bsign s); [destruct s; try discriminate Fsm; reflexivity|exact Ssm]).
  assert (PN : forall w, 0 <= w -> exists t, py_format (K := K) U nom (prefix (p_sign p) p w ++ fixed_suffix prec main) = Ok t /\
     shown (p_sign p) (pads p) (commas p) w (Bsign nom) (x_fix K nom prec) (Z.to_nat prec) t).
  { intros w Hw. rewrite <- Xn. apply (py_fixed (K := K) U L nom (p_sign p) p s0 w prec main); try assumption; try lia. exact (as_sign _ _ _ A). }
  assert (PE : forall w, 0 <= w -> exists t, py_format (K := K) U s (prefix [] p w ++ fixed_suffix prec main) = Ok t /\
     shown [] (pads p) (commas p) w false (x_fix K s prec) (Z.to_nat prec) t).
  { intros w Hw. rewrite <- Xs. apply (py_fixed (K := K) U L s [] p s0 w prec main); try assumption; try lia. left. reflexivity. }
  assert (TOT : exists r, format_num (K := K) U nom s None p prec main (p_opts p) = Ok r).
  { apply format_num_total; [exact Hal| | | |].
    - intros X. exfalso. assert (Y := has_pct (p_opts p) false 83 ltac:(lia)). cbn iota in Y. congruence.
    - intros w Hw. rewrite NS. destruct (PN w Hw) as (t & Et & _). eauto.
    - intros _ w Hw. rewrite EFx. destruct (PE w Hw) as (t & Et & _). eauto.
    - rewrite <- (uval_val U _ (as_width _ _ _ A)). apply (uval_nonneg U L). exact (as_width _ _ _ A). }
  destruct TOT as (r & Er). rewrite Er. exists r, (x_fix K nom prec), (x_fix K s prec). split; [reflexivity|].
  constructor.
  - rewrite Z2Nat.id by lia. lia.
  - rewrite Z2Nat.id by lia. rewrite Z.sub_0_r. exact Hn.
  - rewrite Z2Nat.id by lia. rewrite Z.sub_0_r. eapply half_even_comp; [|exact Hs]. rewrite (Qabs_pos (bq s)) by lra. reflexivity.
  - destruct (format_num_laid_out (K := K) U L nom s None p s0 prec main false r A eq_refl Er) as (x & n0 & es & LO & Htxt).
    assert (LN : (if opt (p_opts p) 76 then latex_nom (K := K) nom n0 else n0) = n0)
      by (destruct (opt (p_opts p) 76); [|reflexivity]; unfold latex_nom; rewrite Nn1, Nn2; reflexivity).
    rewrite LN, Zs, In, Is in LO. rewrite NS, EFx in Htxt.
    exists x, n0, es. cbv zeta. rewrite Hpc. split; [exact LO|].
    rewrite Hsh in Htxt |- *. destruct Htxt as (T1 & e3 & Ee & T2).
    assert (LE : (if opt (p_opts p) 76 then latex_err (K := K) s e3 else e3) = e3)
      by (destruct (opt (p_opts p) 76); [|reflexivity]; unfold latex_err; rewrite Ns1, Ns2; reflexivity).
    rewrite LE in Ee. subst e3. rewrite Zs, Is in T2. rewrite In in T1. split.
    * destruct (PN (room U p (len x)) ltac:(unfold room; lia)) as (t & Et & Sh).
      assert (t = n0) by congruence. subst t. exact Sh.
    * destruct (PE (room U p (len x)) ltac:(unfold room; lia)) as (t & Et & Sh).
      assert (t = es) by (cbn [orb] in T2; congruence). subst t. exact Sh.
Qed.
