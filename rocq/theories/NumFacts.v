(** The binary64 operations of [NumF] have their mathematical meaning. *)
From Coq Require Import ZArith QArith Qreals List Bool Lia Reals Ratan Machin Lra.
From Flocq Require Import Core BinarySingleNaN Plus_error Relative.
From Verif Require Import Base HeapSpec NumF FFacts BinProofs.
Import ListNotations.
Local Open Scope R_scope.

Notation bp := (bpow radix2).
(** ** Values *)
Lemma exact_R : forall x : f64, is_finite x = true -> exists m e, fexact x = Some (m, e) /\
  B2R x = IZR m * bp e /\ (Z.abs m < 2 ^ 53)%Z /\ (-1074 <= e)%Z.
Proof.
  intros x F. destruct x as [g| | |g m e B]; try discriminate F.
  - exists 0%Z, 0%Z. split; [reflexivity|]. split; [simpl; lra|]. lia.
  - exists (cond_Zopp g (Zpos m)), e. split; [reflexivity|]. split; [reflexivity|].
    assert (B0 := B). unfold SpecFloat.bounded in B0. apply andb_true_iff in B0. destruct B0 as (B1 & B2). unfold SpecFloat.canonical_mantissa in B1. apply Zeq_bool_eq in B1.
    assert (D := Zpower_gt_Zdigits radix2 (Zdigits radix2 (Zpos m)) (Zpos m) (Z.le_refl _)).
    rewrite <- Digits.Zdigits2_Zdigits in D. change (Digits.Zdigits2 (Zpos m)) with (Zpos (Digits.digits2_pos m)) in D.
    unfold SpecFloat.fexp, SpecFloat.emin in B1. split.
    + rewrite abs_cond_Zopp. apply Z.lt_le_trans with (1 := D). apply Z.pow_le_mono_r; [reflexivity|]. lia.
    + lia.
Qed.
(** Numbers with at most 53 bits are floats. *)
Lemma format_small : forall m e, (Z.abs m < 2 ^ 53)%Z -> (-1074 <= e)%Z -> generic_format radix2 fexp64 (IZR m * bp e).
Proof.
  intros m e Hm He. change (IZR m * bp e) with (F2R (Float radix2 m e)). apply (generic_format_FLT radix2 (-1074) 53).
  exists (Float radix2 m e); [reflexivity| |exact He]. exact Hm.
Qed.
Lemma fnorm_exact : forall m e, m <> 0%Z -> (Z.abs m < 2 ^ 53)%Z -> (-1074 <= e <= 971)%Z ->
  B2R (fnorm m e) = IZR m * bp e /\ is_finite (fnorm m e) = true /\ Bsign (fnorm m e) = (m <? 0)%Z.
Proof.
  intros m e N Hm He. pose proof (fnorm_R m e N) as H. cbv zeta in H. change (F2R (Float radix2 m e)) with (IZR m * bp e) in H.
  rewrite (round_generic radix2 fexp64 ZnearestE (IZR m * bp e)) in H by (apply format_small; lia).
  rewrite Rlt_bool_true in H; [exact H|]. rewrite Rabs_mult, <- abs_IZR, (Rabs_pos_eq (bp e)) by apply bpow_ge_0.
  apply Rlt_le_trans with (bp 53 * bp e).
  - apply Rmult_lt_compat_r; [apply bpow_gt_0|]. change (bp 53) with (IZR (2 ^ 53)). apply IZR_lt. exact Hm.
  - rewrite <- bpow_plus. apply bpow_le. lia.
Qed.
Lemma exact_max : forall x : f64, is_finite x = true -> forall m e, fexact x = Some (m, e) -> (e <= 971)%Z.
Proof.
  intros x F m e E. destruct x as [g| | |g m' e' B]; try discriminate F; injection E as <- <-; [lia|].
  assert (B0 := B). unfold SpecFloat.bounded in B0. apply andb_true_iff in B0. destruct B0 as (_ & B0). apply Zle_bool_imp_le in B0. exact B0.
Qed.

(** ** Integers *)
Lemma bp_neg : forall e, (e < 0)%Z -> bp e = / IZR (2 ^ (- e)).
Proof. intros e H. replace e with (- - e)%Z at 1 by lia. rewrite bpow_opp, <- IZR_Zpower by lia. reflexivity. Qed.
Lemma bp_nonneg : forall e, (0 <= e)%Z -> bp e = IZR (2 ^ e).
Proof. intros e H. rewrite <- IZR_Zpower by lia. reflexivity. Qed.
Lemma int_iff : forall m e z, (e < 0)%Z -> (IZR m * bp e = IZR z <-> m = (z * 2 ^ (- e))%Z).
Proof.
  intros m e z H. rewrite bp_neg by exact H. assert (P : (0 < 2 ^ (- e))%Z) by (apply Z.pow_pos_nonneg; lia).
  assert (P' : IZR (2 ^ (- e)) <> 0) by (apply IZR_neq; lia). split.
  - intros E. apply eq_IZR. rewrite mult_IZR, <- E. field. exact P'.
  - intros ->. rewrite mult_IZR. field. exact P'.
Qed.
Theorem is_integral_spec : forall y : f64, is_finite y = true -> (is_integral y = true <-> exists z, B2R y = IZR z).
Proof.
  intros y F. destruct (exact_R y F) as (m & e & E & V & _). unfold is_integral. rewrite E, V.
  destruct (Z.leb_spec 0 e) as [L|L].
  - split; [intros _|reflexivity]. exists (m * 2 ^ e)%Z. rewrite bp_nonneg, mult_IZR by exact L. reflexivity.
  - assert (P : (0 < 2 ^ (- e))%Z) by (apply Z.pow_pos_nonneg; lia). rewrite Z.eqb_eq. split.
    + intros D. exists (m / 2 ^ (- e))%Z. apply int_iff; [exact L|]. rewrite Z.mul_comm. apply Z.div_exact; lia.
    + intros (z & Z). apply int_iff in Z; [|exact L]. rewrite Z. apply Z.mod_mul. lia.
Qed.
Theorem is_odd_spec : forall y : f64, is_finite y = true -> (is_odd_int y = true <-> exists z, B2R y = IZR (2 * z + 1)).
Proof.
  intros y F. destruct (exact_R y F) as (m & e & E & V & _). unfold is_odd_int. rewrite E, V.
  destruct (Z.ltb_spec 0 e) as [L|L].
  - split; [discriminate|]. intros (z & Z). exfalso. rewrite bp_nonneg in Z by lia. rewrite <- mult_IZR in Z. apply eq_IZR in Z.
    replace e with (1 + (e - 1))%Z in Z by lia. rewrite Z.pow_add_r in Z by lia. change (2 ^ 1)%Z with 2%Z in Z. lia.
  - destruct (Z.eqb_spec e 0) as [->|N].
    + rewrite Z.odd_spec. simpl bpow. split.
      * intros (z & ->). exists z. apply Rmult_1_r.
      * intros (z & Z). exists z. apply eq_IZR. rewrite Rmult_1_r in Z. exact Z.
    + assert (H : (e < 0)%Z) by lia. assert (P : (0 < 2 ^ (- e))%Z) by (apply Z.pow_pos_nonneg; lia).
      destruct (Z.eqb_spec (m mod 2 ^ (- e)) 0) as [D|D].
      * rewrite Z.odd_spec. apply Z.div_exact in D; [|lia]. split.
        -- intros (z & Z). exists z. apply int_iff; [exact H|]. rewrite <- Z. lia.
        -- intros (z & Z). exists z. apply int_iff in Z; [|exact H]. rewrite Z. apply Z.div_mul. lia.
      * split; [discriminate|]. intros (z & Z). exfalso. apply D. apply int_iff in Z; [|exact H]. rewrite Z. apply Z.mod_mul. lia.
Qed.

(** ** Remainders *)
Lemma scaled : forall m e e', (e' <= e)%Z -> IZR m * bp e = IZR (m * 2 ^ (e - e')) * bp e'.
Proof.
  intros m e e' H. rewrite mult_IZR, Rmult_assoc. f_equal. rewrite <- bp_nonneg by lia. rewrite <- bpow_plus. f_equal. lia.
Qed.
(** C's fmod: exact. *)
Lemma fmod_exact : forall x y : f64, is_finite x = true -> is_finite y = true -> B2R y <> 0 ->
  is_finite (fmodC x y) = true /\ B2R (fmodC x y) = B2R x - B2R y * IZR (Ztrunc (B2R x / B2R y)).
Proof.
  intros x y F G N. destruct (exact_R x F) as (mx & ex & Ex & Vx & Bx & Lx). destruct (exact_R y G) as (my & ey & Ey & Vy & By & Ly).
  assert (Mx := exact_max x F _ _ Ex). assert (My := exact_max y G _ _ Ey).
  unfold fmodC. rewrite Ex, Ey. destruct (Z.eqb_spec my 0) as [->|Ny]; [exfalso; apply N; rewrite Vy; lra|].
  set (e := Z.min ex ey). set (X := (mx * 2 ^ (ex - e))%Z). set (Y := (my * 2 ^ (ey - e))%Z).
  assert (Py : (0 < 2 ^ (ey - e))%Z) by (apply Z.pow_pos_nonneg; lia). assert (NY : Y <> 0%Z) by (unfold Y; nia).
  assert (P := bpow_gt_0 radix2 e).
  assert (Vx' : B2R x = IZR X * bp e) by (rewrite Vx; apply scaled; lia). assert (Vy' : B2R y = IZR Y * bp e) by (rewrite Vy; apply scaled; lia).
  assert (Q : B2R x / B2R y = IZR X / IZR Y) by (rewrite Vx', Vy'; field; split; [apply IZR_neq; exact NY|lra]).
  rewrite Q, Ztrunc_div by exact NY.
  assert (R : B2R x - B2R y * IZR (Z.quot X Y) = IZR (Z.rem X Y) * bp e).
  { rewrite Vx', Vy'. rewrite (Z.rem_eq X Y NY), minus_IZR, mult_IZR. ring. }
  rewrite R. cbv zeta. destruct (Z.eqb_spec (Z.rem X Y) 0) as [Z0|NZ].
  - rewrite Z0. split; [reflexivity|]. simpl. ring.
  - assert (B : (Z.abs (Z.rem X Y) < 2 ^ 53)%Z).
    { destruct (Z.le_gt_cases ex ey) as [L|L].
      - assert (X = mx) by (unfold X, e; rewrite Z.min_l, Z.sub_diag by lia; simpl; lia).
        apply Z.le_lt_trans with (Z.abs X); [|lia]. rewrite <- Z.rem_abs by exact NY. apply Z.rem_le; lia.
      - assert (Y = my) by (unfold Y, e; rewrite Z.min_r, Z.sub_diag by lia; simpl; lia).
        apply Z.lt_trans with (Z.abs Y); [|lia]. apply Z.rem_bound_abs. exact NY. }
    destruct (fnorm_exact (Z.rem X Y) e NZ B ltac:(lia)) as (A1 & A2 & _). split; [exact A2|exact A1].
Qed.
Lemma nonzero_R : forall x : f64, is_finite x = true -> nonzero x = negb (Req_bool (B2R x) 0).
Proof. intros x F. unfold nonzero. rewrite (Beqb_correct _ _ x f0 F eq_refl). reflexivity. Qed.
Lemma is_neg_R : forall x : f64, is_finite x = true -> is_neg x = Rlt_bool (B2R x) 0.
Proof. intros x F. unfold is_neg. rewrite (Bltb_correct _ _ x f0 F eq_refl). reflexivity. Qed.
Lemma trunc_frac : forall t, Zfloor t = if Rlt_bool t 0 then (if Req_bool (IZR (Ztrunc t)) t then Ztrunc t else Ztrunc t - 1)%Z else Ztrunc t.
Proof.
  intros t. destruct (Rlt_bool_spec t 0) as [L|L]; [|symmetry; apply Ztrunc_floor; exact L].
  rewrite Ztrunc_ceil by lra. destruct (Req_bool_spec (IZR (Zceil t)) t) as [E|E].
  - rewrite <- E at 1. apply Zfloor_IZR.
  - apply Zfloor_imp. rewrite minus_IZR, plus_IZR, minus_IZR. assert (A := Zceil_ub t). assert (B := Zceil_lb t). lra.
Qed.
(** x % y: correctly rounded. *)
Theorem mod_rounded : forall x y : f64, is_finite x = true -> is_finite y = true -> B2R y <> 0 ->
  exists r, f_mod x y = Ok r /\ is_finite r = true /\
    B2R r = rnd64 (B2R x - B2R y * IZR (Zfloor (B2R x / B2R y))).
Proof.
  intros x y F G N. destruct (fmod_exact x y F G N) as (Fm & Vm). unfold f_mod.
  rewrite (Beqb_correct _ _ y f0 G eq_refl). change (B2R f0) with 0. rewrite Req_bool_false by exact N.
  set (m := fmodC x y) in *. set (t := B2R x / B2R y) in *.
  assert (Ext : B2R x = B2R y * t) by (unfold t; field; exact N).
  assert (Hm : B2R m = B2R y * (t - IZR (Ztrunc t))) by (rewrite Vm; lra).
  rewrite nonzero_R by exact Fm. destruct (Req_bool_spec (B2R m) 0) as [Z0|NZ]; cbn [negb].
  - exists (fzero_s (sign_of y)). split; [reflexivity|]. split; [reflexivity|].
    assert (E : t = IZR (Ztrunc t)). { rewrite Hm in Z0. apply Rmult_integral in Z0. destruct Z0 as [Z0|Z0]; [contradiction|lra]. }
    assert (E2 : Zfloor t = Ztrunc t) by (rewrite E at 1; apply Zfloor_IZR). rewrite E2, <- E, Ext. replace (B2R y * t - B2R y * t) with 0 by ring.
    rewrite round_0 by apply valid_rnd_N. reflexivity.
  - rewrite !is_neg_R by assumption.
    assert (Hd : t - IZR (Ztrunc t) <> 0) by (intros Z; apply NZ; rewrite Hm, Z; ring).
    assert (Sg : if Rlt_bool t 0 then -1 < t - IZR (Ztrunc t) < 0 else 0 < t - IZR (Ztrunc t) < 1).
    { destruct (Rlt_bool_spec t 0) as [L|L].
      - rewrite Ztrunc_ceil in Hd |- * by lra. assert (A := Zceil_ub t). assert (B := Zceil_lb t). lra.
      - rewrite Ztrunc_floor in Hd |- * by exact L. assert (A := Zfloor_lb t). assert (B := Zfloor_ub t). lra. }
    rewrite (trunc_frac t). destruct (Rlt_bool_spec t 0) as [L|L].
    + (* different signs *)
      rewrite Req_bool_false by lra.
      assert (D : Bool.eqb (Rlt_bool (B2R y) 0) (Rlt_bool (B2R m) 0) = false).
      { rewrite Hm. destruct (Rlt_bool_spec (B2R y) 0) as [Y|Y]; [rewrite Rlt_bool_false by nra|rewrite Rlt_bool_true by nra]; reflexivity. }
      rewrite D. exists (fadd m y). split; [reflexivity|].
      assert (Sum : B2R m + B2R y = B2R x - B2R y * IZR (Ztrunc t - 1)) by (rewrite minus_IZR, Vm; ring).
      assert (Lt : Rabs (rnd64 (B2R m + B2R y)) < bpow radix2 1024).
      { apply Rle_lt_trans with (Rabs (B2R y)); [|apply abs_B2R_lt_emax].
        apply (abs_round_le_generic radix2 fexp64 ZnearestE); [apply generic_format_abs, generic_format_B2R|].
        replace (B2R m + B2R y) with (B2R y * (t - IZR (Ztrunc t) + 1)) by (rewrite Hm; ring). rewrite Rabs_mult.
        rewrite <- (Rmult_1_r (Rabs (B2R y))) at 2. apply Rmult_le_compat_l; [apply Rabs_pos|]. rewrite Rabs_pos_eq; lra. }
      pose proof (Bplus_correct 53 1024 prec_gt_0_64 prec_lt_emax_64 mode_NE m y Fm G) as C. fold (fadd m y) in C.
      change (round_mode mode_NE) with ZnearestE in C. rewrite Rlt_bool_true in C by exact Lt. destruct C as (C1 & C2 & _).
      split; [exact C2|]. rewrite C1, Sum. reflexivity.
    + assert (D : Bool.eqb (Rlt_bool (B2R y) 0) (Rlt_bool (B2R m) 0) = true).
      { rewrite Hm. destruct (Rlt_bool_spec (B2R y) 0) as [Y|Y]; [rewrite Rlt_bool_true by nra|rewrite Rlt_bool_false by nra]; reflexivity. }
      rewrite D. exists m. split; [reflexivity|]. split; [exact Fm|]. rewrite <- Vm. symmetry. apply round_generic; [apply valid_rnd_N|apply generic_format_B2R].
Qed.

(** ** Integer quotients *)
Lemma u53_small : 0 < u53 /\ u53 * 2 ^ 53 = 1.
Proof.
  unfold u53. split; [apply bpow_gt_0|]. change (bpow radix2 (-53)) with (/ IZR 9007199254740992). rewrite pow_IZR.
  change (2 ^ Z.of_nat 53)%Z with 9007199254740992%Z. apply Rinv_l. apply IZR_neq. discriminate.
Qed.
(** Sums have no underflow. *)
Lemma plus_rel : forall x y : f64, Rabs (rnd64 (B2R x + B2R y) - (B2R x + B2R y)) <= u53 * Rabs (B2R x + B2R y).
Proof.
  intros x y.
  destruct (FLT_plus_error_N_ex radix2 (-1074) 53 (fun z => negb (Z.even z)) (B2R x) (B2R y) (generic_format_B2R 53 1024 x) (generic_format_B2R 53 1024 y)) as (eps & E1 & E2).
  assert (U : u_ro radix2 53 = u53) by (change (u_ro radix2 53) with (/ 2 * / IZR 4503599627370496); change u53 with (/ IZR 9007199254740992); lra).
  rewrite U in E1. destruct u53_small as (U1 & _).
  assert (E3 : Rabs eps <= u53). { apply Rle_trans with (1 := E1). apply (Rmult_le_reg_r (1 + u53)); [lra|]. unfold Rdiv. rewrite Rmult_assoc, Rinv_l by lra. nra. }
  assert (E4 : rnd64 (B2R x + B2R y) = (B2R x + B2R y) * (1 + eps)) by exact E2. rewrite E4.
  replace ((B2R x + B2R y) * (1 + eps) - (B2R x + B2R y)) with (eps * (B2R x + B2R y)) by ring. rewrite Rabs_mult. apply Rmult_le_compat_r; [apply Rabs_pos|exact E3].
Qed.
Lemma sub_rel : forall x y z : f64, is_finite x = true -> is_finite y = true -> Rabs (B2R x - B2R y) <= Rabs (B2R z) ->
  is_finite (fsub x y) = true /\ B2R (fsub x y) = rnd64 (B2R x - B2R y) /\
  Rabs (B2R (fsub x y) - (B2R x - B2R y)) <= u53 * Rabs (B2R x - B2R y).
Proof.
  intros x y z F G H.
  assert (L : Rabs (rnd64 (B2R x - B2R y)) < bpow radix2 1024).
  { apply Rle_lt_trans with (Rabs (B2R z)); [|apply abs_B2R_lt_emax].
    apply (abs_round_le_generic radix2 fexp64 ZnearestE); [apply generic_format_abs, generic_format_B2R|exact H]. }
  pose proof (Bminus_correct 53 1024 prec_gt_0_64 prec_lt_emax_64 mode_NE x y F G) as C. fold (fsub x y) in C.
  change (round_mode mode_NE) with ZnearestE in C. rewrite Rlt_bool_true in C by exact L. destruct C as (C1 & C2 & _).
  split; [exact C2|]. split; [exact C1|]. rewrite C1. assert (X := plus_rel x (Bopp y)). rewrite B2R_Bopp in X. exact X.
Qed.
Lemma pow51 : 2 ^ 51 <= bp 1000.
Proof. replace (2 ^ 51) with (bp 51) by (rewrite bp_nonneg, pow_IZR by lia; reflexivity). apply bpow_le. lia. Qed.
Lemma one_R' : B2R fone = 1.
Proof. change (B2R fone) with (IZR 4503599627370496 * / IZR 4503599627370496). apply Rinv_r. apply IZR_neq. discriminate. Qed.
Lemma half_R : B2R fhalf = / 2.
Proof. change (B2R fhalf) with (IZR 4503599627370496 * / IZR 9007199254740992). lra. Qed.
(** Rounding to the nearest integer. *)
Lemma snap : forall (d : f64) k, is_finite d = true -> Rabs (B2R d) <= 2 ^ 51 -> Rabs (B2R d - IZR k) <= 0.4 ->
  let f := ffloor d in let r := if Bltb fhalf (fsub d f) then fadd f fone else f in is_finite r = true /\ B2R r = IZR k.
Proof.
  intros d k F L H f r. destruct u53_small as (U1 & U2). assert (U3 : u53 <= / 1000). { assert (1000 <= 2 ^ 53) by (rewrite pow_IZR; apply IZR_le; vm_compute; discriminate). nra. }
  apply Rabs_le_inv in H. apply Rabs_le_inv in L.
  destruct (Bnearbyint_correct 53 1024 prec_lt_emax_64 mode_DN d) as (V & Ff & _). fold (ffloor d) in V, Ff. fold f in V, Ff. rewrite F in Ff.
  assert (Vf : B2R f = IZR (Zfloor (B2R d))).
  { rewrite V. unfold round, F2R, scaled_mantissa, cexp, FIX_exp. simpl. rewrite !Rmult_1_r. reflexivity. }
  clear V. assert (B := pow51). assert (A1 := Zfloor_lb (B2R d)). assert (A2 := Zfloor_ub (B2R d)).
  destruct (sub_rel d f fone F Ff) as (Fs & _ & Es). { rewrite one_R', Rabs_R1, Vf, Rabs_pos_eq; lra. }
  rewrite Vf in Es. rewrite (Rabs_pos_eq (B2R d - IZR (Zfloor (B2R d)))) in Es by lra. apply Rabs_le_inv in Es.
  set (v := B2R d - IZR (Zfloor (B2R d))) in *. assert (Hv : 0 <= v < 1) by (unfold v; lra). assert (W : u53 * v <= / 1000) by nra. assert (W' : 0 <= u53 * v) by nra.
  unfold r. rewrite (Bltb_correct _ _ fhalf (fsub d f) eq_refl Fs), half_R.
  destruct (Rle_or_lt (IZR k) (B2R d)) as [C|C].
  - assert (K : Zfloor (B2R d) = k) by (apply Zfloor_imp; rewrite plus_IZR; lra). unfold v in *. rewrite K in *. rewrite Rlt_bool_false by lra. auto.
  - assert (K : Zfloor (B2R d) = (k - 1)%Z) by (apply Zfloor_imp; rewrite plus_IZR, minus_IZR; lra). unfold v in *. rewrite K, minus_IZR in *. rewrite Rlt_bool_true by lra.
    pose proof (Bplus_correct 53 1024 prec_gt_0_64 prec_lt_emax_64 mode_NE f fone Ff eq_refl) as Cc. fold (fadd f fone) in Cc.
    change (round_mode mode_NE) with ZnearestE in Cc. rewrite Vf, one_R' in Cc. replace (IZR k - 1 + 1) with (IZR k) in Cc by ring.
    assert (G : generic_format radix2 fexp64 (IZR k)).
    { replace (IZR k) with (IZR k * bp 0) by (simpl; ring). apply format_small; [|lia]. apply lt_IZR. rewrite abs_IZR.
      assert (2 ^ 51 + 1 < IZR (2 ^ 53)) by (rewrite pow_IZR, <- plus_IZR; apply IZR_lt; reflexivity). apply Rabs_lt. lra. }
    rewrite (round_generic radix2 fexp64 ZnearestE (IZR k) G) in Cc. rewrite Rlt_bool_true in Cc.
    + destruct Cc as (C1 & C2 & _). auto.
    + apply Rlt_trans with (bp 1001); [|apply bpow_lt; lia]. change 1001%Z with (1 + 1000)%Z. rewrite bpow_plus. simpl (bp 1). 
      assert (1 <= 2 ^ 51) by (apply pow_R1_Rle; lra). apply Rabs_lt. lra.
Qed.
Lemma rel_ok : forall v, bp (-1022) <= Rabs v -> Rabs (rnd64 v - v) <= u53 * Rabs v.
Proof.
  intros v H. pose proof (relative_error_N_FLT radix2 (-1074) 53 eq_refl (fun z => negb (Z.even z)) v H) as E.
  change (/ 2 * bpow radix2 (-53 + 1)) with (/ 2 * / IZR 4503599627370496) in E. change u53 with (/ IZR 9007199254740992).
  replace (/ IZR 9007199254740992) with (/ 2 * / IZR 4503599627370496) by lra. exact E.
Qed.
Definition p51 : f64 := fnorm 1 51.
Lemma p51_R : B2R p51 = 2 ^ 51.
Proof. destruct (fnorm_exact 1 51 ltac:(discriminate) ltac:(reflexivity) ltac:(lia)) as (A & _). unfold p51. rewrite A, Rmult_1_l, bp_nonneg, pow_IZR by lia. reflexivity. Qed.
(** x // y: the floor of the exact quotient, while floats of that size still hold quarters. *)
Theorem floordiv_exact : forall x y : f64, is_finite x = true -> is_finite y = true -> B2R y <> 0 -> Rabs (B2R x / B2R y) <= 2 ^ 50 ->
  exists r, f_floordiv x y = Ok r /\ is_finite r = true /\ B2R r = IZR (Zfloor (B2R x / B2R y)).
Proof.
  intros x y F G N L. destruct (fmod_exact x y F G N) as (Fm & Vm). unfold f_floordiv.
  rewrite (Beqb_correct _ _ y f0 G eq_refl). change (B2R f0) with 0. rewrite Req_bool_false by exact N.
  set (m := fmodC x y) in *. set (t := B2R x / B2R y) in *. set (q := Ztrunc t) in *.
  assert (Ext : B2R x = B2R y * t) by (unfold t; field; exact N).
  destruct u53_small as (U1 & U2). assert (P50 : 2 ^ 53 = 8 * 2 ^ 50) by ring. assert (P51 : 2 ^ 51 = 2 * 2 ^ 50) by ring.
  assert (B50 : 1000000 <= 2 ^ 50) by (rewrite pow_IZR; apply IZR_le; vm_compute; discriminate).
  rewrite P50 in U2. set (W := 2 ^ 50) in *. clearbody W.
  assert (Hq : Rabs (IZR q) <= Rabs t).
  { unfold q. destruct (Rle_or_lt 0 t) as [C|C].
    - rewrite Ztrunc_floor by exact C. rewrite !Rabs_pos_eq; [apply Zfloor_lb|exact C|apply IZR_le, Zfloor_lub; exact C].
    - rewrite Ztrunc_ceil by lra. rewrite !Rabs_left1; [assert (A := Zceil_ub t); lra|lra|apply IZR_le, Zceil_glb; simpl; lra]. }
  destruct (sub_rel x m x F Fm) as (Fs & Rs & Es).
  { rewrite Vm. replace (B2R x - (B2R x - B2R y * IZR q)) with (B2R y * IZR q) by ring. rewrite Ext, !Rabs_mult. apply Rmult_le_compat_l; [apply Rabs_pos|exact Hq]. }
  rewrite Vm in Rs, Es. replace (B2R x - (B2R x - B2R y * IZR q)) with (B2R y * IZR q) in Rs, Es by ring.
  set (s := fsub x m) in *.
  (* the quotient before rounding *)
  set (v := B2R s / B2R y).
  assert (Ev : Rabs (v - IZR q) <= u53 * Rabs (IZR q)).
  { assert (Py : 0 < Rabs (B2R y)) by (apply Rabs_pos_lt; exact N). apply (Rmult_le_reg_l (Rabs (B2R y))); [exact Py|].
    rewrite <- Rabs_mult. replace (B2R y * (v - IZR q)) with (B2R s - B2R y * IZR q) by (unfold v; field; exact N).
    apply Rle_trans with (1 := Es). rewrite Rabs_mult. lra. }
  assert (Er : Rabs (rnd64 v - v) <= u53 * Rabs v).
  { destruct (Z.eq_dec q 0) as [Q|Q].
    - rewrite Q, Rabs_R0, Rmult_0_r in Ev. assert (V0 : v = 0). { assert (A := Rabs_pos (v - 0)). assert (Z0 : Rabs (v - 0) = 0) by lra.
        destruct (Req_dec (v - 0) 0) as [E|E]; [lra|]. apply Rabs_pos_lt in E. lra. }
      rewrite V0, round_0 by apply valid_rnd_N. rewrite Rminus_0_r, Rabs_R0. lra.
    - apply rel_ok. assert (A : 1 <= Rabs (IZR q)) by (rewrite <- abs_IZR; apply IZR_le; lia).
      apply Rle_trans with (bp (-1)); [apply bpow_le; lia|]. change (bp (-1)) with (/ 2).
      assert (T := Rabs_triang_inv (IZR q) v). rewrite (Rabs_minus_sym (IZR q) v) in T. nra. }
  assert (T1 : Rabs v <= Rabs (IZR q) + u53 * Rabs (IZR q)).
  { assert (T := Rabs_triang (v - IZR q) (IZR q)). replace (v - IZR q + IZR q) with v in T by ring. lra. }
  assert (Uq : u53 * Rabs (IZR q) <= / 8) by nra. assert (Uv : u53 * Rabs v <= 0.126) by nra.
  assert (Hr : Rabs (rnd64 v - IZR q) <= 0.251).
  { replace (rnd64 v - IZR q) with ((rnd64 v - v) + (v - IZR q)) by ring. apply Rle_trans with (1 := Rabs_triang _ _). lra. }
  assert (Lr : Rabs (rnd64 v) <= W + 1).
  { assert (T := Rabs_triang (rnd64 v - IZR q) (IZR q)). replace (rnd64 v - IZR q + IZR q) with (rnd64 v) in T by ring. lra. }
  assert (BW : W + 1 < bp 1024).
  { apply Rle_lt_trans with (2 ^ 51); [lra|]. apply Rle_lt_trans with (1 := pow51). apply bpow_lt. lia. }
  pose proof (Bdiv_correct 53 1024 prec_gt_0_64 prec_lt_emax_64 mode_NE s y N) as C. fold (fdiv s y) in C.
  change (round_mode mode_NE) with ZnearestE in C. fold v in C. rewrite Rlt_bool_true in C by (apply Rle_lt_trans with (1 := Lr); exact BW).
  destruct C as (Rd & Fd & _). rewrite Fs in Fd. set (d0 := fdiv s y) in *.
  set (d := if nonzero m && negb (Bool.eqb (is_neg y) (is_neg m)) then fsub d0 fone else d0).
  assert (D : is_finite d = true /\ Rabs (B2R d) <= 2 * W /\ Rabs (B2R d - IZR (Zfloor t)) <= 0.4).
  { assert (Hm : B2R m = B2R y * (t - IZR q)) by (rewrite Vm; lra).
    assert (Cond : (nonzero m && negb (Bool.eqb (is_neg y) (is_neg m)) = true /\ Zfloor t = (q - 1)%Z) \/
                   (nonzero m && negb (Bool.eqb (is_neg y) (is_neg m)) = false /\ Zfloor t = q)).
    { rewrite nonzero_R, !is_neg_R by assumption. rewrite (trunc_frac t). fold q. destruct (Req_bool_spec (B2R m) 0) as [Z0|NZ].
      - right. split; [reflexivity|]. assert (E : IZR q = t). { rewrite Hm in Z0. apply Rmult_integral in Z0. destruct Z0 as [Z0|Z0]; [contradiction|lra]. }
        rewrite Req_bool_true by exact E. destruct (Rlt_bool t 0); reflexivity.
      - assert (Hd : t - IZR q <> 0) by (intros Z; apply NZ; rewrite Hm, Z; ring). rewrite Req_bool_false by lra. unfold q in *.
        destruct (Rlt_bool_spec t 0) as [Lt|Lt].
        + left. split; [|reflexivity]. rewrite Ztrunc_ceil in Hd, Hm by lra. assert (A := Zceil_ub t). assert (B := Zceil_lb t). rewrite Hm.
          destruct (Rlt_bool_spec (B2R y) 0) as [Y|Y]; [rewrite Rlt_bool_false by nra|rewrite Rlt_bool_true by nra]; reflexivity.
        + right. split; [|reflexivity]. rewrite Ztrunc_floor in Hd, Hm by lra. assert (A := Zfloor_lb t). assert (B := Zfloor_ub t). rewrite Hm.
          destruct (Rlt_bool_spec (B2R y) 0) as [Y|Y]; [rewrite Rlt_bool_true by nra|rewrite Rlt_bool_false by nra]; reflexivity. }
    unfold d. destruct Cond as [(K1 & K2)|(K1 & K2)]; rewrite K1, K2.
    - assert (T := Rabs_triang (B2R d0) (Ropp 1)). rewrite Rd in T. rewrite Rabs_Ropp, Rabs_R1 in T. fold (Rminus (rnd64 v) 1) in T.
      destruct (sub_rel d0 fone p51 Fd eq_refl) as (F1 & _ & E1).
      { rewrite one_R', Rd, p51_R, P51, (Rabs_pos_eq (2 * W)) by lra. lra. }
      rewrite one_R', Rd in E1. split; [exact F1|].
      assert (Uw : u53 * Rabs (rnd64 v - 1) <= 0.126) by nra. split.
      + replace (B2R (fsub d0 fone)) with ((B2R (fsub d0 fone) - (rnd64 v - 1)) + (rnd64 v - 1)) by ring. apply Rle_trans with (1 := Rabs_triang _ _). lra.
      + rewrite minus_IZR. replace (B2R (fsub d0 fone) - (IZR q - 1)) with ((B2R (fsub d0 fone) - (rnd64 v - 1)) + (rnd64 v - IZR q)) by ring.
        apply Rle_trans with (1 := Rabs_triang _ _). lra.
    - rewrite Rd. split; [exact Fd|]. split; lra. }
  destruct D as (D1 & D2 & D3). rewrite nonzero_R by exact D1. destruct (Req_bool_spec (B2R d) 0) as [Z0|NZ]; cbn [negb].
  - exists (fzero_s (sign_of (fdiv x y))). split; [reflexivity|]. split; [reflexivity|]. rewrite Z0, Rabs_minus_sym, Rminus_0_r, <- abs_IZR in D3.
    assert (K : (Z.abs (Zfloor t) < 1)%Z) by (apply lt_IZR; lra). replace (Zfloor t) with 0%Z by lia. reflexivity.
  - eexists. split; [reflexivity|]. apply snap; [exact D1| |exact D3]. rewrite P51. exact D2.
Qed.

(** ** Sums *)
Lemma norm_R : forall m e (r : f64), r = fnorm m e -> let v := IZR m * bp e in
  (is_inf r = false /\ is_finite r = true /\ B2R r = rnd64 v) \/ (is_inf r = true /\ bp 1024 <= Rabs (rnd64 v)).
Proof.
  intros m e r -> v. destruct (Z.eq_dec m 0) as [->|N].
  - left. unfold v. replace (0 * bp e) with 0 by ring. rewrite round_0 by apply valid_rnd_N. auto.
  - pose proof (fnorm_R m e N) as H. cbv zeta in H. change (F2R (Float radix2 m e)) with v in H.
    destruct (Rlt_bool_spec (Rabs (rnd64 v)) (bp 1024)) as [L|L].
    + left. destruct H as (H1 & H2 & _). split; [destruct (fnorm m e); try discriminate H2; reflexivity|auto].
    + right. rewrite H. auto.
Qed.
Lemma exact_sum_R : forall (l : list f64) m e, forallb (@is_finite 53 1024) l = true ->
  exists m' e', exact_sum l m e = Some (m', e') /\ IZR m' * bp e' = IZR m * bp e + Rsum (map B2R l).
Proof.
  induction l as [|x l IH]; intros m e F.
  - exists m, e. split; [reflexivity|]. simpl. ring.
  - cbn [forallb] in F. apply andb_true_iff in F. destruct F as (Fx & F). destruct (exact_R x Fx) as (mx & ex & E & V & _).
    cbn [exact_sum]. rewrite E. cbv zeta. destruct (IH (m * 2 ^ (e - Z.min e ex) + mx * 2 ^ (ex - Z.min e ex))%Z (Z.min e ex) F) as (m' & e' & A & B).
    exists m', e'. split; [exact A|]. rewrite B, plus_IZR, Rmult_plus_distr_r, <- !scaled by lia. rewrite <- V. cbn [map Rsum]. ring.
Qed.
(** math.fsum() of finite numbers: one rounding, in total. *)
Theorem fsum_rounded : forall l : list f64, forallb (@is_finite 53 1024) l = true -> let S := rnd64 (Rsum (map B2R l)) in
  (exists r, f_fsum l = Ok r /\ is_finite r = true /\ B2R r = S /\ Rabs S < bp 1024) \/ (f_fsum l = Err EOverflow /\ bp 1024 <= Rabs S).
Proof.
  intros l F S. destruct (exact_sum_R l 0 0 F) as (m & e & E & V). unfold f_fsum. rewrite E. cbv zeta.
  assert (VS : rnd64 (IZR m * bp e) = S) by (unfold S; f_equal; rewrite V; ring).
  destruct (norm_R m e _ eq_refl) as [(A & B & C)|(A & B)]; rewrite VS in *; rewrite A.
  - left. exists (fnorm m e). split; [reflexivity|]. split; [exact B|]. split; [exact C|]. rewrite <- C. apply abs_B2R_lt_emax.
  - right. auto.
Qed.

(** ** Fractional and integer parts, mantissas and exponents *)
Lemma trunc_scaled : forall m e, (e < 0)%Z -> Ztrunc (IZR m * bp e) = Z.quot m (2 ^ (- e)) /\
  IZR m * bp e - IZR (Z.quot m (2 ^ (- e))) = IZR (Z.rem m (2 ^ (- e))) * bp e.
Proof.
  intros m e H. assert (P : (0 < 2 ^ (- e))%Z) by (apply Z.pow_pos_nonneg; lia).
  assert (E : IZR m * bp e = IZR m / IZR (2 ^ (- e))) by (rewrite bp_neg by exact H; reflexivity).
  split; [rewrite E; apply Ztrunc_div; lia|]. rewrite Z.rem_eq, minus_IZR, mult_IZR, bp_neg by lia. field. apply IZR_neq. lia.
Qed.
Theorem modf_exact : forall x : f64, is_finite x = true ->
  is_finite (fst (f_modf x)) = true /\ is_finite (snd (f_modf x)) = true /\
  B2R (snd (f_modf x)) = IZR (Ztrunc (B2R x)) /\ B2R (fst (f_modf x)) = B2R x - IZR (Ztrunc (B2R x)) /\
  Bsign (fst (f_modf x)) = Bsign x /\ Bsign (snd (f_modf x)) = Bsign x.
Proof.
  intros x F. destruct (exact_R x F) as (m & e & E & V & Bm & Be).
  destruct (Bnearbyint_correct 53 1024 prec_lt_emax_64 mode_ZR x) as (Vi & Fi & Si). rewrite F in Fi.
  assert (Ni : is_nan (Bnearbyint mode_ZR x) = false) by (destruct (Bnearbyint mode_ZR x); try discriminate Fi; reflexivity). specialize (Si Ni).
  assert (Wi : B2R (Bnearbyint mode_ZR x) = IZR (Ztrunc (B2R x))).
  { rewrite Vi. unfold round, F2R, scaled_mantissa, cexp, FIX_exp. simpl. rewrite !Rmult_1_r. reflexivity. }
  destruct x as [s| | |s p q B]; try discriminate F.
  - cbn [f_modf fst snd]. change (B2R (B754_zero s)) with 0. rewrite Ztrunc_IZR. repeat split; try reflexivity. simpl. ring.
  - set (x := B754_finite s p q B) in *. unfold f_modf. fold x. cbv zeta. cbn [fst snd].
    set (i := Bnearbyint mode_ZR x) in *.
    assert (G : generic_format radix2 fexp64 (B2R x - B2R i)).
    { rewrite Wi, V. destruct (Z.le_gt_cases 0 e) as [L|L].
      - rewrite bp_nonneg, <- mult_IZR, Ztrunc_IZR by exact L. rewrite Rminus_diag_eq by reflexivity. apply generic_format_0.
      - destruct (trunc_scaled m e ltac:(lia)) as (T1 & T2). rewrite T1, T2. apply format_small; [|exact Be].
        assert (P : (0 < 2 ^ (- e))%Z) by (apply Z.pow_pos_nonneg; lia).
        apply Z.le_lt_trans with (2 := Bm). rewrite <- Z.rem_abs by lia. apply Z.rem_le; lia. }
    assert (Le : Rabs (B2R x - B2R i) <= Rabs (B2R x)).
    { rewrite Wi. destruct (Rle_or_lt 0 (B2R x)) as [C|C].
      - rewrite Ztrunc_floor by exact C. assert (A := Zfloor_lb (B2R x)). assert (A' : 0 <= IZR (Zfloor (B2R x))) by (apply IZR_le, Zfloor_lub; exact C).
        rewrite !Rabs_pos_eq; lra.
      - rewrite Ztrunc_ceil by lra. assert (A := Zceil_ub (B2R x)). assert (A' : IZR (Zceil (B2R x)) <= 0) by (apply IZR_le, Zceil_glb; apply Rlt_le; exact C).
        rewrite !Rabs_left1; lra. }
    destruct (sub_rel x i x F Fi Le) as (Fs & Rs & _). rewrite (round_generic radix2 fexp64 ZnearestE _ G) in Rs.
    rewrite (Beqb_correct _ _ (fsub x i) f0 Fs eq_refl), Rs, Wi. change (B2R f0) with 0.
    split. { destruct (Req_bool _ _); [reflexivity|exact Fs]. } split; [exact Fi|]. split; [exact Wi|].
    split. { destruct (Req_bool_spec (B2R x - IZR (Ztrunc (B2R x))) 0) as [Z0|Z0]; [simpl; symmetry; exact Z0|]. exact (eq_trans Rs (f_equal (fun z => B2R x - z) Wi)). }
    split; [|exact Si].
    destruct (Req_bool_spec (B2R x - IZR (Ztrunc (B2R x))) 0) as [Z0|Z0]; [reflexivity|].
    pose proof (Bminus_correct 53 1024 prec_gt_0_64 prec_lt_emax_64 mode_NE x i F Fi) as C. fold (fsub x i) in C.
    change (round_mode mode_NE) with ZnearestE in C. rewrite (round_generic radix2 fexp64 ZnearestE _ G) in C. rewrite Rlt_bool_true in C.
    2: { apply Rle_lt_trans with (1 := Le). apply abs_B2R_lt_emax. }
    destruct C as (_ & _ & C). apply (eq_trans C). rewrite Wi. change (Bsign x) with s.
    assert (Sx : if s then B2R x < 0 else 0 < B2R x).
    { unfold x, B2R, F2R. simpl Fnum. simpl Fexp. assert (P := bpow_gt_0 radix2 q). destruct s; simpl cond_Zopp.
      - assert (IZR (Zneg p) < 0) by (apply IZR_lt; reflexivity). nra.
      - assert (0 < IZR (Zpos p)) by (apply IZR_lt; reflexivity). nra. }
    clearbody x. destruct s.
    + rewrite Rcompare_Lt; [reflexivity|]. rewrite Ztrunc_ceil in * by lra. assert (A := Zceil_ub (B2R x)). lra.
    + rewrite Rcompare_Gt; [reflexivity|]. rewrite Ztrunc_floor in * by lra. assert (A := Zfloor_lb (B2R x)). lra.
Qed.
Theorem frexp_exact : forall x : f64, is_finite x = true ->
  is_finite (fst (f_frexp x)) = true /\ B2R x = B2R (fst (f_frexp x)) * bp (snd (f_frexp x)) /\
  (B2R x = 0 -> fst (f_frexp x) = x /\ snd (f_frexp x) = 0%Z) /\ (B2R x <> 0 -> / 2 <= Rabs (B2R (fst (f_frexp x))) < 1).
Proof.
  intros x F. destruct x as [s| | |s p q B]; try discriminate F.
  - cbn [f_frexp fst snd]. split; [reflexivity|]. split; [simpl; ring|]. split; [auto|]. intros N. exfalso. apply N. reflexivity.
  - set (x := B754_finite s p q B) in *. destruct (exact_R x F) as (m & e & E & V & Bm & Be). injection E as <- <-.
    assert (Ef : f_frexp x = (fnorm (cond_Zopp s (Zpos p)) (- (Z.log2 (Zpos p) + 1)), (q + (Z.log2 (Zpos p) + 1))%Z)) by reflexivity.
    rewrite Ef. cbn [fst snd].
    assert (A : Z.abs (cond_Zopp s (Zpos p)) = Zpos p) by (destruct s; reflexivity). set (m := cond_Zopp s (Zpos p)) in *.
    assert (L := Z.log2_spec (Zpos p) ltac:(reflexivity)). assert (L0 := Z.log2_nonneg (Zpos p)).
    assert (L1 : (Z.log2 (Zpos p) < 53)%Z) by (apply Z.log2_lt_pow2; lia). set (k := Z.log2 (Zpos p)) in *.
    destruct (fnorm_exact m (- (k + 1)) ltac:(lia) Bm ltac:(lia)) as (N1 & N2 & _).
    rewrite N1. split; [exact N2|]. split.
    { rewrite V, Rmult_assoc, <- bpow_plus. do 2 f_equal. lia. }
    assert (M : / 2 <= Rabs (IZR m * bp (- (k + 1))) < 1).
    { rewrite Rabs_mult, <- abs_IZR, A, (Rabs_pos_eq (bp _)) by apply bpow_ge_0. assert (Pk := bpow_gt_0 radix2 k).
      assert (Q : bp (- (k + 1)) = / (2 * bp k)). { rewrite bpow_opp. f_equal. rewrite Z.add_comm, bpow_plus. reflexivity. }
      rewrite Q. destruct L as (L2 & L3). unfold Z.succ in L3. rewrite Z.pow_add_r in L3 by lia. change (2 ^ 1)%Z with 2%Z in L3.
      assert (Zk : bp k = IZR (2 ^ k)) by (apply bp_nonneg; exact L0). apply IZR_le in L2. apply IZR_lt in L3. rewrite mult_IZR in L3. rewrite <- Zk in L2, L3.
      split.
      - apply (Rmult_le_reg_r (2 * bp k)); [lra|]. rewrite Rmult_assoc, Rinv_l by lra. lra.
      - apply (Rmult_lt_reg_r (2 * bp k)); [lra|]. rewrite Rmult_assoc, Rinv_l by lra. lra. }
    split; [|intros _; exact M]. intros Z0. exfalso. destruct M as (M & _). assert (Pq := bpow_gt_0 radix2 q).
    rewrite V in Z0. apply Rmult_integral in Z0. destruct Z0 as [Z0|Z0]; [|lra]. rewrite Z0, Rmult_0_l, Rabs_R0 in M. lra.
Qed.

(** math.ldexp(): x*2**i with one rounding, whatever the size of i. *)
Theorem ldexp_rounded : forall (x : f64) i, is_finite x = true -> let S := rnd64 (B2R x * bp i) in
  (exists r, f_ldexp x i = Ok r /\ is_finite r = true /\ B2R r = S /\ Bsign r = Bsign x /\ Rabs S < bp 1024) \/
  (f_ldexp x i = Err EOverflow /\ bp 1024 <= Rabs S).
Proof.
  intros x i F S. destruct x as [s| | |s p q B]; try discriminate F.
  - left. exists (B754_zero s). split; [reflexivity|]. split; [reflexivity|]. unfold S. change (B2R (B754_zero s)) with 0.
    rewrite Rmult_0_l, round_0 by apply valid_rnd_N. split; [reflexivity|]. split; [reflexivity|]. rewrite Rabs_R0. apply bpow_gt_0.
  - set (x := B754_finite s p q B) in *. destruct (exact_R x F) as (m & e & E & V & Bm & Be). assert (Me := exact_max x F _ _ E). injection E as <- <-.
    set (i' := Z.max (-3000) (Z.min 3000 i)).
    assert (Ef : f_ldexp x i = let r := fnorm (cond_Zopp s (Zpos p)) (q + i') in if is_inf r then Err EOverflow else Ok (if Beqb r f0 then fzero_s s else r)) by reflexivity.
    rewrite Ef. cbv zeta. assert (A : Z.abs (cond_Zopp s (Zpos p)) = Zpos p) by (destruct s; reflexivity). assert (Sm : (cond_Zopp s (Zpos p) <? 0)%Z = s) by (destruct s; reflexivity).
    set (m := cond_Zopp s (Zpos p)) in *. set (r := fnorm m (q + i')).
    assert (A1 : 1 <= Rabs (IZR m) < bp 53). { rewrite <- abs_IZR, bp_nonneg by lia. split; [apply IZR_le; lia|apply IZR_lt; lia]. }
    assert (Ax : forall j, Rabs (IZR m * bp j) = Rabs (IZR m) * bp j). { intros j. rewrite Rabs_mult, (Rabs_pos_eq (bp j)) by apply bpow_ge_0. reflexivity. }
    assert (Same : (S = rnd64 (IZR m * bp (q + i'))) \/ (bp 1024 <= Rabs S /\ bp 1024 <= Rabs (rnd64 (IZR m * bp (q + i'))))).
    { unfold S. rewrite V, Rmult_assoc, <- bpow_plus. destruct (Z.le_gt_cases i (-3000)) as [L1|L1]; [|destruct (Z.le_gt_cases 3000 i) as [L2|L2]].
      - left. replace i' with (-3000)%Z by lia.
        assert (Z0 : forall j, (j <= -2000)%Z -> rnd64 (IZR m * bp j) = 0).
        { intros j Hj. destruct (Req_dec (rnd64 (IZR m * bp j)) 0) as [Q|Q]; [exact Q|exfalso].
          assert (Hu : rnd64 (IZR m * bp j) = 0).
          { apply (round_N_small radix2 fexp64 (fun z => negb (Z.even z)) (IZR m * bp j) (mag radix2 (IZR m * bp j))).
            - destruct (mag radix2 (IZR m * bp j)) as (ee & He). simpl. apply He. intros Z0. assert (Y := Ax j). rewrite Z0, Rabs_R0 in Y. assert (Pj := bpow_gt_0 radix2 j). nra.
            - assert (Hm : (mag radix2 (IZR m * bp j) <= 53 + j)%Z).
              { apply mag_le_bpow; [|rewrite Ax, bpow_plus; apply Rmult_lt_compat_r; [apply bpow_gt_0|lra]].
                intros Z0. assert (Y := Ax j). rewrite Z0, Rabs_R0 in Y. assert (Pj := bpow_gt_0 radix2 j). nra. }
              rewrite fexp64_FLT. unfold FLT_exp. lia. }
          contradiction. }
        rewrite !Z0 by lia. reflexivity.
      - right. replace i' with 3000%Z by lia.
        assert (Big : forall j, (1024 <= j)%Z -> bp 1024 <= Rabs (rnd64 (IZR m * bp j))).
        { intros j Hj. apply (abs_round_ge_generic radix2 fexp64 ZnearestE).
          - apply generic_format_bpow. rewrite fexp64_FLT. unfold FLT_exp. lia.
          - rewrite Ax. apply Rle_trans with (1 * bp j); [rewrite Rmult_1_l; apply bpow_le; exact Hj|]. apply Rmult_le_compat_r; [apply bpow_ge_0|lra]. }
        split; apply Big; lia.
      - left. replace i' with i by lia. reflexivity. }
    destruct (norm_R m (q + i') r eq_refl) as [(N1 & N2 & N3)|(N1 & N2)]; rewrite N1.
    + left. assert (Lr := abs_B2R_lt_emax 53 1024 r). rewrite N3 in Lr. destruct Same as [Same|(_ & Same)]; [|exfalso; apply Rlt_not_le in Lr; contradiction].
      rewrite <- Same in N3, Lr. rewrite (Beqb_correct _ _ r f0 N2 eq_refl), N3. change (B2R f0) with 0.
      assert (Sr : Bsign r = s).
      { pose proof (fnorm_R m (q + i') ltac:(lia)) as H. cbv zeta in H. change (F2R (Float radix2 m (q + i'))) with (IZR m * bp (q + i')) in H.
        rewrite <- Same, Rlt_bool_true in H by exact Lr. destruct H as (_ & _ & H). unfold r. rewrite H. exact Sm. }
      eexists. split; [reflexivity|]. destruct (Req_bool_spec S 0) as [Z0|Z0].
      * split; [reflexivity|]. split; [symmetry; exact Z0|]. split; [reflexivity|exact Lr].
      * split; [exact N2|]. split; [exact N3|]. split; [exact Sr|exact Lr].
    + right. split; [reflexivity|]. destruct Same as [->|(Same & _)]; assumption.
Qed.

(** ** Powers of negative numbers *)
Lemma abs_abs : forall x : f64, fabs (fabs x) = fabs x.
Proof. intros []; reflexivity. Qed.
Lemma neg_shape : forall x : f64, is_finite x = true -> B2R x < 0 -> Bltb x f0 = true /\ Beqb x f0 = false /\ is_nanf x = false /\ is_inf x = false /\
  Bltb (fabs x) f0 = false /\ Beqb (fabs x) f0 = false /\ is_nanf (fabs x) = false /\ is_inf (fabs x) = false.
Proof.
  intros x F N. rewrite (Bltb_correct _ _ x f0 F eq_refl), (Beqb_correct _ _ x f0 F eq_refl).
  assert (Fa : is_finite (fabs x) = true) by (destruct x; try discriminate F; reflexivity).
  rewrite (Bltb_correct _ _ (fabs x) f0 Fa eq_refl), (Beqb_correct _ _ (fabs x) f0 Fa eq_refl).
  assert (Va : B2R (fabs x) = - B2R x) by (unfold fabs; rewrite B2R_Babs; apply Rabs_left; exact N). rewrite Va. change (B2R f0) with 0.
  rewrite Rlt_bool_true, Req_bool_false, Rlt_bool_false, Req_bool_false by lra. destruct x; try discriminate F; auto 10.
Qed.
Theorem pow_negative : forall lm (x y : f64), is_finite x = true -> is_finite y = true -> B2R x < 0 -> B2R y <> 0 ->
  (f_pow lm x y = Ok None <-> ~ exists z, B2R y = IZR z) /\
  (forall z, B2R y = IZR z -> f_pow lm x y = match f_pow lm (fabs x) y with
                                              | Ok (Some r) => Ok (Some (if Z.odd z then fneg r else r))
                                              | o => o
                                              end).
Proof.
  intros lm x y F G Nx Ny. destruct (neg_shape x F Nx) as (S1 & S2 & S3 & S4 & S5 & S6 & S7 & S8).
  assert (Y0 : Beqb y f0 = false) by (rewrite (Beqb_correct _ _ y f0 G eq_refl); apply Req_bool_false; exact Ny).
  assert (Y1 : is_nanf y = false) by (destruct y; try discriminate G; reflexivity).
  assert (Y2 : is_inf y = false) by (destruct y; try discriminate G; reflexivity).
  unfold f_pow. rewrite Y0, Y1, Y2, S1, S2, S3, S4, S5, S6, S7, S8, abs_abs. cbn [andb]. split.
  - rewrite <- (is_integral_spec y G). destruct (is_integral y); cbn [negb].
    + split; [|intros H; exfalso; apply H; reflexivity]. intros H. exfalso. destruct (Beqb (fabs x) fone); [discriminate H|]. destruct (is_inf (lm_pow lm (fabs x) y)); discriminate H.
    + split; [discriminate|reflexivity].
  - intros z Hz. assert (I : is_integral y = true) by (apply is_integral_spec; [exact G|exists z; exact Hz]). rewrite I. cbn [negb].
    assert (O : is_odd_int y = Z.odd z).
    { destruct (is_odd_int y) eqn:O.
      - apply is_odd_spec in O; [|exact G]. destruct O as (w & O). rewrite Hz in O. apply eq_IZR in O. rewrite O, Z.add_comm, Z.odd_add_mul_2. reflexivity.
      - destruct (Z.odd z) eqn:Q; [|reflexivity]. exfalso. apply Z.odd_spec in Q. destruct Q as (w & Q).
        assert (T : is_odd_int y = true) by (apply is_odd_spec; [exact G|exists w; rewrite Hz, Q; reflexivity]). congruence. }
    rewrite O. destruct (Beqb (fabs x) fone); [destruct (Z.odd z); reflexivity|]. destruct (is_inf (lm_pow lm (fabs x) y)); [reflexivity|]. destruct (Z.odd z); reflexivity.
Qed.

(** ** Constants *)
Fixpoint qpow (q : Q) (n : nat) : Q := match n with O => 1%Q | S k => Qred (q * qpow q k)%Q end.
Definition qterm (n : nat) : Q := (qpow (-1 # 1) n * (((2 # 1) * qpow (1 # 3) (2 * n + 1) + qpow (1 # 7) (2 * n + 1)) * / (Z.of_nat (2 * n + 1) # 1)))%Q.
Fixpoint qsum (n : nat) : Q := match n with O => qterm 0 | S k => Qred (qsum k + qterm n)%Q end.
Lemma qpow_R : forall q n, Q2R (qpow q n) = (Q2R q ^ n)%R.
Proof. intros q n. induction n as [|n IH]; [unfold Q2R; simpl; lra|]. cbn [qpow pow]. rewrite (Qeq_eqR _ _ (Qred_correct _)), Q2R_mult, IH. reflexivity. Qed.
Lemma qterm_R : forall n, Q2R (qterm n) = tg_alt PI_2_3_7_tg n.
Proof.
  intros n. unfold qterm, tg_alt, PI_2_3_7_tg, Ratan_seq. rewrite !Q2R_mult, Q2R_plus, Q2R_mult, !qpow_R, Q2R_inv.
  2: { intros H. unfold Qeq in H. simpl in H. lia. }
  assert (E : Q2R (Z.of_nat (2 * n + 1) # 1) = INR (2 * n + 1)) by (unfold Q2R; cbn [Qnum Qden]; rewrite <- INR_IZR_INZ; lra).
  rewrite E. replace (Q2R (-1 # 1)) with (-1)%R by (unfold Q2R; simpl; lra). replace (Q2R (2 # 1)) with 2%R by (unfold Q2R; simpl; lra).
  replace (Q2R (1 # 3)) with (/ 3)%R by (unfold Q2R; simpl; lra). replace (Q2R (1 # 7)) with (/ 7)%R by (unfold Q2R; simpl; lra).
  unfold Rdiv. ring.
Qed.
Lemma qsum_R : forall n, Q2R (qsum n) = sum_f_R0 (tg_alt PI_2_3_7_tg) n.
Proof. induction n as [|n IH]; [apply qterm_R|]. cbn [qsum sum_f_R0]. rewrite (Qeq_eqR _ _ (Qred_correct _)), Q2R_plus, IH, qterm_R. reflexivity. Qed.
Lemma PI_close : (IZR 884279719003555 * / IZR (2 ^ 48) - / IZR (2 ^ 52) < PI < IZR 884279719003555 * / IZR (2 ^ 48) + / IZR (2 ^ 52))%R.
Proof.
  destruct (PI_2_3_7_ineq 10) as (A & B). rewrite <- !qsum_R in *.
  assert (A' : (Q2R ((884279719003555 # 2 ^ 48) - (1 # 2 ^ 52)) < Q2R ((4 # 1) * qsum (S (2 * 10))))%R) by (apply Qlt_Rlt; vm_compute; reflexivity).
  assert (B' : (Q2R ((4 # 1) * qsum (2 * 10)) < Q2R ((884279719003555 # 2 ^ 48) + (1 # 2 ^ 52)))%R) by (apply Qlt_Rlt; vm_compute; reflexivity).
  rewrite Q2R_mult in A', B'. rewrite Q2R_plus in B'. rewrite Q2R_minus in A'.
  replace (Q2R (4 # 1)) with 4%R in * by (unfold Q2R; simpl; lra).
  change (Q2R (884279719003555 # 2 ^ 48)) with (IZR 884279719003555 * / IZR (2 ^ 48))%R in *.
  assert (E : Q2R (1 # 2 ^ 52) = (/ IZR (2 ^ 52))%R) by (unfold Q2R; cbn [Qnum Qden]; change (Z.pos (2 ^ 52)) with (2 ^ 52)%Z; lra). rewrite E in *.
  set (s1 := Q2R (qsum (S (2 * 10)))) in *. set (s2 := Q2R (qsum (2 * 10))) in *. clearbody s1 s2. lra.
Qed.

Lemma fpi_R : B2R fpi = IZR 884279719003555 * / IZR (2 ^ 48).
Proof. destruct (fnorm_exact 884279719003555 (-48) ltac:(discriminate) ltac:(reflexivity) ltac:(lia)) as (A & _). unfold fpi. rewrite A. reflexivity. Qed.
Theorem pi_rounded : B2R fpi = rnd64 PI.
Proof.
  destruct PI_close as (A & B). rewrite <- fpi_R in A, B.
  assert (G : generic_format radix2 fexp64 (B2R fpi)) by apply generic_format_B2R.
  assert (M : mag radix2 (B2R fpi) = 2%Z :> Z).
  { apply mag_unique. rewrite fpi_R. change (bpow radix2 (2 - 1)) with 2. change (bpow radix2 2) with 4. change (IZR (2 ^ 48)) with (IZR 281474976710656). rewrite Rabs_pos_eq by lra. lra. }
  assert (P : 0 < B2R fpi) by (rewrite fpi_R; change (IZR (2 ^ 48)) with (IZR 281474976710656); lra).
  assert (U : ulp radix2 fexp64 (B2R fpi) = 2 * / IZR (2 ^ 52)).
  { rewrite ulp_neq_0 by lra. unfold cexp. rewrite M. change (bpow radix2 (fexp64 2)) with (/ IZR 2251799813685248). change (IZR (2 ^ 52)) with (IZR 4503599627370496). lra. }
  assert (Vx : Valid_exp fexp64) by (apply (fexp_correct 53 1024); reflexivity).
  apply Rle_antisym.
  - apply round_N_ge_midp; [exact Vx|exact G|].
    assert (Pd : pred radix2 fexp64 (B2R fpi) <= B2R fpi - ulp radix2 fexp64 (B2R fpi)).
    { rewrite pred_eq_pos by lra. unfold pred_pos. rewrite M. change (bpow radix2 (2 - 1)) with 2. rewrite Req_bool_false; [lra|].
      rewrite fpi_R. change (IZR (2 ^ 48)) with (IZR 281474976710656). lra. }
    rewrite U in Pd. lra.
  - apply round_N_le_midp; [exact Vx|exact G|]. rewrite succ_eq_pos, U by lra. lra.
Qed.
Theorem constants_R : forall lm, @B2R 53 1024 (n_zero (FOps lm)) = 0 /\ @B2R 53 1024 (n_one (FOps lm)) = 1 /\ @B2R 53 1024 (n_half (FOps lm)) = / 2 /\ @B2R 53 1024 (n_two (FOps lm)) = 2 /\
  @B2R 53 1024 (n_ten (FOps lm)) = 10 /\ @B2R 53 1024 (n_step (FOps lm)) = / 2 ^ 26 /\ @B2R 53 1024 (n_pi (FOps lm)) = rnd64 PI.
Proof.
  intros lm. assert (V : forall m e, (m <> 0)%Z -> (Z.abs m < 2 ^ 53)%Z -> (-1074 <= e <= 971)%Z -> B2R (fnorm m e) = IZR m * bp e).
  { intros m e N Hm He. apply (fnorm_exact m e N Hm He). }
  split; [reflexivity|]. split; [exact one_R'|]. split; [exact half_R|].
  split. { change (B2R (fnorm 2 0) = 2). rewrite V by lia. simpl. lra. }
  split. { change (B2R (fnorm 10 0) = 10). rewrite V by lia. simpl. lra. }
  split. { change (B2R (fnorm 1 (-26)) = / 2 ^ 26). rewrite V by lia. change (bp (-26)) with (/ IZR 67108864). rewrite (pow_IZR 2 26). change (2 ^ Z.of_nat 26)%Z with 67108864%Z. lra. }
  exact pi_rounded.
Qed.
