(** Binary64 numbers and decimal numbers: the conversions are correctly rounded. *)
From Coq Require Import ZArith List Bool Lia QArith Qabs Qreals Reals Lra.
From Flocq Require Import Core BinarySingleNaN Round_odd Relative.
From Verif Require Import Base Str NumF FmtOps FmtF FmtSpec DecProofs.
Import ListNotations.
Local Open Scope R_scope.

Notation fexp64 := (SpecFloat.fexp 53 1024).
Notation rnd64 := (round radix2 fexp64 ZnearestE).

Lemma fexp64_FLT : forall e, fexp64 e = FLT_exp (-1074) 53 e.
Proof. intros. reflexivity. Qed.

(** ** Values *)
(** The value of a float, as a rational number. *)
Definition bq (x : f64) : Q := dq (fdec x).
Lemma Q2R_Z : forall z, Q2R (inject_Z z) = IZR z.
Proof. intros. unfold Q2R. simpl. field. Qed.
Definition r10 (k : Z) : R := Q2R (p10 k).
Lemma r10_add : forall a b, r10 (a + b) = r10 a * r10 b.
Proof. intros. unfold r10. rewrite <- Q2R_mult. apply Qeq_eqR, p10_add. Qed.
Lemma r10_pos : forall k, 0 < r10 k.
Proof. intros. unfold r10. replace 0 with (Q2R 0) by (unfold Q2R; simpl; field). apply Qlt_Rlt, p10_pos. Qed.
Lemma r10_Z : forall n, (0 <= n)%Z -> r10 n = IZR (10 ^ n).
Proof. intros. unfold r10. rewrite <- Q2R_Z. apply Qeq_eqR, p10_Z. assumption. Qed.
Lemma r10_0 : r10 0 = 1. Proof. rewrite r10_Z by lia. reflexivity. Qed.
Lemma r10_inv : forall k, r10 (- k) = / r10 k.
Proof.
  intros. assert (P := r10_pos k). apply (Rmult_eq_reg_l (r10 k)); [|lra].
  rewrite <- r10_add. replace (k + - k)%Z with 0%Z by lia. rewrite r10_0. field. lra.
Qed.

Lemma fdec_finite : forall x : f64, is_finite x = true -> exists m e, fdec x = DNum (Bsign x) m e /\ (0 <= m)%Z /\
  Q2R (inject_Z m * p10 e) = Rabs (B2R x) /\ Q2R (bq x) = B2R x.
Proof.
  intros [s|s| |s m e H] F; try discriminate.
  - exists 0%Z, 0%Z. split; [reflexivity|]. split; [lia|].
    assert (E : Q2R (inject_Z 0 * p10 0) = 0) by (rewrite Q2R_mult, Q2R_Z; lra).
    unfold bq, fdec, dq, B2R. rewrite Rabs_R0. split; [exact E|]. destruct s; [rewrite Q2R_opp, E; lra|exact E].
  - assert (V : exists M E, fdec (B754_finite s m e H) = DNum s M E /\ (0 < M)%Z /\
       Q2R (inject_Z M * p10 E) = F2R (Float radix2 (Zpos m) e)).
    { unfold fdec. destruct (Z.leb_spec 0 e) as [L|L].
      - exists (Zpos m * 2 ^ e)%Z, 0%Z. split; [reflexivity|]. assert (0 < 2 ^ e)%Z by (apply Z.pow_pos_nonneg; lia). split; [lia|].
        rewrite Q2R_mult, Q2R_Z. fold (r10 0). rewrite r10_0, Rmult_1_r, mult_IZR. unfold F2R, Fnum, Fexp.
        f_equal. rewrite <- (IZR_Zpower radix2 e L). reflexivity.
      - exists (Zpos m * 5 ^ (- e))%Z, e. split; [reflexivity|]. assert (0 < 5 ^ (- e))%Z by (apply Z.pow_pos_nonneg; lia). split; [lia|].
        rewrite Q2R_mult, Q2R_Z. fold (r10 e). unfold F2R, Fnum, Fexp. rewrite mult_IZR, Rmult_assoc. f_equal.
        replace (r10 e) with (/ r10 (- e)) by (rewrite r10_inv; rewrite Rinv_inv; reflexivity).
        rewrite r10_Z by lia. replace (bpow radix2 e) with (/ bpow radix2 (- e)) by (rewrite bpow_opp, Rinv_inv; reflexivity).
        rewrite <- (IZR_Zpower radix2 (- e)) by lia. change (Zpower radix2 (- e)) with (2 ^ (- e))%Z.
        replace (10 ^ (- e))%Z with (2 ^ (- e) * 5 ^ (- e))%Z by (rewrite <- Z.pow_mul_l; reflexivity).
        assert (0 < 2 ^ (- e))%Z by (apply Z.pow_pos_nonneg; lia).
        rewrite mult_IZR. field. split; apply IZR_neq; lia. }
    destruct V as (M & E & E1 & HM & V). exists M, E. split; [exact E1|]. split; [lia|].
    assert (P : 0 < F2R (Float radix2 (Zpos m) e)) by (apply F2R_gt_0; reflexivity).
    unfold bq. rewrite E1. unfold dq, B2R. destruct s; simpl cond_Zopp.
    + rewrite Q2R_opp, V.
      assert (EO : F2R {| Fnum := Zneg m; Fexp := e |} = - F2R (Float radix2 (Zpos m) e)) by exact (F2R_Zopp radix2 (Zpos m) e).
      rewrite EO.
      rewrite Rabs_Ropp, Rabs_pos_eq by lra. split; reflexivity.
    + rewrite V, Rabs_pos_eq by lra. split; reflexivity.
Qed.
Lemma bq_R : forall x : f64, is_finite x = true -> Q2R (bq x) = B2R x.
Proof. intros x F. destruct (fdec_finite x F) as (m & e & _ & _ & _ & E). exact E. Qed.

(** ** Ratios of integers *)
Lemma fnorm_R : forall m e, m <> 0%Z ->
  let v := F2R (Float radix2 m e) in
  if Rlt_bool (Rabs (rnd64 v)) (bpow radix2 1024)
  then B2R (fnorm m e) = rnd64 v /\ is_finite (fnorm m e) = true /\ Bsign (fnorm m e) = (m <? 0)%Z
  else fnorm m e = B754_infinity (m <? 0)%Z.
Proof.
  intros m e Hm v. unfold fnorm.
  pose proof (binary_normalize_correct 53 1024 prec_gt_0_64 prec_lt_emax_64 mode_NE m e false) as H. cbv zeta in H. fold v in H.
  change (round_mode mode_NE) with ZnearestE in H.
  assert (C : Rcompare v 0 = (m ?= 0)%Z).
  { unfold v, F2R. simpl. assert (P := bpow_gt_0 radix2 e). destruct (Z.compare_spec m 0) as [G|G|G]; [contradiction| |].
    - apply Rcompare_Lt. apply IZR_lt in G. nra.
    - apply Rcompare_Gt. apply IZR_lt in G. nra. }
  destruct (Rlt_bool _ _).
  - destruct H as (H1 & H2 & H3). split; [exact H1|]. split; [exact H2|]. rewrite H3, C. unfold Z.ltb. destruct (m ?= 0)%Z eqn:E; [|reflexivity..].
    apply Z.compare_eq in E. contradiction.
  - assert (S : Rlt_bool v 0 = (m <? 0)%Z).
    { unfold Rlt_bool, Z.ltb. rewrite C. reflexivity. }
    rewrite S in H. apply B2SF_inj. exact H.
Qed.

Lemma rnd_odd_half : forall n b, (0 < b)%Z -> (n mod b <> 0)%Z ->
  Zrnd_odd (2 * (IZR n / IZR b)) = (2 * (n / b) + 1)%Z.
Proof.
  intros n b Hb Hm. unfold Zrnd_odd. set (q := (n / b)%Z).
  assert (A := Z.div_mod n b ltac:(lia)). fold q in A. assert (B := Z.mod_pos_bound n b Hb). set (r := (n mod b)%Z) in *.
  assert (Pb : 0 < IZR b) by (apply IZR_lt; exact Hb).
  assert (E : 2 * (IZR n / IZR b) = IZR (2 * q) + 2 * IZR r / IZR b).
  { rewrite A, plus_IZR, !mult_IZR. field. lra. }
  assert (F : 0 < 2 * IZR r / IZR b < 2).
  { assert (0 < IZR r < IZR b) by (split; apply IZR_lt; lia). split.
    - apply Rdiv_lt_0_compat; lra.
    - apply (Rmult_lt_reg_r (IZR b)); [lra|]. unfold Rdiv. rewrite Rmult_assoc, Rinv_l by lra. lra. }
  set (f := 2 * IZR r / IZR b) in *.
  destruct (Rlt_or_le f 1) as [G|G].
  - assert (Fl : Zfloor (2 * (IZR n / IZR b)) = (2 * q)%Z).
    { apply Zfloor_imp. rewrite E, plus_IZR. simpl (IZR 1). lra. }
    rewrite Fl. destruct (Req_EM_T _ _) as [X|X]; [exfalso; lra|]. rewrite Z.even_mul. simpl orb. cbv iota.
    rewrite Zceil_floor_neq by (rewrite Fl; lra). rewrite Fl. lia.
  - assert (Fl : Zfloor (2 * (IZR n / IZR b)) = (2 * q + 1)%Z).
    { apply Zfloor_imp. rewrite E, !plus_IZR. simpl (IZR 1). lra. }
    rewrite Fl. destruct (Req_EM_T _ _) as [X|X]; [reflexivity|].
    replace (2 * q + 1)%Z with (1 + 2 * q)%Z by lia. rewrite Z.even_add_mul_2. reflexivity.
Qed.

(** Enough quotient bits, and a sticky bit: the result is correctly rounded. *)
Lemma fratio_R : forall a b, a <> 0%Z -> (0 < b)%Z ->
  let v := IZR a / IZR b in
  if Rlt_bool (Rabs (rnd64 v)) (bpow radix2 1024)
  then B2R (fratio a b) = rnd64 v /\ is_finite (fratio a b) = true /\ Bsign (fratio a b) = (a <? 0)%Z
  else fratio a b = B754_infinity (a <? 0)%Z.
Proof.
  intros a b Ha Hb v. unfold fratio. cbv zeta.
  set (k := Z.max 0 (70 + Z.log2 b - Z.log2 (Z.abs a))). set (n := (Z.abs a * 2 ^ k)%Z). set (q := (n / b)%Z).
  set (s := if (n mod b =? 0)%Z then (2 * q)%Z else (2 * q + 1)%Z).
  assert (Hk : (0 <= k)%Z) by (unfold k; lia).
  assert (P2 : (0 < 2 ^ k)%Z) by (apply Z.pow_pos_nonneg; lia).
  assert (Hn : (0 < n)%Z) by (unfold n; nia).
  (* the quotient has at least 69 bits *)
  assert (Hq : (2 ^ 69 <= q)%Z).
  { unfold q. apply Z.div_le_lower_bound; [exact Hb|].
    destruct (Z.log2_spec b Hb) as (_ & B2). destruct (Z.log2_spec (Z.abs a) ltac:(lia)) as (A1 & _).
    set (lb := Z.log2 b) in *. set (la := Z.log2 (Z.abs a)) in *. assert (0 <= lb)%Z by apply Z.log2_nonneg. assert (0 <= la)%Z by apply Z.log2_nonneg.
    assert (X : (2 ^ (lb + 70) <= n)%Z).
    { unfold n. apply Z.le_trans with (2 ^ (la + k))%Z; [apply Z.pow_le_mono_r; unfold k; lia|].
      rewrite Z.pow_add_r by lia. apply Z.mul_le_mono_nonneg_r; lia. }
    assert (Y : (2 ^ (lb + 70) = 2 ^ Z.succ lb * 2 ^ 69)%Z) by (rewrite <- Z.pow_add_r by lia; f_equal; lia).
    assert (0 < 2 ^ 69)%Z by reflexivity. nia. }
  assert (Hs : (0 < s)%Z) by (unfold s; destruct (_ =? _)%Z; lia).
  assert (Pb : 0 < IZR b) by (apply IZR_lt; exact Hb).
  assert (Ev : Rabs v = IZR n / IZR b * bpow radix2 (- k)).
  { unfold v, Rdiv. rewrite Rabs_mult, Rabs_inv, (Rabs_pos_eq (IZR b)) by lra. rewrite <- abs_IZR. unfold n. rewrite mult_IZR.
    rewrite bpow_opp, <- (IZR_Zpower radix2 k) by exact Hk. change (Zpower radix2 k) with (2 ^ k)%Z. field. split; apply IZR_neq; lia. }
  (* the approximation is rounded to odd *)
  assert (R : rnd64 (F2R (Float radix2 s (- k - 1))) = rnd64 (Rabs v)).
  { destruct (Z.eqb_spec (n mod b) 0) as [E0|N0].
    - f_equal. rewrite Ev. unfold s.
      assert (A := Z.div_mod n b ltac:(lia)). rewrite E0 in A. fold q in A. rewrite Z.add_0_r in A.
      unfold F2R, Fnum, Fexp. rewrite A. rewrite !mult_IZR. replace (- k - 1)%Z with (-1 + - k)%Z by lia. rewrite bpow_plus.
      change (bpow radix2 (-1)) with (/ 2). field. lra.
    - assert (M : (70 - k <= mag radix2 (Rabs v))%Z).
      { apply mag_ge_bpow. rewrite Rabs_Rabsolu, Ev. replace (70 - k - 1)%Z with (69 + - k)%Z by lia. rewrite bpow_plus.
        apply Rmult_le_compat_r; [apply bpow_ge_0|]. change (bpow radix2 69) with (IZR (2 ^ 69)).
        apply (Rmult_le_reg_r (IZR b)); [lra|]. unfold Rdiv. rewrite Rmult_assoc, Rinv_l, Rmult_1_r by lra.
        rewrite <- mult_IZR. apply IZR_le. assert (A := Z.mul_div_le n b Hb). fold q in A. nia. }
      set (mg := (mag radix2 (Rabs v) : Z)) in *.
      set (pe := (mg + k + 1)%Z). set (em := Z.min (-1076) (- k - 1)).
      assert (Ppe : Prec_gt_0 pe) by (unfold Prec_gt_0, pe; lia).
      assert (O : round radix2 (FLT_exp em pe) Zrnd_odd (Rabs v) = F2R (Float radix2 s (- k - 1))).
      { unfold round, scaled_mantissa, cexp. fold mg. assert (Ec : FLT_exp em pe mg = (- k - 1)%Z) by (unfold FLT_exp, pe, em; lia).
        rewrite Ec. unfold F2R, Fnum, Fexp. f_equal. f_equal. unfold s.
        etransitivity; [|exact (rnd_odd_half n b Hb N0)]. f_equal. rewrite Ev. replace (- (- k - 1))%Z with (1 + k)%Z by lia.
        rewrite bpow_plus, bpow_opp. change (bpow radix2 1) with 2. assert (P := bpow_gt_0 radix2 k). field. split; lra. }
      rewrite <- O. apply (round_N_odd radix2 eq_refl fexp64 (FLT_exp em pe)); try typeclasses eauto.
      + apply (exists_NE_FLT radix2 (-1074) 53). right. lia.
      + apply exists_NE_FLT. right. unfold pe. lia.
      + intros e. change (fexp64 e) with (FLT_exp (-1074) 53 e). unfold FLT_exp, pe, em. lia. }
  assert (Sg : forall z : Z, z <> 0%Z -> (if (a <? 0)%Z then - z else z)%Z <> 0%Z) by (intros z Hz; destruct (a <? 0)%Z; lia).
  set (s' := if (a <? 0)%Z then (- s)%Z else s).
  assert (R' : rnd64 (F2R (Float radix2 s' (- k - 1))) = rnd64 v).
  { unfold s'. destruct (Z.ltb_spec a 0) as [L|L].
    - rewrite F2R_Zopp, round_NE_opp, R, <- round_NE_opp. f_equal.
      rewrite Rabs_left; [ring|]. unfold v. apply IZR_lt in L. apply (Rmult_lt_reg_r (IZR b)); [lra|].
      unfold Rdiv. rewrite Rmult_assoc, Rinv_l by lra. lra.
    - rewrite R. f_equal. apply Rabs_pos_eq. unfold v. apply IZR_le in L. apply Rmult_le_pos; [lra|]. apply Rlt_le, Rinv_0_lt_compat. lra. }
  assert (Ss : (s' <? 0)%Z = (a <? 0)%Z).
  { unfold s'. destruct (Z.ltb_spec a 0); [apply Z.ltb_lt; lia|apply Z.ltb_ge; lia]. }
  pose proof (fnorm_R s' (- k - 1) ltac:(unfold s'; apply Sg; lia)) as H. cbv zeta in H. rewrite R', Ss in H. exact H.
Qed.

(** ** The float nearest to a decimal number *)
Definition sgn (s : bool) (x : R) : R := if s then - x else x.
Lemma fdecimal_R : forall s m e, (0 < m)%Z ->
  let v := sgn s (IZR m * r10 e) in
  if Rlt_bool (Rabs (rnd64 v)) (bpow radix2 1024)
  then B2R (fdecimal s m e) = rnd64 v /\ is_finite (fdecimal s m e) = true /\ Bsign (fdecimal s m e) = s
  else fdecimal s m e = B754_infinity s.
Proof.
  intros s m e Hm v. unfold fdecimal. destruct (Z.eqb_spec m 0); [lia|]. cbv zeta.
  set (a := if s then (- m)%Z else m). assert (Ha : a <> 0%Z) by (unfold a; destruct s; lia).
  assert (Hs : (a <? 0)%Z = s) by (unfold a; destruct s; [apply Z.ltb_lt; lia|apply Z.ltb_ge; lia]).
  assert (Ea : IZR a = sgn s (IZR m)) by (unfold a, sgn; destruct s; [apply opp_IZR|reflexivity]).
  assert (Sm : forall x y, sgn s x * y = sgn s (x * y)) by (intros; unfold sgn; destruct s; ring).
  destruct (Z.leb_spec 0 e) as [L|L].
  - assert (P : (0 < 10 ^ e)%Z) by (apply Z.pow_pos_nonneg; lia).
    pose proof (fnorm_R (a * 10 ^ e) 0 ltac:(nia)) as H. cbv zeta in H.
    assert (E1 : (a * 10 ^ e <? 0)%Z = s).
    { rewrite <- Hs. destruct (Z.ltb_spec a 0); [apply Z.ltb_lt; nia|apply Z.ltb_ge; nia]. }
    assert (E2 : F2R (Float radix2 (a * 10 ^ e) 0) = v).
    { unfold F2R, Fnum, Fexp. change (bpow radix2 0) with 1. rewrite Rmult_1_r, mult_IZR, Ea, Sm. unfold v. rewrite r10_Z by exact L. reflexivity. }
    rewrite E1, E2 in H. exact H.
  - assert (P : (0 < 10 ^ (- e))%Z) by (apply Z.pow_pos_nonneg; lia).
    pose proof (fratio_R a (10 ^ (- e)) Ha P) as H. cbv zeta in H.
    assert (E2 : IZR a / IZR (10 ^ (- e)) = v).
    { rewrite <- r10_Z by lia. rewrite r10_inv. unfold Rdiv. rewrite Rinv_inv, Ea, Sm. reflexivity. }
    rewrite Hs, E2 in H. exact H.
Qed.
Lemma fdecimal_value : forall s m e m' e', (0 <= m)%Z -> (0 <= m')%Z -> (inject_Z m * p10 e == inject_Z m' * p10 e')%Q ->
  fdecimal s m e = fdecimal s m' e'.
Proof.
  intros s m e m' e' Hm Hm' E. apply Qeq_eqR in E. rewrite !Q2R_mult, !Q2R_Z in E. fold (r10 e) (r10 e') in E.
  assert (P := r10_pos e). assert (P' := r10_pos e').
  destruct (Z.eq_dec m 0) as [->|N].
  - assert (m' = 0)%Z. { apply eq_IZR. rewrite Rmult_0_l in E. symmetry in E. apply Rmult_integral in E. destruct E; [assumption|lra]. }
    subst. reflexivity.
  - assert (N' : m' <> 0%Z). { intros ->. rewrite Rmult_0_l in E. apply Rmult_integral in E. destruct E as [E|E]; [apply eq_IZR in E; contradiction|lra]. }
    pose proof (fdecimal_R s m e ltac:(lia)) as A. pose proof (fdecimal_R s m' e' ltac:(lia)) as B. cbv zeta in A, B. rewrite <- E in B.
    destruct (Rlt_bool _ _); [|congruence].
    destruct A as (A1 & A2 & A3). destruct B as (B1 & B2 & B3). apply B2R_Bsign_inj; congruence.
Qed.

(** ** Distances *)
#[global] Instance fexp64_valid : Valid_exp fexp64.
Proof. exact (fexp_correct 53 1024 prec_gt_0_64). Qed.
Lemma fdecimal_nearest : forall s m e (y : f64), (0 < m)%Z -> is_finite (fdecimal s m e) = true -> is_finite y = true ->
  let v := sgn s (IZR m * r10 e) in Rabs (B2R (fdecimal s m e) - v) <= Rabs (B2R y - v).
Proof.
  intros s m e y Hm F Fy v. pose proof (fdecimal_R s m e Hm) as H. cbv zeta in H. fold v in H.
  destruct (Rlt_bool _ _); [|rewrite H in F; discriminate]. destruct H as (H & _). rewrite H.
  destruct (round_N_pt radix2 fexp64 (fun x => negb (Z.even x)) v) as (_ & N). apply N. apply generic_format_B2R.
Qed.
(** A decimal number that is between floats converts to a finite number. *)
Lemma fdecimal_finite : forall s m e, (0 < m)%Z -> IZR m * r10 e < bpow radix2 1023 ->
  is_finite (fdecimal s m e) = true /\ Bsign (fdecimal s m e) = s.
Proof.
  intros s m e Hm B. pose proof (fdecimal_R s m e Hm) as H. cbv zeta in H. set (v := sgn s (IZR m * r10 e)) in *.
  assert (L : Rabs (rnd64 v) <= bpow radix2 1023).
  { apply (abs_round_le_generic radix2 fexp64 ZnearestE); [apply (generic_format_bpow radix2 fexp64); vm_compute; discriminate|].
    assert (0 < IZR m) by (apply IZR_lt; exact Hm). assert (P := r10_pos e).
    unfold v, sgn. destruct s; rewrite ?Rabs_Ropp, Rabs_pos_eq by nra; lra. }
  rewrite Rlt_bool_true in H; [tauto|]. apply Rle_lt_trans with (1 := L). apply bpow_lt. lia.
Qed.
(** Relative error: a half unit in the last place. *)
Definition u53 : R := bpow radix2 (-53).
Lemma rnd_relative : forall v, bpow radix2 (-1022) <= Rabs v -> Rabs (rnd64 v - v) <= u53 * Rabs v.
Proof.
  intros v H. pose proof (relative_error_N_FLT radix2 (-1074) 53 eq_refl (fun x => negb (Z.even x)) v H) as E.
  unfold u53. change (bpow radix2 (-53)) with (bpow radix2 (-1 + -52)). rewrite bpow_plus. exact E.
Qed.
(** Floats are not too close to each other. *)
Lemma spacing : forall x r, generic_format radix2 fexp64 x -> generic_format radix2 fexp64 r -> 0 < x -> r <> x ->
  u53 * x <= Rabs (r - x).
Proof.
  intros x r Fx Fr Px N.
  assert (Nx : x <> 0) by lra. assert (B1 := bpow_mag_gt radix2 x). assert (B2 := bpow_mag_le radix2 x Nx).
  rewrite Rabs_pos_eq in B1, B2 by lra. remember (mag radix2 x : Z) as e eqn:De in *.
  assert (U : u53 * x <= ulp radix2 fexp64 x).
  { rewrite ulp_neq_0 by exact Nx. unfold cexp. rewrite <- De.
    assert (fexp64 e >= e - 53)%Z by (change (fexp64 e) with (Z.max (e - 53) (-1074)); lia).
    apply Rle_trans with (bpow radix2 (e - 53)); [|apply bpow_le; lia].
    replace (e - 53)%Z with (-53 + e)%Z by lia. rewrite bpow_plus. apply Rmult_le_compat_l; [apply bpow_ge_0|lra]. }
  destruct (Rtotal_order r x) as [L|[E|L]]; [|contradiction|].
  - assert (P := pred_ge_gt radix2 fexp64 r x Fr Fx L). rewrite pred_eq_pos in P by lra. unfold pred_pos in P.
    rewrite Rabs_left by lra. rewrite <- De in P. destruct (Req_bool_spec x (bpow radix2 (e - 1))) as [E|NE].
    + assert (fexp64 (e - 1) >= e - 1 - 53)%Z by (change (fexp64 (e - 1)) with (Z.max (e - 1 - 53) (-1074)); lia).
      assert (Q : u53 * x <= bpow radix2 (fexp64 (e - 1))).
      { rewrite E at 1. unfold u53. rewrite <- bpow_plus. apply bpow_le. lia. }
      lra.
    + lra.
  - assert (P := succ_le_lt radix2 fexp64 x r Fx Fr L). rewrite succ_eq_pos in P by lra. rewrite Rabs_pos_eq by lra. lra.
Qed.
(** A float is the nearest one to the numbers around it. *)
Lemma rnd_near : forall x v, generic_format radix2 fexp64 x -> 0 < x -> 2 * Rabs (v - x) < u53 * x -> rnd64 v = x.
Proof.
  intros x v Fx Px H. destruct (Req_dec (rnd64 v) x) as [E|N]; [exact E|exfalso].
  assert (Fr : generic_format radix2 fexp64 (rnd64 v)) by (apply generic_format_round; typeclasses eauto).
  assert (G := spacing x (rnd64 v) Fx Fr Px N).
  destruct (round_N_pt radix2 fexp64 (fun x => negb (Z.even x)) v) as (_ & A). specialize (A x Fx).
  assert (T := Rabs_triang (rnd64 v - v) (v - x)). replace (rnd64 v - v + (v - x)) with (rnd64 v - x) in T by ring.
  rewrite (Rabs_minus_sym x v) in A. lra.
Qed.

(** ** The digits of repr() *)
Lemma half_even_R : forall q n, half_even q n -> Rabs (Q2R q - IZR n) <= / 2.
Proof.
  intros q n H. apply half_even_bounds in H. destruct H as (A & B). apply Qle_Rle in A, B.
  rewrite Q2R_minus, Q2R_Z in A. rewrite Q2R_plus, Q2R_Z in B.
  assert (E : Q2R (1 # 2) = / 2) by (unfold Q2R; simpl; field). rewrite E in *. apply Rabs_le. lra.
Qed.
Lemma dsci_error : forall m e n, (0 < m)%Z -> (1 <= n)%nat -> let (d, X) := dsci m e n in
  (0 < d)%Z /\ let v := IZR d * r10 (X - Z.of_nat n + 1) in let x := IZR m * r10 e in
  Rabs (v - x) <= / 2 * r10 (1 - Z.of_nat n) * x.
Proof.
  intros m e n Hm Hn. unfold dsci. destruct (Z.eqb_spec m 0); [lia|].
  set (X := dexp m e). set (N := Z.of_nat n). set (d := dfix m (e + N - 1 - X)).
  destruct (dexp_bounds m e Hm) as (B1 & B2). fold X in B1, B2. apply Qle_Rle in B1. apply Qlt_Rlt in B2.
  rewrite Q2R_mult, Q2R_Z in B1, B2. fold (r10 X) (r10 e) in B1. fold (r10 (X + 1)) (r10 e) in B2. set (x := IZR m * r10 e) in *.
  destruct (dfix_half_even m (e + N - 1 - X) ltac:(lia)) as (H & Hd). fold d in H, Hd. apply half_even_R in H.
  rewrite Q2R_mult, Q2R_Z in H. fold (r10 (e + N - 1 - X)) in H.
  assert (PX := r10_pos X). assert (Pk := r10_pos (X - N + 1)).
  assert (E1 : IZR m * r10 (e + N - 1 - X) * r10 (X - N + 1) = x).
  { rewrite Rmult_assoc, <- r10_add. unfold x. do 2 f_equal. lia. }
  assert (M : Rabs (IZR d * r10 (X - N + 1) - x) <= / 2 * r10 (1 - N) * x).
  { rewrite <- E1 at 1. rewrite <- Rmult_minus_distr_r, Rabs_mult, (Rabs_pos_eq (r10 (X - N + 1))), Rabs_minus_sym by lra.
    apply Rle_trans with (/ 2 * r10 (X - N + 1)); [apply Rmult_le_compat_r; lra|].
    rewrite Rmult_assoc. apply Rmult_le_compat_l; [lra|]. replace (X - N + 1)%Z with (1 - N + X)%Z by lia. rewrite r10_add.
    apply Rmult_le_compat_l; [apply Rlt_le, r10_pos|exact B1]. }
  assert (Pd : (0 < d)%Z).
  { assert (1 <= N)%Z by (unfold N; lia). destruct (Z.eq_dec d 0) as [E0|]; [exfalso|lia]. rewrite E0 in M.
    rewrite Rmult_0_l, Rminus_0_l, Rabs_Ropp, Rabs_pos_eq in M by lra.
    assert (r10 (1 - N) <= 1). { rewrite <- r10_0. unfold r10. apply Qle_Rle, p10_le. lia. }
    nra. }
  destruct (Z.eqb_spec d (10 ^ N)) as [Ed|Nd].
  - assert (1 <= N)%Z by (unfold N; lia).
    assert (Ed2 : (d / 10 = 10 ^ (N - 1))%Z).
    { rewrite Ed. replace N with (N - 1 + 1)%Z at 1 by lia. rewrite Z.pow_add_r by lia. apply Z.div_mul. lia. }
    rewrite Ed2. split; [apply Z.pow_pos_nonneg; lia|].
    replace (IZR (10 ^ (N - 1)) * r10 (X + 1 - N + 1)) with (IZR d * r10 (X - N + 1)); [exact M|].
    rewrite Ed, <- !r10_Z by lia. rewrite <- !r10_add. f_equal. lia.
  - split; [exact Pd|exact M].
Qed.
Lemma fshort_value : forall fuel n x m e d k, is_finite x = true -> (0 < m)%Z -> (1 <= n)%nat -> (17 <= n + fuel)%nat ->
  B2R x = IZR m * r10 e -> Bsign x = false -> fshort fuel n x m e = (d, k) -> (0 <= d)%Z /\ fdecimal false d k = x.
Proof.
  induction fuel as [|f IH]; intros n x m e d k F Hm Hn Hf Ex Sx H; cbn [fshort] in H;
    pose proof (dsci_error m e n Hm Hn) as D; destruct (dsci m e n) as (d0 & X) eqn:E0; destruct D as (Pd & D); cbv zeta in D.
  - inversion H; subst d k. split; [lia|]. set (k := (X - Z.of_nat n + 1)%Z) in *. rewrite <- Ex in D.
    assert (Px : 0 < B2R x). { rewrite Ex. assert (P := r10_pos e). apply IZR_lt in Hm. nra. }
    assert (S : r10 (1 - Z.of_nat n) <= r10 (-16)) by (unfold r10; apply Qle_Rle, p10_le; lia).
    assert (U : r10 (-16) < u53).
    { unfold u53. change (-53)%Z with (- (53))%Z. change (-16)%Z with (- (16))%Z. rewrite (bpow_opp radix2 53). rewrite (r10_inv 16), r10_Z by lia. change (bpow radix2 53) with (IZR (2 ^ 53)).
      apply Rinv_lt_contravar; [apply Rmult_lt_0_compat; apply IZR_lt; reflexivity|apply IZR_lt; reflexivity]. }
    set (v := IZR d0 * r10 k) in *.
    assert (R : rnd64 v = B2R x).
    { apply rnd_near; [apply generic_format_B2R|exact Px|]. nra. }
    pose proof (fdecimal_R false d0 k Pd) as G. cbv zeta in G. unfold sgn in G. fold v in G. rewrite R in G.
    rewrite Rlt_bool_true in G by apply abs_B2R_lt_emax. destruct G as (G1 & G2 & G3). apply B2R_Bsign_inj; congruence.
  - destruct (Beqb _ _) eqn:Eb.
    + inversion H; subst d k. split; [lia|]. set (y := fdecimal _ _ _) in *.
      assert (Fy : is_finite y = true). { destruct y as [|g| |]; try reflexivity; [destruct g|]; destruct x; simpl in Eb, F; discriminate. }
      rewrite (Beqb_correct _ _ y x Fy F) in Eb. apply Req_bool_true_iff in Eb || (revert Eb; case Req_bool_spec; [intros Eb _|discriminate]).
      apply B2R_Bsign_inj; try assumption. rewrite Sx. unfold y. 
      pose proof (fdecimal_R false d0 (X - Z.of_nat n + 1) Pd) as G. cbv zeta in G. destruct (Rlt_bool _ _); [apply G|rewrite G; reflexivity].
    + apply (IH (S n) x m e d k); try assumption; lia.
Qed.
