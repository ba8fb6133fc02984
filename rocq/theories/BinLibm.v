(** A correctly rounded log10 and correctly rounded powers of ten have the properties that the theorems about
    formatting in binary64 suppose. *)
From Coq Require Import ZArith List Bool Lia QArith Qabs Qreals Reals Lra.
From Flocq Require Import Core BinarySingleNaN.
From Verif Require Import Base Str NumF FFacts FmtOps FmtF Format FmtSpec DecProofs BinProofs BinRepr BinQ BinSpec.
Local Open Scope R_scope.

(** The C library: the results are those of real numbers, rounded to the nearest float. *)
Definition log10_R (x : R) : R := ln x / ln 10.
Record ExactLibm (lm : Libm10) : Prop := mkExactLibm {
  el_log : forall x : f64, is_finite x = true -> 0 < B2R x -> lg10 lm x = Zfloor (rnd64 (log10_R (B2R x)));
  el_pow : forall n, (-300 <= n <= 300)%Z -> is_finite (pw10 lm n) = true /\ B2R (pw10 lm n) = rnd64 (powerRZ 10 n) }.

(** ** Logarithms *)
Lemma ln10_bounds : 2.1 <= ln 10 <= 4.
Proof.
  split.
  - rewrite <- (ln_exp 2.1). apply Rcomplements.ln_le; [apply exp_pos|].
    replace 2.1 with (1 + 1 + 0.1) by lra. rewrite !exp_plus. assert (E := exp_le_3). assert (P := exp_pos 1).
    assert (Q : exp 0.1 <= / 0.9).
    { replace 0.1 with (- - 0.1) by lra. rewrite exp_Ropp. apply Rinv_le_contravar; [lra|]. assert (X := exp_ineq1_le (- 0.1)). lra. }
    assert (P1 := exp_pos 0.1). assert (S : exp 1 * exp 1 <= 9) by (replace 9 with (3 * 3) by lra; apply Rmult_le_compat; lra).
    replace 10 with (9 * / 0.9) by lra. apply Rmult_le_compat; try lra. apply Rmult_le_pos; lra.
  - rewrite <- (ln_exp 4). apply Rcomplements.ln_le; [lra|]. replace 4 with (1 + 1 + 1 + 1) by lra. rewrite !exp_plus.
    assert (X := exp_ineq1_le 1). assert (Y : 4 <= exp 1 * exp 1) by (replace 4 with (2 * 2) by lra; apply Rmult_le_compat; lra).
    apply Rle_trans with (4 * 2 * 2); [lra|]. apply Rmult_le_compat; try lra. apply Rmult_le_compat; lra.
Qed.
Lemma r10_powerRZ : forall k, r10 k = powerRZ 10 k.
Proof.
  assert (N : forall n : nat, r10 (Z.of_nat n) = 10 ^ n).
  { intros n. rewrite r10_Z by lia. rewrite <- pow_IZR. reflexivity. }
  intros k. destruct k as [|p|p]; cbn [powerRZ].
  - apply r10_0.
  - rewrite <- N, positive_nat_Z. reflexivity.
  - change (Zneg p) with (- Zpos p)%Z. rewrite r10_inv, <- N, positive_nat_Z. reflexivity.
Qed.
Lemma ln_r10 : forall k, ln (r10 k) = IZR k * ln 10.
Proof.
  intros k. rewrite r10_powerRZ. destruct k as [|p|p]; cbn [powerRZ].
  - rewrite ln_1. ring.
  - rewrite ln_pow by lra. rewrite INR_IZR_INZ, positive_nat_Z. reflexivity.
  - rewrite ln_Rinv by (apply pow_lt; lra). rewrite ln_pow by lra. rewrite INR_IZR_INZ, positive_nat_Z.
    change (IZR (Z.neg p)) with (IZR (- Z.pos p)). rewrite opp_IZR. ring.
Qed.
Lemma log10_r10 : forall k t, 0 < t -> log10_R (r10 k * t) = IZR k + log10_R t.
Proof.
  intros k t Ht. unfold log10_R. assert (B := ln10_bounds). rewrite ln_mult by (try apply r10_pos; assumption). rewrite ln_r10. field. lra.
Qed.
Lemma log10_le : forall x y, 0 < x -> x <= y -> log10_R x <= log10_R y.
Proof.
  intros x y Hx H. unfold log10_R. assert (B := ln10_bounds). apply Rmult_le_compat_r; [apply Rlt_le, Rinv_0_lt_compat; lra|].
  apply Rcomplements.ln_le; assumption.
Qed.
Lemma log10_0 : log10_R 1 = 0.
Proof. unfold log10_R. rewrite ln_1. field. assert (B := ln10_bounds). lra. Qed.
(** The value from its logarithm. *)
Lemma from_log : forall x, 0 < x -> x = exp (log10_R x * ln 10).
Proof. intros x Hx. unfold log10_R. assert (B := ln10_bounds). replace (ln x / ln 10 * ln 10) with (ln x) by (field; lra). rewrite exp_ln; auto. Qed.
Lemma exp_10 : forall k t, exp ((IZR k + t) * ln 10) = r10 k * exp (t * ln 10).
Proof. intros k t. rewrite Rmult_plus_distr_r, exp_plus, <- ln_r10, exp_ln by apply r10_pos. reflexivity. Qed.
Lemma ln_small : forall d, Rabs d <= / 2 -> Rabs (ln (1 + d)) <= Rabs d * (1 + 2 * Rabs d).
Proof.
  intros d Hd. assert (B : - / 2 <= d <= / 2) by (apply Rabs_le_inv; exact Hd).
  assert (U : ln (1 + d) <= d).
  { rewrite <- (ln_exp d) at 2. apply Rcomplements.ln_le; [lra|]. apply exp_ineq1_le. }
  assert (L : d / (1 + d) <= ln (1 + d)).
  { assert (E : 1 + d = / (1 - d / (1 + d))) by (field; split; lra).
    rewrite E at 2. rewrite ln_Rinv by (replace (1 - d / (1 + d)) with (/ (1 + d)) by (field; lra); apply Rinv_0_lt_compat; lra).
    assert (X : ln (1 - d / (1 + d)) <= - (d / (1 + d))).
    { rewrite <- (ln_exp (- (d / (1 + d)))). apply Rcomplements.ln_le.
      - replace (1 - d / (1 + d)) with (/ (1 + d)) by (field; lra). apply Rinv_0_lt_compat; lra.
      - assert (Y := exp_ineq1_le (- (d / (1 + d)))). lra. }
    lra. }
  apply Rabs_le. unfold Rabs in *. destruct (Rcase_abs d) as [N|N].
  - split; [|nra]. apply Rle_trans with (2 := L). replace (d / (1 + d)) with (- (- d * / (1 + d))) by (field; lra). apply Ropp_le_contravar.
    apply Rmult_le_compat_l; [lra|]. apply (Rmult_le_reg_r (1 + d)); [lra|]. rewrite Rinv_l by lra. nra.
  - split; [|nra]. apply Rle_trans with (2 := L). apply Rle_trans with 0; [nra|]. apply Rmult_le_pos; [lra|]. apply Rlt_le, Rinv_0_lt_compat. lra.
Qed.
Lemma two_thirds : 3 * ln 2 <= ln 10.
Proof.
  replace (3 * ln 2) with (ln 8).
  - apply Rcomplements.ln_le; lra.
  - replace 8 with (2 ^ 3) by lra. rewrite ln_pow by lra. simpl INR. lra.
Qed.
Lemma ln_bpow : forall e, ln (bpow radix2 e) = IZR e * ln 2.
Proof.
  intros e. rewrite bpow_powerRZ. change (IZR radix2) with 2. destruct e as [|p|p]; cbn [powerRZ].
  - rewrite ln_1. ring.
  - rewrite ln_pow by lra. rewrite INR_IZR_INZ, positive_nat_Z. reflexivity.
  - rewrite ln_Rinv by (apply pow_lt; lra). rewrite ln_pow by lra. rewrite INR_IZR_INZ, positive_nat_Z.
    change (IZR (Z.neg p)) with (IZR (- Z.pos p)). rewrite opp_IZR. ring.
Qed.
Lemma log_range : forall x : f64, is_finite x = true -> 0 < B2R x -> Rabs (log10_R (B2R x)) <= 400.
Proof.
  intros x F P.
  assert (Hi : B2R x < bpow radix2 1024) by (assert (X := abs_B2R_lt_emax 53 1024 x); rewrite Rabs_pos_eq in X; lra).
  assert (Lo : bpow radix2 (-1074) <= B2R x).
  { assert (X := abs_B2R_ge_emin 53 1024 x). rewrite Rabs_pos_eq in X by lra. apply X.
    destruct x; try discriminate; [simpl in P; lra|reflexivity]. }
  assert (B := ln10_bounds). assert (T := two_thirds). assert (L2 : 0 < ln 2) by (rewrite <- ln_1; apply ln_increasing; lra).
  assert (U := Rcomplements.ln_le _ _ P (Rlt_le _ _ Hi)). rewrite ln_bpow in U.
  assert (D := Rcomplements.ln_le _ _ (bpow_gt_0 radix2 (-1074)) Lo). rewrite ln_bpow in D.
  unfold log10_R. apply Rabs_le. split.
  - apply (Rmult_le_reg_r (ln 10)); [lra|]. unfold Rdiv. rewrite Rmult_assoc, Rinv_l by lra. lra.
  - apply (Rmult_le_reg_r (ln 10)); [lra|]. unfold Rdiv. rewrite Rmult_assoc, Rinv_l by lra. lra.
Qed.

(** ** Rounding *)
Lemma rnd_error : forall v, Rabs v <= 400 -> Rabs (rnd64 v - v) <= bpow radix2 (-45).
Proof.
  intros v H. destruct (Req_dec v 0) as [->|N].
  - rewrite round_0 by typeclasses eauto. rewrite Rminus_0_r, Rabs_R0. apply bpow_ge_0.
  - assert (E := error_le_half_ulp radix2 fexp64 (fun x => negb (Z.even x)) v). rewrite ulp_neq_0 in E by exact N.
    apply Rle_trans with (1 := E).
    assert (C : (cexp radix2 fexp64 v <= -44)%Z).
    { unfold cexp. assert (M : (mag radix2 v <= 9)%Z).
      { apply mag_le_bpow; [exact N|]. apply Rle_lt_trans with (1 := H). simpl. lra. }
      rewrite fexp64_FLT. unfold FLT_exp. lia. }
    apply (bpow_le radix2) in C. replace (bpow radix2 (-45)) with (/ 2 * bpow radix2 (-44)) by (simpl; lra). lra.
Qed.
(** Floats whose absolute value is at least 1/2 are multiples of 2^-53. *)
Lemma grid : forall x, generic_format radix2 fexp64 x -> / 2 <= Rabs x -> exists n, x = IZR n * bpow radix2 (-53).
Proof.
  intros x F H. assert (N : x <> 0) by (intros ->; rewrite Rabs_R0 in H; lra).
  assert (C : (-53 <= cexp radix2 fexp64 x)%Z).
  { unfold cexp. assert (M : (0 <= mag radix2 x)%Z).
    { assert (Y : (0 < mag radix2 x)%Z \/ (0 <= mag radix2 x)%Z) by (right; destruct (Z_lt_le_dec (mag radix2 x) 0) as [Q|Q]; [exfalso|exact Q];
        assert (Z := bpow_mag_gt radix2 x); assert (W := bpow_le radix2 (mag radix2 x) (-1) ltac:(lia)); simpl in W; lra). lia. }
    rewrite fexp64_FLT. unfold FLT_exp. lia. }
  rewrite F. unfold F2R. simpl Fnum. simpl Fexp. set (m := Ztrunc (scaled_mantissa radix2 fexp64 x)). set (c := cexp radix2 fexp64 x) in *.
  exists (m * 2 ^ (c + 53))%Z. rewrite mult_IZR. change 2%Z with (radix_val radix2). rewrite IZR_Zpower by lia. rewrite Rmult_assoc, <- bpow_plus.
  f_equal. f_equal. lia.
Qed.
(** The floats below an integer that is not zero. *)
Lemma below : forall (j : Z) x, j <> 0%Z -> generic_format radix2 fexp64 x -> x < IZR j -> x <= IZR j - bpow radix2 (-53).
Proof.
  intros j x Hj F H. assert (B53 : bpow radix2 (-53) <= / 2) by (change (/ 2) with (bpow radix2 (-1)); apply bpow_le; lia).
  destruct (Rle_or_lt (/ 2) (Rabs x)) as [G|G].
  - destruct (grid x F G) as (n & E). assert (Ej : IZR j = IZR (j * 2 ^ 53) * bpow radix2 (-53)).
    { rewrite mult_IZR. change (2 ^ 53)%Z with (radix2 ^ 53)%Z. rewrite (IZR_Zpower radix2) by lia. rewrite Rmult_assoc, <- bpow_plus.
      change (bpow radix2 (53 + -53)) with 1. ring. }
    rewrite E, Ej in *. assert (P := bpow_gt_0 radix2 (-53)). apply Rmult_lt_reg_r in H; [|exact P]. apply lt_IZR in H.
    assert (L : IZR n <= IZR (j * 2 ^ 53) - 1) by (rewrite <- minus_IZR; apply IZR_le; lia). nra.
  - apply Rabs_lt_inv in G. assert (1 <= j)%Z.
    { destruct (Z_le_gt_dec 1 j); [assumption|]. exfalso. assert (IZR j <= -1) by (apply IZR_le; lia). lra. }
    assert (1 <= IZR j) by (apply IZR_le; assumption). lra.
Qed.
Lemma half_grid : forall j, (Z.abs j <= 400)%Z -> generic_format radix2 fexp64 (IZR j + / 2).
Proof.
  intros j H. replace (IZR j + / 2) with (F2R (Float radix2 (2 * j + 1) (-1))).
  - apply generic_format_F2R. intros _. unfold cexp.
    assert (M : (mag radix2 (F2R (Float radix2 (2 * j + 1) (-1))) <= 10)%Z).
    { rewrite mag_F2R by lia. assert (X : (mag radix2 (IZR (2 * j + 1)) <= 11)%Z); [|lia].
      apply mag_le_bpow; [apply not_0_IZR; lia|]. rewrite <- abs_IZR. rewrite <- (IZR_Zpower radix2) by lia. apply IZR_lt. change (radix2 ^ 11)%Z with 2048%Z. lia. }
    rewrite fexp64_FLT. unfold FLT_exp. simpl Fexp. lia.
  - unfold F2R. cbn [Fnum Fexp]. rewrite plus_IZR, mult_IZR. simpl bpow. lra.
Qed.
Lemma Z_grid : forall j, (Z.abs j <= 400)%Z -> generic_format radix2 fexp64 (IZR j).
Proof.
  intros j H. destruct (Z.eq_dec j 0) as [->|N]; [apply generic_format_0|]. replace (IZR j) with (F2R (Float radix2 j 0)).
  - apply generic_format_F2R. intros _. unfold cexp. assert (M : (mag radix2 (F2R (Float radix2 j 0)) <= 10)%Z).
    { rewrite mag_F2R by exact N. assert (X : (mag radix2 (IZR j) <= 10)%Z); [|lia]. apply mag_le_bpow; [apply not_0_IZR; exact N|].
      rewrite <- abs_IZR. rewrite <- (IZR_Zpower radix2) by lia. apply IZR_lt. change (radix2 ^ 10)%Z with 1024%Z. lia. }
    rewrite fexp64_FLT. unfold FLT_exp. simpl Fexp. lia.
  - unfold F2R. simpl. ring.
Qed.

(** ** The laws *)
Lemma log_law : forall x : f64, is_finite x = true -> 0 < B2R x -> let l := Zfloor (rnd64 (log10_R (B2R x))) in
  r10 l * (1 - / 1000000000000) <= B2R x /\ B2R x < r10 (l + 1) * (1 + / 1000000000000).
Proof.
  intros x F P l. set (v := log10_R (B2R x)) in *. assert (E := rnd_error v (log_range x F P)). apply Rabs_le_inv in E.
  assert (B45 : bpow radix2 (-45) = / 35184372088832) by (simpl; lra). rewrite B45 in E.
  assert (L1 := Zfloor_lb (rnd64 v)). assert (L2 := Zfloor_ub (rnd64 v)). fold l in L1, L2. assert (B := ln10_bounds).
  assert (Ev : B2R x = exp (v * ln 10)) by (apply from_log; exact P). set (t := / 35184372088832) in *.
  assert (T : t * ln 10 <= / 8000000000000) by (unfold t; nra).
  assert (T0 : 0 <= t * ln 10) by (unfold t; nra). split.
  - apply Rle_trans with (r10 l * exp (- t * ln 10)).
    + apply Rmult_le_compat_l; [apply Rlt_le, r10_pos|]. assert (X := exp_ineq1_le (- t * ln 10)). lra.
    + rewrite <- exp_10, Ev. destruct (Rle_lt_or_eq_dec ((IZR l + - t) * ln 10) (v * ln 10)) as [G|G]; [apply Rmult_le_compat_r; lra|apply Rlt_le, exp_increasing; exact G|rewrite G; apply Rle_refl].
  - apply Rlt_le_trans with (r10 (l + 1) * exp (t * ln 10)).
    + rewrite <- exp_10, Ev. apply exp_increasing. apply Rmult_lt_compat_r; [lra|]. rewrite plus_IZR. lra.
    + apply Rmult_le_compat_l; [apply Rlt_le, r10_pos|]. replace (t * ln 10) with (- - (t * ln 10)) by ring. rewrite exp_Ropp.
      assert (X := exp_ineq1_le (- (t * ln 10))). apply Rle_trans with (/ (1 - t * ln 10)); [apply Rinv_le_contravar; lra|].
      apply (Rmult_le_reg_r (1 - t * ln 10)); [lra|]. rewrite Rinv_l by lra. nra.
Qed.
Lemma sign_law : forall x : f64, is_finite x = true -> 0 < B2R x -> ((0 <= Zfloor (rnd64 (log10_R (B2R x))))%Z <-> 1 <= B2R x).
Proof.
  intros x F P. assert (B := ln10_bounds). split.
  - intros H. destruct (Rle_or_lt 1 (B2R x)) as [G|G]; [exact G|exfalso].
    assert (Lx := below 1 (B2R x) ltac:(discriminate) (generic_format_B2R 53 1024 x) G).
    set (d := bpow radix2 (-53)) in *. assert (Pd : 0 < d) by apply bpow_gt_0.
    assert (V : log10_R (B2R x) <= - bpow radix2 (-55)).
    { apply Rle_trans with (log10_R (1 - d)); [apply log10_le; [exact P|exact Lx]|]. unfold log10_R.
      assert (X : ln (1 - d) <= - d).
      { rewrite <- (ln_exp (- d)). apply Rcomplements.ln_le; [lra|]. assert (Y := exp_ineq1_le (- d)). lra. }
      apply (Rmult_le_reg_r (ln 10)); [lra|]. unfold Rdiv. rewrite Rmult_assoc, Rinv_l by lra.
      assert (E55 : d = 4 * bpow radix2 (-55)) by (unfold d; simpl; lra). rewrite E55 in *. nra. }
    assert (R1 : rnd64 (log10_R (B2R x)) <= - bpow radix2 (-55)).
    { apply round_le_generic; [typeclasses eauto|typeclasses eauto| |exact V]. apply generic_format_opp. apply (generic_format_bpow radix2 fexp64). vm_compute. discriminate. }
    assert (Z := Zfloor_lb (rnd64 (log10_R (B2R x)))). apply IZR_le in H. assert (Q := bpow_gt_0 radix2 (-55)). lra.
  - intros H. apply Zfloor_lub. apply round_ge_generic; [typeclasses eauto|typeclasses eauto|apply generic_format_0|].
    rewrite <- log10_0. apply log10_le; lra.
Qed.
(** The float nearest to 10^j. *)
Lemma exact_law : forall j x, (-300 <= j <= 300)%Z -> 0 < x -> Rabs (x - r10 j) <= u53 * r10 j -> (j = 0%Z -> x = 1) ->
  Zfloor (rnd64 (log10_R x)) = j.
Proof.
  intros j x Hj Px Hx H0. destruct (Z.eq_dec j 0) as [->|N].
  { rewrite (H0 eq_refl), log10_0, round_0 by typeclasses eauto. exact (Zfloor_IZR 0). }
  assert (P := r10_pos j). assert (B := ln10_bounds). set (d := x / r10 j - 1).
  assert (Ex : x = r10 j * (1 + d)) by (unfold d; field; lra).
  assert (Hd : Rabs d <= u53).
  { rewrite Ex in Hx. replace (r10 j * (1 + d) - r10 j) with (d * r10 j) in Hx by ring. rewrite Rabs_mult, (Rabs_pos_eq (r10 j)) in Hx by lra.
    apply Rmult_le_reg_r in Hx; [exact Hx|exact P]. }
  assert (U : u53 = / 9007199254740992) by (unfold u53; simpl; lra).
  assert (Hl : Rabs (log10_R (1 + d)) < bpow radix2 (-54)).
  { unfold log10_R, Rdiv. rewrite Rabs_mult, (Rabs_pos_eq (/ ln 10)) by (apply Rlt_le, Rinv_0_lt_compat; lra).
    apply (Rmult_lt_reg_r (ln 10)); [lra|]. rewrite Rmult_assoc, Rinv_l, Rmult_1_r by lra.
    apply Rle_lt_trans with (1 := ln_small d ltac:(rewrite U in Hd; lra)).
    assert (E54 : bpow radix2 (-54) = / 18014398509481984) by (simpl; lra). rewrite E54. rewrite U in Hd. assert (D0 := Rabs_pos d).
    apply Rle_lt_trans with (/ 9007199254740992 * (1 + 2 * / 9007199254740992)); [apply Rmult_le_compat; lra|]. lra. }
  assert (Pd : 0 < 1 + d) by (apply (Rmult_lt_reg_l (r10 j)); [exact P|]; rewrite Rmult_0_r, <- Ex; exact Px).
  rewrite Ex, log10_r10 by exact Pd. set (t := log10_R (1 + d)) in *. set (v := IZR j + t). apply Rabs_lt_inv in Hl.
  assert (B54 : bpow radix2 (-54) < / 2) by (change (/ 2) with (bpow radix2 (-1)); apply bpow_lt; lia).
  apply Zfloor_imp. split.
  - destruct (Rle_or_lt (IZR j) (rnd64 v)) as [G|G]; [exact G|exfalso].
    assert (Fv : generic_format radix2 fexp64 (rnd64 v)) by (apply generic_format_round; typeclasses eauto).
    assert (L := below j (rnd64 v) N Fv G).
    destruct (round_N_pt radix2 fexp64 (fun z => negb (Z.even z)) v) as (_ & C). specialize (C (IZR j) (Z_grid j ltac:(lia))).
    assert (E53 : bpow radix2 (-53) = 2 * bpow radix2 (-54)) by (simpl; lra). rewrite E53 in L.
    unfold v in *. replace (IZR j - (IZR j + t)) with (- t) in C by ring. rewrite Rabs_Ropp in C.
    assert (T : Rabs t < bpow radix2 (-54)) by (apply Rabs_lt; exact Hl).
    assert (W : rnd64 (IZR j + t) - (IZR j + t) < - bpow radix2 (-54)) by lra. rewrite Rabs_left in C by (assert (Q := bpow_gt_0 radix2 (-54)); lra). lra.
  - apply Rle_lt_trans with (IZR j + / 2); [|rewrite plus_IZR; lra].
    apply round_le_generic; [typeclasses eauto|typeclasses eauto|apply half_grid; lia|]. unfold v. lra.
Qed.

Theorem exact_libm : forall lm, ExactLibm lm -> LibmLaws lm.
Proof.
  intros lm (EL & EP).
  assert (PV : forall x : f64, is_finite x = true -> (0 < fval x)%Q -> 0 < B2R x).
  { intros x F H. apply Qlt_Rlt in H. rewrite RMicromega.Q2R_0 in H. rewrite <- (bq_R x F). exact H. }
  split.
  - intros x F H. specialize (PV x F H). rewrite (EL x F PV). destruct (log_law x F PV) as (A & C). split.
    + apply Rle_Qle. rewrite Q2R_mult, Q2R_minus. change (Q2R (fval x)) with (Q2R (bq x)). rewrite (bq_R x F).
      replace (Q2R 1 - Q2R (1 # 1000000000000)) with (1 - / 1000000000000) by (unfold Q2R; simpl; lra). exact A.
    + apply Rlt_Qlt. rewrite Q2R_mult, Q2R_plus. change (Q2R (fval x)) with (Q2R (bq x)). rewrite (bq_R x F).
      replace (Q2R 1 + Q2R (1 # 1000000000000)) with (1 + / 1000000000000) by (unfold Q2R; simpl; lra). exact C.
  - intros j Hj.
    assert (V : (inject_Z 1 * p10 j == p10 j)%Q) by (change (inject_Z 1) with 1%Q; ring).
    destruct (q_dec false 1 j ltac:(lia)) as (F & S & W).
    + rewrite V. apply p10_le. lia.
    + rewrite V. apply p10_le. lia.
    + set (x := fdecimal false 1 j) in *. assert (S0 := bq_sign x F). rewrite S in S0. rewrite (Qabs_pos (bq x) S0) in W. rewrite V in W.
      apply Qle_Rle in W. rewrite Q2R_abs, Q2R_minus, Q2R_mult, hulp_R, (bq_R x F) in W. fold (r10 j) in W.
      assert (P := r10_pos j). assert (U : u53 = / 9007199254740992) by (unfold u53; simpl; lra).
      assert (PX : 0 < B2R x) by (apply Rabs_le_inv in W; rewrite U in W; nra).
      rewrite (EL x F PX). apply exact_law; [exact Hj|exact PX|exact W|]. intros ->. unfold x. vm_compute. lra.
  - intros x F H. specialize (PV x F H). rewrite (EL x F PV). rewrite (sign_law x F PV). split.
    + intros G. apply Rle_Qle. change (Q2R (fval x)) with (Q2R (bq x)). rewrite (bq_R x F). replace (Q2R 1) with 1 by (unfold Q2R; simpl; lra). exact G.
    + intros G. apply Qle_Rle in G. change (Q2R (fval x)) with (Q2R (bq x)) in G. rewrite (bq_R x F) in G. replace (Q2R 1) with 1 in G by (unfold Q2R; simpl; lra). exact G.
  - intros n Hn. destruct (EP n Hn) as (F & E). split; [exact F|]. rewrite <- r10_powerRZ in E.
    apply Rle_Qle. rewrite Q2R_mult, Q2R_abs, Q2R_minus. change (Q2R (fval (pw10 lm n))) with (Q2R (bq (pw10 lm n))). rewrite (bq_R _ F), E. fold (r10 n).
    destruct (rnd_range (r10 n)) as (_ & X).
    { rewrite Rabs_pos_eq by (apply Rlt_le, r10_pos). split; apply r10_le; lia. }
    apply Rle_trans with (1 := X). rewrite (Rabs_pos_eq (r10 n)) by (apply Rlt_le, r10_pos). apply Rmult_le_compat_r; [apply Rlt_le, r10_pos|].
    unfold u53, Q2R. simpl. lra.
Qed.
(** There is such a library. *)
Lemma ex_exact_libm : exists lm, ExactLibm lm /\ LibmLaws lm.
Proof.
  set (lm := mkLibm10 (fun x => Zfloor (rnd64 (log10_R (B2R x)))) (fun n => fdecimal false 1 n)).
  assert (E : ExactLibm lm); [|exists lm; split; [exact E|exact (exact_libm lm E)]].
  split; [reflexivity|]. intros n Hn. cbn [pw10 lm]. pose proof (fdecimal_R false 1 n ltac:(lia)) as H. cbv zeta in H. unfold sgn in H.
  replace (1 * r10 n) with (r10 n) in H by ring.
  rewrite Rlt_bool_true in H.
  - destruct H as (A & B & _). rewrite <- r10_powerRZ. auto.
  - apply rnd_range. rewrite Rabs_pos_eq by (apply Rlt_le, r10_pos). split; apply r10_le; lia.
Qed.
