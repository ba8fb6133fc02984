(** Derivatives of the real functions of the exact instance. *)
From Coq Require Import ZArith List Bool Reals Lra Lia.
From Coquelicot Require Import Coquelicot.

From Verif Require Import Base NumR.
Local Open Scope R_scope.

Lemma is_derive_val : forall (f : R -> R) x (l l' : R), is_derive f x l -> l = l' -> is_derive f x l'.
Proof. intros; subst; auto. Qed.

Lemma acos_derive : forall x, -1 < x < 1 -> is_derive acos x (- (1) / sqrt (1 - x ^ 2)).
Proof.
  intros x H. apply is_derive_Reals. rewrite <- Rsqr_pow2. replace (- (1)) with (-1) by lra.
  rewrite <- (derive_pt_acos x H). destruct (derivable_pt_acos x H) as [l Hl]. exact Hl.
Qed.
Lemma asin_derive : forall x, -1 < x < 1 -> is_derive asin x (1 / sqrt (1 - x ^ 2)).
Proof.
  intros x H. apply is_derive_Reals. rewrite <- Rsqr_pow2.
  rewrite <- (derive_pt_asin x H). destruct (derivable_pt_asin x H) as [l Hl]. exact Hl.
Qed.
Lemma atan_derive : forall x, is_derive atan x (1 / (1 + x ^ 2)).
Proof.
  intros x. eapply is_derive_val; [apply is_derive_atan|]. rewrite Rsqr_pow2. unfold Rdiv. ring.
Qed.
Lemma acosh_pos : forall x, 1 < x -> 0 < x ^ 2 - 1.
Proof. intros. nra. Qed.
Lemma acosh_derive : forall x, 1 < x -> is_derive Racosh x (1 / sqrt (x ^ 2 - 1)).
Proof.
  intros x H. unfold Racosh. pose proof (acosh_pos x H) as P. pose proof (sqrt_lt_R0 _ P) as S.
  auto_derive.
  - repeat split; try (replace (x * (x * 1) + - (1)) with (x ^ 2 - 1) by ring); auto.
    replace (x * (x * 1) + -1) with (x ^ 2 - 1) by ring. lra.
  - replace (x * (x * 1) + - (1)) with (x ^ 2 - 1) by ring. field. lra.
Qed.
Lemma asinh_pos : forall x, 0 < x + sqrt (x ^ 2 + 1).
Proof.
  intros x. assert (P : 0 <= x ^ 2) by apply pow2_ge_0.
  assert (Rabs x < sqrt (x ^ 2 + 1)).
  { rewrite <- sqrt_Rsqr_abs. apply sqrt_lt_1_alt. rewrite Rsqr_pow2. lra. }
  pose proof (Rle_abs (- x)). rewrite Rabs_Ropp in H0. lra.
Qed.
Lemma asinh_derive : forall x, is_derive Rasinh x (1 / sqrt (1 + x ^ 2)).
Proof.
  intros x. unfold Rasinh. assert (P0 : 0 <= x ^ 2) by apply pow2_ge_0.
  assert (P : 0 < x ^ 2 + 1) by lra. pose proof (sqrt_lt_R0 _ P) as S. pose proof (asinh_pos x).
  rewrite (Rplus_comm 1 (x ^ 2)).
  auto_derive.
  - repeat split; try (replace (x * (x * 1) + 1) with (x ^ 2 + 1) by ring); auto.
  - replace (x * (x * 1) + 1) with (x ^ 2 + 1) by ring. field. lra.
Qed.
Lemma atanh_derive : forall x, -1 < x < 1 -> is_derive Ratanh x (1 / (1 - x ^ 2)).
Proof.
  intros x H. unfold Ratanh. 
  assert (0 < (1 + x) / (1 - x)) by (apply Rdiv_lt_0_compat; lra).
  auto_derive.
  - repeat split; try lra. exact H0.
  - field. repeat split; nra.
Qed.
Lemma cosh_derive : forall x, is_derive cosh x (sinh x).
Proof. intros. apply is_derive_Reals, derivable_pt_lim_cosh. Qed.
Lemma sinh_derive : forall x, is_derive sinh x (cosh x).
Proof. intros. apply is_derive_Reals, derivable_pt_lim_sinh. Qed.
Lemma cosh_pos : forall x, 0 < cosh x.
Proof. intros. unfold cosh. pose proof (exp_pos x). pose proof (exp_pos (- x)). lra. Qed.
Lemma tanh_derive : forall x, is_derive tanh x (1 - tanh x ^ 2).
Proof.
  intros x. unfold tanh. pose proof (cosh_pos x).
  eapply is_derive_val.
  - apply (is_derive_div sinh cosh x _ _ (sinh_derive x) (cosh_derive x)). lra.
  - simpl. field. lra.
Qed.
Lemma erf_derive : forall x, is_derive Rerf x (exp (- x ^ 2) * (2 / sqrt PI)).
Proof.
  intros x. unfold Rerf.
  assert (C : forall t, continuous (fun t => exp (- t ^ 2)) t).
  { intros t. apply (ex_derive_continuous (fun t => exp (- t ^ 2))). auto_derive. auto. }
  eapply is_derive_val.
  - apply is_derive_scal. apply (is_derive_RInt (fun t => exp (- t ^ 2)) _ 0 x).
    + exists (mkposreal 1 Rlt_0_1). intros b _. apply (@RInt_correct R_CompleteNormedModule).
      apply (@ex_RInt_continuous R_CompleteNormedModule). intros; apply C.
    + apply C.
  - simpl. ring.
Qed.
Lemma fabs_derive : forall x, x <> 0 -> is_derive Rabs x (if Rle_dec 0 x then 1 else -1).
Proof.
  intros x H. eapply is_derive_val.
  - apply (is_derive_Rabs (fun x => x) x 1); auto. apply @is_derive_id.
  - destruct (Rle_dec 0 x).
    + rewrite sign_eq_1; lra.
    + rewrite sign_eq_m1; lra.
Qed.
Lemma ln_derive : forall x, 0 < x -> is_derive ln x (1 / x).
Proof. intros. eapply is_derive_val; [now apply is_derive_ln|]. unfold Rdiv. ring. Qed.
Lemma log10_pos : 0 < ln 10.
Proof. rewrite <- ln_1. apply ln_increasing; lra. Qed.
Lemma log10_derive : forall x, 0 < x -> is_derive (fun x => ln x / ln 10) x (1 / x / ln 10).
Proof. intros. pose proof log10_pos. auto_derive; auto; field; lra. Qed.
Lemma log1p_derive : forall x, -1 < x -> is_derive (fun x => ln (1 + x)) x (1 / (1 + x)).
Proof. intros. auto_derive; [lra|]. field. lra. Qed.
Lemma sqrt_derive : forall x, 0 < x -> is_derive sqrt x (/ 2 / sqrt x).
Proof.
  intros. pose proof (sqrt_lt_R0 _ H). auto_derive; auto; field; lra.
Qed.
Lemma tan_derive : forall x, cos x <> 0 -> is_derive tan x (1 + tan x ^ 2).
Proof. intros. eapply is_derive_val; [now apply is_derive_tan|]. ring. Qed.

(** Powers. *)
Lemma Rpower_derive_x : forall x y, 0 < x ->
  is_derive (fun x => Rpower x y) x (y * Rpower x (y - 1)).
Proof.
  intros x y H. unfold Rpower. auto_derive; auto.
  replace ((y - 1) * ln x) with (y * ln x + - ln x) by ring.
  rewrite exp_plus, exp_Ropp, exp_ln by auto.
  field. lra.
Qed.
Lemma Rpower_derive_y : forall x y, 0 < x ->
  is_derive (fun y => Rpower x y) y (ln x * Rpower x y).
Proof. intros x y H. unfold Rpower. auto_derive; auto; ring. Qed.
Lemma powerRZ_derive : forall x z, (x <> 0 \/ (0 < z)%Z) ->
  is_derive (fun x => powerRZ x z) x (IZR z * powerRZ x (z - 1)).
Proof.
  intros x z H. destruct z as [|p|p].
  - simpl. eapply is_derive_val; [apply @is_derive_const|]. change (@zero R_NormedModule) with 0. ring.
  - simpl powerRZ at 1. eapply is_derive_val.
    + apply (is_derive_pow (fun x => x) (Pos.to_nat p) x 1). apply @is_derive_id.
    + rewrite INR_IZR_INZ, positive_nat_Z.
      assert (powerRZ x (Z.pos p - 1) = x ^ pred (Pos.to_nat p)) as ->.
      { rewrite pow_powerRZ. f_equal. lia. }
      ring.
  - destruct H as [H|H]; [|lia]. simpl powerRZ at 1.
    assert (N0 : x ^ Pos.to_nat p <> 0) by now apply pow_nonzero.
    eapply is_derive_val.
    + apply (is_derive_inv (fun x => x ^ Pos.to_nat p) x _
        (is_derive_pow (fun x => x) (Pos.to_nat p) x 1 (@is_derive_id _ x)) N0).
    + assert (powerRZ x (Z.neg p - 1) = / (x * x ^ Pos.to_nat p)) as ->.
      { replace (Z.neg p - 1)%Z with (- Z.of_nat (S (Pos.to_nat p)))%Z by lia.
        rewrite powerRZ_neg', <- pow_powerRZ. reflexivity. }
      replace (IZR (Z.neg p)) with (- INR (Pos.to_nat p)).
      2:{ rewrite INR_IZR_INZ, positive_nat_Z. rewrite <- opp_IZR. reflexivity. }
      assert (Sp : x ^ Pos.to_nat p = x * x ^ pred (Pos.to_nat p)).
      { destruct (Pos2Nat.is_succ p) as [k ->]. reflexivity. }
      assert (N1 : x ^ pred (Pos.to_nat p) <> 0) by now apply pow_nonzero.
      rewrite Sp. field. auto.
Qed.
Lemma lin_derive : forall k x : R, is_derive (fun x => x * k) x (1 * k).
Proof. intros. auto_derive; auto. Qed.
Lemma expm1_derive : forall x : R, is_derive (fun x => exp x - 1) x (exp x).
Proof. intros. auto_derive; auto. ring. Qed.
Lemma erfc_derive : forall x : R, is_derive (fun x => 1 - Rerf x) x (- exp (- x ^ 2) * (2 / sqrt PI)).
Proof.
  intros. eapply is_derive_val.
  - apply @is_derive_minus; [apply @is_derive_const|apply erf_derive].
  - unfold minus, plus, opp, zero. simpl. ring.
Qed.
