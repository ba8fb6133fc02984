(** Derivatives of the operators, as computed, against those of differential calculus. *)
From Coq Require Import ZArith List Bool Lia Reals Lra.
From Coquelicot Require Import Coquelicot.
From Flocq Require Import Core BinarySingleNaN.
From Verif Require Import Base Heap HeapSpec HeapProofs NumR NumF Affine Ops UMath Machine Cov Calls Unumpy UMatrix History Fuel FFacts FRefute FmtF
  BinProofs BinQ NumFacts BinStd BinArith GradSpec Evolve BinGrad BinGradThm GradStd BinCov DerivR Prim Refine PrimReg CalcSpec CalcAlg CalcFun.
Import ListNotations.
Local Open Scope R_scope.

(** Floats other than 1 are not too near 1. *)
Lemma gap1 : forall r : f64, B2R r <> 1 -> u53 <= Rabs (B2R r - 1).
Proof.
  intros r N. assert (U := u53_val). destruct (Rlt_le_dec (B2R r) (/ 2)) as [A|A]; [rewrite Rabs_left by lra; lra|].
  assert (G := generic_format_B2R 53 1024 r). change (generic_format radix2 (FLT_exp (-1074) 53) (B2R r)) in G. unfold generic_format in G.
  set (ce := cexp radix2 (FLT_exp (-1074) 53) (B2R r)) in *. set (m := Ztrunc (scaled_mantissa radix2 (FLT_exp (-1074) 53) (B2R r))) in *.
  assert (C : (-53 <= ce)%Z).
  { unfold ce, cexp, FLT_exp. assert (M : (0 <= mag radix2 (B2R r))%Z). { apply mag_ge_bpow. rewrite Rabs_pos_eq by lra. change (bpow radix2 (0 - 1)) with (/ IZR 2). lra. } lia. }
  assert (E : B2R r = IZR (m * 2 ^ (ce + 53)) * u53).
  { rewrite G at 1. unfold F2R. cbn [Fnum Fexp]. rewrite mult_IZR, (IZR_Zpower radix2) by lia. unfold u53. rewrite Rmult_assoc, <- bpow_plus. do 2 f_equal. lia. }
  assert (O : 1 = IZR (2 ^ 53) * u53). { rewrite (IZR_Zpower radix2) by lia. unfold u53. rewrite <- bpow_plus. reflexivity. }
  assert (D : B2R r - 1 = IZR (m * 2 ^ (ce + 53) - 2 ^ 53) * u53) by (rewrite minus_IZR, E; rewrite O at 1; ring).
  assert (NZ : (m * 2 ^ (ce + 53) - 2 ^ 53 <> 0)%Z). { intros Z0. apply N. rewrite Z0 in D. lra. }
  rewrite D, Rabs_mult, (Rabs_pos_eq u53) by lra. rewrite <- (Rmult_1_l u53) at 1. apply Rmult_le_compat_r; [lra|]. rewrite <- abs_IZR. apply IZR_le. lia.
Qed.
Lemma fsub_exact : forall x y : f64, is_finite x = true -> is_finite y = true -> representable (B2R x - B2R y) ->
  is_finite (fsub x y) = true /\ B2R (fsub x y) = B2R x - B2R y.
Proof.
  intros x y F G (z & Fz & Ez).
  pose proof (Bminus_correct 53 1024 prec_gt_0_64 prec_lt_emax_64 mode_NE x y F G) as C. fold (fsub x y) in C.
  rewrite round_generic in C; [|apply valid_rnd_N|rewrite <- Ez; apply generic_format_B2R].
  rewrite Rlt_bool_true in C by (rewrite <- Ez; apply abs_B2R_lt_emax). tauto.
Qed.
Lemma rnd_rep : forall y, representable y -> rnd64 y = y /\ Rabs y < bpow radix2 1024.
Proof. intros y (z & F & <-). split; [apply round_generic; [apply valid_rnd_N|apply generic_format_B2R]|apply abs_B2R_lt_emax]. Qed.

Section Op.
Variable lm : Libm.
Notation FN := (FOps lm).

(** Conversions of Python numbers. *)
Lemma conv_exact : forall c : pynum FN, cfinite lm c = true -> representable (cval lm c) ->
  exists x, pn_float c = Ok x /\ is_finite (x : f64) = true /\ B2R (x : f64) = cval lm c.
Proof.
  intros [z|x] F H; [|exists x; cbn in *; auto]. cbn [pn_float cval] in *. change (n_of_Z FN z) with (f_of_Z z).
  destruct (Z.eq_dec z 0) as [->|N]; [exists (fnorm 0 0); vm_compute; auto|].
  destruct (rnd_rep _ H) as (R1 & R2). pose proof (fnorm_R z 0 N) as X. cbv zeta in X. replace (F2R (Float radix2 z 0)) with (IZR z) in X by (unfold F2R; simpl; ring).
  rewrite R1, Rlt_bool_true in X by exact R2. destruct X as (X1 & X2 & _). exists (fnorm z 0). split; [|auto].
  unfold f_of_Z. cbv zeta. destruct (fnorm z 0); try discriminate X2; reflexivity.
Qed.
Lemma conv_W : forall c : pynum FN, cfinite lm c = true -> mid (cval lm c) ->
  exists x, pn_float c = Ok x /\ is_finite (x : f64) = true /\ W 2 (B2R (x : f64)) (cval lm c).
Proof.
  intros [z|x] F H; [|exists x; cbn in *; split; [reflexivity|]; split; [exact F|]; apply W_mono with 0%nat; [lia|apply W_refl]].
  cbn [pn_float cval] in *. change (n_of_Z FN z) with (f_of_Z z).
  destruct (Z.eq_dec z 0) as [->|N].
  { exists (fnorm 0 0). split; [reflexivity|]. split; [reflexivity|]. change (B2R (fnorm 0 0)) with 0. apply W_mono with 0%nat; [lia|apply W_refl]. }
  assert (M := mid_range 0 _ _ ltac:(lia) (W_refl _) H). destruct (rnd_ok _ M) as (A & B).
  pose proof (fnorm_R z 0 N) as X. cbv zeta in X. replace (F2R (Float radix2 z 0)) with (IZR z) in X by (unfold F2R; simpl; ring).
  rewrite Rlt_bool_true in X by exact A. destruct X as (X1 & X2 & _). exists (fnorm z 0). split; [|split; [exact X2|rewrite X1; now apply W_rnd]].
  unfold f_of_Z. cbv zeta. destruct (fnorm z 0); try discriminate X2; reflexivity.
Qed.
Lemma mid_0_1 : mid 1.
Proof. apply mid_1. assert (r10 0 <= r10 299) by (apply r10_le; lia). rewrite r10_Z in H by lia. simpl in H. lra. Qed.
Lemma divZ_W : forall a b, b <> 0%Z -> mid (IZR a / IZR b) -> exists r, f_divZ a b = Ok r /\ is_finite r = true /\ W 2 (B2R r) (IZR a / IZR b).
Proof.
  intros a b N M.
  assert (P : forall a b, (0 < b)%Z -> mid (IZR a / IZR b) -> is_finite (fratio a b) = true /\ W 2 (B2R (fratio a b)) (IZR a / IZR b)).
  { clear. intros a b P M. destruct (Z.eq_dec a 0) as [->|N].
    - assert (E : fratio 0 b = f0). { unfold fratio. cbv zeta. cbn [Z.abs]. rewrite Z.mul_0_l, Z.mod_0_l, Z.div_0_l by lia. reflexivity. }
      rewrite E. split; [reflexivity|]. unfold Rdiv. rewrite Rmult_0_l. change (B2R f0) with 0. apply W_mono with 0%nat; [lia|apply W_refl].
    - assert (Q := mid_range 0 _ _ ltac:(lia) (W_refl _) M). destruct (rnd_ok _ Q) as (A & B). pose proof (fratio_R a b N P) as X. cbv zeta in X.
      rewrite Rlt_bool_true in X by exact A. destruct X as (X1 & X2 & _). split; [exact X2|]. rewrite X1. now apply W_rnd. }
  unfold f_divZ. rewrite (proj2 (Z.eqb_neq _ _) N). cbv zeta.
  set (r := if (b <? 0)%Z then fratio (- a) (- b) else fratio a b).
  assert (X : is_finite r = true /\ W 2 (B2R r) (IZR a / IZR b)).
  { unfold r. destruct (Z.ltb_spec b 0) as [L|L]; [|apply P; [lia|exact M]]. assert (E : IZR a / IZR b = IZR (- a) / IZR (- b)).
    { rewrite !opp_IZR. field. apply IZR_neq. exact N. }
    rewrite E in *. apply P; [lia|exact M]. }
  destruct X as (X1 & X2). exists r. split; [|split; [exact X1|exact X2]].
  clearbody r. destruct r; try discriminate X1; reflexivity.
Qed.
Lemma div_pn : forall (a b : pynum FN), cfinite lm a = true -> cfinite lm b = true -> mid (cval lm a) -> mid (cval lm b) -> cval lm b <> 0 -> mid (cval lm a / cval lm b) ->
  exists r, pn_div a b = Ok (PF r) /\ is_finite (r : f64) = true /\ W 6 (B2R (r : f64)) (cval lm a / cval lm b).
Proof.
  intros a b Fa Fb Ma Mb Nb Mq. destruct (conv_W a Fa Ma) as (x & Ex & Fx & Wx). destruct (conv_W b Fb Mb) as (y & Ey & Fy & Wy).
  destruct (div_W 2 2 x y _ _ ltac:(lia) Fx Wx Wy Nb Mq) as (D1 & D2 & D3).
  assert (FL : rbind (pn_float a) (fun x => rbind (pn_float b) (fun y => rbind (n_div FN x y) (fun r => Ok (PF r)))) = Ok (PF (N:=FN) (fdiv x y))).
  { rewrite Ex. cbn [rbind]. rewrite Ey. cbn [rbind]. change (n_div FN x y) with (f_div x y). rewrite D1. reflexivity. }
  destruct a as [p|p]; [destruct b as [q|q]|].
  - cbn [cval] in *. destruct (divZ_W p q) as (r & Er & Fr & Wr); [intros ->; apply Nb; reflexivity|exact Mq|].
    exists r. split; [|split; [exact Fr|apply W_mono with 2%nat; [lia|exact Wr]]]. unfold pn_div. change (n_divZ FN p q) with (f_divZ p q). rewrite Er. reflexivity.
  - exists (fdiv x y). split; [exact FL|split; [exact D2|exact D3]].
  - exists (fdiv x y). split; [exact FL|split; [exact D2|exact D3]].
Qed.
Lemma mul_pn : forall (a : pynum FN) (s : f64) n z, (n <= 26)%nat -> cfinite lm a = true -> is_finite s = true -> mid (cval lm a) -> W n (B2R s) z -> mid (cval lm a * z) ->
  exists r, pn_mul a (PF (N:=FN) s) = Ok (PF r) /\ is_finite (r : f64) = true /\ W (n + 4) (B2R (r : f64)) (cval lm a * z).
Proof.
  intros a s n z Hn Fa Fs Ma Ws M. destruct (conv_W a Fa Ma) as (x & Ex & Fx & Wx). destruct (mul_W 2 n x s _ _ ltac:(lia) Fx Fs Wx Ws M) as (D2 & D3).
  exists (fmul x s). split; [|split; [exact D2|replace (n + 4)%nat with (2 + n + 2)%nat by lia; exact D3]].
  destruct a as [p|p]; unfold pn_mul; rewrite Ex; reflexivity.
Qed.

Hypothesis OK : libm_ok lm.

(** a**y for a positive base. *)
Lemma powf_W : forall a y : f64, is_finite a = true -> is_finite y = true -> 0 < B2R a -> r10 (-280) <= Rpower (B2R a) (B2R y) <= r10 280 ->
  exists r, f_pow lm a y = Ok (Some r) /\ is_finite r = true /\ W 5 (B2R r) (Rpower (B2R a) (B2R y)).
Proof.
  intros a y Fa Fy Pa H. unfold f_pow.
  assert (EX : Rpower (B2R a) (B2R y) = 1 -> W 5 (B2R fone) (Rpower (B2R a) (B2R y))).
  { intros ->. rewrite one_R. apply W_mono with 0%nat; [lia|apply W_refl]. }
  rewrite (Beqb_correct _ _ y f0 Fy eq_refl). change (B2R f0) with 0. destruct (Req_bool_spec (B2R y) 0) as [E0|E0].
  { exists fone. split; [reflexivity|]. split; [reflexivity|]. apply EX. rewrite E0. apply Rpower_O. exact Pa. }
  assert (N1 : is_nanf a = false) by (destruct a; try discriminate Fa; reflexivity).
  assert (N2 : is_inf a = false) by (destruct a; try discriminate Fa; reflexivity).
  assert (N3 : is_nanf y = false) by (destruct y; try discriminate Fy; reflexivity).
  assert (N4 : is_inf y = false) by (destruct y; try discriminate Fy; reflexivity).
  rewrite N1, N2, N3, N4. rewrite (Beqb_correct _ _ a f0 Fa eq_refl). change (B2R f0) with 0. rewrite Req_bool_false by lra.
  assert (L : Bltb a f0 = false) by (rewrite Bltb_correct by (auto; reflexivity); apply Rlt_bool_false; change (B2R f0) with 0; lra).
  rewrite L. cbn [andb].
  assert (Fb : is_finite (fabs a) = true) by (destruct a; try discriminate Fa; reflexivity).
  assert (Eb : B2R (fabs a) = B2R a) by (unfold fabs; rewrite B2R_Babs; apply Rabs_pos_eq; lra).
  rewrite (Beqb_correct _ _ (fabs a) fone Fb eq_refl), one_R, Eb. destruct (Req_bool_spec (B2R a) 1) as [E1|E1].
  { exists fone. split; [reflexivity|]. split; [reflexivity|]. apply EX. rewrite E1. unfold Rpower. rewrite ln_1, Rmult_0_r. apply exp_0. }
  destruct OK as (_ & A). destruct (A (fabs a) y Fb Fy) as (A1 & A2 & A3).
  { rewrite Eb. exact Pa. } { rewrite Eb, p280. lra. }
  rewrite Eb in *. exists (lm_pow lm (fabs a) y).
  assert (I : is_inf (lm_pow lm (fabs a) y) = false) by (destruct (lm_pow lm (fabs a) y); try discriminate A1; reflexivity).
  rewrite I. split; [reflexivity|]. split; [exact A1|]. apply (W_err 4); [lia|]. replace (INR 4) with 4 by (simpl; lra). rewrite <- u51.
  apply A3. right. rewrite ip280. assert (P := r10_pos (-280)). rewrite Rabs_pos_eq by lra. lra.
Qed.
(** Logarithms of floats. *)
Lemma ln_tame : forall x : f64, 0 < B2R x -> tame (B2R x) -> tame (ln (B2R x)).
Proof.
  intros x P T. destruct (Req_dec (B2R x) 1) as [->|N]; [left; apply ln_1|right].
  assert (G := gap1 x N). assert (U := u53_val).
  assert (L : forall t, 0 < t -> ln t <= t - 1). { intros t Pt. assert (Y := exp_ineq1_le (ln t)). rewrite exp_ln in Y by exact Pt. lra. }
  assert (X : r10 (-100) <= B2R x <= r10 100).
  { destruct (tame_r10 _ T) as [Z|M]; [lra|]. rewrite Rabs_pos_eq in M by lra. exact M. }
  assert (H1 := L _ P). assert (H2 := L (/ B2R x) ltac:(now apply Rinv_0_lt_compat)). rewrite ln_Rinv in H2 by exact P.
  assert (Lo : r10 (-100) <= u53 / 4).
  { apply Rle_trans with (r10 (-18)); [apply r10_le; lia|]. unfold u53. change (bpow radix2 (-53)) with (/ IZR 9007199254740992).
    change (-18)%Z with (- (18))%Z. rewrite r10_inv, r10_Z by lia. change (10 ^ 18)%Z with 1000000000000000000%Z. lra. }
  assert (Hi : r10 100 * r10 (-100) = 1) by (rewrite <- r10_add, r10_Z by lia; reflexivity).
  unfold moderate. rewrite pow10, <- r10_inv. change (Z.of_nat 100) with 100%Z. change (- (100))%Z with (-100)%Z. assert (P1 := r10_pos (-100)). assert (P2 := r10_pos 100).
  destruct (Rlt_le_dec (B2R x) 1) as [B|B].
  - rewrite Rabs_left in G by lra. rewrite Rabs_left1 by lra. split; [lra|].
    apply Rle_trans with (/ B2R x - 1); [lra|]. assert (/ B2R x <= / r10 (-100)) by (apply Rinv_le_contravar; lra).
    change (-100)%Z with (- (100))%Z in H. rewrite r10_inv, Rinv_inv in H. lra.
  - rewrite Rabs_pos_eq in G by lra. assert (I1 : / B2R x <= 1) by (rewrite <- Rinv_1; apply Rinv_le_contravar; lra). rewrite Rabs_pos_eq by lra. split; [|lra].
    apply Rle_trans with (1 := Lo). apply Rle_trans with (1 - / B2R x); [|lra].
    destruct (Rle_lt_dec 2 (B2R x)) as [C|C].
    + assert (/ B2R x <= / 2) by (apply Rinv_le_contravar; lra). lra.
    + apply Rmult_le_reg_r with (B2R x); [lra|]. replace ((1 - / B2R x) * B2R x) with (B2R x - 1) by (field; lra).
      apply Rle_trans with (u53 / 4 * 2); [apply Rmult_le_compat_l; lra|lra].
Qed.

Definition dx (op : binop) (x y : R) : R :=
  match op with Badd | Bsub => 1 | Bmul => y | Btruediv => 1 / y | Bpow => y * Rpower x (y - 1) | _ => 0 end.
Definition dy (op : binop) (x y : R) : R :=
  match op with Badd => 1 | Bsub => -1 | Bmul => x | Btruediv => - x / (y * y) | Bpow => ln x * Rpower x y | _ => 0 end.
Lemma op_derive : forall op x y, op_dom op x y ->
  is_derive (fun t => real_op op t y) x (dx op x y) /\ is_derive (fun t => real_op op x t) y (dy op x y).
Proof.
  intros op x y D. destruct op; cbn [op_dom real_op dx dy] in *; try contradiction.
  - split; auto_derive; auto; ring.
  - split; auto_derive; auto; ring.
  - split; auto_derive; auto; ring.
  - destruct D as (D & _). split; auto_derive; auto; field; exact D.
  - destruct D as (D & _). split; [now apply Rpower_derive_x|now apply Rpower_derive_y].
Qed.
Lemma mid_of : forall a b v, (-299 <= a)%Z -> (b <= 299)%Z -> r10 a <= Rabs v <= r10 b -> mid v.
Proof. intros a b v Ha Hb H. right. assert (X := r10_le (-299) a Ha). assert (Y := r10_le b 299 Hb). lra. Qed.
Lemma pow_of_tame : forall x y, 0 < x -> tame y -> y <> 0 -> tame (y * Rpower x (y - 1)) -> r10 (-280) <= Rpower x (y - 1) <= r10 280.
Proof.
  intros x y Px Ty Ny Tc. assert (P := exp_pos ((y - 1) * ln x)). fold (Rpower x (y - 1)) in P. set (w := Rpower x (y - 1)) in *.
  destruct (tame_r10 y Ty) as [->|My]; [contradiction|]. destruct (tame_r10 _ Tc) as [Z|Mc]; [exfalso; apply Rmult_integral in Z as [Z|Z]; lra|].
  rewrite Rabs_mult, (Rabs_pos_eq w) in Mc by lra. assert (A := r10_pos (-100)). assert (B := r10_pos 100).
  assert (Hi : r10 100 * r10 (-100) = 1) by (rewrite <- r10_add, r10_Z by lia; reflexivity).
  assert (L : r10 (-200) <= w).
  { replace (r10 (-200)) with (r10 (-100) * r10 (-100)) by (rewrite <- r10_add; reflexivity). apply Rmult_le_reg_l with (r10 100); [exact B|].
    rewrite <- Rmult_assoc, Hi, Rmult_1_l. apply Rle_trans with (1 := proj1 Mc). apply Rmult_le_compat_r; lra. }
  assert (H : w <= r10 200).
  { replace (r10 200) with (r10 100 * r10 100) by (rewrite <- r10_add; reflexivity). apply Rmult_le_reg_l with (r10 (-100)); [exact A|].
    rewrite <- Rmult_assoc, (Rmult_comm (r10 (-100)) (r10 100)), Hi, Rmult_1_l. apply Rle_trans with (2 := proj2 Mc). apply Rmult_le_compat_r; lra. }
  split; [apply Rle_trans with (2 := L)|apply Rle_trans with (1 := H)]; apply r10_le; lia.
Qed.
Lemma pos_shape : forall p : pynum FN, cfinite lm p = true -> 0 < cval lm p -> pn_is0 p = false.
Proof.
  intros [z|x] F P; cbn [pn_is0 cval cfinite] in *.
  - apply Z.eqb_neq. intros ->. lra.
  - change (n_eq FN x (n_zero FN)) with (Beqb x f0). rewrite (Beqb_correct _ _ x f0 F eq_refl). apply Req_bool_false. change (B2R f0) with 0. lra.
Qed.
Lemma is0_R : forall p : pynum FN, cfinite lm p = true -> (pn_is0 p = true <-> cval lm p = 0).
Proof.
  intros [z|x] F; cbn [pn_is0 cval cfinite] in *.
  - rewrite Z.eqb_eq. split; [intros ->; reflexivity|apply eq_IZR].
  - change (n_eq FN x (n_zero FN)) with (Beqb x f0). rewrite (Beqb_correct _ _ x f0 F eq_refl). change (B2R f0) with 0.
    destruct (Req_bool_spec (B2R x) 0) as [E|E]; split; auto; discriminate.
Qed.
Lemma pred_R : forall q : pynum FN, cfinite lm q = true -> representable (cval lm q - 1) ->
  exists z, pn_float (pn_pred q) = Ok z /\ is_finite (z : f64) = true /\ B2R (z : f64) = cval lm q - 1.
Proof.
  intros [n|y] F H; cbn [pn_pred cval cfinite] in *.
  - destruct (conv_exact (PZ (n - 1))) as (z & A & B & C); [reflexivity|cbn [cval]; rewrite minus_IZR; exact H|]. exists z. rewrite C. cbn [cval]. rewrite minus_IZR. auto.
  - exists (fsub y fone). split; [reflexivity|]. rewrite <- one_R. apply fsub_exact; [exact F|reflexivity|]. rewrite one_R. exact H.
Qed.
Definition computes (r : res (pynum FN)) (c : R) : Prop := exists c', r = Ok c' /\ cfinite lm c' = true /\ about (cval lm c') c.
Lemma computes_W : forall (r : f64) n c, is_finite r = true -> W n (B2R r) c -> (n <= 30)%nat -> computes (Ok (PF (N:=FN) r)) c.
Proof. intros r n c F H Hn. exists (PF (N:=FN) r). split; [reflexivity|]. exact (ok_num lm r n c F H Hn). Qed.
Lemma computes_exact : forall (c' : pynum FN) c, cfinite lm c' = true -> cval lm c' = c -> computes (Ok c') c.
Proof. intros c' c F E. exists c'. split; [reflexivity|]. split; [exact F|]. apply (W_about 0); [lia|]. rewrite E. apply W_refl. Qed.

Lemma op_x : forall op (p q : pynum FN), cfinite lm p = true -> cfinite lm q = true -> op_dom op (cval lm p) (cval lm q) ->
  tame (dx op (cval lm p) (cval lm q)) -> computes (op_der_x op p q) (dx op (cval lm p) (cval lm q)).
Proof.
  intros op p q Fp Fq D T. destruct op; cbn [op_dom dx op_der_x] in *; try contradiction.
  - apply computes_exact; [reflexivity|exact one_R].
  - apply computes_exact; [reflexivity|exact one_R].
  - apply computes_exact; [exact Fq|reflexivity].
  - destruct D as (N & Tp & Tq). destruct (div_pn (PZ 1) q eq_refl Fq mid_0_1 (tame_mid _ Tq) N (tame_mid _ T)) as (r & E & F & Wr).
    rewrite E. apply (computes_W r 6); [exact F|exact Wr|lia].
  - destruct D as (Px & Tx & Ty & Rx & Ry & Rz). unfold pow_deriv_0. destruct (pn_is0 q) eqn:Z.
    + apply is0_R in Z; [|exact Fq]. rewrite Z, Rmult_0_l. cbn [nan_if_exception]. apply computes_exact; reflexivity.
    + assert (Ny : cval lm q <> 0) by (intros E0; apply is0_R in E0; [congruence|exact Fq]).
      rewrite (pos_shape p Fp Px). cbn [negb orb]. destruct (conv_exact p Fp Rx) as (a & Ea & Fa & Va). destruct (pred_R q Fq Rz) as (b & Eb & Fb & Vb).
      assert (Hp := pow_of_tame _ _ Px Ty Ny T). rewrite <- Va, <- Vb in Hp. destruct (powf_W a b Fa Fb ltac:(rewrite Va; exact Px) Hp) as (r & Er & Fr & Wr). rewrite Va, Vb in Wr.
      unfold pn_pow. rewrite Ea. cbn [rbind]. rewrite Eb. cbn [rbind]. unfold n_powf. change (n_pow FN a b) with (f_pow lm a b). rewrite Er. cbn [rbind].
      destruct (mul_pn q r 5 _ ltac:(lia) Fq Fr (tame_mid _ Ty) Wr (tame_mid _ T)) as (s & Es & Fs & Ws). rewrite Es. cbn [nan_if_exception].
      apply (computes_W s 9); [exact Fs|exact Ws|lia].
Qed.
Lemma op_y : forall op (p q : pynum FN), cfinite lm p = true -> cfinite lm q = true -> op_dom op (cval lm p) (cval lm q) ->
  tame (dy op (cval lm p) (cval lm q)) -> computes (op_der_y op p q) (dy op (cval lm p) (cval lm q)).
Proof.
  intros op p q Fp Fq D T. destruct op; cbn [op_dom dy op_der_y] in *; try contradiction.
  - apply computes_exact; [reflexivity|exact one_R].
  - apply computes_exact; [reflexivity|]. change (cval lm (PF (n_neg FN (n_one FN)))) with (B2R (Bopp fone)). rewrite B2R_Bopp, one_R. reflexivity.
  - apply computes_exact; [exact Fp|reflexivity].
  - destruct D as (N & Tp & Tq).
    assert (NN : cval lm q * cval lm q <> 0) by (intros Z; apply Rmult_integral in Z; tauto).
    assert (Mq2 : mid (cval lm q * cval lm q)).
    { destruct (tame_r10 _ Tq) as [Z|M]; [contradiction|]. apply (mid_of (-200) 200); [lia|lia|]. rewrite Rabs_mult.
      replace (r10 (-200)) with (r10 (-100) * r10 (-100)) by (rewrite <- r10_add; reflexivity). replace (r10 200) with (r10 100 * r10 100) by (rewrite <- r10_add; reflexivity).
      assert (A := r10_pos (-100)). assert (B := r10_pos 100). split; apply Rmult_le_compat; lra. }
    assert (NEG : cfinite lm (pn_neg p) = true /\ cval lm (pn_neg p) = - cval lm p).
    { destruct p as [z|x]; cbn [pn_neg cval cfinite] in *; [split; [reflexivity|apply opp_IZR]|]. change (n_neg FN x) with (Bopp (x : f64)). rewrite is_finite_Bopp, B2R_Bopp. auto. }
    destruct NEG as (Fn & Vn).
    assert (Mn : mid (cval lm (pn_neg p))).
    { rewrite Vn. destruct (tame_mid _ Tp) as [Z|M]; [left; lra|right; rewrite Rabs_Ropp; exact M]. }
    destruct q as [z|y].
    + cbn [pn_square rbind cval] in *. rewrite <- mult_IZR in *.
      destruct (div_pn (pn_neg p) (PZ (z * z)) Fn eq_refl Mn Mq2 NN) as (r & E & F & Wr); [rewrite Vn; apply tame_mid, T|].
      rewrite E. rewrite Vn in Wr. apply (computes_W r 6); [exact F|exact Wr|lia].
    + cbn [pn_square cval cfinite] in *. destruct (square_abs lm OK y Fq) as (s & Es & Fs & _ & Ws).
      { destruct (tame_r10 _ Tq) as [Z|M]; [contradiction|]. apply Rle_trans with (r10 100); [lra|apply r10_le; lia]. }
      specialize (Ws Tq). rewrite Es. cbn [rbind]. replace (B2R y ^ 2) with (B2R (y : f64) * B2R (y : f64)) in Ws by ring.
      destruct (conv_W (pn_neg p) Fn Mn) as (x & Ex & Fx & Wx). rewrite Vn in Wx.
      destruct (div_W 2 5 x s _ _ ltac:(lia) Fx Wx Ws NN (tame_mid _ T)) as (D1 & D2 & D3).
      assert (E : pn_div (pn_neg p) (PF (N:=FN) s) = Ok (PF (N:=FN) (fdiv x s))).
      { unfold pn_div. destruct (pn_neg p) as [zz|xx]; rewrite Ex; cbn [rbind pn_float]; change (n_div FN x s) with (f_div x s); rewrite D1; reflexivity. }
      rewrite E. apply (computes_W _ 9); [exact D2|exact D3|lia].
  - destruct D as (Px & Tx & Ty & Rx & Ry & Rz). unfold pow_deriv_1. rewrite (pos_shape p Fp Px). cbn [andb].
    destruct (conv_exact p Fp Rx) as (a & Ea & Fa & Va). destruct (conv_exact q Fq Ry) as (b & Eb & Fb & Vb). rewrite Ea. cbn [rbind].
    assert (Tl : tame (ln (cval lm p))) by (rewrite <- Va in *; now apply ln_tame).
    assert (Yl : Rfun1 (fun _ => 0) (fun _ => 0) F_log (B2R (a : f64)) = Ok (ln (cval lm p))).
    { rewrite Va. unfold Rfun1. rewrite (proj2 (Rltb_true 0 _)) by exact Px. reflexivity. }
    destruct (lib_W lm OK F_log a _ eq_refl Fa Yl Tl) as (l & El & Fl & Wl). change (n_fun1 FN F_log a) with (f_fun1 lm F_log a). rewrite El. cbn [rbind].
    unfold pn_pow. rewrite Ea. cbn [rbind]. rewrite Eb. cbn [rbind]. unfold n_powf. change (n_pow FN a b) with (f_pow lm a b).
    assert (Hp : r10 (-280) <= Rpower (cval lm p) (cval lm q) <= r10 280).
    { destruct (Req_dec (ln (cval lm p)) 0) as [Z|NZ].
      - unfold Rpower. rewrite Z, Rmult_0_r, exp_0. replace 1 with (r10 0) by (rewrite r10_Z by lia; reflexivity). split; apply r10_le; lia.
      - assert (Hq := pow_of_tame (cval lm p) (ln (cval lm p)) Px Tl NZ). clear Hq.
        assert (Pw := exp_pos (cval lm q * ln (cval lm p))). fold (Rpower (cval lm p) (cval lm q)) in Pw. set (w := Rpower (cval lm p) (cval lm q)) in *. set (L := ln (cval lm p)) in *.
        destruct (tame_r10 L Tl) as [Z|My]; [contradiction|]. destruct (tame_r10 _ T) as [Z|Mc]; [exfalso; apply Rmult_integral in Z as [Z|Z]; lra|].
        rewrite Rabs_mult, (Rabs_pos_eq w) in Mc by lra. assert (A := r10_pos (-100)). assert (B := r10_pos 100).
        assert (Hi : r10 100 * r10 (-100) = 1) by (rewrite <- r10_add, r10_Z by lia; reflexivity).
        assert (LL : r10 (-200) <= w).
        { replace (r10 (-200)) with (r10 (-100) * r10 (-100)) by (rewrite <- r10_add; reflexivity). apply Rmult_le_reg_l with (r10 100); [exact B|].
          rewrite <- Rmult_assoc, Hi, Rmult_1_l. apply Rle_trans with (1 := proj1 Mc). apply Rmult_le_compat_r; lra. }
        assert (HH : w <= r10 200).
        { replace (r10 200) with (r10 100 * r10 100) by (rewrite <- r10_add; reflexivity). apply Rmult_le_reg_l with (r10 (-100)); [exact A|].
          rewrite <- Rmult_assoc, (Rmult_comm (r10 (-100)) (r10 100)), Hi, Rmult_1_l. apply Rle_trans with (2 := proj2 Mc). apply Rmult_le_compat_r; lra. }
        split; [apply Rle_trans with (2 := LL)|apply Rle_trans with (1 := HH)]; apply r10_le; lia. }
    rewrite <- Va, <- Vb in Hp. destruct (powf_W a b Fa Fb ltac:(rewrite Va; exact Px) Hp) as (r & Er & Fr & Wr). rewrite Va, Vb in Wr.
    rewrite Er. cbn [rbind]. destruct (mul_W 5 5 l r _ _ ltac:(lia) Fl Fr Wl Wr (tame_mid _ T)) as (M1 & M2).
    change (pn_mul (PF (N:=FN) l) (PF (N:=FN) r)) with (Ok (PF (N:=FN) (fmul l r))). cbn [nan_if_exception]. apply (computes_W _ 12); [exact M1|exact M2|lia].
Qed.
Theorem operator_derivatives : forall op (p q : pynum FN), cfinite lm p = true -> cfinite lm q = true -> op_dom op (cval lm p) (cval lm q) ->
  exists cx cy, is_derive (fun t => real_op op t (cval lm q)) (cval lm p) cx /\ is_derive (fun t => real_op op (cval lm p) t) (cval lm q) cy /\
    (tame cx -> exists c, op_der_x op p q = Ok c /\ cfinite lm c = true /\ about (cval lm c) cx) /\
    (tame cy -> exists c, op_der_y op p q = Ok c /\ cfinite lm c = true /\ about (cval lm c) cy).
Proof.
  intros op p q Fp Fq D. destruct (op_derive op _ _ D) as (A & B). eexists. eexists. split; [exact A|]. split; [exact B|].
  split; intros T; [apply op_x|apply op_y]; assumption.
Qed.
End Op.
