(** Derivatives of the math functions, as computed, against those of differential calculus. *)
From Coq Require Import ZArith List Bool Lia Reals Lra.
From Coquelicot Require Import Coquelicot.
From Flocq Require Import Core BinarySingleNaN.
From Verif Require Import Base Heap HeapSpec HeapProofs NumR NumF Affine Ops UMath Machine Cov Calls Unumpy UMatrix History Fuel FFacts FRefute FmtF
  BinProofs BinQ BinStd BinArith GradSpec Evolve BinGrad BinGradThm GradStd BinCov DerivR Prim Refine PrimReg CalcSpec CalcAlg.
Import ListNotations.
Local Open Scope R_scope.

Lemma u51 : / 2 ^ 51 = 4 * u53.
Proof. unfold u53. change (bpow radix2 (-53)) with (/ IZR 9007199254740992). simpl. lra. Qed.
Lemma p280 : 10 ^ 280 = r10 280.
Proof. rewrite pow10. reflexivity. Qed.
Lemma ip280 : / 10 ^ 280 = r10 (-280).
Proof. rewrite pow10, <- r10_inv. reflexivity. Qed.
Lemma ip300 : / 10 ^ 300 = r10 (-300).
Proof. rewrite pow10, <- r10_inv. reflexivity. Qed.
Lemma tame_r10 : forall x, tame x -> x = 0 \/ r10 (-100) <= Rabs x <= r10 100.
Proof. intros x [->|H]; [now left|right]. now apply moderate_r10. Qed.
Lemma tame_mid : forall x, tame x -> mid x.
Proof.
  intros x H. destruct (tame_r10 x H) as [->|M]; [now left|right]. assert (A : r10 (-299) <= r10 (-100)) by (apply r10_le; lia).
  assert (B : r10 100 <= r10 299) by (apply r10_le; lia). lra.
Qed.
Lemma acc_W : forall r y, accurate r y -> tame y -> is_finite r = true /\ W 5 (B2R r) y.
Proof.
  intros r y (F & _ & A) T. split; [exact F|]. apply (W_err 4); [lia|]. replace (INR 4) with 4 by (simpl; lra). rewrite <- u51. apply A.
  destruct (tame_r10 y T) as [->|M]; [now left|right]. rewrite ip280. assert (r10 (-280) <= r10 (-100)) by (apply r10_le; lia). lra.
Qed.
Lemma tame_280 : forall y, tame y -> Rabs y <= 10 ^ 280.
Proof.
  intros y T. rewrite p280. assert (P := r10_pos 280). assert (r10 100 <= r10 280) by (apply r10_le; lia).
  destruct (tame_r10 y T) as [->|M]; [rewrite Rabs_R0; lra|lra].
Qed.

Section Fun.
Variable lm : Libm.
Notation FN := (FOps lm).
Hypothesis OK : libm_ok lm.

Lemma lib_W : forall f (x : f64) y, in_libm f = true -> is_finite x = true -> Rfun1 (fun _ => 0) (fun _ => 0) f (B2R x) = Ok y -> tame y ->
  exists r, f_fun1 lm f x = Ok r /\ is_finite r = true /\ W 5 (B2R r) y.
Proof.
  intros f x y I F E0 T. destruct OK as (A & _). destruct (A f x y I F E0 (tame_280 y T)) as (r & Er & Ac). exists r.
  split; [|apply acc_W; assumption]. destruct f; try discriminate I; exact Er.
Qed.
(** Squares. *)
Lemma square_abs : forall x : f64, is_finite x = true -> Rabs (B2R x) <= r10 140 ->
  exists r, n_powf (N:=FN) x (n_two FN) = Ok r /\ is_finite r = true /\ Rabs (B2R r - B2R x ^ 2) <= 4 * u53 * B2R x ^ 2 + r10 (-300) /\
    (tame (B2R x) -> W 5 (B2R r) (B2R x ^ 2)).
Proof.
  intros x F P. assert (U := u53_val). assert (P300 := r10_pos (-300)). change (n_two FN) with ftwo.
  assert (N1 : is_nanf x = false) by (destruct x; try discriminate F; reflexivity).
  assert (N2 : is_inf x = false) by (destruct x; try discriminate F; reflexivity).
  unfold n_powf. change (n_pow FN x ftwo) with (f_pow lm x ftwo).
  unfold f_pow. change (Beqb ftwo f0) with false. change (is_nanf ftwo) with false. change (is_inf ftwo) with false. cbv iota.
  rewrite N1, N2, two_even, two_int, !andb_false_r. cbn [andb negb]. change (Bltb ftwo f0) with false. cbv iota.
  rewrite (Beqb_correct _ _ x f0 F eq_refl). change (B2R f0) with 0.
  assert (EX : forall r : f64, B2R r = B2R x ^ 2 -> Rabs (B2R r - B2R x ^ 2) <= 4 * u53 * B2R x ^ 2 + r10 (-300) /\ (tame (B2R x) -> W 5 (B2R r) (B2R x ^ 2))).
  { intros r E0. split.
    - rewrite E0, Rminus_diag_eq, Rabs_R0 by reflexivity. assert (Q := pow2_ge_0 (B2R x)). nra.
    - intros _. rewrite E0. apply W_mono with 0%nat; [lia|apply W_refl]. }
  destruct (Req_bool_spec (B2R x) 0) as [E|E].
  - exists f0. split; [reflexivity|]. split; [reflexivity|]. apply EX. rewrite E. change (B2R f0) with 0. ring.
  - assert (Fa : is_finite (fabs x) = true) by (destruct x; try discriminate F; reflexivity).
    assert (Ea : B2R (fabs x) = Rabs (B2R x)) by (unfold fabs; now rewrite B2R_Babs).
    rewrite (Beqb_correct _ _ (fabs x) fone Fa eq_refl), one_R, Ea. destruct (Req_bool_spec (Rabs (B2R x)) 1) as [E1|E1].
    + exists fone. split; [reflexivity|]. split; [reflexivity|]. apply EX. rewrite one_R, <- pow2_abs, E1. ring.
    + assert (Pa : 0 < B2R (fabs x)) by (rewrite Ea; now apply Rabs_pos_lt).
      assert (T2 : B2R ftwo = 2) by (change 2 with (IZR 2); unfold ftwo; vm_compute; lra).
      assert (Rp : Rpower (B2R (fabs x)) (B2R ftwo) = B2R x ^ 2).
      { rewrite T2. replace 2 with (INR 2) by (simpl; lra). rewrite Rpower_pow by exact Pa. rewrite Ea. apply pow2_abs. }
      destruct OK as (_ & A). specialize (A (fabs x) ftwo Fa eq_refl Pa). rewrite Rp in A.
      assert (B : B2R x ^ 2 <= 10 ^ 280).
      { rewrite p280, <- pow2_abs. replace (r10 280) with (r10 140 ^ 2) by (cbn [pow]; rewrite Rmult_1_r, <- r10_add; reflexivity).
        apply pow_incr. split; [apply Rabs_pos|exact P]. }
      destruct (A B) as (A1 & A2 & A3). exists (lm_pow lm (fabs x) ftwo).
      assert (I : is_inf (lm_pow lm (fabs x) ftwo) = false) by (destruct (lm_pow lm (fabs x) ftwo); try discriminate A1; reflexivity).
      rewrite I. split; [reflexivity|]. split; [exact A1|]. assert (Q := pow2_ge_0 (B2R x)). split.
      * rewrite u51, (Rabs_pos_eq (B2R x ^ 2)), ip300 in A2 by exact Q. exact A2.
      * intros T. apply (W_err 4); [lia|]. replace (INR 4) with 4 by (simpl; lra). rewrite <- u51. apply A3. right. rewrite Rabs_pos_eq by exact Q.
        destruct (tame_r10 _ T) as [Z|M]; [contradiction|]. rewrite ip280. apply Rle_trans with (r10 (-200)); [apply r10_le; lia|].
        rewrite <- pow2_abs. replace (r10 (-200)) with (r10 (-100) ^ 2) by (cbn [pow]; rewrite Rmult_1_r, <- r10_add; reflexivity).
        assert (X := r10_pos (-100)). apply pow_incr. lra.
Qed.
Lemma tiny : r10 (-300) <= / 100 * u53.
Proof.
  apply Rle_trans with (r10 (-18)); [apply r10_le; lia|]. unfold u53. change (bpow radix2 (-53)) with (/ IZR 9007199254740992).
  change (-18)%Z with (- (18))%Z. rewrite r10_inv, r10_Z by lia. change (10 ^ 18)%Z with 1000000000000000000%Z. lra.
Qed.
(** 1 + x**2 *)
Lemma one_square : forall x : f64, is_finite x = true -> Rabs (B2R x) <= r10 140 -> mid (1 + B2R x ^ 2) ->
  exists r, n_powf (N:=FN) x (n_two FN) = Ok r /\ is_finite (fadd fone r) = true /\ W 8 (B2R (fadd fone r)) (1 + B2R x ^ 2).
Proof.
  intros x F P M. destruct (square_abs x F P) as (r & E1 & F1 & A & _). exists r. split; [exact E1|]. assert (U := u53_val). assert (T := tiny).
  apply (add_W 6); [lia|reflexivity|exact F1| |exact M]. apply (W_err 5); [lia|]. rewrite one_R. replace (INR 5) with 5 by (simpl; lra).
  assert (Q := pow2_ge_0 (B2R x)). rewrite (Rabs_pos_eq (1 + _)) by lra. replace (1 + B2R r - (1 + B2R x ^ 2)) with (B2R r - B2R x ^ 2) by ring. nra.
Qed.
Lemma mid_1 : forall y, 1 <= y <= r10 299 -> mid y.
Proof.
  intros y H. right. rewrite Rabs_pos_eq by lra. split; [|lra]. apply Rle_trans with (r10 0); [apply r10_le; lia|]. rewrite r10_Z by lia. simpl. lra.
Qed.
Lemma mid_inv : forall y, mid y -> mid (1 / y).
Proof.
  intros y [->|M]; [left; unfold Rdiv; rewrite Rinv_0; ring|right]. unfold Rdiv. rewrite Rmult_1_l, Rabs_inv. assert (A := r10_pos (-299)). assert (B := r10_pos 299).
  change (-299)%Z with (- (299))%Z in *. rewrite r10_inv in *. split; [apply Rinv_le_contravar; lra|]. rewrite <- (Rinv_inv (r10 299)). apply Rinv_le_contravar; lra.
Qed.
Lemma tame_sq : forall x, tame x -> 1 <= 1 + x ^ 2 <= r10 299.
Proof.
  intros x H. assert (Q := pow2_ge_0 x). split; [lra|]. assert (A : x ^ 2 <= r10 200).
  { destruct (tame_r10 x H) as [->|M]; [assert (P := r10_pos 200); simpl; lra|]. rewrite <- pow2_abs.
    replace (r10 200) with (r10 100 ^ 2) by (cbn [pow]; rewrite Rmult_1_r, <- r10_add; reflexivity). apply pow_incr. assert (X := Rabs_pos x). lra. }
  assert (B : r10 201 <= r10 299) by (apply r10_le; lia). replace (r10 201) with (r10 200 * 10) in B.
  2:{ replace 10 with (r10 1) by (rewrite r10_Z by lia; reflexivity). rewrite <- r10_add. reflexivity. }
  assert (C : r10 0 <= r10 200) by (apply r10_le; lia). rewrite r10_Z in C by lia. simpl in C. lra.
Qed.
Lemma half_R : B2R (n_half FN : f64) = / 2 /\ is_finite (n_half FN : f64) = true.
Proof. split; [|reflexivity]. vm_compute. lra. Qed.
Lemma ten_R : B2R (n_ten FN : f64) = 10 /\ is_finite (n_ten FN : f64) = true.
Proof. split; [|reflexivity]. vm_compute. lra. Qed.
Lemma tame_small : forall y, / 10 <= y <= 100 -> tame y.
Proof.
  intros y H. right. rewrite Rabs_pos_eq by lra. unfold moderate. rewrite pow10, <- r10_inv. split.
  - apply Rle_trans with (r10 (-1)); [apply r10_le; lia|]. change (-1)%Z with (- (1))%Z. rewrite r10_inv, r10_Z by lia. simpl. lra.
  - apply Rle_trans with (r10 2); [|apply r10_le; lia]. rewrite r10_Z by lia. simpl. lra.
Qed.
Lemma ln10_bounds : 1 <= ln 10 <= 9.
Proof.
  split.
  - rewrite <- (ln_exp 1). apply ln_le; [apply exp_pos|]. assert (X := exp_le_3). lra.
  - assert (X : forall t, 0 < t -> ln t <= t - 1). { intros t Pt. assert (Y := exp_ineq1_le (ln t)). rewrite exp_ln in Y by exact Pt. lra. }
    assert (Y := X 10 ltac:(lra)). lra.
Qed.

(** The derivative of a function at a point, and what umath computes for it. *)
Definition slope (f : mfun1) (x : R) : R :=
  match f with
  | F_sin => cos x | F_cos => - sin x | F_tan => 1 + tan x ^ 2 | F_atan => 1 / (1 + x ^ 2) | F_exp | F_expm1 => exp x
  | F_log => 1 / x | F_log10 => 1 / x / ln 10 | F_log1p => 1 / (1 + x) | F_sqrt => / 2 / sqrt x | F_sinh => cosh x | F_cosh => sinh x
  | F_asinh => 1 / sqrt (1 + x ^ 2) | F_fabs => if Rle_dec 0 x then 1 else -1 | F_degrees => 1 * (180 / PI) | F_radians => 1 * (PI / 180)
  | _ => 0
  end.
Lemma slope_derive : forall f x, steady f = true -> m1_dom f x -> is_derive (real_fun f) x (slope f x).
Proof.
  intros f x Sf Dom. apply is_derive_ext_loc with (m1_real (g := fun _ => 0) (lg := fun _ => 0) f).
  - destruct (m1_near (g := fun _ => 0) (lg := fun _ => 0) f x Dom) as (d & Pd & D). exists (mkposreal d Pd). intros t Ht. unfold real_fun. rewrite D; [reflexivity|]. exact Ht.
  - destruct f; try discriminate Sf; cbn [m1_real slope m1_dom] in *.
    + apply asinh_derive.
    + apply atan_derive.
    + apply is_derive_cos.
    + apply cosh_derive.
    + apply lin_derive.
    + apply is_derive_exp.
    + apply expm1_derive.
    + now apply fabs_derive.
    + now apply ln_derive.
    + now apply log10_derive.
    + now apply log1p_derive.
    + apply lin_derive.
    + apply is_derive_sin.
    + apply sinh_derive.
    + now apply sqrt_derive.
    + now apply tan_derive.
Qed.
Lemma ok_num : forall (r : f64) n c, is_finite r = true -> W n (B2R r) c -> (n <= 30)%nat ->
  cfinite lm (PF (N:=FN) r) = true /\ about (cval lm (PF (N:=FN) r)) c.
Proof. intros r n c F H Hn. split; [exact F|]. cbn [cval]. apply (W_about n); assumption. Qed.
Lemma fun_W : forall f (x : f64), steady f = true -> is_finite x = true -> m1_dom f (B2R x) -> tame (B2R x) -> tame (slope f (B2R x)) ->
  exists c, m1_pos (N:=FN) f 0 [PNum (PF (N:=FN) x)] [] = Ok c /\ cfinite lm c = true /\ about (cval lm c) (slope f (B2R x)).
Proof.
  intros f x Sf F Dom T Tc. assert (O1 : is_finite fone = true) by reflexivity.
  assert (W1 : W 0 (B2R fone) 1) by (rewrite one_R; apply W_refl). assert (Wx := W_refl (B2R x)).
  assert (LIB : forall h (z : f64) y, in_libm h = true -> is_finite z = true -> Rfun1 (fun _ => 0) (fun _ => 0) h (B2R z) = Ok y -> tame y ->
    exists r, n_fun1 FN h z = Ok r /\ is_finite (r : f64) = true /\ W 5 (B2R (r : f64)) y) by exact lib_W.
  assert (D1 : forall n (s : f64) z, (n <= 28)%nat -> W n (B2R s) z -> z <> 0 -> mid (1 / z) ->
    exists r, n_div FN (n_one FN) s = Ok r /\ is_finite (r : f64) = true /\ W (n + 2) (B2R (r : f64)) (1 / z)).
  { intros n s z Hn Ws Nz M. exists (fdiv fone s). exact (div_W 0 n fone s 1 z Hn O1 W1 Ws Nz M). }
  destruct f; try discriminate Sf; cbn [slope m1_dom] in *; unfold m1_pos, m1_der; cbn [pn_float rbind rmap].
  - (* asinh *) destruct (one_square x F) as (r & E1 & F1 & A1).
    { destruct (tame_r10 _ T) as [->|M]; [rewrite Rabs_R0; apply Rlt_le, r10_pos|]. apply Rle_trans with (r10 100); [lra|apply r10_le; lia]. }
    { apply mid_1, tame_sq, T. }
    unfold sq. rewrite E1. cbn [rbind rmap]. assert (S1 := tame_sq _ T).
    assert (Sq : 1 <= sqrt (1 + B2R x ^ 2) <= r10 299).
    { split; [assert (Z := sqrt_le_1_alt 1 (1 + B2R x ^ 2)); rewrite sqrt_1 in Z; apply Z; lra|]. apply Rle_trans with (1 + B2R x ^ 2); [|lra].
      rewrite <- (sqrt_square (1 + B2R x ^ 2)) at 2 by lra. apply sqrt_le_1_alt. assert (Q := pow2_ge_0 (B2R x)). nra. }
    destruct (sqrt_W 8 _ _ ltac:(lia) F1 A1 ltac:(lra) (mid_1 _ Sq)) as (s & Es & Fs & Ws).
    change (n_fun1 FN F_sqrt (n_add FN (n_one FN) r)) with (f_sqrt (fadd fone r)). rewrite Es. cbn [rbind rmap].
    destruct (D1 10%nat s _ ltac:(lia) Ws ltac:(lra) (mid_inv _ (mid_1 _ Sq))) as (q & Eq & Fq & Wq). rewrite Eq. cbn [rbind rmap].
    exists (PF (N:=FN) q). split; [reflexivity|]. apply (ok_num q 12); [exact Fq|exact Wq|lia].
  - (* atan *) destruct (one_square x F) as (r & E1 & F1 & A1).
    { destruct (tame_r10 _ T) as [->|M]; [rewrite Rabs_R0; apply Rlt_le, r10_pos|]. apply Rle_trans with (r10 100); [lra|apply r10_le; lia]. }
    { apply mid_1, tame_sq, T. }
    unfold sq. rewrite E1. cbn [rbind rmap]. assert (S1 := tame_sq _ T).
    destruct (D1 8%nat (fadd fone r) _ ltac:(lia) A1 ltac:(lra) (mid_inv _ (mid_1 _ S1))) as (q & Eq & Fq & Wq).
    change (n_add FN (n_one FN) r) with (fadd fone r). rewrite Eq. cbn [rbind rmap].
    exists (PF (N:=FN) q). split; [reflexivity|]. apply (ok_num q 10); [exact Fq|exact Wq|lia].
  - (* cos *) assert (Ts : tame (sin (B2R x))).
    { destruct Tc as [Z|M]; [left; lra|right]. rewrite Rabs_Ropp in M. exact M. }
    destruct (LIB F_sin x _ eq_refl F eq_refl Ts) as (r & Er & Fr & Wr). rewrite Er. cbn [rbind rmap].
    exists (PF (N:=FN) (n_neg FN r)). split; [reflexivity|]. change (n_neg FN r) with (Bopp (r : f64)).
    apply (ok_num (Bopp (r : f64)) 5); [now rewrite is_finite_Bopp| |lia]. rewrite B2R_Bopp. now apply W_opp.
  - (* cosh *) destruct (LIB F_sinh x _ eq_refl F eq_refl Tc) as (r & Er & Fr & Wr). rewrite Er. cbn [rbind rmap].
    exists (PF (N:=FN) r). split; [reflexivity|]. apply (ok_num r 5); [exact Fr|exact Wr|lia].
  - (* degrees *) destruct (LIB F_degrees fone (1 * (180 / PI)) eq_refl eq_refl ltac:(rewrite one_R; reflexivity) Tc) as (r & Er & Fr & Wr).
    change (n_one FN) with fone. rewrite Er. cbn [rbind rmap].
    exists (PF (N:=FN) r). split; [reflexivity|]. apply (ok_num r 5); [exact Fr|exact Wr|lia].
  - (* exp *) destruct (LIB F_exp x _ eq_refl F eq_refl Tc) as (r & Er & Fr & Wr). rewrite Er. cbn [rbind rmap].
    exists (PF (N:=FN) r). split; [reflexivity|]. apply (ok_num r 5); [exact Fr|exact Wr|lia].
  - (* expm1 *) destruct (LIB F_exp x _ eq_refl F eq_refl Tc) as (r & Er & Fr & Wr). rewrite Er. cbn [rbind rmap].
    exists (PF (N:=FN) r). split; [reflexivity|]. apply (ok_num r 5); [exact Fr|exact Wr|lia].
  - (* fabs *) change (n_le FN (n_zero FN) x) with (Bleb f0 x). rewrite Bleb_correct by (reflexivity || exact F). change (B2R f0) with 0.
    destruct (Rle_dec 0 (B2R x)) as [H|H]; [rewrite Rle_bool_true by exact H|rewrite Rle_bool_false by lra].
    + exists (PZ 1). split; [reflexivity|]. split; [reflexivity|]. apply (W_about 0); [lia|apply W_refl].
    + exists (PZ (-1)). split; [reflexivity|]. split; [reflexivity|]. apply (W_about 0); [lia|apply W_refl].
  - (* log *) destruct (D1 0%nat x _ ltac:(lia) Wx ltac:(lra) (tame_mid _ Tc)) as (q & Eq & Fq & Wq). rewrite Eq. cbn [rbind rmap].
    exists (PF (N:=FN) q). split; [reflexivity|]. apply (ok_num q 2); [exact Fq|exact Wq|lia].
  - (* log10 *) destruct (D1 0%nat x _ ltac:(lia) Wx ltac:(lra) (mid_inv _ (tame_mid _ T))) as (q & Eq & Fq & Wq). rewrite Eq. cbn [rbind rmap].
    destruct ten_R as (T1 & T2). assert (L10 := ln10_bounds).
    destruct (LIB F_log (n_ten FN) (ln 10) eq_refl T2) as (l & El & Fl & Wl).
    { rewrite T1. unfold Rfun1. rewrite (proj2 (Rltb_true 0 10)) by lra. reflexivity. }
    { apply tame_small. lra. }
    rewrite El. cbn [rbind rmap].
    destruct (div_W 2 5 q l _ _ ltac:(lia) Fq Wq Wl ltac:(lra) (tame_mid _ Tc)) as (Ed & Fd & Wd). change (n_div FN q l) with (f_div q l). rewrite Ed. cbn [rbind rmap].
    exists (PF (N:=FN) (fdiv q l)). split; [reflexivity|]. apply (ok_num _ 9); [exact Fd|exact Wd|lia].
  - (* log1p *) assert (Mx : mid (1 + B2R x)).
    { assert (M := mid_inv _ (tame_mid _ Tc)). replace (1 / (1 / (1 + B2R x))) with (1 + B2R x) in M by (field; lra). exact M. }
    destruct (add_W 0 fone x (1 + B2R x) ltac:(lia) O1 F) as (Fa & Wa). { rewrite one_R. apply W_refl. } { exact Mx. }
    destruct (D1 2%nat (fadd fone x) _ ltac:(lia) Wa ltac:(lra) (tame_mid _ Tc)) as (q & Eq & Fq & Wq).
    change (n_add FN (n_one FN) x) with (fadd fone x). rewrite Eq. cbn [rbind rmap].
    exists (PF (N:=FN) q). split; [reflexivity|]. apply (ok_num q 4); [exact Fq|exact Wq|lia].
  - (* radians *) destruct (LIB F_radians fone (1 * (PI / 180)) eq_refl eq_refl ltac:(rewrite one_R; reflexivity) Tc) as (r & Er & Fr & Wr).
    change (n_one FN) with fone. rewrite Er. cbn [rbind rmap].
    exists (PF (N:=FN) r). split; [reflexivity|]. apply (ok_num r 5); [exact Fr|exact Wr|lia].
  - (* sin *) destruct (LIB F_cos x _ eq_refl F eq_refl Tc) as (r & Er & Fr & Wr). rewrite Er. cbn [rbind rmap].
    exists (PF (N:=FN) r). split; [reflexivity|]. apply (ok_num r 5); [exact Fr|exact Wr|lia].
  - (* sinh *) destruct (LIB F_cosh x _ eq_refl F eq_refl Tc) as (r & Er & Fr & Wr). rewrite Er. cbn [rbind rmap].
    exists (PF (N:=FN) r). split; [reflexivity|]. apply (ok_num r 5); [exact Fr|exact Wr|lia].
  - (* sqrt *) assert (Px := sqrt_lt_R0 _ Dom).
    assert (Ms : mid (sqrt (B2R x))).
    { assert (X : moderate (B2R x)). { destruct T as [Z|M]; [lra|]. rewrite Rabs_pos_eq in M by lra. exact M. } apply sqrt_r10 in X.
      right. rewrite Rabs_pos_eq by lra. assert (r10 (-299) <= r10 (-50)) by (apply r10_le; lia). assert (r10 50 <= r10 299) by (apply r10_le; lia). lra. }
    destruct (sqrt_W 0 x _ ltac:(lia) F Wx ltac:(lra) Ms) as (s & Es & Fs & Ws).
    change (n_fun1 FN F_sqrt x) with (f_sqrt x). rewrite Es. cbn [rbind rmap]. destruct half_R as (H1 & H2).
    destruct (div_W 0 2 (n_half FN : f64) s (/ 2) (sqrt (B2R x)) ltac:(lia) H2) as (Ed & Fd & Wd).
    { rewrite H1. apply W_refl. } { exact Ws. } { lra. } { apply tame_mid, Tc. }
    change (n_div FN (n_half FN) s) with (f_div (n_half FN : f64) s). rewrite Ed. cbn [rbind rmap].
    exists (PF (N:=FN) (fdiv (n_half FN : f64) s)). split; [reflexivity|]. apply (ok_num _ 4); [exact Fd|exact Wd|lia].
  - (* tan *) assert (U := u53_val). assert (TY := tiny). assert (P300 := r10_pos (-300)). set (t := tan (B2R x)) in *. assert (Q := pow2_ge_0 t).
    assert (Bt : 1 + t ^ 2 <= r10 100).
    { destruct (tame_r10 _ Tc) as [Z|M]; [lra|]. rewrite Rabs_pos_eq in M by lra. lra. }
    assert (At : Rabs t <= r10 50).
    { apply Rsqr_incr_0; [| apply Rabs_pos | apply Rlt_le, r10_pos]. rewrite <- Rsqr_abs, Rsqr_pow2. unfold Rsqr. rewrite <- r10_add. change (50 + 50)%Z with 100%Z. lra. }
    assert (Y : Rfun1 (fun _ => 0) (fun _ => 0) F_tan (B2R x) = Ok t) by (unfold Rfun1; rewrite (proj2 (Reqb_false _ _) Dom); reflexivity).
    destruct OK as (A & _). destruct (A F_tan x t eq_refl F Y) as (r & Er & Fr & Ar & _).
    { rewrite p280. apply Rle_trans with (1 := At). apply r10_le; lia. }
    change (n_fun1 FN F_tan x) with (lm_fun1 lm F_tan x). rewrite Er. cbn [rbind rmap]. rewrite u51, ip300 in Ar.
    assert (Br : Rabs (B2R r) <= 2 * Rabs t + r10 (-300)).
    { replace (B2R r) with (t + (B2R r - t)) by ring. eapply Rle_trans; [apply Rabs_triang|]. assert (Z := Rabs_pos t). nra. }
    destruct (square_abs r Fr) as (s & Es & Fs & As & _).
    { apply Rle_trans with (1 := Br). assert (X : r10 50 * 10 <= r10 140). { replace 10 with (r10 1) by (rewrite r10_Z by lia; reflexivity). rewrite <- r10_add. apply r10_le; lia. }
      assert (X1 : r10 (-300) <= r10 50) by (apply r10_le; lia). lra. }
    unfold sq. rewrite Es. cbn [rbind rmap].
    destruct (add_W 16 fone s (1 + t ^ 2) ltac:(lia) O1 Fs) as (Fa & Wa).
    { apply (W_err 15); [lia|]. rewrite one_R. replace (INR 15) with 15 by (simpl; lra). rewrite (Rabs_pos_eq (1 + t ^ 2)) by lra.
      replace (1 + B2R s - (1 + t ^ 2)) with (B2R s - B2R r ^ 2 + (B2R r ^ 2 - t ^ 2)) by ring. eapply Rle_trans; [apply Rabs_triang|].
      assert (Dt : Rabs (B2R r ^ 2 - t ^ 2) <= 10 * u53 * (1 + t ^ 2)).
      { replace (B2R r ^ 2 - t ^ 2) with ((B2R r - t) * (B2R r - t) + 2 * t * (B2R r - t)) by ring. eapply Rle_trans; [apply Rabs_triang|].
        rewrite !Rabs_mult, (Rabs_pos_eq 2) by lra. rewrite <- (pow2_abs t). assert (Z := Rabs_pos t). assert (Z2 := Rabs_pos (B2R r - t)).
        assert (Ar2 : Rabs (B2R r - t) <= 4 * u53 * Rabs t + / 100 * u53) by lra. revert Ar2 Z Z2 U. clear. generalize (Rabs (B2R r - t)) (Rabs t). intros d a; intros.
        assert (X1 : d * d <= (4 * u53 * a + / 100 * u53) * (4 * u53 * a + / 100 * u53)) by (apply Rmult_le_compat; lra).
        assert (X2 : 2 * a * d <= 2 * a * (4 * u53 * a + / 100 * u53)) by (apply Rmult_le_compat_l; lra).
        assert (X3 : (4 * u53 * a + / 100 * u53) * (4 * u53 * a + / 100 * u53) <= u53 * ((a + 1) * (a + 1)) * / 100).
        { replace ((4 * u53 * a + / 100 * u53) * (4 * u53 * a + / 100 * u53)) with (u53 * (u53 * ((4 * a + / 100) * (4 * a + / 100)))) by ring.
          rewrite Rmult_assoc. apply Rmult_le_compat_l; [lra|]. assert (u53 <= / 10000) by lra. assert ((4 * a + / 100) * (4 * a + / 100) <= 16 * ((a + 1) * (a + 1))) by nra. nra. }
        assert (X0 : 0 <= (a - 1) * (a - 1)) by apply Rle_0_sqr. assert (X4 : (a + 1) * (a + 1) <= 2 * (1 + a ^ 2)) by (clear - X0; lra).
        assert (X5 : 2 * a <= 1 + a ^ 2) by (clear - X0; lra). assert (Y4 := Rmult_le_compat_l u53 _ _ ltac:(lra) X4). assert (Y5 := Rmult_le_compat_l u53 _ _ ltac:(lra) X5).
        assert (Y6 : 0 <= u53 * a ^ 2) by (apply Rmult_le_pos; [lra|apply pow2_ge_0]). clear - X1 X2 X3 Y4 Y5 Y6 U. lra. }
      assert (Ds : Rabs (B2R s - B2R r ^ 2) <= 5 * u53 * (1 + t ^ 2)).
      { eapply Rle_trans; [exact As|]. assert (R2 : B2R r ^ 2 <= (1 + t ^ 2) * (1 + 10 * u53)) by (apply Rabs_le_inv in Dt; lra).
        revert R2 Q U TY. clear. generalize (B2R r ^ 2) (t ^ 2). intros a b; intros. assert (X1 : (1 + b) * (1 + 10 * u53) <= (1 + b) * (11 / 10)) by (apply Rmult_le_compat_l; lra).
        assert (X2 : u53 * a <= u53 * ((1 + b) * (11 / 10))) by (apply Rmult_le_compat_l; lra). assert (X3 : 0 <= u53 * b) by (apply Rmult_le_pos; lra). lra. }
      lra. }
    { apply mid_1. split; [lra|]. apply Rle_trans with (1 := Bt). apply r10_le; lia. }
    change (n_add FN (n_one FN) s) with (fadd fone s). exists (PF (N:=FN) (fadd fone s)). split; [reflexivity|]. apply (ok_num _ 18); [exact Fa|exact Wa|lia].
Qed.
Theorem function_derivative : forall f (x : f64), steady f = true -> is_finite x = true -> m1_dom f (B2R x) -> tame (B2R x) ->
  exists c, is_derive (real_fun f) (B2R x) c /\
    (tame c -> exists c', m1_pos (N:=FN) f 0 [PNum (PF (N:=FN) x)] [] = Ok c' /\ cfinite lm c' = true /\ about (cval lm c') c).
Proof.
  intros f x Sf F Dom T. exists (slope f (B2R x)). split; [now apply slope_derive|]. intros Tc. now apply fun_W.
Qed.
End Fun.
