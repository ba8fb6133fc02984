(** Derivatives of the math functions that lose accuracy in part of their domain. *)
From Coq Require Import ZArith List Bool Lia Reals Lra.
From Coquelicot Require Import Coquelicot.
From Flocq Require Import Core BinarySingleNaN.
From Verif Require Import Base Heap HeapSpec HeapProofs NumR NumF Affine Ops UMath Machine Cov Calls Unumpy UMatrix History Fuel FFacts FRefute FmtF
  BinProofs BinQ NumFacts BinStd BinArith GradSpec Evolve BinGrad BinGradThm GradStd BinCov DerivR Prim Refine PrimReg CalcSpec CalcAlg CalcFun.
Import ListNotations.
Local Open Scope R_scope.

Lemma sub_W : forall m (r s : f64) y, (m <= 28)%nat -> is_finite r = true -> is_finite s = true -> W m (B2R r - B2R s) y -> mid y ->
  is_finite (fsub r s) = true /\ W (m + 2) (B2R (fsub r s)) y.
Proof.
  intros m r s y Hn Fr Fs Q M. destruct (fsub_ok r s Fr Fs (mid_range m _ _ ltac:(lia) Q M)) as (F & A).
  split; [exact F|]. replace (m + 2)%nat with (2 + m)%nat by lia. eapply W_trans; [apply W_rnd; exact A|exact Q].
Qed.
Lemma mid_few : forall y, / 10 <= y <= 100 -> mid y.
Proof. intros y H. now apply tame_mid, tame_small. Qed.
Lemma r10_140 : 100 <= r10 140.
Proof. apply Rle_trans with (r10 2); [rewrite r10_Z by lia; simpl; lra|apply r10_le; lia]. Qed.

(** The bound on tanh. *)
Lemma exp_rel : forall d, Rabs d <= / 4 -> Rabs (exp d - 1) <= Rabs d * (1 + 2 * Rabs d).
Proof.
  intros d H. assert (A := exp_ineq1_le d). assert (B := exp_ineq1_le (- d)). rewrite exp_Ropp in B. assert (P := exp_pos d).
  assert (H' := Rabs_le_inv _ _ H).
  assert (C : exp d <= / (1 - d)). { apply Rmult_le_reg_r with (1 - d); [lra|]. rewrite Rinv_l by lra. apply Rle_trans with (exp d * / exp d); [apply Rmult_le_compat_l; lra|]. rewrite Rinv_r by lra. lra. }
  assert (D : / (1 - d) - 1 <= Rabs d * (1 + 2 * Rabs d)).
  { apply Rmult_le_reg_r with (1 - d); [lra|]. replace ((/ (1 - d) - 1) * (1 - d)) with d by (field; lra). unfold Rabs. destruct (Rcase_abs d); nra. }
  apply Rabs_le. split; [|lra]. unfold Rabs in *. destruct (Rcase_abs d); nra.
Qed.
Lemma exp3 : exp 3 <= 27.
Proof. replace 3 with (1 + 1 + 1) by ring. rewrite !exp_plus. assert (X := exp_le_3). assert (P := exp_pos 1). nra. Qed.
Lemma tanh_half : forall x, Rabs x <= 3 / 4 -> tanh x ^ 2 <= / 2.
Proof.
  intros x H. apply Rabs_le_inv in H. assert (C : 0 < cosh x) by (unfold cosh; assert (A := exp_pos x); assert (B := exp_pos (- x)); lra).
  assert (E : cosh x ^ 2 - sinh x ^ 2 = 1).
  { unfold cosh, sinh. rewrite exp_Ropp. assert (A := exp_pos x). field. lra. }
  assert (Q : cosh x ^ 2 <= 2).
  { set (z := exp x ^ 2). assert (A := exp_pos x). assert (Pz : 0 < z) by (apply pow_lt; exact A).
    assert (Ez : z = exp (2 * x)) by (unfold z; simpl; rewrite Rmult_1_r, <- exp_plus; f_equal; ring).
    assert (K : cosh x ^ 2 = (z + 2 + / z) / 4). { unfold z, cosh. rewrite exp_Ropp. field. lra. }
    assert (Z1 : z ^ 2 <= 27).
    { rewrite Ez. simpl. rewrite Rmult_1_r, <- exp_plus. apply Rle_trans with (2 := exp3). destruct (Req_dec (2 * x + 2 * x) 3) as [->|]; [lra|]. left. apply exp_increasing. lra. }
    assert (Z2 : (/ z) ^ 2 <= 27).
    { rewrite Ez, <- exp_Ropp. simpl. rewrite Rmult_1_r, <- exp_plus. apply Rle_trans with (2 := exp3). destruct (Req_dec (- (2 * x) + - (2 * x)) 3) as [->|]; [lra|]. left. apply exp_increasing. lra. }
    assert (Iz : z * / z = 1) by (apply Rinv_r; lra). assert (Pi : 0 < / z) by (apply Rinv_0_lt_compat; lra). rewrite K.
    assert (U1 : z <= 26 / 5) by nra. assert (U2 : / z <= 26 / 5) by nra.
    assert (z + / z <= 6); [|lra]. destruct (Rle_lt_dec z 1); nra. }
  unfold tanh. replace ((sinh x / cosh x) ^ 2) with (sinh x ^ 2 / cosh x ^ 2) by (field; lra).
  apply Rmult_le_reg_r with (cosh x ^ 2); [apply pow_lt, C|]. unfold Rdiv. rewrite Rmult_assoc, Rinv_l, Rmult_1_r by (apply pow_nonzero; lra). lra.
Qed.

Section More.
Variable lm : Libm.
Notation FN := (FOps lm).
Hypothesis OK : libm_ok lm.

(** 1 - x**2 *)
Lemma one_minus : forall x : f64, is_finite x = true -> B2R x ^ 2 <= 3 / 4 ->
  exists r, n_powf (N:=FN) x (n_two FN) = Ok r /\ is_finite (fsub fone r) = true /\ W 16 (B2R (fsub fone r)) (1 - B2R x ^ 2).
Proof.
  intros x F H. assert (Q := pow2_ge_0 (B2R x)). destruct (square_abs lm OK x F) as (r & E1 & F1 & A & _).
  { apply Rle_trans with (2 := r10_140). apply Rabs_le. nra. }
  exists r. split; [exact E1|]. assert (U := u53_val). assert (T := tiny).
  apply (sub_W 14); [lia|reflexivity|exact F1| |apply mid_few; lra]. apply (W_err 13); [lia|]. rewrite one_R. replace (INR 13) with 13 by (simpl; lra).
  rewrite (Rabs_pos_eq (1 - _)) by lra. replace (1 - B2R r - (1 - B2R x ^ 2)) with (- (B2R r - B2R x ^ 2)) by ring. rewrite Rabs_Ropp. nra.
Qed.
(** x**2 - 1 *)
Lemma minus_one : forall x : f64, is_finite x = true -> 5 / 4 <= B2R x -> tame (B2R x) ->
  mid (B2R x ^ 2 - 1) /\ exists r, n_powf (N:=FN) x (n_two FN) = Ok r /\ is_finite (fsub r fone) = true /\ W 15 (B2R (fsub r fone)) (B2R x ^ 2 - 1).
Proof.
  intros x F H Tx. assert (Q := pow2_ge_0 (B2R x)).
  assert (B : B2R x <= r10 100). { destruct (tame_r10 _ Tx) as [Z|M]; [lra|]. rewrite Rabs_pos_eq in M by lra. lra. }
  assert (M : mid (B2R x ^ 2 - 1)).
  { right. rewrite Rabs_pos_eq by nra. split.
    - apply Rle_trans with (r10 (-1)); [apply r10_le; lia|]. change (-1)%Z with (- (1))%Z. rewrite r10_inv, r10_Z by lia. simpl. nra.
    - apply Rle_trans with (r10 200); [|apply r10_le; lia]. replace (r10 200) with (r10 100 * r10 100) by (rewrite <- r10_add; reflexivity). nra. }
  split; [exact M|]. destruct (square_abs lm OK x F) as (r & E1 & F1 & A & _).
  { rewrite Rabs_pos_eq by lra. apply Rle_trans with (1 := B). apply r10_le; lia. }
  exists r. split; [exact E1|]. assert (U := u53_val). assert (T := tiny).
  apply (sub_W 13); [lia|exact F1|reflexivity| |exact M]. apply (W_err 12); [lia|]. rewrite one_R. replace (INR 12) with 12 by (simpl; lra).
  assert (X : 25 / 16 <= B2R x ^ 2) by nra.
  rewrite (Rabs_pos_eq (_ - 1)) by lra. replace (B2R r - 1 - (B2R x ^ 2 - 1)) with (B2R r - B2R x ^ 2) by ring. nra.
Qed.
(** 2/sqrt(pi) *)
Lemma coef_W : exists k, erf_coef (N:=FN) = Ok k /\ is_finite (k : f64) = true /\ W 6 (B2R (k : f64)) (2 / sqrt PI) /\ 1 <= 2 / sqrt PI <= 2.
Proof.
  destruct (constants_R lm) as (_ & _ & _ & T2 & _ & _ & Ep). assert (P1 := PI2_3_2). assert (P4 := PI_4). 
  assert (S : 1 <= sqrt PI <= 2).
  { split; [rewrite <- sqrt_1 at 1; apply sqrt_le_1_alt; lra|]. replace 2 with (sqrt (2 * 2)) by (apply sqrt_square; lra). apply sqrt_le_1_alt; lra. }
  assert (Wp : W 2 (B2R (n_pi FN : f64)) PI). { rewrite Ep. apply W_rnd. apply rnd_ok. apply (mid_range 0 _ PI ltac:(lia) (W_refl _)). apply mid_few. lra. }
  assert (Fp : is_finite (n_pi FN : f64) = true) by reflexivity.
  destruct (sqrt_W 2 (n_pi FN : f64) PI ltac:(lia) Fp Wp ltac:(lra)) as (s & Es & Fs & Ws). { apply mid_few. lra. }
  assert (Q : 1 <= 2 / sqrt PI <= 2).
  { split; apply Rmult_le_reg_r with (sqrt PI); try lra; unfold Rdiv; rewrite Rmult_assoc, Rinv_l, Rmult_1_r by lra; lra. }
  destruct (div_W 0 4 (n_two FN : f64) s 2 (sqrt PI) ltac:(lia) eq_refl) as (Ed & Fd & Wd).
  { rewrite T2. apply W_refl. } { exact Ws. } { lra. } { apply mid_few. lra. }
  exists (fdiv (n_two FN : f64) s). split; [|split; [exact Fd|split; [exact Wd|exact Q]]].
  unfold erf_coef. change (n_fun1 FN F_sqrt (n_pi FN)) with (f_sqrt (n_pi FN : f64)). rewrite Es. cbn [rbind]. exact Ed.
Qed.
(** exp(-x**2) *)
Lemma gauss_W : forall x : f64, is_finite x = true -> Rabs (B2R x) <= 7 / 4 ->
  exists r e, n_powf (N:=FN) x (n_two FN) = Ok r /\ n_fun1 FN F_exp (n_neg FN r) = Ok e /\ is_finite (e : f64) = true /\ W 19 (B2R (e : f64)) (exp (- B2R x ^ 2)) /\
    / 81 <= exp (- B2R x ^ 2) <= 1.
Proof.
  intros x F H. assert (Q := pow2_ge_0 (B2R x)). assert (X2 : B2R x ^ 2 <= 49 / 16) by (rewrite <- pow2_abs; assert (Z := Rabs_pos (B2R x)); nra).
  assert (U := u53_val). assert (T := tiny). assert (P300 := r10_pos (-300)).
  destruct (square_abs lm OK x F) as (r & E1 & F1 & A & _). { apply Rle_trans with (2 := r10_140). lra. }
  set (q := B2R x ^ 2) in *. assert (A' : Rabs (q - B2R r) <= 123 / 10 * u53). { rewrite Rabs_minus_sym. apply Rle_trans with (1 := A). nra. }
  assert (EX : exp (- B2R r) = exp (- q) * exp (q - B2R r)) by (rewrite <- exp_plus; f_equal; ring).
  assert (W1 : W 14 (exp (- B2R r)) (exp (- q))).
  { rewrite EX. assert (W13 : W 14 (exp (q - B2R r)) 1).
    { apply (W_err 13); [lia|]. replace (INR 13) with 13 by (simpl; lra). rewrite Rabs_R1, Rmult_1_r. assert (Y := Rabs_pos (q - B2R r)). eapply Rle_trans; [apply exp_rel; lra|].
      apply Rle_trans with (123 / 10 * u53 * (1 + 2 * (123 / 10 * u53))); [apply Rmult_le_compat; lra|]. nra. }
    destruct W13 as (k & Ek & Hk). exists k. rewrite Ek. split; [ring|exact Hk]. }
  assert (Lo : / 81 <= exp (- q)).
  { assert (exp 4 <= 81). { replace 4 with (1 + 1 + (1 + 1)) by ring. rewrite !exp_plus. assert (X := exp_le_3). assert (P := exp_pos 1). assert (exp 1 * exp 1 <= 9) by nra. nra. }
    rewrite exp_Ropp. apply Rinv_le_contravar; [apply exp_pos|]. apply Rle_trans with (exp 4); [left; apply exp_increasing; lra|exact H0]. }
  assert (Hi : exp (- q) <= 1). { rewrite <- exp_0. destruct (Req_dec q 0) as [->|]; [rewrite Ropp_0; lra|left; apply exp_increasing; lra]. }
  destruct (W_size 14 _ _ ltac:(lia) W1) as (S1 & S2). assert (Pe := exp_pos (- B2R r)). assert (Pq := exp_pos (- q)). rewrite !Rabs_pos_eq in S1, S2 by lra.
  destruct (lib_W lm OK F_exp (Bopp r) (exp (- B2R r)) eq_refl) as (e & Ee & Fe & We).
  { now rewrite is_finite_Bopp. } { rewrite B2R_Bopp. reflexivity. }
  { right. unfold moderate. rewrite Rabs_pos_eq by lra. rewrite pow10, <- r10_inv. split.
    - apply Rle_trans with (r10 (-3)); [apply r10_le; lia|]. change (-3)%Z with (- (3))%Z. rewrite r10_inv, r10_Z by lia. simpl. lra.
    - apply Rle_trans with (r10 1); [rewrite r10_Z by lia; simpl; lra|apply r10_le; lia]. }
  exists r, e. split; [exact E1|]. split; [exact Ee|]. split; [exact Fe|]. split; [|lra]. eapply (W_trans 5 14); eassumption.
Qed.

Definition slope' (f : mfun1) (x : R) : R :=
  match f with
  | F_acos => - (1) / sqrt (1 - x ^ 2) | F_asin => 1 / sqrt (1 - x ^ 2) | F_atanh => 1 / (1 - x ^ 2) | F_acosh => 1 / sqrt (x ^ 2 - 1)
  | F_tanh => 1 - tanh x ^ 2 | F_erf => exp (- x ^ 2) * (2 / sqrt PI) | F_erfc => - exp (- x ^ 2) * (2 / sqrt PI)
  | _ => slope f x
  end.
Lemma steady_slope : forall f x, steady f = true -> slope' f x = slope f x.
Proof. intros [] x H; try discriminate H; reflexivity. Qed.
Lemma settled_derive : forall f x, settled f x -> m1_dom f x -> is_derive (real_fun f) x (slope' f x).
Proof.
  intros f x Sf Dom. destruct (steady f) eqn:E. { rewrite steady_slope by exact E. now apply slope_derive. }
  apply is_derive_ext_loc with (m1_real (g := fun _ => 0) (lg := fun _ => 0) f).
  - destruct (m1_near (g := fun _ => 0) (lg := fun _ => 0) f x Dom) as (d & Pd & D). exists (mkposreal d Pd). intros t Ht. unfold real_fun. rewrite D; [reflexivity|]. exact Ht.
  - destruct f; try discriminate E; try contradiction; cbn [m1_real slope' m1_dom] in *.
    + now apply acos_derive.
    + now apply acosh_derive.
    + now apply asin_derive.
    + now apply atanh_derive.
    + apply erf_derive.
    + apply erfc_derive.
    + apply tanh_derive.
Qed.
Lemma more_W : forall f (x : f64), settled f (B2R x) -> is_finite x = true -> m1_dom f (B2R x) -> tame (B2R x) -> tame (slope' f (B2R x)) ->
  exists c, m1_pos (N:=FN) f 0 [PNum (PF (N:=FN) x)] [] = Ok c /\ cfinite lm c = true /\ about (cval lm c) (slope' f (B2R x)).
Proof.
  intros f x Sf F Dom T Tc. destruct (steady f) eqn:E. { rewrite steady_slope in * by exact E. now apply fun_W. }
  assert (O1 : is_finite fone = true) by reflexivity.
  assert (W1 : W 0 (B2R fone) 1) by (rewrite one_R; apply W_refl).
  assert (Wm : W 0 (B2R (Bopp fone)) (- (1))) by (rewrite B2R_Bopp, one_R; apply W_refl).
  assert (Fm : is_finite (Bopp fone) = true) by reflexivity.
  destruct f; try discriminate E; try contradiction; cbn [slope' m1_dom settled] in *; unfold m1_pos, m1_der; cbn [pn_float rbind rmap].
  - (* acos *) destruct (one_minus x F Sf) as (r & E1 & F1 & A1). unfold sq. rewrite E1. cbn [rbind rmap]. assert (Q := pow2_ge_0 (B2R x)).
    assert (Sq : / 2 <= sqrt (1 - B2R x ^ 2) <= 1).
    { split; [replace (/ 2) with (sqrt (/ 2 * / 2)) by (apply sqrt_square; lra)|apply Rle_trans with (sqrt 1); [|rewrite sqrt_1; lra]]; apply sqrt_le_1_alt; lra. }
    destruct (sqrt_W 16 (fsub fone r) (1 - B2R x ^ 2) ltac:(lia) F1 A1 ltac:(lra) (mid_few (sqrt (1 - B2R x ^ 2)) ltac:(lra))) as (s & Es & Fs & Ws).
    change (n_fun1 FN F_sqrt (n_sub FN (n_one FN) r)) with (f_sqrt (fsub fone r)). rewrite Es. cbn [rbind rmap].
    destruct (div_W 0 18 (Bopp fone) s (- (1)) (sqrt (1 - B2R x ^ 2)) ltac:(lia) Fm Wm Ws ltac:(lra) (tame_mid _ Tc)) as (Ed & Fd & Wd).
    change (n_div FN (n_neg FN (n_one FN)) s) with (f_div (Bopp fone) s). rewrite Ed. cbn [rbind rmap].
    exists (PF (N:=FN) (fdiv (Bopp fone) s)). split; [reflexivity|]. apply (ok_num lm _ 20); [exact Fd|exact Wd|lia].
  - (* acosh *) destruct (minus_one x F Sf T) as (M & r & E1 & F1 & A1). unfold sq. rewrite E1. cbn [rbind rmap].
    assert (Px : 25 / 16 <= B2R x ^ 2) by nra.
    assert (Ps : / 2 <= sqrt (B2R x ^ 2 - 1)). { replace (/ 2) with (sqrt (/ 2 * / 2)) by (apply sqrt_square; lra). apply sqrt_le_1_alt. lra. }
    assert (Ms : mid (sqrt (B2R x ^ 2 - 1))).
    { assert (Y := mid_inv _ (tame_mid _ Tc)). replace (1 / (1 / sqrt (B2R x ^ 2 - 1))) with (sqrt (B2R x ^ 2 - 1)) in Y by (field; lra). exact Y. }
    destruct (sqrt_W 15 (fsub r fone) (B2R x ^ 2 - 1) ltac:(lia) F1 A1 ltac:(lra) Ms) as (s & Es & Fs & Ws).
    change (n_fun1 FN F_sqrt (n_sub FN r (n_one FN))) with (f_sqrt (fsub r fone)). rewrite Es. cbn [rbind rmap].
    destruct (div_W 0 17 fone s 1 (sqrt (B2R x ^ 2 - 1)) ltac:(lia) O1 W1 Ws ltac:(lra) (tame_mid _ Tc)) as (Ed & Fd & Wd).
    change (n_div FN (n_one FN) s) with (f_div fone s). rewrite Ed. cbn [rbind rmap].
    exists (PF (N:=FN) (fdiv fone s)). split; [reflexivity|]. apply (ok_num lm _ 19); [exact Fd|exact Wd|lia].
  - (* asin *) destruct (one_minus x F Sf) as (r & E1 & F1 & A1). unfold sq. rewrite E1. cbn [rbind rmap]. assert (Q := pow2_ge_0 (B2R x)).
    assert (Sq : / 2 <= sqrt (1 - B2R x ^ 2) <= 1).
    { split; [replace (/ 2) with (sqrt (/ 2 * / 2)) by (apply sqrt_square; lra)|apply Rle_trans with (sqrt 1); [|rewrite sqrt_1; lra]]; apply sqrt_le_1_alt; lra. }
    destruct (sqrt_W 16 (fsub fone r) (1 - B2R x ^ 2) ltac:(lia) F1 A1 ltac:(lra) (mid_few (sqrt (1 - B2R x ^ 2)) ltac:(lra))) as (s & Es & Fs & Ws).
    change (n_fun1 FN F_sqrt (n_sub FN (n_one FN) r)) with (f_sqrt (fsub fone r)). rewrite Es. cbn [rbind rmap].
    destruct (div_W 0 18 fone s 1 (sqrt (1 - B2R x ^ 2)) ltac:(lia) O1 W1 Ws ltac:(lra) (tame_mid _ Tc)) as (Ed & Fd & Wd).
    change (n_div FN (n_one FN) s) with (f_div fone s). rewrite Ed. cbn [rbind rmap].
    exists (PF (N:=FN) (fdiv fone s)). split; [reflexivity|]. apply (ok_num lm _ 20); [exact Fd|exact Wd|lia].
  - (* atanh *) destruct (one_minus x F Sf) as (r & E1 & F1 & A1). unfold sq. rewrite E1. cbn [rbind rmap]. assert (Q := pow2_ge_0 (B2R x)).
    destruct (div_W 0 16 fone (fsub fone r) 1 (1 - B2R x ^ 2) ltac:(lia) O1 W1 A1 ltac:(lra) (tame_mid _ Tc)) as (Ed & Fd & Wd).
    change (n_div FN (n_one FN) (n_sub FN (n_one FN) r)) with (f_div fone (fsub fone r)). rewrite Ed. cbn [rbind rmap].
    exists (PF (N:=FN) (fdiv fone (fsub fone r))). split; [reflexivity|]. apply (ok_num lm _ 18); [exact Fd|exact Wd|lia].
  - (* erf *) destruct (gauss_W x F Sf) as (r & e & E1 & Ee & Fe & We & _). destruct coef_W as (k & Ek & Fk & Wk & _). unfold sq. rewrite E1. cbn [rbind rmap].
    rewrite Ee. cbn [rbind rmap]. rewrite Ek. cbn [rbind rmap].
    destruct (mul_W 19 6 e k _ _ ltac:(lia) Fe Fk We Wk (tame_mid _ Tc)) as (Fm' & Wm').
    change (n_mul FN e k) with (fmul e k). exists (PF (N:=FN) (fmul e k)). split; [reflexivity|]. apply (ok_num lm _ 27); [exact Fm'|exact Wm'|lia].
  - (* erfc *) destruct (gauss_W x F Sf) as (r & e & E1 & Ee & Fe & We & _). destruct coef_W as (k & Ek & Fk & Wk & _). unfold sq. rewrite E1. cbn [rbind rmap].
    rewrite Ee. cbn [rbind rmap]. rewrite Ek. cbn [rbind rmap].
    assert (Fo : is_finite (Bopp (e : f64)) = true) by (now rewrite is_finite_Bopp).
    assert (Wo : W 19 (B2R (Bopp (e : f64))) (- exp (- B2R x ^ 2))) by (rewrite B2R_Bopp; now apply W_opp).
    destruct (mul_W 19 6 (Bopp (e : f64)) k _ _ ltac:(lia) Fo Fk Wo Wk (tame_mid _ Tc)) as (Fm' & Wm').
    change (n_mul FN (n_neg FN e) k) with (fmul (Bopp (e : f64)) k). exists (PF (N:=FN) (fmul (Bopp (e : f64)) k)). split; [reflexivity|]. apply (ok_num lm _ 27); [exact Fm'|exact Wm'|lia].
  - (* tanh *) assert (U := u53_val). assert (TY := tiny). assert (P300 := r10_pos (-300)). assert (H2 := tanh_half _ Sf). set (t := tanh (B2R x)) in *. assert (Q := pow2_ge_0 t).
    assert (At : Rabs t <= 1) by (apply Rabs_le; nra).
    destruct OK as (A & _). destruct (A F_tanh x t eq_refl F eq_refl) as (r & Er & Fr & Ar & _).
    { rewrite p280. apply Rle_trans with (1 := At). apply Rle_trans with (r10 0); [rewrite r10_Z by lia; simpl; lra|apply r10_le; lia]. }
    change (n_fun1 FN F_tanh x) with (lm_fun1 lm F_tanh x). rewrite Er. cbn [rbind rmap]. rewrite u51, ip300 in Ar.
    assert (Br : Rabs (B2R r) <= 2).
    { replace (B2R r) with (t + (B2R r - t)) by ring. eapply Rle_trans; [apply Rabs_triang|]. assert (Z := Rabs_pos t). nra. }
    destruct (square_abs lm OK r Fr) as (s & Es & Fs & As & _). { apply Rle_trans with (2 := r10_140). lra. }
    unfold sq. rewrite Es. cbn [rbind rmap].
    destruct (sub_W 16 fone s (1 - t ^ 2) ltac:(lia) O1 Fs) as (Fa & Wa).
    { apply (W_err 15); [lia|]. rewrite one_R. replace (INR 15) with 15 by (simpl; lra). rewrite (Rabs_pos_eq (1 - t ^ 2)) by lra.
      replace (1 - B2R s - (1 - t ^ 2)) with (- ((B2R s - B2R r ^ 2) + (B2R r ^ 2 - t ^ 2))) by ring. rewrite Rabs_Ropp. eapply Rle_trans; [apply Rabs_triang|].
      assert (Dt : Rabs (B2R r ^ 2 - t ^ 2) <= 4 * u53 + / 8 * u53).
      { replace (B2R r ^ 2 - t ^ 2) with ((B2R r - t) * (B2R r - t) + 2 * t * (B2R r - t)) by ring. eapply Rle_trans; [apply Rabs_triang|].
        rewrite !Rabs_mult, (Rabs_pos_eq 2) by lra. rewrite <- (pow2_abs t) in H2. assert (Z := Rabs_pos t). assert (Z2 := Rabs_pos (B2R r - t)).
        assert (Ar2 : Rabs (B2R r - t) <= 4 * u53 * Rabs t + / 100 * u53) by lra. revert Ar2 Z Z2 U H2 At. clear. generalize (Rabs (B2R r - t)) (Rabs t). intros d a; intros.
        assert (X1 : d <= 5 * u53) by nra. assert (X2 : d * d <= 5 * u53 * (5 * u53)) by (apply Rmult_le_compat; lra).
        assert (X3 : 2 * a * d <= 2 * a * (4 * u53 * a + / 100 * u53)) by (apply Rmult_le_compat_l; lra).
        assert (X4 : u53 * a ^ 2 <= u53 * / 2) by (apply Rmult_le_compat_l; lra). assert (X5 : u53 * a <= u53) by nra. nra. }
      assert (Ds : Rabs (B2R s - B2R r ^ 2) <= 2 * u53 + / 8 * u53).
      { eapply Rle_trans; [exact As|]. apply Rabs_le_inv in Dt. assert (R2 : B2R r ^ 2 <= / 2 + 5 * u53) by lra.
        assert (u53 * B2R r ^ 2 <= u53 * (/ 2 + 5 * u53)) by (apply Rmult_le_compat_l; lra). nra. }
      nra. }
    { apply mid_few. lra. }
    change (n_sub FN (n_one FN) s) with (fsub fone s). exists (PF (N:=FN) (fsub fone s)). split; [reflexivity|]. apply (ok_num lm _ 18); [exact Fa|exact Wa|lia].
Qed.
Theorem settled_derivative : forall f (x : f64), settled f (B2R x) -> is_finite x = true -> m1_dom f (B2R x) -> tame (B2R x) ->
  exists c, is_derive (real_fun f) (B2R x) c /\
    (tame c -> exists c', m1_pos (N:=FN) f 0 [PNum (PF (N:=FN) x)] [] = Ok c' /\ cfinite lm c' = true /\ about (cval lm c') c).
Proof.
  intros f x Sf F Dom T. exists (slope' f (B2R x)). split; [now apply settled_derive|]. intros Tc. now apply more_W.
Qed.
End More.
