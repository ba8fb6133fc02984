(** Integer powers of negative numbers; the derivative of tanh. *)
From Coq Require Import ZArith List Bool Lia Reals Lra.
From Coquelicot Require Import Coquelicot.
From Flocq Require Import Core BinarySingleNaN.
From Verif Require Import Base Heap HeapSpec HeapProofs NumR NumF Affine Ops UMath Machine Cov Calls Unumpy UMatrix History Fuel FFacts FRefute FmtF
  BinProofs BinQ NumFacts BinStd BinArith GradSpec Evolve BinGrad BinGradThm GradStd BinCov DerivR Prim Refine PrimReg CalcSpec CalcAlg CalcFun CalcOp.
Import ListNotations.
Local Open Scope R_scope.

Lemma pow_m1 : forall k, (-1) ^ k = if Nat.odd k then -1 else 1.
Proof.
  induction k as [|k IH]; [reflexivity|]. rewrite Nat.odd_succ, <- Nat.negb_odd. cbn [pow]. rewrite IH. destruct (Nat.odd k); cbn [negb]; lra.
Qed.
Lemma odd_pos : forall p, Nat.odd (Pos.to_nat p) = Z.odd (Zpos p).
Proof.
  intros p. rewrite <- (positive_nat_Z p). generalize (Pos.to_nat p). intros k. induction k as [|k IH]; [reflexivity|].
  rewrite Nat.odd_succ, <- Nat.negb_odd, IH, Nat2Z.inj_succ, Z.odd_succ, Z.negb_odd. reflexivity.
Qed.
Lemma powerRZ_m1 : forall m, powerRZ (-1) m = if Z.odd m then -1 else 1.
Proof.
  intros [|p|p]; cbn [powerRZ]; [reflexivity| |]; rewrite pow_m1, odd_pos; [reflexivity|].
  change (Z.odd (Z.neg p)) with (Z.odd (Z.pos p)). destruct (Z.odd (Z.pos p)); lra.
Qed.
Lemma powerRZ_left : forall x m, x < 0 -> powerRZ x m = (if Z.odd m then -1 else 1) * Rpower (- x) (IZR m).
Proof.
  intros x m N. rewrite <- powerRZ_m1, <- powerRZ_Rpower by lra. rewrite <- powerRZ_mult. f_equal. ring.
Qed.

Section Pow.
Variable lm : Libm.
Notation FN := (FOps lm).
Hypothesis OK : libm_ok lm.

Theorem integer_power : forall (x : f64) (q : pynum FN) n, is_finite x = true -> B2R x <> 0 -> tame (B2R x) ->
  cfinite lm q = true -> cval lm q = IZR n -> tame (IZR n) -> representable (IZR n) -> representable (IZR n - 1) ->
  exists c, is_derive (fun t => powerRZ t n) (B2R x) c /\
    (tame c -> exists c', op_der_x Bpow (PF (N:=FN) x) q = Ok c' /\ cfinite lm c' = true /\ about (cval lm c') c).
Proof.
  intros x q n Fx Nx Tx Fq Vq Tn Rn Rp. exists (IZR n * powerRZ (B2R x) (n - 1)). split; [apply powerRZ_derive; left; exact Nx|]. intros Tc.
  change (computes lm (op_der_x Bpow (PF (N:=FN) x) q) (IZR n * powerRZ (B2R x) (n - 1))).
  destruct (Rtotal_order (B2R x) 0) as [L|[Z|G]]; [|contradiction|].
  2:{ assert (E : IZR n * powerRZ (B2R x) (n - 1) = dx Bpow (cval lm (PF (N:=FN) x)) (cval lm q)).
      { cbn [dx cval]. rewrite Vq, powerRZ_Rpower by exact G. rewrite minus_IZR. reflexivity. }
      rewrite E in *. apply op_x; [exact OK|exact Fx|exact Fq| |exact Tc]. cbn [op_dom cval]. rewrite Vq.
      split; [exact G|]. split; [exact Tx|]. split; [exact Tn|]. split; [exists x; auto|]. auto. }
  rewrite powerRZ_left in * by exact L. rewrite minus_IZR in *.
  set (sg := if Z.odd (n - 1) then -1 else 1) in *. assert (Sg : sg = 1 \/ sg = -1) by (unfold sg; destruct (Z.odd (n - 1)); auto).
  set (w := Rpower (- B2R x) (IZR n - 1)) in *. assert (Pw : 0 < w) by apply exp_pos.
  cbn [op_der_x]. unfold pow_deriv_0. destruct (pn_is0 q) eqn:Z0.
  { apply is0_R in Z0; [|exact Fq]. rewrite Vq in Z0. rewrite Z0, Rmult_0_l. cbn [nan_if_exception]. apply computes_exact; reflexivity. }
  assert (Nn : IZR n <> 0) by (intros E0; rewrite <- Vq in E0; apply is0_R in E0; [congruence|exact Fq]).
  assert (X0 : pn_is0 (PF (N:=FN) x) = false).
  { destruct (pn_is0 (PF (N:=FN) x)) eqn:E0; [|reflexivity]. apply is0_R in E0; [|exact Fx]. exfalso. cbn [cval] in E0. lra. }
  rewrite X0. cbn [negb orb]. destruct (pred_R lm q Fq ltac:(rewrite Vq; exact Rp)) as (b & Eb & Fb & Vb). rewrite Vq in Vb.
  unfold pn_pow. cbn [pn_float rbind]. rewrite Eb. cbn [rbind]. unfold n_powf. change (n_pow FN x b) with (f_pow lm x b).
  assert (Tc' : tame (IZR n * w)).
  { destruct Tc as [Z|M]; [left|right].
    - destruct Sg as [E|E]; rewrite E in Z; lra.
    - destruct Sg as [E|E]; rewrite E in M; [replace (IZR n * (1 * w)) with (IZR n * w) in M by ring; exact M|].
      replace (IZR n * (-1 * w)) with (- (IZR n * w)) in M by ring. rewrite Rabs_Ropp in M. exact M. }
  assert (H := pow_of_tame (- B2R x) (IZR n) ltac:(lra) Tn Nn Tc'). fold w in H.
  assert (R : exists r, f_pow lm x b = Ok (Some r) /\ is_finite r = true /\ W 5 (B2R r) (sg * w)).
  { assert (Fa : is_finite (fabs x) = true) by (destruct x; try discriminate Fx; reflexivity).
    assert (Va : B2R (fabs x) = - B2R x) by (unfold fabs; rewrite B2R_Babs; apply Rabs_left; exact L).
    destruct (powf_W lm OK (fabs x) b Fa Fb) as (r & Er & Fr & Wr); [rewrite Va; lra|rewrite Va, Vb; exact H|]. rewrite Va, Vb in Wr. fold w in Wr.
    destruct (Req_dec (B2R b) 0) as [B0|B0].
    - exists fone. assert (N1 : (n - 1 = 0)%Z) by (apply eq_IZR; rewrite minus_IZR; rewrite <- B0; symmetry; exact Vb).
      split; [|split; [reflexivity|]].
      + unfold f_pow. rewrite (Beqb_correct _ _ b f0 Fb eq_refl). rewrite Req_bool_true by exact B0. reflexivity.
      + unfold sg, w. rewrite N1. replace (IZR n - 1) with (IZR (n - 1)) by apply minus_IZR. rewrite N1, Rpower_O by lra. change (Z.odd 0) with false. cbv iota. rewrite one_R, Rmult_1_l. apply W_mono with 0%nat; [lia|apply W_refl].
    - destruct (pow_negative lm x b Fx Fb L B0) as (_ & P). specialize (P (n - 1)%Z). rewrite Er in P. rewrite P by (rewrite minus_IZR; exact Vb).
      eexists. split; [reflexivity|]. unfold sg. destruct (Z.odd (n - 1)).
      + change (fneg r) with (Bopp r). rewrite is_finite_Bopp, B2R_Bopp. split; [exact Fr|]. replace (-1 * w) with (- w) by ring. now apply W_opp.
      + split; [exact Fr|]. rewrite Rmult_1_l. exact Wr. }
  destruct R as (r & Er & Fr & Wr). rewrite Er. cbn [rbind].
  destruct (mul_pn lm q r 5 (sg * w) ltac:(lia) Fq Fr) as (s & Es & Fs & Ws).
  { rewrite Vq. apply tame_mid, Tn. } { exact Wr. } { rewrite Vq. apply tame_mid, Tc. }
  rewrite Es. cbn [nan_if_exception]. rewrite Vq in Ws. apply (computes_W lm s 9); [exact Fs|exact Ws|lia].
Qed.
End Pow.

(** tanh at 30: the computed derivative is 0 or at least 2^-53, whatever the C library. *)
Definition f30 : f64 := fnorm 30 0.
Lemma f30_R : B2R f30 = 30.
Proof. vm_compute. lra. Qed.
Lemma tanh_slope : 0 < 1 - tanh 30 ^ 2 <= / 2 ^ 57.
Proof.
  unfold tanh. assert (C := cosh_pos 30). assert (E1 := exp_pos 30). assert (E2 := exp_pos (-30)).
  assert (P : exp 30 * exp (-30) = 1) by (rewrite <- exp_plus; replace (30 + -30) with 0 by ring; apply exp_0).
  assert (ID : 1 - (sinh 30 / cosh 30) ^ 2 = / cosh 30 ^ 2).
  { assert (H : cosh 30 ^ 2 - sinh 30 ^ 2 = 1). { unfold cosh, sinh. replace (- (30)) with (-30) by ring. nra. }
    replace (1 - (sinh 30 / cosh 30) ^ 2) with ((cosh 30 ^ 2 - sinh 30 ^ 2) * / cosh 30 ^ 2) by (field; lra). rewrite H. ring. }
  rewrite ID. assert (B : 2 ^ 29 <= cosh 30).
  { assert (X : 2 ^ 30 <= exp 30).
    { assert (G : forall k, 2 ^ k <= exp (INR k)).
      { induction k as [|k IH]; [simpl; rewrite exp_0; lra|]. rewrite S_INR, exp_plus. cbn [pow]. assert (T := exp_ineq1_le 1). assert (Pk := exp_pos (INR k)). nra. }
      assert (X0 := G 30%nat). rewrite INR_IZR_INZ in X0. exact X0. }
    unfold cosh. replace (- (30)) with (-30) by ring. simpl in *. lra. }
  assert (P2 : 0 < cosh 30 ^ 2) by (apply pow_lt; exact C). split; [now apply Rinv_0_lt_compat|].
  apply Rinv_le_contravar; [apply pow_lt; lra|]. apply Rle_trans with ((2 ^ 29) ^ 2); [rewrite <- pow_mult; apply Rle_pow; [lra|lia]|]. apply pow_incr. split; [apply pow_le; lra|exact B].
Qed.
Theorem tanh_derivative_refuted : exists (x : f64) c, is_finite x = true /\ m1_dom F_tanh (B2R x) /\ tame (B2R x) /\ is_derive (real_fun F_tanh) (B2R x) c /\ tame c /\
  forall lm c', m1_pos (N:=FOps lm) F_tanh 0 [PNum (PF (N:=FOps lm) x)] [] = Ok c' -> cfinite lm c' = true -> ~ about (cval lm c') c.
Proof.
  exists f30, (1 - tanh 30 ^ 2). rewrite f30_R. assert (B := tanh_slope). assert (U := u53_val).
  split; [reflexivity|]. split; [exact I|]. split; [apply tame_small; lra|]. split.
  { apply is_derive_ext with tanh; [|apply tanh_derive]. intros t. reflexivity. }
  split.
  { right. rewrite Rabs_pos_eq by lra. split.
    - unfold tanh. assert (C := cosh_pos 30). assert (E1 := exp_pos 30). assert (E2 := exp_pos (-30)).
      assert (P : exp 30 * exp (-30) = 1) by (rewrite <- exp_plus; replace (30 + -30) with 0 by ring; apply exp_0).
      assert (ID : 1 - (sinh 30 / cosh 30) ^ 2 = / cosh 30 ^ 2).
      { assert (H : cosh 30 ^ 2 - sinh 30 ^ 2 = 1). { unfold cosh, sinh. replace (- (30)) with (-30) by ring. nra. }
        replace (1 - (sinh 30 / cosh 30) ^ 2) with ((cosh 30 ^ 2 - sinh 30 ^ 2) * / cosh 30 ^ 2) by (field; lra). rewrite H. ring. }
      rewrite ID. assert (Hc : cosh 30 <= 3 ^ 30).
      { assert (X : exp 30 <= 3 ^ 30).
        { assert (G : forall k, exp (INR k) <= 3 ^ k).
          { induction k as [|k IH]; [simpl; rewrite exp_0; lra|]. rewrite S_INR, exp_plus. cbn [pow]. assert (T := exp_le_3). assert (Pk := exp_pos (INR k)). assert (P1 := exp_pos 1). nra. }
          assert (X0 := G 30%nat). rewrite INR_IZR_INZ in X0. exact X0. }
        assert (Y : exp (-30) <= exp 30) by (apply Rlt_le, exp_increasing; lra). unfold cosh. replace (- (30)) with (-30) by ring. lra. }
      apply Rinv_le_contravar; [apply pow_lt; exact C|]. apply Rle_trans with ((3 ^ 30) ^ 2); [apply pow_incr; lra|]. rewrite <- pow_mult.
      apply Rle_trans with (10 ^ 60); [apply pow_incr; lra|apply Rle_pow; [lra|lia]].
    - apply Rle_trans with 1; [|apply pow_R1_Rle; lra]. assert (P := pow2_ge_0 (tanh 30)). lra. }
  intros lm c' E F A. set (FN := FOps lm) in *. revert E F A. set (c := 1 - tanh 30 ^ 2) in *. unfold m1_pos, m1_der. cbn [pn_float rbind].
  assert (NAN : forall z, n_nan FN = Ok z -> is_finite (z : f64) = false). { intros z Hz. injection Hz as <-. reflexivity. }
  assert (KEY : forall a : f64, is_finite (fsub fone a) = true -> about (B2R (fsub fone a)) c -> False).
  { intros a F A. assert (Fa : is_finite a = true) by (destruct a as [[|]|[|]| |[|] m e H]; first [reflexivity | discriminate F]).
    pose proof (Bminus_correct 53 1024 prec_gt_0_64 prec_lt_emax_64 mode_NE fone a eq_refl Fa) as C. fold (fsub fone a) in C. rewrite one_R in C.
    unfold about in A. rewrite (Rabs_pos_eq c) in A by lra.
    assert (A2 : 0 < B2R (fsub fone a) < u53).
    { apply Rabs_le_inv in A. assert (X : / 2 ^ 48 <= / 2) by (apply Rinv_le_contravar; [lra|]; rewrite <- (pow_1 2) at 1; apply Rle_pow; [lra|lia]).
      assert (Y : / 2 ^ 57 = u53 / 16). { unfold u53. change (bpow radix2 (-53)) with (/ IZR 9007199254740992). simpl. lra. }
      assert (Z : / 2 ^ 48 * c <= / 2 * c) by (apply Rmult_le_compat_r; lra). lra. }
    destruct (Req_dec (B2R a) 1) as [E1|E1].
    - rewrite E1, Rminus_diag_eq, round_0 in C by (reflexivity || apply valid_rnd_N). rewrite Rabs_R0, Rlt_bool_true in C by apply bpow_gt_0. destruct C as (C & _). lra.
    - assert (G := gap1 a E1). rewrite Rabs_minus_sym in G.
      destruct (Rlt_bool_spec (Rabs (round radix2 (SpecFloat.fexp 53 1024) (round_mode mode_NE) (1 - B2R a))) (bpow radix2 1024)) as [Q|Q] in C.
      + destruct C as (C & _). assert (V : u53 <= Rabs (B2R (fsub fone a))).
        { rewrite C. apply abs_round_ge_generic; [typeclasses eauto|apply valid_rnd_N| |exact G]. unfold u53. apply generic_format_bpow. vm_compute. discriminate. }
        rewrite Rabs_pos_eq in V by lra. lra.
      + destruct C as (C & _). revert F. destruct (fsub fone a); try discriminate; cbn in C; try discriminate C. }
  change (n_fun1 FN F_tanh f30) with (lm_fun1 lm F_tanh f30). intros E F A.
  destruct (lm_fun1 lm F_tanh f30) as [t|e]; cbn [rbind rmap] in E.
  - unfold sq in E. destruct (n_powf (N:=FN) t (n_two FN)) as [a|e] eqn:Ep; cbn [rbind rmap nan_if_exception] in E.
    + injection E as <-. exact (KEY a F A).
    + destruct e; try discriminate E; cbn in E; injection E as <-; discriminate F.
  - destruct e; try discriminate E; cbn in E; injection E as <-; discriminate F.
Qed.
