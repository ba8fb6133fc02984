(** Covariances and correlations in binary64. *)
From Coq Require Import ZArith List Bool Lia Reals Lra Permutation.
From Flocq Require Import Core BinarySingleNaN.
From Verif Require Import Base Heap HeapSpec HeapProofs NumR NumF Affine Ops UMath Machine Cov Calls Unumpy UMatrix History Fuel FFacts FRefute FmtF
  BinProofs BinQ BinStd GradSpec Evolve BinGrad BinGradThm GradStd Extra.
Import ListNotations.
Local Open Scope R_scope.

(** ** Sums *)
Lemma prod_apx2 : forall m k x y g a g' a', Rabs (x - g) <= E m * a -> Rabs (y - g') <= E k * a' -> Rabs g <= a -> Rabs g' <= a' ->
  Rabs (x * y - g * g') <= E (m + k) * (a * a') /\ Rabs (g * g') <= a * a'.
Proof.
  intros m k x y g a g' a' Hx Hy Hg Hg'. assert (Em := E_pos m). assert (Ek := E_pos k). assert (P := Rabs_pos g). assert (P' := Rabs_pos g').
  assert (Q := Rabs_pos (x - g)). assert (Q' := Rabs_pos (y - g')). split.
  - replace (x * y - g * g') with ((x - g) * (y - g') + ((x - g) * g' + g * (y - g'))) by ring.
    apply Rle_trans with (1 := Rabs_triang _ _). apply Rle_trans with (E m * a * (E k * a') + (E m * a * a' + a * (E k * a'))).
    + apply Rplus_le_compat; [rewrite Rabs_mult; apply Rmult_le_compat; assumption|]. apply Rle_trans with (1 := Rabs_triang _ _). rewrite !Rabs_mult.
      apply Rplus_le_compat; apply Rmult_le_compat; assumption.
    + assert (X := E_add m k). replace (E (m + k)) with ((1 + E m) * (1 + E k) - 1) by lra.
      right. ring.
  - rewrite Rabs_mult. apply Rmult_le_compat; assumption.
Qed.
Definition sumf (f : varid -> R) (vs : list varid) : R := Rsum (map f vs).
Lemma sumf_cons : forall f v vs, sumf f (v :: vs) = f v + sumf f vs. Proof. reflexivity. Qed.
Lemma sumf_le : forall f g vs, (forall v, Rabs (f v) <= g v) -> Rabs (sumf f vs) <= sumf g vs.
Proof.
  intros f g vs H. induction vs as [|v vs IH]; [unfold sumf; cbn; rewrite Rabs_R0; lra|]. rewrite !sumf_cons.
  apply Rle_trans with (1 := Rabs_triang _ _). specialize (H v). lra.
Qed.
Lemma sumf_pos : forall f vs, (forall v, 0 <= f v) -> 0 <= sumf f vs.
Proof. intros f vs H. induction vs as [|v vs IH]; [unfold sumf; cbn; lra|]. rewrite sumf_cons. specialize (H v). lra. Qed.
Lemma sumf_ext : forall f g vs, (forall v, In v vs -> f v = g v) -> sumf f vs = sumf g vs.
Proof. intros f g vs H. unfold sumf. f_equal. apply map_ext_in. exact H. Qed.
(** Sum over other variables. *)
Definition on (cs : list varid) (f : varid -> R) (v : varid) : R := if in_dec Nat.eq_dec v cs then f v else 0.
Lemma sumf_on : forall f cs vs, NoDup cs -> NoDup vs -> (forall v, In v cs -> ~ In v vs -> f v = 0) -> sumf f cs = sumf (on cs f) vs.
Proof.
  intros f cs vs Nc. revert vs Nc. induction cs as [|c cs IH]; intros vs Nc Nv H.
  - unfold sumf at 1. cbn. symmetry. rewrite (sumf_ext _ (fun _ => 0)) by reflexivity. clear. induction vs as [|v vs IH]; [reflexivity|]. rewrite sumf_cons, IH. ring.
  - inversion Nc as [|? ? Hc Nc']; subst. rewrite sumf_cons. destruct (in_dec Nat.eq_dec c vs) as [I|I].
    + destruct (in_split c vs I) as (l1 & l2 & ->). assert (Nv2 := Nv). apply NoDup_remove in Nv as (Nv & Nc2).
      rewrite (IH (l1 ++ l2) Nc' Nv). 2: { intros v V1 V2. apply H; [now right|]. intros V3. apply V2. apply in_app_or in V3. apply in_or_app. destruct V3 as [V3|[V3|V3]]; auto. subst v. now contradiction Hc. }
      assert (X : sumf (on cs f) (l1 ++ l2) = sumf (on (c :: cs) f) (l1 ++ l2)).
      { apply sumf_ext. intros v V. unfold on. destruct (in_dec Nat.eq_dec v cs) as [A|A]; destruct (in_dec Nat.eq_dec v (c :: cs)) as [B|B]; try reflexivity.
        - contradiction B. now right.
        - destruct B as [B|B]; [|contradiction]. subst v. contradiction. }
      rewrite X. unfold sumf. rewrite !map_app, !Rsum_app. cbn [map Rsum]. unfold on at 4. destruct (in_dec Nat.eq_dec c (c :: cs)) as [B|B]; [ring|]. contradiction B. now left.
    + rewrite (H c (or_introl eq_refl) I). rewrite (IH vs Nc' Nv). 2: { intros v V1 V2. apply H; auto. now right. }
      rewrite Rplus_0_l. apply sumf_ext. intros v V. unfold on. destruct (in_dec Nat.eq_dec v cs) as [A|A]; destruct (in_dec Nat.eq_dec v (c :: cs)) as [B|B]; try reflexivity.
      * contradiction B. now right.
      * destruct B as [B|B]; [|contradiction]. subst v. contradiction.
Qed.
Definition nzb (p : varid -> R) (v : varid) : bool := if Req_EM_T (p v) 0 then false else true.
Definition nz (p : varid -> R) (vs : list varid) : nat := length (filter (nzb p) vs).
Lemma nz_le : forall p cs vs, NoDup cs -> (forall v, p v <> 0 -> In v vs) -> (nz p cs <= length vs)%nat.
Proof.
  intros p cs vs N H. apply NoDup_incl_length; [now apply NoDup_filter|]. intros v V. apply filter_In in V as (_ & V).
  apply H. unfold nzb in V. destruct (Req_EM_T (p v) 0); [discriminate|assumption].
Qed.
Lemma E_one : forall k, (Z.of_nat k <= 3000000000)%Z -> E k <= 1 /\ E k <= INR k / 2 ^ 52.
Proof.
  intros k H. assert (S : INR k * u53 <= / 2).
  { rewrite INR_IZR_INZ. apply IZR_le in H.
    assert (U : u53 <= / 9007199254740992) by (unfold u53; change (bpow radix2 (-53)) with (/ IZR 9007199254740992); lra).
    assert (U0 := u53_val). apply Rle_trans with (3000000000 * / 9007199254740992); [|lra]. apply Rmult_le_compat; try lra. rewrite <- INR_IZR_INZ. apply pos_INR. }
  assert (A := E_le k S). split; [lra|]. apply Rle_trans with (1 := A). right. rewrite u53_pow.
  assert (X : 2 ^ 53 = 2 * 2 ^ 52) by (cbn [pow]; ring). rewrite X. assert (P : 0 < 2 ^ 52) by (apply pow_lt; lra). field.
Qed.
Lemma pow_bp : forall n : nat, 2 ^ n = bpow radix2 (Z.of_nat n).
Proof. intros n. rewrite bpow_powerRZ. change (IZR radix2) with 2. rewrite <- pow_powerRZ. reflexivity. Qed.
Lemma zero_or_mult : forall a b x y, 0 <= a -> 0 <= b -> x = 0 \/ a <= x -> y = 0 \/ b <= y -> x * y = 0 \/ a * b <= x * y.
Proof. intros a b x y A B [->|X] [->|Y]; [left; ring|left; ring|left; ring|right; apply Rmult_le_compat; lra]. Qed.

Section Cov.
Variable lm : Libm.
Hypothesis SQ : squares_ok lm.
Notation FN := (FOps lm).


Lemma pow_usual : forall s : f64, usual s -> exists r : f64, n_powf (N:=FN) s (n_two FN) = Ok r /\ is_finite r = true /\
  Rabs (B2R r - B2R s ^ 2) <= E 2 * B2R s ^ 2.
Proof.
  intros s (F & H). assert (P : 0 <= B2R s).
  { destruct H as [->|[H _]]; [lra|]. apply Rle_trans with (2 := H). apply Rlt_le, Rinv_0_lt_compat, pow_lt. lra. }
  assert (B : 2 ^ 200 <= 10 ^ 141).
  { rewrite !pow_IZR. apply IZR_le. vm_compute. discriminate. }
  destruct (square_ok lm SQ s F P) as (r & R1 & R2 & R3).
  - destruct H as [H|(H1 & H2)]; [now left|right]. split; [|lra]. apply Rle_trans with (2 := H1). apply Rinv_le_contravar; [apply pow_lt; lra|exact B].
  - exists r. split; [|split; [exact R2|]].
    + unfold n_powf. change (n_pow FN s (n_two FN)) with (f_pow lm s ftwo). rewrite R1. reflexivity.
    + apply Rle_trans with (1 := R3). apply Rmult_le_compat_r; [apply pow2_ge_0|]. unfold E. assert (U := u53_val). cbn [pow]. nra.
Qed.
Lemma fmul_gen : forall n (x y : f64) t T, is_finite x = true -> is_finite y = true ->
  Rabs (B2R x * B2R y - t) <= E n * T -> Rabs t <= T -> fits T -> E n <= 1 ->
  is_finite (fmul x y) = true /\ Rabs (B2R (fmul x y) - t) <= E (n + 2) * T.
Proof.
  intros n x y t T F G H Ht Hf S. destruct (rnd_step n _ t T H Ht Hf S) as (A & B).
  pose proof (Bmult_correct 53 1024 prec_gt_0_64 prec_lt_emax_64 mode_NE x y) as C. fold (fmul x y) in C.
  change (round_mode mode_NE) with ZnearestE in C. rewrite Rlt_bool_true in C by exact A. destruct C as (C1 & C2 & _).
  rewrite F, G in C2. split; [exact C2|]. rewrite C1. exact B.
Qed.

Section Loop.
Variables (h : heap FN) (d1 d2 : dict FN) (k1 k2 : nat) (G1 M1 G2 M2 sg : varid -> R).
Hypothesis D1 : good lm k1 G1 M1 d1.
Hypothesis D2 : good lm k2 G2 M2 d2.
Hypothesis B1 : forall v, Rabs (G1 v) <= M1 v.
Hypothesis B2 : forall v, Rabs (G2 v) <= M2 v.
Hypothesis R1 : forall v, M1 v = 0 \/ bpow radix2 (-200) <= M1 v.
Hypothesis R2 : forall v, M2 v = 0 \/ bpow radix2 (-200) <= M2 v.
Hypothesis T1 : forall v, M1 v <= bpow radix2 240.
Hypothesis T2 : forall v, M2 v <= bpow radix2 240.
Hypothesis HS : forall v o, get_var h v = Some o -> usual (v_std o) /\ B2R (v_std o : f64) = sg v.
Let k0 := (k1 + k2 + 6)%nat.
Let g (v : varid) : R := G1 v * G2 v * sg v ^ 2.
Let p (v : varid) : R := M1 v * M2 v * sg v ^ 2.
Lemma term_ok : forall v x1 x2 o s, dget d1 v = Some x1 -> dget d2 v = Some x2 -> get_var h v = Some o ->
  n_powf (N:=FN) (v_std o) (n_two FN) = Ok s -> E k0 <= 1 ->
  Rabs (g v) <= p v /\ (p v = 0 \/ bpow radix2 (-800) <= p v) /\ p v <= bpow radix2 880 /\
  let t := fmul (fmul x1 x2) s in is_finite t = true /\ Rabs (B2R t - g v) <= E k0 * p v.
Proof.
  intros v x1 x2 o s H1 H2 Ho Hs S. destruct (HS v o Ho) as (U & Us). destruct (pow_usual _ U) as (r & P1 & P2 & P3).
  assert (r = s) by (change (n_powf (N:=FN) (v_std o) (n_two FN) = Ok r) in P1; congruence). subst r. rewrite Us in P3.
  destruct D1 as (_ & F1 & A1). destruct D2 as (_ & F2 & A2). specialize (A1 v). specialize (A2 v). unfold fval in A1, A2.
  assert (F1' := F1 v x1 H1). assert (F2' := F2 v x2 H2). change (num FN) with f64 in *. rewrite H1 in A1. rewrite H2 in A2.
  assert (PM1 : 0 <= M1 v) by (apply Rle_trans with (2 := B1 v); apply Rabs_pos).
  assert (PM2 : 0 <= M2 v) by (apply Rle_trans with (2 := B2 v); apply Rabs_pos).
  assert (Sq0 : 0 <= sg v ^ 2) by apply pow2_ge_0.
  assert (Sq1 : sg v ^ 2 = 0 \/ bpow radix2 (-400) <= sg v ^ 2).
  { rewrite <- Us. destruct U as (_ & [U|(U & _)]); [left; rewrite U; ring|right]. replace (bpow radix2 (-400)) with (bpow radix2 (-200) * bpow radix2 (-200)) by (rewrite <- bpow_plus; reflexivity).
    rewrite pow_bp in U. rewrite <- bpow_opp in U. change (- Z.of_nat 200)%Z with (-200)%Z in U. assert (PP := bpow_gt_0 radix2 (-200)). replace (B2R (v_std o : f64) ^ 2) with (B2R (v_std o : f64) * B2R (v_std o : f64)) by ring. apply Rmult_le_compat; lra. }
  assert (Sq2 : sg v ^ 2 <= bpow radix2 400).
  { rewrite <- Us. replace (bpow radix2 400) with (bpow radix2 200 * bpow radix2 200) by (rewrite <- bpow_plus; reflexivity).
    replace (B2R (v_std o : f64) ^ 2) with (B2R (v_std o : f64) * B2R (v_std o : f64)) by ring. assert (PP := bpow_gt_0 radix2 200).
    destruct U as (_ & [U|(U1 & U2)]); [rewrite U; nra|]. rewrite pow_bp in U1, U2. change (Z.of_nat 200) with 200%Z in *. assert (X := Rinv_0_lt_compat _ PP). apply Rmult_le_compat; lra. }
  assert (Q0 : M1 v * M2 v = 0 \/ bpow radix2 (-400) <= M1 v * M2 v).
  { replace (bpow radix2 (-400)) with (bpow radix2 (-200) * bpow radix2 (-200)) by (rewrite <- bpow_plus; reflexivity). apply zero_or_mult; auto; apply bpow_ge_0. }
  assert (Q1 : 0 <= M1 v * M2 v) by (apply Rmult_le_pos; assumption).
  assert (Q2 : M1 v * M2 v <= bpow radix2 480).
  { replace (bpow radix2 480) with (bpow radix2 240 * bpow radix2 240) by (rewrite <- bpow_plus; reflexivity). apply Rmult_le_compat; auto. }
  assert (Z0 : p v = 0 \/ bpow radix2 (-800) <= p v).
  { unfold p. replace (bpow radix2 (-800)) with (bpow radix2 (-400) * bpow radix2 (-400)) by (rewrite <- bpow_plus; reflexivity). apply zero_or_mult; auto; apply bpow_ge_0. }
  assert (Z2 : p v <= bpow radix2 880).
  { unfold p. replace (bpow radix2 880) with (bpow radix2 480 * bpow radix2 400) by (rewrite <- bpow_plus; reflexivity). apply Rmult_le_compat; auto. }
  destruct (prod_apx2 _ _ _ _ _ _ _ _ A1 A2 (B1 v) (B2 v)) as (X1 & X2).
  assert (S1 : E (k1 + k2) <= 1) by (apply Rle_trans with (2 := S); apply E_mono; unfold k0; lia).
  assert (Ft : fits (M1 v * M2 v)).
  { split; [destruct Q0 as [Q0|Q0]; [now left|right; apply Rle_trans with (2 := Q0); apply bpow_le; lia]|apply Rle_trans with (1 := Q2); apply bpow_le; lia]. }
  destruct (fmul_gen _ x1 x2 _ _ F1' F2' X1 X2 Ft S1) as (Y1 & Y2).
  assert (Sg : Rabs (sg v ^ 2) <= sg v ^ 2) by (rewrite Rabs_pos_eq by exact Sq0; lra).
  destruct (prod_apx2 _ _ _ _ _ _ _ _ Y2 P3 X2 Sg) as (X3 & X4).
  assert (S2 : E (k1 + k2 + 2 + 2) <= 1) by (apply Rle_trans with (2 := S); apply E_mono; unfold k0; lia).
  assert (Ft2 : fits (p v)).
  { split; [destruct Z0 as [Q|Q]; [now left|right; apply Rle_trans with (2 := Q); apply bpow_le; lia]|apply Rle_trans with (1 := Z2); apply bpow_le; lia]. }
  destruct (fmul_gen _ (fmul x1 x2) s _ _ Y1 P2 X3 X4 Ft2 S2) as (W1 & W2).
  split; [exact X4|]. split; [exact Z0|]. split; [exact Z2|]. cbv zeta. split; [exact W1|].
  replace k0 with (k1 + k2 + 2 + 2 + 2)%nat by (unfold k0; lia). exact W2.
Qed.
Lemma loop_cov : forall vs (acc r : f64) k S T m, cov_sum (N:=FN) h d1 d2 vs acc = Ok r -> is_finite acc = true ->
  Rabs (B2R acc - S) <= E k * T -> Rabs S <= T -> T = 0 \/ bpow radix2 (-800) <= T -> T <= INR m * bpow radix2 880 ->
  (Z.of_nat (m + nz p vs) <= 1000000)%Z -> (k0 <= k)%nat -> E (k + 2 * nz p vs) <= 1 ->
  is_finite r = true /\ Rabs (B2R r - (S + sumf g vs)) <= E (k + 2 * nz p vs) * (T + sumf p vs).
Proof.
  induction vs as [|v vs IH]; intros acc r k S T m C F A HS0 HT0 HT1 Hm Hk He.
  - cbn [cov_sum] in C. injection C as <-. split; [exact F|]. unfold sumf, nz. cbn [map Rsum filter length Nat.mul]. rewrite !Rplus_0_r, Nat.add_0_r. exact A.
  - cbn [cov_sum] in C. destruct (dget d1 v) as [x1|] eqn:H1; [|discriminate C]. destruct (dget d2 v) as [x2|] eqn:H2; [|discriminate C].
    destruct (get_var h v) as [o|] eqn:Ho; [|discriminate C]. destruct (n_powf (v_std o) (n_two FN)) as [s|e] eqn:Hs; [|discriminate C]. cbn [rbind] in C.
    change (cov_sum (N:=FN) h d1 d2 vs (fadd acc (fmul (fmul x1 x2) s)) = Ok r) in C.
    assert (S0 : E k0 <= 1) by (apply Rle_trans with (2 := He); apply E_mono; lia).
    destruct (term_ok v x1 x2 o s H1 H2 Ho Hs S0) as (Q1 & Q2 & Q3 & Q4 & Q5).
    set (t := fmul (fmul x1 x2) s) in *. assert (P0 : 0 <= p v) by (apply Rle_trans with (2 := Q1); apply Rabs_pos).
    assert (PT : 0 <= T) by (apply Rle_trans with (2 := HS0); apply Rabs_pos).
    assert (Bp := bpow_gt_0 radix2 880).
    assert (B800 := bpow_gt_0 radix2 (-800)).
    rewrite !sumf_cons. destruct (Req_EM_T (p v) 0) as [Z|Z].
    + assert (Hn : nz p (v :: vs) = nz p vs) by (unfold nz; cbn [filter]; unfold nzb at 1; destruct (Req_EM_T (p v) 0); [reflexivity|contradiction]).
      rewrite Hn in *. assert (g v = 0) by (apply Rabs_le0; rewrite <- Z; exact Q1).
      assert (Bt : B2R t = 0). { rewrite Z, Rmult_0_r in Q5. apply Rabs_le0 in Q5. lra. }
      pose proof (Bplus_correct 53 1024 prec_gt_0_64 prec_lt_emax_64 mode_NE acc t F Q4) as Cc. fold (fadd acc t) in Cc.
      rewrite Bt, Rplus_0_r in Cc. rewrite (round_generic radix2 _ _ _ (generic_format_B2R 53 1024 acc)) in Cc.
      rewrite Rlt_bool_true in Cc by apply abs_B2R_lt_emax. destruct Cc as (C1 & C2 & _).
      destruct (IH (fadd acc t) r k S T m C C2) as (W1 & W2); auto.
      * change (fadd acc t) with (Bplus mode_NE acc t) in *. rewrite C1. exact A.
      * split; [exact W1|]. rewrite H, Z. rewrite !Rplus_0_l. exact W2.
    + assert (Hn : nz p (v :: vs) = Datatypes.S (nz p vs)) by (unfold nz; cbn [filter]; unfold nzb at 1; destruct (Req_EM_T (p v) 0); [contradiction|reflexivity]).
      rewrite Hn in *. set (n := nz p vs) in *.
      assert (Ak : Rabs (B2R acc + B2R t - (S + g v)) <= E k * (T + p v)).
      { replace (B2R acc + B2R t - (S + g v)) with ((B2R acc - S) + (B2R t - g v)) by ring. apply Rle_trans with (1 := Rabs_triang _ _).
        assert (X := apx_mono _ _ _ _ _ Hk P0 Q5). lra. }
      assert (Sk : E k <= 1) by (apply Rle_trans with (2 := He); apply E_mono; lia).
      assert (Hsum : Rabs (S + g v) <= T + p v) by (apply Rle_trans with (1 := Rabs_triang _ _); lra).
      assert (Lo : T + p v = 0 \/ bpow radix2 (-800) <= T + p v).
      { right. destruct Q2 as [Q2|Q2]; [contradiction|lra]. }
      assert (Hi : T + p v <= INR (Datatypes.S m) * bpow radix2 880) by (rewrite S_INR; lra).
      assert (Ft : fits (T + p v)).
      { split; [destruct Lo as [Lo|Lo]; [now left|right; apply Rle_trans with (2 := Lo); apply bpow_le; lia]|].
        apply Rle_trans with (1 := Hi). replace (bpow radix2 950) with (bpow radix2 70 * bpow radix2 880) by (rewrite <- bpow_plus; reflexivity).
        apply Rmult_le_compat_r; [lra|]. rewrite INR_IZR_INZ. change (bpow radix2 70) with (IZR 1180591620717411303424). apply IZR_le. lia. }
      destruct (fadd_step k acc t _ _ F Q4 Ak Hsum Ft Sk) as (C1 & C2).
      destruct (IH (fadd acc t) r (k + 2)%nat (S + g v) (T + p v) (Datatypes.S m) C C1) as (W1 & W2); auto.
      * fold n. lia.
      * lia.
      * fold n. replace (k + 2 + 2 * n)%nat with (k + 2 * Datatypes.S n)%nat by lia. exact He.
      * split; [exact W1|]. fold n in W2. replace (k + 2 * Datatypes.S n)%nat with (k + 2 + 2 * n)%nat by lia.
        rewrite <- !Rplus_assoc. exact W2.
Qed.
(** The whole sum, over all the variables on which both numbers depend. *)
Lemma cov_entry : forall order (r : f64) vs, (forall l, Permutation (order l) l) -> cov_sum (N:=FN) h d1 d2 (common order d1 d2) f0 = Ok r ->
  NoDup vs -> (forall v, p v <> 0 -> In v vs) -> (Z.of_nat (length vs) <= 1000000)%Z -> E (k0 + 2 * length vs) <= 1 ->
  is_finite r = true /\ Rabs (B2R r - sumf g vs) <= E (k0 + 2 * length vs) * sumf p vs.
Proof.
  intros order r vs Po C Nv Iv Lv He. set (cs := common order d1 d2) in *.
  assert (Nc : NoDup cs).
  { unfold cs, common. eapply Permutation_NoDup; [apply Permutation_sym, Po|]. apply NoDup_filter. apply D1. }
  assert (Ln := nz_le p cs vs Nc Iv).
  assert (Gp : forall v, Rabs (g v) <= p v).
  { intros v. unfold g, p. rewrite Rabs_mult, Rabs_mult, (Rabs_pos_eq (sg v ^ 2)) by apply pow2_ge_0.
    apply Rmult_le_compat_r; [apply pow2_ge_0|]. apply Rmult_le_compat; auto using Rabs_pos. }
  assert (Pp : forall v, 0 <= p v) by (intros v; apply Rle_trans with (2 := Gp v); apply Rabs_pos).
  destruct (loop_cov cs f0 r k0 0 0 0 C eq_refl) as (W1 & W2).
  - change (B2R f0) with 0. rewrite Rminus_0_r, Rabs_R0. lra.
  - rewrite Rabs_R0. lra.
  - now left.
  - change (INR 0) with 0. lra.
  - lia.
  - lia.
  - apply Rle_trans with (2 := He). apply E_mono. lia.
  - split; [exact W1|]. rewrite !Rplus_0_l in W2.
    assert (Z : forall v, In v cs -> ~ In v vs -> p v = 0).
    { intros v _ X. destruct (Req_dec (p v) 0) as [Q|Q]; [exact Q|]. contradiction X. auto. }
    rewrite (sumf_on g cs vs Nc Nv) in W2. 2: { intros v X Y. apply Rabs_le0. rewrite <- (Z v X Y). apply Gp. }
    rewrite (sumf_on p cs vs Nc Nv Z) in W2.
    set (K := (k0 + 2 * length vs)%nat) in *.
    assert (Rest : Rabs (sumf g vs - sumf (on cs g) vs) <= E K * (sumf p vs - sumf (on cs p) vs)).
    { assert (X : forall v, Rabs (g v - on cs g v) <= E K * (p v - on cs p v)).
      { intros v. unfold on. destruct (in_dec Nat.eq_dec v cs) as [I|I]; [rewrite !Rminus_eq_0, Rabs_R0; lra|]. rewrite !Rminus_0_r.
        assert (Y : dget d1 v = None \/ dget d2 v = None).
        { destruct (dget d1 v) as [x1|] eqn:H1; [|now left]. destruct (dget d2 v) as [x2|] eqn:H2; [|now right]. contradiction I.
          unfold cs, common. apply (Permutation_in _ (Permutation_sym (Po _))). apply filter_In. split.
          - apply dget_In_keys. exists x1. exact H1.
          - apply existsb_exists. exists v. split; [apply dget_In_keys; exists x2; exact H2|apply Nat.eqb_refl]. }
        unfold g, p. rewrite !Rabs_mult, (Rabs_pos_eq (sg v ^ 2)) by apply pow2_ge_0. rewrite <- !Rmult_assoc.
        apply Rmult_le_compat_r; [apply pow2_ge_0|].
        assert (PM1 : 0 <= M1 v) by (apply Rle_trans with (2 := B1 v); apply Rabs_pos).
        assert (PM2 : 0 <= M2 v) by (apply Rle_trans with (2 := B2 v); apply Rabs_pos).
        destruct Y as [Y|Y].
        - assert (A := proj2 (proj2 D1) v). unfold fval in A. change (num FN) with f64 in *. rewrite Y in A. rewrite Rminus_0_l, Rabs_Ropp in A.
          apply Rmult_le_compat; auto using Rabs_pos. apply Rle_trans with (1 := A). apply Rmult_le_compat_r; [exact PM1|]. apply E_mono. unfold K, k0. lia.
        - assert (A := proj2 (proj2 D2) v). unfold fval in A. change (num FN) with f64 in *. rewrite Y in A. rewrite Rminus_0_l, Rabs_Ropp in A.
          rewrite (Rmult_comm (E K)), Rmult_assoc. apply Rmult_le_compat; auto using Rabs_pos. apply Rle_trans with (1 := A). apply Rmult_le_compat_r; [exact PM2|]. apply E_mono. unfold K, k0. lia. }
      clearbody K. clear - X. induction vs as [|v vs IH]; [unfold sumf; cbn [map Rsum]; rewrite Rminus_0_r, Rabs_R0; lra|]. rewrite !sumf_cons.
      replace (g v + sumf g vs - (on cs g v + sumf (on cs g) vs)) with ((g v - on cs g v) + (sumf g vs - sumf (on cs g) vs)) by ring.
      apply Rle_trans with (1 := Rabs_triang _ _). specialize (X v). lra. }
    assert (W3 : Rabs (B2R r - sumf (on cs g) vs) <= E K * sumf (on cs p) vs).
    { apply Rle_trans with (1 := W2). apply Rmult_le_compat_r; [|apply E_mono; unfold K; lia]. apply sumf_pos. intros v. unfold on. destruct (in_dec _ _ _); [apply Pp|lra]. }
    replace (B2R r - sumf g vs) with ((B2R r - sumf (on cs g) vs) - (sumf g vs - sumf (on cs g) vs)) by ring.
    unfold Rminus at 1. apply Rle_trans with (1 := Rabs_triang _ _). rewrite Rabs_Ropp. lra.
Qed.
End Loop.

(** ** The matrix *)
Lemma deriv_inv : forall Lm (h : heap FN) fuel l d h', Inv lm Lm h -> lc_derivatives (N:=FN) fuel l h = (Ok d, h') ->
  Inv lm Lm h' /\ h_var h' = h_var h /\
  forall a, nth_error Lm l = Some (Some a) -> in_range a -> good lm (roundings a) (grad a) (paths a) d.
Proof.
  intros Lm h fuel l d h' I H. unfold lc_derivatives in H. destruct (get_lc h l) as [d0|its] eqn:G.
  - injection H as <- <-. split; [exact I|]. split; [reflexivity|]. intros a Ha R. destruct (proj2 I _ _ Ha) as (_ & O). specialize (O R). rewrite G in O. exact O.
  - destruct (expand_loop fuel l [] h) as [[t|e] h1] eqn:X; [|discriminate H].
    destruct (get_lc h1 l) as [d1|] eqn:G1; [|discriminate H]. injection H as <- <-.
    assert (V : ev (fun e => e = EFuel) h h1) by (apply (ev_expand _ h l its fuel _ _ G X), not_fuel; discriminate).
    destruct (ev_inv lm _ _ V Lm I) as (more & I1). assert (Ln := proj1 (loop_others lm _ _ _ _ _ _ X)).
    assert (more = []). { destruct more as [|y more]; [reflexivity|]. exfalso. assert (A := proj1 I). assert (B := proj1 I1). rewrite app_length in B. cbn [length] in B. lia. }
    subst more. rewrite app_nil_r in I1. split; [exact I1|]. split; [exact (expand_vars lm _ _ _ _ _ _ X)|].
    intros a Ha R. destruct (proj2 I1 _ _ Ha) as (_ & O). specialize (O R). rewrite G1 in O. exact O.
Qed.
Definition dict_of (Lm : list (option lin)) (w : value FN) (d : dict FN) : Prop :=
  forall u a, w = VUF u -> nth_error Lm (uf_lp u) = Some (Some a) -> in_range a -> good lm (roundings a) (grad a) (paths a) d.
Lemma elem_inv : forall Lm (h : heap FN) fuel w d h', Inv lm Lm h -> elem_derivatives (N:=FN) fuel w h = (Ok d, h') ->
  Inv lm Lm h' /\ h_var h' = h_var h /\ dict_of Lm w d.
Proof.
  intros Lm h fuel [x|u] d h' I H; [discriminate H|]. destruct (deriv_inv Lm h fuel (uf_lp u) d h' I H) as (A & B & C).
  split; [exact A|]. split; [exact B|]. intros u' a X. injection X as <-. apply C.
Qed.
Lemma bind_ok : forall A B (m : M FN A) (f : A -> M FN B) (h : heap FN) b h', bind m f h = (Ok b, h') -> exists a h1, m h = (Ok a, h1) /\ f a h1 = (Ok b, h').
Proof. intros A B m f h b h' H. unfold bind in H. destruct (m h) as [[a|e] h1]; [|discriminate H]. exists a, h1. auto. Qed.
Definition one_entry (Lm : list (option lin)) (order : list varid -> list varid) (vars : list (varobj FN)) (w1 w2 : value FN) (x : f64) : Prop :=
  exists h d1 d2, h_var h = vars /\ dict_of Lm w1 d1 /\ dict_of Lm w2 d2 /\ cov_sum (N:=FN) h d1 d2 (common order d1 d2) f0 = Ok x.
Lemma row_inv : forall Lm order fuel w1 d1, dict_of Lm w1 d1 -> forall l (h : heap FN) r h', Inv lm Lm h -> cov_row (N:=FN) order fuel d1 l h = (Ok r, h') ->
  Inv lm Lm h' /\ h_var h' = h_var h /\ length r = length l /\
  forall j w, nth_error l j = Some w -> one_entry Lm order (h_var h) w1 w (nth j r f0).
Proof.
  intros Lm order fuel w1 d1 D1. induction l as [|w l IH]; intros h r h' I H; cbn [cov_row] in H.
  - injection H as <- <-. split; [exact I|]. split; [reflexivity|]. split; [reflexivity|]. intros [|j] w X; discriminate X.
  - apply bind_ok in H as (d2 & h1 & H1 & H). apply bind_ok in H as (c & h2 & H2 & H). apply bind_ok in H as (r' & h3 & H3 & H).
    injection H as <- <-. destruct (cov_sum h1 d1 d2 (common order d1 d2) (n_zero FN)) as [c'|e] eqn:C; [|discriminate H2]. injection H2 as -> <-.
    destruct (elem_inv _ _ _ _ _ _ I H1) as (I1 & V1 & D2). destruct (IH _ _ _ I1 H3) as (I3 & V3 & L3 & E3).
    split; [exact I3|]. split; [congruence|]. split; [cbn [length]; congruence|]. intros [|j] w' X; cbn [nth_error nth] in *.
    + injection X as <-. exists h1, d1, d2. auto.
    + rewrite <- V1. apply E3. exact X.
Qed.
Lemma rows_inv : forall Lm order fuel l rest i (h : heap FN) m h', Inv lm Lm h -> cov_rows (N:=FN) order fuel l i rest h = (Ok m, h') ->
  Inv lm Lm h' /\ h_var h' = h_var h /\ length m = length rest /\
  forall a w, nth_error rest a = Some w -> length (nth a m []) = length (firstn (S (i + a)) l) /\
    forall j w', (j <= i + a)%nat -> nth_error l j = Some w' -> one_entry Lm order (h_var h) w w' (nth j (nth a m []) f0).
Proof.
  intros Lm order fuel l. induction rest as [|w rest IH]; intros i h m h' I H; cbn [cov_rows] in H.
  - injection H as <- <-. split; [exact I|]. split; [reflexivity|]. split; [reflexivity|]. intros [|a] w X; discriminate X.
  - apply bind_ok in H as (d1 & h1 & H1 & H). apply bind_ok in H as (row & h2 & H2 & H). apply bind_ok in H as (m' & h3 & H3 & H).
    injection H as <- <-. destruct (elem_inv _ _ _ _ _ _ I H1) as (I1 & V1 & D1). destruct (row_inv _ _ _ _ _ D1 _ _ _ _ I1 H2) as (I2 & V2 & L2 & E2).
    destruct (IH _ _ _ _ I2 H3) as (I3 & V3 & L3 & E3). split; [exact I3|]. split; [congruence|]. split; [cbn [length]; congruence|].
    intros [|a] w0 X; cbn [nth_error nth] in *.
    + injection X as <-. rewrite Nat.add_0_r. split; [exact L2|]. intros j w' Hj Hw. rewrite <- V1. apply E2.
      rewrite <- Hw. clear - Hj. revert i j Hj. induction l as [|y l IH]; intros i j Hj; [now destruct j|]. destruct j as [|j]; [reflexivity|]. cbn [firstn nth_error]. destruct i as [|i]; [lia|]. apply (IH i j). lia.
    + destruct (E3 a w0 X) as (A & B). replace (i + S a)%nat with (S i + a)%nat by lia. split; [exact A|]. intros j w' Hj Hw.
      assert (V : h_var h = h_var h2) by congruence. rewrite V. now apply B.
Qed.
Lemma sym_entry : forall (m : matrix FN) p q, (forall a, (a < length m)%nat -> length (nth a m []) = S a) -> (p < length m)%nat -> (q < length m)%nat ->
  entry (N:=FN) (symmetrize (N:=FN) m) p q = if (q <=? p)%nat then entry (N:=FN) m p q else entry (N:=FN) m q p.
Proof.
  intros m p q H Hp Hq. unfold symmetrize, entry at 1.
  set (F := fun i => nth i m [] ++ map (fun j => entry (N:=FN) m j i) (seq (S i) (length m - S i))).
  assert (X : nth p (map F (seq 0 (length m))) [] = F p).
  { rewrite (nth_indep _ [] (F 0%nat)) by (rewrite map_length, seq_length; exact Hp). rewrite map_nth, seq_nth by exact Hp. reflexivity. }
  rewrite X. unfold F. destruct (Nat.leb_spec q p) as [L|L].
  - rewrite app_nth1 by (rewrite H by exact Hp; lia). reflexivity.
  - rewrite app_nth2 by (rewrite H by exact Hp; lia). rewrite H by exact Hp.
    rewrite (nth_indep _ _ (entry (N:=FN) m 0 p)) by (rewrite map_length, seq_length; lia).
    rewrite (map_nth (fun j => entry (N:=FN) m j p) (seq (S p) (length m - S p)) 0%nat). rewrite seq_nth by lia. f_equal. lia.
Qed.
Lemma one_entry_ok : forall Lm order vars u w a b (x : f64) vs (sigma : varid -> R),
  (forall l, Permutation (order l) l) -> one_entry Lm order vars (VUF u) (VUF w) x ->
  nth_error Lm (uf_lp u) = Some (Some a) -> nth_error Lm (uf_lp w) = Some (Some b) -> small_lin a -> small_lin b -> wfl a -> wfl b ->
  (forall v o, nth_error vars v = Some o -> usual (v_std o) /\ B2R (v_std o : f64) = sigma v) ->
  NoDup vs -> (forall v, paths a v <> 0 -> paths b v <> 0 -> sigma v <> 0 -> In v vs) -> (Z.of_nat (length vs) <= 1000000)%Z ->
  is_finite x = true /\
  Rabs (B2R x - Rsum (map (fun v => grad a v * grad b v * sigma v ^ 2) vs))
    <= INR (roundings a + roundings b + 2 * length vs + 6) / 2 ^ 52 * Rsum (map (fun v => paths a v * paths b v * sigma v ^ 2) vs).
Proof.
  intros Lm order vars u w a b x vs sigma Po (h & d1 & d2 & Hv & D1 & D2 & C) Ha Hb (Ra & Sa) (Rb & Sb) Wa Wb Hs Nv Iv Lv.
  assert (G1 := D1 u a eq_refl Ha Ra). assert (G2 := D2 w b eq_refl Hb Rb).
  assert (T : forall c, in_range c -> range c <= 2 ^ 200 -> wfl c -> forall v, Rabs (grad c v) <= paths c v /\ (paths c v = 0 \/ bpow radix2 (-200) <= paths c v) /\ paths c v <= bpow radix2 240).
  { intros c (Rc & _) Sc (W1 & W2) v. destruct (W2 v) as (X1 & X2 & X3). split; [exact X1|]. split.
    - destruct X2 as [X2|X2]; [now left|right]. apply Rle_trans with (2 := X2). change (-200)%Z with (- Z.of_nat 200)%Z. rewrite bpow_opp, <- pow_bp. apply Rinv_le_contravar; lra.
    - apply Rle_trans with (1 := X3). replace (bpow radix2 240) with (bpow radix2 40 * 2 ^ 200) by (rewrite pow_bp, <- bpow_plus; reflexivity).
      apply Rmult_le_compat; try lra; [assert (X := pos_INR (roundings c)); lra|]. apply IZR_le in Rc. rewrite <- INR_IZR_INZ in Rc. change (bpow radix2 40) with (IZR 1099511627776). lra. }
  set (K := (roundings a + roundings b + 6 + 2 * length vs)%nat).
  assert (Kz : (Z.of_nat K <= 3000000000)%Z) by (destruct Ra, Rb; unfold K; lia).
  destruct (E_one K Kz) as (E1 & E2).
  destruct (cov_entry h d1 d2 (roundings a) (roundings b) (grad a) (paths a) (grad b) (paths b) sigma G1 G2
    (fun v => proj1 (T a Ra Sa Wa v)) (fun v => proj1 (T b Rb Sb Wb v))
    (fun v => proj1 (proj2 (T a Ra Sa Wa v))) (fun v => proj1 (proj2 (T b Rb Sb Wb v)))
    (fun v => proj2 (proj2 (T a Ra Sa Wa v))) (fun v => proj2 (proj2 (T b Rb Sb Wb v))) 
    (fun v o Ho => Hs v o (eq_trans (f_equal (fun z => nth_error z v) (eq_sym Hv)) Ho)) order x vs Po C Nv) as (F & B); [|exact Lv|exact E1|].
  - intros v Hp. apply Iv; intros Z; apply Hp; rewrite Z; ring.
  - split; [exact F|]. fold K in B. apply Rle_trans with (1 := B). replace (roundings a + roundings b + 2 * length vs + 6)%nat with K by (unfold K; lia).
    apply Rmult_le_compat_r; [|exact E2]. apply sumf_pos. intros v. apply Rmult_le_pos; [|apply pow2_ge_0].
    assert (X := T a Ra Sa Wa v). assert (Y := T b Rb Sb Wb v). assert (X' := Rabs_pos (grad a v)). assert (Y' := Rabs_pos (grad b v)). apply Rmult_le_pos; lra.
Qed.
End Cov.
Theorem covariance_accurate : forall lm, squares_ok lm -> forall order (st : state (FOps lm)) L is m st' p q i j a b vs,
  (forall l, Permutation (order l) l) -> traced lm st L -> covariance order st is (Ok m) st' ->
  nth_error is p = Some i -> nth_error is q = Some j -> nth_error L i = Some (Some a) -> nth_error L j = Some (Some b) ->
  small_lin a -> small_lin b -> (forall v, usual (sd st v)) ->
  let sigma := fun v => B2R (sd st v : f64) in
  NoDup vs -> (forall v, paths a v <> 0 -> paths b v <> 0 -> sigma v <> 0 -> In v vs) -> (Z.of_nat (length vs) <= 1000000)%Z ->
  let x := entry (N:=FOps lm) m p q : f64 in
  is_finite x = true /\
  Rabs (B2R x - Rsum (map (fun v => grad a v * grad b v * sigma v ^ 2) vs))
    <= INR (roundings a + roundings b + 2 * length vs + 6) / 2 ^ 52 * Rsum (map (fun v => paths a v * paths b v * sigma v ^ 2) vs).
Proof.
  intros lm SQ order st L is m st' p q i j a b vs Po T (l & k & Gl & _ & Hc) Hp Hq Hi Hj Sa Sb Us sigma Nv Iv Lv x.
  destruct (traced_tracks lm _ _ T) as (Lm & I & K). destruct (proj2 K _ _ Hi) as (u & U1 & U2). destruct (proj2 K _ _ Hj) as (w & W1 & W2).
  destruct (proj2 I _ _ U2) as (Wa & _). destruct (proj2 I _ _ W2) as (Wb & _).
  specialize (Hc k (le_n k)). unfold covariance_matrix in Hc. apply bind_ok in Hc as (m0 & h1 & H0 & H1). injection H1 as <- _.
  destruct (rows_inv lm Lm order k l l 0 _ _ _ I H0) as (_ & _ & Lm0 & En).
  assert (El : forall n y e, nth_error is n = Some y -> nth_error (st_env st) y = Some e -> nth_error l n = Some e).
  { clear - Gl. revert l Gl. induction is as [|z is IH]; intros l Gl n y e A B; [destruct n; discriminate A|]. cbn [get_args] in Gl.
    destruct (nth_error (st_env st) z) as [e0|] eqn:Z; [|discriminate Gl]. destruct (get_args (st_env st) is) as [l0|]; [|discriminate Gl]. injection Gl as <-.
    destruct n as [|n]; cbn [nth_error] in *; [congruence|]. eapply IH; eauto. }
  assert (Pl := El _ _ _ Hp U1). assert (Ql := El _ _ _ Hq W1).
  assert (Pb : (p < length l)%nat) by (apply nth_error_Some; congruence). assert (Qb : (q < length l)%nat) by (apply nth_error_Some; congruence).
  assert (Tri : forall c, (c < length m0)%nat -> length (nth c m0 []) = S c).
  { intros c Hb. rewrite Lm0 in Hb. destruct (nth_error l c) as [e|] eqn:Z; [|apply nth_error_None in Z; lia]. rewrite (proj1 (En c e Z)). rewrite firstn_length. cbn [Nat.add]. lia. }
  assert (Hs : forall v o, nth_error (h_var (st_heap st)) v = Some o -> usual (v_std o) /\ B2R (v_std o : f64) = sigma v).
  { intros v o Ho. assert (X : sd st v = v_std o) by (unfold sd, get_var; rewrite Ho; reflexivity). unfold sigma. specialize (Us v). rewrite X in *. auto. }
  unfold x. rewrite (sym_entry lm m0 p q Tri) by lia. destruct (Nat.leb_spec q p) as [Le|Le].
  - apply (one_entry_ok lm SQ Lm order _ u w a b _ vs sigma Po (proj2 (En p _ Pl) q _ ltac:(lia) Ql) U2 W2 Sa Sb Wa Wb Hs Nv Iv Lv).
  - destruct (one_entry_ok lm SQ Lm order _ w u b a _ vs sigma Po (proj2 (En q _ Ql) p _ ltac:(lia) Pl) W2 U2 Sb Sa Wb Wa Hs Nv (fun v A B C => Iv v B A C) Lv) as (F & B).
    split; [exact F|]. rewrite (map_ext (fun v => grad a v * grad b v * sigma v ^ 2) (fun v => grad b v * grad a v * sigma v ^ 2)) by (intros; ring).
    rewrite (map_ext (fun v => paths a v * paths b v * sigma v ^ 2) (fun v => paths b v * paths a v * sigma v ^ 2)) by (intros; ring).
    rewrite (Nat.add_comm (roundings a)). exact B.
Qed.

(** ** Correlations *)
Lemma rel_form : forall x v, Rabs (x - v) <= u53 * Rabs v -> exists e, Rabs e <= u53 /\ x = v * (1 + e).
Proof.
  intros x v H. destruct (Req_dec v 0) as [->|N].
  - exists 0. rewrite Rabs_R0, Rmult_0_r in *. assert (U := u53_val). split; [lra|]. assert (X := Rabs_le0 _ H). lra.
  - exists ((x - v) / v). split; [|field; exact N]. unfold Rdiv. rewrite Rabs_mult, Rabs_inv. assert (P := Rabs_pos_lt v N).
    apply Rmult_le_reg_r with (Rabs v); [exact P|]. rewrite Rmult_assoc, Rinv_l, Rmult_1_r by lra. exact H.
Qed.
Lemma fdiv_ok : forall x y : f64, is_finite x = true -> B2R y <> 0 -> let v := B2R x / B2R y in
  v = 0 \/ lo <= Rabs v <= hi -> is_finite (fdiv x y) = true /\ Rabs (B2R (fdiv x y) - v) <= u53 * Rabs v.
Proof.
  intros x y F N v H. destruct (rnd_ok v H) as (A & B).
  pose proof (Bdiv_correct 53 1024 prec_gt_0_64 prec_lt_emax_64 mode_NE x y N) as C. fold (fdiv x y) in C. fold v in C.
  change (round_mode mode_NE) with ZnearestE in C. rewrite Rlt_bool_true in C by exact A. destruct C as (C1 & C2 & _).
  split; [rewrite C2; exact F|]. rewrite C1. exact B.
Qed.
Lemma moderate_r10 : forall x, moderate x -> r10 (-100) <= x <= r10 100.
Proof. intros x (A & B). rewrite pow10 in A, B. rewrite <- r10_inv in A. auto. Qed.
Lemma sqrt_r10 : forall x, moderate x -> r10 (-50) <= sqrt x <= r10 50.
Proof.
  intros x H. apply moderate_r10 in H as (A & B).
  assert (S : forall n, sqrt (r10 (n + n)) = r10 n) by (intros n; rewrite r10_add; apply sqrt_square; apply Rlt_le, r10_pos).
  rewrite <- (S (-50)%Z), <- (S 50%Z). split; apply sqrt_le_1_alt; assumption.
Qed.
Lemma prod_small : forall u x y, -u <= x <= u -> -u <= y <= u -> - (u * u) <= x * y <= u * u.
Proof.
  intros u x y X Y. apply Rabs_le_inv. rewrite Rabs_mult. apply Rmult_le_compat; try apply Rabs_pos; apply Rabs_le; lra.
Qed.
Lemma four_errors : forall u e1 e2 ea eb, 0 < u <= / 1000000000 -> -u <= e1 <= u -> -u <= e2 <= u -> -u <= ea <= u -> -u <= eb <= u ->
  0 < (1 + ea) * (1 + eb) /\ Rabs ((1 + e1) * (1 + e2) - (1 + ea) * (1 + eb)) <= 5 * u * ((1 + ea) * (1 + eb)).
Proof.
  intros u e1 e2 ea eb U H1 H2 Ha Hb. assert (A := prod_small u e1 e2 H1 H2). assert (B := prod_small u ea eb Ha Hb).
  replace ((1 + ea) * (1 + eb)) with (1 + ea + eb + ea * eb) by ring. replace ((1 + e1) * (1 + e2)) with (1 + e1 + e2 + e1 * e2) by ring.
  set (P := ea * eb) in *. set (Q := e1 * e2) in *. clearbody P Q. assert (UU : 0 <= u * u <= / 1000000000 * u) by nra. set (W := u * u) in *. clearbody W.
  split; [lra|]. assert (L : 5 * u * (4 / 5 + / 100) <= 5 * u * (1 + ea + eb + P)) by (apply Rmult_le_compat_l; lra).
  apply Rabs_le. lra.
Qed.
(** m/s_b/s_a, with rounded square roots. *)
Lemma quotient_ok : forall m va vb sa sb : f64, is_finite m = true -> moderate (B2R va) -> moderate (B2R vb) -> B2R m = 0 \/ moderate (Rabs (B2R m)) ->
  Rabs (B2R sa - sqrt (B2R va)) <= u53 * sqrt (B2R va) -> Rabs (B2R sb - sqrt (B2R vb)) <= u53 * sqrt (B2R vb) ->
  let rho := B2R m / sqrt (B2R va * B2R vb) in
  is_finite (fdiv (fdiv m sb) sa) = true /\ Rabs (B2R (fdiv (fdiv m sb) sa) - rho) <= 5 / 2 ^ 53 * Rabs rho.
Proof.
  intros m va vb sa sb Fm Va Vb Hm Sa Sb rho. assert (U := u53_val).
  assert (Ra := sqrt_r10 _ Va). assert (Rb := sqrt_r10 _ Vb).
  assert (Pa : 0 < sqrt (B2R va)) by (apply Rlt_le_trans with (2 := proj1 Ra); apply r10_pos).
  assert (Pb : 0 < sqrt (B2R vb)) by (apply Rlt_le_trans with (2 := proj1 Rb); apply r10_pos).
  assert (Rho : rho = B2R m / (sqrt (B2R va) * sqrt (B2R vb))).
  { unfold rho. rewrite sqrt_mult; [reflexivity| |]; apply Rlt_le; apply sqrt_lt_0_alt; rewrite sqrt_0; assumption. }
  rewrite Rho. clear Rho rho. set (x := sqrt (B2R va)) in *. set (y := sqrt (B2R vb)) in *. clearbody x y.
  rewrite <- (Rabs_pos_eq x) in Sa at 2 by lra. rewrite <- (Rabs_pos_eq y) in Sb at 2 by lra.
  destruct (rel_form _ _ Sa) as (ea & Ea & Xa). destruct (rel_form _ _ Sb) as (eb & Eb & Xb).
  apply Rabs_le_inv in Ea. apply Rabs_le_inv in Eb.
  assert (Qa : x * (1 - u53) <= B2R sa <= x * (1 + u53)) by (rewrite Xa; split; apply Rmult_le_compat_l; lra).
  assert (Qb : y * (1 - u53) <= B2R sb <= y * (1 + u53)) by (rewrite Xb; split; apply Rmult_le_compat_l; lra).
  assert (T10 : r10 1 = 10) by (rewrite r10_Z by lia; reflexivity).
  assert (Big : forall z s, r10 (-50) <= z <= r10 50 -> z * (1 - u53) <= s <= z * (1 + u53) -> 0 < s /\ r10 (-51) <= s <= r10 51).
  { intros z s (Z1 & Z2) (S1 & S2). assert (P := r10_pos (-51)). assert (P2 := r10_pos 50).
    replace (r10 (-50)) with (10 * r10 (-51)) in Z1 by (rewrite <- T10, <- r10_add; reflexivity).
    replace (r10 51) with (10 * r10 50) by (rewrite <- T10, <- r10_add; reflexivity). nra. }
  destruct (Big x (B2R sa) Ra Qa) as (Ga & La & Ua). destruct (Big y (B2R sb) Rb Qb) as (Gb & Lb & Ub).
  assert (Inv : forall s, r10 (-51) <= s <= r10 51 -> r10 (-51) <= / s <= r10 51).
  { intros s (S1 & S2). assert (P := r10_pos (-51)). change (-51)%Z with (- (51))%Z at 1. rewrite r10_inv. split; [apply Rinv_le_contravar; lra|].
    rewrite <- (Rinv_inv (r10 51)), <- r10_inv. change (- (51))%Z with (-51)%Z. apply Rinv_le_contravar; lra. }
  assert (Ia := Inv _ (conj La Ua)). assert (Ib := Inv _ (conj Lb Ub)).
  assert (V1 : B2R m / B2R sb = 0 \/ r10 (-151) <= Rabs (B2R m / B2R sb) <= r10 151).
  { destruct Hm as [Hm|Hm]; [left; rewrite Hm; unfold Rdiv; ring|right]. apply moderate_r10 in Hm. unfold Rdiv. rewrite Rabs_mult, (Rabs_pos_eq (/ B2R sb)) by (apply Rlt_le, Rinv_0_lt_compat, Gb).
    replace (r10 (-151)) with (r10 (-100) * r10 (-51)) by (rewrite <- r10_add; reflexivity). replace (r10 151) with (r10 100 * r10 51) by (rewrite <- r10_add; reflexivity).
    assert (P1 := r10_pos (-100)). assert (P2 := r10_pos (-51)). split; apply Rmult_le_compat; lra. }
  destruct (fdiv_ok m sb Fm ltac:(lra)) as (F1 & D1).
  { destruct V1 as [V1|(V1 & V2)]; [now left|right]. split; [apply Rle_trans with (2 := V1)|apply Rle_trans with (1 := V2)]; apply r10_le; lia. }
  destruct (rel_form _ _ D1) as (e1 & E1 & X1). apply Rabs_le_inv in E1.
  set (q := fdiv m sb) in *.
  assert (V2 : B2R q / B2R sa = 0 \/ lo <= Rabs (B2R q / B2R sa) <= hi).
  { destruct V1 as [V1|V1]; [left; rewrite X1, V1; unfold Rdiv; ring|right]. unfold Rdiv at 1 2. rewrite Rabs_mult, (Rabs_pos_eq (/ B2R sa)) by (apply Rlt_le, Rinv_0_lt_compat, Ga).
    assert (Rq : r10 (-152) <= Rabs (B2R q) <= r10 152).
    { rewrite X1, Rabs_mult, (Rabs_pos_eq (1 + e1)) by lra. assert (P1 := r10_pos (-152)). assert (P2 := r10_pos 151).
      replace (r10 (-151)) with (10 * r10 (-152)) in V1 by (rewrite <- T10, <- r10_add; reflexivity). replace (r10 152) with (10 * r10 151) by (rewrite <- T10, <- r10_add; reflexivity). nra. }
    assert (P1 := r10_pos (-152)). assert (P2 := r10_pos (-51)). split.
    - apply Rle_trans with (r10 (-152) * r10 (-51)); [rewrite <- r10_add; apply r10_le; lia|]. apply Rmult_le_compat; lra.
    - apply Rle_trans with (r10 152 * r10 51); [|rewrite <- r10_add; apply r10_le; lia]. apply Rmult_le_compat; lra. }
  destruct (fdiv_ok q sa F1 ltac:(lra) V2) as (F2 & D2). split; [exact F2|].
  destruct (rel_form _ _ D2) as (e2 & E2 & X2). apply Rabs_le_inv in E2. rewrite X2, X1, Xa, Xb.
  set (w := (1 + e1) * (1 + e2) / ((1 + ea) * (1 + eb))).
  replace (B2R m / (y * (1 + eb)) * (1 + e1) / (x * (1 + ea)) * (1 + e2) - B2R m / (x * y)) with (B2R m / (x * y) * (w - 1)) by (unfold w; field; lra).
  rewrite Rabs_mult, Rmult_comm. apply Rmult_le_compat_r; [apply Rabs_pos|].
  unfold Rdiv at 1. rewrite <- u53_pow. destruct (four_errors u53 e1 e2 ea eb U E1 E2 Ea Eb) as (Dn & Er).
  replace (w - 1) with (((1 + e1) * (1 + e2) - (1 + ea) * (1 + eb)) * / ((1 + ea) * (1 + eb))) by (unfold w; field; lra).
  rewrite Rabs_mult, (Rabs_pos_eq (/ _)) by (apply Rlt_le, Rinv_0_lt_compat, Dn).
  apply Rmult_le_reg_r with ((1 + ea) * (1 + eb)); [exact Dn|]. rewrite Rmult_assoc, Rinv_l, Rmult_1_r by lra. exact Er.
Qed.
Theorem correlation_accurate : forall lm order (st st' : state (FOps lm)) is m, covariance order st is (Ok m) st' ->
  exists c, correlation order st is (Ok c) st' /\
    forall a b, (a < length m)%nat -> (b < length m)%nat ->
      let cov := fun i j => entry (N:=FOps lm) m i j : f64 in
      is_finite (cov a b) = true -> is_finite (cov a a) = true -> is_finite (cov b b) = true ->
      moderate (B2R (cov a a)) -> moderate (B2R (cov b b)) -> B2R (cov a b) = 0 \/ moderate (Rabs (B2R (cov a b))) ->
      let rho := B2R (cov a b) / sqrt (B2R (cov a a) * B2R (cov b b)) in
      let x := entry (N:=FOps lm) c a b : f64 in
      is_finite x = true /\ Rabs (B2R x - rho) <= 5 / 2 ^ 53 * Rabs rho.
Proof.
  intros lm order st st' is m (l & k & G & E & H).
  destruct (rmapM_total _ _ (np_sqrt (N:=FOps lm)) (diagonal m)) as (s & Es & Hs).
  { intros x _. destruct (np_sqrt_ok lm x) as (y & Y & _). exists y. exact Y. }
  set (row := fun i => rmapM (fun j => rbind (np_div (N:=FOps lm) (entry m i j) (nth j s (n_zero (FOps lm)))) (fun q => np_div (N:=FOps lm) q (nth i s (n_zero (FOps lm))))) (seq 0 (length m))).
  assert (Sq : forall n, (n < length m)%nat -> nth_error (seq 0 (length m)) n = Some n).
  { intros n Hn. rewrite (nth_error_nth' _ 0%nat) by (rewrite seq_length; exact Hn). rewrite seq_nth by exact Hn. reflexivity. }
  assert (Row : forall i, exists r, row i = Ok r /\ forall j, (j < length m)%nat -> nth_error r j = Some (fdiv (fdiv (entry m i j) (nth j s f0)) (nth i s f0))).
  { intros i. unfold row.
    destruct (rmapM_total _ _ (fun j => rbind (np_div (N:=FOps lm) (entry m i j) (nth j s (n_zero (FOps lm)))) (fun q => np_div (N:=FOps lm) q (nth i s (n_zero (FOps lm))))) (seq 0 (length m))) as (r & Er & Hr).
    - intros j _. eexists. reflexivity.
    - exists r. split; [exact Er|]. intros j Hj. destruct (Hr j j (Sq j Hj)) as (z & Z1 & Z2).
      assert (Y : Ok (fdiv (fdiv (entry m i j) (nth j s f0)) (nth i s f0)) = Ok z) by exact Z1. injection Y as Y. rewrite Z2, <- Y. reflexivity. }
  destruct (rmapM_total _ _ row (seq 0 (length m))) as (c & Ec & Hc).
  { intros i _. destruct (Row i) as (r & R & _). exists r. exact R. }
  assert (En : normalize (N:=FOps lm) m s = Ok c) by exact Ec.
  exists c. split.
  { exists l, k. split; [exact G|]. split; [exact E|]. intros fuel Hf. unfold correlation_matrix, bind. rewrite (H fuel Hf). unfold lift. rewrite Es. cbn [rbind]. rewrite En. reflexivity. }
  intros a b Ha Hb cov Fab Faa Fbb Ma Mb Mab rho x.
  assert (Ent : x = fdiv (fdiv (cov a b) (nth b s f0)) (nth a s f0)).
  { destruct (Hc a a (Sq a Ha)) as (r & R1 & R2).
    destruct (Row a) as (r' & R1' & Hr). assert (r' = r) by congruence. subst r'.
    unfold x, entry at 1. rewrite (nth_error_nth _ _ _ R2). rewrite (nth_error_nth _ _ _ (Hr b Hb)). reflexivity. }
  assert (Sd : forall n, (n < length m)%nat -> is_finite (cov n n) = true -> moderate (B2R (cov n n)) -> Rabs (B2R (nth n s f0 : f64) - sqrt (B2R (cov n n))) <= u53 * sqrt (B2R (cov n n))).
  { intros n Hn Fn Mn. destruct (Hs n (cov n n)) as (y & Y1 & Y2).
    { unfold diagonal. rewrite nth_error_map, Sq by exact Hn. reflexivity. }
    assert (Y3 : nth n s f0 = y) by exact (nth_error_nth _ _ _ Y2). rewrite Y3.
    assert (Rs := sqrt_r10 _ Mn). assert (P0 : 0 <= B2R (cov n n)) by (apply moderate_r10 in Mn; assert (X := r10_pos (-100)); lra).
    destruct (fsqrt_ok (cov n n) Fn P0) as (z & Z1 & _ & Z2).
    { right. split; [apply Rle_trans with (2 := proj1 Rs)|apply Rle_trans with (1 := proj2 Rs)]; apply r10_le; lia. }
    unfold np_sqrt in Y1. change (n_lt (FOps lm) (cov n n) (n_zero (FOps lm))) with (Bltb (cov n n) f0) in Y1.
    assert (L : Bltb (cov n n) f0 = false) by (rewrite Bltb_correct by (auto; reflexivity); apply Rlt_bool_false; exact P0).
    rewrite L in Y1. change (f_sqrt (cov n n) = Ok y) in Y1. rewrite Z1 in Y1. injection Y1 as <-. exact Z2. }
  rewrite Ent. exact (quotient_ok (cov a b) (cov a a) (cov b b) _ _ Fab Ma Mb Mab (Sd a Ha Faa Ma) (Sd b Hb Fbb Mb)).
Qed.
