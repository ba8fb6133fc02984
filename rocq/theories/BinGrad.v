(** Derivatives in binary64: accuracy of the expansion of linear combinations. *)
From Coq Require Import ZArith List Bool Lia Reals Lra.
From Flocq Require Import Core BinarySingleNaN Relative.
From Verif Require Import Base Heap HeapSpec HeapProofs NumR NumF Affine Ops UMath Machine Cov Calls Unumpy UMatrix History Fuel FFacts FRefute FmtF
  BinProofs BinQ BinStd GradSpec Evolve.
Import ListNotations.
Local Open Scope R_scope.

(** ** Errors *)
Definition E (n : nat) : R := (1 + u53) ^ n - 1.
Lemma E_0 : E 0 = 0. Proof. unfold E. simpl. ring. Qed.
Lemma E_mono : forall m n, (m <= n)%nat -> E m <= E n.
Proof. intros m n H. unfold E. apply Rplus_le_compat_r. apply Rle_pow; [|exact H]. assert (U := u53_val). lra. Qed.
Lemma E_pos : forall n, 0 <= E n.
Proof. intros n. rewrite <- E_0. apply E_mono. lia. Qed.
Lemma E_add : forall m n, (1 + E m) * (1 + E n) = 1 + E (m + n).
Proof. intros. unfold E. rewrite pow_add. ring. Qed.
Lemma E_two : forall n, E n + 2 * u53 * (1 + E n) <= E (n + 2).
Proof. intros n. assert (H := E_add n 2). assert (P := E_pos n). assert (U := u53_val). assert (E2 : E 2 = 2 * u53 + u53 * u53) by (unfold E; simpl; ring). rewrite E2 in H. nra. Qed.
(** A number of roundings k <= 10^9 + 20 is negligible, and E k <= 2 k u. *)
Lemma E_le : forall k, INR k * u53 <= / 2 -> E k <= 2 * INR k * u53.
Proof.
  intros k H. assert (U := u53_val). assert (Pk := pos_INR k). set (t := INR k * u53) in *.
  assert (A := dn_pow k). assert (B := up_dn k). assert (C := up_pow_pos k). fold t in A.
  assert (T : 0 <= t) by (apply Rmult_le_pos; lra). unfold E.
  assert (X : (1 + u53) ^ k * (1 - t) <= 1).
  { apply Rle_trans with (2 := B). apply Rmult_le_compat_l; lra. }
  assert (Y : (1 + u53) ^ k <= 1 + 2 * t).
  { apply Rmult_le_reg_r with (1 - t); [lra|]. apply Rle_trans with (1 := X). nra. }
  replace (2 * INR k * u53) with (2 * t) by (unfold t; ring). lra.
Qed.
Lemma small_k : forall k, (Z.of_nat k <= 1000000100)%Z -> INR k * u53 <= / 2.
Proof.
  intros k H. rewrite INR_IZR_INZ. apply IZR_le in H.
  assert (U : u53 <= / 9007199254740992) by (unfold u53; change (bpow radix2 (-53)) with (/ IZR 9007199254740992); lra).
  assert (U0 := u53_val). apply Rle_trans with (1000000100 * / 9007199254740992); [|lra].
  apply Rmult_le_compat; try lra. rewrite <- INR_IZR_INZ. apply pos_INR.
Qed.
Lemma E_small : forall k, (Z.of_nat k <= 1000000100)%Z -> E k <= 1.
Proof. intros k H. assert (A := E_le k (small_k k H)). assert (B := small_k k H). lra. Qed.

(** ** Roundings *)
Lemma Rabs_le0 : forall x, Rabs x <= 0 -> x = 0.
Proof. intros x H. destruct (Req_dec x 0) as [E0|N]; [exact E0|]. assert (P := Rabs_pos_lt x N). lra. Qed.
Definition fits (T : R) : Prop := (T = 0 \/ bpow radix2 (-950) <= T) /\ T <= bpow radix2 950.
Lemma rnd_step : forall n z t T, Rabs (z - t) <= E n * T -> Rabs t <= T -> fits T -> E n <= 1 ->
  Rabs (rnd64 z) < bpow radix2 1024 /\ Rabs (rnd64 z - t) <= E (n + 2) * T.
Proof.
  intros n z t T H Ht [[->|L] U] S.
  - assert (t = 0) by (apply Rabs_le0; exact Ht). subst t.
    assert (z = 0) by (rewrite Rminus_0_r, Rmult_0_r in H; apply Rabs_le0; exact H). subst z.
    rewrite rnd_zero, Rminus_0_r, Rabs_R0. split; [apply bpow_gt_0|lra].
  - assert (PT : 0 < T) by (apply Rlt_le_trans with (2 := L); apply bpow_gt_0).
    assert (Z : Rabs z <= (1 + E n) * T).
    { replace z with (z - t + t) by ring. apply Rle_trans with (1 := Rabs_triang _ _). lra. }
    destruct (error_N_FLT radix2 (-1074) 53 eq_refl (fun x => negb (Z.even x)) z) as (eps & eta & H1 & H2 & _ & H3).
    change (round radix2 (FLT_exp (-1074) 53) (Znearest (fun x => negb (Z.even x))) z) with (rnd64 z) in H3.
    assert (P1 : Rabs eps <= u53).
    { apply Rle_trans with (1 := H1). unfold u53. change (/ 2) with (bpow radix2 (-1)). rewrite <- bpow_plus. apply bpow_le. lia. }
    assert (P2 : Rabs eta <= u53 * T).
    { apply Rle_trans with (1 := H2). apply Rle_trans with (u53 * bpow radix2 (-950)).
      - unfold u53. rewrite <- bpow_plus. change (/ 2) with (bpow radix2 (-1)). rewrite <- bpow_plus. apply bpow_le. lia.
      - apply Rmult_le_compat_l; [|exact L]. assert (X := u53_val). lra. }
    assert (Q : Rabs (rnd64 z - z) <= u53 * ((1 + E n) * T) + u53 * T).
    { rewrite H3. replace (z * (1 + eps) + eta - z) with (z * eps + eta) by ring. apply Rle_trans with (1 := Rabs_triang _ _).
      apply Rplus_le_compat; [|exact P2]. rewrite Rabs_mult, Rmult_comm. apply Rmult_le_compat; auto using Rabs_pos. }
    assert (En := E_pos n). assert (U5 := u53_val). assert (E2 := E_two n). split.
    + apply Rle_lt_trans with (bpow radix2 2 * bpow radix2 950); [|rewrite <- bpow_plus; apply bpow_lt; lia].
      replace (rnd64 z) with (rnd64 z - z + z) by ring. apply Rle_trans with (1 := Rabs_triang _ _).
      change (bpow radix2 2) with 4. assert (X : u53 * ((1 + E n) * T) + u53 * T + (1 + E n) * T <= 4 * T).
      { replace (u53 * ((1 + E n) * T) + u53 * T + (1 + E n) * T) with ((u53 * (1 + E n) + u53 + (1 + E n)) * T) by ring.
        apply Rmult_le_compat_r; [lra|]. nra. }
      lra.
    + replace (rnd64 z - t) with (rnd64 z - z + (z - t)) by ring. apply Rle_trans with (1 := Rabs_triang _ _).
      apply Rle_trans with ((E n + 2 * u53 * (1 + E n)) * T).
      * replace ((E n + 2 * u53 * (1 + E n)) * T) with (E n * T + u53 * ((1 + E n) * T) + u53 * T + u53 * (E n * T)) by ring.
        assert (0 <= u53 * (E n * T)) by (apply Rmult_le_pos; [lra|]; apply Rmult_le_pos; lra). lra.
      * apply Rmult_le_compat_r; lra.
Qed.
Lemma apx_mono : forall m n x t T, (m <= n)%nat -> 0 <= T -> Rabs (x - t) <= E m * T -> Rabs (x - t) <= E n * T.
Proof. intros m n x t T H P X. apply Rle_trans with (1 := X). apply Rmult_le_compat_r; [exact P|]. now apply E_mono. Qed.
Lemma fadd_step : forall n (x y : f64) t T, is_finite x = true -> is_finite y = true ->
  Rabs (B2R x + B2R y - t) <= E n * T -> Rabs t <= T -> fits T -> E n <= 1 ->
  is_finite (fadd x y) = true /\ Rabs (B2R (fadd x y) - t) <= E (n + 2) * T.
Proof.
  intros n x y t T F G H Ht Hf S. destruct (rnd_step n _ t T H Ht Hf S) as (A & B).
  pose proof (Bplus_correct 53 1024 prec_gt_0_64 prec_lt_emax_64 mode_NE x y F G) as C. fold (fadd x y) in C.
  change (round_mode mode_NE) with ZnearestE in C. rewrite Rlt_bool_true in C by exact A. destruct C as (C1 & C2 & _).
  split; [exact C2|]. rewrite C1. exact B.
Qed.
Lemma prod_apx : forall m k x y P g a, Rabs (x - P) <= E m * Rabs P -> Rabs (y - g) <= E k * a -> Rabs g <= a ->
  Rabs (x * y - P * g) <= E (m + k) * (Rabs P * a).
Proof.
  intros m k x y P g a Hx Hy Hg. assert (Em := E_pos m). assert (Ek := E_pos k). assert (Pa := Rabs_pos g). assert (PP := Rabs_pos P).
  replace (x * y - P * g) with ((x - P) * (y - g) + (x - P) * g + P * (y - g)) by ring.
  apply Rle_trans with (1 := Rabs_triang _ _). rewrite Rabs_mult. apply Rle_trans with (E m * Rabs P * a + E m * Rabs P * (E k * a) + Rabs P * (E k * a)).
  - apply Rplus_le_compat; [|apply Rmult_le_compat_l; assumption]. apply Rle_trans with (1 := Rabs_triang _ _). rewrite !Rabs_mult, Rplus_comm.
    apply Rplus_le_compat; apply Rmult_le_compat; auto using Rabs_pos.
  - assert (X := E_add m k). replace (E (m + k)) with ((1 + E m) * (1 + E k) - 1) by lra. apply Req_le. ring.
Qed.
Lemma fmul_step : forall m k (x y : f64) P g a, is_finite x = true -> is_finite y = true ->
  Rabs (B2R x - P) <= E m * Rabs P -> Rabs (B2R y - g) <= E k * a -> Rabs g <= a -> fits (Rabs P * a) -> E (m + k) <= 1 ->
  is_finite (fmul x y) = true /\ Rabs (B2R (fmul x y) - P * g) <= E (m + k + 2) * (Rabs P * a).
Proof.
  intros m k x y P g a F G Hx Hy Hg Hf S.
  assert (H := prod_apx m k _ _ P g a Hx Hy Hg).
  assert (Ht : Rabs (P * g) <= Rabs P * a) by (rewrite Rabs_mult; apply Rmult_le_compat_l; [apply Rabs_pos|exact Hg]).
  destruct (rnd_step (m + k) _ _ _ H Ht Hf S) as (A & B).
  pose proof (Bmult_correct 53 1024 prec_gt_0_64 prec_lt_emax_64 mode_NE x y) as C. fold (fmul x y) in C.
  change (round_mode mode_NE) with ZnearestE in C. rewrite Rlt_bool_true in C by exact A. destruct C as (C1 & C2 & _).
  rewrite F, G in C2. split; [exact C2|]. rewrite C1. exact B.
Qed.

(** ** Sizes *)
Lemma size_ge1 : forall c, 1 <= size c.
Proof.
  intros c. unfold size. destruct (Req_EM_T c 0) as [E0|N]; [lra|]. assert (P := Rabs_pos_lt c N).
  destruct (Rle_lt_dec 1 (Rabs c)) as [L|L]; [apply Rle_trans with (1 := L); apply Rmax_l|].
  apply Rle_trans with (/ Rabs c); [|apply Rmax_r]. rewrite <- Rinv_1. apply Rinv_le_contravar; lra.
Qed.
Lemma size_up : forall c, Rabs c <= size c.
Proof. intros c. unfold size. destruct (Req_EM_T c 0) as [->|N]; [rewrite Rabs_R0; lra|apply Rmax_l]. Qed.
Lemma size_low : forall c, c = 0 \/ / size c <= Rabs c.
Proof.
  intros c. unfold size. destruct (Req_EM_T c 0) as [E0|N]; [now left|right]. assert (P := Rabs_pos_lt c N).
  rewrite <- (Rinv_inv (Rabs c)) at 3. apply Rinv_le_contravar; [apply Rinv_0_lt_compat; exact P|apply Rmax_r].
Qed.
Lemma size_mult : forall a b, size (a * b) <= size a * size b.
Proof.
  intros a b. assert (A := size_ge1 a). assert (B := size_ge1 b). unfold size at 1. destruct (Req_EM_T (a * b) 0) as [E0|N]; [nra|].
  assert (Na : a <> 0) by (intros ->; apply N; ring). assert (Nb : b <> 0) by (intros ->; apply N; ring).
  assert (Pa := Rabs_pos_lt a Na). assert (Pb := Rabs_pos_lt b Nb). rewrite Rabs_mult. apply Rmax_lub.
  - apply Rmult_le_compat; try lra; apply size_up.
  - rewrite Rinv_mult. unfold size. destruct (Req_EM_T a 0); [contradiction|]. destruct (Req_EM_T b 0); [contradiction|].
    apply Rmult_le_compat; try apply Rmax_r; apply Rlt_le, Rinv_0_lt_compat; assumption.
Qed.
Lemma big : 2 ^ 900 = bpow radix2 900.
Proof. change 2 with (IZR 2). rewrite pow_IZR. reflexivity. Qed.
Lemma inv_big : forall r, 1 <= r -> r <= 2 ^ 900 -> bpow radix2 (-900) <= / r.
Proof.
  intros r H1 H2. rewrite big in H2. change (-900)%Z with (- (900))%Z. rewrite bpow_opp. apply Rinv_le_contravar; lra.
Qed.
(** Products between 1/r and 10^10 r. *)
Lemma fits_range : forall r T, 1 <= r -> r <= 2 ^ 900 -> T = 0 \/ / r <= T -> T <= 10000000000 * r -> fits T.
Proof.
  intros r T H1 H2 H3 H4. split.
  - destruct H3 as [H3|H3]; [now left|right]. apply Rle_trans with (2 := H3). apply Rle_trans with (2 := inv_big r H1 H2). apply bpow_le. lia.
  - apply Rle_trans with (1 := H4). rewrite big in H2. apply Rle_trans with (bpow radix2 40 * bpow radix2 900).
    + apply Rmult_le_compat; try lra. change (bpow radix2 40) with (IZR 1099511627776). lra.
    + rewrite <- bpow_plus. apply bpow_le. lia.
Qed.
Lemma fits_size : forall c r, size c <= r -> r <= 2 ^ 900 -> fits (Rabs c).
Proof.
  intros c r H1 H2. assert (S := size_ge1 c). apply (fits_range (size c)); [exact S|lra| |].
  - destruct (size_low c) as [->|L]; [left; apply Rabs_R0|now right].
  - assert (X := size_up c). lra.
Qed.

Section Loop.
Variable lm : Libm.
Notation FN := (FOps lm).
Notation cval := (cval lm).
Notation fval := (fval lm).

(** ** Coefficients *)
Definition capx (m : nat) (c : pynum FN) (P : R) : Prop :=
  cfinite lm c = true /\ Rabs (cval c - P) <= E m * Rabs P.
Lemma conv_step : forall m c P r, capx m c P -> size P <= r -> r <= 2 ^ 900 -> E m <= 1 ->
  exists x : f64, pn_float c = Ok x /\ is_finite x = true /\ Rabs (B2R x - P) <= E (m + 2) * Rabs P.
Proof.
  intros m [z|x] P r [F H] Hs Hr S.
  - cbn [GradSpec.cval] in H. destruct (rnd_step m (IZR z) P (Rabs P) H (Rle_refl _) (fits_size P r Hs Hr) S) as (A & B).
    cbn [pn_float]. change (n_of_Z FN z) with (f_of_Z z). unfold f_of_Z.
    destruct (Z.eq_dec z 0) as [->|Nz].
    + exists f0. split; [reflexivity|]. split; [reflexivity|]. change (B2R f0) with 0. rewrite rnd_zero in B. exact B.
    + pose proof (fnorm_R z 0 Nz) as C. cbv zeta in C. assert (Ez : F2R (Float radix2 z 0) = IZR z) by (unfold F2R; cbn [Fnum Fexp bpow]; ring).
      rewrite Ez, Rlt_bool_true in C by exact A. destruct C as (C1 & C2 & _).
      exists (fnorm z 0). split; [|split; [exact C2|rewrite C1; exact B]].
      assert (I : is_inf (fnorm z 0) = false) by (destruct (fnorm z 0); try discriminate C2; reflexivity). rewrite I. reflexivity.
  - exists x. split; [reflexivity|]. split; [exact F|]. apply (apx_mono m); [lia|apply Rabs_pos|exact H].
Qed.
Lemma mul_step : forall m n c c' P P' r, capx m c P -> capx n c' P' -> size P <= r -> size P' <= r -> size (P * P') <= r -> r <= 2 ^ 900 ->
  E (m + n + 4) <= 1 -> exists p, pn_mul c c' = Ok p /\ capx (m + n + 6) p (P * P').
Proof.
  intros m n c c' P P' r C C' H1 H2 H3 Hr S.
  assert (S1 : E m <= 1) by (apply Rle_trans with (2 := S); apply E_mono; lia).
  assert (S2 : E n <= 1) by (apply Rle_trans with (2 := S); apply E_mono; lia).
  destruct (conv_step m c P r C H1 Hr S1) as (x & X1 & X2 & X3). destruct (conv_step n c' P' r C' H2 Hr S2) as (y & Y1 & Y2 & Y3).
  assert (Fi : fits (Rabs P * Rabs P')) by (rewrite <- Rabs_mult; apply (fits_size _ r); assumption).
  assert (S3 : E (m + 2 + (n + 2)) <= 1) by (replace (m + 2 + (n + 2))%nat with (m + n + 4)%nat by lia; exact S).
  destruct (fmul_step (m + 2) (n + 2) x y P P' (Rabs P') X2 Y2 X3 Y3 (Rle_refl _) Fi S3) as (Z1 & Z2).
  replace (m + 2 + (n + 2) + 2)%nat with (m + n + 6)%nat in Z2 by lia.
  assert (Q : capx (m + n + 6) (PF (N:=FN) (fmul x y)) (P * P')) by (split; [exact Z1|cbn [GradSpec.cval]; rewrite (Rabs_mult P P'); exact Z2]).
  assert (W : rbind (pn_float c) (fun x => rbind (pn_float c') (fun y => Ok (PF (N:=FN) (n_mul FN x y)))) = Ok (PF (N:=FN) (fmul x y))).
  { rewrite X1. cbn [rbind]. rewrite Y1. reflexivity. }
  destruct c as [z|x0]; [destruct c' as [z'|y0]|]; [|exists (PF (N:=FN) (fmul x y)); split; [exact W|exact Q]..].
  exists (PZ (z * z')). split; [reflexivity|]. split; [reflexivity|]. cbn [GradSpec.cval]. rewrite mult_IZR, Rabs_mult.
  destruct C as [_ C]. destruct C' as [_ C']. cbn [GradSpec.cval] in C, C'.
  apply (apx_mono (m + n)); [lia|apply Rmult_le_pos; apply Rabs_pos|]. apply prod_apx; auto using Rle_refl.
Qed.

(** ** Dictionaries *)
Definition good (k : nat) (G M : varid -> R) (d : dict FN) : Prop :=
  NoDup (dkeys d) /\ (forall v x, dget d v = Some x -> is_finite (x : f64) = true) /\
  forall v, Rabs (fval d v - G v) <= E k * M v.
Lemma acc_spec : forall (x : f64) (c : pynum FN) (d acc : dict FN), pn_float c = Ok x -> NoDup (dkeys d) -> NoDup (dkeys acc) ->
  exists acc', acc_dict c d acc = Ok acc' /\ NoDup (dkeys acc') /\
    forall v, dget acc' v = match dget d v with
                            | Some f => Some (fadd (match dget acc v with Some y => y | None => f0 end) (fmul x f))
                            | None => dget acc v
                            end.
Proof.
  intros x c d. induction d as [|[w f] d IH]; intros acc Hc Nd Na.
  - exists acc. split; [reflexivity|]. split; [exact Na|]. reflexivity.
  - inversion Nd as [|? ? Nw Nd']; subst. cbn [acc_dict]. unfold cmul. rewrite Hc. cbn [rbind].
    set (acc1 := dset acc w _). destruct (IH acc1 Hc Nd' (dset_NoDup _ _ _ Na)) as (acc' & A1 & A2 & A3).
    exists acc'. split; [exact A1|]. split; [exact A2|]. intros v. rewrite A3. cbn [dget].
    destruct (Nat.eqb_spec v w) as [->|Nv].
    + assert (D : dget d w = None) by (apply dget_None; exact Nw). rewrite D. unfold acc1. rewrite dget_dset_eq. reflexivity.
    + unfold acc1. rewrite dget_dset_neq by (intros X; apply Nv; symmetry; exact X). reflexivity.
Qed.
Lemma acc_step : forall r m k K (c : pynum FN) P g a (d acc : dict FN) kd G M, capx m c P -> size P <= r -> r <= 2 ^ 900 -> 
  good kd g a d -> good K G M acc -> (forall v, Rabs (g v) <= a v) -> (forall v, Rabs (G v) <= M v) ->
  (forall v, fits (Rabs P * a v)) -> (forall v, fits (M v + Rabs P * a v)) ->
  (m + kd + 4 <= k)%nat -> (K <= k)%nat -> E k <= 1 ->
  exists acc', acc_dict c d acc = Ok acc' /\ good (k + 2) (fun v => G v + P * g v) (fun v => M v + Rabs P * a v) acc'.
Proof.
  intros r m k K c P g a d acc kd G M C Hs Hr (D1 & D2 & D3) (A1 & A2 & A3) Hg HG F1 F2 L1 L2 S.
  assert (Sm : E m <= 1) by (apply Rle_trans with (2 := S); apply E_mono; lia).
  destruct (conv_step m c P r C Hs Hr Sm) as (x & X1 & X2 & X3).
  destruct (acc_spec x c d acc X1 D1 A1) as (acc' & B1 & B2 & B3). exists acc'. split; [exact B1|].
  assert (Pv : forall v, is_finite (match dget acc v with Some y => y | None => f0 end : f64) = true).
  { intros v. destruct (dget acc v) as [y|] eqn:Ey; [exact (A2 v y Ey)|reflexivity]. }
  assert (Vv : forall v, B2R (match dget acc v with Some y => y | None => f0 end : f64) = fval acc v).
  { intros v. unfold GradSpec.fval. destruct (dget acc v); reflexivity. }
  assert (Sk : E (m + 2 + kd) <= 1) by (apply Rle_trans with (2 := S); apply E_mono; lia).
  assert (Ha : forall v, 0 <= a v) by (intros v; assert (Y := Hg v); assert (Z := Rabs_pos (g v)); lra).
  assert (HM : forall v, 0 <= M v) by (intros v; assert (Y := HG v); assert (Z := Rabs_pos (G v)); lra).
  assert (HP : forall v, 0 <= Rabs P * a v) by (intros v; apply Rmult_le_pos; [apply Rabs_pos|apply Ha]).
  assert (W : forall v f, dget d v = Some f -> is_finite (fadd (match dget acc v with Some y => y | None => f0 end) (fmul x f)) = true /\
     Rabs (B2R (fadd (match dget acc v with Some y => y | None => f0 end) (fmul x f)) - (G v + P * g v)) <= E (k + 2) * (M v + Rabs P * a v)).
  { intros v f Ef. assert (Df := D3 v). unfold GradSpec.fval in Df. rewrite Ef in Df.
    destruct (fmul_step (m + 2) kd x f P (g v) (a v) X2 (D2 v f Ef) X3 Df (Hg v) (F1 v) Sk) as (Y1 & Y2).
    apply fadd_step; auto.
    - rewrite Vv. replace (fval acc v + B2R (fmul x f) - (G v + P * g v)) with ((fval acc v - G v) + (B2R (fmul x f) - P * g v)) by ring.
      apply Rle_trans with (1 := Rabs_triang _ _). rewrite Rmult_plus_distr_l. apply Rplus_le_compat.
      + apply (apx_mono K); auto.
      + apply (apx_mono (m + 2 + kd + 2)); auto. lia.
    - apply Rle_trans with (1 := Rabs_triang _ _). rewrite Rabs_mult. apply Rplus_le_compat; [apply HG|]. apply Rmult_le_compat_l; [apply Rabs_pos|apply Hg]. }
  split; [exact B2|]. split.
  - intros v y Ey. rewrite B3 in Ey. destruct (dget d v) as [f|] eqn:Ef; [|exact (A2 v y Ey)]. injection Ey as <-. apply W; exact Ef.
  - intros v. unfold GradSpec.fval. rewrite B3. destruct (dget d v) as [f|] eqn:Ef; [apply W; exact Ef|].
    change (Rabs (fval acc v - (G v + P * g v)) <= E (k + 2) * (M v + Rabs P * a v)).
    assert (Df := D3 v). unfold GradSpec.fval in Df. rewrite Ef in Df.
    replace (fval acc v - (G v + P * g v)) with ((fval acc v - G v) + P * (0 - g v)) by ring.
    apply Rle_trans with (1 := Rabs_triang _ _). rewrite Rmult_plus_distr_l. apply Rplus_le_compat.
    + apply (apx_mono K); auto. lia.
    + rewrite Rabs_mult. apply Rle_trans with (Rabs P * (E kd * a v)); [apply Rmult_le_compat_l; [apply Rabs_pos|exact Df]|].
      replace (Rabs P * (E kd * a v)) with (E kd * (Rabs P * a v)) by ring. apply Rmult_le_compat_r; [apply HP|]. apply E_mono. lia.
Qed.

(** ** The stack *)
Definition gitem := (R * lin * nat)%type.
Definition gP (q : gitem) : R := fst (fst q).
Definition gL (q : gitem) : lin := snd (fst q).
Definition gm (q : gitem) : nat := snd q.
Definition sG (gs : list gitem) (v : varid) : R := Rsum (map (fun q => gP q * grad (gL q) v) gs).
Definition sA (gs : list gitem) (v : varid) : R := Rsum (map (fun q => Rabs (gP q) * paths (gL q) v) gs).
Definition sK (gs : list gitem) : nat := list_sum (map (fun q => roundings (gL q) + 6)%nat gs).
Notation ghosts := (list (option lin)).
Definition rel (Lm : ghosts) (l : loc) (r : R) (it : item FN) (q : gitem) : Prop :=
  match it with
  | IPair c l' => (l' < l)%nat /\ nth_error Lm l' = Some (Some (gL q)) /\ capx (gm q) c (gP q) /\ size (gP q) * range (gL q) <= r
  | _ => False
  end.
(** Well-formed differentials. *)
Definition wfl (a : lin) : Prop := 1 <= range a /\ forall v, Rabs (grad a v) <= paths a v /\
  (paths a v = 0 \/ / range a <= paths a v) /\ paths a v <= (INR (roundings a) + 1) * range a.
Definition okl (Lm : ghosts) (l : loc) (a : lin) (x : lc FN) : Prop :=
  match x with
  | LDict d => good (roundings a) (grad a) (paths a) d
  | LList its => exists gs, Forall2 (rel Lm l (range a)) its gs /\ List.Forall (fun q => gm q = 0%nat) gs /\
      (forall v, grad a v = sG gs v) /\ (forall v, paths a v = sA gs v) /\ (sK gs <= roundings a)%nat
  end.

Lemma Rsum_app : forall l l', Rsum (l ++ l') = Rsum l + Rsum l'.
Proof. induction l as [|x l IH]; intros l'; cbn; [ring|]. rewrite IH. ring. Qed.
Lemma sG_app : forall a b v, sG (a ++ b) v = sG a v + sG b v.
Proof. intros. unfold sG. rewrite map_app. apply Rsum_app. Qed.
Lemma sA_app : forall a b v, sA (a ++ b) v = sA a v + sA b v.
Proof. intros. unfold sA. rewrite map_app. apply Rsum_app. Qed.
Lemma sK_app : forall a b, sK (a ++ b) = (sK a + sK b)%nat.
Proof. intros. unfold sK. rewrite map_app. apply list_sum_app. Qed.
Definition scale (P : R) (m : nat) (q : gitem) : gitem := (P * gP q, gL q, m).
Lemma sG_scale : forall P m gs v, sG (map (scale P m) gs) v = P * sG gs v.
Proof. intros P m gs v. unfold sG. rewrite map_map. induction gs as [|q gs IH]; cbn [map Rsum]; [ring|]. rewrite IH. unfold scale, gP, gL. cbn [fst snd]. ring. Qed.
Lemma sA_scale : forall P m gs v, sA (map (scale P m) gs) v = Rabs P * sA gs v.
Proof. intros P m gs v. unfold sA. rewrite map_map. induction gs as [|q gs IH]; cbn [map Rsum]; [ring|]. rewrite IH. unfold scale, gP, gL. cbn [fst snd]. rewrite Rabs_mult. ring. Qed.
Lemma sK_scale : forall P m gs, sK (map (scale P m) gs) = sK gs.
Proof. intros P m gs. unfold sK. rewrite map_map. reflexivity. Qed.

Lemma rel_range : forall Lm l r it q, rel Lm l r it q -> 1 <= range (gL q) -> range (gL q) <= r /\ size (gP q) <= r.
Proof.
  intros Lm l r [c l'| |] q H W; try contradiction. destruct H as (_ & _ & _ & H). assert (S := size_ge1 (gP q)). split; nra.
Qed.
Lemma sA_pos : forall gs v, List.Forall (fun q => wfl (gL q)) gs -> 0 <= sA gs v.
Proof.
  intros gs v H. induction H as [|q gs W _ IH]; unfold sA; cbn; [lra|]. fold (sA gs v).
  assert (0 <= Rabs (gP q) * paths (gL q) v); [|lra]. apply Rmult_le_pos; [apply Rabs_pos|].
  destruct W as [_ W]. destruct (W v) as (W1 & _). assert (X := Rabs_pos (grad (gL q) v)). lra.
Qed.

(** Pushing the terms of a linear combination. *)
Lemma push_step : forall Lm l l1 r a m (c : pynum FN) P, (l1 < l)%nat -> capx m c P -> size P * range a <= r -> 1 <= range a -> r <= 2 ^ 900 -> E (m + 4) <= 1 ->
  (forall l' b, nth_error Lm l' = Some (Some b) -> 1 <= range b) ->
  forall its gs stack gstack, Forall2 (rel Lm l1 (range a)) its gs -> List.Forall (fun q => gm q = 0%nat) gs ->
  Forall2 (rel Lm l r) stack gstack ->
  exists stack', push_items c its stack = (stack', None) /\ Forall2 (rel Lm l r) stack' (rev (map (scale P (m + 6)) gs) ++ gstack).
Proof.
  intros Lm l l1 r a m c P Hl C Hs Ha Hr S Hw its gs stack gstack H. revert stack gstack.
  induction H as [|it q its gs H _ IH]; intros stack gstack Z T.
  - exists stack. split; [reflexivity|exact T].
  - inversion Z as [|? ? Zq Z']; subst. destruct it as [c' l'| |]; try contradiction. destruct H as (H1 & H2 & H3 & H4).
    assert (Hb := Hw _ _ H2). assert (S1 := size_ge1 P). assert (S2 := size_ge1 (gP q)). assert (S3 := size_mult P (gP q)). assert (S4 := size_ge1 (P * gP q)).
    assert (R1 : size (P * gP q) * range (gL q) <= r).
    { apply Rle_trans with (size P * (size (gP q) * range (gL q))).
      - rewrite <- Rmult_assoc. apply Rmult_le_compat_r; lra.
      - apply Rle_trans with (size P * range a); [|exact Hs]. apply Rmult_le_compat_l; lra. }
    assert (R2 : size P <= r) by nra.
    assert (R3 : size (gP q) <= r) by nra.
    assert (R4 : size (P * gP q) <= r) by nra.
    rewrite Zq in H3. assert (S5 : E (m + 0 + 4) <= 1) by (rewrite Nat.add_0_r; exact S).
    destruct (mul_step m 0 c c' P (gP q) r C H3 R2 R3 R4 Hr S5) as (p & Ep & Cp). cbn [push_items]. rewrite Ep.
    destruct (IH (IPair p l' :: stack) (scale P (m + 6) q :: gstack) Z') as (stack' & E1 & E2).
    { constructor; [|exact T]. unfold rel, scale, gL, gm, gP. cbn [fst snd]. fold (gL q). fold (gP q). rewrite Nat.add_0_r in Cp.
      split; [lia|]. split; [exact H2|]. split; [exact Cp|exact R1]. }
    exists stack'. split; [exact E1|]. cbn [map rev]. rewrite <- app_assoc. exact E2.
Qed.

Lemma loop_ok : forall Lm l a (h0 : heap FN), in_range a -> wfl a -> (l < length (h_lc h0))%nat ->
  (forall l' b, nth_error Lm l' = Some (Some b) -> wfl b /\ ((l' < l)%nat -> in_range b -> okl Lm l' b (get_lc h0 l'))) ->
  forall fuel its gs acc K G M, Forall2 (rel Lm l (range a)) its gs -> (K + sK gs <= roundings a)%nat ->
  List.Forall (fun q => gm q + sK gs <= roundings a)%nat gs ->
  (forall v, G v + sG gs v = grad a v) -> (forall v, M v + sA gs v = paths a v) ->
  (forall v, Rabs (G v) <= M v) -> (forall v, M v = 0 \/ / range a <= M v) ->
  good K G M acc -> (sK gs < fuel)%nat ->
  exists d, expand_loop fuel l acc (set_lc h0 l (LList its)) = (Ok tt, set_lc h0 l (LDict d)) /\ good (roundings a) (grad a) (paths a) d.
Proof.
  intros Lm l a h0 [Ra Rr] [Wa Wb] Hl HL fuel. induction fuel as [|fuel IH]; intros its gs acc K G M H HK Hm HG HM HGM HZ Hacc Hf; [lia|].
  assert (Cw : List.Forall (fun q => wfl (gL q)) gs).
  { clear - H HL. induction H as [|it q its gs Hq _ IHq]; constructor; auto. destruct it as [c l'| |]; try contradiction.
    destruct Hq as (_ & Hq & _). exact (proj1 (HL _ _ Hq)). }
  cbn [expand_loop]. rewrite get_set_eq by exact Hl. destruct H as [|it q its gs Hq H].
  - exists acc. rewrite set_set. split; [reflexivity|]. destruct Hacc as (A1 & A2 & A3). split; [exact A1|]. split; [exact A2|]. intros v.
    assert (Gv := HG v). assert (Mv := HM v). unfold sG, sA in Gv, Mv. cbn in Gv, Mv. rewrite Rplus_0_r in Gv, Mv. rewrite <- Gv, <- Mv.
    apply (apx_mono K); [unfold sK in HK; cbn in HK; lia| |apply A3]. assert (X := HGM v). assert (Y := Rabs_pos (G v)). lra.
  - destruct it as [c l'| |]; try contradiction. assert (Hq' := Hq). destruct Hq as (Q1 & Q2 & Q3 & Q4). cbv zeta. rewrite set_set, get_set_neq by lia.
    inversion Cw as [|? ? Wq Cw']; subst. destruct Wq as [Wq1 Wq2]. destruct (rel_range _ _ _ _ _ Hq' Wq1) as (Rq & Sq). inversion Hm as [|? ? Mq Hm']; subst.
    assert (K1 : sK (q :: gs) = (roundings (gL q) + 6 + sK gs)%nat) by reflexivity. rewrite K1 in *.
    assert (Iq : in_range (gL q)) by (split; [lia|lra]).
    destruct (HL _ _ Q2) as (_ & Ok'). specialize (Ok' Q1 Iq).
    assert (G1 : forall v, sG (q :: gs) v = gP q * grad (gL q) v + sG gs v) by reflexivity.
    assert (A1 : forall v, sA (q :: gs) v = Rabs (gP q) * paths (gL q) v + sA gs v) by reflexivity.
    assert (Sg := size_ge1 (gP q)).
    assert (T0 : forall v, Rabs (gP q) * paths (gL q) v = 0 \/ / range a <= Rabs (gP q) * paths (gL q) v).
    { intros v. destruct (Wq2 v) as (_ & [Z0|Z0] & _); [left; rewrite Z0; ring|].
      destruct (size_low (gP q)) as [E0|L]; [left; rewrite E0, Rabs_R0; ring|right].
      apply Rle_trans with (/ (size (gP q) * range (gL q))); [apply Rinv_le_contravar; [apply Rmult_lt_0_compat; lra|exact Q4]|].
      rewrite Rinv_mult. apply Rmult_le_compat; try assumption; apply Rlt_le, Rinv_0_lt_compat; lra. }
    assert (Ia : 0 < / range a) by (apply Rinv_0_lt_compat; lra).
    assert (T1 : forall v, 0 <= M v) by (intros v; assert (X := HGM v); assert (Y := Rabs_pos (G v)); lra).
    assert (T2 : forall v, 0 <= Rabs (gP q) * paths (gL q) v) by (intros v; destruct (T0 v); lra).
    assert (T3 : forall v, M v + Rabs (gP q) * paths (gL q) v <= 10000000000 * range a).
    { intros v. assert (X := HM v). rewrite A1 in X. assert (Y := sA_pos gs v Cw'). destruct (Wb v) as (_ & _ & Z).
      apply Rle_trans with (paths a v); [lra|]. apply Rle_trans with (1 := Z). apply Rmult_le_compat_r; [lra|].
      rewrite INR_IZR_INZ. apply IZR_le in Ra. lra. }
    assert (F2 : forall v, fits (M v + Rabs (gP q) * paths (gL q) v)).
    { intros v. apply (fits_range (range a)); auto. destruct (HZ v) as [Z1|Z1]; destruct (T0 v) as [Z2|Z2].
      - left. lra. - right. lra. - right. lra. - right. specialize (T2 v). lra. }
    assert (F1 : forall v, fits (Rabs (gP q) * paths (gL q) v)).
    { intros v. apply (fits_range (range a)); auto. specialize (T3 v). specialize (T1 v). lra. }
    destruct (get_lc h0 l') as [d|its'] eqn:Gl; cbn [okl] in Ok'.
    + set (k := Nat.max K (gm q + roundings (gL q) + 4)).
      assert (Sk : E k <= 1) by (apply E_small; unfold k; lia).
      destruct (acc_step (range a) (gm q) k K c (gP q) (grad (gL q)) (paths (gL q)) d acc (roundings (gL q)) G M) as (acc' & B1 & B2); auto.
      { intros v. apply Wq2. } { unfold k; lia. } { unfold k; lia. }
      rewrite B1. eapply IH; [exact H| | | | | | |exact B2|].
      * unfold k. lia.
      * eapply List.Forall_impl; [|exact Hm']. cbn. intros. lia.
      * intros v. rewrite <- (HG v), G1. ring.
      * intros v. rewrite <- (HM v), A1. ring.
      * intros v. apply Rle_trans with (1 := Rabs_triang _ _). rewrite Rabs_mult. apply Rplus_le_compat; [apply HGM|].
        apply Rmult_le_compat_l; [apply Rabs_pos|]. apply Wq2.
      * intros v. destruct (HZ v) as [Z1|Z1]; destruct (T0 v) as [Z2|Z2].
        -- left. lra. -- right. lra. -- right. lra. -- right. specialize (T2 v). lra.
      * lia.
    + destruct Ok' as (gs' & O1 & O2 & O3 & O4 & O5).
      destruct (push_step Lm l l' (range a) (gL q) (gm q) c (gP q)) with (its := rev its') (gs := rev gs') (stack := its) (gstack := gs) as (stack & P1 & P2); auto.
      { apply E_small. lia. } { intros l2 b Hb. apply (proj1 (HL l2 b Hb)). }
      { apply Forall2_rev. exact O1. } { apply List.Forall_rev. exact O2. }
      rewrite P1. rewrite set_set. rewrite map_rev, rev_involutive in P2. set (ns := map (scale (gP q) (gm q + 6)) gs') in *.
      assert (Kn : sK (ns ++ gs) = (sK gs' + sK gs)%nat) by (rewrite sK_app; unfold ns; rewrite sK_scale; reflexivity).
      apply (IH stack (ns ++ gs) acc K G M P2).
      * lia.
      * rewrite Kn. apply List.Forall_app. split; [|eapply List.Forall_impl; [|exact Hm']; cbn; intros; lia].
        apply List.Forall_forall. intros x Hx. apply in_map_iff in Hx as (y & <- & _). unfold scale, gm at 1. cbn. lia.
      * intros v. rewrite sG_app. unfold ns. rewrite sG_scale, <- O3, <- (HG v), G1. reflexivity.
      * intros v. rewrite sA_app. unfold ns. rewrite sA_scale, <- O4, <- (HM v), A1. reflexivity.
      * exact HGM.
      * exact HZ.
      * exact Hacc.
      * lia.
Qed.
End Loop.
