(** Accuracy of standard deviations in binary64. *)
From Coq Require Import ZArith List Bool Lia Reals Lra.
From Flocq Require Import Core BinarySingleNaN.
From Verif Require Import Base Heap HeapSpec NumR NumF Affine Ops Machine History Fuel FFacts FRefute FmtF BinProofs BinQ.
Import ListNotations.
Local Open Scope R_scope.

(** ** Rounded operations *)
Notation lo := (r10 (-300)).
Notation hi := (r10 300).
Lemma u53_val : 0 < u53 <= / 1000000000.
Proof.
  unfold u53. split; [apply bpow_gt_0|]. change (bpow radix2 (-53)) with (/ IZR 9007199254740992). apply Rinv_le_contravar; lra.
Qed.
Lemma u53_pow : u53 = / 2 ^ 53.
Proof. unfold u53. change (-53)%Z with (- (53))%Z. rewrite bpow_opp. f_equal. change (bpow radix2 53) with (IZR (2 ^ 53)). rewrite pow_IZR. reflexivity. Qed.
Lemma rnd_zero : rnd64 0 = 0.
Proof. apply round_0. apply valid_rnd_N. Qed.
Lemma rnd_ok : forall v, v = 0 \/ lo <= Rabs v <= hi ->
  Rabs (rnd64 v) < bpow radix2 1024 /\ Rabs (rnd64 v - v) <= u53 * Rabs v.
Proof.
  intros v [-> | H]; [|apply rnd_range; exact H]. rewrite rnd_zero, Rminus_0_r, Rabs_R0. split; [apply bpow_gt_0|lra].
Qed.
Lemma fadd_ok : forall x y : f64, is_finite x = true -> is_finite y = true -> let v := B2R x + B2R y in
  v = 0 \/ lo <= Rabs v <= hi -> is_finite (fadd x y) = true /\ Rabs (B2R (fadd x y) - v) <= u53 * Rabs v.
Proof.
  intros x y F G v H. destruct (rnd_ok v H) as (A & B).
  pose proof (Bplus_correct 53 1024 prec_gt_0_64 prec_lt_emax_64 mode_NE x y F G) as C. fold (fadd x y) in C. fold v in C.
  change (round_mode mode_NE) with ZnearestE in C. rewrite Rlt_bool_true in C by exact A. destruct C as (C1 & C2 & _).
  split; [exact C2|]. rewrite C1. exact B.
Qed.
Lemma fmul_ok : forall x y : f64, is_finite x = true -> is_finite y = true -> let v := B2R x * B2R y in
  v = 0 \/ lo <= Rabs v <= hi -> is_finite (fmul x y) = true /\ Rabs (B2R (fmul x y) - v) <= u53 * Rabs v.
Proof.
  intros x y F G v H. destruct (rnd_ok v H) as (A & B).
  pose proof (Bmult_correct 53 1024 prec_gt_0_64 prec_lt_emax_64 mode_NE x y) as C. fold (fmul x y) in C. fold v in C.
  change (round_mode mode_NE) with ZnearestE in C. rewrite Rlt_bool_true in C by exact A. destruct C as (C1 & C2 & _).
  rewrite F, G in C2. split; [exact C2|]. rewrite C1. exact B.
Qed.
Lemma fsqrt_ok : forall x : f64, is_finite x = true -> 0 <= B2R x -> let v := sqrt (B2R x) in
  v = 0 \/ lo <= v <= hi -> exists s, f_sqrt x = Ok s /\ is_finite s = true /\ Rabs (B2R s - v) <= u53 * v.
Proof.
  intros x F P v H. assert (V : 0 <= v) by apply sqrt_pos.
  assert (H' : v = 0 \/ lo <= Rabs v <= hi) by (rewrite Rabs_pos_eq by exact V; exact H).
  destruct (rnd_ok v H') as (_ & B). rewrite (Rabs_pos_eq v V) in B.
  assert (L : Bltb x f0 = false).
  { rewrite Bltb_correct by (auto; reflexivity). apply Rlt_bool_false. exact P. }
  exists (Bsqrt mode_NE x). unfold f_sqrt. rewrite L. split; [reflexivity|].
  destruct (Bsqrt_correct 53 1024 prec_gt_0_64 prec_lt_emax_64 mode_NE x) as (C1 & C2 & _).
  change (round_mode mode_NE) with ZnearestE in C1. split.
  - rewrite C2. destruct x as [g| | |g m e E]; try discriminate F; try reflexivity. destruct g; [|reflexivity]. exfalso.
    assert (W : B2R (B754_finite true m e E : f64) < 0) by (apply F2R_lt_0; reflexivity). lra.
  - rewrite C1. exact B.
Qed.

(** ** The C library: squares within an ulp *)
Definition squares_ok (lm : Libm) : Prop := forall a : f64, is_finite a = true -> / 10 ^ 141 <= B2R a <= 10 ^ 141 ->
  is_finite (lm_pow lm a ftwo) = true /\ Rabs (B2R (lm_pow lm a ftwo) - B2R a ^ 2) <= 2 * u53 * B2R a ^ 2.

Section Std.
Variable lm : Libm.
Hypothesis SQ : squares_ok lm.
Notation FN := (FOps lm).

Lemma pow10 : forall n : nat, 10 ^ n = r10 (Z.of_nat n).
Proof. intros n. rewrite r10_Z by lia. rewrite <- pow_IZR. reflexivity. Qed.
Lemma two_even : is_odd_int ftwo = false. Proof. vm_compute. reflexivity. Qed.
Lemma two_int : is_integral ftwo = true. Proof. vm_compute. reflexivity. Qed.
Lemma one_R : B2R fone = 1.
Proof. change (B2R fone) with (IZR 4503599627370496 * / IZR 4503599627370496). apply Rinv_r. apply IZR_neq. discriminate. Qed.

Lemma square_ok : forall x : f64, is_finite x = true -> 0 <= B2R x -> B2R x = 0 \/ / 10 ^ 141 <= B2R x <= 10 ^ 141 ->
  exists r, f_pow lm x ftwo = Ok (Some r) /\ is_finite r = true /\ Rabs (B2R r - B2R x ^ 2) <= 2 * u53 * B2R x ^ 2.
Proof.
  intros x F P H. assert (U := u53_val).
  assert (N1 : is_nanf x = false) by (destruct x; try discriminate F; reflexivity).
  assert (N2 : is_inf x = false) by (destruct x; try discriminate F; reflexivity).
  assert (L : Bltb x f0 = false) by (rewrite Bltb_correct by (auto; reflexivity); apply Rlt_bool_false; exact P).
  unfold f_pow. change (Beqb ftwo f0) with false. change (is_nanf ftwo) with false. change (is_inf ftwo) with false. cbv iota.
  rewrite N1, N2, L, two_even, two_int. cbn [andb negb]. change (Bltb ftwo f0) with false. cbv iota.
  rewrite (Beqb_correct _ _ x f0 F eq_refl). change (B2R f0) with 0.
  destruct (Req_bool_spec (B2R x) 0) as [E|E].
  - exists f0. split; [reflexivity|]. split; [reflexivity|]. rewrite E. change (B2R f0) with 0. replace (0 - 0 ^ 2) with 0 by ring. rewrite Rabs_R0. lra.
  - destruct H as [H|H]; [contradiction|].
    assert (Fa : is_finite (fabs x) = true) by (destruct x; try discriminate F; reflexivity).
    assert (Ea : B2R (fabs x) = B2R x) by (unfold fabs; rewrite B2R_Babs, Rabs_pos_eq by exact P; reflexivity).
    rewrite (Beqb_correct _ _ (fabs x) fone Fa eq_refl), one_R, Ea. destruct (Req_bool_spec (B2R x) 1) as [E1|E1].
    + exists fone. split; [reflexivity|]. split; [reflexivity|]. rewrite E1, one_R. replace (1 - 1 ^ 2) with 0 by ring. rewrite Rabs_R0. lra.
    + assert (Ra : / 10 ^ 141 <= B2R (fabs x) <= 10 ^ 141) by (rewrite Ea; exact H).
      destruct (SQ (fabs x) Fa Ra) as (A & B). rewrite Ea in B. exists (lm_pow lm (fabs x) ftwo).
      assert (I : is_inf (lm_pow lm (fabs x) ftwo) = false) by (destruct (lm_pow lm (fabs x) ftwo); try discriminate A; reflexivity).
      rewrite I. auto.
Qed.

(** ** Accumulated errors *)
Notation up := (1 + u53).
Notation dn := (1 - u53).
Lemma dn_pow : forall k, 1 - INR k * u53 <= dn ^ k.
Proof.
  assert (U := u53_val). induction k as [|k IH]; [simpl; lra|]. rewrite S_INR. assert (Pk := pos_INR k). cbn [pow].
  apply Rle_trans with (dn * (1 - INR k * u53)); [nra|]. apply Rmult_le_compat_l; lra.
Qed.
Lemma dn_pow_pos : forall k, 0 < dn ^ k.
Proof. assert (U := u53_val). intros. apply pow_lt. lra. Qed.
Lemma up_pow_pos : forall k, 0 < up ^ k.
Proof. assert (U := u53_val). intros. apply pow_lt. lra. Qed.
Lemma up_dn : forall k, up ^ k * dn ^ k <= 1.
Proof.
  assert (U := u53_val). intros. rewrite <- Rpow_mult_distr. apply Rle_trans with (1 ^ k); [apply pow_incr; nra|rewrite pow1; lra].
Qed.
Lemma up_pow : forall k, INR k * u53 <= / 2 -> up ^ k <= (1 + INR k * u53) ^ 2.
Proof.
  intros k H. assert (U := u53_val). assert (A := dn_pow k). assert (B := up_dn k). assert (C := up_pow_pos k). assert (Pk := pos_INR k).
  set (t := INR k * u53) in *. assert (T : 0 <= t) by (apply Rmult_le_pos; lra).
  apply Rmult_le_reg_r with (1 - t); [lra|]. apply Rle_trans with 1.
  - apply Rle_trans with (2 := B). apply Rmult_le_compat_l; lra.
  - assert (0 <= t * (1 - t - t * t)) by (apply Rmult_le_pos; nra). nra.
Qed.

(** ** Components *)
Definition prod (st : state FN) (p : varid * f64) : R := B2R (snd p) * B2R (sd st (fst p) : f64).
Definition ordinary (x : R) : Prop := x = 0 \/ / 10 ^ 140 <= Rabs x <= 10 ^ 140.
Definition entry_ok (st : state FN) (p : varid * f64) : Prop :=
  is_finite (snd p) = true /\ is_finite (sd st (fst p) : f64) = true /\ ordinary (prod st p).
(** A number that approximates |p|. *)
Definition near (p : R) (c : pynum FN) : Prop :=
  (c = PZ 0 /\ p = 0) \/ exists x : f64, c = PF (N:=FN) x /\ is_finite x = true /\ 0 <= B2R x /\ Rabs (B2R x - Rabs p) <= u53 * Rabs p.

Lemma ordinary_range : forall v, ordinary v -> v = 0 \/ lo <= Rabs v <= hi.
Proof.
  intros v [H|(A & B)]; [left; exact H|right]. rewrite pow10 in A, B. rewrite <- r10_inv in A.
  split; [apply Rle_trans with (2 := A)|apply Rle_trans with (1 := B)]; apply r10_le; lia.
Qed.
Lemma components_near : forall (st : state FN) h d ec, h_var h = h_var (st_heap st) -> List.Forall (entry_ok st) d ->
  components (N:=FN) h d = Ok ec -> Forall2 (fun p c => fst p = fst c /\ near (prod st p) (snd c)) d ec.
Proof.
  intros st h d ec HV. revert ec. induction d as [|(v, x) d IH]; intros ec F E; cbn [components] in E.
  - injection E as <-. constructor.
  - inversion F as [|? ? (F1 & F2 & F3) F4]; subst.
    destruct (get_var h v) as [o|] eqn:G; [|discriminate E]. cbn [rbind] in E.
    destruct (components h d) as [r|] eqn:R; [|discriminate E]. injection E as <-. constructor; [|apply IH; auto].
    split; [reflexivity|]. cbn [snd fst] in *.
    assert (SD : sd st v = v_std o) by (unfold sd; unfold get_var in *; rewrite <- HV, G; reflexivity). unfold prod in *. cbn [snd fst] in *.
    rewrite SD in F2, F3 |- *. change (n_eq FN (v_std o) (n_zero FN)) with (Beqb (v_std o : f64) f0).
    rewrite (Beqb_correct _ _ (v_std o : f64) f0 F2 eq_refl). change (B2R f0) with 0. destruct (Req_bool_spec (B2R (v_std o : f64)) 0) as [Z|Z].
    + left. split; [reflexivity|]. rewrite Z. ring.
    + right. exists (fabs (fmul x (v_std o))). split; [reflexivity|].
      destruct (fmul_ok x (v_std o) F1 F2 (ordinary_range _ F3)) as (A & B).
      assert (Ea : B2R (fabs (fmul x (v_std o))) = Rabs (B2R (fmul x (v_std o)))) by apply B2R_Babs.
      split; [|split].
      * destruct (fmul x (v_std o)); try discriminate A; reflexivity.
      * rewrite Ea. apply Rabs_pos.
      * rewrite Ea. apply Rle_trans with (2 := B). apply Rabs_triang_inv2.
Qed.

(** ** Squares *)
Definition near2 (k : nat) (q : R) (c : pynum FN) : Prop :=
  (c = PZ 0 /\ q = 0) \/ exists x : f64, c = PF (N:=FN) x /\ is_finite x = true /\ q * dn ^ k <= B2R x <= q * up ^ k.
Lemma square_near : forall p c, ordinary p -> near p c -> exists s, pn_square c = Ok s /\ near2 5 (p ^ 2) s.
Proof.
  intros p c O [(-> & ->)|(x & -> & F & P & H)].
  - exists (PZ 0). split; [reflexivity|]. left. split; [reflexivity|ring].
  - assert (U := u53_val). apply Rabs_le_inv in H. assert (Ap := Rabs_pos p).
    assert (X : B2R x = 0 \/ / 10 ^ 141 <= B2R x <= 10 ^ 141).
    { destruct O as [->|(A & B)].
      - left. rewrite Rabs_R0 in H. lra.
      - right. replace (10 ^ 141) with (10 * 10 ^ 140) by (cbn [pow]; ring). assert (Q : 0 < 10 ^ 140) by (apply pow_lt; lra).
        assert (Q' : 0 < / 10 ^ 140) by (apply Rinv_0_lt_compat, Q). set (t := 10 ^ 140) in *. clearbody t. rewrite Rinv_mult. set (w := / t) in *. nra. }
    destruct (square_ok x F P X) as (r & E & Fr & Hr). exists (PF (N:=FN) r). split.
    { unfold pn_square, n_powf. change (n_pow FN x (n_two FN)) with (f_pow lm x ftwo). rewrite E. reflexivity. }
    right. exists r. split; [reflexivity|]. split; [exact Fr|]. apply Rabs_le_inv in Hr.
    assert (S1 : (Rabs p * dn) ^ 2 <= B2R x ^ 2) by (apply pow_incr; split; [apply Rmult_le_pos; lra|lra]).
    assert (S2 : B2R x ^ 2 <= (Rabs p * up) ^ 2) by (apply pow_incr; split; lra).
    rewrite Rpow_mult_distr, pow2_abs in S1, S2.
    replace (p ^ 2 * dn ^ 5) with (p ^ 2 * dn ^ 2 * dn ^ 3) by ring. replace (p ^ 2 * up ^ 5) with (p ^ 2 * up ^ 2 * up ^ 3) by ring.
    assert (X2 : 0 <= B2R x ^ 2) by apply pow2_ge_0. split.
    + apply Rle_trans with (B2R x ^ 2 * dn ^ 3); [apply Rmult_le_compat_r; [apply Rlt_le, dn_pow_pos|exact S1]|].
      apply Rle_trans with (B2R x ^ 2 * (1 - 2 * u53)); [apply Rmult_le_compat_l; [exact X2|]; cbn [pow]; nra|lra].
    + apply Rle_trans with (B2R x ^ 2 * up ^ 3); [|apply Rmult_le_compat_r; [apply Rlt_le, up_pow_pos|exact S2]].
      apply Rle_trans with (B2R x ^ 2 * (1 + 2 * u53)); [lra|]. apply Rmult_le_compat_l; [exact X2|]. cbn [pow]. nra.
Qed.

(** ** Sums *)
Lemma dn_le : forall j k, (j <= k)%nat -> dn ^ k <= dn ^ j.
Proof.
  assert (U := u53_val). intros j k H. replace k with (j + (k - j))%nat by lia. rewrite pow_add. assert (P := dn_pow_pos j).
  rewrite <- (Rmult_1_r (dn ^ j)) at 2. apply Rmult_le_compat_l; [lra|]. apply Rle_trans with (1 ^ (k - j)); [apply pow_incr; lra|rewrite pow1; lra].
Qed.
Lemma up_le : forall j k, (j <= k)%nat -> up ^ j <= up ^ k.
Proof. assert (U := u53_val). intros. apply Rle_pow; [lra|assumption]. Qed.
Lemma near2_mono : forall j k q c, (j <= k)%nat -> 0 <= q -> near2 j q c -> near2 k q c.
Proof.
  intros j k q c L Q [H|(x & E & F & H)]; [left; exact H|right]. exists x. split; [exact E|]. split; [exact F|].
  assert (A := dn_le j k L). assert (B := up_le j k L). split; [apply Rle_trans with (q * dn ^ j)|apply Rle_trans with (q * up ^ j)]; try lra; apply Rmult_le_compat_l; assumption.
Qed.
Lemma near2_float : forall k q c, near2 k q c -> exists x : f64, pn_float c = Ok x /\ is_finite x = true /\ q * dn ^ k <= B2R x <= q * up ^ k.
Proof.
  intros k q c [(-> & ->)|(x & -> & F & H)].
  - exists f0. split; [reflexivity|]. split; [reflexivity|]. change (B2R f0) with 0. lra.
  - exists x. auto.
Qed.
Definition wide (x : R) : Prop := x = 0 \/ / 10 ^ 280 <= x <= 10 ^ 290.
Lemma wide_range : forall x y, wide x -> / 2 * x <= y <= 4 * x -> y = 0 \/ lo <= Rabs y <= hi.
Proof.
  intros x y [-> | (A & B)] H; [left; lra|right]. rewrite pow10 in A, B. rewrite <- r10_inv in A.
  assert (P := r10_pos (- Z.of_nat 280)). rewrite Rabs_pos_eq by lra. split.
  - apply Rle_trans with (2 := proj1 H). apply Rle_trans with (/ 2 * r10 (- Z.of_nat 280)); [|lra].
    apply Rle_trans with (r10 (-1) * r10 (- Z.of_nat 280)); [rewrite <- r10_add; apply r10_le; lia|]. apply Rmult_le_compat_r; [lra|].
    change (r10 (-1)) with (r10 (- (1))). rewrite r10_inv, r10_Z by lia. apply Rinv_le_contravar; simpl; lra.
  - apply Rle_trans with (1 := proj2 H). apply Rle_trans with (4 * r10 (Z.of_nat 290)); [lra|].
    apply Rle_trans with (r10 1 * r10 (Z.of_nat 290)); [|rewrite <- r10_add; apply r10_le; lia]. apply Rmult_le_compat_r; [apply Rlt_le, r10_pos|].
    rewrite r10_Z by lia. simpl. lra.
Qed.
Lemma add_near : forall k t q c s, INR k * u53 <= / 2 -> 0 <= t -> 0 <= q -> wide (t + q) -> near2 k t c -> near2 k q s ->
  exists r, pn_add c s = Ok r /\ near2 (S k) (t + q) r.
Proof.
  intros k t q c s K T Q W A B. assert (U := u53_val).
  assert (X : (c = PZ 0 /\ s = PZ 0 /\ t = 0 /\ q = 0) \/
    pn_add c s = rbind (pn_float c) (fun x => rbind (pn_float s) (fun y => Ok (PF (n_add FN x y))))).
  { destruct A as [(-> & ->)|(x & -> & _)]; destruct B as [(-> & ->)|(y & -> & _)]; [left; auto|right; reflexivity..]. }
  destruct X as [(-> & -> & -> & ->)|E].
  { exists (PZ 0). split; [reflexivity|]. left. split; [reflexivity|ring]. }
  destruct (near2_float _ _ _ A) as (x & Ex & Fx & Hx). destruct (near2_float _ _ _ B) as (y & Ey & Fy & Hy).
  rewrite Ex, Ey in E. cbn [rbind] in E. change (n_add FN x y) with (fadd x y) in E. exists (PF (N:=FN) (fadd x y)). split; [exact E|].
  right. exists (fadd x y). split; [reflexivity|].
  assert (D := dn_pow k). assert (V := up_pow k K). assert (Pk := pos_INR k).
  assert (V4 : up ^ k <= 4). { apply Rle_trans with (1 := V). set (z := INR k * u53) in *. assert (0 <= z) by (apply Rmult_le_pos; lra). nra. }
  assert (Y : / 2 * (t + q) <= B2R x + B2R y <= 4 * (t + q)).
  { split.
    - apply Rle_trans with ((t + q) * dn ^ k); [|lra]. rewrite Rmult_comm. apply Rmult_le_compat_l; lra.
    - apply Rle_trans with ((t + q) * up ^ k); [lra|]. rewrite Rmult_comm. apply Rmult_le_compat_r; lra. }
  destruct (fadd_ok x y Fx Fy (wide_range _ _ W Y)) as (F & H). split; [exact F|].
  rewrite (Rabs_pos_eq (B2R x + B2R y)) in H by lra. apply Rabs_le_inv in H. cbn [pow]. split.
  - apply Rle_trans with ((B2R x + B2R y) * dn); [|lra]. replace ((t + q) * (dn * dn ^ k)) with ((t + q) * dn ^ k * dn) by ring. apply Rmult_le_compat_r; lra.
  - apply Rle_trans with ((B2R x + B2R y) * up); [lra|]. replace ((t + q) * (up * up ^ k)) with ((t + q) * up ^ k * up) by ring. apply Rmult_le_compat_r; lra.
Qed.
Definition sumsq (l : list R) : R := Rsum (map (fun p => p ^ 2) l).
Lemma sumsq_pos : forall l, 0 <= sumsq l.
Proof. induction l as [|p l IH]; unfold sumsq in *; cbn [map Rsum]; [lra|]. assert (X := pow2_ge_0 p). simpl in *. lra. Qed.
Lemma sum_near : forall ps cs k t acc, Forall2 near ps cs -> List.Forall ordinary ps -> near2 (5 + k) t acc -> 0 <= t ->
  (t = 0 \/ / 10 ^ 280 <= t) -> t <= INR k * 10 ^ 280 -> (INR k + INR (length ps) <= 1000000) ->
  exists r, sum_squares acc cs = Ok r /\ near2 (5 + k + length ps) (t + sumsq ps) r /\ wide (t + sumsq ps).
Proof.
  assert (U := u53_val). induction ps as [|p ps IH]; intros cs k t acc H O N T L Hi C; inversion H as [|? c ? cs' H1 H2]; subst; cbn [sum_squares].
  - exists acc. split; [reflexivity|]. cbn [length] in *. rewrite Nat.add_0_r. unfold sumsq. cbn [map Rsum]. rewrite Rplus_0_r. split; [exact N|].
    destruct L as [L|L]; [left; exact L|right]. split; [exact L|]. apply Rle_trans with (1 := Hi). change (INR 0) with 0 in C.
    replace 290%nat with (10 + 280)%nat by reflexivity. rewrite pow_add. apply Rmult_le_compat_r; [apply pow_le; lra|]. simpl. lra.
  - inversion O as [|? ? O1 O2]; subst. destruct (square_near p c O1 H1) as (s & Es & Ns). rewrite Es. cbn [rbind].
    assert (P2 := pow2_ge_0 p). assert (Pk := pos_INR k). assert (Pl := pos_INR (length ps)).
    cbn [length] in C. rewrite S_INR in C.
    assert (Big : 0 < 10 ^ 280) by (apply pow_lt; lra).
    assert (Q : (p ^ 2 = 0 \/ / 10 ^ 280 <= p ^ 2) /\ p ^ 2 <= 10 ^ 280).
    { destruct O1 as [->|(A & B)]; [split; [left; ring|]; replace (0 ^ 2) with 0 by ring; lra|].
      rewrite <- (pow2_abs p). replace (10 ^ 280) with ((10 ^ 140) ^ 2) by (rewrite <- pow_mult; reflexivity). split.
      - right. rewrite <- pow_inv. apply pow_incr. split; [apply Rlt_le, Rinv_0_lt_compat, pow_lt; lra|exact A].
      - apply pow_incr. split; [apply Rabs_pos|exact B]. }
    destruct Q as (Q1 & Q2).
    assert (Up : t + p ^ 2 <= INR (S k) * 10 ^ 280) by (rewrite S_INR; lra).
    assert (Lo : t + p ^ 2 = 0 \/ / 10 ^ 280 <= t + p ^ 2) by (destruct L as [L|L]; destruct Q1 as [Q1|Q1]; [left|right..]; lra).
    assert (W : wide (t + p ^ 2)).
    { destruct Lo as [Lo|Lo]; [left; exact Lo|right]. split; [exact Lo|]. apply Rle_trans with (1 := Up). rewrite S_INR.
      replace 290%nat with (10 + 280)%nat by reflexivity. rewrite pow_add. apply Rmult_le_compat_r; [lra|]. simpl. lra. }
    assert (K : INR (5 + k) * u53 <= / 2). { rewrite plus_INR. simpl INR. nra. }
    destruct (add_near (5 + k) t (p ^ 2) acc s K T P2 W N) as (r & Er & Nr).
    { apply (near2_mono 5); auto. lia. }
    rewrite Er. cbn [rbind]. destruct (IH cs' (S k) (t + p ^ 2) r H2 O2) as (r' & Er' & Nr' & Wr); auto; try lra.
    { rewrite S_INR. lra. }
    exists r'. split; [exact Er'|]. cbn [length]. replace (5 + k + S (length ps))%nat with (5 + S k + length ps)%nat by lia.
    unfold sumsq in *. cbn [map Rsum]. rewrite <- Rplus_assoc. split; assumption.
Qed.

(** ** Square roots *)
Lemma sqrt_near : forall n t c, INR n <= 1000005 -> wide t -> near2 n t c ->
  exists s : f64, pn_sqrt c = Ok s /\ is_finite s = true /\ Rabs (B2R s - sqrt t) <= INR (n + 2) * u53 * sqrt t.
Proof.
  intros n t c Hn W H. assert (U := u53_val). assert (Pn := pos_INR n). assert (T : 0 <= t).
  { destruct W as [->|W]; [lra|]. apply Rle_trans with (2 := proj1 W). apply Rlt_le, Rinv_0_lt_compat, pow_lt. lra. }
  destruct (near2_float _ _ _ H) as (x & Ex & Fx & Hx).
  set (z := INR n * u53). assert (Z : 0 <= z <= / 100). { unfold z. split; [apply Rmult_le_pos; lra|]. nra. }
  assert (D := dn_pow n). assert (V : up ^ n <= (1 + z) ^ 2) by (apply up_pow; fold z; lra). fold z in D.
  assert (St := sqrt_pos t).
  assert (X : 0 <= B2R x). { apply Rle_trans with (2 := proj1 Hx). apply Rmult_le_pos; [exact T|]. apply Rlt_le, dn_pow_pos. }
  assert (S1 : sqrt t * (1 - z) <= sqrt (B2R x)).
  { rewrite <- (sqrt_pow2 (1 - z)) by lra. rewrite <- sqrt_mult by (try apply pow2_ge_0; assumption). apply sqrt_le_1_alt.
    apply Rle_trans with (2 := proj1 Hx). apply Rmult_le_compat_l; [exact T|]. nra. }
  assert (S2 : sqrt (B2R x) <= sqrt t * (1 + z)).
  { rewrite <- (sqrt_pow2 (1 + z)) by lra. rewrite <- sqrt_mult by (try apply pow2_ge_0; assumption). apply sqrt_le_1_alt.
    apply Rle_trans with (1 := proj2 Hx). apply Rmult_le_compat_l; assumption. }
  assert (R : sqrt (B2R x) = 0 \/ lo <= sqrt (B2R x) <= hi).
  { destruct W as [->|(A & B)]; [left; rewrite sqrt_0 in S1, S2; assert (Q := sqrt_pos (B2R x)); lra|right].
    assert (A' : / 10 ^ 140 <= sqrt t).
    { rewrite <- (sqrt_pow2 (/ 10 ^ 140)) by (apply Rlt_le, Rinv_0_lt_compat, pow_lt; lra). apply sqrt_le_1_alt. rewrite pow_inv.
      rewrite <- pow_mult. exact A. }
    assert (B' : sqrt t <= 10 ^ 145).
    { rewrite <- (sqrt_pow2 (10 ^ 145)) by (apply pow_le; lra). apply sqrt_le_1_alt. rewrite <- pow_mult. exact B. }
    split.
    - apply Rle_trans with (/ 10 * / 10 ^ 140).
      2: { apply Rle_trans with (2 := S1). rewrite Rmult_comm. apply Rmult_le_compat; [apply Rlt_le, Rinv_0_lt_compat, pow_lt; lra|lra|exact A'|lra]. }
      rewrite <- Rinv_mult. change (10 * 10 ^ 140) with (10 ^ 141). rewrite pow10, <- r10_inv. apply r10_le. lia.
    - apply Rle_trans with (10 * 10 ^ 145).
      { apply Rle_trans with (1 := S2). rewrite Rmult_comm. apply Rmult_le_compat; [lra|exact St|lra|exact B']. }
      change (10 * 10 ^ 145) with (10 ^ 146). rewrite pow10. apply r10_le. lia. }
  destruct (fsqrt_ok x Fx X R) as (s & Es & Fs & Hs). exists s. split.
  { unfold pn_sqrt. rewrite Ex. exact Es. }
  split; [exact Fs|]. rewrite plus_INR. change (INR 2) with 2. rewrite Rmult_plus_distr_r. fold z. apply Rabs_le_inv in Hs. apply Rabs_le.
  assert (0 <= sqrt t * z) by (apply Rmult_le_pos; lra). assert (u53 * (sqrt t * z) <= u53 * sqrt t) by (apply Rmult_le_compat_l; nra).
  assert (u53 * sqrt (B2R x) <= u53 * (sqrt t * (1 + z))) by (apply Rmult_le_compat_l; lra).
  assert (0 <= u53 * sqrt t) by (apply Rmult_le_pos; lra). split; nra.
Qed.

(** ** Statements of the program *)
Lemma expand_vars : forall fuel l acc (h : heap FN) r h', expand_loop fuel l acc h = (r, h') -> h_var h' = h_var h.
Proof.
  induction fuel as [|n IH]; intros l acc h r h' E; cbn [expand_loop] in E.
  - injection E as <- <-. reflexivity.
  - destruct (get_lc h l) as [[|x d]|[|it rest]]; try (injection E as <- <-; reflexivity).
    destruct it as [c l'| |]; try (injection E as <- <-; reflexivity).
    destruct (get_lc (set_lc h l (LList rest)) l') as [d|its].
    + destruct (acc_dict c d acc) as [a|e]; [|injection E as <- <-; reflexivity]. apply IH in E. exact E.
    + destruct (push_items c (rev its) rest) as (st, [e|]); [injection E as <- <-; reflexivity|]. apply IH in E. exact E.
Qed.
Lemma derivatives_vars : forall fuel u (h : heap FN) r h', derivatives fuel u h = (r, h') -> h_var h' = h_var h.
Proof.
  intros fuel u h r h' E. unfold derivatives, lc_derivatives in E. destruct (get_lc h (uf_lp u)); [injection E as <- <-; reflexivity|].
  destruct (expand_loop fuel (uf_lp u) [] h) as ([x|e], h1) eqn:X; apply expand_vars in X.
  - destruct (get_lc h1 (uf_lp u)); injection E as <- <-; exact X.
  - injection E as <- <-; exact X.
Qed.
Lemma observe_ok : forall A (st : state FN) (f : A -> out FN) r st' o, observe st f r = (st', o) ->
  (forall e, o <> OExn e) -> exists a h, r = (Ok a, h) /\ st' = mkState h (st_env st) /\ o = f a.
Proof.
  intros A st f ([a|e], h) st' o E N; cbn [observe] in E; injection E as <- <-; [exists a, h; auto|]. exfalso. apply (N e). reflexivity.
Qed.

Lemma std_accurate_lm : forall (st : state FN) i u d ec ins, is_number st i u ->
  reads st (IDeriv i) (ODict d) -> reads st (IErrs i) (OErrs ec) ->
  List.Forall (entry_ok st) d -> INR (length d) <= 1000000 ->
  ins = IStdS i \/ (ins = IStd i /\ uf_var u = None) ->
  Forall2 (fun p c => fst p = fst c /\ near (prod st p) (snd c)) d ec /\
  let S := sqrt (Rsum (map (fun p => prod st p ^ 2) d)) in
  exists s : f64, reads st ins (ONum (N:=FN) s) /\ is_finite s = true /\
    Rabs (B2R s - S) <= INR (length d + 7) / 2 ^ 53 * S.
Proof.
  intros st i u d ec ins Hn (st1 & k1 & H1) (st2 & k2 & H2) Hd Hl Hi. unfold is_number in Hn.
  set (K := Nat.max k1 k2).
  assert (E1 : forall f, (K <= f)%nat -> exists h, derivatives f u (st_heap st) = (Ok d, h) /\ st1 = mkState h (st_env st)).
  { intros f Hf. assert (X := H1 f ltac:(lia)). cbn [step] in X. unfold with_uf, with_val in X. rewrite Hn in X.
    apply observe_ok in X; [|discriminate]. destruct X as (a & h & X & Y & Z). injection Z as <-. exists h. auto. }
  assert (E2 : forall f, (K <= f)%nat -> error_components f u (st_heap st) = (Ok ec, st_heap st1) /\ components (st_heap st1) d = Ok ec).
  { intros f Hf. assert (X := H2 f ltac:(lia)). cbn [step] in X. unfold with_uf, with_val in X. rewrite Hn in X.
    apply observe_ok in X; [|discriminate]. destruct X as (a & h & X & Y & Z). injection Z as <-.
    destruct (E1 f Hf) as (h' & D & ->). cbn [st_heap]. unfold error_components, bind in *. rewrite D in *. injection X as X ->. rewrite X. auto. }
  destruct (E1 K (Nat.le_refl _)) as (h & D & S1). assert (V := derivatives_vars _ _ _ _ _ D).
  destruct (E2 K (Nat.le_refl _)) as (_ & C).
  assert (Hh : st_heap st1 = h) by (rewrite S1; reflexivity).
  assert (CN := components_near st (st_heap st1) d ec ltac:(rewrite Hh; exact V) Hd C). split; [exact CN|]. intros S.
  assert (N2 : Forall2 near (map (prod st) d) (map snd ec)).
  { clear - CN. induction CN as [|p c d ec (_ & X) _ IH]; cbn [map]; constructor; auto. }
  assert (O2 : List.Forall ordinary (map (prod st) d)).
  { clear - Hd. induction Hd as [|p d (_ & _ & X) _ IH]; cbn [map]; constructor; auto. }
  destruct (sum_near (map (prod st) d) (map snd ec) 0 0 (PZ 0) N2 O2) as (r & Er & Nr & W).
  { left. auto. } { lra. } { left; reflexivity. } { simpl. lra. } { rewrite map_length. change (INR 0) with 0. rewrite Rplus_0_l. exact Hl. }
  rewrite map_length in Nr. rewrite Rplus_0_l in Nr, W. unfold sumsq in Nr, W. rewrite map_map in Nr, W.
  set (t := Rsum (map (fun x => prod st x ^ 2) d)) in *.
  destruct (sqrt_near (5 + length d) t r) as (s & Es & Fs & Hs); auto.
  { rewrite plus_INR. change (INR 5) with (1 + 1 + 1 + 1 + 1). assert (Hl2 : INR (@length (varid * f64) d) <= 1000000) by exact Hl. lra. }
  exists s. split; [|split; [exact Fs|]].
  - exists st1. exists K. intros f Hf. destruct (E2 f Hf) as (X & _).
    assert (Y : std_dev_affine f u (st_heap st) = (Ok s, st_heap st1)).
    { unfold std_dev_affine, bind. rewrite X. cbn [rbind]. rewrite Er. cbn [rbind]. rewrite Es. reflexivity. }
    assert (Z : st1 = mkState (st_heap st1) (st_env st)) by (rewrite S1; reflexivity).
    destruct Hi as [->|(-> & HV)]; cbn [step]; unfold with_uf, with_val; rewrite Hn.
    + unfold std_dev_s. rewrite Y. cbn [observe]. rewrite <- Z. reflexivity.
    + unfold std_dev. rewrite HV, Y. cbn [observe]. rewrite <- Z. reflexivity.
  - replace (length d + 7)%nat with (5 + length d + 2)%nat by lia. unfold Rdiv. rewrite <- u53_pow. exact Hs.
Qed.
End Std.

Theorem std_accurate : forall lm, squares_ok lm -> forall (st : state (FOps lm)) i u d ec ins, is_number st i u ->
  reads st (IDeriv i) (ODict d) -> reads st (IErrs i) (OErrs ec) ->
  List.Forall (entry_ok lm st) d -> INR (length d) <= 1000000 ->
  ins = IStdS i \/ (ins = IStd i /\ uf_var u = None) ->
  Forall2 (fun p c => fst p = fst c /\ near lm (prod lm st p) (snd c)) d ec /\
  let S := sqrt (Rsum (map (fun p => prod lm st p ^ 2) d)) in
  exists s : f64, reads st ins (ONum (N:=FOps lm) s) /\ is_finite s = true /\
    Rabs (B2R s - S) <= INR (length d + 7) / 2 ^ 53 * S.
Proof. exact std_accurate_lm. Qed.

(** ** A C library whose squares are correctly rounded *)
Theorem exact_squares_ok : forall lm, exact_squares lm -> squares_ok lm.
Proof.
  intros lm E a F (A & B). assert (U := u53_val). rewrite (E a). rewrite pow10 in A, B. rewrite <- r10_inv in A.
  assert (P0 := r10_pos (- Z.of_nat 141)). assert (P1 := r10_pos (Z.of_nat 141)).
  assert (R : B2R a * B2R a = 0 \/ lo <= Rabs (B2R a * B2R a) <= hi).
  { right. rewrite Rabs_pos_eq by (apply Rmult_le_pos; lra). split.
    - apply Rle_trans with (r10 (- Z.of_nat 141) * r10 (- Z.of_nat 141)); [rewrite <- r10_add; apply r10_le; lia|]. apply Rmult_le_compat; lra.
    - apply Rle_trans with (r10 (Z.of_nat 141) * r10 (Z.of_nat 141)); [|rewrite <- r10_add; apply r10_le; lia]. apply Rmult_le_compat; lra. }
  destruct (fmul_ok a a F F R) as (G & H). split; [exact G|]. replace (B2R a ^ 2) with (B2R a * B2R a) by ring.
  apply Rle_trans with (1 := H). assert (X : 0 <= B2R a * B2R a) by (apply Rmult_le_pos; lra). rewrite Rabs_pos_eq by exact X.
  apply Rmult_le_compat_r; lra.
Qed.

(** ** ufloat(1, 3) + ufloat(2, 4) *)
Definition three_four : list (instr FN) := [INew (fl 1 0) (fl 3 0) None; INew (fl 2 0) (fl 4 0) None; IBin Badd 0 1].
Definition sf := after three_four.
Definition sf_dict : list (varid * f64) := match snd (step 40 sf (IDeriv 2)) with ODict d => d | _ => [] end.
Definition sf_errs : list (varid * pynum FN) := match snd (step 40 sf (IErrs 2)) with OErrs d => d | _ => [] end.
Lemma ex_std_accurate : exists u, squares_ok lm0 /\ is_number sf 2 u /\ uf_var u = None /\
  reads sf (IDeriv 2) (ODict (N:=FN) sf_dict) /\ reads sf (IErrs 2) (OErrs sf_errs) /\
  List.Forall (entry_ok lm0 sf) sf_dict /\ length sf_dict = 2%nat /\
  exists s : f64, reads sf (IStd 2) (ONum (N:=FN) s) /\ B2R s = 5.
Proof.
  exists (uf_at sf 2). split; [apply exact_squares_ok, lm0_squares|]. split; [apply has_uf_at; vm_compute; reflexivity|].
  split; [vm_compute; reflexivity|].
  split. { apply (reads_step 40); [|discriminate]. unfold sf_dict.
    assert (X : match snd (step 40 sf (IDeriv 2)) with ODict _ => true | _ => false end = true) by (vm_compute; reflexivity).
    destruct (snd (step 40 sf (IDeriv 2))); try discriminate X. reflexivity. }
  split. { apply (reads_step 40); [|discriminate]. unfold sf_errs.
    assert (X : match snd (step 40 sf (IErrs 2)) with OErrs _ => true | _ => false end = true) by (vm_compute; reflexivity).
    destruct (snd (step 40 sf (IErrs 2))); try discriminate X. reflexivity. }
  split.
  { assert (X : forallb (fun p => is_finite (snd p) && Beqb (snd p) fone && is_finite (sd sf (fst p) : f64) &&
      Bleb fone (sd sf (fst p)) && Bleb (sd sf (fst p)) (fnorm 4 0)) sf_dict = true) by (vm_compute; reflexivity).
    apply List.Forall_forall. intros p I. rewrite forallb_forall in X. specialize (X p I). rewrite !andb_true_iff in X.
    destruct X as ((((X1 & X2) & X3) & X4) & X5). split; [exact X1|]. split; [exact X3|].
    assert (E : B2R (snd p) = 1).
    { assert (Y := Beqb_correct _ _ (snd p : f64) fone X1 eq_refl). rewrite one_R in Y. assert (Y2 := eq_trans (eq_sym Y) X2).
      destruct (Req_bool_spec (B2R (snd p : f64)) 1) as [E|]; [exact E|discriminate Y2]. }
    assert (L : 1 <= B2R (sd sf (fst p) : f64)).
    { assert (Y := Bleb_correct _ _ fone (sd sf (fst p) : f64) eq_refl X3). rewrite one_R in Y. assert (Y2 := eq_trans (eq_sym Y) X4).
      destruct (Rle_bool_spec 1 (B2R (sd sf (fst p) : f64))) as [L|]; [exact L|discriminate Y2]. }
    assert (M : B2R (sd sf (fst p) : f64) <= B2R (fnorm 4 0)).
    { assert (Y := Bleb_correct _ _ (sd sf (fst p) : f64) (fnorm 4 0) X3 eq_refl). assert (Y2 := eq_trans (eq_sym Y) X5).
      destruct (Rle_bool_spec (B2R (sd sf (fst p) : f64)) (B2R (fnorm 4 0))) as [M|]; [exact M|discriminate Y2]. }
    assert (F4 : B2R (fnorm 4 0) = 4) by (change (B2R (fnorm 4 0)) with (IZR 4503599627370496 * / IZR 1125899906842624); lra).
    rewrite F4 in M. right. unfold prod. rewrite E, Rmult_1_l. set (z := B2R (sd sf (fst p) : f64)) in *. rewrite Rabs_pos_eq by lra. clearbody z.
    assert (B : 4 <= 10 ^ 140) by (rewrite pow10; apply Rle_trans with (r10 1); [rewrite r10_Z by lia; simpl; lra|apply r10_le; lia]).
    split; [|lra]. apply Rle_trans with 1; [|exact L]. rewrite <- Rinv_1. apply Rinv_le_contravar; lra. }
  split; [vm_compute; reflexivity|].
  assert (X : match snd (step 40 sf (IStd 2)) with ONum s => is_finite (s : f64) && Beqb s (fnorm 5 0) | _ => false end = true) by (vm_compute; reflexivity).
  destruct (snd (step 40 sf (IStd 2))) as [| | |s| |] eqn:E; try discriminate X. exists s. split; [apply (reads_step 40); [exact E|discriminate]|].
  apply andb_true_iff in X. destruct X as (X1 & X2). assert (Y := Beqb_correct _ _ (s : f64) (fnorm 5 0) X1 eq_refl). assert (Y2 := eq_trans (eq_sym Y) X2). clear Y.
  destruct (Req_bool_spec (B2R (s : f64)) (B2R (fnorm 5 0))) as [Y|]; [|discriminate Y2]. rewrite Y.
  change (B2R (fnorm 5 0)) with (IZR 5629499534213120 * / IZR 1125899906842624). lra.
Qed.

(** ** Outside of this range: x * 1 for x = ufloat(1, 2^700) *)
Definition large_std : list (instr FN) := [INew (fl 1 0) (fl 1 700) None; IConst (fl 1 0); IBin Bmul 0 1].
Lemma std_overflows : reachable (after large_std) /\ has_uf (after large_std) 2 = true /\
  match snd (step 40 (after large_std) (IErrs 2)) with
  | OErrs [(v, PF c)] => is_finite (c : f64) && Beqb (c : f64) (fnorm 1 700)
  | _ => false
  end = true /\
  reads (after large_std) (IStd 2) (OExn EOverflow).
Proof.
  split; [apply after_runs; vm_compute; reflexivity|]. split; [vm_compute; reflexivity|]. split; [vm_compute; reflexivity|].
  apply (reads_is 40); [vm_compute; reflexivity|discriminate].
Qed.
