(** Numerical derivatives in binary64. *)
From Coq Require Import ZArith List Bool Lia Reals Lra.
From Coquelicot Require Import Coquelicot.
From Flocq Require Import Core Relative BinarySingleNaN.
From Verif Require Import Base Heap NumR NumF Affine Ops Plain Machine History GenProofs FFacts FRefute BinProofs BinQ BinStd BinArith NumFacts.
Import ListNotations.
Local Open Scope R_scope.

(** ** Rounding with underflow *)
Definition eta : R := bpow radix2 (-1075).
Lemma rnd_any : forall v, Rabs (rnd64 v - v) <= u53 * Rabs v + eta.
Proof.
  intros v. destruct (error_N_FLT radix2 (-1074) 53 eq_refl (fun z => negb (Z.even z)) v) as (eps & et & E1 & E2 & _ & E3).
  assert (U : / 2 * bpow radix2 (-53 + 1) = u53).
  { change (bpow radix2 (-53 + 1)) with (/ IZR 4503599627370496). change u53 with (/ IZR 9007199254740992). lra. }
  assert (E1' : Rabs eps <= u53) by (rewrite <- U; exact E1).
  assert (T : / 2 * bpow radix2 (-1074) = eta).
  { unfold eta. change (-1074)%Z with (1 + -1075)%Z. rewrite bpow_plus. simpl (bpow radix2 1). lra. }
  assert (E2' : Rabs et <= eta) by (rewrite <- T; exact E2). assert (E4 : rnd64 v = v * (1 + eps) + et) by exact E3. rewrite E4. replace (v * (1 + eps) + et - v) with (eps * v + et) by ring.
  apply Rle_trans with (1 := Rabs_triang _ _). rewrite Rabs_mult. apply Rplus_le_compat; [|exact E2']. apply Rmult_le_compat_r; [apply Rabs_pos|exact E1'].
Qed.
Lemma eta_small : 0 < eta <= r10 (-323).
Proof.
  split; [apply bpow_gt_0|]. unfold eta. change (-323)%Z with (- (323))%Z. change (-1075)%Z with (- (1075))%Z. rewrite r10_inv, bpow_opp, r10_Z by lia. rewrite <- IZR_Zpower by lia.
  apply Rinv_le; [apply IZR_lt; reflexivity|]. apply IZR_le. vm_compute. discriminate.
Qed.
Lemma rnd_bound : forall v, Rabs v <= r10 300 -> Rabs (rnd64 v) < bpow radix2 1024.
Proof.
  intros v H. apply Rle_lt_trans with (bpow radix2 1023); [|apply bpow_lt; lia].
  assert (B1 : r10 300 <= bpow radix2 1023).
  { rewrite r10_Z by lia. rewrite <- IZR_Zpower by lia. apply IZR_le. vm_compute. discriminate. }
  apply (abs_round_le_generic radix2 fexp64 ZnearestE); [|lra]. apply generic_format_bpow. vm_compute. discriminate.
Qed.
Lemma sub_any : forall x y : f64, is_finite x = true -> is_finite y = true -> Rabs (B2R x - B2R y) <= r10 300 ->
  is_finite (fsub x y) = true /\ Rabs (B2R (fsub x y) - (B2R x - B2R y)) <= u53 * Rabs (B2R x - B2R y).
Proof.
  intros x y F G H. pose proof (Bminus_correct 53 1024 prec_gt_0_64 prec_lt_emax_64 mode_NE x y F G) as C. fold (fsub x y) in C.
  change (round_mode mode_NE) with ZnearestE in C. rewrite Rlt_bool_true in C by (apply rnd_bound, H). destruct C as (C1 & C2 & _).
  split; [exact C2|]. rewrite C1. assert (X := plus_rel x (Bopp y)). rewrite B2R_Bopp in X. exact X.
Qed.
Lemma div_any : forall x y : f64, is_finite x = true -> B2R y <> 0 -> Rabs (B2R x / B2R y) <= r10 300 ->
  is_finite (fdiv x y) = true /\ Rabs (B2R (fdiv x y) - B2R x / B2R y) <= u53 * Rabs (B2R x / B2R y) + eta.
Proof.
  intros x y F G H. pose proof (Bdiv_correct 53 1024 prec_gt_0_64 prec_lt_emax_64 mode_NE x y G) as C. fold (fdiv x y) in C.
  change (round_mode mode_NE) with ZnearestE in C. rewrite Rlt_bool_true in C by (apply rnd_bound, H). destruct C as (C1 & C2 & _).
  split; [rewrite C2; exact F|]. rewrite C1. apply rnd_any.
Qed.

(** ** The two points *)
Definition k26 : R := / 2 ^ 26.
Definition w27 : R := / 2 ^ 27.
Lemma consts : 0 < k26 <= / 60000000 /\ 0 < w27 <= / 130000000 /\ u53 = k26 * w27 /\ k26 = 2 * w27.
Proof.
  assert (A : k26 = / 67108864) by (unfold k26; rewrite pow_IZR; reflexivity).
  assert (B : w27 = / 134217728) by (unfold w27; rewrite pow_IZR; reflexivity).
  assert (C : u53 = / 9007199254740992) by (rewrite u53_pow, pow_IZR; reflexivity). rewrite A, B, C. lra.
Qed.
(** The step: |x|/2^26, or 1/2^26. *)
Definition stepR (x : R) : R := (if Req_bool x 0 then 1 else Rabs x) * k26.
Definition ordinary_x (x : R) : Prop := x = 0 \/ / 10 ^ 140 <= Rabs x <= 10 ^ 140.
Section Deriv.
Variable lm : Libm.
Notation FN := (FOps lm).
Definition the_step (x : f64) : f64 :=
  let h := fmul (fnorm 1 (-26)) (fabs x) in if Beqb h f0 then fnorm 1 (-26) else h.
Lemma points : forall x : f64, is_finite x = true -> ordinary_x (B2R x) ->
  let h := the_step x in let T := stepR (B2R x) in let p := fadd x h in let h2 := fmul (fnorm 2 0) h in let m := fsub p h2 in
  is_finite h = true /\ Beqb h f0 = false /\ r10 (-149) <= T <= r10 133 /\ Rabs (B2R h - T) <= u53 * T /\
  is_finite p = true /\ is_finite m = true /\ Rabs (B2R p - B2R x) <= 2 * T /\ Rabs (B2R m - B2R x) <= 2 * T /\
  Rabs (B2R p - B2R m - 2 * B2R h) <= w27 * (2 * B2R h).
Proof.
  intros x F [Z|H] h T p h2 m; destruct consts as (K & W & U & KW).
  - assert (X : x = B754_zero false \/ x = B754_zero true).
    { destruct x as [[]| | |s mm e E]; try discriminate F; auto. exfalso. apply eq_0_F2R in Z. destruct s; discriminate Z. }
    assert (Hh : h = fnorm 1 (-26)) by (unfold h, the_step; destruct X as [->| ->]; reflexivity).
    assert (Hp : p = fnorm 1 (-26)) by (unfold p; rewrite Hh; destruct X as [->| ->]; reflexivity).
    assert (Fm : is_finite m = true) by (unfold m, h2; rewrite Hp, Hh; reflexivity).
    assert (Hm : B2R m = - k26).
    { unfold m, h2. rewrite Hp, Hh. change (B2R (fsub (fnorm 1 (-26)) (fmul (fnorm 2 0) (fnorm 1 (-26))))) with (IZR (-4503599627370496) * / IZR 302231454903657293676544).
      unfold k26. rewrite <- step_R. change (B2R (fnorm 1 (-26))) with (IZR 4503599627370496 * / IZR 302231454903657293676544). lra. }
    assert (HT : T = k26) by (unfold T, stepR; rewrite Z, Req_bool_true by reflexivity; ring).
    rewrite Hm, Hp, Hh, Z, HT, step_R. fold k26.
    split; [reflexivity|]. split; [reflexivity|]. split.
    { split; [|apply Rle_trans with (r10 0); [rewrite r10_0; lra|apply r10_le; lia]].
      apply Rle_trans with (r10 (-8)); [apply r10_le; lia|]. change (-8)%Z with (- (8))%Z. rewrite r10_inv, r10_Z by lia. unfold k26. rewrite pow_IZR. apply Rinv_le; [apply IZR_lt; reflexivity|]. apply IZR_le. vm_compute. discriminate. }
    split; [rewrite Rminus_eq_0, Rabs_R0; apply Rmult_le_pos; [destruct u53_val; lra|lra]|]. split; [reflexivity|]. split; [exact Fm|].
    split; [rewrite Rabs_pos_eq; lra|]. split; [rewrite Rabs_left; lra|]. replace (k26 - - k26 - 2 * k26) with 0 by ring. rewrite Rabs_R0. apply Rmult_le_pos; lra.
  - assert (U9 := u53_val). rewrite pow10 in H. rewrite <- r10_inv in H. change (- Z.of_nat 140)%Z with (-140)%Z in H. change (Z.of_nat 140) with 140%Z in H.
    set (a := Rabs (B2R x)) in *. assert (P0 := r10_pos (-140)). assert (P1 := r10_pos (-300)).
    assert (HT : T = a * k26) by (unfold T, stepR; rewrite Req_bool_false by (intros Z; unfold a in H; rewrite Z, Rabs_R0 in H; lra); reflexivity).
    assert (K8 : r10 (-8) <= k26).
    { change (-8)%Z with (- (8))%Z. rewrite r10_inv, r10_Z by lia. unfold k26. rewrite pow_IZR. apply Rinv_le; [apply IZR_lt; reflexivity|]. apply IZR_le. vm_compute. discriminate. }
    assert (R8 := r10_pos (-8)).
    assert (T1 : r10 (-148) <= T).
    { rewrite HT. change (-148)%Z with (-140 + -8)%Z. rewrite r10_add. apply Rmult_le_compat; lra. }
    assert (T2 : T <= r10 133).
    { rewrite HT. change 133%Z with (140 + -7)%Z. rewrite r10_add. apply Rmult_le_compat; [lra|lra|lra|].
      change (-7)%Z with (- (7))%Z. rewrite r10_inv, r10_Z by lia. unfold k26. rewrite pow_IZR. apply Rinv_le; [apply IZR_lt; reflexivity|]. apply IZR_le. vm_compute. discriminate. }
    assert (L0 : 10 * r10 (-300) <= r10 (-148)). { replace 10 with (r10 1) by (rewrite r10_Z by lia; reflexivity). rewrite <- r10_add. apply r10_le. lia. }
    assert (L1 : 10 * r10 140 <= r10 300). { replace 10 with (r10 1) by (rewrite r10_Z by lia; reflexivity). rewrite <- r10_add. apply r10_le. lia. }
    assert (L2 : 10 * r10 133 <= r10 140). { replace 10 with (r10 1) by (rewrite r10_Z by lia; reflexivity). rewrite <- r10_add. apply r10_le. lia. }
    assert (P2 := r10_pos (-148)). assert (TP : 0 < T) by lra.
    assert (Fa : is_finite (fabs x) = true) by (destruct x; try discriminate F; reflexivity).
    assert (Ea : B2R (fabs x) = a) by apply B2R_Babs.
    destruct (fmul_ok (fnorm 1 (-26)) (fabs x) eq_refl Fa) as (F1 & S1).
    { right. rewrite step_R, Ea. fold k26. rewrite Rmult_comm, <- HT, Rabs_pos_eq by lra. lra. }
    rewrite step_R, Ea in S1. fold k26 in S1. rewrite (Rmult_comm k26 a), <- HT in S1. rewrite (Rabs_pos_eq T) in S1 by lra.
    assert (UT : u53 * T <= T / 1000000000) by (apply Rle_trans with (/ 1000000000 * T); [apply Rmult_le_compat_r; lra|lra]).
    assert (Q1 := Rabs_le_inv _ _ S1).
    assert (Nh : Beqb (fmul (fnorm 1 (-26)) (fabs x)) f0 = false) by (apply not_zero; [exact F1|lra]).
    assert (Hh : h = fmul (fnorm 1 (-26)) (fabs x)) by (unfold h, the_step; rewrite Nh; reflexivity).
    rewrite <- Hh in S1, Q1, F1, Nh. clearbody h. set (Hr := B2R h) in *. clear Hh.
    assert (Ta : T <= a / 60000000) by (rewrite HT; unfold Rdiv; apply Rmult_le_compat_l; lra).
    assert (Wa : u53 * a = w27 * T) by (rewrite HT, U; ring).
    assert (WT : 0 < w27 * T <= T / 130000000).
    { split; [apply Rmult_lt_0_compat; lra|]. apply Rle_trans with (/ 130000000 * T); [apply Rmult_le_compat_r; lra|lra]. }
    assert (Ya : B2R x = a \/ B2R x = - a) by (unfold a, Rabs; destruct (Rcase_abs (B2R x)); [right|left]; lra).
    assert (M1 : a / 2 <= Rabs (B2R x + Hr) <= a * (1 + / 1000000)).
    { destruct Ya as [E|E]; rewrite E; [rewrite Rabs_pos_eq by lra|rewrite Rabs_left by lra]; lra. }
    destruct (fadd_ok x h F F1) as (F2 & S2). { right. fold Hr. lra. }
    fold p in F2, S2. fold Hr in S2.
    assert (V1 : u53 * Rabs (B2R x + Hr) <= w27 * T * (1 + / 1000000)).
    { rewrite <- Wa. rewrite Rmult_assoc. apply Rmult_le_compat_l; lra. }
    apply Rabs_le_inv in S2. clearbody p.
    destruct (fmul_ok (fnorm 2 0) h eq_refl F1) as (F3 & S3). { right. rewrite two_R. fold Hr. rewrite Rabs_pos_eq by lra. lra. }
    rewrite two_R in S3. fold Hr in S3. rewrite (Rabs_pos_eq (2 * Hr)) in S3 by lra. fold h2 in F3, S3.
    assert (V2 : u53 * (2 * Hr) <= w27 * T / 1000000).
    { rewrite U. replace (k26 * w27 * (2 * Hr)) with (w27 * (k26 * (2 * Hr))) by ring. unfold Rdiv. rewrite Rmult_assoc. apply Rmult_le_compat_l; [lra|].
      apply Rle_trans with (/ 60000000 * (2 * Hr)); [apply Rmult_le_compat_r; lra|lra]. }
    apply Rabs_le_inv in S3. clearbody h2.
    assert (M2 : a / 2 <= Rabs (B2R p - B2R h2) <= a * (1 + / 100000)).
    { destruct Ya as [E|E]; [rewrite Rabs_pos_eq by lra|rewrite Rabs_left by lra]; lra. }
    destruct (fsub_ok p h2 F2 F3) as (F4 & S4). { right. lra. }
    fold m in F4, S4. 
    assert (V3 : u53 * Rabs (B2R p - B2R h2) <= w27 * T * (1 + / 100000)).
    { rewrite <- Wa. rewrite Rmult_assoc. apply Rmult_le_compat_l; lra. }
    apply Rabs_le_inv in S4. clearbody m.
    split; [exact F1|]. split; [exact Nh|]. split; [split; [apply Rle_trans with (2 := T1); apply r10_le; lia|exact T2]|]. split; [exact S1|].
    split; [exact F2|]. split; [exact F4|].
    split; [apply Rabs_le; lra|]. split; [apply Rabs_le; lra|].
    assert (WH : w27 * T * (1 - / 1000000) <= w27 * Hr) by (rewrite Rmult_assoc; apply Rmult_le_compat_l; lra).
    apply Rabs_le. lra.
Qed.

Lemma scaled_le : forall a b i, 0 < i -> Rabs a <= b -> Rabs (a * i) <= b * i.
Proof. intros a b i P H. rewrite Rabs_mult, (Rabs_pos_eq i) by lra. apply Rmult_le_compat_r; lra. Qed.
(** The quotient of differences. *)
Lemma quotient : forall (zp zm h : f64) (T D1 V E G0 c dp : R), is_finite zp = true -> is_finite zm = true -> is_finite h = true -> B2R h <> 0 ->
  r10 (-149) <= T <= r10 133 -> Rabs (B2R h - T) <= u53 * T -> 0 <= V -> 0 <= E -> G0 = Rabs D1 -> E / T + G0 + V <= r10 140 ->
  Rabs (c - D1) <= V -> Rabs (dp - 2 * B2R h) <= w27 * (2 * B2R h) -> Rabs (B2R zp - B2R zm - c * dp) <= 2 * E ->
  let d := fdiv (fdiv (fsub zp zm) (fnorm 2 0)) h in
  is_finite d = true /\ Rabs (B2R d - D1) <= V + E / T + (G0 + V + E / T) * k26 + r10 (-170).
Proof.
  intros zp zm h T D1 V E G0 c dp Fp Fm Fh Nh (T1 & T2) Ht PV PE EG Q Hc Hdp Hz. destruct consts as (K & W & U & KW).
  assert (PT : 0 < T) by (assert (X := r10_pos (-149)); lra).
  assert (U9 := u53_val). assert (UT : u53 * T <= T / 1000000000) by (apply Rle_trans with (/ 1000000000 * T); [apply Rmult_le_compat_r; lra|lra]).
  apply Rabs_le_inv in Ht. set (H := B2R h) in *. assert (PH : 0 < H) by lra.
  set (i := / H). assert (Pi : 0 < i) by (apply Rinv_0_lt_compat, PH). assert (Hi : H * i = 1) by (apply Rinv_r; lra).
  set (e := E / T) in *. assert (Pe : 0 <= e) by (unfold e; apply Rmult_le_pos; [lra|apply Rlt_le, Rinv_0_lt_compat, PT]).
  assert (Ee : E = e * T) by (unfold e; field; lra).
  assert (PG : 0 <= G0) by (rewrite EG; apply Rabs_pos).
  assert (Gc : Rabs c <= G0 + V). { replace c with (D1 + (c - D1)) by ring. apply Rle_trans with (1 := Rabs_triang _ _). rewrite EG. lra. }
  set (B := G0 + V + e) in *. assert (PB : 0 <= B) by (unfold B; lra).
  (* E / H *)
  assert (Ti : T * i <= 1 + 2 * u53).
  { replace (1 + 2 * u53) with ((1 + 2 * u53) * (H * i)) by (rewrite Hi; ring). rewrite <- Rmult_assoc. apply Rmult_le_compat_r; [lra|]. nra. }
  assert (Ei : E * i <= e + 2 * u53 * e).
  { rewrite Ee, Rmult_assoc. replace (e + 2 * u53 * e) with (e * (1 + 2 * u53)) by ring. apply Rmult_le_compat_l; lra. }
  set (dl := B2R zp - B2R zm) in *.
  set (X := dl * i / 2).
  assert (HX : Rabs (X - c) <= (G0 + V) * w27 + (e + 2 * u53 * e)).
  { replace (X - c) with ((dl - c * dp) * i / 2 + c * ((dp - 2 * H) * i / 2)) by (unfold X; replace c with (c * (H * i)) at 3 by (rewrite Hi; ring); field).
    apply Rle_trans with (1 := Rabs_triang _ _).
    assert (A1 : Rabs ((dl - c * dp) * i / 2) <= E * i).
    { unfold Rdiv. rewrite Rmult_assoc. replace (E * i) with (2 * E * (i * / 2)) by field. apply scaled_le; [lra|exact Hz]. }
    assert (A2 : Rabs ((dp - 2 * H) * i / 2) <= w27).
    { unfold Rdiv. rewrite Rmult_assoc. replace w27 with (w27 * (2 * H) * (i * / 2)) by (replace (w27 * (2 * H) * (i * / 2)) with (w27 * (H * i)) by field; rewrite Hi; ring). apply scaled_le; [lra|exact Hdp]. }
    rewrite (Rabs_mult c). assert (A3 : Rabs c * Rabs ((dp - 2 * H) * i / 2) <= (G0 + V) * w27) by (apply Rmult_le_compat; [apply Rabs_pos|apply Rabs_pos|exact Gc|exact A2]). lra. }
  assert (Bw : (G0 + V) * w27 <= B * w27) by (apply Rmult_le_compat_r; unfold B; lra).
  assert (eB : 0 <= 2 * u53 * e <= 2 * u53 * B) by (split; [apply Rmult_le_pos; lra|apply Rmult_le_compat_l; unfold B; lra]).
  assert (uB : u53 * B <= w27 * B / 60000000).
  { rewrite U. replace (w27 * B / 60000000) with (/ 60000000 * (w27 * B)) by field. rewrite Rmult_assoc. apply Rmult_le_compat_r; [apply Rmult_le_pos; lra|lra]. }
  assert (wB : 0 <= w27 * B <= B / 100000000).
  { split; [apply Rmult_le_pos; lra|]. apply Rle_trans with (/ 130000000 * B); [apply Rmult_le_compat_r; lra|lra]. }
  assert (AX : Rabs X <= 2 * B).
  { replace X with (c + (X - c)) by ring. apply Rle_trans with (1 := Rabs_triang _ _). unfold B in *. lra. }
  assert (L : forall a b, (a <= b)%Z -> r10 a <= r10 b) by exact r10_le.
  assert (L10 : forall n, 10 * r10 n = r10 (1 + n)) by (intros n; rewrite r10_add; f_equal; rewrite r10_Z by lia; reflexivity).
  (* the difference *)
  assert (Edl : dl = X * (2 * H)). { unfold X. replace (dl * i / 2 * (2 * H)) with (dl * (H * i)) by field. rewrite Hi. ring. }
  assert (H3 : 2 * H <= r10 134). { assert (Y := L10 133%Z). change (1 + 133)%Z with 134%Z in Y. lra. }
  assert (X3 : Rabs X <= r10 141). { assert (Y := L10 140%Z). change (1 + 140)%Z with 141%Z in Y. assert (B <= r10 140) by (unfold B; lra). lra. }
  assert (DL : Rabs dl <= r10 275).
  { rewrite Edl, Rabs_mult, (Rabs_pos_eq (2 * H)) by lra. change 275%Z with (141 + 134)%Z. rewrite r10_add. apply Rmult_le_compat; [apply Rabs_pos|lra|exact X3|exact H3]. }
  destruct (sub_any zp zm Fp Fm) as (F1 & S1). { apply Rle_trans with (1 := DL). apply L. lia. }
  fold dl in S1. set (s := fsub zp zm) in *. clearbody s.
  assert (Ds : Rabs (B2R s) <= 2 * Rabs dl).
  { replace (B2R s) with (dl + (B2R s - dl)) by ring. apply Rle_trans with (1 := Rabs_triang _ _). assert (u53 * Rabs dl <= 1 * Rabs dl) by (apply Rmult_le_compat_r; [apply Rabs_pos|lra]). lra. }
  set (S := B2R s * i / 2).
  assert (HS : Rabs (S - X) <= u53 * Rabs X).
  { replace (S - X) with ((B2R s - dl) * (i / 2)) by (unfold S, X; field). replace (u53 * Rabs X) with (u53 * Rabs dl * (i / 2)); [apply scaled_le; [lra|exact S1]|].
    unfold X. replace (dl * i / 2) with (dl * (i / 2)) by field. rewrite (Rabs_mult dl), (Rabs_pos_eq (i / 2)) by lra. ring. }
  (* halved *)
  assert (T2R : B2R (fnorm 2 0) <> 0) by (rewrite two_R; lra).
  assert (R300 : 10 * r10 275 <= r10 300) by (rewrite L10; apply L; lia).
  destruct (div_any s (fnorm 2 0) F1 T2R) as (F2 & S2). { rewrite two_R. unfold Rdiv. rewrite Rabs_mult, (Rabs_pos_eq (/ 2)) by lra. assert (Z := Rabs_pos (B2R s)). lra. }
  rewrite two_R in S2. set (q := fdiv s (fnorm 2 0)) in *. clearbody q.
  destruct eta_small as (N0 & N1).
  set (Qv := B2R q * i).
  assert (HQ : Rabs (Qv - S) <= u53 * Rabs S + eta * i).
  { replace (Qv - S) with ((B2R q - B2R s / 2) * i) by (unfold Qv, S; field). replace (u53 * Rabs S + eta * i) with ((u53 * Rabs (B2R s / 2) + eta) * i); [apply scaled_le; [lra|exact S2]|].
    unfold S. replace (B2R s * i / 2) with (B2R s / 2 * i) by field. rewrite (Rabs_mult (B2R s / 2) i), (Rabs_pos_eq i) by lra. ring. }
  (* eta / H *)
  assert (Ni : eta * i <= r10 (-173)).
  { apply Rle_trans with (r10 (-323) * r10 150); [|rewrite <- r10_add; apply L; lia].
    apply Rmult_le_compat; [lra|lra|exact N1|]. unfold i. change 150%Z with (- (-150))%Z. rewrite r10_inv. apply Rinv_le; [apply r10_pos|]. assert (Y := L10 (-150)%Z). change (1 + -150)%Z with (-149)%Z in Y. lra. }
  assert (Ni0 : 0 < eta * i) by (apply Rmult_lt_0_compat; lra).
  assert (R3 : r10 (-173) <= r10 141) by (apply L; lia). assert (R4 := r10_pos 141).
  assert (uX : u53 * Rabs X <= u53 * (2 * B)) by (apply Rmult_le_compat_l; lra).
  assert (AS : Rabs S <= 3 * B). { replace S with (X + (S - X)) by ring. apply Rle_trans with (1 := Rabs_triang _ _). lra. }
  assert (uS : u53 * Rabs S <= u53 * (3 * B)) by (apply Rmult_le_compat_l; lra).
  assert (AQ : Rabs Qv <= 4 * B + eta * i). { replace Qv with (S + (Qv - S)) by ring. apply Rle_trans with (1 := Rabs_triang _ _). lra. }
  assert (uQ : u53 * Rabs Qv <= u53 * (4 * B) + eta * i).
  { apply Rle_trans with (u53 * (4 * B + eta * i)); [apply Rmult_le_compat_l; lra|]. rewrite Rmult_plus_distr_l. assert (u53 * (eta * i) <= 1 * (eta * i)) by (apply Rmult_le_compat_r; lra). lra. }
  destruct (div_any q h F2 Nh) as (F3 & S3).
  { fold H. unfold Rdiv. fold i. fold Qv. assert (B <= r10 140) by (unfold B; lra). assert (Y := L10 140%Z). change (1 + 140)%Z with 141%Z in Y. assert (Y2 := L10 141%Z). assert (Y3 : r10 (1 + 141) <= r10 300) by (apply L; lia). lra. }
  fold H in S3. unfold Rdiv in S3. fold i in S3. fold Qv in S3. cbv zeta. split; [exact F3|].
  assert (N2 : eta <= r10 (-173)) by (apply Rle_trans with (1 := N1); apply L; lia).
  assert (N3 : 10 * r10 (-173) <= r10 (-170)) by (rewrite L10; apply L; lia).
  apply Rabs_le_inv in S3. apply Rabs_le_inv in HQ. apply Rabs_le_inv in HS. apply Rabs_le_inv in HX. apply Rabs_le_inv in Hc.
  replace (B * k26) with (2 * (w27 * B)) by (rewrite KW; ring).
  clear U KW UT Ti Ei Edl Ee. apply Rabs_le. lra.
Qed.

Lemma between : forall m p c x t, Rabs (m - x) <= t -> Rabs (p - x) <= t -> Rmin m p <= c <= Rmax m p -> Rabs (c - x) <= t.
Proof.
  intros m p c x t A B (C & D). apply Rabs_le_inv in A. apply Rabs_le_inv in B. apply Rabs_le. unfold Rmin, Rmax in *. destruct (Rle_dec m p); lra.
Qed.

Theorem numerical_f : forall (f : pyfun FN) r args kw (x : f64) (F F1 : R -> R) V E,
  arg_get r args kw = Some (PNum (PF (N:=FN) x)) -> is_finite x = true -> ordinary_x (B2R x) ->
  let T := stepR (B2R x) in
  (forall t, Rabs (t - B2R x) <= 2 * T -> is_derive F t (F1 t) /\ Rabs (F1 t - F1 (B2R x)) <= V) ->
  (forall y : f64, is_finite y = true -> Rabs (B2R y - B2R x) <= 2 * T ->
     exists z : f64, (let (a, k) := arg_set r args kw (PNum (PF (N:=FN) y)) in f a k) = Ok (PNum (PF (N:=FN) z)) /\
       is_finite z = true /\ Rabs (B2R z - F (B2R y)) <= E) ->
  E / T + Rabs (F1 (B2R x)) + V <= 10 ^ 140 ->
  exists d : f64, partial_derivative f r args kw = Ok (PF (N:=FN) d) /\ is_finite d = true /\
    Rabs (B2R d - F1 (B2R x)) <= V + E / T + (Rabs (F1 (B2R x)) + V + E / T) / 2 ^ 26 + / 10 ^ 170.
Proof.
  intros f r args kw x F F1 V E A Fx O T HF Hf Q.
  destruct (points x Fx O) as (F0 & Nh & HT & Hh & Fp & Fm & Hp & Hm & Hd).
  fold T in HT, Hh, Hp, Hm. set (h := the_step x) in *. set (p := fadd x h) in *. set (h2 := fmul (fnorm 2 0) h) in *. set (m := fsub p h2) in *.
  destruct (Hf p Fp Hp) as (zp & Ep & Fzp & Zp). destruct (Hf m Fm Hm) as (zm & Em & Fzm & Zm).
  assert (PT : 0 < T) by (assert (X := r10_pos (-149)); lra).
  assert (PE : 0 <= E) by (apply Rle_trans with (2 := Zp); apply Rabs_pos).
  assert (PV : 0 <= V). { destruct (HF (B2R x)) as (_ & X); [rewrite Rminus_eq_0, Rabs_R0; lra|]. rewrite Rminus_eq_0, Rabs_R0 in X. exact X. }
  destruct (MVT_gen F (B2R m) (B2R p) F1) as (c & Hc & Ec).
  { intros t Ht. apply HF. apply (between (B2R m) (B2R p)); [exact Hm|exact Hp|lra]. }
  { intros t Ht. destruct (HF t) as (X & _); [apply (between (B2R m) (B2R p)); [exact Hm|exact Hp|exact Ht]|].
    apply derivable_continuous_pt. exists (F1 t). apply is_derive_Reals. exact X. }
  assert (Hc' : Rabs (F1 c - F1 (B2R x)) <= V) by (apply HF; apply (between (B2R m) (B2R p)); assumption).
  assert (Hz : Rabs (B2R zp - B2R zm - F1 c * (B2R p - B2R m)) <= 2 * E).
  { rewrite <- Ec. apply Rabs_le_inv in Zp. apply Rabs_le_inv in Zm. apply Rabs_le. lra. }
  assert (NhR : B2R h <> 0). { assert (X := Rabs_le_inv _ _ Hh). assert (U9 := u53_val). assert (u53 * T <= / 1000000000 * T) by (apply Rmult_le_compat_r; lra). lra. }
  rewrite pow10 in Q. change (Z.of_nat 140) with 140%Z in Q.
  destruct (quotient zp zm h T (F1 (B2R x)) V E _ (F1 c) (B2R p - B2R m) Fzp Fzm F0 NhR HT Hh PV PE eq_refl Q Hc' Hd Hz) as (Fd & Bd).
  exists (fdiv (fdiv (fsub zp zm) (fnorm 2 0)) h). split; [|split; [exact Fd|]].
  - unfold partial_derivative. rewrite A. cbn [as_num rbind pn_abs].
    assert (E0 : pn_mul (PF (N:=FN) (n_step FN)) (PF (N:=FN) (n_abs FN x)) = Ok (PF (N:=FN) (fmul (fnorm 1 (-26)) (fabs x)))) by reflexivity. rewrite E0. cbn [rbind].
    assert (E1 : (if pn_is0 (PF (N:=FN) (fmul (fnorm 1 (-26)) (fabs x))) then PF (N:=FN) (n_step FN) else PF (N:=FN) (fmul (fnorm 1 (-26)) (fabs x))) = PF (N:=FN) h).
    { unfold h, the_step. change (pn_is0 (PF (N:=FN) (fmul (fnorm 1 (-26)) (fabs x)))) with (Beqb (fmul (fnorm 1 (-26)) (fabs x)) f0). destruct (Beqb (fmul (fnorm 1 (-26)) (fabs x)) f0); reflexivity. }
    rewrite E1. cbv zeta.
    assert (E2 : pn_add (PF (N:=FN) x) (PF (N:=FN) h) = Ok (PF (N:=FN) p)) by reflexivity. rewrite E2. cbn [rbind].
    destruct (arg_set r args kw (PNum (PF (N:=FN) p))) as (a1 & k1). rewrite Ep. cbn [rbind].
    assert (E4 : pn_mul (PZ 2) (PF (N:=FN) h) = Ok (PF (N:=FN) h2)) by reflexivity. rewrite E4. cbn [rbind].
    assert (E5 : pn_sub (PF (N:=FN) p) (PF (N:=FN) h2) = Ok (PF (N:=FN) m)) by reflexivity. rewrite E5. cbn [rbind].
    destruct (arg_set r args kw (PNum (PF (N:=FN) m))) as (a2 & k2). rewrite Em. cbn [rbind as_num].
    assert (E7 : pn_sub (PF (N:=FN) zp) (PF (N:=FN) zm) = Ok (PF (N:=FN) (fsub zp zm))) by reflexivity. rewrite E7. cbn [rbind].
    assert (E8 : pn_div (PF (N:=FN) (fsub zp zm)) (PZ 2) = Ok (PF (N:=FN) (fdiv (fsub zp zm) (fnorm 2 0)))) by reflexivity. rewrite E8. cbn [rbind].
    unfold pn_div. cbn [pn_float rbind].
    assert (E9 : n_div FN (fdiv (fsub zp zm) (fnorm 2 0)) h = Ok (fdiv (fdiv (fsub zp zm) (fnorm 2 0)) h)) by (cbn [n_div FOps]; unfold f_div; rewrite Nh; reflexivity).
    rewrite E9. reflexivity.
  - unfold Rdiv at 3. rewrite pow10, <- r10_inv. exact Bd.
Qed.
End Deriv.

(** The square, at 1. *)
Definition sq : pyfun (FOps lm0) := fun a _ => match a with [PNum (PF y)] => Ok (PNum (PF (N:=FOps lm0) (fmul y y))) | _ => Err EType end.
Lemma ex_numerical_f : arg_get (APos 0) [PNum (PF (N:=FOps lm0) fone)] [] = Some (PNum (PF (N:=FOps lm0) fone)) /\
  is_finite fone = true /\ ordinary_x (B2R fone) /\
  let T := stepR (B2R fone) in
  (forall t, Rabs (t - B2R fone) <= 2 * T -> is_derive (fun t => t * t) t (2 * t) /\ Rabs (2 * t - 2 * B2R fone) <= 4 * T) /\
  (forall y : f64, is_finite y = true -> Rabs (B2R y - B2R fone) <= 2 * T ->
     exists z : f64, (let (a, k) := arg_set (APos 0) [PNum (PF (N:=FOps lm0) fone)] [] (PNum (PF (N:=FOps lm0) y)) in sq a k) = Ok (PNum (PF (N:=FOps lm0) z)) /\
       is_finite z = true /\ Rabs (B2R z - B2R y * B2R y) <= 2 * u53) /\
  2 * u53 / T + Rabs (2 * B2R fone) + 4 * T <= 10 ^ 140.
Proof.
  assert (T1 : stepR (B2R fone) = k26). { unfold stepR. rewrite one_R, Req_bool_false by lra. rewrite Rabs_R1. ring. }
  destruct consts as (K & W & U & KW). assert (U9 := u53_val).
  assert (P10 : 1 < 10 ^ 140) by (apply Rlt_pow_R1; [lra|lia]).
  split; [reflexivity|]. split; [reflexivity|]. split; [right; rewrite one_R, Rabs_R1; split; [rewrite <- Rinv_1; apply Rinv_le_contravar; lra|lra]|].
  cbv zeta. rewrite T1. split; [|split].
  - intros t H. split; [auto_derive; [exact I|ring]|]. replace (2 * t - 2 * B2R fone) with (2 * (t - B2R fone)) by ring. rewrite Rabs_mult, (Rabs_pos_eq 2) by lra. lra.
  - intros y F H. rewrite one_R in H. apply Rabs_le_inv in H. assert (Y : 1 / 2 <= B2R y * B2R y <= 3 / 2) by nra.
    destruct (fmul_ok y y F F) as (F3 & S3).
    { right. rewrite Rabs_pos_eq by lra. unfold lo, hi. split; [apply Rle_trans with (r10 (-1)); [apply r10_le; lia|change (-1)%Z with (- (1))%Z; rewrite r10_inv, r10_Z by lia; change (10 ^ 1)%Z with 10%Z; lra]|].
      apply Rle_trans with (r10 1); [rewrite r10_Z by lia; lra|apply r10_le; lia]. }
    exists (fmul y y). split; [reflexivity|]. split; [exact F3|]. apply Rle_trans with (1 := S3). rewrite Rabs_pos_eq by lra.
    replace (2 * u53) with (u53 * 2) by ring. apply Rmult_le_compat_l; lra.
  - rewrite one_R, Rabs_pos_eq by lra. rewrite U. replace (2 * (k26 * w27) / k26) with (2 * w27) by (field; lra).
    assert (10 < 10 ^ 140) by (rewrite <- (pow_1 10) at 1; apply Rlt_pow; [lra|lia]). lra.
Qed.
