(** Binary64 operations, in terms of the rational values of floats. *)
From Coq Require Import ZArith List Bool Lia QArith Qabs Qreals Reals Lra.
From Flocq Require Import Core BinarySingleNaN.
From Verif Require Import Base Str NumF FFacts FmtOps FmtF Format FmtSpec DecProofs BinProofs BinRepr.
Import ListNotations.
Local Open Scope Z_scope.

(** Half a unit in the last place. *)
Definition hulp : Q := 1 # 9007199254740992.
Lemma hulp_R : Q2R hulp = u53.
Proof. unfold hulp, u53, Q2R. simpl Qnum. simpl Qden. change (bpow radix2 (-53)) with (/ IZR 9007199254740992)%R. lra. Qed.
Lemma Q2R_abs : forall q, Q2R (Qabs q) = Rabs (Q2R q).
Proof.
  intros q. destruct (Qlt_le_dec q 0) as [H|H].
  - rewrite (Qeq_eqR (Qabs q) (- q)%Q) by (apply Qabs_neg, Qlt_le_weak, H). apply Qlt_Rlt in H. rewrite RMicromega.Q2R_0 in H.
    rewrite Q2R_opp, Rabs_left by exact H. reflexivity.
  - rewrite (Qeq_eqR (Qabs q) q) by (apply Qabs_pos, H). apply Qle_Rle in H. rewrite RMicromega.Q2R_0 in H.
    rewrite Rabs_pos_eq by exact H. reflexivity.
Qed.
Lemma r10_le : forall a b, a <= b -> (r10 a <= r10 b)%R.
Proof. intros. unfold r10. apply Qle_Rle, p10_le. assumption. Qed.
Lemma rnd_range : forall v, (r10 (-300) <= Rabs v <= r10 300)%R ->
  (Rabs (rnd64 v) < bpow radix2 1024)%R /\ (Rabs (rnd64 v - v) <= u53 * Rabs v)%R.
Proof.
  intros v (A & B).
  assert (B1 : (r10 300 <= bpow radix2 1023)%R).
  { rewrite r10_Z by lia. rewrite <- IZR_Zpower by lia. apply IZR_le. vm_compute. discriminate. }
  assert (A1 : (bpow radix2 (-1022) <= r10 (-300))%R).
  { change (-300) with (- (300)). change (-1022) with (- (1022)). rewrite r10_inv, bpow_opp, r10_Z by lia. rewrite <- IZR_Zpower by lia.
    apply Rinv_le; [apply IZR_lt; reflexivity|]. apply IZR_le. vm_compute. discriminate. }
  split; [|apply rnd_relative; lra].
  apply Rle_lt_trans with (bpow radix2 1023); [|apply bpow_lt; lia].
  apply (abs_round_le_generic radix2 fexp64 ZnearestE); [apply (generic_format_bpow radix2 fexp64); vm_compute; discriminate|lra].
Qed.

Definition fin (x : f64) : Prop := is_finite x = true.
Lemma bq_B2R : forall x, fin x -> Q2R (bq x) = B2R x.
Proof. intros x F. destruct (fdec_finite x F) as (m & e & _ & _ & _ & E). exact E. Qed.
Lemma R_eq : forall a b, Q2R a = Q2R b -> (a == b)%Q.
Proof. exact eqR_Qeq. Qed.
Lemma bq_zero : forall x, fin x -> (Beqb x f0 = true <-> (bq x == 0)%Q).
Proof.
  intros x F. assert (E := bq_B2R x F). destruct x as [g| | |g m e B]; try discriminate F.
  - split; [|destruct g; reflexivity]. intros _. apply R_eq. rewrite E, RMicromega.Q2R_0. reflexivity.
  - split; [destruct g; discriminate|]. intros H. exfalso. apply Qeq_eqR in H. rewrite E, RMicromega.Q2R_0 in H. revert H. simpl.
    unfold F2R, Fnum, Fexp. apply Rmult_integral_contrapositive_currified; [apply IZR_neq; destruct g; discriminate|].
    apply Rgt_not_eq, bpow_gt_0.
Qed.
Lemma bq_abs : forall x, fin x -> fin (fabs x) /\ (bq (fabs x) == Qabs (bq x))%Q /\ Bsign (fabs x) = false.
Proof.
  intros x F. assert (F' : fin (fabs x)) by (destruct x; try discriminate F; reflexivity). split; [exact F'|].
  split; [|destruct x; try discriminate F; reflexivity].
  apply R_eq. rewrite Q2R_abs, !bq_B2R by assumption. apply B2R_Babs.
Qed.
Lemma bq_sign : forall x, fin x -> if Bsign x then (bq x <= 0)%Q else (0 <= bq x)%Q.
Proof.
  intros x F. destruct (fdec_finite x F) as (m & e & E & Hm & _ & _). unfold bq. rewrite E. assert (N := mq_nonneg m e Hm).
  simpl. destruct (Bsign x); [|exact N]. apply (Qopp_le_compat 0). exact N.
Qed.
Lemma bq_lt : forall x y, fin x -> fin y -> (Bltb x y = true <-> (bq x < bq y)%Q).
Proof.
  intros x y F G. rewrite (Bltb_correct _ _ x y F G). split.
  - intros H. apply Rlt_Qlt. rewrite !bq_B2R by assumption. revert H. case Rlt_bool_spec; [auto|discriminate].
  - intros H. apply Qlt_Rlt in H. rewrite !bq_B2R in H by assumption. apply Rlt_bool_true. exact H.
Qed.
Lemma bq_inj : forall x y, fin x -> fin y -> (bq x == bq y)%Q -> Bsign x = Bsign y -> x = y.
Proof.
  intros x y F G E H. apply B2R_Bsign_inj; try assumption. rewrite <- !bq_B2R by assumption. apply Qeq_eqR, E.
Qed.
Lemma bq_fix : forall x p, fin x ->
  0 <= x_fix DecOps (fdec x) p /\ half_even (Qabs (bq x) * p10 p) (x_fix DecOps (fdec x) p).
Proof.
  intros x p F. destruct (fdec_finite x F) as (m & e & E & Hm & _ & _). apply (fa_fix _ _ _ dec_faithful).
  rewrite E. exists (Bsign x), m, e. split; [reflexivity|exact Hm].
Qed.

(** A rounded result. *)
Lemma to_Q : forall x v q, fin x -> B2R x = rnd64 v -> Q2R q = v -> (Rabs (rnd64 v - v) <= u53 * Rabs v)%R ->
  (Qabs (bq x - q) <= hulp * Qabs q)%Q.
Proof.
  intros x v q F E Ev H. apply Rle_Qle. rewrite Q2R_mult, !Q2R_abs, Q2R_minus, hulp_R, bq_B2R, E, Ev by exact F. exact H.
Qed.
Lemma range_R : forall q, (p10 (-300) <= Qabs q)%Q -> (Qabs q <= p10 300)%Q -> (r10 (-300) <= Rabs (Q2R q) <= r10 300)%R.
Proof. intros q A B. apply Qle_Rle in A, B. rewrite Q2R_abs in A, B. split; assumption. Qed.
Lemma q_dec : forall s m e, 0 < m -> let v := (inject_Z m * p10 e)%Q in (p10 (-300) <= v)%Q -> (v <= p10 300)%Q ->
  fin (fdecimal s m e) /\ Bsign (fdecimal s m e) = s /\ (Qabs (Qabs (bq (fdecimal s m e)) - v) <= hulp * v)%Q.
Proof.
  intros s m e Hm v A B. assert (Pv := mq_pos m e Hm). fold v in Pv.
  assert (Av : (Qabs v == v)%Q) by (apply Qabs_pos; apply Qlt_le_weak; exact Pv).
  assert (E : Q2R v = (IZR m * r10 e)%R) by (unfold v; rewrite Q2R_mult, Q2R_Z; reflexivity).
  set (v' := sgn s (IZR m * r10 e)).
  assert (Aq : Rabs v' = Q2R v).
  { unfold v', sgn. rewrite <- E. apply Qlt_Rlt in Pv. rewrite RMicromega.Q2R_0 in Pv. destruct s; rewrite ?Rabs_Ropp; apply Rabs_pos_eq; lra. }
  assert (Rg : (r10 (-300) <= Rabs v' <= r10 300)%R).
  { rewrite Aq. apply Qle_Rle in A, B. split; assumption. }
  destruct (rnd_range v' Rg) as (X & Y). pose proof (fdecimal_R s m e Hm) as H. cbv zeta in H. fold v' in H.
  rewrite Rlt_bool_true in H by exact X. destruct H as (H1 & H2 & H3). split; [exact H2|]. split; [exact H3|].
  set (x := fdecimal s m e) in *.
  assert (W : (Qabs (bq x - (if s then - v else v)) <= hulp * Qabs (if s then - v else v))%Q).
  { apply (to_Q x v'); [exact H2|exact H1| |exact Y]. unfold v', sgn. rewrite <- E. destruct s; [apply Q2R_opp|reflexivity]. }
  assert (S0 := bq_sign x H2). rewrite H3 in S0. destruct s.
  - rewrite Qabs_opp, Av in W. rewrite (Qabs_neg (bq x) S0). rewrite <- Qabs_opp.
    setoid_replace (- (- bq x - v))%Q with (bq x - - v)%Q by ring. exact W.
  - rewrite Av in W. rewrite (Qabs_pos (bq x) S0). exact W.
Qed.
Lemma q_dec0 : forall s e, fdecimal s 0 e = B754_zero s.
Proof. reflexivity. Qed.
Lemma q_nearest : forall s m e y, 0 < m -> fin (fdecimal s m e) -> fin y -> let v := (inject_Z m * p10 e)%Q in
  (Qabs (Qabs (bq (fdecimal s m e)) - v) <= Qabs (Qabs (bq y) - v))%Q.
Proof.
  intros s m e y Hm F Fy v. pose proof (fdecimal_opp s m e ltac:(lia)) as O.
  assert (F0 : fin (fdecimal false m e)). { rewrite O in F. destruct s; [|exact F]. unfold fin in F. rewrite is_finite_Bopp in F. exact F. }
  assert (E : (Qabs (bq (fdecimal s m e)) == Qabs (bq (fdecimal false m e)))%Q).
  { apply R_eq. rewrite !Q2R_abs, !bq_B2R by assumption. rewrite O. destruct s; [|reflexivity]. rewrite B2R_Bopp, Rabs_Ropp. reflexivity. }
  rewrite E. clear E.
  destruct (bq_abs y Fy) as (Fa & Ea & _). rewrite <- Ea.
  pose proof (fdecimal_nearest false m e (fabs y) Hm F0 Fa) as N. cbv zeta in N. unfold sgn in N.
  assert (Sg := bq_sign _ F0). rewrite fdecimal_sign in Sg by lia. rewrite (Qabs_pos _ Sg).
  apply Rle_Qle. rewrite !Q2R_abs, !Q2R_minus, !bq_B2R by assumption.
  assert (Ev : Q2R v = (IZR m * r10 e)%R) by (unfold v; rewrite Q2R_mult, Q2R_Z; reflexivity). rewrite Ev. exact N.
Qed.

Lemma q_mul : forall x y, fin x -> fin y -> let v := (bq x * bq y)%Q in (p10 (-300) <= Qabs v)%Q -> (Qabs v <= p10 300)%Q ->
  fin (fmul x y) /\ (Qabs (bq (fmul x y) - v) <= hulp * Qabs v)%Q /\ Bsign (fmul x y) = xorb (Bsign x) (Bsign y).
Proof.
  intros x y F G v A B. destruct (rnd_range (Q2R v) (range_R v A B)) as (X & Y).
  assert (E : Q2R v = (B2R x * B2R y)%R) by (unfold v; rewrite Q2R_mult, !bq_B2R by assumption; reflexivity).
  pose proof (Bmult_correct 53 1024 prec_gt_0_64 prec_lt_emax_64 mode_NE x y) as C. fold (fmul x y) in C.
  change (round_mode mode_NE) with ZnearestE in C. rewrite <- E in C. rewrite Rlt_bool_true in C by exact X. destruct C as (C1 & C2 & C3).
  unfold fin in F, G. rewrite F, G in C2. split; [exact C2|]. split; [apply (to_Q _ (Q2R v)); auto|].
  apply C3. destruct (fmul x y); try reflexivity; discriminate C2.
Qed.
Lemma q_mul0 : forall x y, fin x -> fin y -> (bq x == 0)%Q -> fmul x y = B754_zero (xorb (Bsign x) (Bsign y)).
Proof.
  intros x y F G E. apply (bq_zero x F) in E. destruct x as [g| | |g m e B]; try discriminate F; [|destruct g; discriminate E].
  destruct y; try discriminate G; reflexivity.
Qed.
Lemma q_div : forall x y, fin x -> fin y -> ~ (bq y == 0)%Q -> let v := (bq x / bq y)%Q in (p10 (-300) <= Qabs v)%Q -> (Qabs v <= p10 300)%Q ->
  f_div x y = Ok (fdiv x y) /\
  fin (fdiv x y) /\ (Qabs (bq (fdiv x y) - v) <= hulp * Qabs v)%Q /\ Bsign (fdiv x y) = xorb (Bsign x) (Bsign y).
Proof.
  intros x y F G N v A B. destruct (rnd_range (Q2R v) (range_R v A B)) as (X & Y).
  split. { unfold f_div. destruct (Beqb y f0) eqn:E; [|reflexivity]. apply (bq_zero y G) in E. contradiction. }
  assert (E : Q2R v = (B2R x / B2R y)%R) by (unfold v; rewrite Q2R_div, !bq_B2R by assumption; reflexivity).
  assert (N' : B2R y <> 0%R). { intros Z0. apply N. apply R_eq. rewrite bq_B2R, RMicromega.Q2R_0 by exact G. exact Z0. }
  pose proof (Bdiv_correct 53 1024 prec_gt_0_64 prec_lt_emax_64 mode_NE x y N') as C. fold (fdiv x y) in C.
  change (round_mode mode_NE) with ZnearestE in C. rewrite <- E in C. rewrite Rlt_bool_true in C by exact X. destruct C as (C1 & C2 & C3).
  unfold fin in F, G. rewrite F in C2. split; [exact C2|]. split; [apply (to_Q _ (Q2R v)); auto|].
  apply C3. destruct (fdiv x y); try reflexivity; discriminate C2.
Qed.
Lemma q_div0 : forall x y, fin x -> fin y -> (bq x == 0)%Q -> ~ (bq y == 0)%Q -> f_div x y = Ok (B754_zero (xorb (Bsign x) (Bsign y))).
Proof.
  intros x y F G E N. apply (bq_zero x F) in E. destruct x as [g| | |g m e B]; try discriminate F; [|destruct g; discriminate E].
  unfold f_div. destruct (Beqb y f0) eqn:Ey; [apply (bq_zero y G) in Ey; contradiction|].
  destruct y as [h| | |h m e B]; try discriminate G; [destruct h; discriminate Ey|reflexivity].
Qed.
Lemma q_trunc : forall x, fin x -> (0 <= bq x)%Q -> exists D, f_trunc x = Ok D /\ 0 <= D /\ (inject_Z D <= bq x)%Q /\ (bq x < inject_Z (D + 1))%Q.
Proof.
  intros x F P. exists (Ztrunc (B2R x)). split; [apply trunc_exact; exact F|].
  assert (P' : (0 <= B2R x)%R). { apply Qle_Rle in P. rewrite RMicromega.Q2R_0, bq_B2R in P by exact F. exact P. }
  rewrite Ztrunc_floor by exact P'.
  split; [apply Zfloor_lub; exact P'|]. split.
  - apply Rle_Qle. rewrite Q2R_Z, bq_B2R by exact F. apply Zfloor_lb.
  - apply Rlt_Qlt. rewrite Q2R_Z, bq_B2R, plus_IZR by exact F. apply Zfloor_ub.
Qed.
Lemma q_small_Z : f_of_Z 1 = Ok (fnorm 1 0) /\ f_of_Z 100 = Ok (fnorm 100 0) /\ f_of_Z 1000 = Ok (fnorm 1000 0) /\
  fdec (fnorm 1 0) = DNum false (4503599627370496 * 5 ^ 52) (-52) /\
  (bq (fnorm 1 0) == 1)%Q /\ (bq (fnorm 100 0) == 100)%Q /\ (bq (fnorm 1000 0) == 1000)%Q.
Proof. repeat split; vm_compute; reflexivity. Qed.
