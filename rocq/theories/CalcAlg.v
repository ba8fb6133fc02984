(** Relative errors in multiplicative form. *)
From Coq Require Import ZArith List Bool Lia Reals Lra.
From Coquelicot Require Import Coquelicot.
From Flocq Require Import Core BinarySingleNaN.
From Verif Require Import Base Heap HeapSpec HeapProofs NumR NumF Affine Ops UMath Machine Cov Calls Unumpy UMatrix History Fuel FFacts FRefute FmtF
  BinProofs BinQ BinStd BinArith GradSpec Evolve BinGrad BinGradThm GradStd BinCov CalcSpec.
Import ListNotations.
Local Open Scope R_scope.

Definition K (n : nat) : R := (1 + u53) ^ n.
Lemma K_1 : forall n, 1 <= K n.
Proof. intros n. apply pow_R1_Rle. assert (U := u53_val). lra. Qed.
Lemma K_add : forall m n, K (m + n) = K m * K n.
Proof. intros. apply pow_add. Qed.
Lemma K_mono : forall m n, (m <= n)%nat -> K m <= K n.
Proof. intros m n H. apply Rle_pow; [|exact H]. assert (U := u53_val). lra. Qed.
Lemma K_inv : forall n, 0 < / K n <= 1.
Proof. intros n. assert (H := K_1 n). split; [apply Rinv_0_lt_compat; lra|]. rewrite <- Rinv_1. apply Rinv_le_contravar; lra. Qed.
Lemma K_30 : forall n, (n <= 30)%nat -> K n <= 1 + 31 * u53 /\ 1 - 31 * u53 <= / K n.
Proof.
  intros n H. assert (U := u53_val). assert (A := K_mono n 30 H).
  assert (B : K 30 <= 1 + 31 * u53).
  { assert (D := dn_pow 30). assert (X := up_dn 30). fold (K 30) in X. assert (P := K_1 30). replace (INR 30) with 30 in D by (rewrite INR_IZR_INZ; reflexivity).
    assert (Y : K 30 * (1 - 30 * u53) <= 1) by (apply Rle_trans with (2 := X); apply Rmult_le_compat_l; lra).
    apply Rmult_le_reg_r with (1 - 30 * u53); [lra|]. apply Rle_trans with (1 := Y). nra. }
  split; [lra|]. assert (P := K_1 n). apply Rmult_le_reg_r with (K n); [lra|]. rewrite Rinv_l by lra. nra.
Qed.

(** [r] is [y] up to [n] roundings. *)
Definition W (n : nat) (r y : R) : Prop := exists k, r = y * k /\ / K n <= k <= K n.
Lemma W_refl : forall y, W 0 y y.
Proof. intros y. exists 1. unfold K. simpl. rewrite Rinv_1. lra. Qed.
Lemma W_mono : forall m n r y, (m <= n)%nat -> W m r y -> W n r y.
Proof.
  intros m n r y H (k & E1 & A & B). exists k. split; [exact E1|]. assert (X := K_mono m n H). assert (P := K_1 m).
  split; [|lra]. apply Rle_trans with (2 := A). apply Rinv_le_contravar; lra.
Qed.
Lemma W_mul : forall m n r y s z, W m r y -> W n s z -> W (m + n) (r * s) (y * z).
Proof.
  intros m n r y s z (k & -> & A & B) (l & -> & C & D). exists (k * l). split; [ring|]. rewrite K_add, Rinv_mult.
  assert (I := K_inv m). assert (J := K_inv n). assert (P := K_1 m). assert (Q := K_1 n). split; apply Rmult_le_compat; lra.
Qed.
Lemma W_inv : forall n s z, W n s z -> W n (/ s) (/ z).
Proof.
  intros n s z (l & -> & C & D). assert (J := K_inv n). assert (Q := K_1 n). exists (/ l). split; [apply Rinv_mult|].
  split; [apply Rinv_le_contravar; lra|]. rewrite <- (Rinv_inv (K n)). apply Rinv_le_contravar; lra.
Qed.
Lemma W_div : forall m n r y s z, W m r y -> W n s z -> W (m + n) (r / s) (y / z).
Proof. intros. unfold Rdiv. apply W_mul; [assumption|now apply W_inv]. Qed.
Lemma W_opp : forall n r y, W n r y -> W n (- r) (- y).
Proof. intros n r y (k & -> & H). exists k. split; [ring|exact H]. Qed.
Lemma W_trans : forall m n r y z, W m r y -> W n y z -> W (m + n) r z.
Proof.
  intros m n r y z (k & -> & A & B) (l & -> & C & D). exists (l * k). split; [ring|]. rewrite K_add, Rinv_mult.
  assert (I := K_inv m). assert (J := K_inv n). assert (P := K_1 m). assert (Q := K_1 n). rewrite (Rmult_comm l k). split; apply Rmult_le_compat; lra.
Qed.
Lemma W_sqrt : forall n r y, 0 <= y -> W n r y -> W n (sqrt r) (sqrt y).
Proof.
  intros n r y P (k & -> & A & B). assert (J := K_inv n). assert (Q := K_1 n). exists (sqrt k). split; [apply sqrt_mult; lra|].
  assert (S : forall t, 1 <= t -> sqrt t <= t). { intros t T. rewrite <- (sqrt_square t) at 2 by lra. apply sqrt_le_1_alt. nra. }
  assert (S' : forall t, 0 <= t <= 1 -> t <= sqrt t). { intros t T. rewrite <- (sqrt_square t) at 1 by lra. apply sqrt_le_1_alt. nra. }
  split.
  - apply Rle_trans with (sqrt (/ K n)); [apply S'; lra|apply sqrt_le_1_alt; lra].
  - apply Rle_trans with (sqrt (K n)); [apply sqrt_le_1_alt; lra|apply S; lra].
Qed.
(** From an error of [m] units. *)
Lemma W_err : forall m r y, (m <= 20)%nat -> Rabs (r - y) <= INR m * u53 * Rabs y -> W (m + 1) r y.
Proof.
  intros m r y Hm H. assert (U := u53_val). destruct (Req_dec y 0) as [->|N].
  - rewrite Rabs_R0, Rmult_0_r in H. assert (X := Rabs_le0 _ H). exists 1. split; [lra|]. assert (A := K_1 (m + 1)). assert (B := K_inv (m + 1)). lra.
  - exists (r / y). split; [field; exact N|]. assert (P := Rabs_pos_lt y N).
    assert (X : Rabs (r / y - 1) <= INR m * u53).
    { replace (r / y - 1) with ((r - y) * / y) by (field; exact N). rewrite Rabs_mult, Rabs_inv. apply Rmult_le_reg_r with (Rabs y); [exact P|].
      rewrite Rmult_assoc, Rinv_l, Rmult_1_r by lra. exact H. }
    apply Rabs_le_inv in X.
    assert (G : 1 + INR (m + 1) * u53 <= K (m + 1)).
    { clear - U. induction (m + 1)%nat as [|k IH]; [unfold K; simpl; lra|]. rewrite S_INR. unfold K in *. cbn [pow]. assert (Q := pos_INR k). nra. }
    rewrite plus_INR in G. cbn [INR] in G. assert (Pm := pos_INR m).
    assert (Lm : INR m <= 20) by (replace 20 with (INR 20) by (rewrite INR_IZR_INZ; reflexivity); apply le_INR; exact Hm).
    split; [|nra]. apply Rle_trans with (1 - INR m * u53); [|lra].
    assert (KP := K_1 (m + 1)). apply Rmult_le_reg_r with (K (m + 1)); [lra|]. rewrite Rinv_l by lra.
    apply Rle_trans with ((1 - INR m * u53) * (1 + (INR m + 1) * u53)); [|apply Rmult_le_compat_l; nra].
    replace ((1 - INR m * u53) * (1 + (INR m + 1) * u53)) with (1 + u53 * (1 - INR m * (INR m + 1) * u53)) by ring.
    assert (0 <= u53 * (1 - INR m * (INR m + 1) * u53)); [|lra]. apply Rmult_le_pos; [lra|]. nra.
Qed.
Lemma W_rnd : forall r y, Rabs (r - y) <= u53 * Rabs y -> W 2 r y.
Proof. intros r y H. apply (W_err 1); [lia|]. cbn [INR]. rewrite Rmult_1_l. exact H. Qed.
Lemma W_about : forall n r y, (n <= 30)%nat -> W n r y -> about r y.
Proof.
  intros n r y Hn (k & -> & A & B). unfold about. replace (/ 2 ^ 48) with (32 * u53).
  2:{ unfold u53. change (bpow radix2 (-53)) with (/ IZR 9007199254740992). simpl. lra. }
  destruct (K_30 n Hn) as (P & Q). replace (y * k - y) with ((k - 1) * y) by ring. rewrite Rabs_mult. apply Rmult_le_compat_r; [apply Rabs_pos|].
  apply Rabs_le. assert (U := u53_val). lra.
Qed.
(** Magnitudes: [r] is within a factor 2 of [y]. *)
Lemma W_size : forall n r y, (n <= 30)%nat -> W n r y -> / 2 * Rabs y <= Rabs r <= 2 * Rabs y.
Proof.
  intros n r y Hn (k & -> & A & B). destruct (K_30 n Hn) as (P & Q). assert (U := u53_val). rewrite Rabs_mult, (Rabs_pos_eq k) by lra.
  assert (X := Rabs_pos y). assert (L : / 2 <= k <= 2) by lra. rewrite (Rmult_comm (Rabs y) k). split; apply Rmult_le_compat_r; lra.
Qed.
Lemma W_zero : forall n r y, W n r y -> (y = 0 <-> r = 0).
Proof.
  intros n r y (k & -> & A & B). assert (J := K_inv n). split; [intros ->; ring|]. intros H. apply Rmult_integral in H as [H|H]; lra.
Qed.
Lemma W_pos : forall n r y, W n r y -> 0 < y -> 0 < r.
Proof. intros n r y (k & -> & A & B) P. assert (J := K_inv n). apply Rmult_lt_0_compat; lra. Qed.

(** ** Operations *)
Definition mid (v : R) : Prop := v = 0 \/ r10 (-299) <= Rabs v <= r10 299.
Lemma mid_range : forall n r v, (n <= 30)%nat -> W n r v -> mid v -> r = 0 \/ lo <= Rabs r <= hi.
Proof.
  intros n r v Hn H [->|M]; [left; now apply (W_zero _ _ _ H)|right]. destruct (W_size _ _ _ Hn H) as (A & B).
  assert (T : r10 1 = 10) by (rewrite r10_Z by lia; reflexivity).
  assert (X : r10 (-299) = r10 (-300) * 10) by (rewrite <- T, <- r10_add; reflexivity).
  assert (Y : r10 300 = r10 299 * 10) by (rewrite <- T, <- r10_add; reflexivity). assert (P := r10_pos (-300)). assert (Q := r10_pos 299). lra.
Qed.
Lemma div_W : forall m n (r s : f64) y z, (m + n <= 28)%nat -> is_finite r = true -> W m (B2R r) y -> W n (B2R s) z -> z <> 0 -> mid (y / z) ->
  f_div r s = Ok (fdiv r s) /\ is_finite (fdiv r s) = true /\ W (m + n + 2) (B2R (fdiv r s)) (y / z).
Proof.
  intros m n r s y z Hn Fr Wr Ws Nz M. assert (Ns : B2R s <> 0) by (intros E0; apply Nz; now apply (W_zero _ _ _ Ws)).
  assert (Q := W_div _ _ _ _ _ _ Wr Ws). destruct (fdiv_ok r s Fr Ns (mid_range (m + n) _ _ ltac:(lia) Q M)) as (F & A). split; [|split; [exact F|]].
  - unfold f_div. destruct (Beqb s f0) eqn:Es; [|reflexivity]. exfalso. apply Ns. destruct s as [[|]|[|]| |[|] mm e Hb]; first [reflexivity | discriminate Es].
  - replace (m + n + 2)%nat with (2 + (m + n))%nat by lia. eapply W_trans; [apply W_rnd; exact A|exact Q].
Qed.
Lemma mul_W : forall m n (r s : f64) y z, (m + n <= 28)%nat -> is_finite r = true -> is_finite s = true -> W m (B2R r) y -> W n (B2R s) z -> mid (y * z) ->
  is_finite (fmul r s) = true /\ W (m + n + 2) (B2R (fmul r s)) (y * z).
Proof.
  intros m n r s y z Hn Fr Fs Wr Ws M. assert (Q := W_mul _ _ _ _ _ _ Wr Ws). destruct (fmul_ok r s Fr Fs (mid_range (m + n) _ _ ltac:(lia) Q M)) as (F & A).
  split; [exact F|]. replace (m + n + 2)%nat with (2 + (m + n))%nat by lia. eapply W_trans; [apply W_rnd; exact A|exact Q].
Qed.
Lemma add_W : forall m (r s : f64) y, (m <= 28)%nat -> is_finite r = true -> is_finite s = true -> W m (B2R r + B2R s) y -> mid y ->
  is_finite (fadd r s) = true /\ W (m + 2) (B2R (fadd r s)) y.
Proof.
  intros m r s y Hn Fr Fs Q M. destruct (fadd_ok r s Fr Fs (mid_range m _ _ ltac:(lia) Q M)) as (F & A).
  split; [exact F|]. replace (m + 2)%nat with (2 + m)%nat by lia. eapply W_trans; [apply W_rnd; exact A|exact Q].
Qed.
Lemma sqrt_W : forall m (r : f64) y, (m <= 28)%nat -> is_finite r = true -> W m (B2R r) y -> 0 <= y -> mid (sqrt y) ->
  exists s, f_sqrt r = Ok s /\ is_finite s = true /\ W (m + 2) (B2R s) (sqrt y).
Proof.
  intros m r y Hn Fr Wr P M. assert (Q := W_sqrt _ _ _ P Wr). assert (Pr : 0 <= B2R r).
  { destruct Wr as (k & -> & A & B). assert (J := K_inv m). apply Rmult_le_pos; lra. }
  assert (X := mid_range m _ _ ltac:(lia) Q M). rewrite Rabs_pos_eq in X by apply sqrt_pos.
  destruct (fsqrt_ok r Fr Pr X) as (s & S1 & S2 & S3). exists s. split; [exact S1|]. split; [exact S2|].
  replace (m + 2)%nat with (2 + m)%nat by lia. eapply W_trans; [apply W_rnd|exact Q]. rewrite (Rabs_pos_eq (sqrt (B2R r))) by apply sqrt_pos. exact S3.
Qed.
