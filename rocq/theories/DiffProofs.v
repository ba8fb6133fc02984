(** Total derivatives: chain rule. *)
From Coq Require Import ZArith List Bool Reals Lra Lia.
From Coquelicot Require Import Coquelicot.
From Verif Require Import Base HeapSpec DenProofs Regular.
Import ListNotations.
Local Open Scope R_scope.

Lemma Rsum_le : forall (F G : nat -> R) l, (forall i, In i l -> F i <= G i) ->
  Rsum (map F l) <= Rsum (map G l).
Proof.
  induction l as [|a l IH]; simpl; intros H; [lra|].
  pose proof (H a (or_introl eq_refl)). specialize (IH (fun i Hi => H i (or_intror Hi))). lra.
Qed.
Lemma Rsum_plus : forall (F G : nat -> R) l,
  Rsum (map (fun i => F i + G i) l) = Rsum (map F l) + Rsum (map G l).
Proof. induction l; simpl; lra. Qed.
Lemma Rsum_scal : forall (F : nat -> R) k l,
  Rsum (map (fun i => k * F i) l) = k * Rsum (map F l).
Proof. induction l; simpl; [lra|]. rewrite IHl; lra. Qed.
Lemma Rsum_ext : forall (F G : nat -> R) l, (forall i, In i l -> F i = G i) ->
  Rsum (map F l) = Rsum (map G l).
Proof.
  induction l as [|a l IH]; simpl; intros H; auto.
  rewrite (H a (or_introl eq_refl)), IH; auto.
Qed.
Lemma Rsum_abs : forall (F : nat -> R) l,
  Rabs (Rsum (map F l)) <= Rsum (map (fun i => Rabs (F i)) l).
Proof.
  induction l; simpl. { rewrite Rabs_R0; lra. }
  eapply Rle_trans; [apply Rabs_triang|]. lra.
Qed.
Lemma Rsum_nonneg : forall (F : nat -> R) l, (forall i, In i l -> 0 <= F i) ->
  0 <= Rsum (map F l).
Proof.
  induction l as [|a l IH]; simpl; intros H; [lra|].
  pose proof (H a (or_introl eq_refl)). specialize (IH (fun i Hi => H i (or_intror Hi))). lra.
Qed.
Lemma Rsum_swap : forall (F : nat -> nat -> R) l l',
  Rsum (map (fun i => Rsum (map (F i) l')) l) =
  Rsum (map (fun j => Rsum (map (fun i => F i j) l)) l').
Proof.
  intros F l l'. induction l; simpl.
  - induction l'; simpl; lra.
  - rewrite IHl, <- Rsum_plus. reflexivity.
Qed.

Lemma nrm_nonneg : forall n h, 0 <= nrm n h.
Proof. intros. apply Rsum_nonneg. intros. apply Rabs_pos. Qed.

Lemma nrm_coord : forall n h i, (i < n)%nat -> Rabs (h i) <= nrm n h.
Proof.
  intros n h i Hi. unfold nrm.
  assert (G : forall l, In i l -> Rabs (h i) <= Rsum (map (fun j => Rabs (h j)) l)).
  { induction l as [|a l IH]; simpl; [tauto|]. intros [->|I].
    - assert (0 <= Rsum (map (fun j => Rabs (h j)) l))
        by (apply Rsum_nonneg; intros; apply Rabs_pos). lra.
    - specialize (IH I). pose proof (Rabs_pos (h a)). lra. }
  apply G. apply in_seq. lia.
Qed.

Lemma dot_bound : forall n c h, Rabs (dot n c h) <= nrm n c * nrm n h.
Proof.
  intros. unfold dot. eapply Rle_trans; [apply Rsum_abs|].
  unfold nrm at 1. rewrite Rmult_comm, <- Rsum_scal. apply Rsum_le.
  intros i Hi. rewrite Rabs_mult. apply in_seq in Hi.
  pose proof (nrm_coord n h i). pose proof (Rabs_pos (c i)). rewrite Rmult_comm.
  apply Rmult_le_compat_r; auto. apply H. lia.
Qed.

(** Finitely many functions at once. *)
Lemma fdiff_all : forall n (Z : nat -> (nat -> R) -> option R) x0 gr m,
  (forall k, (k < m)%nat -> fdiff n (Z k) x0 (gr k)) ->
  forall eps, 0 < eps -> exists dlt, 0 < dlt /\
  forall x, nrm n (fun i => x i - x0 i) < dlt ->
  forall k, (k < m)%nat -> exists y0 y, Z k x0 = Some y0 /\ Z k x = Some y /\
    Rabs (y - y0 - dot n (gr k) (fun i => x i - x0 i)) <= eps * nrm n (fun i => x i - x0 i).
Proof.
  intros n Z x0 gr m. induction m as [|m IH]; intros H eps He.
  - exists 1. split; [lra|]. intros; lia.
  - destruct (IH (fun k Hk => H k (Nat.lt_lt_succ_r _ _ Hk)) eps He) as (d1 & P1 & H1).
    destruct (H m (Nat.lt_succ_diag_r m)) as (y0 & E0 & D).
    destruct (D eps He) as (d2 & P2 & H2).
    exists (Rmin d1 d2). split; [now apply Rmin_glb_lt|].
    intros x Hx k Hk.
    pose proof (Rmin_l d1 d2). pose proof (Rmin_r d1 d2).
    destruct (Nat.eq_dec k m) as [->|Hn].
    + destruct (H2 x) as (y & Ey & By); [lra|]. exists y0, y. auto.
    + apply H1; [lra|lia].
Qed.

Theorem fdiff_comp : forall m n (G : (nat -> R) -> option R) z0 c
  (Z : nat -> (nat -> R) -> option R) gr x0 (H : (nat -> R) -> option R),
  fdiff m G z0 c ->
  (forall k, (k < m)%nat -> fdiff n (Z k) x0 (gr k) /\ Z k x0 = Some (z0 k)) ->
  (exists dlt, 0 < dlt /\ forall x z, nrm n (fun i => x i - x0 i) < dlt ->
     (forall k, (k < m)%nat -> Z k x = Some (z k)) -> H x = G z) ->
  fdiff n H x0 (fun v => Rsum (map (fun k => c k * gr k v) (seq 0 m))).
Proof.
  intros m n G z0 c Z gr x0 H (g0 & EG & DG) HZ (dH & PH & HH).
  assert (N0 : nrm n (fun i => x0 i - x0 i) = 0).
  { unfold nrm. apply Rsum_zero. intros r Hr. apply in_map_iff in Hr.
    destruct Hr as (i & <- & _). replace (x0 i - x0 i) with 0 by lra. apply Rabs_R0. }
  exists g0. split.
  { rewrite (HH x0 z0); auto. { lra. } intros k Hk. apply HZ; auto. }
  intros eps He.
  set (L := Rsum (map (fun k => nrm n (gr k)) (seq 0 m))).
  assert (L0 : 0 <= L) by (apply Rsum_nonneg; intros; apply nrm_nonneg).
  set (K := INR m * (L + 1)).
  assert (K0 : 0 <= K) by (unfold K; apply Rmult_le_pos; [apply pos_INR|lra]).
  set (C := nrm m c). assert (C0 : 0 <= C) by apply nrm_nonneg.
  set (e2 := eps / (2 * (K + 1))).
  assert (E2 : 0 < e2) by (unfold e2; apply Rdiv_lt_0_compat; lra).
  set (e1 := Rmin 1 (eps / (2 * (C + 1)))).
  assert (E1 : 0 < e1).
  { unfold e1. apply Rmin_glb_lt; [lra|]. apply Rdiv_lt_0_compat; lra. }
  assert (E11 : e1 <= 1) by apply Rmin_l.
  assert (E12 : e1 <= eps / (2 * (C + 1))) by apply Rmin_r.
  destruct (DG e2 E2) as (dG & PG & BG).
  destruct (fdiff_all n Z x0 gr m (fun k Hk => proj1 (HZ k Hk)) e1 E1) as (dZ & PZ & BZ).
  exists (Rmin dH (Rmin dZ (dG / (K + 1)))). split.
  { repeat apply Rmin_glb_lt; auto. apply Rdiv_lt_0_compat; lra. }
  intros x Hx.
  set (h := fun i => x i - x0 i) in *.
  assert (Hn : 0 <= nrm n h) by apply nrm_nonneg.
  pose proof (Rmin_l dH (Rmin dZ (dG / (K + 1)))).
  pose proof (Rmin_r dH (Rmin dZ (dG / (K + 1)))).
  pose proof (Rmin_l dZ (dG / (K + 1))). pose proof (Rmin_r dZ (dG / (K + 1))).
  set (z := fun k => match Z k x with Some y => y | None => 0 end).
  assert (Bz : forall k, (k < m)%nat -> Z k x = Some (z k) /\
             Rabs (z k - z0 k - dot n (gr k) h) <= e1 * nrm n h).
  { intros k Hk. destruct (BZ x) with (k := k) as (y0 & y & A & B & D); auto. { unfold h in *. lra. }
    destruct (HZ k Hk) as (_ & A'). assert (y0 = z0 k) by congruence. subst y0.
    unfold z. rewrite B. split; auto. }
  assert (Bk : forall k, (k < m)%nat -> Rabs (z k - z0 k) <= (L + 1) * nrm n h).
  { intros k Hk. destruct (Bz k Hk) as [_ B].
    replace (z k - z0 k) with ((z k - z0 k - dot n (gr k) h) + dot n (gr k) h) by lra.
    eapply Rle_trans; [apply Rabs_triang|].
    pose proof (dot_bound n (gr k) h).
    assert (nrm n (gr k) <= L).
    { unfold L. pose proof (nrm_coord m (fun k => nrm n (gr k)) k Hk) as Q.
      unfold nrm at 2 in Q. rewrite Rabs_pos_eq in Q by apply nrm_nonneg.
      eapply Rle_trans; [exact Q|]. apply Rsum_le. intros i _.
      rewrite Rabs_pos_eq by apply nrm_nonneg. lra. }
    assert (nrm n (gr k) * nrm n h <= L * nrm n h) by (apply Rmult_le_compat_r; auto).
    assert (e1 * nrm n h <= 1 * nrm n h) by (apply Rmult_le_compat_r; auto).
    lra. }
  assert (Nz : nrm m (fun k => z k - z0 k) <= K * nrm n h).
  { unfold nrm at 1. eapply Rle_trans.
    - apply (Rsum_le _ (fun _ => (L + 1) * nrm n h)). intros k Hk. apply in_seq in Hk.
      apply Bk. lia.
    - unfold K. clear. 
      assert (Q : forall l, Rsum (map (fun _ : nat => (L + 1) * nrm n h) l)
                  = INR (length l) * ((L + 1) * nrm n h)).
      { induction l. { simpl; lra. } simpl length. rewrite S_INR. simpl. rewrite IHl. lra. }
      rewrite Q, seq_length. lra. }
  destruct (BG z) as (y & Ey & By).
  { eapply Rle_lt_trans; [exact Nz|].
    apply Rle_lt_trans with ((K + 1) * nrm n h); [nra|].
    apply Rlt_le_trans with ((K + 1) * (dG / (K + 1))).
    - apply Rmult_lt_compat_l; lra.
    - right. field. lra. }
  exists y. split. { rewrite (HH x z); auto. { unfold h in *; lra. } intros k Hk. apply Bz; auto. }
  assert (Split : dot n (fun v => Rsum (map (fun k => c k * gr k v) (seq 0 m))) h =
                  Rsum (map (fun k => c k * dot n (gr k) h) (seq 0 m))).
  { unfold dot.
    rewrite (Rsum_ext (fun i => Rsum (map (fun k => c k * gr k i) (seq 0 m)) * h i)
               (fun i => Rsum (map (fun k => c k * gr k i * h i) (seq 0 m)))).
    2:{ intros i _. rewrite Rmult_comm, <- Rsum_scal. apply Rsum_ext. intros; ring. }
    rewrite Rsum_swap. apply Rsum_ext. intros k _. rewrite <- Rsum_scal.
    apply Rsum_ext. intros; ring. }
  rewrite Split.
  replace (y - g0 - Rsum (map (fun k => c k * dot n (gr k) h) (seq 0 m)))
    with ((y - g0 - dot m c (fun k => z k - z0 k)) +
          dot m c (fun k => z k - z0 k - dot n (gr k) h)).
  2:{ unfold dot at 1 2.
      rewrite (Rsum_ext (fun i => c i * (z i - z0 i - dot n (gr i) h))
                 (fun i => c i * (z i - z0 i) + (-1) * (c i * dot n (gr i) h))).
      2:{ intros; ring. }
      rewrite Rsum_plus, Rsum_scal. lra. }
  eapply Rle_trans; [apply Rabs_triang|].
  assert (T1 : e2 * nrm m (fun k => z k - z0 k) <= eps / 2 * nrm n h).
  { apply Rle_trans with (e2 * (K * nrm n h)).
    - apply Rmult_le_compat_l; lra.
    - unfold e2. replace (eps / (2 * (K + 1)) * (K * nrm n h))
        with (eps / 2 * nrm n h * (K / (K + 1))) by (field; lra).
      rewrite <- (Rmult_1_r (eps / 2 * nrm n h)) at 2.
      apply Rmult_le_compat_l. { apply Rmult_le_pos; lra. }
      apply Rmult_le_reg_r with (K + 1); [lra|]. unfold Rdiv. rewrite Rmult_assoc, Rinv_l; lra. }
  assert (T2 : Rabs (dot m c (fun k => z k - z0 k - dot n (gr k) h)) <= eps / 2 * nrm n h).
  { unfold dot at 1. eapply Rle_trans; [apply Rsum_abs|].
    eapply Rle_trans.
    - apply (Rsum_le _ (fun k => (e1 * nrm n h) * Rabs (c k))). intros k Hk. apply in_seq in Hk.
      rewrite Rabs_mult, Rmult_comm. apply Rmult_le_compat_r; [apply Rabs_pos|].
      apply Bz. lia.
    - rewrite Rsum_scal. fold (nrm m c). fold C.
      apply Rle_trans with (eps / (2 * (C + 1)) * nrm n h * C).
      + apply Rmult_le_compat_r; auto. apply Rmult_le_compat_r; auto.
      + replace (eps / (2 * (C + 1)) * nrm n h * C)
          with (eps / 2 * nrm n h * (C / (C + 1))) by (field; lra).
        rewrite <- (Rmult_1_r (eps / 2 * nrm n h)) at 2.
        apply Rmult_le_compat_l. { apply Rmult_le_pos; lra. }
        apply Rmult_le_reg_r with (C + 1); [lra|]. unfold Rdiv. rewrite Rmult_assoc, Rinv_l; lra. }
  lra.
Qed.

Lemma fdiff_ext : forall n F x0 gr gr', (forall v, (v < n)%nat -> gr v = gr' v) ->
  fdiff n F x0 gr -> fdiff n F x0 gr'.
Proof.
  intros n F x0 gr gr' E (y0 & E0 & D). exists y0. split; auto. intros eps He.
  destruct (D eps He) as (d & P & B). exists d. split; auto. intros x Hx.
  destruct (B x Hx) as (y & Ey & By). exists y. split; auto.
  unfold dot in *. rewrite <- (Rsum_ext (fun i => gr i * (x i - x0 i))); auto.
  intros i Hi. apply in_seq in Hi. rewrite E; auto. lia.
Qed.

Lemma fdiff_local : forall n (F G : (nat -> R) -> option R) x0 gr,
  (exists d, 0 < d /\ forall x, nrm n (fun i => x i - x0 i) < d -> F x = G x) ->
  fdiff n F x0 gr -> fdiff n G x0 gr.
Proof.
  intros n F G x0 gr (d & Pd & E) (y0 & E0 & D).
  assert (N0 : nrm n (fun i => x0 i - x0 i) = 0).
  { unfold nrm. apply Rsum_zero. intros r Hr. apply in_map_iff in Hr.
    destruct Hr as (i & <- & _). replace (x0 i - x0 i) with 0 by lra. apply Rabs_R0. }
  exists y0. split. { rewrite <- E; auto. lra. }
  intros eps He. destruct (D eps He) as (d' & P & B).
  exists (Rmin d d'). split; [now apply Rmin_glb_lt|]. intros x Hx.
  pose proof (Rmin_l d d'). pose proof (Rmin_r d d').
  destruct (B x) as (y & Ey & By); [lra|]. exists y. split; auto. rewrite <- E; auto. lra.
Qed.

(** A coordinate. *)
Lemma fdiff_proj : forall n k x0, (k < n)%nat ->
  fdiff n (fun x => Some (x k)) x0 (fun v => if Nat.eqb v k then 1 else 0).
Proof.
  intros n k x0 Hk. exists (x0 k). split; auto. intros eps He. exists 1. split; [lra|].
  intros x _. exists (x k). split; auto.
  assert (E : dot n (fun v => if Nat.eqb v k then 1 else 0) (fun i => x i - x0 i) = x k - x0 k).
  { unfold dot. assert (G : forall l, NoDup l -> In k l ->
      Rsum (map (fun i => (if Nat.eqb i k then 1 else 0) * (x i - x0 i)) l) = x k - x0 k).
    { induction l as [|a l IH]; simpl; [tauto|]. intros ND I. inversion ND; subst.
      destruct (Nat.eqb_spec a k) as [->|Hn].
      - rewrite (Rsum_zero _); [lra|]. intros r Hr. apply in_map_iff in Hr.
        destruct Hr as (i & <- & Hi). destruct (Nat.eqb_spec i k); [congruence|lra].
      - destruct I as [->|I]; [congruence|]. rewrite IH; auto. lra. }
    apply G. apply seq_NoDup. apply in_seq. lia. }
  rewrite E. replace (x k - x0 k - (x k - x0 k)) with 0 by lra. rewrite Rabs_R0.
  apply Rmult_le_pos; [lra|apply nrm_nonneg].
Qed.

(** Link with derivatives of functions of one real variable. *)
Lemma nrm_upd : forall n x0 v t, (v < n)%nat ->
  nrm n (fun i => upd x0 v t i - x0 i) = Rabs (t - x0 v).
Proof.
  intros n x0 v t Hv. unfold nrm, upd.
  assert (G : forall l, NoDup l -> In v l ->
    Rsum (map (fun i => Rabs ((if Nat.eqb i v then t else x0 i) - x0 i)) l) = Rabs (t - x0 v)).
  { induction l as [|a l IH]; simpl; [tauto|]. intros ND I. inversion ND; subst.
    destruct (Nat.eqb_spec a v) as [->|Hn].
    - rewrite (Rsum_zero _); [lra|]. intros r Hr. apply in_map_iff in Hr.
      destruct Hr as (i & <- & Hi). destruct (Nat.eqb_spec i v); [congruence|].
      replace (x0 i - x0 i) with 0 by lra. apply Rabs_R0.
    - destruct I as [->|I]; [congruence|]. rewrite IH; auto.
      replace (x0 a - x0 a) with 0 by lra. rewrite Rabs_R0. lra. }
  apply G. apply seq_NoDup. apply in_seq. lia.
Qed.
Lemma dot_upd : forall n gr x0 v t, (v < n)%nat ->
  dot n gr (fun i => upd x0 v t i - x0 i) = gr v * (t - x0 v).
Proof.
  intros n gr x0 v t Hv. unfold dot, upd.
  assert (G : forall l, NoDup l -> In v l ->
    Rsum (map (fun i => gr i * ((if Nat.eqb i v then t else x0 i) - x0 i)) l)
    = gr v * (t - x0 v)).
  { induction l as [|a l IH]; simpl; [tauto|]. intros ND I. inversion ND; subst.
    destruct (Nat.eqb_spec a v) as [->|Hn].
    - rewrite (Rsum_zero _); [lra|]. intros r Hr. apply in_map_iff in Hr.
      destruct Hr as (i & <- & Hi). destruct (Nat.eqb_spec i v); [congruence|]. ring.
    - destruct I as [->|I]; [congruence|]. rewrite IH; auto. ring. }
  apply G. apply seq_NoDup. apply in_seq. lia.
Qed.

(** The usual definition of a derivative, from the 1-variable inequality. *)
Lemma is_derive_eps : forall (f : R -> R) x l,
  (forall eps, 0 < eps -> exists d, 0 < d /\ forall t, Rabs (t - x) < d ->
     Rabs (f t - f x - l * (t - x)) <= eps * Rabs (t - x)) -> is_derive f x l.
Proof.
  intros f x l H. apply is_derive_Reals. intros eps He.
  destruct (H (eps / 2)) as (d & Pd & B); [lra|].
  exists (mkposreal d Pd). intros h Hh0 Hh. simpl in Hh.
  specialize (B (x + h)). replace (x + h - x) with h in B by lra. specialize (B Hh).
  replace ((f (x + h) - f x) / h - l) with ((f (x + h) - f x - l * h) / h) by (field; auto).
  unfold Rdiv. rewrite Rabs_mult, Rabs_inv.
  assert (0 < Rabs h) by now apply Rabs_pos_lt.
  apply Rle_lt_trans with (eps / 2 * Rabs h * / Rabs h).
  - apply Rmult_le_compat_r; auto. left. now apply Rinv_0_lt_compat.
  - rewrite Rmult_assoc, Rinv_r; lra.
Qed.
Lemma eps_is_derive : forall (f : R -> R) x l, is_derive f x l ->
  forall eps, 0 < eps -> exists d, 0 < d /\ forall t, Rabs (t - x) < d ->
     Rabs (f t - f x - l * (t - x)) <= eps * Rabs (t - x).
Proof.
  intros f x l H eps He. apply is_derive_Reals in H. destruct (H eps He) as (d & B).
  exists d. split; [apply cond_pos|]. intros t Ht.
  destruct (Req_dec t x) as [->|Hn].
  - replace (x - x) with 0 by lra. rewrite Rmult_0_r, Rabs_R0, Rmult_0_r.
    replace (f x - f x - 0) with 0 by lra. rewrite Rabs_R0. lra.
  - assert (Hh : t - x <> 0) by lra. specialize (B (t - x) Hh Ht).
    replace (x + (t - x)) with t in B by lra.
    replace (f t - f x - l * (t - x)) with (((f t - f x) / (t - x) - l) * (t - x))
      by (field; auto).
    rewrite Rabs_mult. apply Rmult_le_compat_r; [apply Rabs_pos|]. lra.
Qed.

(** A gradient gives the partial derivatives. *)
Theorem fdiff_partial : forall n F x0 gr v, fdiff n F x0 gr -> (v < n)%nat ->
  is_derive (fun t => match F (upd x0 v t) with Some y => y | None => 0 end) (x0 v) (gr v).
Proof.
  intros n F x0 gr v (y0 & E0 & D) Hv. apply is_derive_eps. intros eps He.
  destruct (D eps He) as (d & Pd & B). exists d. split; auto. intros t Ht.
  destruct (B (upd x0 v t)) as (y & Ey & By). { now rewrite nrm_upd. }
  destruct (B (upd x0 v (x0 v))) as (y1 & Ey1 & By1).
  { rewrite nrm_upd by auto. replace (x0 v - x0 v) with 0 by lra. now rewrite Rabs_R0. }
  rewrite nrm_upd, dot_upd in By1 by auto. replace (x0 v - x0 v) with 0 in By1 by lra.
  rewrite Rmult_0_r, Rabs_R0, Rmult_0_r in By1.
  assert (y1 = y0).
  { pose proof (Rabs_pos (y1 - y0 - 0)).
    assert (Rabs (y1 - y0 - 0) = 0) by lra.
    destruct (Req_dec (y1 - y0 - 0) 0); [lra|]. apply Rabs_no_R0 in H1. lra. }
  subst y1. rewrite Ey, Ey1. rewrite nrm_upd, dot_upd in By by auto. exact By.
Qed.

(** A function of one real variable, as a function of one coordinate. *)
Theorem fdiff_1 : forall (f : R -> R) (F : (nat -> R) -> option R) x0 c,
  is_derive f (x0 0%nat) (c 0%nat) ->
  (exists d, 0 < d /\ forall z, Rabs (z 0%nat - x0 0%nat) < d -> F z = Some (f (z 0%nat))) ->
  fdiff 1 F x0 c.
Proof.
  intros f F x0 c H (d0 & P0 & E0).
  exists (f (x0 0%nat)). split.
  { apply E0. replace (x0 0%nat - x0 0%nat) with 0 by lra. now rewrite Rabs_R0. }
  intros eps He. destruct (eps_is_derive _ _ _ H eps He) as (d & Pd & B).
  exists (Rmin d0 d). split; [now apply Rmin_glb_lt|].
  intros x. unfold nrm, dot. simpl. rewrite !Rplus_0_r. intros Hx.
  pose proof (Rmin_l d0 d). pose proof (Rmin_r d0 d).
  exists (f (x 0%nat)). split; [apply E0; lra|]. apply B. lra.
Qed.
