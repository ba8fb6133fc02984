(** Matrices of real numbers: algebra, and derivatives of inverses and pseudo-inverses. *)
From Coq Require Import ZArith List Bool Reals Lra Lia Arith FunctionalExtensionality.
From Coquelicot Require Import Coquelicot.
From Verif Require Import CovSpec CovProofs UnumpySpec.
Local Open Scope R_scope.

(** ** Algebra *)
Definition msub (A B : mx) : mx := fun i j => A i j - B i j.
Definition mopp (A : mx) : mx := fun i j => - A i j.

Lemma Sum_scal_r : forall n c F, Sum n (fun i => F i * c) = Sum n F * c.
Proof. intros. rewrite Rmult_comm, <- Sum_scal. apply Sum_ext. intros. ring. Qed.
Lemma Sum_minus : forall n F G, Sum n (fun i => F i - G i) = Sum n F - Sum n G.
Proof. induction n; intros; [cbn; lra|]. rewrite !Sum_S, IHn. lra. Qed.
Lemma Sum_opp : forall n F, Sum n (fun i => - F i) = - Sum n F.
Proof. induction n; intros; [cbn; lra|]. rewrite !Sum_S, IHn. lra. Qed.

Lemma mprod_assoc : forall m n A B C, mprod n (mprod m A B) C = mprod m A (mprod n B C).
Proof.
  intros m n A B C. extensionality i. extensionality j. unfold mprod.
  transitivity (Sum n (fun k => Sum m (fun l => A i l * B l k * C k j))).
  { apply Sum_ext. intros k _. now rewrite Sum_scal_r. }
  rewrite Sum_swap. apply Sum_ext. intros l _. rewrite <- Sum_scal. apply Sum_ext. intros k _. ring.
Qed.
Lemma mtr_mprod : forall k A B, mtr (mprod k A B) = mprod k (mtr B) (mtr A).
Proof. intros. extensionality i. extensionality j. unfold mtr, mprod. apply Sum_ext. intros. ring. Qed.
Lemma mtr_mtr : forall A, mtr (mtr A) = A.
Proof. reflexivity. Qed.
Lemma mprod_sub_l : forall n A B C i j, mprod n (msub A B) C i j = mprod n A C i j - mprod n B C i j.
Proof. intros. unfold mprod, msub. rewrite <- Sum_minus. apply Sum_ext. intros. ring. Qed.
Lemma mprod_sub_r : forall n A B C i j, mprod n A (msub B C) i j = mprod n A B i j - mprod n A C i j.
Proof. intros. unfold mprod, msub. rewrite <- Sum_minus. apply Sum_ext. intros. ring. Qed.
Lemma mprod_msub_l : forall n A B C, mprod n (msub A B) C = msub (mprod n A C) (mprod n B C).
Proof. intros. extensionality i. extensionality j. apply mprod_sub_l. Qed.
Lemma mprod_msub_r : forall n A B C, mprod n A (msub B C) = msub (mprod n A B) (mprod n A C).
Proof. intros. extensionality i. extensionality j. apply mprod_sub_r. Qed.
Lemma mtr_msub : forall A B, mtr (msub A B) = msub (mtr A) (mtr B).
Proof. reflexivity. Qed.
Lemma mprod_opp_l : forall n A B, mprod n (mopp A) B = mopp (mprod n A B).
Proof. intros. extensionality i. extensionality j. unfold mprod, mopp. rewrite <- Sum_opp. apply Sum_ext. intros. ring. Qed.

Lemma mprod_meq : forall m k n A A' B B', meq m k A A' -> meq k n B B' -> meq m n (mprod k A B) (mprod k A' B').
Proof. intros m k n A A' B B' H1 H2 i j Hi Hj. unfold mprod. apply Sum_ext. intros l Hl. rewrite H1, H2; auto. Qed.
Lemma mprod_kron_l : forall m n A, meq m n (mprod m kron A) A.
Proof. intros m n A i j Hi _. unfold mprod. now rewrite Sum_kron. Qed.
Lemma mprod_kron_r : forall m n A, meq m n (mprod n A kron) A.
Proof.
  intros m n A i j _ Hj. unfold mprod. rewrite (Sum_one n j); auto.
  - rewrite kron_same. ring.
  - intros k _ Hk. unfold kron. destruct (Nat.eqb_spec k j); [contradiction|ring].
Qed.

(** Restriction to the elements of an m x n matrix. *)
Definition cut (m n : nat) (A : mx) : mx := fun i j => if (i <? m)%nat && (j <? n)%nat then A i j else 0.
Lemma cut_meq : forall m n A, meq m n (cut m n A) A.
Proof.
  intros m n A i j Hi Hj. unfold cut. apply Nat.ltb_lt in Hi, Hj. now rewrite Hi, Hj.
Qed.
Lemma meq_cut : forall m n A B, meq m n A B -> cut m n A = cut m n B.
Proof.
  intros m n A B H. extensionality i. extensionality j. unfold cut.
  destruct (Nat.ltb_spec i m) as [Hi|Hi]; cbn [andb]; [|reflexivity].
  destruct (Nat.ltb_spec j n) as [Hj|Hj]; [exact (H i j Hi Hj)|reflexivity].
Qed.
Lemma meq_sym : forall m n A B, meq m n A B -> meq m n B A.
Proof. intros m n A B H i j Hi Hj. symmetry. auto. Qed.
Lemma meq_trans : forall m n A B C, meq m n A B -> meq m n B C -> meq m n A C.
Proof. intros m n A B C H H' i j Hi Hj. rewrite H; auto. Qed.
Lemma mprod_cut : forall m k n A B, mprod k (cut m k A) (cut k n B) = cut m n (mprod k A B).
Proof.
  intros m k n A B. extensionality i. extensionality j. unfold cut, mprod.
  destruct (i <? m)%nat; cbn [andb].
  - destruct (j <? n)%nat.
    + apply Sum_ext. intros l Hl. apply Nat.ltb_lt in Hl. rewrite Hl. reflexivity.
    + apply Sum_zero. intros l _. rewrite andb_false_r. ring.
  - apply Sum_zero. intros l _. ring.
Qed.
Lemma mtr_cut : forall m n A, mtr (cut m n A) = cut n m (mtr A).
Proof.
  intros m n A. extensionality i. extensionality j. unfold mtr, cut. now rewrite andb_comm.
Qed.

(** ** The difference of two inverses *)
Lemma inverse_difference : forall n A0 A1 B0 B1, is_inverse n A0 B0 -> is_inverse n A1 B1 ->
  meq n n (msub B1 B0) (mopp (mprod n (mprod n B1 (msub A1 A0)) B0)).
Proof.
  intros n A0 A1 B0 B1 [H0 _] [_ H1] i j Hi Hj. unfold mopp.
  rewrite mprod_msub_r, mprod_sub_l. unfold msub.
  rewrite (mprod_meq n n n _ kron B0 B0 H1) by (auto; intros ? ? _ _; reflexivity).
  rewrite mprod_assoc. rewrite (mprod_meq n n n B1 B1 _ kron) with (2 := H0) by (auto; intros ? ? _ _; reflexivity).
  rewrite (mprod_kron_l n n), (mprod_kron_r n n) by auto. ring.
Qed.

(** ** The difference of two pseudo-inverses *)
Lemma pinv_difference_cut : forall m n A0 A1 P0 P1,
  (forall A P, (A = A0 /\ P = P0) \/ (A = A1 /\ P = P1) ->
     mprod m (mprod n A P) A = A /\ mprod n (mprod m P A) P = P /\
     mtr (mprod n A P) = mprod n A P /\ mtr (mprod m P A) = mprod m P A) ->
  let E := msub A1 A0 in
  forall i j, P1 i j - P0 i j =
    - mprod n (mprod m P1 E) P0 i j
    + (mprod n (mprod m P1 (mtr P1)) (mtr E) i j
       - mprod m (mprod n (mprod m P1 (mtr P1)) (mtr E)) (mprod n A0 P0) i j)
    + (mprod n (mprod m (mtr E) (mtr P0)) P0 i j
       - mprod n (mprod m P1 A1) (mprod n (mprod m (mtr E) (mtr P0)) P0) i j).
Proof.
  intros m n A0 A1 P0 P1 H E i j.
  destruct (H A0 P0) as (Ha & Hb & Hc & Hd); auto. destruct (H A1 P1) as (Ka & Kb & Kc & Kd); auto. clear H.
  assert (F1 : mprod n (mprod m P1 (mtr P1)) (mtr A1) = P1).
  { rewrite mprod_assoc, <- mtr_mprod, Kc, <- mprod_assoc. exact Kb. }
  assert (F2 : mprod n (mprod m (mtr A0) (mtr P0)) P0 = P0).
  { rewrite <- mtr_mprod, Hd. exact Hb. }
  assert (F3 : mprod m (mtr A0) (mprod n A0 P0) = mtr A0).
  { rewrite <- Hc at 1. rewrite <- mtr_mprod. now rewrite Ha. }
  assert (F4 : mprod n (mprod m P1 A1) (mtr A1) = mtr A1).
  { rewrite <- Kd. rewrite <- mtr_mprod. rewrite <- mprod_assoc. now rewrite Ka. }
  unfold E. rewrite !mtr_msub. repeat first [rewrite mprod_msub_r|rewrite mprod_msub_l]. unfold msub.
  rewrite F1, F2.
  replace (mprod m (mprod n (mprod m P1 (mtr P1)) (mtr A0)) (mprod n A0 P0)) with (mprod n (mprod m P1 (mtr P1)) (mtr A0)).
  2:{ rewrite (mprod_assoc n m (mprod m P1 (mtr P1))). now rewrite F3. }
  replace (mprod n (mprod m P1 A1) (mprod n (mprod m (mtr A1) (mtr P0)) P0)) with (mprod n (mprod m (mtr A1) (mtr P0)) P0).
  2:{ rewrite !(mprod_assoc _ _ (mtr A1)), <- (mprod_assoc n m (mprod m P1 A1)), F4. reflexivity. }
  rewrite (mprod_assoc m n P1 A0 P0). ring.
Qed.

(** The derivative of the pseudo-inverse P of an m x n matrix A for the derivative E of A. *)
Definition pinv_terms (m n : nat) (A P0 P E Q : mx) : mx := fun i j =>
    - mprod n (mprod m P E) P0 i j
    + (mprod n (mprod m P (mtr P)) (mtr E) i j
       - mprod m (mprod n (mprod m P (mtr P)) (mtr E)) (mprod n A P0) i j)
    + (mprod n (mprod m (mtr E) (mtr P0)) P0 i j
       - mprod n Q (mprod n (mprod m (mtr E) (mtr P0)) P0) i j).

Lemma meq_refl : forall m n A, meq m n A A.
Proof. intros m n A i j _ _. reflexivity. Qed.
Lemma mtr_meq : forall m n A B, meq m n A B -> meq n m (mtr A) (mtr B).
Proof. intros m n A B H i j Hi Hj. unfold mtr. auto. Qed.

Lemma pinv_cut : forall m n A P, is_pinv m n A P ->
  let A' := cut m n A in let P' := cut n m P in
  mprod m (mprod n A' P') A' = A' /\ mprod n (mprod m P' A') P' = P' /\
  mtr (mprod n A' P') = mprod n A' P' /\ mtr (mprod m P' A') = mprod m P' A'.
Proof.
  intros m n A P (H1 & H2 & H3 & H4) A' P'. unfold A', P'.
  rewrite !mprod_cut, !mtr_cut. repeat split; apply meq_cut; auto.
Qed.
Lemma pinv_difference : forall m n A0 A1 P0 P1, is_pinv m n A0 P0 -> is_pinv m n A1 P1 ->
  meq n m (msub P1 P0) (pinv_terms m n A0 P0 P1 (msub A1 A0) (mprod m P1 A1)).
Proof.
  intros m n A0 A1 P0 P1 H0 H1 i j Hi Hj.
  pose proof (pinv_difference_cut m n (cut m n A0) (cut m n A1) (cut n m P0) (cut n m P1)) as D. cbn zeta in D.
  assert (E : msub (cut m n A1) (cut m n A0) = cut m n (msub A1 A0)).
  { extensionality a. extensionality b. unfold msub, cut. destruct ((a <? m)%nat && (b <? n)%nat); ring. }
  rewrite E in D. rewrite !mtr_cut, !mprod_cut in D.
  assert (X : forall A P, A = cut m n A0 /\ P = cut n m P0 \/ A = cut m n A1 /\ P = cut n m P1 ->
     mprod m (mprod n A P) A = A /\ mprod n (mprod m P A) P = P /\
     mtr (mprod n A P) = mprod n A P /\ mtr (mprod m P A) = mprod m P A).
  { intros A P [[-> ->]|[-> ->]]; now apply pinv_cut. }
  specialize (D X i j). clear X E.
  rewrite !(cut_meq n m) in D by auto. unfold msub at 1, pinv_terms. exact D.
Qed.

(** ** Limits *)
Lemma derive_lim : forall (f : R -> R) t l,
  is_derive f t l <-> is_lim (fun h => (f (t + h) - f t) / h) 0 l.
Proof.
  intros f t l. rewrite is_derive_Reals. unfold derivable_pt_lim. split.
  - intros H. apply is_lim_spec. intros [eps He]. destruct (H eps He) as [d Hd].
    exists d. intros y Hy Hn. cbn in *. apply Hd; auto.
    unfold ball in Hy; cbn in Hy; unfold AbsRing_ball, abs, minus, plus, opp in Hy; cbn in Hy.
    replace (y + - 0) with y in Hy by ring. exact Hy.
  - intros H eps He. apply is_lim_spec in H. destruct (H (mkposreal eps He)) as [d Hd].
    exists d. intros y Hn Hy. apply (Hd y); auto.
    unfold ball; cbn; unfold AbsRing_ball, abs, minus, plus, opp; cbn.
    replace (y + - 0) with y by ring. exact Hy.
Qed.

Lemma lim_eq : forall f (a b : R), a = b -> is_lim f 0 a -> is_lim f 0 b.
Proof. now intros f a b ->. Qed.
Lemma lim_Sum : forall n (F : nat -> R -> R) (L : nat -> R), (forall k, (k < n)%nat -> is_lim (F k) 0 (L k)) ->
  is_lim (fun h => Sum n (fun k => F k h)) 0 (Sum n L).
Proof.
  induction n; intros F L H.
  - apply is_lim_ext with (fun _ => 0); [reflexivity|]. apply is_lim_const.
  - apply is_lim_ext with (fun h => Sum n (fun k => F k h) + F n h). { intros; now rewrite Sum_S. }
    rewrite Sum_S. apply (is_lim_plus _ _ _ (Sum n L) (L n)); auto. cbn. reflexivity.
Qed.
Lemma lim_mult : forall f g (a b : R), is_lim f 0 a -> is_lim g 0 b -> is_lim (fun h => f h * g h) 0 (a * b).
Proof. intros. apply (is_lim_mult _ _ _ a b); auto. reflexivity. Qed.
Lemma lim_plus : forall f g (a b : R), is_lim f 0 a -> is_lim g 0 b -> is_lim (fun h => f h + g h) 0 (a + b).
Proof. intros. apply (is_lim_plus _ _ _ a b); auto. reflexivity. Qed.
Lemma lim_minus : forall f g (a b : R), is_lim f 0 a -> is_lim g 0 b -> is_lim (fun h => f h - g h) 0 (a - b).
Proof. intros. apply (is_lim_minus _ _ _ a b); auto. reflexivity. Qed.
Lemma lim_opp : forall f (a : R), is_lim f 0 a -> is_lim (fun h => - f h) 0 (- a).
Proof. intros. apply (is_lim_opp _ _ a); auto. Qed.

(** A matrix that depends on h tends to a matrix. *)
Definition mlim (m n : nat) (F : R -> mx) (L : mx) : Prop :=
  forall i j, (i < m)%nat -> (j < n)%nat -> is_lim (fun h => F h i j) 0 (L i j).
Lemma mlim_const : forall m n A, mlim m n (fun _ => A) A.
Proof. intros m n A i j _ _. apply is_lim_const. Qed.
Lemma mlim_prod : forall m k n F G A B, mlim m k F A -> mlim k n G B ->
  mlim m n (fun h => mprod k (F h) (G h)) (mprod k A B).
Proof.
  intros m k n F G A B HF HG i j Hi Hj. unfold mprod. apply lim_Sum. intros l Hl. apply lim_mult; auto.
Qed.
Lemma mlim_tr : forall m n F A, mlim m n F A -> mlim n m (fun h => mtr (F h)) (mtr A).
Proof. intros m n F A H i j Hi Hj. unfold mtr. auto. Qed.

(** Matrices that depend on a parameter. *)
Definition at_ (F : nat -> nat -> R -> R) (t : R) : mx := fun i j => F i j t.
Definition quotient (F : nat -> nat -> R -> R) (t h : R) : mx := fun i j => (F i j (t + h) - F i j t) / h.

Lemma near0 : forall t (P : R -> Prop), locally t P -> Rbar_locally' 0 (fun h => P (t + h)).
Proof.
  intros t P [d H]. exists d. intros y Hy _. apply H.
  unfold ball in *; cbn in *; unfold AbsRing_ball, abs, minus, plus, opp in *; cbn in *.
  replace (t + y + - t) with (y + - 0) by ring. exact Hy.
Qed.
Lemma nonzero0 : Rbar_locally' 0 (fun h => h <> 0).
Proof. exists (mkposreal 1 Rlt_0_1). auto. Qed.

Lemma lim_increment : forall f t l, is_derive f t l -> is_lim (fun h => f (t + h) - f t) 0 0.
Proof.
  intros f t l H. apply derive_lim in H.
  apply is_lim_ext_loc with (fun h => (f (t + h) - f t) / h * h).
  { generalize nonzero0. apply filter_imp. intros h Hh. now field. }
  apply (lim_eq _ (l * 0)); [ring|]. apply lim_mult; auto. apply is_lim_id.
Qed.

Lemma Sum_abs : forall n F, Rabs (Sum n F) <= Sum n (fun i => Rabs (F i)).
Proof.
  induction n; intros F. { cbn. rewrite Rabs_R0. lra. }
  rewrite !Sum_S. eapply Rle_trans; [apply Rabs_triang|]. specialize (IHn F). lra.
Qed.
Lemma Sum_le : forall n F G, (forall i, (i < n)%nat -> F i <= G i) -> Sum n F <= Sum n G.
Proof.
  induction n; intros F G H; [cbn; lra|]. rewrite !Sum_S. specialize (IHn F G). specialize (H n) as Hn.
  assert (Sum n F <= Sum n G) by (apply IHn; auto). specialize (Hn (Nat.lt_succ_diag_r n)). lra.
Qed.
Lemma Sum_ge_term : forall n F i, (i < n)%nat -> (forall k, 0 <= F k) -> F i <= Sum n F.
Proof.
  induction n; intros F i Hi H; [lia|]. rewrite Sum_S. destruct (Nat.eq_dec i n) as [->|].
  - assert (0 <= Sum n F) by (apply Sum_nonneg; auto). lra.
  - specialize (IHn F i). assert (F i <= Sum n F) by (apply IHn; auto; lia). specialize (H n). lra.
Qed.
Lemma Sum_const : forall n c, Sum n (fun _ => c) = INR n * c.
Proof. induction n; intros; [cbn; lra|]. rewrite Sum_S, IHn, S_INR. lra. Qed.

(** The inverse is continuous. *)
Lemma inverse_bound : forall n A0 A1 B0 B1, is_inverse n A0 B0 -> is_inverse n A1 B1 ->
  let D := Sum n (fun k => Sum n (fun l => Rabs (A1 k l - A0 k l))) in
  let g := Sum n (fun k => Sum n (fun l => Rabs (B0 k l))) in
  INR n * (D * g) <= / 2 ->
  forall i j, (i < n)%nat -> (j < n)%nat -> Rabs (B1 i j - B0 i j) <= 2 * g * (D * g).
Proof.
  intros n A0 A1 B0 B1 H0 H1 D g Hs i j Hi Hj.
  set (a := Sum n (fun k => Rabs (B1 i k))).
  assert (Pa : 0 <= a) by (apply Sum_nonneg; intros; apply Rabs_pos).
  assert (PD : 0 <= D) by (apply Sum_nonneg; intros; apply Sum_nonneg; intros; apply Rabs_pos).
  assert (Pg : 0 <= g) by (apply Sum_nonneg; intros; apply Sum_nonneg; intros; apply Rabs_pos).
  assert (Hg : forall l k, (l < n)%nat -> (k < n)%nat -> Rabs (B0 l k) <= g).
  { intros l k Hl Hk. unfold g. eapply Rle_trans.
    - apply (Sum_ge_term n (fun k => Rabs (B0 l k)) k Hk). intros; apply Rabs_pos.
    - apply (Sum_ge_term n (fun l => Sum n (fun k => Rabs (B0 l k))) l Hl).
      intros; apply Sum_nonneg; intros; apply Rabs_pos. }
  assert (B : forall k, (k < n)%nat -> Rabs (B1 i k - B0 i k) <= a * (D * g)).
  { intros k Hk. change (B1 i k - B0 i k) with (msub B1 B0 i k).
    rewrite (inverse_difference n A0 A1 B0 B1 H0 H1 i k Hi Hk). unfold mopp. rewrite Rabs_Ropp. unfold mprod.
    eapply Rle_trans; [apply Sum_abs|].
    apply Rle_trans with (Sum n (fun l => Sum n (fun p => a * g * Rabs (A1 p l - A0 p l)))).
    - apply Sum_le. intros l Hl. rewrite Rabs_mult.
      apply Rle_trans with (Sum n (fun p => Rabs (B1 i p * msub A1 A0 p l)) * Rabs (B0 l k)).
      { apply Rmult_le_compat_r; [apply Rabs_pos|apply Sum_abs]. }
      rewrite <- Sum_scal_r. apply Sum_le. intros p Hp. rewrite Rabs_mult. unfold msub.
      assert (X1 : Rabs (B1 i p) <= a) by (apply (Sum_ge_term n (fun k => Rabs (B1 i k)) p Hp); intros; apply Rabs_pos).
      pose proof (Hg l k Hl Hk) as X2. pose proof (Rabs_pos (A1 p l - A0 p l)). pose proof (Rabs_pos (B0 l k)).
      pose proof (Rabs_pos (B1 i p)).
      replace (a * g * Rabs (A1 p l - A0 p l)) with (a * Rabs (A1 p l - A0 p l) * g) by ring.
      apply Rmult_le_compat; auto. { now apply Rmult_le_pos. } apply Rmult_le_compat_r; auto.
    - rewrite Sum_swap. right. unfold D.
      rewrite (Sum_ext n _ (fun p => a * g * Sum n (fun l => Rabs (A1 p l - A0 p l)))) by (intros; apply Sum_scal).
      rewrite Sum_scal. ring. }
  assert (Ha : a <= 2 * g).
  { assert (a <= Sum n (fun k => Rabs (B0 i k)) + INR n * (a * (D * g))).
    { unfold a at 1. rewrite <- Sum_const, <- Sum_plus. apply Sum_le. intros k Hk. specialize (B k Hk).
      replace (B1 i k) with (B0 i k + (B1 i k - B0 i k)) by ring. eapply Rle_trans; [apply Rabs_triang|]. lra. }
    assert (Sum n (fun k => Rabs (B0 i k)) <= g).
    { apply (Sum_ge_term n (fun l => Sum n (fun k => Rabs (B0 l k))) i Hi). intros; apply Sum_nonneg; intros; apply Rabs_pos. }
    assert (INR n * (a * (D * g)) <= a * / 2).
    { replace (INR n * (a * (D * g))) with (a * (INR n * (D * g))) by ring. apply Rmult_le_compat_l; auto. }
    lra. }
  specialize (B j Hj). eapply Rle_trans; [exact B|]. apply Rmult_le_compat_r; auto.
  apply Rmult_le_pos; auto.
Qed.

Lemma inverse_continuous : forall n (F G : nat -> nat -> R -> R) (t : R) (dA : mx),
  (forall i j, (i < n)%nat -> (j < n)%nat -> is_derive (F i j) t (dA i j)) ->
  locally t (fun s => is_inverse n (at_ F s) (at_ G s)) ->
  mlim n n (fun h => at_ G (t + h)) (at_ G t).
Proof.
  intros n F G t dA HF HI i j Hi Hj.
  pose proof (locally_singleton _ _ HI) as I0. apply near0 in HI.
  set (g := Sum n (fun k => Sum n (fun l => Rabs (at_ G t k l)))).
  set (D := fun h => Sum n (fun k => Sum n (fun l => Rabs (F k l (t + h) - F k l t)))).
  assert (LD : is_lim D 0 0).
  { unfold D. apply (lim_eq _ (Sum n (fun k => Sum n (fun l => 0)))).
    { apply Sum_zero. intros. now apply Sum_zero. }
    apply lim_Sum. intros k Hk. apply lim_Sum. intros l Hl.
    apply (lim_eq _ (Rabs 0)); [apply Rabs_R0|].
    apply (is_lim_comp_continuous (fun h => F k l (t + h) - F k l t) Rabs 0 0); [|apply continuous_Rabs]. now apply (lim_increment _ _ (dA k l)), HF. }
  assert (L1 : is_lim (fun h => INR n * (D h * g)) 0 0).
  { apply (lim_eq _ (INR n * (0 * g))); [ring|].
    apply lim_mult; [apply is_lim_const|]. apply lim_mult; auto. apply is_lim_const. }
  assert (L2 : is_lim (fun h => 2 * g * (D h * g)) 0 0).
  { apply (lim_eq _ (2 * g * (0 * g))); [ring|].
    apply lim_mult; [apply is_lim_const|]. apply lim_mult; auto. apply is_lim_const. }
  assert (SM : Rbar_locally' 0 (fun h => INR n * (D h * g) <= / 2)).
  { apply is_lim_spec in L1. assert (Hp : 0 < / 2) by lra. destruct (L1 (mkposreal _ Hp)) as [d Hd].
    exists d. intros y Hy Hn. specialize (Hd y Hy Hn). cbn in Hd. rewrite Rminus_0_r in Hd.
    apply Rabs_def2 in Hd. lra. }
  assert (BD : Rbar_locally' 0 (fun h => Rabs (at_ G (t + h) i j - at_ G t i j) <= 2 * g * (D h * g))).
  { generalize (filter_and _ _ HI SM). apply filter_imp. intros h [I1 S].
    exact (inverse_bound n (at_ F t) (at_ F (t + h)) (at_ G t) (at_ G (t + h)) I0 I1 S i j Hi Hj). }
  apply is_lim_le_le_loc with (f := fun h => at_ G t i j - 2 * g * (D h * g)) (g := fun h => at_ G t i j + 2 * g * (D h * g)).
  - revert BD. apply filter_imp. intros h Hh. apply Rabs_le_between in Hh. lra.
  - apply (lim_eq _ (at_ G t i j - 0)); [ring|]. apply lim_minus; auto. apply is_lim_const.
  - apply (lim_eq _ (at_ G t i j + 0)); [ring|]. apply lim_plus; auto. apply is_lim_const.
Qed.

(** The derivative of the inverse. *)
Theorem inverse_derivative : forall n (F G : nat -> nat -> R -> R) (t : R) (dA : mx),
  (forall i j, (i < n)%nat -> (j < n)%nat -> is_derive (F i j) t (dA i j)) ->
  locally t (fun s => is_inverse n (at_ F s) (at_ G s)) ->
  forall i j, (i < n)%nat -> (j < n)%nat ->
    is_derive (G i j) t (- mprod n (mprod n (at_ G t) dA) (at_ G t) i j).
Proof.
  intros n F G t dA HF HI i j Hi Hj. pose proof (inverse_continuous n F G t dA HF HI) as C.
  pose proof (locally_singleton _ _ HI) as I0. apply near0 in HI.
  apply derive_lim.
  apply is_lim_ext_loc with (fun h => - mprod n (mprod n (at_ G (t + h)) (quotient F t h)) (at_ G t) i j).
  - generalize (filter_and _ _ HI nonzero0). apply filter_imp. intros h [I1 Hh].
    pose proof (inverse_difference n (at_ F t) (at_ F (t + h)) (at_ G t) (at_ G (t + h)) I0 I1 i j Hi Hj) as E.
    change (G i j (t + h) - G i j t) with (msub (at_ G (t + h)) (at_ G t) i j). rewrite E. unfold mopp.
    replace (mprod n (mprod n (at_ G (t + h)) (msub (at_ F (t + h)) (at_ F t))) (at_ G t) i j)
      with (h * mprod n (mprod n (at_ G (t + h)) (quotient F t h)) (at_ G t) i j).
    2:{ unfold mprod. rewrite <- Sum_scal. apply Sum_ext. intros l _. rewrite <- Rmult_assoc. f_equal.
        rewrite <- Sum_scal. apply Sum_ext. intros p _. unfold quotient, msub, at_. field. auto. }
    field. auto.
  - apply lim_opp.
    apply (mlim_prod n n n (fun h => mprod n (at_ G (t + h)) (quotient F t h)) (fun _ => at_ G t)); auto.
    + apply mlim_prod; auto. intros k l Hk Hl. unfold quotient. apply derive_lim. auto.
    + apply mlim_const.
Qed.

(** The derivative of the pseudo-inverse, where it is continuous. *)
Theorem pinv_derivative : forall m n (F G : nat -> nat -> R -> R) (t : R) (dA : mx),
  (forall i j, (i < m)%nat -> (j < n)%nat -> is_derive (F i j) t (dA i j)) ->
  (forall i j, (i < n)%nat -> (j < m)%nat -> continuous (G i j) t) ->
  locally t (fun s => is_pinv m n (at_ F s) (at_ G s)) ->
  forall i j, (i < n)%nat -> (j < m)%nat ->
    is_derive (G i j) t (pinv_terms m n (at_ F t) (at_ G t) (at_ G t) dA (mprod m (at_ G t) (at_ F t)) i j).
Proof.
  intros m n F G t dA HF HC HI i j Hi Hj.
  assert (CG : mlim n m (fun h => at_ G (t + h)) (at_ G t)).
  { intros k l Hk Hl. specialize (HC k l Hk Hl).
    apply is_lim_spec. intros eps. unfold continuous in HC.
    assert (B : locally t (fun s => Rabs (G k l s - G k l t) < eps)).
    { apply (HC (fun y => Rabs (y - G k l t) < eps)). exists eps. intros y Hy. exact Hy. }
    apply near0 in B. exact B. }
  assert (CF : mlim m n (fun h => at_ F (t + h)) (at_ F t)).
  { intros k l Hk Hl. pose proof (lim_increment _ _ _ (HF k l Hk Hl)) as L.
    apply is_lim_ext with (fun h => (F k l (t + h) - F k l t) + F k l t). { intros; unfold at_; ring. }
    apply (lim_eq _ (0 + F k l t)); [unfold at_; ring|].
    apply lim_plus; auto. apply is_lim_const. }
  assert (CQ : mlim m n (quotient F t) dA).
  { intros k l Hk Hl. unfold quotient. apply derive_lim. auto. }
  pose proof (locally_singleton _ _ HI) as I0. apply near0 in HI.
  apply derive_lim.
  apply is_lim_ext_loc with (fun h => pinv_terms m n (at_ F t) (at_ G t) (at_ G (t + h)) (quotient F t h)
                                         (mprod m (at_ G (t + h)) (at_ F (t + h))) i j).
  - generalize (filter_and _ _ HI nonzero0). apply filter_imp. intros h [I1 Hh].
    pose proof (pinv_difference m n (at_ F t) (at_ F (t + h)) (at_ G t) (at_ G (t + h)) I0 I1 i j Hi Hj) as E.
    change (G i j (t + h) - G i j t) with (msub (at_ G (t + h)) (at_ G t) i j). rewrite E. clear E.
    assert (EQ : msub (at_ F (t + h)) (at_ F t) = (fun k l => h * quotient F t h k l)).
    { extensionality k. extensionality l. unfold quotient, msub, at_. field. auto. }
    rewrite EQ.
    assert (SL : forall q X Y, mprod q (fun k l => h * X k l) Y = (fun k l => h * mprod q X Y k l)).
    { intros. extensionality k. extensionality l. unfold mprod. rewrite <- Sum_scal. apply Sum_ext. intros. ring. }
    assert (SR : forall q X Y, mprod q X (fun k l => h * Y k l) = (fun k l => h * mprod q X Y k l)).
    { intros. extensionality k. extensionality l. unfold mprod. rewrite <- Sum_scal. apply Sum_ext. intros. ring. }
    unfold pinv_terms.
    change (mtr (fun k l => h * quotient F t h k l)) with (fun k l => h * mtr (quotient F t h) k l).
    repeat first [rewrite SL|rewrite SR]. field. auto.
  - unfold pinv_terms.
    pose proof (mlim_const n m (at_ G t)) as K0. pose proof (mlim_const m n (at_ F t)) as K1.
    apply lim_plus; [apply lim_plus|].
    + apply lim_opp. apply (mlim_prod n n m (fun h => mprod m (at_ G (t + h)) (quotient F t h)) (fun _ => at_ G t)); auto.
      eapply mlim_prod; eauto.
    + assert (T : mlim n m (fun h => mprod n (mprod m (at_ G (t + h)) (mtr (at_ G (t + h)))) (mtr (quotient F t h)))
                      (mprod n (mprod m (at_ G t) (mtr (at_ G t))) (mtr dA))).
      { eapply mlim_prod; [eapply mlim_prod; [exact CG|apply mlim_tr; exact CG]|apply mlim_tr; exact CQ]. }
      apply lim_minus; [now apply T|].
      apply (mlim_prod n m m _ (fun _ => mprod n (at_ F t) (at_ G t)) _ _ T); auto. apply mlim_const.
    + assert (T : mlim n m (fun h => mprod n (mprod m (mtr (quotient F t h)) (mtr (at_ G t))) (at_ G t))
                      (mprod n (mprod m (mtr dA) (mtr (at_ G t))) (at_ G t))).
      { eapply mlim_prod; [eapply mlim_prod; [apply mlim_tr; exact CQ|apply mlim_const]|exact K0]. }
      apply lim_minus; [now apply T|].
      apply (mlim_prod n n m (fun h => mprod m (at_ G (t + h)) (at_ F (t + h))) _ _ _) with (2 := T); auto.
      eapply mlim_prod; eauto.
Qed.
