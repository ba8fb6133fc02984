(** Powers of ten, half-even rounding and exact decimal numbers. *)
From Coq Require Import String.
From Coq Require Import ZArith List Bool Lia QArith Qpower Qabs Lqa Qfield.
From Verif Require Import Base Str FmtOps Format FmtSpec StrProofs.
Import ListNotations.
Local Open Scope Z_scope.

(** ** Powers of ten *)
Lemma ten_nz : ~ (ten == 0)%Q. Proof. intros H. discriminate H. Qed.
Lemma p10_add : forall a b, (p10 (a + b) == p10 a * p10 b)%Q.
Proof. intros. apply Qpower_plus. exact ten_nz. Qed.
Lemma p10_0 : (p10 0 == 1)%Q. Proof. reflexivity. Qed.
Lemma p10_Z : forall n, 0 <= n -> (p10 n == inject_Z (10 ^ n))%Q.
Proof. intros n H. symmetry. apply (Zpower_Qpower 10 n H). Qed.
Lemma p10_pos : forall k, (0 < p10 k)%Q.
Proof.
  intros k. destruct (Z_le_gt_dec 0 k) as [H|H].
  - rewrite p10_Z by exact H. change 0%Q with (inject_Z 0). rewrite <- Zlt_Qlt. apply pow10_pos. exact H.
  - assert (E : (p10 k * p10 (- k) == 1)%Q).
    { rewrite <- p10_add. replace (k + - k) with 0 by lia. reflexivity. }
    assert (P : (0 < p10 (- k))%Q).
    { rewrite p10_Z by lia. change 0%Q with (inject_Z 0). rewrite <- Zlt_Qlt. apply pow10_pos. lia. }
    destruct (Qlt_le_dec 0 (p10 k)) as [Q|Q]; [exact Q|]. exfalso. nra.
Qed.
Lemma p10_opp : forall k, (p10 k * p10 (- k) == 1)%Q.
Proof. intros. rewrite <- p10_add. replace (k + - k) with 0 by lia. reflexivity. Qed.
Lemma p10_ge1 : forall n, 0 <= n -> (1 <= p10 n)%Q.
Proof.
  intros n H. rewrite p10_Z by exact H. change 1%Q with (inject_Z 1). rewrite <- Zle_Qle.
  assert (0 < 10 ^ n) by (apply pow10_pos; exact H). lia.
Qed.
Lemma p10_le : forall a b, a <= b -> (p10 a <= p10 b)%Q.
Proof.
  intros a b H. replace b with (a + (b - a)) by lia. rewrite p10_add.
  assert (P := p10_pos a). assert (G := p10_ge1 (b - a) ltac:(lia)). nra.
Qed.
Lemma p10_lt : forall a b, a < b -> (p10 a < p10 b)%Q.
Proof.
  intros a b H. replace b with (a + 1 + (b - a - 1)) by lia. rewrite !p10_add.
  assert (P := p10_pos a). assert (G := p10_ge1 (b - a - 1) ltac:(lia)).
  assert (E : (p10 1 == 10)%Q) by reflexivity. rewrite E. nra.
Qed.
Lemma p10_lt_inv : forall a b, (p10 a < p10 b)%Q -> a < b.
Proof.
  intros a b H. destruct (Z_lt_le_dec a b) as [G|G]; [exact G|]. apply p10_le in G. lra.
Qed.
Lemma p10_le_inv : forall a b, (p10 a <= p10 b)%Q -> a <= b.
Proof.
  intros a b H. destruct (Z_le_gt_dec a b) as [G|G]; [exact G|]. assert (b < a) as G2 by lia. apply p10_lt in G2. lra.
Qed.
Lemma p10_succ : forall k, (p10 (k + 1) == 10 * p10 k)%Q.
Proof. intros. rewrite p10_add. assert (E : (p10 1 == 10)%Q) by reflexivity. rewrite E. ring. Qed.

(** ** Half-even rounding *)
Lemma half_even_comp : forall x y n, (x == y)%Q -> half_even x n -> half_even y n.
Proof. intros x y n E H. unfold half_even in *. rewrite <- E. exact H. Qed.
Lemma half_even_bounds : forall x n, half_even x n -> (inject_Z n - (1#2) <= x <= inject_Z n + (1#2))%Q.
Proof.
  intros x n H. assert (A : (Qabs (x - inject_Z n) <= 1#2)%Q) by (destruct H as [H|[H _]]; lra).
  apply Qabs_Qle_condition in A. lra.
Qed.
Lemma half_even_mono : forall x y n m, (x <= y)%Q -> half_even x n -> half_even y m -> n <= m.
Proof.
  intros x y n m Hxy Hx Hy. destruct (Z_le_gt_dec n m) as [H|H]; [exact H|exfalso].
  assert (Bx := half_even_bounds _ _ Hx). assert (By := half_even_bounds _ _ Hy).
  assert (G : (inject_Z m + 1 <= inject_Z n)%Q).
  { change 1%Q with (inject_Z 1). rewrite <- inject_Z_plus, <- Zle_Qle. lia. }
  assert (Ex : (x == inject_Z n - (1#2))%Q) by lra. assert (Ey : (y == inject_Z m + (1#2))%Q) by lra.
  assert (En : n = m + 1).
  { assert (X : (inject_Z n == inject_Z (m + 1))%Q) by (rewrite inject_Z_plus; change (inject_Z 1) with 1%Q; lra).
    unfold Qeq in X. simpl in X. lia. }
  assert (Vx : Z.Even n).
  { destruct Hx as [Hx|[_ Hx]]; [exfalso|exact Hx]. apply Qabs_Qlt_condition in Hx. lra. }
  assert (Vy : Z.Even m).
  { destruct Hy as [Hy|[_ Hy]]; [exfalso|exact Hy]. apply Qabs_Qlt_condition in Hy. lra. }
  destruct Vx as (a & Ea), Vy as (b & Eb). lia.
Qed.
Lemma half_even_unique : forall x n m, half_even x n -> half_even x m -> n = m.
Proof.
  intros x n m Hn Hm. assert (A := half_even_mono x x n m ltac:(lra) Hn Hm).
  assert (B := half_even_mono x x m n ltac:(lra) Hm Hn). lia.
Qed.
Lemma half_even_Z : forall n, half_even (inject_Z n) n.
Proof.
  intros n. left. setoid_replace (inject_Z n - inject_Z n)%Q with 0%Q by ring. reflexivity.
Qed.
Lemma half_even_ge : forall x n k, half_even x n -> (inject_Z k - (1#2) < x)%Q -> k <= n.
Proof.
  intros x n k H G. apply half_even_bounds in H. destruct (Z_le_gt_dec k n) as [L|L]; [exact L|exfalso].
  assert (X : (inject_Z n + 1 <= inject_Z k)%Q).
  { change 1%Q with (inject_Z 1). rewrite <- inject_Z_plus, <- Zle_Qle. lia. }
  lra.
Qed.
Lemma half_even_le : forall x n k, half_even x n -> (x < inject_Z k + (1#2))%Q -> n <= k.
Proof.
  intros x n k H G. apply half_even_bounds in H. destruct (Z_le_gt_dec n k) as [L|L]; [exact L|exfalso].
  assert (X : (inject_Z k + 1 <= inject_Z n)%Q).
  { change 1%Q with (inject_Z 1). rewrite <- inject_Z_plus, <- Zle_Qle. lia. }
  lra.
Qed.
Lemma half_even_nonneg : forall x n, (0 <= x)%Q -> half_even x n -> 0 <= n.
Proof. intros x n H E. apply (half_even_ge x n 0 E). change (inject_Z 0) with 0%Q. lra. Qed.

Lemma Qdiv_Z : forall a d, 0 < d -> (inject_Z a / inject_Z d * inject_Z d == inject_Z a)%Q.
Proof.
  intros a d H. field. intros X. unfold Qeq in X. simpl in X. lia.
Qed.
Lemma rhe_half_even : forall m d, 0 < d -> half_even (inject_Z m / inject_Z d) (rhe m d).
Proof.
  intros m d Hd. set (q := rhe m d).
  assert (Pd : (0 < inject_Z d)%Q) by (change 0%Q with (inject_Z 0); rewrite <- Zlt_Qlt; exact Hd).
  assert (E : (Qabs (inject_Z m / inject_Z d - inject_Z q) * inject_Z d == inject_Z (Z.abs (q * d - m)))%Q).
  { rewrite <- (Qabs_pos (inject_Z d)) at 2 by lra. rewrite <- Qabs_Qmult.
    setoid_replace ((inject_Z m / inject_Z d - inject_Z q) * inject_Z d)%Q with (- inject_Z (q * d - m))%Q.
    - rewrite Qabs_opp. unfold Qabs, inject_Z. destruct (q * d - m); reflexivity.
    - setoid_replace ((inject_Z m / inject_Z d - inject_Z q) * inject_Z d)%Q with
        (inject_Z m / inject_Z d * inject_Z d - inject_Z q * inject_Z d)%Q by ring.
      rewrite Qdiv_Z by exact Hd. unfold Zminus. rewrite inject_Z_plus, inject_Z_opp, inject_Z_mult. ring. }
  destruct (rhe_spec m d Hd) as [H|[H V]]; fold q in H.
  - left. assert (G : (inject_Z 2 * inject_Z (Z.abs (q * d - m)) < inject_Z d)%Q).
    { rewrite <- inject_Z_mult, <- Zlt_Qlt. lia. }
    rewrite <- E in G. change (inject_Z 2) with 2%Q in G. nra.
  - right. split.
    + assert (G : (inject_Z 2 * inject_Z (Z.abs (q * d - m)) == inject_Z d)%Q).
      { rewrite <- inject_Z_mult. replace (2 * Z.abs (q * d - m)) with d by lia. reflexivity. }
      rewrite <- E in G. change (inject_Z 2) with 2%Q in G. nra.
    + apply Z.even_spec. exact V.
Qed.

(** ** Exact decimal numbers *)
Lemma dfix_half_even : forall m k, 0 <= m -> half_even (inject_Z m * p10 k) (dfix m k) /\ 0 <= dfix m k.
Proof.
  intros m k Hm. unfold dfix. destruct (Z.leb_spec 0 k) as [H|H].
  - assert (0 < 10 ^ k) by (apply pow10_pos; exact H). split; [|nia].
    eapply half_even_comp; [|apply half_even_Z]. rewrite inject_Z_mult, p10_Z by exact H. reflexivity.
  - assert (P : 0 < 10 ^ (- k)) by (apply pow10_pos; lia). split; [|apply rhe_nonneg; assumption].
    eapply half_even_comp; [|apply rhe_half_even; exact P].
    rewrite <- p10_Z by lia. assert (E := p10_opp k). assert (P2 := p10_pos (- k)).
    setoid_replace (inject_Z m / p10 (- k))%Q with (inject_Z m * (p10 k * p10 (- k)) / p10 (- k))%Q.
    + field. lra.
    + rewrite E. field. lra.
Qed.
Lemma mq_nonneg : forall m e, 0 <= m -> (0 <= inject_Z m * p10 e)%Q.
Proof.
  intros m e H. assert (P := p10_pos e). assert (0 <= inject_Z m)%Q by (change 0%Q with (inject_Z 0); rewrite <- Zle_Qle; exact H). nra.
Qed.
Lemma mq_pos : forall m e, 0 < m -> (0 < inject_Z m * p10 e)%Q.
Proof.
  intros m e H. assert (P := p10_pos e). assert (0 < inject_Z m)%Q by (change 0%Q with (inject_Z 0); rewrite <- Zlt_Qlt; exact H). nra.
Qed.
Lemma dq_abs : forall s m e, 0 <= m -> (Qabs (dq (DNum s m e)) == inject_Z m * p10 e)%Q.
Proof.
  intros s m e H. assert (N := mq_nonneg m e H). cbn [dq]. destruct s; [rewrite Qabs_opp|]; apply Qabs_pos; exact N.
Qed.

Record Faithful (K : FmtOps) (rl : fl K -> Prop) (qv : fl K -> Q) : Prop := mkFaithful {
  fa_real : forall x, rl x -> x_isnan K x = false /\ x_isinf K x = false;
  fa_zero : forall x, rl x -> (x_iszero K x = true <-> (qv x == 0)%Q);
  fa_sign : forall x, rl x -> if x_sign K x then (qv x <= 0)%Q else (0 <= qv x)%Q;
  fa_fix : forall x p, rl x -> 0 <= x_fix K x p /\ half_even (Qabs (qv x) * p10 p) (x_fix K x p) }.

Lemma dec_faithful : Faithful DecOps real dq.
Proof.
  constructor.
  - intros x (s & m & e & -> & _). split; reflexivity.
  - intros x (s & m & e & -> & Hm). cbn [x_iszero DecOps dq]. rewrite Z.eqb_eq. split.
    + intros ->. destruct s; [|]; rewrite ?Qmult_0_l; reflexivity.
    + intros E. destruct (Z.eq_dec m 0) as [->|N]; [reflexivity|exfalso].
      assert (P := mq_pos m e ltac:(lia)). destruct s; lra.
  - intros x (s & m & e & -> & Hm). cbn [x_sign DecOps dq]. assert (N := mq_nonneg m e Hm). destruct s; lra.
  - intros x p (s & m & e & -> & Hm). cbn [x_fix DecOps].
    destruct (dfix_half_even m (e + p) Hm) as (H & N). split; [exact N|].
    eapply half_even_comp; [|exact H]. rewrite dq_abs by exact Hm. rewrite p10_add. ring.
Qed.

(** The position of the first digit. *)
Lemma dexp_bounds : forall m e, 0 < m -> (p10 (dexp m e) <= inject_Z m * p10 e)%Q /\ (inject_Z m * p10 e < p10 (dexp m e + 1))%Q.
Proof.
  intros m e H. unfold dexp. destruct (digs_bounds m H) as (A & B).
  set (l := Z.of_nat (length (digs m))) in *.
  assert (1 <= l).
  { unfold l. destruct (digs m) eqn:E; [exfalso; apply (digs_nonnil m); [lia|exact E]|]. cbn [length]. lia. }
  assert (P := p10_pos e).
  replace (e + l - 1) with ((l - 1) + e) by lia. replace (l - 1 + e + 1) with (l + e) by lia. rewrite !p10_add, (p10_Z (l - 1)), (p10_Z l) by lia.
  rewrite Zle_Qle in A. rewrite Zlt_Qlt in B. split; nra.
Qed.
Lemma dexp_unique : forall m e f, 0 < m -> (p10 f <= inject_Z m * p10 e)%Q -> (inject_Z m * p10 e < p10 (f + 1))%Q -> dexp m e = f.
Proof.
  intros m e f H A B. destruct (dexp_bounds m e H) as (C & D).
  assert (f < dexp m e + 1) by (apply p10_lt_inv; lra).
  assert (dexp m e < f + 1) by (apply p10_lt_inv; lra). lia.
Qed.

Lemma first_digit_dec : forall s m e, 0 < m -> first_digit (K := DecOps) (DNum s m e) = Ok (dexp m e).
Proof.
  intros s m e H. unfold first_digit. cbn [x_iszero x_log x_abs DecOps].
  destruct (Z.eqb_spec m 0); [lia|]. reflexivity.
Qed.
Lemma first_digit_dec0 : forall s e, first_digit (K := DecOps) (DNum s 0 e) = Ok 0.
Proof. reflexivity. Qed.
Lemma round_dec : forall s m e n, py_round (K := DecOps) (DNum s m e) n = DNum s (dfix m (e + n)) (- n).
Proof. reflexivity. Qed.

Lemma inject_lt_pow : forall M n, 0 <= n -> (inject_Z M < p10 n)%Q <-> M < 10 ^ n.
Proof. intros. rewrite p10_Z by assumption. rewrite <- Zlt_Qlt. reflexivity. Qed.
Lemma inject_le_pow : forall M n, 0 <= n -> (p10 n <= inject_Z M)%Q <-> 10 ^ n <= M.
Proof. intros. rewrite p10_Z by assumption. rewrite <- Zle_Qle. reflexivity. Qed.

Lemma signif_dec : forall s m e n, 0 < m -> 1 <= n ->
  exists l, signif_dgt_to_limit (K := DecOps) (DNum s m e) n = Ok l /\ sig_limit (inject_Z m * p10 e) n l /\
    dexp m e - n + 1 <= l <= dexp m e - n + 2 /\
    (l = dexp m e - n + 2 -> half_even (inject_Z m * p10 e * p10 (- l)) (10 ^ (n - 1))).
Proof.
  intros s m e n Hm Hn. unfold signif_dgt_to_limit. rewrite first_digit_dec by exact Hm. cbn [rbind].
  set (f := dexp m e). set (l0 := f - n + 1). set (v := (inject_Z m * p10 e)%Q).
  destruct (dexp_bounds m e Hm) as (B1 & B2). fold f in B1, B2. fold v in B1, B2.
  rewrite round_dec. set (M0 := dfix m (e + - l0)).
  assert (H0 : half_even (v * p10 (- l0)) M0).
  { eapply half_even_comp; [|apply dfix_half_even; lia]. unfold v. rewrite p10_add. ring. }
  assert (P0 := p10_pos (- l0)).
  assert (C1 : (p10 (n - 1) <= v * p10 (- l0))%Q).
  { replace (n - 1) with (f + - l0) by (unfold l0; lia). rewrite p10_add. nra. }
  assert (C2 : (v * p10 (- l0) < p10 n)%Q).
  { replace n with (f + 1 + - l0) by (unfold l0; lia). rewrite p10_add. nra. }
  assert (M1 : 10 ^ (n - 1) <= M0).
  { eapply half_even_mono; [|apply half_even_Z|exact H0]. rewrite <- p10_Z by lia. exact C1. }
  assert (M2 : M0 <= 10 ^ n).
  { eapply half_even_mono; [|exact H0|apply half_even_Z]. rewrite <- p10_Z by lia. lra. }
  assert (Pn : 0 < 10 ^ (n - 1)) by (apply pow10_pos; lia).
  rewrite first_digit_dec by lia. cbn [rbind].
  replace (- - l0) with l0 by lia. assert (Pl := p10_pos l0).
  destruct (Z.eq_dec M0 (10 ^ n)) as [E|NE].
  - assert (Ed : dexp M0 l0 = f + 1).
    { apply dexp_unique; [lia| |]; rewrite E, <- p10_Z by lia; rewrite <- p10_add.
      - replace (n + l0) with (f + 1) by (unfold l0; lia). lra.
      - apply p10_lt. unfold l0. lia. }
    rewrite Ed. replace (f <? f + 1) with true by lia. exists (l0 + 1). split; [reflexivity|].
    assert (HM : half_even (v * p10 (- (l0 + 1))) (10 ^ (n - 1))).
    { destruct (half_even_bounds _ _ H0) as (D1 & _). rewrite E in D1. rewrite <- p10_Z in D1 by lia.
      assert (En : (p10 n == 10 * p10 (n - 1))%Q) by (rewrite <- p10_succ; replace (n - 1 + 1) with n by lia; reflexivity).
      assert (El : (p10 (- l0) == 10 * p10 (- (l0 + 1)))%Q) by (rewrite <- p10_succ; replace (- (l0 + 1) + 1) with (- l0) by lia; reflexivity).
      left. rewrite <- p10_Z by lia. apply Qabs_Qlt_condition. rewrite En, El in *. split; lra. }
    split. { exists (10 ^ (n - 1)), M0. split; [exact HM|]. split; [split; [lia|apply Z.pow_lt_mono_r; lia]|].
             replace (1 - (l0 + 1)) with (- l0) by lia. split; [exact H0|lia]. }
    split; [unfold l0; lia|]. intros _. exact HM.
  - assert (Ed : dexp M0 l0 = f).
    { apply dexp_unique; [lia| |].
      - replace f with (n - 1 + l0) by (unfold l0; lia). rewrite p10_add.
        assert (p10 (n - 1) <= inject_Z M0)%Q by (apply inject_le_pow; lia). nra.
      - replace (f + 1) with (n + l0) by (unfold l0; lia). rewrite p10_add.
        assert (inject_Z M0 < p10 n)%Q by (apply inject_lt_pow; lia). nra. }
    rewrite Ed. replace (f <? f) with false by lia. exists l0. split; [reflexivity|].
    split. { exists M0, (dfix m (e + (1 - l0))). split; [exact H0|]. split; [lia|].
             assert (H1 : half_even (v * p10 (1 - l0)) (dfix m (e + (1 - l0)))).
             { eapply half_even_comp; [|apply dfix_half_even; lia]. unfold v. rewrite p10_add. ring. }
             split; [exact H1|]. eapply half_even_mono; [|apply half_even_Z|exact H1].
             rewrite <- p10_Z by lia. replace n with (f + (1 - l0)) by (unfold l0; lia). rewrite p10_add.
             assert (P1 := p10_pos (1 - l0)). nra. }
    split; [unfold l0; lia|]. unfold l0. lia.
Qed.
