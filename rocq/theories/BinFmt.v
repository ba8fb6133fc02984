(** Formatting of binary64 numbers: positions of digits and exponents. *)
From Coq Require Import String.
From Coq Require Import ZArith List Bool Lia QArith Qpower Qabs Qminmax Lqa.
From Flocq Require Import BinarySingleNaN.
From Verif Require Import Base Str NumF FmtOps FmtF Format FmtSpec BinSpec StrProofs SpecProofs FixedProofs FormatProofs
  DecProofs RealFmt RealThm BinProofs BinRepr BinQ.
Import ListNotations.
Local Open Scope Z_scope.

Notation tiny := (1 # 1000000000000)%Q.
(** [b] is within a relative error [c] of [a]. *)
Definition within (c a b : Q) : Prop := (Qabs (b - a) <= c * Qabs a)%Q.
Definition sig_within (c v : Q) (n l : Z) : Prop := exists v', within c v v' /\ sig_limit v' n l.
Lemma hulp_tiny : (hulp < 1 # 1000000000000000)%Q. Proof. reflexivity. Qed.
Lemma half_even_total : forall q, exists n, half_even q n.
Proof.
  intros q. exists (rhe (Qnum q) (Zpos (Qden q))). eapply half_even_comp; [|apply rhe_half_even; reflexivity].
  symmetry. destruct q as [a b]. simpl. rewrite <- Qmake_Qdiv. reflexivity.
Qed.
Lemma inject_lt' : forall a b, a < b -> (inject_Z a < inject_Z b)%Q. Proof. intros. rewrite <- Zlt_Qlt. assumption. Qed.
Lemma inject_le' : forall a b, a <= b -> (inject_Z a <= inject_Z b)%Q. Proof. intros. rewrite <- Zle_Qle. assumption. Qed.
Lemma inject_S : forall a, (inject_Z (a + 1) == inject_Z a + 1)%Q. Proof. intros. rewrite inject_Z_plus. reflexivity. Qed.

(** [y] rounded to an integer has n digits, and ten times [y] has more. *)
Definition has_digits (y : Q) (n : Z) : Prop :=
  exists M M', half_even y M /\ 10 ^ (n - 1) <= M < 10 ^ n /\ half_even (10 * y) M' /\ 10 ^ n <= M'.
Lemma has_digits_limit : forall v n l, has_digits (v * p10 (- l)) n -> sig_limit v n l.
Proof.
  intros v n l (M & M' & H & B & H' & B'). exists M, M'. split; [exact H|]. split; [exact B|]. split; [|exact B'].
  eapply half_even_comp; [|exact H']. replace (1 - l) with (- l + 1) by lia. rewrite p10_succ. ring.
Qed.
Lemma digits_intro : forall y n M, half_even y M -> 10 ^ (n - 1) <= M < 10 ^ n -> 0 <= n ->
  (p10 n - (1 # 2) < 10 * y)%Q -> has_digits y n.
Proof.
  intros y n M H B Hn G. destruct (half_even_total (10 * y)) as (M' & H'). exists M, M'.
  split; [exact H|]. split; [exact B|]. split; [exact H'|].
  apply (half_even_ge _ _ _ H'). rewrite <- p10_Z by exact Hn. exact G.
Qed.
Lemma pow10_step : forall n, 1 <= n -> 10 ^ n = 10 * 10 ^ (n - 1) /\ 0 < 10 ^ (n - 1).
Proof.
  intros n H. split; [|apply pow10_pos; lia]. replace n with (n - 1 + 1) at 1 by lia. rewrite Z.pow_add_r by lia.
  change (10 ^ 1) with 10. lia.
Qed.
Lemma digits_power : forall n, 1 <= n -> has_digits (p10 (n - 1)) n.
Proof.
  intros n Hn. destruct (pow10_step n Hn) as (E & P).
  apply (digits_intro _ n (10 ^ (n - 1))); [|lia|lia|].
  - eapply half_even_comp; [|apply half_even_Z]. symmetry. apply p10_Z. lia.
  - replace n with (n - 1 + 1) at 1 by lia. rewrite p10_succ. lra.
Qed.

(** The position of the last digit, in units of 10^l0. *)
Lemma digits_found : forall n y D z g, 1 <= n ->
  (p10 (n - 1) * (1 - tiny) <= y)%Q -> (y < p10 n * (1 + tiny))%Q -> half_even y D ->
  (Qabs (z - inject_Z D) <= hulp * inject_Z D)%Q ->
  (p10 g * (1 - tiny) <= z)%Q -> (z < p10 (g + 1) * (1 + tiny))%Q ->
  (D = 10 ^ n -> g = n) ->
  exists y', (Qabs (y' - y) <= (1 # 250000000000) * y)%Q /\ has_digits (if n <=? g then y' / 10 else y')%Q n.
Proof.
  intros n y D z g Hn Y1 Y2 HD HZ G1 G2 HE.
  assert (Pm := p10_pos (n - 1)). assert (EP : (p10 n == 10 * p10 (n - 1))%Q).
  { replace n with (n - 1 + 1) at 1 by lia. apply p10_succ. }
  assert (Em := p10_Z (n - 1) ltac:(lia)). assert (En := p10_Z n ltac:(lia)).
  destruct (pow10_step n Hn) as (E10 & P10).
  assert (One : (1 <= p10 (n - 1))%Q) by (apply p10_ge1; lia).
  assert (Pg := p10_pos g). assert (Sg := p10_succ g).
  assert (BD := half_even_bounds _ _ HD).
  assert (HU := hulp_tiny). assert (Hu0 : (0 < hulp)%Q) by reflexivity.
  assert (D1 : 1 <= D). { apply (half_even_ge _ _ _ HD). change (inject_Z 1) with 1%Q. nra. }
  assert (DQ : (1 <= inject_Z D)%Q) by (change 1%Q with (inject_Z 1); apply inject_le'; exact D1).
  assert (Z1 : (inject_Z D * (1 - hulp) <= z)%Q /\ (z <= inject_Z D * (1 + hulp))%Q).
  { apply Qabs_Qle_condition in HZ. lra. }
  destruct Z1 as (Z1 & Z2).
  assert (Big : n <= g -> (p10 n <= p10 g)%Q) by (apply p10_le).
  assert (Small : g < n -> (p10 (g + 1) <= p10 n)%Q) by (intros; apply p10_le; lia).
  set (P := p10 n) in *. set (m := p10 (n - 1)) in *. set (G := p10 g) in *.
  assert (Uz : (z <= inject_Z D + inject_Z D * (1 # 1000000000000000))%Q) by nra.
  assert (Lz : (inject_Z D - inject_Z D * (1 # 1000000000000000) <= z)%Q) by nra.
  clear Z1 Z2.
  destruct (Qlt_le_dec y m) as [CA|CA].
  { (* slightly less than a power of ten *)
    assert (D <= 10 ^ (n - 1)). { eapply half_even_mono; [|exact HD|apply half_even_Z]. rewrite <- Em. lra. }
    assert (DB : (inject_Z D <= m)%Q) by (rewrite Em; apply inject_le'; assumption).
    destruct (Z.leb_spec n g) as [C|C]; [exfalso; specialize (Big C); lra|].
    exists m. split; [apply Qabs_Qle_condition; lra|]. apply digits_power. exact Hn. }
  destruct (Qlt_le_dec y P) as [CB|CB].
  - assert (D0 : 10 ^ (n - 1) <= D). { eapply half_even_mono; [|apply half_even_Z|exact HD]. rewrite <- Em. exact CA. }
    assert (D2 : D <= 10 ^ n). { eapply half_even_mono; [|exact HD|apply half_even_Z]. rewrite <- En. lra. }
    destruct (Z.eq_dec D (10 ^ n)) as [ED|ND].
    + rewrite (HE ED). rewrite Z.leb_refl. exists y. split; [apply Qabs_Qle_condition; lra|].
      assert (EDQ : (inject_Z D == P)%Q) by (rewrite ED; symmetry; exact En).
      destruct (half_even_total (y / 10)) as (M & HM).
      assert (10 ^ (n - 1) <= M). { apply (half_even_ge _ _ _ HM). rewrite <- Em. unfold Qdiv. change (/ 10)%Q with (1 # 10)%Q. lra. }
      assert (M <= 10 ^ (n - 1)). { apply (half_even_le _ _ _ HM). rewrite <- Em. unfold Qdiv. change (/ 10)%Q with (1 # 10)%Q. lra. }
      exists M, D. split; [exact HM|]. split; [lia|]. split; [|lia].
      eapply half_even_comp; [|exact HD]. field.
    + assert (D3 : D + 1 <= 10 ^ n) by lia.
      assert (DB : (inject_Z D + 1 <= P)%Q) by (rewrite En, <- inject_S; apply inject_le'; exact D3).
      destruct (Z.leb_spec n g) as [C|C].
      * specialize (Big C). exists P. split; [apply Qabs_Qle_condition; lra|].
        assert (X : has_digits (p10 (n - 1)) n) by (apply digits_power; exact Hn). fold m in X.
        destruct X as (M & M' & X1 & X2 & X3 & X4). exists M, M'.
        split; [eapply half_even_comp; [|exact X1]; rewrite EP; field|]. split; [exact X2|].
        split; [eapply half_even_comp; [|exact X3]; rewrite EP; field|exact X4].
      * exists y. split; [apply Qabs_Qle_condition; lra|].
        apply (digits_intro _ n D); [exact HD|lia|lia|]. fold P. lra.
  - assert (D0 : 10 ^ n <= D). { eapply half_even_mono; [|apply half_even_Z|exact HD]. rewrite <- En. exact CB. }
    assert (DB : (P <= inject_Z D)%Q) by (rewrite En; apply inject_le'; exact D0).
    destruct (Z.leb_spec n g) as [C|C].
    + exists y. split; [apply Qabs_Qle_condition; lra|].
      destruct (half_even_total (y / 10)) as (M & HM).
      assert (10 ^ (n - 1) <= M). { apply (half_even_ge _ _ _ HM). rewrite <- Em. unfold Qdiv. change (/ 10)%Q with (1 # 10)%Q. lra. }
      assert (M < 10 ^ n).
      { apply inject_lt. rewrite <- En. apply half_even_bounds in HM. unfold Qdiv in HM. change (/ 10)%Q with (1 # 10)%Q in HM. lra. }
      exists M, D. split; [exact HM|]. split; [lia|]. split; [|lia].
      eapply half_even_comp; [|exact HD]. field.
    + specialize (Small C). assert (ND : D <> 10 ^ n) by (intros ED; specialize (HE ED); lia).
      assert (DC : (P + 1 <= inject_Z D)%Q) by (rewrite En, <- inject_S; apply inject_le'; lia).
      assert (PS : (p10 (g + 1) == 10 * G)%Q) by exact Sg. rewrite PS in *.
      exists (P - 1)%Q. split; [apply Qabs_Qle_condition; lra|].
      apply (digits_intro _ n (10 ^ n - 1)); [|lia|lia|fold P; lra].
      eapply half_even_comp; [|apply half_even_Z]. unfold Zminus. rewrite inject_Z_plus, <- En. reflexivity.
Qed.
(** The exponent of a rounded number, in units of 10^k. *)
Lemma exponent_found : forall y D z g, half_even y D -> 1 <= D ->
  (Qabs (z - inject_Z D) <= hulp * inject_Z D)%Q ->
  (p10 g * (1 - tiny) <= z)%Q -> (z < p10 (g + 1) * (1 + tiny))%Q ->
  (forall j, 0 <= j -> D = 10 ^ j -> g = j) ->
  0 <= g /\ exists y' R, (Qabs (y' - y) <= (1 # 250000000000) * y)%Q /\ half_even y' R /\
    (p10 g <= inject_Z R)%Q /\ (inject_Z R < p10 (g + 1))%Q.
Proof.
  intros y D z g HD D1 HZ G1 G2 HE.
  assert (BD := half_even_bounds _ _ HD). assert (HU := hulp_tiny). assert (Hu0 : (0 < hulp)%Q) by reflexivity.
  assert (DQ : (1 <= inject_Z D)%Q) by (change 1%Q with (inject_Z 1); apply inject_le'; exact D1).
  assert (Z1 : (inject_Z D * (1 - hulp) <= z)%Q /\ (z <= inject_Z D * (1 + hulp))%Q).
  { apply Qabs_Qle_condition in HZ. lra. }
  destruct Z1 as (Z1 & Z2). assert (Pg := p10_pos g). assert (Sg := p10_succ g).
  assert (Uz : (z <= inject_Z D + inject_Z D * (1 # 1000000000000000))%Q) by nra.
  assert (Lz : (inject_Z D - inject_Z D * (1 # 1000000000000000) <= z)%Q) by nra. clear Z1 Z2.
  assert (Hg : 0 <= g).
  { destruct (Z_le_gt_dec 0 g) as [|C]; [assumption|exfalso].
    assert (p10 (g + 1) <= p10 0)%Q by (apply p10_le; lia). change (p10 0) with 1%Q in *.
    assert (D = 1). { assert (D < 2); [|lia]. apply inject_lt. change (inject_Z 2) with 2%Q. lra. }
    assert (g = 0) by (apply HE; [lia|assumption]). lia. }
  split; [exact Hg|].
  assert (E1 := p10_Z g Hg). assert (E2 := p10_Z (g + 1) ltac:(lia)).
  assert (N1 : 0 < 10 ^ g) by (apply pow10_pos; exact Hg).
  assert (N2 : 10 ^ (g + 1) = 10 * 10 ^ g) by (rewrite Z.pow_add_r by lia; change (10 ^ 1) with 10; lia).
  destruct (Z_lt_le_dec D (10 ^ g)) as [C|C].
  - assert (DB : (inject_Z D + 1 <= p10 g)%Q) by (rewrite E1, <- inject_S; apply inject_le'; lia).
    exists (p10 g), (10 ^ g). split; [apply Qabs_Qle_condition; lra|].
    split; [eapply half_even_comp; [|apply half_even_Z]; symmetry; exact E1|]. rewrite <- E1. split; [lra|]. lra.
  - assert (CB : (p10 g <= inject_Z D)%Q) by (rewrite E1; apply inject_le'; exact C).
    destruct (Z_lt_le_dec D (10 ^ (g + 1))) as [C'|C'].
    + exists y, D. split; [apply Qabs_Qle_condition; lra|]. split; [exact HD|]. split; [exact CB|]. rewrite E2. apply inject_lt'. exact C'.
    + assert (ND : D <> 10 ^ (g + 1)). { intros X. specialize (HE (g + 1) ltac:(lia) X). lia. }
      assert (DC : (p10 (g + 1) + 1 <= inject_Z D)%Q) by (rewrite E2, <- inject_S; apply inject_le'; lia).
      assert (O : (1 <= p10 g)%Q) by (apply p10_ge1; exact Hg).
      exists (p10 (g + 1) - 1)%Q, (10 ^ (g + 1) - 1). split; [apply Qabs_Qle_condition; lra|].
      assert (ER : (inject_Z (10 ^ (g + 1) - 1) == p10 (g + 1) - 1)%Q).
      { unfold Zminus. rewrite inject_Z_plus, <- E2. reflexivity. }
      split; [eapply half_even_comp; [|apply half_even_Z]; exact ER|]. rewrite ER. split; lra.
Qed.

(** ** Powers of ten and first digits of floats *)
Section Bin.
Context (lm : Libm10) (LL : LibmLaws lm).
Notation K := (BinOps lm).

Lemma fd_pos : forall x : f64, fin x -> (0 < bq x)%Q -> first_digit (K := K) x = Ok (lg10 lm x).
Proof.
  intros x F P. assert (Z0 : x_iszero K x = false).
  { destruct (x_iszero K x) eqn:E; [|reflexivity]. apply (bq_zero x F) in E. lra. }
  unfold first_digit. rewrite Z0. assert (Sg := bq_sign x F). destruct x as [g| | |g m e B]; try discriminate F.
  - destruct g; discriminate Z0.
  - destruct g; [exfalso; simpl in Sg; lra|]. reflexivity.
Qed.
Lemma log_scaled : forall (x : f64) l, fin x -> (0 < bq x)%Q ->
  (p10 (lg10 lm x - l) * (1 - tiny) <= bq x * p10 (- l))%Q /\ (bq x * p10 (- l) < p10 (lg10 lm x - l + 1) * (1 + tiny))%Q.
Proof.
  intros x l F P. destruct (ll_log lm LL x F P) as (A & B). change (fval x) with (bq x) in *. assert (Q := p10_pos (- l)).
  replace (lg10 lm x - l + 1) with (lg10 lm x + 1 + - l) by lia. replace (lg10 lm x - l) with (lg10 lm x + - l) by lia.
  rewrite !(p10_add _ (- l)). split; nra.
Qed.
(** round(x, -l), scaled. *)
Lemma round_pos : forall (x : f64) l, fin x -> (0 < bq x)%Q -> (p10 (-200) <= bq x)%Q -> (bq x <= p10 200)%Q ->
  let y := (bq x * p10 (- l))%Q in forall D, half_even y D -> 1 <= D ->
  let r := py_round (K := K) x (- l) in
  x_fix K x (- l) = D /\ r = fdecimal false D l /\
  fin r /\ (0 < bq r)%Q /\ (Qabs (bq r * p10 (- l) - inject_Z D) <= hulp * inject_Z D)%Q.
Proof.
  intros x l F P A B y D HD D1 r.
  assert (Sg : Bsign x = false). { assert (H := bq_sign x F). destruct (Bsign x) eqn:E; [exfalso; lra|reflexivity]. }
  destruct (bq_fix x (- l) F) as (_ & H). assert (Ax : (Qabs (bq x) == bq x)%Q) by (apply Qabs_pos; lra).
  assert (EF : x_fix K x (- l) = D). { eapply half_even_unique; [|exact HD]. eapply half_even_comp; [|exact H]. rewrite Ax. reflexivity. }
  split; [exact EF|].
  assert (Er : r = fdecimal false D l).
  { unfold r, py_round. rewrite EF. assert (I : isinfinite (K := K) x = false) by (destruct x; try discriminate F; reflexivity).
    rewrite I. change (x_sign K x) with (Bsign x). rewrite Sg. replace (- - l) with l by lia. reflexivity. }
  split; [exact Er|]. rewrite Er.
  assert (Q := p10_pos l). assert (O := p10_opp l). assert (Q' := p10_pos (- l)).
  assert (Ex : (bq x == y * p10 l)%Q). { unfold y. rewrite <- Qmult_assoc, (Qmult_comm (p10 (- l))), O. ring. }
  assert (BD := half_even_bounds _ _ HD).
  assert (DQ : (1 <= inject_Z D)%Q) by (change 1%Q with (inject_Z 1); apply inject_le'; exact D1).
  assert (V1 : (inject_Z D * p10 l <= 2 * bq x)%Q) by (rewrite Ex; nra).
  assert (V2 : (bq x <= 2 * (inject_Z D * p10 l))%Q) by (rewrite Ex; nra).
  assert (R1 : (p10 (-300) <= inject_Z D * p10 l)%Q).
  { assert (p10 (-300) * 2 <= p10 (-200))%Q by (vm_compute; discriminate). lra. }
  assert (R2 : (inject_Z D * p10 l <= p10 300)%Q).
  { assert (p10 200 * 2 <= p10 300)%Q by (vm_compute; discriminate). lra. }
  destruct (q_dec false D l ltac:(lia) R1 R2) as (G1 & G2 & G3).
  assert (Pr := bq_sign _ G1). rewrite G2 in Pr. rewrite (Qabs_pos _ Pr) in G3. split; [exact G1|].
  assert (HU := hulp_tiny). assert (Hu0 : (0 < hulp)%Q) by reflexivity.
  apply Qabs_Qle_condition in G3. split.
  - assert (0 < inject_Z D * p10 l)%Q by nra. set (v := (inject_Z D * p10 l)%Q) in *. nra.
  - apply Qabs_Qle_condition. set (b := bq (fdecimal false D l)) in *.
    assert (X : (b * p10 (- l) - inject_Z D == (b - inject_Z D * p10 l) * p10 (- l))%Q).
    { setoid_replace ((b - inject_Z D * p10 l) * p10 (- l))%Q with (b * p10 (- l) - inject_Z D * (p10 l * p10 (- l)))%Q by ring.
      rewrite O. ring. }
    rewrite X. assert (Y : (hulp * (inject_Z D * p10 l) * p10 (- l) == hulp * inject_Z D)%Q).
    { setoid_replace (hulp * (inject_Z D * p10 l) * p10 (- l))%Q with (hulp * inject_Z D * (p10 l * p10 (- l)))%Q by ring. rewrite O. ring. }
    rewrite <- Y. split; nra.
Qed.
Lemma small_log : forall (x : f64), fin x -> (0 < bq x)%Q -> (p10 (-200) <= bq x)%Q -> (bq x <= p10 200)%Q -> -202 <= lg10 lm x <= 201.
Proof.
  intros x F P A B. destruct (ll_log lm LL x F P) as (C & D). change (fval x) with (bq x) in *. set (f := lg10 lm x) in *.
  assert (Pf := p10_pos f). assert (Pf1 := p10_pos (f + 1)). split.
  - assert (H : (p10 (-201) < p10 (f + 1))%Q). { assert (p10 (-201) * 2 <= p10 (-200))%Q by (vm_compute; discriminate). nra. }
    apply p10_lt_inv in H. lia.
  - assert (H : (p10 f < p10 201)%Q). { assert (p10 200 * 2 <= p10 201)%Q by (vm_compute; discriminate). nra. }
    apply p10_lt_inv in H. lia.
Qed.
Lemma near_scaled : forall v y' l, (0 <= v)%Q -> (Qabs (y' - v * p10 (- l)) <= (1 # 250000000000) * (v * p10 (- l)))%Q -> within (1 # 250000000000) v (y' * p10 l).
Proof.
  intros v y' l P H. unfold within. rewrite (Qabs_pos v P). assert (Q := p10_pos l). assert (O := p10_opp l).
  assert (E : (y' * p10 l - v == (y' - v * p10 (- l)) * p10 l)%Q).
  { setoid_replace ((y' - v * p10 (- l)) * p10 l)%Q with (y' * p10 l - v * (p10 l * p10 (- l)))%Q by ring. rewrite O. ring. }
  rewrite E, Qabs_Qmult, (Qabs_pos (p10 l)) by lra.
  setoid_replace ((1 # 250000000000) * v)%Q with ((1 # 250000000000) * (v * p10 (- l)) * p10 l)%Q.
  - apply Qmult_le_compat_r; lra.
  - setoid_replace ((1 # 250000000000) * (v * p10 (- l)) * p10 l)%Q with ((1 # 250000000000) * v * (p10 l * p10 (- l)))%Q by ring. rewrite O. ring.
Qed.

Lemma signif_bin : forall (x : f64) n, fin x -> (0 < bq x)%Q -> (p10 (-200) <= bq x)%Q -> (bq x <= p10 200)%Q -> 1 <= n ->
  exists l, signif_dgt_to_limit (K := K) x n = Ok l /\ sig_within (1 # 250000000000) (bq x) n l /\
    (l = lg10 lm x - n + 1 \/ l = lg10 lm x - n + 2).
Proof.
  intros x n F P A B Hn. set (f := lg10 lm x). set (l0 := f - n + 1).
  assert (Bf := small_log x F P A B). fold f in Bf.
  destruct (log_scaled x l0 F P) as (Y1 & Y2). fold f in Y1, Y2. set (y := (bq x * p10 (- l0))%Q) in *.
  replace (f - l0 + 1) with n in Y2 by lia. replace (f - l0) with (n - 1) in Y1 by lia.
  destruct (half_even_total y) as (D & HD).
  assert (D1 : 1 <= D).
  { apply (half_even_ge _ _ _ HD). change (inject_Z 1) with 1%Q. assert (1 <= p10 (n - 1))%Q by (apply p10_ge1; lia). nra. }
  destruct (round_pos x l0 F P A B D HD D1) as (_ & Er & Fr & Pr & Hr). set (r := py_round (K := K) x (- l0)) in *.
  destruct (log_scaled r l0 Fr Pr) as (Z1 & Z2). set (fr := lg10 lm r) in *.
  destruct (digits_found n y D (bq r * p10 (- l0)) (fr - l0) Hn Y1 Y2 HD Hr Z1 Z2) as (y' & N & H).
  { intros ED. assert (X : r = fdecimal false 1 (f + 1)).
    { rewrite Er. apply fdecimal_value; [lia|lia|]. rewrite ED, <- p10_Z, <- p10_add by lia. change (inject_Z 1) with 1%Q.
      replace (n + l0) with (f + 1) by lia. ring. }
    unfold fr. rewrite X, (ll_exact lm LL) by lia. lia. }
  exists (if f <? fr then l0 + 1 else l0). split.
  { unfold signif_dgt_to_limit. rewrite (fd_pos x F P). cbn [rbind]. fold f. fold l0. fold r. rewrite (fd_pos r Fr Pr). reflexivity. }
  assert (EC : (n <=? fr - l0) = (f <? fr)) by (apply Bool.eq_true_iff_eq; rewrite Z.leb_le, Z.ltb_lt; lia).
  rewrite EC in H. split; [|destruct (f <? fr); lia].
  exists (y' * p10 l0)%Q. split; [apply near_scaled; [lra|exact N]|]. apply has_digits_limit.
  assert (O := p10_opp l0). assert (HC : forall a b, (a == b)%Q -> has_digits a n -> has_digits b n).
  { intros a b E (M & M' & H1 & H2 & H3 & H4). exists M, M'. split; [eapply half_even_comp; eassumption|]. split; [exact H2|].
    split; [eapply half_even_comp; [|exact H3]; rewrite E; reflexivity|exact H4]. }
  eapply HC; [|exact H]. destruct (f <? fr).
  - replace (- (l0 + 1)) with (- l0 + -1) by lia. rewrite p10_add. change (p10 (-1)) with (1 # 10)%Q.
    setoid_replace (y' * p10 l0 * (p10 (- l0) * (1 # 10)))%Q with (y' * (p10 l0 * p10 (- l0)) * (1 # 10))%Q by ring. rewrite O. field.
  - rewrite <- Qmult_assoc, O. ring.
Qed.
Lemma exponent_bin : forall (M : f64) p s0 k (U : Unicode), fin M -> (0 < bq M)%Q -> (p10 (-95) <= bq M)%Q -> (bq M <= p10 95)%Q ->
  assembled U p s0 ->
  (~ fixed_type (p_type p) -> forall R, half_even (bq M * p10 (- k)) R -> 1 <= R) ->
  exists ce, use_exponent (K := K) (fmt_type p) (Some M) (Some k) = Ok ce /\
    (exists M', within (1 # 250000000000) (bq M) M' /\ common_exponent (p_type p) M' k ce) /\
    (forall X, ce = Some X -> k <= X /\ -100 <= X <= 100).
Proof.
  intros M p s0 k U F P A0 B0 As HR.
  assert (A : (p10 (-200) <= bq M)%Q) by (eapply Qle_trans; [|exact A0]; apply p10_le; lia).
  assert (B : (bq M <= p10 200)%Q) by (eapply Qle_trans; [exact B0|]; apply p10_le; lia).
  unfold use_exponent, common_exponent.
  assert (T := type_cases p (as_type _ _ _ As)).
  destruct (is_f (fmt_type p)) eqn:Ef.
  - exists None. split; [reflexivity|]. split; [|discriminate]. exists (bq M).
    split; [unfold within; setoid_replace (bq M - bq M)%Q with 0%Q by ring; rewrite (Qabs_pos (bq M)) by lra; simpl; lra|].
    split; [reflexivity|].
    intros X. exfalso. destruct T as [(T1 & _)|[(_ & _ & _ & T & _)|(_ & _ & _ & T & _)]]; [contradiction|discriminate..].
  - assert (NF : ~ fixed_type (p_type p)).
    { destruct T as [(_ & _ & _ & T)|[(_ & T & _)|(_ & T & _)]]; [discriminate|exact T..]. }
    destruct (half_even_total (bq M * p10 (- k))) as (D & HD). assert (D1 := HR NF D HD).
    destruct (round_pos M k F P A B D HD D1) as (_ & Er & Fr & Pr & Hr). set (r := py_round (K := K) M (- k)) in *.
    destruct (log_scaled r k Fr Pr) as (Z1 & Z2). set (X := lg10 lm r) in *.
    assert (BX : -100 <= X <= 100).
    { assert (Q := p10_pos k). assert (Q' := p10_pos (- k)). assert (O := p10_opp k).
      assert (BD := half_even_bounds _ _ HD). assert (HU := hulp_tiny). assert (Hu0 : (0 < hulp)%Q) by reflexivity.
      assert (DQ : (1 <= inject_Z D)%Q) by (change 1%Q with (inject_Z 1); apply inject_le'; exact D1).
      apply Qabs_Qle_condition in Hr.
      assert (W1 : (bq r * p10 (- k) <= 4 * (bq M * p10 (- k)))%Q) by nra.
      assert (W2 : (bq M * p10 (- k) <= 4 * (bq r * p10 (- k)))%Q) by nra.
      assert (V1 : (bq r <= 4 * bq M)%Q) by nra. assert (V2 : (bq M <= 4 * bq r)%Q) by nra.
      destruct (ll_log lm LL r Fr Pr) as (C1 & C2). change (fval r) with (bq r) in *. fold X in C1, C2.
      assert (PX := p10_pos X). assert (PX1 := p10_pos (X + 1)).
      split.
      - assert (H : (p10 (-99) < p10 (X + 1))%Q). { assert (p10 (-99) * 8 <= p10 (-95))%Q by (vm_compute; discriminate). nra. }
        apply p10_lt_inv in H. lia.
      - assert (H : (p10 X < p10 99)%Q). { assert (p10 95 * 8 <= p10 99)%Q by (vm_compute; discriminate). nra. }
        apply p10_lt_inv in H. lia. }
    destruct (exponent_found (bq M * p10 (- k)) D (bq r * p10 (- k)) (X - k) HD D1 Hr Z1 Z2) as (Hg & y' & R & N & HY & R1 & R2).
    { intros j Hj ED. 
      assert (Y : r = fdecimal false 1 (j + k)).
      { rewrite Er. apply fdecimal_value; [lia|lia|]. rewrite ED, <- p10_Z, <- p10_add by exact Hj. change (inject_Z 1) with 1%Q. ring. }
      assert (Rj : -300 <= j + k <= 300).
      { (* the power of ten is close to M *)
        assert (Q := p10_pos k). assert (Q' := p10_pos (- k)). assert (O := p10_opp k).
        assert (BD := half_even_bounds _ _ HD).
        assert (DQ : (1 <= inject_Z D)%Q) by (change 1%Q with (inject_Z 1); apply inject_le'; exact D1).
        assert (EDQ : (inject_Z D * p10 k == p10 (j + k))%Q) by (rewrite ED, <- p10_Z, <- p10_add by exact Hj; reflexivity).
        assert (EM : (bq M == bq M * p10 (- k) * p10 k)%Q).
        { rewrite <- Qmult_assoc, (Qmult_comm (p10 (- k))), O. ring. }
        assert (W1 : (p10 (j + k) <= 2 * bq M)%Q) by (rewrite EM, <- EDQ; nra).
        assert (W2 : (bq M <= 2 * p10 (j + k))%Q) by (rewrite EM at 1; rewrite <- EDQ; nra).
        split.
        - assert (H : (p10 (-300) < p10 (j + k))%Q). { assert (p10 (-300) * 4 <= p10 (-200))%Q by (vm_compute; discriminate).
            assert (H1 := p10_pos (-300)). lra. }
          apply p10_lt_inv in H. lia.
        - assert (H : (p10 (j + k) < p10 300)%Q). { assert (p10 200 * 4 <= p10 300)%Q by (vm_compute; discriminate).
            assert (H1 := p10_pos 200). lra. }
          apply p10_lt_inv in H. lia. }
      unfold X. rewrite Y, (ll_exact lm LL) by exact Rj. lia. }
    rewrite (fd_pos r Fr Pr). cbn [rbind]. fold X.
    eexists. split; [reflexivity|]. split.
    + exists (y' * p10 k)%Q. split; [apply near_scaled; [lra|exact N]|].
      assert (Q := p10_pos k). assert (O := p10_opp k).
      split; [contradiction|]. intros _. exists R, X. split; [|split; [|split]].
      * eapply half_even_comp; [|exact HY]. rewrite <- Qmult_assoc, O. ring.
      * replace X with (X - k + k) by lia. rewrite p10_add. nra.
      * replace (X + 1) with (X - k + 1 + k) by lia. rewrite p10_add. nra.
      * destruct T as [(_ & _ & _ & T)|[(T1 & _ & T3 & _ & ->)|(T1 & _ & T3 & _ & ->)]]; [discriminate| |].
        -- split; [reflexivity|contradiction].
        -- split; [contradiction|reflexivity].
    + intros Y. destruct (is_e (fmt_type p)); [intros EY; injection EY as <-; lia|].
      destruct (_ && _); [discriminate|intros EY; injection EY as <-; lia].
Qed.

(** ** Multiplications and divisions by powers of ten *)
Lemma pow_ok : forall n, -300 <= n <= 300 -> fpow10 lm n = Ok (pw10 lm n) /\ fin (pw10 lm n) /\ Bsign (pw10 lm n) = false /\
  (p10 n * (1 - (1 # 1000000000000000)) <= bq (pw10 lm n))%Q /\ (bq (pw10 lm n) <= p10 n * (1 + (1 # 1000000000000000)))%Q.
Proof.
  intros n H. destruct (ll_pow lm LL n H) as (F & E). change (fval (pw10 lm n)) with (bq (pw10 lm n)) in E.
  apply Qabs_Qle_condition in E. assert (P := p10_pos n).
  split. { unfold fpow10. destruct (pw10 lm n); try discriminate F; reflexivity. }
  split; [exact F|]. split; [|lra].
  assert (Sg := bq_sign _ F). destruct (Bsign (pw10 lm n)); [exfalso; lra|reflexivity].
Qed.
Lemma div_pos_bin : forall (x : f64) X, fin x -> (p10 (-95) <= Qabs (bq x))%Q -> (Qabs (bq x) <= p10 95)%Q -> -103 <= X <= 103 ->
  exists y, x_div10 K x X = Ok y /\ fin y /\ Bsign y = Bsign x /\ within (1 # 500000000000000) (bq x) (bq y * p10 X).
Proof.
  intros x X F A B HX. destruct (pow_ok X ltac:(lia)) as (E & Fp & Sp & P1 & P2). set (w := pw10 lm X) in *.
  assert (PX := p10_pos X). assert (Pw : (0 < bq w)%Q) by lra.
  set (v := (bq x / bq w)%Q).
  assert (Ev : (v * bq w == bq x)%Q) by (unfold v; field; lra).
  assert (Ea : (Qabs v * bq w == Qabs (bq x))%Q) by (rewrite <- Ev, Qabs_Qmult, (Qabs_pos (bq w)) by lra; reflexivity).
  assert (Av := Qabs_nonneg v).
  assert (U1 : (p10 X <= p10 103)%Q) by (apply p10_le; lia). assert (U2 : (p10 (-103) <= p10 X)%Q) by (apply p10_le; lia).
  assert (W1 : (bq w <= 2 * p10 103)%Q) by lra. assert (W2 : (p10 (-103) <= 2 * bq w)%Q) by lra.
  assert (V1 : (p10 (-95) <= Qabs v * (2 * p10 103))%Q) by nra.
  assert (V2 : (Qabs v * p10 (-103) <= 2 * p10 95)%Q) by nra.
  assert (R1 : (p10 (-300) <= Qabs v)%Q).
  { apply (Qmult_le_r _ _ (2 * p10 103)); [reflexivity|]. eapply Qle_trans; [|exact V1]. vm_compute. discriminate. }
  assert (R2 : (Qabs v <= p10 300)%Q).
  { apply (Qmult_le_r _ _ (p10 (-103))); [apply p10_pos|]. eapply Qle_trans; [exact V2|]. vm_compute. discriminate. }
  destruct (q_div x w F Fp ltac:(lra) R1 R2) as (D1 & D2 & D3 & D4). exists (fdiv x w).
  split; [cbn [x_div10 BinOps]; rewrite E; exact D1|]. split; [exact D2|]. split; [rewrite D4, Sp; apply xorb_false_r|].
  fold v in D3. set (b := bq (fdiv x w)) in *. unfold within.
  (* b*10^X - x = (b - v)*10^X + v*(10^X - w) *)
  setoid_replace (b * p10 X - bq x)%Q with ((b - v) * p10 X + v * (p10 X - bq w))%Q by (rewrite <- Ev; ring).
  eapply Qle_trans; [apply Qabs_triangle|]. rewrite !Qabs_Qmult, (Qabs_pos (p10 X)) by lra. rewrite <- Ea.
  assert (Y : (Qabs (p10 X - bq w) <= (1 # 1000000000000000) * p10 X)%Q) by (apply Qabs_Qle_condition; lra).
  assert (HU := hulp_tiny).
  assert (T1 : (Qabs (b - v) * p10 X <= hulp * Qabs v * p10 X)%Q) by (apply Qmult_le_compat_r; [exact D3|lra]).
  assert (T2 : (Qabs v * Qabs (p10 X - bq w) <= Qabs v * ((1 # 1000000000000000) * p10 X))%Q) by (rewrite !(Qmult_comm (Qabs v)); apply Qmult_le_compat_r; assumption).
  assert (HU2 : (hulp <= 1 # 9000000000000000)%Q) by (vm_compute; discriminate).
  assert (T3 : (hulp * Qabs v * p10 X <= (1 # 9000000000000000) * (Qabs v * p10 X))%Q).
  { rewrite <- Qmult_assoc. apply Qmult_le_compat_r; [exact HU2|]. apply Qmult_le_0_compat; lra. }
  assert (T4 : (Qabs v * (p10 X * (1 - (1 # 1000000000000000))) <= Qabs v * bq w)%Q) by (rewrite !(Qmult_comm (Qabs v)); apply Qmult_le_compat_r; assumption).
  assert (T5 : (0 <= Qabs v * p10 X)%Q) by (apply Qmult_le_0_compat; lra).
  set (a := (Qabs v * p10 X)%Q) in *. 
  setoid_replace (Qabs v * (p10 X * (1 - (1 # 1000000000000000))))%Q with (a * (1 - (1 # 1000000000000000)))%Q in T4 by (unfold a; ring).
  setoid_replace (Qabs v * ((1 # 1000000000000000) * p10 X))%Q with ((1 # 1000000000000000) * a)%Q in T2 by (unfold a; ring).
  lra.
Qed.
Lemma div_zero_bin : forall (x : f64) X, fin x -> (bq x == 0)%Q -> -300 <= X <= 300 ->
  x_div10 K x X = Ok (B754_zero (Bsign x)).
Proof.
  intros x X F Z0 HX. destruct (pow_ok X HX) as (E & Fp & Sp & P1 & P2). assert (PX := p10_pos X).
  cbn [x_div10 BinOps]. rewrite E. cbn [rbind]. rewrite (q_div0 x _ F Fp Z0) by lra. rewrite Sp, xorb_false_r. reflexivity.
Qed.
Lemma qmul_le : forall a b c d : Q, (0 <= a)%Q -> (a <= b)%Q -> (0 <= c)%Q -> (c <= d)%Q -> (a * c <= b * d)%Q.
Proof. intros. nra. Qed.
Lemma mul_pos_bin : forall (x : f64) X, fin x -> (0 < bq x)%Q -> (p10 (-298) <= bq x * p10 X)%Q -> (bq x * p10 X <= p10 298)%Q -> -300 <= X <= 300 ->
  exists y, x_mul10 K x X = Ok y /\ fin y /\ Bsign y = false /\ within (1 # 500000000000000) (bq x * p10 X) (bq y).
Proof.
  intros x X F Px A B HX. destruct (pow_ok X ltac:(lia)) as (E & Fp & Sp & P1 & P2). set (w := pw10 lm X) in *.
  assert (PX := p10_pos X). assert (Pw : (0 < bq w)%Q) by lra.
  set (v := (bq x * bq w)%Q). assert (Pv : (0 < v)%Q) by (unfold v; nra).
  assert (Av : (Qabs v == v)%Q) by (apply Qabs_pos; lra).
  assert (V1 : (bq x * (p10 X * (1 - (1 # 1000000000000000))) <= v)%Q) by (unfold v; rewrite !(Qmult_comm (bq x)); apply Qmult_le_compat_r; lra).
  assert (V2 : (v <= bq x * (p10 X * (1 + (1 # 1000000000000000))))%Q) by (unfold v; rewrite !(Qmult_comm (bq x)); apply Qmult_le_compat_r; lra).
  assert (Pa : (0 < bq x * p10 X)%Q) by nra.
  set (a := (bq x * p10 X)%Q) in *.
  setoid_replace (bq x * (p10 X * (1 - (1 # 1000000000000000))))%Q with (a * (1 - (1 # 1000000000000000)))%Q in V1 by (unfold a; ring).
  setoid_replace (bq x * (p10 X * (1 + (1 # 1000000000000000))))%Q with (a * (1 + (1 # 1000000000000000)))%Q in V2 by (unfold a; ring).
  assert (R1 : (p10 (-300) <= Qabs v)%Q).
  { rewrite Av. assert (p10 (-300) * 2 <= p10 (-298))%Q by (vm_compute; discriminate). lra. }
  assert (R2 : (Qabs v <= p10 300)%Q).
  { rewrite Av. assert (p10 298 * 2 <= p10 300)%Q by (vm_compute; discriminate). lra. }
  destruct (q_mul x w F Fp R1 R2) as (D1 & D2 & D3). exists (fmul x w).
  split; [cbn [x_mul10 BinOps]; rewrite E; reflexivity|]. split; [exact D1|].
  assert (Sx : Bsign x = false). { assert (Sg := bq_sign x F). destruct (Bsign x); [exfalso; lra|reflexivity]. }
  split; [rewrite D3, Sp, Sx; reflexivity|].
  fold v in D2. set (b := bq (fmul x w)) in *. unfold within. rewrite Av in D2. rewrite (Qabs_pos a) by lra.
  assert (HU2 : (hulp <= 1 # 9000000000000000)%Q) by (vm_compute; discriminate).
  assert (T3 : (hulp * v <= (1 # 9000000000000000) * v)%Q) by (apply Qmult_le_compat_r; lra).
  apply Qabs_Qle_condition in D2. apply Qabs_Qle_condition. lra.
Qed.

(** ** The rule of the Particle Data Group *)
Definition pdg_within (s s' : Q) (k : Z) : Prop :=
  exists S1 f D, within (1 # 200000000000) s S1 /\ (p10 f <= S1)%Q /\ (S1 < p10 (f + 1))%Q /\
    (inject_Z D <= S1 * p10 (2 - f))%Q /\ (S1 * p10 (2 - f) < inject_Z (D + 1))%Q /\
    ((100 <= D <= 354 /\ (s' == s)%Q /\ sig_within (1 # 200000000000) s 2 k) \/
     (355 <= D <= 949 /\ (s' == s)%Q /\ sig_within (1 # 200000000000) s 1 k) \/
     (950 <= D <= 999 /\ within (1 # 200000000000) (p10 (f + 1)) s' /\ sig_within (1 # 200000000000) (p10 (f + 1)) 2 k)).
Lemma floor_of : forall w, exists D, (inject_Z D <= w)%Q /\ (w < inject_Z (D + 1))%Q.
Proof. intros w. exists (Qround.Qfloor w). split; [apply Qround.Qfloor_le|apply Qround.Qlt_floor]. Qed.
Lemma pdg_pure : forall w q D', (100 * (1 - tiny) <= w)%Q -> (w < 1000 * (1 + tiny))%Q ->
  (Qabs (q - w) <= (1 # 200000000000000) * w)%Q -> (inject_Z D' <= q)%Q -> (q < inject_Z (D' + 1))%Q ->
  exists w1 D, (Qabs (w1 - w) <= (1 # 200000000000) * w)%Q /\ (100 <= w1)%Q /\ (w1 < 1000)%Q /\
    (inject_Z D <= w1)%Q /\ (w1 < inject_Z (D + 1))%Q /\
    (D' <= 354 -> 100 <= D <= 354) /\ (354 < D' <= 949 -> 355 <= D <= 949) /\ (949 < D' -> 950 <= D <= 999).
Proof.
  intros w q D' W1 W2 Hq F1 F2. apply Qabs_Qle_condition in Hq.
  assert (ONE : forall lo hi : Z, 100 <= lo -> hi <= 1000 -> lo + 1 < hi ->
     (inject_Z lo * (1 - (1 # 500000000000)) <= w)%Q -> (w <= inject_Z hi * (1 + (1 # 500000000000)))%Q ->
     exists w1 D, (Qabs (w1 - w) <= (1 # 200000000000) * w)%Q /\ (100 <= w1)%Q /\ (w1 < 1000)%Q /\
       (inject_Z D <= w1)%Q /\ (w1 < inject_Z (D + 1))%Q /\ lo <= D <= hi - 1).
  { intros lo hi Hlo Hhi Hlh L1 L2.
    assert (Q1 : (100 <= inject_Z lo)%Q) by (change 100%Q with (inject_Z 100); apply inject_le'; exact Hlo).
    assert (Q2 : (inject_Z hi <= 1000)%Q) by (change 1000%Q with (inject_Z 1000); apply inject_le'; exact Hhi).
    assert (Q3 : (inject_Z lo + 1 <= inject_Z hi)%Q) by (rewrite <- inject_S; apply inject_le'; lia).
    destruct (Qlt_le_dec w (inject_Z lo)) as [C|C]; [|destruct (Qlt_le_dec w (inject_Z hi)) as [C'|C']].
    - exists (inject_Z lo), lo. rewrite inject_S. split; [apply Qabs_Qle_condition; lra|]. repeat split; try lra; lia.
    - destruct (floor_of w) as (D & D1 & D2). exists w, D. split; [apply Qabs_Qle_condition; lra|]. repeat split; try lra.
      + assert (lo < D + 1); [|lia]. apply inject_lt. lra.
      + assert (D < hi); [|lia]. apply inject_lt. lra.
    - exists (inject_Z hi - (1 # 10000000000))%Q, (hi - 1). replace (hi - 1 + 1) with hi by lia.
      assert (E : (inject_Z (hi - 1) == inject_Z hi - 1)%Q) by (unfold Zminus; rewrite inject_Z_plus; reflexivity). rewrite E.
      split; [apply Qabs_Qle_condition; lra|]. repeat split; try lra; lia. }
  destruct (Z_le_gt_dec D' 354) as [C|C]; [|destruct (Z_le_gt_dec D' 949) as [C'|C']].
  - destruct (ONE 100 355 ltac:(lia) ltac:(lia) ltac:(lia)) as (w1 & D & A1 & A2 & A3 & A4 & A5 & A6).
    + change (inject_Z 100) with 100%Q. lra.
    + change (inject_Z 355) with 355%Q. assert (inject_Z (D' + 1) <= 355)%Q by (change 355%Q with (inject_Z 355); apply inject_le'; lia). lra.
    + exists w1, D. repeat (split; [assumption|]). split; [intros _; lia|]. split; intros; lia.
  - destruct (ONE 355 950 ltac:(lia) ltac:(lia) ltac:(lia)) as (w1 & D & A1 & A2 & A3 & A4 & A5 & A6).
    + change (inject_Z 355) with 355%Q. assert (355 <= inject_Z D')%Q by (change 355%Q with (inject_Z 355); apply inject_le'; lia). lra.
    + change (inject_Z 950) with 950%Q. assert (inject_Z (D' + 1) <= 950)%Q by (change 950%Q with (inject_Z 950); apply inject_le'; lia). lra.
    + exists w1, D. repeat (split; [assumption|]). split; [intros; lia|]. split; intros; lia.
  - destruct (ONE 950 1000 ltac:(lia) ltac:(lia) ltac:(lia)) as (w1 & D & A1 & A2 & A3 & A4 & A5 & A6).
    + change (inject_Z 950) with 950%Q. assert (950 <= inject_Z D')%Q by (change 950%Q with (inject_Z 950); apply inject_le'; lia). lra.
    + change (inject_Z 1000) with 1000%Q. lra.
    + exists w1, D. repeat (split; [assumption|]). split; [intros; lia|]. split; intros; lia.
Qed.
Lemma within_weak : forall c c' a b, (c <= c')%Q -> within c a b -> within c' a b.
Proof. intros c c' a b H W. unfold within in *. assert (A := Qabs_nonneg a). nra. Qed.
Lemma sig_weak : forall c c' v n l, (c <= c')%Q -> sig_within c v n l -> sig_within c' v n l.
Proof. intros c c' v n l H (v' & W & Sg). exists v'. split; [eapply within_weak; eassumption|exact Sg]. Qed.
(** Relative errors add up. *)
Lemma within_trans : forall c d c' x y z, within c x y -> within d y z -> (0 <= d)%Q -> (c + d + c * d <= c')%Q -> within c' x z.
Proof.
  intros c d c' x y z W1 W2 Hd Hc. unfold within in *. assert (A := Qabs_nonneg x).
  setoid_replace (z - x)%Q with (z - y + (y - x))%Q by ring. eapply Qle_trans; [apply Qabs_triangle|].
  assert (Y : (Qabs y <= Qabs x + c * Qabs x)%Q).
  { setoid_replace y with (y - x + x)%Q at 1 by ring. eapply Qle_trans; [apply Qabs_triangle|]. lra. }
  assert (d * Qabs y <= d * (Qabs x + c * Qabs x))%Q by (rewrite !(Qmult_comm d); apply Qmult_le_compat_r; assumption).
  assert ((c + d + c * d) * Qabs x <= c' * Qabs x)%Q by (apply Qmult_le_compat_r; assumption). lra.
Qed.
Lemma pdg_bin : forall s : f64, fin s -> (0 < bq s)%Q -> (p10 (-93) <= bq s)%Q -> (bq s <= p10 93)%Q ->
  exists n0 s', PDG_precision (K := K) s = Ok (n0, s') /\ 1 <= n0 <= 2 /\ fin s' /\ (0 < bq s')%Q /\
    (bq s <= 2 * bq s')%Q /\ (9 * bq s' <= 10 * bq s)%Q /\
    forall l, sig_within (1 # 250000000000) (bq s') n0 l -> pdg_within (bq s) (bq s') l.
Proof.
  intros s F P A0 B0.
  assert (A : (p10 (-95) <= bq s)%Q) by (eapply Qle_trans; [|exact A0]; apply p10_le; lia).
  assert (B : (bq s <= p10 95)%Q) by (eapply Qle_trans; [exact B0|]; apply p10_le; lia).
  assert (As : (Qabs (bq s) == bq s)%Q) by (apply Qabs_pos; lra).
  set (f := lg10 lm s).
  destruct (log_scaled s (f - 2) F P) as (Y1 & Y2). fold f in Y1, Y2.
  replace (f - (f - 2)) with 2 in * by lia. replace (2 + 1) with 3 in * by lia. change (p10 2) with 100%Q in Y1. change (p10 3) with 1000%Q in Y2.
  set (w := (bq s * p10 (- (f - 2)))%Q) in *.
  assert (Bf : -97 <= f <= 97).
  { destruct (ll_log lm LL s F P) as (C1 & C2). change (fval s) with (bq s) in *. fold f in C1, C2.
    assert (PX := p10_pos f). assert (PX1 := p10_pos (f + 1)). split.
    - assert (H : (p10 (-94) < p10 (f + 1))%Q). { assert (p10 (-94) * 2 <= p10 (-93))%Q by (vm_compute; discriminate). nra. }
      apply p10_lt_inv in H. lia.
    - assert (H : (p10 f < p10 94)%Q). { assert (p10 93 * 2 <= p10 94)%Q by (vm_compute; discriminate). nra. }
      apply p10_lt_inv in H. lia. }
  set (big := 0 <=? f). set (e := if big then f - 2 else f + 1).
  assert (He : -101 <= e <= 101) by (unfold e; destruct big; lia).
  destruct (div_pos_bin s e F) as (q & Eq & Fq & Sq & Wq); [rewrite As; assumption..|lia|].
  assert (Pe := p10_pos e). assert (Oe := p10_opp e). assert (Pe' := p10_pos (- e)).
  unfold within in Wq. rewrite As in Wq. apply Qabs_Qle_condition in Wq.
  assert (Pq : (0 < bq q)%Q) by nra.
  destruct q_small_Z as (Z1 & Z100 & Z1000 & _ & B1 & _ & B1000).
  (* the quotient, or 1000 times it *)
  assert (QQ : exists q', (if big then q else x_mul K q (fnorm 1000 0)) = q' /\ fin q' /\ (Qabs (bq q' - w) <= (1 # 200000000000000) * w)%Q).
  { assert (Ew : (w == bq s * p10 (- e) * (if big then 1 else 1000))%Q).
    { unfold w, e. destruct big; [ring|]. replace (- (f - 2)) with (- (f + 1) + 3) by lia. rewrite p10_add. change (p10 3) with 1000%Q. ring. }
    assert (Wq' : (bq s * p10 (- e) * (1 - (1 # 500000000000000)) <= bq q)%Q /\ (bq q <= bq s * p10 (- e) * (1 + (1 # 500000000000000)))%Q).
    { assert (Eb : (bq q == bq q * p10 e * p10 (- e))%Q) by (rewrite <- Qmult_assoc, Oe; ring). rewrite Eb. split; nra. }
    destruct Wq' as (W1 & W2). set (a := (bq s * p10 (- e))%Q) in *. assert (Pa : (0 < a)%Q) by (unfold a; nra).
    destruct big.
    - exists q. split; [reflexivity|]. split; [exact Fq|]. rewrite Ew. apply Qabs_Qle_condition. lra.
    - assert (V : (bq q * bq (fnorm 1000 0) == 1000 * bq q)%Q) by (rewrite B1000; ring).
      assert (Ap : (Qabs (bq q * bq (fnorm 1000 0)) == 1000 * bq q)%Q) by (rewrite V; apply Qabs_pos; lra).
      assert (Ra : (1 # 1000 <= a)%Q /\ (a <= 10000)%Q) by lra.
      destruct (q_mul q (fnorm 1000 0) Fq eq_refl) as (M1 & M2 & M3).
      + rewrite Ap. assert (p10 (-300) <= 1 # 1000)%Q by (vm_compute; discriminate). lra.
      + rewrite Ap. assert (100000000 <= p10 300)%Q by (vm_compute; discriminate). lra.
      + exists (fmul q (fnorm 1000 0)). split; [reflexivity|]. split; [exact M1|]. rewrite Ap in M2. rewrite V in M2. rewrite Ew.
        assert (HU2 : (hulp <= 1 # 9000000000000000)%Q) by (vm_compute; discriminate).
        assert (T : (hulp * (1000 * bq q) <= (1 # 9000000000000000) * (1000 * bq q))%Q) by (apply Qmult_le_compat_r; lra).
        apply Qabs_Qle_condition in M2. apply Qabs_Qle_condition. lra. }
  destruct QQ as (q' & Eq' & Fq' & Wq').
  assert (Wq2 := Wq'). apply Qabs_Qle_condition in Wq2.
  destruct (q_trunc q' Fq' ltac:(lra)) as (D' & ED & _ & D1 & D2).
  destruct (pdg_pure w (bq q') D' Y1 Y2 Wq' D1 D2) as (w1 & D & V1 & V2 & V3 & V4 & V5 & C1 & C2 & C3).
  assert (Pf := p10_pos (f - 2)). assert (Of := p10_opp (f - 2)).
  assert (COMMON : let S1 := (w1 * p10 (f - 2))%Q in within (1 # 200000000000) (bq s) S1 /\ (p10 f <= S1)%Q /\ (S1 < p10 (f + 1))%Q /\
    (inject_Z D <= S1 * p10 (2 - f))%Q /\ (S1 * p10 (2 - f) < inject_Z (D + 1))%Q).
  { intros S1. assert (Es : (bq s == w * p10 (f - 2))%Q).
    { unfold w. rewrite <- Qmult_assoc, (Qmult_comm (p10 (- (f - 2)))), Of. ring. }
    assert (E2 : (p10 f == 100 * p10 (f - 2))%Q) by (replace f with (2 + (f - 2)) at 1 by lia; rewrite p10_add; reflexivity).
    assert (E3 : (p10 (f + 1) == 1000 * p10 (f - 2))%Q) by (rewrite p10_succ, E2; ring).
    assert (E4 : (S1 * p10 (2 - f) == w1)%Q).
    { unfold S1. replace (2 - f) with (- (f - 2)) by lia. rewrite <- Qmult_assoc, Of. ring. }
    split; [|rewrite E2, E3, E4; unfold S1; repeat split; nra].
    unfold within. rewrite As. unfold S1. rewrite Es at 1.
    setoid_replace (w1 * p10 (f - 2) - w * p10 (f - 2))%Q with ((w1 - w) * p10 (f - 2))%Q by ring.
    rewrite Qabs_Qmult, (Qabs_pos (p10 (f - 2))) by lra. rewrite Es. nra. }
  cbv zeta in COMMON. set (S1 := (w1 * p10 (f - 2))%Q) in *.
  assert (EP : PDG_precision (K := K) s =
    if D' <=? 354 then Ok (2, s) else if D' <=? 949 then Ok (1, s)
    else rbind (f_of_Z (if big then 1000 else 1)) (fun c => rbind (x_mul10 K c e) (fun r => Ok (2, r)))).
  { unfold PDG_precision. rewrite (fd_pos s F P). cbn [rbind]. fold f. fold big.
    assert (Ep : (if big then (f - 2, true) else (f + 1, false)) = (e, big)) by (unfold e; destruct big; reflexivity). rewrite Ep.
    rewrite Eq. cbn [rbind]. cbn [x_of_Z BinOps]. rewrite Z1000. cbn [rbind]. rewrite Eq'. cbn [x_trunc BinOps]. rewrite ED. reflexivity. }
  rewrite EP. destruct (Z.leb_spec D' 354) as [G|G].
  - exists 2, s. split; [reflexivity|]. split; [lia|]. split; [exact F|]. split; [exact P|]. split; [lra|]. split; [lra|].
    intros l Hl. exists S1, f, D. destruct COMMON as (K1 & K2 & K3 & K4 & K5). repeat (split; [assumption|]).
    left. split; [apply C1; exact G|]. split; [reflexivity|]. eapply sig_weak; [|exact Hl]. reflexivity || (vm_compute; discriminate).
  - destruct (Z.leb_spec D' 949) as [G'|G'].
    + exists 1, s. split; [reflexivity|]. split; [lia|]. split; [exact F|]. split; [exact P|]. split; [lra|]. split; [lra|].
      intros l Hl. exists S1, f, D. destruct COMMON as (K1 & K2 & K3 & K4 & K5). repeat (split; [assumption|]).
      right. left. split; [apply C2; lia|]. split; [reflexivity|]. eapply sig_weak; [|exact Hl]. vm_compute. discriminate.
    + assert (MM : exists c r, f_of_Z (if big then 1000 else 1) = Ok c /\ x_mul10 K c e = Ok r /\ fin r /\ Bsign r = false /\
         within (1 # 500000000000000) (p10 (f + 1)) (bq r)).
      { assert (Cc : exists c, f_of_Z (if big then 1000 else 1) = Ok c /\ fin c /\ (bq c == if big then 1000 else 1)%Q).
        { destruct big; [exists (fnorm 1000 0)|exists (fnorm 1 0)]; (split; [assumption|]; split; [reflexivity|assumption]). }
        destruct Cc as (c & Ec & Fc & Bc). exists c.
        assert (E1 : (bq c * p10 e == p10 (f + 1))%Q).
        { rewrite Bc. unfold e. destruct big; [|ring]. replace (f + 1) with (3 + (f - 2)) by lia. rewrite p10_add. reflexivity. }
        destruct (mul_pos_bin c e Fc) as (r & Er & Fr & Sr & Wr); [|rewrite E1; apply p10_le; lia|rewrite E1; apply p10_le; lia|lia|].
        - rewrite Bc. destruct big; reflexivity.
        - exists r. split; [exact Ec|]. split; [exact Er|]. split; [exact Fr|]. split; [exact Sr|].
          unfold within in *. rewrite E1 in Wr. exact Wr. }
      destruct MM as (c & r & Ec & Er & Fr & Sr & Wr). rewrite Ec. cbn [rbind]. rewrite Er. cbn [rbind].
      assert (Pf1 := p10_pos (f + 1)).
      assert (Wr2 := Wr). unfold within in Wr2. rewrite (Qabs_pos (p10 (f + 1))) in Wr2 by lra. apply Qabs_Qle_condition in Wr2.
      destruct COMMON as (K1 & K2 & K3 & K4 & K5).
      assert (KS := K1). unfold within in KS. rewrite As in KS. apply Qabs_Qle_condition in KS.
      assert (E10 : (p10 (f + 1) == 1000 * p10 (f - 2))%Q) by (replace (f + 1) with (3 + (f - 2)) by lia; rewrite p10_add; reflexivity).
      assert (W950 : (950 <= w1)%Q). { assert (950 <= inject_Z D)%Q by (change 950%Q with (inject_Z 950); apply inject_le'; apply C3; lia). lra. }
      assert (SS : (950 * p10 (f - 2) <= S1)%Q) by (unfold S1; apply Qmult_le_compat_r; lra).
      exists 2, r. split; [reflexivity|]. split; [lia|]. split; [exact Fr|]. split; [lra|]. split; [lra|]. split; [lra|].
      intros l (v' & Hv & Hl). exists S1, f, D. repeat (split; [assumption|]).
      right. right. split; [apply C3; lia|]. split; [eapply within_weak; [|exact Wr]; vm_compute; discriminate|].
      exists v'. split; [|exact Hl]. eapply within_trans; [exact Wr|exact Hv| |]; vm_compute; discriminate.
Qed.

(** ** The position of the last digit *)
Definition place_within (U : Unicode) (p : parts) (V S0 S : Q) (k : Z) : Prop :=
  match p_prec p with
  | None => pdg_within S0 S k
  | Some d =>
      (S == S0)%Q /\
      (p_uncert p <> [] -> sig_within (1 # 250000000000) S0 (uval U d) k) /\
      (p_uncert p = [] ->
        (fixed_type (p_type p) -> k = - uval U d) /\
        (exp_type (p_type p) -> sig_within (1 # 250000000000) (Qmax (Qabs V) S0) (uval U d + 1) k) /\
        (gen_type (p_type p) -> sig_within (1 # 250000000000) (Qmax (Qabs V) S0) (Z.max 1 (uval U d)) k))
  end.
Lemma within_pos : forall c v v', (0 <= v)%Q -> within c v v' -> (v * (1 - c) <= v')%Q /\ (v' <= v * (1 + c))%Q.
Proof. intros c v v' P W. unfold within in W. rewrite (Qabs_pos v P) in W. apply Qabs_Qle_condition in W. lra. Qed.
Lemma rounds_pos : forall v n k M R, (0 < v)%Q -> sig_within (1 # 200000000000) v n k -> 1 <= n -> ((9 # 10) * v <= M)%Q ->
  half_even (M * p10 (- k)) R -> 1 <= R.
Proof.
  intros v n k M R Pv (v' & W & M1 & M' & _ & _ & H' & B') Hn HM HR. destruct (within_pos _ _ _ (Qlt_le_weak _ _ Pv) W) as (W1 & W2).
  assert (Q := p10_pos (- k)). assert (P10 : (10 <= p10 n)%Q) by (change 10%Q with (p10 1); apply p10_le; exact Hn).
  apply half_even_bounds in H'. replace (1 - k) with (- k + 1) in H' by lia. rewrite p10_succ in H'.
  assert (X : (p10 n <= inject_Z M')%Q) by (apply inject_le_pow; [lia|exact B']).
  apply (half_even_ge _ _ _ HR). change (inject_Z 1) with 1%Q.
  assert (Y : (19 # 2 <= v' * (10 * p10 (- k)))%Q) by lra.
  assert (Z1 : (v' * p10 (- k) <= v * (1 + (1 # 200000000000)) * p10 (- k))%Q) by (apply Qmult_le_compat_r; lra).
  assert (Z2 : ((9 # 10) * v * p10 (- k) <= M * p10 (- k))%Q) by (apply Qmult_le_compat_r; lra). lra.
Qed.
Lemma log_range : forall s : f64, fin s -> (0 < bq s)%Q -> (p10 (-94) <= bq s)%Q -> (bq s <= p10 94)%Q -> -97 <= lg10 lm s <= 96.
Proof.
  intros s F P A0 B0. destruct (ll_log lm LL s F P) as (C1 & C2). change (fval s) with (bq s) in *. set (f := lg10 lm s) in *.
  assert (PX := p10_pos f). assert (PX1 := p10_pos (f + 1)). split.
  - assert (H : (p10 (-96) < p10 (f + 1))%Q). { assert (p10 (-96) * 2 <= p10 (-94))%Q by (vm_compute; discriminate). nra. }
    apply p10_lt_inv in H. lia.
  - assert (H : (p10 f < p10 96)%Q). { assert (p10 94 * 2 <= p10 96)%Q by (vm_compute; discriminate). nra. }
    apply p10_lt_inv in H. lia.
Qed.
(** The larger of the two numbers. *)
Lemma larger_bin : forall nom s : f64, fin nom -> fin s -> (0 < bq s)%Q -> exists M,
  max_value (K := K) (real_values (K := K) nom s) = Some M /\ fin M /\ (0 < bq M)%Q /\ (bq M == Qmax (Qabs (bq nom)) (bq s))%Q /\
  List.length (real_values (K := K) nom s) = 2%nat.
Proof.
  intros nom s F G P. destruct (bq_abs nom F) as (Fa & Ea & _).
  assert (I1 : isinfinite (K := K) (fabs nom) = false) by (destruct nom; try discriminate F; reflexivity).
  assert (I2 : isinfinite (K := K) s = false) by (destruct s; try discriminate G; reflexivity).
  assert (ER : real_values (K := K) nom s = [fabs nom; s]).
  { unfold real_values. cbn [filter x_abs BinOps]. rewrite I1, I2. reflexivity. }
  rewrite ER. cbn [max_value]. change (x_lt K (fabs nom) s) with (Bltb (fabs nom) s).
  destruct (Bltb (fabs nom) s) eqn:E.
  - apply (bq_lt _ _ Fa G) in E. rewrite Ea in E. exists s. split; [reflexivity|]. split; [exact G|]. split; [exact P|]. split; [|reflexivity].
    symmetry. apply Q.max_r. lra.
  - assert (X : (bq s <= Qabs (bq nom))%Q).
    { destruct (Qlt_le_dec (Qabs (bq nom)) (bq s)) as [Y|Y]; [|exact Y]. rewrite <- Ea in Y. apply (bq_lt _ _ Fa G) in Y. congruence. }
    exists (fabs nom). split; [reflexivity|]. split; [exact Fa|]. split; [rewrite Ea; lra|]. split; [|reflexivity].
    rewrite Ea. symmetry. apply Q.max_l. exact X.
Qed.

Context (U : Unicode) (L : UniLaws U).
Definition sized (x : f64) : Prop := fin x /\ ((bq x == 0)%Q \/ ((p10 (-93) <= Qabs (bq x))%Q /\ (Qabs (bq x) <= p10 93)%Q)).
Lemma digits_bin : forall (nom s : f64) p s0, sized nom -> fin s -> (p10 (-93) <= bq s)%Q -> (bq s <= p10 93)%Q -> assembled U p s0 ->
  (p_uncert p <> [] -> forall d, p_prec p = Some d -> uval U d <> 0) ->
  (forall d, p_prec p = Some d -> uval U d <= 100) ->
  exists k s' prec0,
    digits_limit (K := K) U nom s p (fmt_type p) = Ok (Some k, s', prec0) /\
    fin s' /\ (bq s <= 2 * bq s')%Q /\ (bq s' <= 2 * bq s)%Q /\ place_within U p (bq nom) (bq s) (bq s') k /\ -197 <= k /\
    (~ fixed_type (p_type p) -> forall R, half_even (Qmax (Qabs (bq nom)) (bq s) * p10 (- k)) R -> 1 <= R).
Proof.
  intros nom s p s0 (FN & RN) FS A0 B0 As Hd Hmax. unfold digits_limit, place_within.
  assert (P93 := p10_pos (-93)). assert (P : (0 < bq s)%Q) by lra.
  destruct (larger_bin nom s FN FS P) as (M & EM & FM & PM & QM & Len). rewrite EM, Len.
  assert (LM : (bq s <= Qmax (Qabs (bq nom)) (bq s))%Q) by apply Q.le_max_r.
  assert (BM : (bq M <= p10 93)%Q).
  { rewrite QM. apply Q.max_lub; [|exact B0]. destruct RN as [Z0|(_ & X)]; [|exact X]. rewrite Z0. apply Qlt_le_weak, p10_pos. }
  assert (AM : (p10 (-93) <= bq M)%Q) by (rewrite QM; lra).
  assert (W200 : forall x, (p10 (-93) <= x)%Q -> (p10 (-200) <= x)%Q) by (intros; eapply Qle_trans; [|eassumption]; apply p10_le; lia).
  assert (V200 : forall x, (x <= p10 93)%Q -> (x <= p10 200)%Q) by (intros; eapply Qle_trans; [eassumption|]; apply p10_le; lia).
  assert (W94 : forall x, (p10 (-93) <= x)%Q -> (p10 (-94) <= x)%Q) by (intros; eapply Qle_trans; [|eassumption]; apply p10_le; lia).
  assert (V94 : forall x, (x <= p10 93)%Q -> (x <= p10 94)%Q) by (intros; eapply Qle_trans; [eassumption|]; apply p10_le; lia).
  assert (IZ : x_iszero K s = false).
  { destruct (x_iszero K s) eqn:E; [|reflexivity]. apply (bq_zero s FS) in E. lra. }
  assert (II : isinfinite (K := K) s = false) by (destruct s; try discriminate FS; reflexivity).
  rewrite IZ, II. change (Nat.eqb 2 2) with true. cbn [negb andb]. rewrite !andb_true_r.
  assert (WK : forall v n l, sig_within (1 # 250000000000) v n l -> sig_within (1 # 200000000000) v n l).
  { intros. eapply sig_weak; [|eassumption]. vm_compute. discriminate. }
  destruct (p_prec p) as [d|] eqn:Ep; cbn [orb].
  - destruct (as_prec _ _ _ As d Ep) as (Nd & Fd).
    rewrite <- (uval_val U d Fd). assert (Nn := uval_nonneg U L d Fd). assert (Nm := Hmax d eq_refl). set (N := uval U d) in *.
    assert (SMALL : exists k s' prec0, Ok (Some (- N), s, N) = Ok (Some k, s', prec0) /\ k = - N /\ s' = s) by (eexists _, _, _; auto).
    assert (SELF : (bq s <= 2 * bq s)%Q) by lra.
    destruct (p_uncert p) as [|c u] eqn:Eu; cbn [isnil negb].
    + destruct (type_cases p (as_type _ _ _ As)) as [(T1 & T2 & T3 & ->)|[(T1 & T2 & T3 & -> & ->)|(T1 & T2 & T3 & -> & ->)]].
      * exists (- N), s, N. split; [reflexivity|]. repeat (split; [assumption|]). split; [|split; [lia|contradiction]].
        split; [reflexivity|]. split; [intros X; exfalso; apply X; reflexivity|]. intros _. split; [reflexivity|]. split; intros; contradiction.
      * destruct (signif_bin M (N + 1) FM PM (W200 _ AM) (V200 _ BM) ltac:(lia)) as (l & -> & Hl & Rl). cbn [rbind].
        assert (Lg := log_range M FM PM (W94 _ AM) (V94 _ BM)).
        assert (Hl2 : sig_within (1 # 250000000000) (Qmax (Qabs (bq nom)) (bq s)) (N + 1) l).
        { destruct Hl as (v' & X1 & X2). exists v'. split; [|exact X2]. unfold within in *. rewrite QM in X1. exact X1. }
        exists l, s, N. split; [reflexivity|]. repeat (split; [assumption|]). split; [|split; [lia|]].
        -- split; [reflexivity|]. split; [intros X; exfalso; apply X; reflexivity|]. intros _. split; [intros; contradiction|]. split; [intros _; exact Hl2|intros; contradiction].
        -- intros _ R HR. eapply (rounds_pos _ (N + 1)); [|apply WK; exact Hl2|lia| |exact HR]; lra.
      * assert (En : (if N =? 0 then 1 else N) = Z.max 1 N) by (destruct (Z.eqb_spec N 0); lia). rewrite En.
        destruct (signif_bin M (Z.max 1 N) FM PM (W200 _ AM) (V200 _ BM) ltac:(lia)) as (l & -> & Hl & Rl). cbn [rbind].
        assert (Lg := log_range M FM PM (W94 _ AM) (V94 _ BM)).
        assert (Hl2 : sig_within (1 # 250000000000) (Qmax (Qabs (bq nom)) (bq s)) (Z.max 1 N) l).
        { destruct Hl as (v' & X1 & X2). exists v'. split; [|exact X2]. unfold within in *. rewrite QM in X1. exact X1. }
        exists l, s, N. split; [reflexivity|]. repeat (split; [assumption|]). split; [|split; [lia|]].
        -- split; [reflexivity|]. split; [intros X; exfalso; apply X; reflexivity|]. intros _. split; [intros; contradiction|]. split; [intros; contradiction|intros _; exact Hl2].
        -- intros _ R HR. eapply (rounds_pos _ (Z.max 1 N)); [|apply WK; exact Hl2|lia| |exact HR]; lra.
    + assert (N <> 0) by (apply Hd; [discriminate|reflexivity]). destruct (Z.eqb_spec N 0); [contradiction|].
      destruct (signif_bin s N FS P (W200 _ A0) (V200 _ B0) ltac:(lia)) as (l & -> & Hl & Rl). cbn [rbind].
      assert (Lg := log_range s FS P (W94 _ A0) (V94 _ B0)).
      exists l, s, 0. split; [reflexivity|]. repeat (split; [assumption|]). split; [|split; [lia|]].
      * split; [reflexivity|]. split; [intros _; exact Hl|discriminate].
      * intros _ R HR. eapply (rounds_pos _ N); [|apply WK; exact Hl|lia| |exact HR]; lra.
  - destruct (pdg_bin s FS P A0 B0) as (n0 & s' & -> & Hn & Fs' & Ps' & L1 & L2 & Hp). cbn [rbind fst snd].
    assert (A' : (p10 (-94) <= bq s')%Q). { assert (p10 (-94) * 2 <= p10 (-93))%Q by (vm_compute; discriminate). lra. }
    assert (B' : (bq s' <= p10 94)%Q). { assert (p10 93 * 2 <= p10 94)%Q by (vm_compute; discriminate). lra. }
    destruct (signif_bin s' n0 Fs' Ps') as (l & -> & Hl & Rl); [| |lia|].
    { eapply Qle_trans; [|exact A']. apply p10_le. lia. } { eapply Qle_trans; [exact B'|]. apply p10_le. lia. }
    cbn [rbind]. assert (Lg := log_range s' Fs' Ps' A' B').
    exists l, s', 0. split; [reflexivity|]. split; [exact Fs'|]. split; [exact L1|]. specialize (Hp l Hl). split; [lra|]. split; [exact Hp|]. split; [lia|].
    intros _ R HR. eapply (rounds_pos _ n0); [exact Ps'|apply WK; exact Hl|lia| |exact HR]. lra.
Qed.
End Bin.
