(** Parsing in binary64: accuracy of the numbers that are read. *)
From Coq Require Import String.
From Coq Require Import ZArith List Bool Lia QArith Qpower Qabs Lqa.
From Flocq Require Import BinarySingleNaN.
From Verif Require Import Base Str NumF FmtOps FmtF Format Parse FmtSpec ParseSpec BinSpec SpecProofs FormatProofs ParseProofs ParseThm FixedProofs ExFmt ExParse ExBin
  DecProofs BinProofs BinRepr BinQ BinFmt BinThm.
Import ListNotations.
Local Open Scope Z_scope.

(** * Specification *)

(** The exact value of a decimal text, times a power of ten. *)
Definition lex_q (neg : bool) (m e n : Z) : Q := qsigned neg (inject_Z m * p10 (e + n)).
(** Numbers that are far from the limits of binary64. *)
Definition fits (l : lexed) (n : Z) : Prop :=
  match l with
  | LDec _ m e => m = 0 \/ ((p10 (-290) <= inject_Z m * p10 (e + n))%Q /\ (inject_Z m * p10 (e + n) <= p10 290)%Q)
  | _ => True
  end.
Definition small (n : option Z) : Prop := -290 <= oz n <= 290.
Definition moderate (m : meaning) : Prop :=
  match m with
  | MPair a x b y n =>
      small x /\ small y /\ small n /\ fits a 0 /\ fits a (oz x) /\ fits a (oz x + oz n) /\
      fits b 0 /\ fits b (oz y) /\ fits b (oz y + oz n)
  | MParen a k w n =>
      small n /\ fits a 0 /\ fits a (oz n) /\
      match w with
      | UNumber l => fits l 0 /\ fits l (oz n)
      | UUnits d => Z.of_nat k <= 290 /\ fits (LDec false d 0) 0 /\ fits (LDec false d (- Z.of_nat k)) 0 /\ fits (LDec false d (- Z.of_nat k)) (oz n)
      | ULast => Z.of_nat k <= 290 /\ fits (LDec false 1 (- Z.of_nat k)) (oz n)
      end
  end.
(** A float that has the value of a text, times a power of ten, within a relative error [c]. *)
Definition reads_as (c : Q) (x : f64) (l : lexed) (n : Z) : Prop :=
  match l with
  | LDec neg m e => is_finite x = true /\ (Qabs (fval x - lex_q neg m e n) <= c * Qabs (lex_q neg m e n))%Q
  | LInf neg => x = B754_infinity neg
  | LNan => x = B754_nan
  end.
Definition denoted_near (m : meaning) (v u : f64) : Prop :=
  match m with
  | MPair a x b y n => reads_as (1 # 100000000000000) v a (oz x + oz n) /\ reads_as (1 # 100000000000000) u b (oz y + oz n)
  | MParen a k w n =>
      reads_as (1 # 100000000000000) v a (oz n) /\
      match w with
      | UUnits d => reads_as (1 # 100000000000000) u (LDec false d (- Z.of_nat k)) (oz n)
      | UNumber l => reads_as (1 # 100000000000000) u l (oz n)
      | ULast => reads_as (1 # 100000000000000) u (LDec false 1 (- Z.of_nat k)) (oz n)
      end
  end.
(** The float nearest to the value of a text; infinite if the value is too large. *)
Definition nearest (x : f64) (l : lexed) : Prop :=
  match l with
  | LDec neg m e => is_finite x = true -> forall y : f64, is_finite y = true ->
      (Qabs (fval x - lex_q neg m e 0) <= Qabs (fval y - lex_q neg m e 0))%Q
  | LInf neg => x = B754_infinity neg
  | LNan => x = B754_nan
  end.
(** The numbers that are written without a power of ten in front of the closing parenthesis, and not in units of the last digit. *)
Definition written (m : meaning) : option lexed * option lexed :=
  match m with
  | MPair a None b None None => (Some a, Some b)
  | MPair _ _ _ _ _ => (None, None)
  | MParen a _ (UNumber l) None => (Some a, Some l)
  | MParen a _ _ None => (Some a, None)
  | MParen _ _ _ _ => (None, None)
  end.

(** * Proofs *)
Section Bin.
Context (lm : Libm10) (LL : LibmLaws lm).
Notation K := (BinOps lm).

Definition close (c : Q) (x : f64) (q : Q) : Prop := fin x /\ within c q (bq x).
Definition mid (q : Q) : Prop := (q == 0)%Q \/ ((p10 (-290) <= Qabs q)%Q /\ (Qabs q <= p10 290)%Q).

Lemma within_eq : forall c a b a' b', (a == a')%Q -> (b == b')%Q -> within c a b -> within c a' b'.
Proof. intros c a b a' b' E F W. unfold within in *. rewrite <- E, <- F. exact W. Qed.
Lemma within_zero : forall c a b, (a == 0)%Q -> within c a b -> (b == 0)%Q.
Proof.
  intros c a b E W. unfold within in W. rewrite E in W. setoid_replace (b - 0)%Q with b in W by ring.
  change (Qabs 0) with 0%Q in W. setoid_replace (c * 0)%Q with 0%Q in W by ring. assert (A := Qabs_nonneg b). assert (Z : (Qabs b == 0)%Q) by lra.
  apply Qabs_Qle_condition in W. lra.
Qed.
Lemma within_zero_i : forall c a b, (0 <= c)%Q -> (a == 0)%Q -> (b == 0)%Q -> within c a b.
Proof. intros c a b H E F. apply within_refl; [exact H|]. rewrite E, F. reflexivity. Qed.
Lemma within_size : forall c a b, (c <= 1 # 2)%Q -> within c a b -> (Qabs a <= 2 * Qabs b)%Q /\ (Qabs b <= 2 * Qabs a)%Q.
Proof.
  intros c a b H W. unfold within in W. assert (A := Qabs_nonneg a). assert (B := Qabs_nonneg b).
  assert (X : (c * Qabs a <= (1 # 2) * Qabs a)%Q) by (apply Qmult_le_compat_r; assumption).
  assert (T1 := Qabs_triangle_reverse a b). assert (T2 := Qabs_triangle_reverse b a).
  assert (E : (Qabs (a - b) == Qabs (b - a))%Q) by (rewrite <- Qabs_opp; apply Qabs_wd; ring). rewrite E in T1. lra.
Qed.
Lemma mid_range : forall c q v, (c <= 1 # 2)%Q -> ~ (q == 0)%Q -> mid q -> within c q v -> (p10 (-300) <= Qabs v)%Q /\ (Qabs v <= p10 300)%Q.
Proof.
  intros c q v H N [Z|(A & B)] W; [contradiction|]. destruct (within_size c q v H W) as (X & Y).
  assert (P1 : (p10 (-300) * 2 <= p10 (-290))%Q) by (vm_compute; discriminate).
  assert (P2 : (p10 290 * 2 <= p10 300)%Q) by (vm_compute; discriminate). split; lra.
Qed.
Notation e15 := (1 # 1000000000000000)%Q.
Lemma pow_close : forall n, -300 <= n <= 300 -> fpow10 lm n = Ok (pw10 lm n) /\ fin (pw10 lm n) /\ Bsign (pw10 lm n) = false /\
  (0 < bq (pw10 lm n))%Q /\ within e15 (p10 n) (bq (pw10 lm n)).
Proof.
  intros n H. destruct (pow_ok lm LL n H) as (A & B & C & D & E). assert (P := p10_pos n).
  split; [exact A|]. split; [exact B|]. split; [exact C|]. split; [lra|].
  unfold within. rewrite (Qabs_pos (p10 n)) by lra. apply Qabs_Qle_condition. lra.
Qed.
Lemma mul_close : forall c c' x q n, close c x q -> (0 <= c)%Q -> (c + (5 # 4) * e15 <= c')%Q -> (c' <= 1 # 100000000000000)%Q -> -300 <= n <= 300 -> mid (q * p10 n) ->
  exists y, x_mul10 K x n = Ok y /\ close c' y (q * p10 n).
Proof.
  intros c c' x q n (F & W) C0 C1 C2 Hn M. destruct (pow_close n Hn) as (E & Fp & Sp & Pp & Wp). set (w := pw10 lm n) in *.
  exists (fmul x w). split. { cbn [x_mul10 BinOps]. rewrite E. reflexivity. }
  assert (PX := p10_pos n).
  assert (W1 : within c (q * p10 n) (bq x * p10 n)) by (apply within_scale; exact W).
  assert (W2 : within e15 (bq x * p10 n) (bq x * bq w)).
  { apply (within_eq _ (p10 n * bq x) (bq w * bq x)); [ring|ring|]. apply within_scale. exact Wp. }
  assert (W3 : within (c + (11 # 10) * e15) (q * p10 n) (bq x * bq w)).
  { apply (within_trans c e15 _ _ _ _ W1 W2); [discriminate|]. assert (c * e15 <= (1 # 100000000000000) * e15)%Q by (apply Qmult_le_compat_r; [lra|discriminate]). lra. }
  destruct (Qeq_dec q 0) as [Z|NZ].
  - assert (Zx : (bq x == 0)%Q) by exact (within_zero _ _ _ Z W). rewrite (q_mul0 x w F Fp Zx). split; [reflexivity|].
    apply within_zero_i; [lra|rewrite Z; ring|]. destruct (xorb _ _); reflexivity.
  - assert (NZ' : ~ (q * p10 n == 0)%Q). { intro X. apply Qmult_integral in X. destruct X as [X|X]; [contradiction|lra]. }
    destruct (mid_range (c + (11 # 10) * e15) _ _ ltac:(lra) NZ' M W3) as (R1 & R2).
    destruct (q_mul x w F Fp R1 R2) as (D1 & D2 & _). split; [exact D1|].
    apply (within_trans (c + (11 # 10) * e15) hulp _ _ _ _ W3 D2); [discriminate|].
    assert (HU2 : (hulp <= (12 # 100) * e15)%Q) by (vm_compute; discriminate).
    assert (X : ((c + (11 # 10) * e15) * hulp <= (1 # 100000000000) * hulp)%Q) by (apply Qmult_le_compat_r; [lra|discriminate]). lra.
Qed.
Lemma inv_close : forall c p w, (0 < p)%Q -> (0 < w)%Q -> (0 <= c)%Q -> (c <= 1 # 100)%Q -> within c p w -> within ((102 # 100) * c) (/ p) (/ w).
Proof.
  intros c p w Pp Pw C0 C1 W. unfold within in *. rewrite (Qabs_pos p) in W by lra. apply Qabs_Qle_condition in W.
  assert (Pi : (0 < / p)%Q) by (apply Qinv_lt_0_compat; exact Pp). assert (Qi : (0 < / w)%Q) by (apply Qinv_lt_0_compat; exact Pw).
  rewrite (Qabs_pos (/ p)) by lra.
  assert (E1 : (p * / p == 1)%Q) by (field; lra). assert (E2 : (w * / w == 1)%Q) by (field; lra).
  set (a := (/ p)%Q) in *. set (b := (/ w)%Q) in *. clearbody a b.
  assert (K1 : (w * a <= 1 + c)%Q) by nra. assert (K2 : (1 - c <= w * a)%Q) by nra.
  assert (G1 : (a <= b * (1 + c))%Q).
  { setoid_replace a with (w * b * a)%Q by (rewrite E2; ring). setoid_replace (w * b * a)%Q with (w * a * b)%Q by ring. rewrite (Qmult_comm b). apply Qmult_le_compat_r; lra. }
  assert (G2 : (b * (1 - c) <= a)%Q).
  { setoid_replace a with (w * b * a)%Q by (rewrite E2; ring). setoid_replace (w * b * a)%Q with (w * a * b)%Q by ring. rewrite (Qmult_comm b). apply Qmult_le_compat_r; lra. }
  apply Qabs_Qle_condition. split.
  - (* b >= a/(1+c) >= a (1 - c) *)
    assert (X : (a * (1 - c) <= b * (1 + c) * (1 - c))%Q) by (apply Qmult_le_compat_r; lra).
    assert (Y : (b * (1 + c) * (1 - c) <= b)%Q) by nra. nra.
  - assert (X : (b <= a * (1 + (102 # 100) * c))%Q).
    { assert (Y : (b * (1 - c) * (1 + (102 # 100) * c) <= a * (1 + (102 # 100) * c))%Q) by (apply Qmult_le_compat_r; [exact G2|lra]).
      assert (Z : (1 <= (1 - c) * (1 + (102 # 100) * c))%Q) by nra. nra. }
    lra.
Qed.
Lemma div_close : forall c c' x q n, close c x q -> (0 <= c)%Q -> (c + (5 # 4) * e15 <= c')%Q -> (c' <= 1 # 100000000000000)%Q -> -300 <= n <= 300 -> mid (q * p10 (- n)) ->
  exists y, x_div10 K x n = Ok y /\ close c' y (q * p10 (- n)).
Proof.
  intros c c' x q n (F & W) C0 C1 C2 Hn M. destruct (pow_close n Hn) as (E & Fp & Sp & Pp & Wp). set (w := pw10 lm n) in *.
  assert (PX := p10_pos n). assert (NW : ~ (bq w == 0)%Q) by lra.
  assert (Ei : (p10 (- n) == / p10 n)%Q). { assert (O := p10_opp n). setoid_replace (/ p10 n)%Q with (p10 n * p10 (- n) * / p10 n)%Q by (rewrite O; ring). field. lra. }
  assert (W1 : within c (q * p10 (- n)) (bq x * p10 (- n))) by (apply within_scale; exact W).
  assert (W2 : within ((102 # 100) * e15) (bq x * p10 (- n)) (bq x / bq w)).
  { apply (within_eq _ (/ p10 n * bq x) (/ bq w * bq x)); [rewrite Ei; ring|unfold Qdiv; ring|]. apply within_scale. apply inv_close; try assumption; discriminate. }
  assert (W3 : within (c + (11 # 10) * e15) (q * p10 (- n)) (bq x / bq w)).
  { apply (within_trans c ((102 # 100) * e15) _ _ _ _ W1 W2); [discriminate|]. assert (c * ((102 # 100) * e15) <= (1 # 100000000000000) * ((102 # 100) * e15))%Q by (apply Qmult_le_compat_r; [lra|discriminate]). lra. }
  destruct (Qeq_dec q 0) as [Z|NZ].
  - assert (Zx : (bq x == 0)%Q) by exact (within_zero _ _ _ Z W). eexists. split. { cbn [x_div10 BinOps]. rewrite E. cbn [rbind]. apply (q_div0 x w F Fp Zx NW). }
    split; [reflexivity|]. apply within_zero_i; [lra|rewrite Z; ring|]. destruct (xorb _ _); reflexivity.
  - assert (NZ' : ~ (q * p10 (- n) == 0)%Q). { intro X. apply Qmult_integral in X. destruct X as [X|X]; [contradiction|]. assert (P' := p10_pos (- n)). lra. }
    destruct (mid_range (c + (11 # 10) * e15) _ _ ltac:(lra) NZ' M W3) as (R1 & R2).
    destruct (q_div x w F Fp NW R1 R2) as (D0 & D1 & D2 & _). exists (fdiv x w). split. { cbn [x_div10 BinOps]. rewrite E. exact D0. }
    split; [exact D1|].
    apply (within_trans (c + (11 # 10) * e15) hulp _ _ _ _ W3 D2); [discriminate|].
    assert (HU2 : (hulp <= (12 # 100) * e15)%Q) by (vm_compute; discriminate).
    assert (X : ((c + (11 # 10) * e15) * hulp <= (1 # 100000000000) * hulp)%Q) by (apply Qmult_le_compat_r; [lra|discriminate]). lra.
Qed.

(** Decimal texts. *)
Lemma qsigned_abs : forall neg q, (Qabs (qsigned neg q) == Qabs q)%Q.
Proof. intros [|] q; simpl; [apply Qabs_opp|reflexivity]. Qed.
Lemma lex_q_mul : forall neg m e n k, (lex_q neg m e (n + k) == lex_q neg m e n * p10 k)%Q.
Proof.
  intros neg m e n k. unfold lex_q. rewrite Z.add_assoc. destruct neg; simpl qsigned; rewrite p10_add; ring.
Qed.
Lemma fits_mid : forall neg m e n, fits (LDec neg m e) n -> mid (lex_q neg m e n).
Proof.
  intros neg m e n [->|(A & B)]; unfold mid, lex_q.
  - left. destruct neg; simpl qsigned; unfold inject_Z; ring.
  - right. rewrite qsigned_abs. assert (P := p10_pos (-290)). rewrite Qabs_pos by lra. auto.
Qed.
Lemma mid_wd : forall a b, (a == b)%Q -> mid a -> mid b.
Proof. intros a b E [Z|(A & B)]; [left|right]; rewrite <- E; auto. Qed.
Lemma dec_close : forall neg m e, fits (LDec neg m e) 0 -> close hulp (fdecimal neg m e) (lex_q neg m e 0).
Proof.
  intros neg m e H. destruct (Z.eq_dec m 0) as [->|N].
  - rewrite q_dec0. split; [reflexivity|]. apply within_zero_i; [discriminate| |destruct neg; reflexivity].
    unfold lex_q. destruct neg; simpl qsigned; unfold inject_Z; ring.
  - destruct H as [H|(A & B)]; [contradiction|]. rewrite Z.add_0_r in A, B. assert (P := p10_pos e). assert (P2 := p10_pos (-290)).
    assert (Hm : 0 < m). { destruct (Z_le_gt_dec m 0) as [L|]; [|lia]. exfalso. assert (X : (inject_Z m <= 0)%Q) by (change 0%Q with (inject_Z 0); apply inject_le'; lia). nra. }
    assert (P1 : (p10 (-300) <= p10 (-290))%Q) by (apply p10_le; lia). assert (P3 : (p10 290 <= p10 300)%Q) by (apply p10_le; lia).
    destruct (q_dec neg m e Hm) as (F & S & W). { lra. } { lra. }
    split; [exact F|]. assert (Sg := bq_sign _ F). rewrite S in Sg.
    unfold within, lex_q. rewrite Z.add_0_r, qsigned_abs, (Qabs_pos (inject_Z m * p10 e)) by lra.
    destruct neg; simpl qsigned.
    + rewrite (Qabs_neg (bq _)) in W by exact Sg. setoid_replace (bq (fdecimal true m e) - - (inject_Z m * p10 e))%Q with (- (- bq (fdecimal true m e) - inject_Z m * p10 e))%Q by ring.
      rewrite Qabs_opp. exact W.
    + rewrite (Qabs_pos (bq _)) in W by exact Sg. exact W.
Qed.
Lemma reads_close : forall c x neg m e n, reads_as c x (LDec neg m e) n <-> close c x (lex_q neg m e n).
Proof. intros. unfold reads_as, close, within, fin. reflexivity. Qed.

(** A number read, then multiplied by powers of ten. *)
Lemma lex_reads : forall l, fits l 0 -> reads_as hulp (lex_fl (K := K) l) l 0.
Proof. intros [neg m e|neg|] H; [apply reads_close, dec_close; exact H|reflexivity|reflexivity]. Qed.
Lemma pow_inf : forall n, -300 <= n <= 300 -> x_mul10 K (x_nan K) n = Ok (x_nan K) /\ forall neg, x_mul10 K (B754_infinity neg) n = Ok (B754_infinity neg).
Proof.
  intros n H. destruct (pow_close n H) as (E & F & S & P & _). cbn [x_mul10 BinOps]. rewrite E. split; [reflexivity|].
  intro neg. cbn [rbind]. destruct (pw10 lm n) as [g| | |g m e B]; try discriminate F.
  - exfalso. destruct g; discriminate P.
  - cbn in S. subst g. destruct neg; reflexivity.
Qed.
Lemma times_reads : forall c c' x l n k, reads_as c x l n -> (0 <= c)%Q -> (c + (5 # 4) * e15 <= c')%Q -> (c' <= 1 # 100000000000000)%Q -> small k -> fits l (n + oz k) ->
  exists y, times (K := K) k x = Ok y /\ reads_as c' y l (n + oz k).
Proof.
  intros c c' x l n k H C0 C1 C2 Hk M. destruct k as [k|].
  - cbn [times oz] in *. unfold small in Hk. cbn [oz] in Hk. destruct l as [neg m e|neg|].
    + apply reads_close in H. destruct (mul_close c c' x _ k H C0 C1 C2 ltac:(lia) (mid_wd _ _ (lex_q_mul neg m e n k) (fits_mid _ _ _ _ M))) as (y & E & F & W).
      exists y. split; [exact E|]. apply reads_close. split; [exact F|]. apply (within_eq _ _ _ _ _ (Qeq_sym _ _ (lex_q_mul neg m e n k)) (Qeq_refl _) W).
    + cbn in H. subst x. exists (B754_infinity neg). split; [|reflexivity]. apply pow_inf. lia.
    + cbn in H. subst x. exists B754_nan. split; [|reflexivity]. apply (pow_inf k). lia.
  - exists x. split; [reflexivity|]. cbn [oz]. rewrite Z.add_0_r. destruct l as [neg m e|neg|]; try exact H. cbn in H |- *. destruct H as (F & H). split; [exact F|].
    eapply Qle_trans; [exact H|]. apply Qmult_le_compat_r; [|apply Qabs_nonneg]. assert (0 <= e15)%Q by discriminate. lra.
Qed.
Lemma power_ok : forall n, small n -> power (K := K) n = Ok tt.
Proof. intros [n|] H; [|reflexivity]. unfold power. unfold small in H. cbn [oz] in H. destruct (pow_inf n ltac:(lia)) as (E & _). rewrite E. reflexivity. Qed.

(** float(i) / 10.**k. *)
Lemma int_close : forall d, fits (LDec false d 0) 0 -> exists x, f_of_Z d = Ok x /\ close hulp x (inject_Z d).
Proof.
  intros d H. assert (C := dec_close false d 0 H). exists (fdecimal false d 0).
  assert (E : fdecimal false d 0 = fnorm d 0).
  { unfold fdecimal. destruct (Z.eqb_spec d 0) as [->|N]; [reflexivity|]. cbn [Z.leb]. change (10 ^ 0) with 1. rewrite Z.mul_1_r. reflexivity. }
  split.
  - unfold f_of_Z. rewrite E in C. destruct C as (F & _). rewrite E. destruct (fnorm d 0); try discriminate F; reflexivity.
  - destruct C as (F & W). split; [exact F|]. apply (within_eq _ _ _ _ _) with (3 := W); [|reflexivity]. unfold lex_q, qsigned. change (p10 (0 + 0)) with 1%Q. ring.
Qed.
Lemma units_reads : forall d k n, Z.of_nat k <= 290 -> small n -> fits (LDec false d 0) 0 -> fits (LDec false d (- Z.of_nat k)) 0 -> fits (LDec false d (- Z.of_nat k)) (oz n) ->
  exists x y u, x_of_Z K d = Ok x /\ x_div10 K x (Z.of_nat k) = Ok y /\ times (K := K) n y = Ok u /\ reads_as (1 # 100000000000000) u (LDec false d (- Z.of_nat k)) (oz n).
Proof.
  intros d k n Hk Hn F1 F2 F3. destruct (int_close d F1) as (x & E & C).
  assert (EQ : (lex_q false d (- Z.of_nat k) 0 == inject_Z d * p10 (- Z.of_nat k))%Q) by (unfold lex_q, qsigned; rewrite Z.add_0_r; reflexivity).
  assert (HU2 : (hulp <= (12 # 100) * e15)%Q) by (vm_compute; discriminate).
  destruct (div_close hulp (2 * e15) x (inject_Z d) (Z.of_nat k) C) as (y & E2 & F & W); [discriminate|lra|discriminate|lia|exact (mid_wd _ _ EQ (fits_mid _ _ _ _ F2))|].
  assert (R : reads_as (2 * e15) y (LDec false d (- Z.of_nat k)) 0). { apply reads_close. split; [exact F|]. exact (within_eq _ _ _ _ _ (Qeq_sym _ _ EQ) (Qeq_refl _) W). }
  destruct (times_reads (2 * e15) (1 # 100000000000000) y _ 0 n R) as (u & E3 & R3); try discriminate; try assumption.
  exists x, y, u. split; [exact E|]. split; [exact E2|]. split; [exact E3|]. exact R3.
Qed.
Lemma one_fits : fits (LDec false 1 0) 0.
Proof. right. split; vm_compute; discriminate. Qed.

Lemma two_reads : forall l x n, small x -> small n -> fits l 0 -> fits l (oz x) -> fits l (oz x + oz n) ->
  exists a b, times (K := K) x (lex_fl l) = Ok a /\ times (K := K) n a = Ok b /\ reads_as (1 # 100000000000000) b l (oz x + oz n).
Proof.
  intros l x n Hx Hn F0 F1 F2. assert (HU2 : (hulp <= (12 # 100) * e15)%Q) by (vm_compute; discriminate).
  destruct (times_reads hulp (2 * e15) _ l 0 x (lex_reads l F0)) as (a & E & R); [discriminate|lra|discriminate|exact Hx|exact F1|].
  cbn [Z.add] in R. destruct (times_reads (2 * e15) (1 # 100000000000000) a l (oz x) n R) as (b & E2 & R2); try discriminate; try assumption.
  exists a, b. auto.
Qed.
Lemma one_reads : forall l n, small n -> fits l 0 -> fits l (oz n) ->
  exists b, times (K := K) n (lex_fl l) = Ok b /\ reads_as (1 # 100000000000000) b l (oz n).
Proof.
  intros l n Hn F0 F1. assert (HU2 : (hulp <= (12 # 100) * e15)%Q) by (vm_compute; discriminate).
  destruct (times_reads hulp (1 # 100000000000000) _ l 0 n (lex_reads l F0)) as (a & E & R); [discriminate|lra|discriminate|exact Hn|exact F1|].
  exists a. auto.
Qed.

Lemma meaning_near : forall m, moderate m -> exists v u, meaning_fl (K := K) m = Ok (v, u) /\ denoted_near m v u.
Proof.
  intros [a x b y n|a k w n] H; cbn [moderate] in H.
  - destruct H as (Hx & Hy & Hn & A0 & A1 & A2 & B0 & B1 & B2).
    destruct (two_reads a x n Hx Hn A0 A1 A2) as (v1 & v & E1 & E2 & R). destruct (two_reads b y n Hy Hn B0 B1 B2) as (u1 & u & G1 & G2 & S).
    exists v, u. split; [|split; assumption]. cbn [meaning_fl]. rewrite (power_ok n Hn). cbn [rbind]. rewrite E1. cbn [rbind]. rewrite E2. cbn [rbind]. rewrite G1. cbn [rbind].
    rewrite G2. reflexivity.
  - destruct H as (Hn & A0 & A1 & HW). destruct (one_reads a n Hn A0 A1) as (v & E1 & R).
    cbn [meaning_fl denoted_near]. rewrite (power_ok n Hn). cbn [rbind]. rewrite E1. cbn [rbind].
    destruct w as [d|l|].
    + destruct HW as (Hk & F1 & F2 & F3). destruct (units_reads d k n Hk Hn F1 F2 F3) as (x0 & y0 & u & G1 & G2 & G3 & S).
      exists v, u. split; [|split; assumption]. rewrite G1. cbn [rbind]. rewrite G2. cbn [rbind]. rewrite G3. reflexivity.
    + destruct HW as (F1 & F2). destruct (one_reads l n Hn F1 F2) as (u & G & S). exists v, u. split; [|split; assumption]. cbn [rbind]. rewrite G. reflexivity.
    + destruct HW as (Hk & F3).
      assert (F2 : fits (LDec false 1 (- Z.of_nat k)) 0).
      { right. rewrite Z.add_0_r. change (inject_Z 1) with 1%Q. rewrite Qmult_1_l. split; apply p10_le; lia. }
      destruct (units_reads 1 k n Hk Hn one_fits F2 F3) as (x0 & y0 & u & G1 & G2 & G3 & S).
      exists v, u. split; [|split; assumption]. rewrite G1. cbn [rbind]. rewrite G2. cbn [rbind]. rewrite G3. reflexivity.
Qed.
End Bin.

Theorem bin_notation : forall (U : Unicode), UniLaws U -> forall (lm : Libm10), LibmLaws lm ->
  forall s m sp sp' tag, notation U s m -> spaces U sp -> spaces U sp' -> moderate m ->
  exists v u, denoted_near m v u /\
    ((~ (is_finite u = true /\ (fval u < 0)%Q) /\ ufloat_fromstr (K := BinOps lm) U (sp ++ s ++ sp') tag = Ok (v, u, tag, 0%nat)) \/
     ((is_finite u = true /\ (fval u < 0)%Q) /\ ufloat_fromstr (K := BinOps lm) U (sp ++ s ++ sp') tag = Err ENegStd)).
Proof.
  intros U L lm LL s m sp sp' tag H F F' M. destruct (meaning_near lm LL m M) as (v & u & E & D). exists v, u. split; [exact D|].
  rewrite (float_notation U L (BinOps lm) _ _ _ _ tag H F F'), E.
  assert (N : x_sign (BinOps lm) u && negb (x_iszero (BinOps lm) u) && negb (x_isinf (BinOps lm) u || x_isnan (BinOps lm) u) = true <-> is_finite u = true /\ (fval u < 0)%Q).
  { cbn [x_sign x_iszero x_isinf x_isnan BinOps]. change (fval u) with (bq u). destruct (is_finite u) eqn:Fu.
    - assert (Sg := bq_sign u Fu). assert (Z := bq_zero u Fu). replace (is_inf u || is_nanf u) with false by (destruct u; try discriminate Fu; reflexivity).
      rewrite andb_true_r. change (NumF.sign_of u) with (Bsign u). destruct (Bsign u); cbn [andb].
      + destruct (Beqb u f0); cbn [negb].
        * split; [discriminate|]. intros (_ & X). destruct Z as (Z & _). specialize (Z eq_refl). exfalso. lra.
        * split; [|reflexivity]. intros _. split; [reflexivity|]. destruct (Qeq_dec (bq u) 0) as [Y|Y]; [apply Z in Y; discriminate|].
          apply Qle_lteq in Sg. destruct Sg as [Sg|Sg]; [exact Sg|contradiction].
      + split; [discriminate|]. intros (_ & X). exfalso. lra.
    - replace (is_inf u || is_nanf u) with true by (destruct u; try discriminate Fu; reflexivity). rewrite andb_false_r. split; [discriminate|]. intros (X & _). discriminate X. }
  destruct (_ && _) eqn:B in N |- *.
  - right. split; [apply N; reflexivity|reflexivity].
  - left. split; [intros X; apply N in X; discriminate|reflexivity].
Qed.

Lemma lex_nearest : forall lm l, lex_ok l -> nearest (lex_fl (K := BinOps lm) l) l.
Proof.
  intros lm [neg m e|neg|] H; [|reflexivity|reflexivity]. cbn in H. cbn [nearest lex_fl x_dec BinOps]. intros F y Fy. change (fval y) with (bq y). change (fval (fdecimal neg m e)) with (bq (fdecimal neg m e)).
  destruct (Z.eq_dec m 0) as [->|N].
  - assert (E : (lex_q neg 0 e 0 == 0)%Q) by (unfold lex_q, qsigned, inject_Z; destruct neg; ring). rewrite E.
    rewrite q_dec0. setoid_replace (bq (B754_zero neg) - 0)%Q with 0%Q by (destruct neg; reflexivity). apply Qabs_nonneg.
  - pose proof (q_nearest neg m e y ltac:(lia) F Fy) as Q. cbv zeta in Q. assert (Sg := bq_sign _ F). rewrite fdecimal_sign in Sg by lia.
    assert (P := p10_pos e). assert (Pm : (0 < inject_Z m)%Q) by (change 0%Q with (inject_Z 0); apply inject_lt'; lia).
    assert (Pv : (0 < inject_Z m * p10 e)%Q) by nra. set (v := (inject_Z m * p10 e)%Q) in *.
    unfold lex_q. rewrite Z.add_0_r. fold v. assert (T := Qabs_triangle_reverse (bq y) (qsigned neg v)).
    rewrite qsigned_abs, (Qabs_pos v) in T by lra.
    assert (T' : (Qabs (Qabs (bq y) - v) <= Qabs (bq y - qsigned neg v))%Q).
    { apply Qabs_Qle_condition. assert (T2 := Qabs_triangle_reverse (qsigned neg v) (bq y)). rewrite qsigned_abs, (Qabs_pos v) in T2 by lra.
      assert (E : (Qabs (qsigned neg v - bq y) == Qabs (bq y - qsigned neg v))%Q) by (rewrite <- Qabs_opp; apply Qabs_wd; ring). rewrite E in T2. split; lra. }
    eapply Qle_trans; [|exact T']. eapply Qle_trans; [|exact Q]. destruct neg; simpl qsigned.
    + rewrite (Qabs_neg (bq (fdecimal true m e))) by exact Sg. apply Qle_lteq. right. rewrite <- Qabs_opp. apply Qabs_wd. ring.
    + rewrite (Qabs_pos (bq (fdecimal false m e))) by exact Sg. apply Qle_refl.
Qed.

Theorem bin_nearest : forall (U : Unicode), UniLaws U -> forall (lm : Libm10) s m sp sp' tag v u, notation U s m -> spaces U sp -> spaces U sp' ->
  ufloat_fromstr (K := BinOps lm) U (sp ++ s ++ sp') tag = Ok (v, u, tag, 0%nat) ->
  (forall l, fst (written m) = Some l -> nearest v l) /\ (forall l, snd (written m) = Some l -> nearest u l).
Proof.
  intros U L lm s m sp sp' tag v u H F F' E. rewrite (float_notation U L (BinOps lm) _ _ _ _ tag H F F') in E.
  assert (Hs : exists s', simple_notation U s' m) by (destruct H; eexists; eassumption). clear H s sp sp' F F'. destruct Hs as (s & H).
  destruct (meaning_fl m) as [(v0 & u0)|] eqn:M; [|discriminate E]. destruct (_ && _) in E; [discriminate E|]. injection E as -> ->.
  destruct H as [s a x pm t b y Hs Hp Ht|s a x pm t b y e n Hs Hp Ht He|sg neg s a k p w e n Hg Hs Hp He].
  - destruct x; [split; intros l X; discriminate X|]. destruct y; [split; intros l X; discriminate X|].
    cbn in M. injection M as <- <-. split; intros l X; injection X as <-; apply lex_nearest; eapply number_ok; eassumption.
  - destruct x; [split; intros l X; discriminate X|]. destruct y; [split; intros l X; discriminate X|]. split; intros l X; discriminate X.
  - destruct n as [n|]; [split; intros l X; destruct w; discriminate X|].
    split; intros l X.
    + assert (l = a) by (destruct w; injection X as <-; reflexivity). subst l. unfold meaning_fl in M. cbn [power times rbind] in M.
      destruct (match w with UUnits _ => _ | UNumber _ => _ | ULast => _ end) in M; [|discriminate M]. cbn [rbind] in M. injection M as <- _.
      apply lex_nearest. eapply unsigned_ok; eassumption.
    + destruct w as [d|l'|]; try discriminate X. injection X as <-. cbn in M. injection M as _ <-. apply lex_nearest.
      inversion Hp as [|i f Hi Hf Nif|w0 l0 Hw|]; subst; [|destruct Hw; exact I]. apply (uval_nonneg U L), Forall_app; split; assumption.
Qed.

(** Examples. *)
Definition read_x (s : str) (v u : f64) : bool :=
  match ufloat_fromstr (K := BinOps lmx) uni s ANone with Ok (v', u', _, _) => Beqb v' v && Beqb u' u | Err _ => false end.
Lemma ex_moderate : moderate (MPair (LDec true 123 (-2)) None (LDec false 4 (-1)) None (Some 5)) /\
  moderate (MParen (LDec true 123 (-2)) 2 (UUnits 45) (Some 5)) /\
  read_x (lit "(-1.23 +/- 0.4)e5") (fl_of (-123) 3) (fl_of 4 4) = true /\
  read_x (lit "-1.23(45)e5") (fl_of (-123) 3) (fl_of 45 3) = true.
Proof.
  assert (S5 : small (Some 5)) by (unfold small; cbn [oz]; lia). assert (S0 : small None) by (unfold small; cbn [oz]; lia).
  split; [|split; [|split; vm_compute; reflexivity]].
  - cbn [moderate]. repeat (split; [first [assumption|right; split; vm_compute; discriminate]|]). right. split; vm_compute; discriminate.
  - cbn [moderate]. split; [exact S5|]. split; [right; split; vm_compute; discriminate|]. split; [right; split; vm_compute; discriminate|].
    split; [lia|]. split; [right; split; vm_compute; discriminate|]. split; right; split; vm_compute; discriminate.
Qed.
Lemma ex_written : notation uni (lit "12.3(4.5)") (MParen (LDec false 123 (-1)) 1 (UNumber (LDec false 45 (-1))) None) /\
  written (MParen (LDec false 123 (-1)) 1 (UNumber (LDec false 45 (-1))) None) = (Some (LDec false 123 (-1)), Some (LDec false 45 (-1))) /\
  read_x (lit "12.3(4.5)") (fl_of 123 (-1)) (fl_of 45 (-1)) = true.
Proof. split; [apply ex_notations|]. split; [reflexivity|vm_compute; reflexivity]. Qed.
