(** Exceptions of operators in binary64. *)
From Coq Require Import ZArith List Bool Lia Reals Lra.
From Flocq Require Import Core BinarySingleNaN.
From Verif Require Import Base Heap NumR NumF Affine Ops Plain Machine History GenProofs FFacts FRefute BinProofs BinQ BinStd.
Import ListNotations.
Local Open Scope R_scope.

Section Arith.
Variable lm : Libm.
Notation FN := (FOps lm).
Implicit Types p q : pynum FN.

Lemma nan_no_arith : forall (r : res (pynum FN)) e, nan_if_exception r = Err e -> arith e = false.
Proof. intros [c|e0] e H; [discriminate|]. destruct e0; simpl in H; try discriminate H; injection H; intros <-; reflexivity. Qed.
Lemma Beqb_zero : forall x : f64, is_finite x = true -> Beqb x f0 = Req_bool (B2R x) 0.
Proof. intros x F. rewrite (Beqb_correct _ _ x f0 F eq_refl). reflexivity. Qed.
Lemma not_zero : forall x : f64, is_finite x = true -> B2R x <> 0 -> Beqb x f0 = false.
Proof. intros x F H. rewrite Beqb_zero by exact F. apply Req_bool_false. exact H. Qed.
(** 1/n for an int n. *)
Lemma inverse_ok : forall z, z <> 0%Z -> exists r, f_divZ 1 z = Ok r.
Proof.
  intros z Hz. unfold f_divZ. destruct (Z.eqb_spec z 0) as [|_]; [contradiction|].
  assert (A : forall a b, (a = 1 \/ a = -1)%Z -> (0 < b)%Z -> is_inf (fratio a b) = false).
  { intros a b Ha Hb. assert (N : a <> 0%Z) by lia. pose proof (fratio_R a b N Hb) as X. cbv zeta in X.
    assert (L : Rabs (rnd64 (IZR a / IZR b)) < bpow radix2 1024).
    { apply Rle_lt_trans with (bpow radix2 0); [|apply bpow_lt; lia].
      apply (abs_round_le_generic radix2 fexp64 ZnearestE); [apply (generic_format_bpow radix2 fexp64); vm_compute; discriminate|].
      unfold Rdiv. rewrite Rabs_mult. rewrite Rabs_inv. assert (B : 1 <= Rabs (IZR b)) by (rewrite Rabs_pos_eq by (apply IZR_le; lia); apply IZR_le; lia).
      assert (E : Rabs (IZR a) = 1) by (rewrite <- abs_IZR; f_equal; lia). rewrite E, Rmult_1_l. change (bpow radix2 0) with 1.
      rewrite <- Rinv_1. apply Rinv_le_contravar; lra. }
    rewrite Rlt_bool_true in X by exact L. destruct X as (_ & X & _). destruct (fratio a b); try discriminate X; reflexivity. }
  destruct (Z.ltb_spec z 0) as [L|L]; rewrite A by lia; eexists; reflexivity.
Qed.

(** Squares of negative numbers. *)
Lemma square_abs : forall x : f64, is_finite x = true -> f_pow lm x ftwo = f_pow lm (fabs x) ftwo.
Proof.
  intros x F. unfold f_pow. change (Beqb ftwo f0) with false. change (is_nanf ftwo) with false. change (is_inf ftwo) with false. cbv iota.
  rewrite two_even, two_int. cbn [negb]. rewrite !andb_false_r. change (Bltb ftwo f0) with false.
  destruct x as [g| | |g m e B]; try discriminate F; [reflexivity|]. cbn [is_nanf is_inf fabs Babs].
  assert (X : Beqb (B754_finite g m e B : f64) f0 = false) by (destruct g; reflexivity).
  assert (Y : Beqb (B754_finite false m e B : f64) f0 = false) by reflexivity.
  unfold fabs, Babs. rewrite X, Y. reflexivity.
Qed.
Lemma square_nonzero : squares_ok lm -> forall y : f64, is_finite y = true -> / 10 ^ 140 <= Rabs (B2R y) <= 10 ^ 140 ->
  exists r, f_pow lm y ftwo = Ok (Some r) /\ Beqb r f0 = false.
Proof.
  intros SQ y F H. assert (U := u53_val). assert (P1 : 0 < 10 ^ 140) by (apply pow_lt; lra). assert (P2 : 0 < / 10 ^ 140) by (apply Rinv_0_lt_compat, P1).
  assert (Fa : is_finite (fabs y) = true) by (destruct y; try discriminate F; reflexivity).
  assert (Ea : B2R (fabs y) = Rabs (B2R y)) by apply B2R_Babs.
  assert (R : / 10 ^ 141 <= B2R (fabs y) <= 10 ^ 141).
  { rewrite Ea. replace (10 ^ 141) with (10 * 10 ^ 140) by (cbn [pow]; ring). set (t := 10 ^ 140) in *. clearbody t. rewrite Rinv_mult. set (w := / t) in *. clearbody w. lra. }
  destruct (square_ok lm SQ (fabs y) Fa) as (r & E & Fr & Hr); [rewrite Ea; apply Rabs_pos|right; exact R|].
  exists r. rewrite square_abs by exact F. split; [exact E|]. apply not_zero; [exact Fr|]. intros Z. rewrite Z in Hr. apply Rabs_le_inv in Hr.
  assert (X : 0 < B2R (fabs y) ^ 2) by (apply pow_lt; rewrite Ea; lra). nra.
Qed.
(** The numerical derivative of x % y with respect to y. *)
Lemma fin_not_nan : forall x : f64, is_finite x = true -> is_nanf x = false.
Proof. intros x F. destruct x; try discriminate F; reflexivity. Qed.
Lemma step_R : B2R (fnorm 1 (-26)) = / 2 ^ 26.
Proof. 
  change (B2R (fnorm 1 (-26))) with (IZR 4503599627370496 * / IZR 302231454903657293676544). rewrite pow_IZR. apply (Rmult_eq_reg_r (IZR 302231454903657293676544)); [|apply IZR_neq; discriminate].
  rewrite Rmult_assoc, Rinv_l, Rmult_1_r by (apply IZR_neq; discriminate). change (2 ^ Z.of_nat 26)%Z with 67108864%Z.
  replace (IZR 302231454903657293676544) with (IZR 67108864 * IZR 4503599627370496) by (rewrite <- mult_IZR; reflexivity). 
  rewrite <- Rmult_assoc, Rinv_l, Rmult_1_l by (apply IZR_neq; discriminate). reflexivity.
Qed.
Lemma two_R : B2R (fnorm 2 0) = 2.
Proof. change (B2R (fnorm 2 0)) with (IZR 4503599627370496 * / IZR 2251799813685248). lra. Qed.
Lemma fsub_ok : forall x y : f64, is_finite x = true -> is_finite y = true -> let v := B2R x - B2R y in
  v = 0 \/ lo <= Rabs v <= hi -> is_finite (fsub x y) = true /\ Rabs (B2R (fsub x y) - v) <= u53 * Rabs v.
Proof.
  intros x y F G v H. destruct (rnd_ok v H) as (A & B).
  pose proof (Bminus_correct 53 1024 prec_gt_0_64 prec_lt_emax_64 mode_NE x y F G) as C. fold (fsub x y) in C. fold v in C.
  change (round_mode mode_NE) with ZnearestE in C. rewrite Rlt_bool_true in C by exact A. destruct C as (C1 & C2 & _).
  split; [exact C2|]. rewrite C1. exact B.
Qed.
Lemma mod_der : forall (x y : f64), is_finite y = true -> / 10 ^ 140 <= Rabs (B2R y) <= 10 ^ 140 ->
  exists c, op_der_y (N:=FN) Bmod (PF (N:=FN) x) (PF (N:=FN) y) = Ok c.
Proof.
  intros x y F H. assert (U := u53_val).
  rewrite pow10 in H. rewrite <- r10_inv in H. assert (P0 := r10_pos (- Z.of_nat 140)). assert (P1 := r10_pos (Z.of_nat 140)).
  assert (L1 : 10 * lo <= r10 (- Z.of_nat 140) * / 2 ^ 26).
  { apply Rle_trans with (r10 (- Z.of_nat 140) * r10 (-10)).
    - replace 10 with (r10 1) by (rewrite r10_Z by lia; reflexivity). rewrite <- !r10_add. apply r10_le. lia.
    - apply Rmult_le_compat_l; [lra|]. change (-10)%Z with (- (10))%Z. rewrite r10_inv, r10_Z by lia. apply Rinv_le_contravar; [apply pow_lt; lra|].
      rewrite pow_IZR. apply IZR_le. vm_compute. discriminate. }
  assert (L2 : 10 * r10 (Z.of_nat 140) <= hi).
  { replace 10 with (r10 1) by (rewrite r10_Z by lia; reflexivity). rewrite <- !r10_add. apply r10_le. lia. }
  assert (K : 0 < / 2 ^ 26 <= / 1000000). { split; [apply Rinv_0_lt_compat, pow_lt; lra|]. apply Rinv_le_contravar; [lra|]. rewrite pow_IZR. apply IZR_le. vm_compute. discriminate. }
  set (k := / 2 ^ 26) in *. 
  assert (Fa : is_finite (fabs y) = true) by (destruct y; try discriminate F; reflexivity).
  assert (Ea : B2R (fabs y) = Rabs (B2R y)) by apply B2R_Babs. set (a := Rabs (B2R y)) in *.
  (* the step *)
  destruct (fmul_ok (fnorm 1 (-26)) (fabs y) eq_refl Fa) as (F1 & S1).
  { right. rewrite step_R, Ea. fold k. rewrite Rabs_pos_eq by nra. split; nra. }
  rewrite step_R, Ea in S1. fold k in S1. rewrite (Rabs_pos_eq (k * a)) in S1 by nra. set (h := fmul (fnorm 1 (-26)) (fabs y)) in *.
  apply Rabs_le_inv in S1. assert (Nh : Beqb h f0 = false) by (apply not_zero; [exact F1|nra]).
  assert (H3 : a * k * (1 - u53) <= B2R h <= a * k * (1 + u53)) by (split; lra).
  assert (H4 : 0 < B2R h <= a / 100000).
  { split; [apply Rlt_le_trans with (2 := proj1 H3); apply Rmult_lt_0_compat; [apply Rmult_lt_0_compat; lra|lra]|].
    apply Rle_trans with (1 := proj2 H3). apply Rle_trans with (a * / 1000000 * 2); [|lra]. apply Rmult_le_compat; [apply Rmult_le_pos; lra|lra| |lra].
    apply Rmult_le_compat_l; lra. }
  assert (LA : 10 * lo <= a). { apply Rle_trans with (1 := L1). apply Rle_trans with (a * k); [apply Rmult_le_compat_r; lra|]. rewrite <- (Rmult_1_r a) at 2. apply Rmult_le_compat_l; lra. }
  assert (LH : lo <= 2 * B2R h). { assert (X : a * k * / 2 <= a * k * (1 - u53)) by (apply Rmult_le_compat_l; [apply Rmult_le_pos; lra|lra]). assert (r10 (- Z.of_nat 140) * k <= a * k) by (apply Rmult_le_compat_r; lra). assert (0 < lo) by apply r10_pos. lra. }
  clear L1 S1 H3. assert (P2 : 0 < lo) by apply r10_pos.
  assert (Ya : B2R y = a \/ B2R y = - a) by (unfold a, Rabs; destruct (Rcase_abs (B2R y)); [right|left]; lra).
  (* y + step *)
  assert (M1 : a * (1 - / 100000) <= Rabs (B2R y + B2R h) <= a * (1 + / 100000)).
  { destruct Ya as [E|E]; rewrite E; [rewrite Rabs_pos_eq by lra|rewrite Rabs_left by lra]; lra. }
  destruct (fadd_ok y h F F1) as (F2 & S2). { right. lra. }
  set (p1 := fadd y h) in *. apply Rabs_le_inv in S2.
  assert (V1 : u53 * Rabs (B2R y + B2R h) <= a / 100000).
  { apply Rle_trans with (/ 1000000000 * (a * (1 + / 100000))); [|lra]. apply Rmult_le_compat; [lra|apply Rabs_pos|lra|lra]. }
  assert (N1 : Beqb p1 f0 = false) by (apply not_zero; [exact F2|]; intros Z; destruct Ya as [E|E]; lra).
  (* 2 step *)
  destruct (fmul_ok (fnorm 2 0) h eq_refl F1) as (F3 & S3). { right. rewrite two_R, Rabs_pos_eq by lra. lra. }
  rewrite two_R in S3. rewrite (Rabs_pos_eq (2 * B2R h)) in S3 by lra. set (h2 := fmul (fnorm 2 0) h) in *. apply Rabs_le_inv in S3.
  assert (V2 : u53 * (2 * B2R h) <= a / 100000).
  { apply Rle_trans with (/ 1000000000 * (2 * (a / 100000))); [|lra]. apply Rmult_le_compat; lra. }
  (* y - step *)
  assert (M2 : a * (1 - / 1000) <= Rabs (B2R p1 - B2R h2) <= a * (1 + / 1000)).
  { destruct Ya as [E|E]; [rewrite Rabs_pos_eq by lra|rewrite Rabs_left by lra]; lra. }
  destruct (fsub_ok p1 h2 F2 F3) as (F4 & S4). { right. lra. }
  set (p2 := fsub p1 h2) in *. apply Rabs_le_inv in S4.
  assert (V3 : u53 * Rabs (B2R p1 - B2R h2) <= a / 100000).
  { apply Rle_trans with (/ 1000000000 * (a * (1 + / 1000))); [|lra]. apply Rmult_le_compat; [lra|apply Rabs_pos|lra|lra]. }
  assert (N2 : Beqb p2 f0 = false) by (apply not_zero; [exact F4|]; intros Z; destruct Ya as [E|E]; lra).
  assert (Md : forall p : f64, Beqb p f0 = false -> exists r, f_mod x p = Ok r).
  { intros p Np. unfold f_mod. rewrite Np. destruct (nonzero (fmodC x p)); [destruct (Bool.eqb _ _)|]; eexists; reflexivity. }
  destruct (Md p1 N1) as (r1 & R1). destruct (Md p2 N2) as (r2 & R2).
  unfold op_der_y, partial_derivative. cbn [arg_get nth_error as_num rbind pn_abs].
  assert (E0 : pn_mul (PF (N:=FN) (n_step FN)) (PF (N:=FN) (n_abs FN y)) = Ok (PF (N:=FN) h)) by reflexivity. rewrite E0. cbn [rbind].
  assert (E1 : pn_is0 (PF (N:=FN) h) = false) by exact Nh. rewrite E1. cbv zeta iota.
  assert (E2 : pn_add (PF (N:=FN) y) (PF (N:=FN) h) = Ok (PF (N:=FN) p1)) by reflexivity. rewrite E2. cbn [rbind arg_set list_set].
  assert (E3 : float_method (N:=FN) Bmod [PNum (PF (N:=FN) x); PNum (PF (N:=FN) p1)] [] = Ok (PNum (PF (N:=FN) r1))).
  { cbn [float_method pn_float rbind float_op]. assert (X : n_mod FN x p1 = Ok r1) by exact R1. rewrite X. reflexivity. }
  rewrite E3. cbn [rbind].
  assert (E4 : pn_mul (PZ 2) (PF (N:=FN) h) = Ok (PF (N:=FN) h2)) by reflexivity. rewrite E4. cbn [rbind].
  assert (E5 : pn_sub (PF (N:=FN) p1) (PF (N:=FN) h2) = Ok (PF (N:=FN) p2)) by reflexivity. rewrite E5. cbn [rbind arg_set list_set].
  assert (E6 : float_method (N:=FN) Bmod [PNum (PF (N:=FN) x); PNum (PF (N:=FN) p2)] [] = Ok (PNum (PF (N:=FN) r2))).
  { cbn [float_method pn_float rbind float_op]. assert (X : n_mod FN x p2 = Ok r2) by exact R2. rewrite X. reflexivity. }
  rewrite E6. cbn [rbind as_num].
  assert (E7 : pn_sub (PF (N:=FN) r1) (PF (N:=FN) r2) = Ok (PF (N:=FN) (fsub r1 r2))) by reflexivity. rewrite E7. cbn [rbind].
  assert (E8 : pn_div (PF (N:=FN) (fsub r1 r2)) (PZ 2) = Ok (PF (N:=FN) (fdiv (fsub r1 r2) (fnorm 2 0)))) by reflexivity. rewrite E8. cbn [rbind].
  exists (PF (N:=FN) (fdiv (fdiv (fsub r1 r2) (fnorm 2 0)) h)). unfold pn_div. cbn [pn_float rbind].
  assert (E9 : n_div FN (fdiv (fsub r1 r2) (fnorm 2 0)) h = Ok (fdiv (fdiv (fsub r1 r2) (fnorm 2 0)) h)) by (cbn [n_div FOps]; unfold f_div; rewrite Nh; reflexivity).
  rewrite E9. reflexivity.
Qed.

Lemma neg_int : forall z x, f_of_Z z = Ok x -> exists x', f_of_Z (- z) = Ok x'.
Proof.
  intros z x. unfold f_of_Z. destruct (Z.eq_dec z 0) as [->|N]; [intros _; exists f0; reflexivity|].
  assert (N' : (- z)%Z <> 0%Z) by lia.
  pose proof (fnorm_R z 0 N) as A. pose proof (fnorm_R (- z) 0 N') as B. cbv zeta in A, B.
  assert (E : F2R (Float radix2 (- z) 0) = - F2R (Float radix2 z 0)) by apply F2R_Zopp. rewrite E in B.
  assert (R : rnd64 (- F2R (Float radix2 z 0)) = - rnd64 (F2R (Float radix2 z 0))) by apply round_NE_opp. rewrite R, Rabs_Ropp in B.
  destruct (Rlt_bool (Rabs (rnd64 (F2R (Float radix2 z 0)))) (bpow radix2 1024)).
  - destruct B as (_ & B & _). intros _. destruct (fnorm (- z) 0); try discriminate B; eexists; reflexivity.
  - rewrite A. discriminate.
Qed.

(** The divisor, if it has an uncertainty and is used in / or %. *)
Definition divisor_ok (op : binop) (y : f64) : Prop := op = Btruediv \/ op = Bmod ->
  is_finite y = true /\ (B2R y = 0 \/ / 10 ^ 140 <= Rabs (B2R y) <= 10 ^ 140).

Lemma der_x_arith : forall op p q x y r e, pn_float p = Ok x -> pn_float q = Ok y -> float_op (N:=FN) op x y = Ok r ->
  op_der_x op p q = Err e -> arith e = false.
Proof.
  intros op p q x y r e Ep Eq F H. destruct op; cbn [op_der_x] in H; try discriminate H; [|exact (nan_no_arith _ _ H)].
  exfalso. cbn [float_op] in F. change (n_div FN x y) with (f_div x y) in F. unfold f_div in F. destruct (Beqb (y : f64) f0) eqn:Y; [discriminate F|].
  destruct q as [z|y'].
  - assert (Hz : z <> 0%Z). { intros ->. injection Eq as <-. discriminate Y. }
    destruct (inverse_ok z Hz) as (w & W). assert (W' : n_divZ FN 1 z = Ok w) by exact W. cbn [pn_div] in H. rewrite W' in H. discriminate H.
  - injection Eq as ->. unfold pn_div in H. cbn [pn_float rbind] in H. assert (E1 : n_of_Z FN 1 = Ok fone) by reflexivity. rewrite E1 in H. cbn [rbind] in H.
    assert (E2 : n_div FN fone y = Ok (fdiv fone y)) by (cbn [n_div FOps]; unfold f_div; rewrite Y; reflexivity). rewrite E2 in H. discriminate H.
Qed.
Lemma der_y_arith : squares_ok lm -> forall op p (x y : f64) r e, pn_float p = Ok x -> divisor_ok op y -> float_op (N:=FN) op x y = Ok r ->
  op_der_y op p (PF (N:=FN) y) = Err e -> arith e = false.
Proof.
  intros SQ op p x y r e Ep D F H. destruct op; try discriminate H; [| |exact (nan_no_arith _ _ H)].
  - exfalso. destruct (D (or_introl eq_refl)) as (Fy & Ry).
    cbn [float_op] in F. change (n_div FN x y) with (f_div x y) in F. unfold f_div in F. destruct (Beqb y f0) eqn:Y; [discriminate F|].
    destruct Ry as [Ry|Ry]. { rewrite Beqb_zero, Ry in Y by exact Fy. rewrite Req_bool_true in Y by reflexivity. discriminate Y. }
    destruct (square_nonzero SQ y Fy Ry) as (s & Es & Ns).
    cbn [op_der_y pn_square] in H. unfold n_powf in H. assert (Es' : n_pow FN y (n_two FN) = Ok (Some s)) by exact Es. rewrite Es' in H. cbn [rbind] in H.
    assert (X : exists x', pn_float (pn_neg p) = Ok x').
    { destruct p as [z|x0]; cbn [pn_neg pn_float] in *; [|eexists; reflexivity]. exact (neg_int z x Ep). }
    destruct X as (x' & Ex').
    assert (Z : pn_div (pn_neg p) (PF (N:=FN) s) = Ok (PF (N:=FN) (fdiv x' s))).
    { transitivity (rbind (pn_float (pn_neg p)) (fun a => rbind (n_div FN a s) (fun w => Ok (PF w)))); [destruct p; reflexivity|].
      rewrite Ex'. cbn [rbind]. assert (W : n_div FN x' s = Ok (fdiv x' s)) by (cbn [n_div FOps]; unfold f_div; rewrite Ns; reflexivity). rewrite W. reflexivity. }
    rewrite Z in H. discriminate H.
  - destruct (D (or_intror eq_refl)) as (Fy & Ry).
    cbn [float_op] in F. change (n_mod FN x y) with (f_mod x y) in F. unfold f_mod in F. destruct (Beqb y f0) eqn:Y; [discriminate F|].
    destruct Ry as [Ry|Ry]. { rewrite Beqb_zero, Ry in Y by exact Fy. rewrite Req_bool_true in Y by reflexivity. discriminate Y. }
    destruct p as [z|x0].
    + cbn [op_der_y] in H. unfold partial_derivative in H. cbn [arg_get nth_error as_num rbind pn_abs] in H.
      match type of H with context[pn_mul ?a ?b] => assert (E0 : pn_mul a b = Ok (PF (N:=FN) (fmul (fnorm 1 (-26)) (fabs y)))) by reflexivity; rewrite E0 in H end.
      cbn [rbind] in H. set (h0 := fmul (fnorm 1 (-26)) (fabs y)) in *. destruct (pn_is0 (PF (N:=FN) h0)); cbn in H; injection H as <-; reflexivity.
    + destruct (mod_der x0 y Fy Ry) as (c & E). rewrite E in H. discriminate H.
Qed.

Theorem operator_raises_f : squares_ok lm -> forall (st : state FN) op i j a b p q st' e,
  nth_error (st_env st) i = Some a -> nth_error (st_env st) j = Some b ->
  nominal_value a = PNum p -> nominal_value b = PNum q -> is_uf a = true \/ is_uf b = true ->
  (forall u, b = VUF u -> divisor_ok op (uf_nom u)) ->
  does st (IBin op i j) st' (OExn e) -> arith e = true ->
  rbind (pn_float p) (fun x => rbind (pn_float q) (fun y => float_op (N:=FN) op x y)) = Err e.
Proof.
  intros SQ st op i j a b p q st' e Ha Hb Np Nq Hu D (k & H) Ar. specialize (H k (Nat.le_refl _)).
  cbn [step get_args] in H. rewrite Ha, Hb in H. unfold push in H.
  assert (Er : fst (py_binop op a b (st_heap st)) = Err e).
  { destruct (py_binop op a b (st_heap st)) as [[v|e'] h']; cbn [fst]; injection H; intros; congruence. }
  clear H Ha Hb. unfold py_binop in Er.
  destruct a as [pa|u].
  - destruct b as [pb|w]; [destruct Hu; discriminate|]. cbn [nominal_value] in Np, Nq. injection Nq as <-. subst pa.
    assert (Em : fst (method_rop op w (VPlain (PNum p)) (st_heap st)) = Err e).
    { unfold bind in Er. destruct (method_rop op w (VPlain (PNum p)) (st_heap st)) as [[r|e'] h']; cbn [fst] in *; [|exact Er].
      destruct r as [[]|]; cbn in Er; try discriminate Er. injection Er as <-. discriminate Ar. }
    unfold method_rop, wcall in Em. cbn [existsb is_uf orb negb map nominal_value kw_map] in Em.
    cbn [float_rmethod] in Em. cbn [pn_float rbind].
    destruct (pn_float p) as [x|e'] eqn:Ep; cbn [rbind] in Em |- *; [|cbn [fst] in Em; congruence].
    destruct (float_op op x (uf_nom w)) as [r|e'] eqn:F; [|cbn [fst] in Em; congruence]. exfalso.
    assert (R : exists z, r = PNum (PF (N:=FN) z)).
    { destruct op; cbn [float_op] in F; try (injection F as <-; eexists; reflexivity).
      1-3: match type of F with rbind ?m _ = _ => destruct m; cbn [rbind] in F; [injection F as <-; eexists; reflexivity|discriminate F] end.
      match type of F with rbind ?m _ = _ => destruct m as [[z|]|]; cbn [rbind] in F; try discriminate F; injection F as <-; eexists; reflexivity end. }
    destruct R as (z & ->). cbn [pos_terms] in Em. cbn [rop_pos] in Em.
    destruct (op_der_y op p (PF (uf_nom w))) as [c|e'] eqn:Ed; cbn [rbind kw_terms pn_float] in Em.
    + destruct (alloc_lc _ _). cbn [fst] in Em. discriminate Em.
    + cbn [fst] in Em. injection Em as ->. rewrite (der_y_arith SQ op p x (uf_nom w) _ e Ep (D w eq_refl) F Ed) in Ar. discriminate Ar.
  - cbn [nominal_value] in Np. injection Np as <-.
    assert (Em : fst (method_op op u b (st_heap st)) = Err e).
    { unfold bind in Er. destruct (method_op op u b (st_heap st)) as [[r|e'] h']; cbn [fst] in *; [|exact Er].
      destruct r as [[]|]; cbn in Er; try discriminate Er. injection Er as <-. discriminate Ar. }
    unfold method_op, wcall in Em. cbn [existsb is_uf orb negb map kw_map] in Em. rewrite Nq in Em. cbn [nominal_value] in Em.
    cbn [float_method] in Em. cbn [pn_float rbind].
    destruct (pn_float q) as [y|e'] eqn:Eq; cbn [rbind] in Em |- *; [|cbn [fst] in Em; congruence].
    destruct (float_op op (uf_nom u) y) as [r|e'] eqn:F; [|cbn [fst] in Em; congruence]. exfalso.
    assert (R : exists z, r = PNum (PF (N:=FN) z)).
    { destruct op; cbn [float_op] in F; try (injection F as <-; eexists; reflexivity).
      1-3: match type of F with rbind ?m _ = _ => destruct m; cbn [rbind] in F; [injection F as <-; eexists; reflexivity|discriminate F] end.
      match type of F with rbind ?m _ = _ => destruct m as [[z|]|]; cbn [rbind] in F; try discriminate F; injection F as <-; eexists; reflexivity end. }
    destruct R as (z & ->). cbn [pos_terms] in Em. cbn [op_pos] in Em.
    assert (Ep : pn_float (PF (N:=FN) (uf_nom u)) = Ok (uf_nom u)) by reflexivity.
    destruct (op_der_x op (PF (uf_nom u)) q) as [c|e'] eqn:Ed; cbn [rbind] in Em.
    2: { cbn [fst] in Em. injection Em as ->. rewrite (der_x_arith op _ q (uf_nom u) y _ e Ep Eq F Ed) in Ar. discriminate Ar. }
    destruct b as [pb|w].
    + cbn [rbind kw_terms pn_float] in Em. destruct (alloc_lc _ _). cbn [fst] in Em. discriminate Em.
    + cbn [nominal_value] in Nq. injection Nq as <-. injection Eq as <-.
      destruct (op_der_y op (PF (uf_nom u)) (PF (uf_nom w))) as [c'|e'] eqn:Ed'; cbn [rbind kw_terms pn_float] in Em.
      * destruct (alloc_lc _ _). cbn [fst] in Em. discriminate Em.
      * cbn [fst] in Em. injection Em as ->. rewrite (der_y_arith SQ op _ (uf_nom u) (uf_nom w) _ e Ep (D w eq_refl) F Ed') in Ar. discriminate Ar.
Qed.

(** ** Operators with one operand *)
Lemma trunc_back : forall (x : f64) z, f_trunc x = Ok z -> exists y, f_of_Z z = Ok y.
Proof.
  intros x z H. assert (F : is_finite x = true) by (destruct x; try discriminate H; reflexivity).
  rewrite (trunc_exact x F) in H. injection H as <-. set (z := Ztrunc (B2R x)).
  unfold f_of_Z. destruct (Z.eq_dec z 0) as [->|N]; [exists f0; reflexivity|].
  pose proof (fnorm_R z 0 N) as A. cbv zeta in A. rewrite Rlt_bool_true in A.
  - destruct A as (_ & A & _). destruct (fnorm z 0); try discriminate A; eexists; reflexivity.
  - apply Rle_lt_trans with (Rabs (B2R x)); [|apply abs_B2R_lt_emax].
    apply (abs_round_le_generic radix2 fexp64 ZnearestE); [apply generic_format_abs, generic_format_B2R|].
    unfold F2R, Fnum, Fexp. change (bpow radix2 0) with 1. rewrite Rmult_1_r, <- abs_IZR. unfold z. rewrite <- Ztrunc_abs.
    rewrite Ztrunc_floor by apply Rabs_pos. apply Zfloor_lb.
Qed.

Theorem unop_raises_f : forall (st : state FN) op i u st' e, is_number st i u ->
  does st (ICall (unop_fun op) (unop_pos op) no_kw [i] []) st' (OExn e) -> float_unop (N:=FN) op (uf_nom u) = Err e.
Proof.
  intros st op i u st' e Hn (k & H). specialize (H k (Nat.le_refl _)). unfold is_number in Hn. cbn [step get_args get_kwargs] in H. rewrite Hn in H.
  unfold push in H.
  assert (Er : fst (wcall (unop_fun op) (unop_pos op) no_kw [VUF u] [] (st_heap st)) = Err e).
  { destruct (wcall _ _ _ _ _ (st_heap st)) as [[v|e'] h']; cbn [fst]; injection H; intros; congruence. }
  clear H. unfold wcall in Er. cbn [existsb is_uf orb negb map kw_map nominal_value unop_fun] in Er.
  destruct (float_unop op (uf_nom u)) as [r|e'] eqn:F; [|cbn [fst] in Er; congruence]. exfalso.
  cbn [pos_terms unop_pos] in Er. assert (D : exists c, unop_der (N:=FN) op (uf_nom u) = Ok c) by (destruct op; eexists; reflexivity).
  destruct D as (c & D). rewrite D in Er. cbn [rbind kw_terms] in Er.
  assert (R : exists p y, r = PNum p /\ pn_float (N:=FN) p = Ok y).
  { destruct op; cbn [float_unop] in F; try (injection F as <-; eexists; eexists; split; reflexivity).
    change (n_trunc FN (uf_nom u)) with (f_trunc (uf_nom u)) in F. destruct (f_trunc (uf_nom u)) as [z|] eqn:T; [|discriminate F].
    cbn [rbind] in F. injection F as <-. destruct (trunc_back _ _ T) as (y & Y). exists (PZ z), y. split; [reflexivity|exact Y]. }
  destruct R as (p & y & -> & Y). rewrite Y in Er. destruct (alloc_lc _ _). discriminate Er.
Qed.
End Arith.

(** ** ufloat(1, 1) / ufloat(0, 1) *)
Definition one_zero : list (instr FN) := [INew (fl 1 0) (fl 1 0) None; INew (fl 0 0) (fl 1 0) None].
Lemma ex_operator_raises : squares_ok lm0 /\ has_uf (after one_zero) 0 = true /\ has_uf (after one_zero) 1 = true /\
  divisor_ok Btruediv (uf_nom (uf_at (after one_zero) 1)) /\ reads (after one_zero) (IBin Btruediv 0 1) (OExn EZeroDiv) /\
  arith EZeroDiv = true.
Proof.
  split; [apply exact_squares_ok, lm0_squares|]. split; [vm_compute; reflexivity|]. split; [vm_compute; reflexivity|].
  split. { assert (X : uf_nom (uf_at (after one_zero) 1) = f0) by (vm_compute; reflexivity). intros _. rewrite X. split; [reflexivity|left; reflexivity]. }
  split; [|reflexivity]. apply (reads_is 40); [vm_compute; reflexivity|discriminate].
Qed.
(** math.trunc(ufloat(inf, 1)) *)
Definition infinite_one : list (instr FN) := [INew (PF (N:=FN) (finf false)) (fl 1 0) None].
Lemma ex_unop_raises : has_uf (after infinite_one) 0 = true /\
  reads (after infinite_one) (ICall (unop_fun Utrunc) (unop_pos Utrunc) no_kw [0%nat] []) (OExn EOverflow).
Proof. split; [vm_compute; reflexivity|]. apply (reads_is 40); [vm_compute; reflexivity|discriminate]. Qed.
