(** Derivatives of the math functions of two arguments, as computed, against those of
    differential calculus. *)
From Coq Require Import ZArith List Bool Lia Reals Lra.
From Coquelicot Require Import Coquelicot.
From Flocq Require Import Core BinarySingleNaN.
From Verif Require Import Base Heap HeapSpec HeapProofs NumR NumF Affine Ops UMath Machine Cov Calls Unumpy UMatrix History Fuel FFacts FRefute FmtF
  BinProofs BinQ NumFacts BinStd BinArith GradSpec Evolve BinGrad BinGradThm GradStd BinCov DerivR Prim PrimProofs Refine PrimReg CalcSpec CalcAlg CalcFun CalcOp CalcMore.
Import ListNotations.
Local Open Scope R_scope.

(** Derivatives *)
Definition slope_x (f : mfun2) (x y : R) : R :=
  match f with
  | G_atan2 => y / (y ^ 2 + x ^ 2) | G_hypot => x / sqrt (x ^ 2 + y ^ 2) | G_log => 1 / x / ln y | G_pow => y * Rpower x (y - 1)
  | G_copysign => if Rle_dec 0 x then (if Rle_dec 0 y then 1 else -1) else (if Rle_dec 0 y then -1 else 1)
  | G_fmod => 0
  end.
Definition slope_y (f : mfun2) (x y : R) : R :=
  match f with
  | G_atan2 => - x / (y ^ 2 + x ^ 2) | G_hypot => y / sqrt (x ^ 2 + y ^ 2) | G_log => - (ln x / ln y) / y / ln y | G_pow => ln x * Rpower x y
  | G_copysign | G_fmod => 0
  end.
Lemma slopes_derive : forall f x y, m2_dom f true true x y ->
  is_derive (fun t => real_fun2 f t y) x (slope_x f x y) /\ is_derive (fun t => real_fun2 f x t) y (slope_y f x y).
Proof.
  intros f x y D. destruct (umath2_slopes (g := fun _ => 0) (lg := fun _ => 0) f x y D) as (d0 & d1 & c0 & c1 & E0 & E1 & A0 & A1 & B0 & B1).
  assert (C : pval c0 = slope_x f x y /\ pval c1 = slope_y f x y); [|destruct C as (<- & <-); split; assumption].
  clear B0 B1. destruct f; cbn [m2_dom] in D; try contradiction; cbn [m2_der0 m2_der1] in E0, E1; injection E0 as <-; injection E1 as <-;
    cbn [slope_x slope_y].
  - assert (NZ : y ^ 2 + x ^ 2 <> 0). { assert (P := pow2_ge_0 x). assert (Q := pow2_ge_0 y). intros Z0. destruct D as [D|D]; nra. }
    cbv beta in A0, A1. rewrite !sq_R in A0, A1. cbn [rbind rmap] in A0, A1. change (n_add (ROps (fun _ => 0) (fun _ => 0))) with Rplus in *.
    change (n_div (ROps (fun _ => 0) (fun _ => 0))) with Rdiv_py in *. rewrite div_ok in A0, A1 by exact NZ. cbn [rbind rmap] in A0, A1. injection A0 as <-. injection A1 as <-. split; reflexivity.
  - simpl in A0, A1. injection A0 as <-. injection A1 as <-. split; [|reflexivity]. unfold pval, Rleb, Rcopysign, Rleb. rewrite Rabs_R1. destruct (Rle_dec 0 x), (Rle_dec 0 y); cbn; lra.
  - assert (P := pow2_ge_0 x). assert (Q := pow2_ge_0 y). assert (PZ : 0 < x ^ 2 + y ^ 2) by (destruct D; nra). assert (PS := sqrt_lt_R0 _ PZ).
    change (n_fun2 (ROps (fun _ => 0) (fun _ => 0))) with Rfun2 in *. cbn [Rfun2 rbind rmap] in A0, A1. change (n_div (ROps (fun _ => 0) (fun _ => 0))) with Rdiv_py in *.
    rewrite div_ok in A0, A1 by (apply Rgt_not_eq; exact PS). cbn [rbind rmap] in A0, A1. injection A0 as <-. injection A1 as <-. split; reflexivity.
  - destruct D as (Px & Py & N1). assert (NL : ln y <> 0). { intros Z0. apply N1. rewrite <- ln_1 in Z0. apply ln_inv in Z0; lra. }
    change (n_fun2 (ROps (fun _ => 0) (fun _ => 0))) with Rfun2 in *. change (n_div (ROps (fun _ => 0) (fun _ => 0))) with Rdiv_py in *.
    change (n_one (ROps (fun _ => 0) (fun _ => 0))) with 1 in *. cbn [Rfun2] in A0, A1. rewrite div_ok in A0 by lra. cbn [rbind rmap] in A0. simpl in A0.
    rewrite (proj2 (Rltb_true _ _) Py) in A0. cbn [rbind rmap] in A0. rewrite div_ok in A0 by exact NL. injection A0 as <-.
    rewrite (proj2 (Rltb_true _ _) Px), (proj2 (Rltb_true _ _) Py) in A1. cbn [andb] in A1. rewrite (proj2 (Reqb_false _ _) N1) in A1. cbn [rbind rmap] in A1.
    rewrite div_ok in A1 by lra. cbn [rbind rmap] in A1. rewrite div_ok in A1 by exact NL. injection A1 as <-.
    split; reflexivity.
  - destruct D as [Px|[(D & _)|(D & _)]]; [|discriminate D|discriminate D].
    assert (P0 : forall t, Rfun2 G_pow x t = Ok (Rpower x t)) by (intros t; cbn [Rfun2]; unfold Rpow_math; rewrite Rpow_py_pos by exact Px; reflexivity).
    split.
    + unfold mpow_der0 in A0. change (n_eq (ROps (fun _ => 0) (fun _ => 0))) with Reqb in A0. change (n_zero (ROps (fun _ => 0) (fun _ => 0))) with 0 in A0.
      destruct (Req_EM_T y 0) as [->|Ny].
      * rewrite (proj2 (Reqb_true _ _) eq_refl) in A0. cbn [rmap rbind] in A0. injection A0 as <-. cbn. ring.
      * rewrite (proj2 (Reqb_false _ _) Ny), (proj2 (Reqb_false x 0)) in A0 by lra. cbn [negb orb] in A0. change (n_fun2 (ROps (fun _ => 0) (fun _ => 0))) with Rfun2 in A0.
        rewrite P0 in A0. cbn [rbind rmap] in A0. injection A0 as <-. reflexivity.
    + unfold mpow_der1 in A1. change (n_eq (ROps (fun _ => 0) (fun _ => 0))) with Reqb in A1. change (n_zero (ROps (fun _ => 0) (fun _ => 0))) with 0 in A1.
      rewrite (proj2 (Reqb_false x 0)) in A1 by lra. cbn [andb] in A1. change (n_fun2 (ROps (fun _ => 0) (fun _ => 0))) with Rfun2 in A1. simpl in A1.
      rewrite (proj2 (Rltb_true _ _) Px) in A1. cbn [rbind] in A1. unfold Rpow_math in A1. rewrite Rpow_py_pos in A1 by exact Px. cbn [rbind rmap] in A1. injection A1 as <-. reflexivity.
Qed.

Lemma W_add : forall n r y s z, 0 <= y -> 0 <= z -> W n r y -> W n s z -> W n (r + s) (y + z).
Proof.
  intros n r y s z Py Pz (k & -> & A & B) (l & -> & C & D). destruct (Req_dec (y + z) 0) as [Z|NZ].
  - assert (y = 0) by lra. assert (z = 0) by lra. subst. exists k. split; [ring|auto].
  - exists ((y * k + z * l) / (y + z)). split; [field; exact NZ|]. assert (P : 0 < y + z) by lra.
    split; apply Rmult_le_reg_r with (y + z); try exact P; unfold Rdiv; rewrite ?(Rmult_assoc (y * k + z * l)), ?Rinv_l, ?Rmult_1_r by exact NZ; nra.
Qed.
Lemma u49 : / 2 ^ 49 = 16 * u53.
Proof. unfold u53. change (bpow radix2 (-53)) with (/ IZR 9007199254740992). simpl. lra. Qed.

Section Two.
Variable lm : Libm.
Notation FN := (FOps lm).
Hypothesis OK : libm_ok lm.
Hypothesis OK2 : libm2_ok lm.

Lemma lib2_W : forall f (x y : f64) z, from_libm2 f = true -> is_finite x = true -> is_finite y = true -> Rfun2 f (B2R x) (B2R y) = Ok z ->
  z = 0 \/ r10 (-280) <= Rabs z <= r10 280 -> exists r, n_fun2 FN f x y = Ok r /\ is_finite (r : f64) = true /\ W 17 (B2R (r : f64)) z.
Proof.
  intros f x y z I Fx Fy E M. destruct (OK2 f x y z I Fx Fy E) as (r & Er & Fr & Ar). { rewrite ip280, p280. exact M. }
  exists r. split; [|split; [exact Fr|]].
  - destruct f; try discriminate I; exact Er.
  - apply (W_err 16); [lia|]. replace (INR 16) with 16 by (simpl; lra). rewrite <- u49. exact Ar.
Qed.
Lemma tame_bound : forall x, tame x -> Rabs x <= r10 100.
Proof. intros x T. destruct (tame_r10 x T) as [->|M]; [rewrite Rabs_R0; apply Rlt_le, r10_pos|lra]. Qed.
Lemma tame_140 : forall x, tame x -> Rabs x <= r10 140.
Proof. intros x T. apply Rle_trans with (1 := tame_bound x T). apply r10_le; lia. Qed.
(** A sum of squares. *)
Lemma squares_range : forall x y, tame x -> tame y -> x <> 0 \/ y <> 0 -> 0 < x ^ 2 + y ^ 2 /\ r10 (-200) <= x ^ 2 + y ^ 2 <= r10 201.
Proof.
  assert (K : forall x y, tame x -> tame y -> x <> 0 -> 0 < x ^ 2 + y ^ 2 /\ r10 (-200) <= x ^ 2 + y ^ 2 <= r10 201).
  { intros x y Tx Ty N. destruct (tame_r10 x Tx) as [Z|M]; [contradiction|]. assert (B := tame_bound y Ty). assert (P := pow2_ge_0 y). assert (Q := Rabs_pos y).
    assert (A := r10_pos (-100)). assert (A2 := r10_pos 100). rewrite <- (pow2_abs x), <- (pow2_abs y) in *.
    replace (r10 (-200)) with (r10 (-100) * r10 (-100)) by (rewrite <- r10_add; reflexivity).
    replace (r10 201) with (r10 100 * r10 100 * 10). 2:{ replace 10 with (r10 1) by (rewrite r10_Z by lia; reflexivity). rewrite <- !r10_add. reflexivity. }
    assert (X1 : r10 (-100) * r10 (-100) <= Rabs x * Rabs x) by (apply Rmult_le_compat; lra). assert (X2 : Rabs x * Rabs x <= r10 100 * r10 100) by (apply Rmult_le_compat; lra).
    assert (X3 : Rabs y * Rabs y <= r10 100 * r10 100) by (apply Rmult_le_compat; lra). assert (X4 : 0 < r10 (-100) * r10 (-100)) by (apply Rmult_lt_0_compat; lra).
    cbn [pow] in *. rewrite !Rmult_1_r in *. lra. }
  intros x y Tx Ty [N|N]; [now apply K|]. rewrite Rplus_comm. now apply K.
Qed.
Lemma mid_range2 : forall v a b, (-299 <= a)%Z -> (b <= 299)%Z -> 0 < v -> r10 a <= v <= r10 b -> mid v.
Proof. intros v a b Ha Hb P H. apply (mid_of a b v Ha Hb). now rewrite Rabs_pos_eq by lra. Qed.
Lemma squares_W : forall x y : f64, is_finite x = true -> is_finite y = true -> tame (B2R x) -> tame (B2R y) -> B2R x <> 0 \/ B2R y <> 0 ->
  exists a b, sq (N:=FN) x = Ok a /\ sq (N:=FN) y = Ok b /\ is_finite (fadd a b) = true /\ W 7 (B2R (fadd a b)) (B2R x ^ 2 + B2R y ^ 2).
Proof.
  intros x y Fx Fy Tx Ty N. destruct (square_abs lm OK x Fx (tame_140 _ Tx)) as (a & Ea & Fa & _ & Wa). destruct (square_abs lm OK y Fy (tame_140 _ Ty)) as (b & Eb & Fb & _ & Wb).
  specialize (Wa Tx). specialize (Wb Ty). destruct (squares_range _ _ Tx Ty N) as (P & R1). exists a, b. split; [exact Ea|]. split; [exact Eb|].
  apply (add_W 5); [lia|exact Fa|exact Fb| |now apply (mid_range2 _ (-200) 201)]. apply W_add; [apply pow2_ge_0|apply pow2_ge_0|exact Wa|exact Wb].
Qed.
Lemma log_lib : forall x : f64, is_finite x = true -> 0 < B2R x -> tame (B2R x) -> exists l, n_fun1 FN F_log x = Ok l /\ is_finite (l : f64) = true /\ W 5 (B2R (l : f64)) (ln (B2R x)).
Proof.
  intros x F P T. assert (Y : Rfun1 (fun _ => 0) (fun _ => 0) F_log (B2R x) = Ok (ln (B2R x))) by (unfold Rfun1; rewrite (proj2 (Rltb_true 0 _)) by exact P; reflexivity).
  exact (lib_W lm OK F_log x _ eq_refl F Y (ln_tame x P T)).
Qed.
(** Logarithms are not small. *)
Lemma ln_gap : forall x : f64, 0 < B2R x -> B2R x <> 1 -> r10 (-18) <= Rabs (ln (B2R x)).
Proof.
  intros x P N. assert (G := gap1 x N). assert (U := u53_val).
  assert (L : forall t, 0 < t -> ln t <= t - 1). { intros t Pt. assert (Y := exp_ineq1_le (ln t)). rewrite exp_ln in Y by exact Pt. lra. }
  assert (H1 := L _ P). assert (H2 := L (/ B2R x) ltac:(now apply Rinv_0_lt_compat)). rewrite ln_Rinv in H2 by exact P.
  assert (Lo : r10 (-18) <= u53 / 4).
  { unfold u53. change (bpow radix2 (-53)) with (/ IZR 9007199254740992). change (-18)%Z with (- (18))%Z. rewrite r10_inv, r10_Z by lia. change (10 ^ 18)%Z with 1000000000000000000%Z. lra. }
  destruct (Rlt_le_dec (B2R x) 1) as [B|B].
  - rewrite Rabs_left in G by lra. rewrite Rabs_left1 by lra. lra.
  - rewrite Rabs_pos_eq in G by lra. assert (I1 : / B2R x <= 1) by (rewrite <- Rinv_1; apply Rinv_le_contravar; lra). rewrite Rabs_pos_eq by lra.
    apply Rle_trans with (1 := Lo). apply Rle_trans with (1 - / B2R x); [|lra].
    destruct (Rle_lt_dec 2 (B2R x)) as [C|C].
    + assert (/ B2R x <= / 2) by (apply Rinv_le_contravar; lra). lra.
    + apply Rmult_le_reg_r with (B2R x); [lra|]. replace ((1 - / B2R x) * B2R x) with (B2R x - 1) by (field; lra).
      apply Rle_trans with (u53 / 4 * 2); [apply Rmult_le_compat_l; lra|lra].
Qed.
Lemma quot_range : forall a b c d u v, r10 a <= Rabs u <= r10 b -> r10 c <= Rabs v <= r10 d -> r10 (a - d) <= Rabs (u / v) <= r10 (b - c).
Proof.
  intros a b c d u v Hu Hv. unfold Rdiv. rewrite Rabs_mult, Rabs_inv. replace (a - d)%Z with (a + - d)%Z by lia. replace (b - c)%Z with (b + - c)%Z by lia.
  rewrite !r10_add, !r10_inv. assert (A := r10_pos a). assert (B := r10_pos b). assert (C := r10_pos c). assert (D := r10_pos d).
  assert (X1 : / r10 d <= / Rabs v) by (apply Rinv_le_contravar; lra). assert (X2 : / Rabs v <= / r10 c) by (apply Rinv_le_contravar; lra).
  assert (X3 : 0 < / r10 d) by (apply Rinv_0_lt_compat; lra). assert (X4 : 0 < / Rabs v) by (apply Rinv_0_lt_compat; lra). split; apply Rmult_le_compat; lra.
Qed.

Lemma two_x : forall f (x y : f64), is_finite x = true -> is_finite y = true -> m2_dom f true true (B2R x) (B2R y) -> tame (B2R x) -> tame (B2R y) -> settled2 f (B2R x) (B2R y) ->
  tame (slope_x f (B2R x) (B2R y)) -> exists d, m2_der0 (N:=FN) f = Some d /\ computes lm (d x y) (slope_x f (B2R x) (B2R y)).
Proof.
  intros f x y Fx Fy D Tx Ty St Tc. destruct f; cbn [m2_dom slope_x settled2] in *; try contradiction; eexists; (split; [reflexivity|]); cbv beta.
  - assert (N : B2R y <> 0 \/ B2R x <> 0) by (destruct D; [left; lra|now right]). destruct (squares_W y x Fy Fx Ty Tx N) as (a & b & Ea & Eb & Fs & Ws).
    destruct (squares_range _ _ Ty Tx N) as (P & R1). rewrite Ea. cbn [rbind]. rewrite Eb. cbn [rbind].
    destruct (div_W 0 7 y (fadd a b) (B2R y) (B2R y ^ 2 + B2R x ^ 2) ltac:(lia) Fy (W_refl _) Ws ltac:(lra) (tame_mid _ Tc)) as (Ed & Fd & Wd).
    change (n_div FN y (n_add FN a b)) with (f_div y (fadd a b)). rewrite Ed. cbn [rmap]. apply (computes_W lm _ 9); [exact Fd|exact Wd|lia].
  - destruct D as (Nx & Ny). change (n_fun2 FN G_copysign (n_one FN) y) with (Ok (f_copysign fone y)). cbn [rbind rmap].
    change (n_le FN (n_zero FN) x) with (Bleb f0 x). rewrite Bleb_correct by (reflexivity || exact Fx). change (B2R f0) with 0.
    assert (C : is_finite (f_copysign fone y) = true /\ B2R (f_copysign fone y) = if Rle_dec 0 (B2R y) then 1 else -1).
    { unfold f_copysign. assert (S1 : sign_of fone = false) by reflexivity. rewrite S1. destruct y as [s|s| |s m e Hb]; try discriminate Fy; [exfalso; apply Ny; reflexivity|].
      cbn [sign_of Bsign]. assert (SG : if s then B2R (B754_finite s m e Hb : f64) < 0 else 0 < B2R (B754_finite s m e Hb : f64)).
      { cbn [B2R]. destruct s; [apply F2R_lt_0|apply F2R_gt_0]; reflexivity. }
      destruct s; destruct (Rle_dec 0 (B2R (B754_finite _ m e Hb : f64))) as [L|L]; try lra.
      - change (Bool.eqb false (sign_of (B754_finite true m e Hb))) with false. cbv iota. split; [reflexivity|]. change (B2R (Bopp fone) = -1). rewrite B2R_Bopp, one_R. reflexivity.
      - change (Bool.eqb false (sign_of (B754_finite false m e Hb))) with true. cbv iota. split; [reflexivity|exact one_R]. }
    destruct C as (Fc & Vc). destruct (Rle_dec 0 (B2R x)) as [H|H]; [rewrite Rle_bool_true by exact H|rewrite Rle_bool_false by lra].
    + apply computes_exact; [exact Fc|exact Vc].
    + apply computes_exact; [change (is_finite (Bopp (f_copysign fone y)) = true); now rewrite is_finite_Bopp|].
      change (B2R (Bopp (f_copysign fone y)) = if Rle_dec 0 (B2R y) then -1 else 1). rewrite B2R_Bopp, Vc. destruct (Rle_dec 0 (B2R y)); lra.
  - destruct (squares_range _ _ Tx Ty D) as (P & R1). set (h := sqrt (B2R x ^ 2 + B2R y ^ 2)) in *. assert (Ph : 0 < h) by (now apply sqrt_lt_R0).
    assert (Rh : r10 (-100) <= h <= r10 101).
    { unfold h. replace (r10 (-100)) with (sqrt (r10 (-200))). 2:{ replace (r10 (-200)) with (r10 (-100) * r10 (-100)) by (rewrite <- r10_add; reflexivity). apply sqrt_square, Rlt_le, r10_pos. }
      replace (r10 101) with (sqrt (r10 202)). 2:{ replace (r10 202) with (r10 101 * r10 101) by (rewrite <- r10_add; reflexivity). apply sqrt_square, Rlt_le, r10_pos. }
      assert (r10 201 <= r10 202) by (apply r10_le; lia). split; apply sqrt_le_1_alt; lra. }
    destruct (lib2_W G_hypot x y h eq_refl Fx Fy eq_refl) as (r & Er & Fr & Wr).
    { right. rewrite Rabs_pos_eq by lra. assert (r10 (-280) <= r10 (-100)) by (apply r10_le; lia). assert (r10 101 <= r10 280) by (apply r10_le; lia). lra. }
    rewrite Er. cbn [rbind].
    destruct (div_W 0 17 x r (B2R x) h ltac:(lia) Fx (W_refl _) Wr ltac:(lra) (tame_mid _ Tc)) as (Ed & Fd & Wd).
    change (n_div FN x r) with (f_div x r). rewrite Ed. cbn [rmap]. apply (computes_W lm _ 19); [exact Fd|exact Wd|lia].
  - destruct D as (Px & Py & N1). destruct (log_lib y Fy Py Ty) as (l & El & Fl & Wl).
    assert (NL : ln (B2R y) <> 0). { intros Z0. apply N1. rewrite <- ln_1 in Z0. apply ln_inv in Z0; lra. }
    destruct (div_W 0 0 fone x 1 (B2R x) ltac:(lia) eq_refl) as (E1 & F1 & W1).
    { rewrite one_R. apply W_refl. } { apply W_refl. } { lra. } { apply mid_inv, tame_mid, Tx. }
    change (n_div FN (n_one FN) x) with (f_div fone x). rewrite E1. cbn [rbind]. rewrite El. cbn [rbind].
    destruct (div_W 2 5 (fdiv fone x) l (1 / B2R x) (ln (B2R y)) ltac:(lia) F1 W1 Wl NL (tame_mid _ Tc)) as (Ed & Fd & Wd).
    change (n_div FN (fdiv fone x) l) with (f_div (fdiv fone x) l). rewrite Ed. cbn [rmap]. apply (computes_W lm _ 9); [exact Fd|exact Wd|lia].
  - destruct D as [Px|[(D & _)|(D & _)]]; [|discriminate D|discriminate D]. unfold mpow_der0.
    change (n_eq FN y (n_zero FN)) with (Beqb y f0). change (n_eq FN x (n_zero FN)) with (Beqb x f0).
    rewrite (Beqb_correct _ _ y f0 Fy eq_refl), (Beqb_correct _ _ x f0 Fx eq_refl). change (B2R f0) with 0. rewrite (Req_bool_false (B2R x)) by lra. cbn [negb orb].
    destruct (Req_bool_spec (B2R y) 0) as [E0|N0].
    + cbn [rmap]. apply computes_exact; [reflexivity|]. rewrite E0, Rmult_0_l. reflexivity.
    + assert (Hp := pow_of_tame _ _ Px Ty N0 Tc).
      destruct (fsub_exact y fone Fy eq_refl) as (Fz & Vz); [rewrite one_R; exact St|]. rewrite one_R in Vz.
      destruct (lib2_W G_pow x (fsub y fone) (Rpower (B2R x) (B2R y - 1)) eq_refl Fx Fz) as (r & Er & Fr & Wr).
      { rewrite Vz. cbn [Rfun2]. unfold Rpow_math. rewrite Rpow_py_pos by exact Px. reflexivity. }
      { right. assert (P := r10_pos (-280)). rewrite Rabs_pos_eq by lra. exact Hp. }
      change (n_sub FN y (n_one FN)) with (fsub y fone). rewrite Er. cbn [rbind rmap].
      destruct (mul_W 0 17 y r (B2R y) _ ltac:(lia) Fy Fr (W_refl _) Wr (tame_mid _ Tc)) as (M1 & M2).
      change (n_mul FN y r) with (fmul y r). apply (computes_W lm _ 19); [exact M1|exact M2|lia].
Qed.
Lemma pow_of_ln : forall (x : f64) y, 0 < B2R x -> tame (B2R x) -> tame (ln (B2R x) * Rpower (B2R x) y) -> r10 (-280) <= Rpower (B2R x) y <= r10 280.
Proof.
  intros x y Px Tx T. assert (Tl := ln_tame x Px Tx). destruct (Req_dec (ln (B2R x)) 0) as [Z|NZ].
  - unfold Rpower. rewrite Z, Rmult_0_r, exp_0. replace 1 with (r10 0) by (rewrite r10_Z by lia; reflexivity). split; apply r10_le; lia.
  - assert (Pw := exp_pos (y * ln (B2R x))). fold (Rpower (B2R x) y) in Pw. set (w := Rpower (B2R x) y) in *. set (L := ln (B2R x)) in *.
    destruct (tame_r10 L Tl) as [Z|My]; [contradiction|]. destruct (tame_r10 _ T) as [Z|Mc]; [exfalso; apply Rmult_integral in Z as [Z|Z]; lra|].
    assert (Q := quot_range (-100) 100 (-100) 100 (L * w) L Mc My). replace (L * w / L) with w in Q by (field; exact NZ). rewrite Rabs_pos_eq in Q by lra.
    change (-100 - 100)%Z with (-200)%Z in Q. change (100 - -100)%Z with 200%Z in Q.
    assert (r10 (-280) <= r10 (-200)) by (apply r10_le; lia). assert (r10 200 <= r10 280) by (apply r10_le; lia). lra.
Qed.
Lemma two_y : forall f (x y : f64), is_finite x = true -> is_finite y = true -> m2_dom f true true (B2R x) (B2R y) -> tame (B2R x) -> tame (B2R y) ->
  tame (slope_y f (B2R x) (B2R y)) -> exists d, m2_der1 (N:=FN) f = Some d /\ computes lm (d x y) (slope_y f (B2R x) (B2R y)).
Proof.
  intros f x y Fx Fy D Tx Ty Tc. destruct f; cbn [m2_dom slope_y] in *; try contradiction; eexists; (split; [reflexivity|]); cbv beta.
  - assert (N : B2R y <> 0 \/ B2R x <> 0) by (destruct D; [left; lra|now right]). destruct (squares_W y x Fy Fx Ty Tx N) as (a & b & Ea & Eb & Fs & Ws).
    destruct (squares_range _ _ Ty Tx N) as (P & R1). rewrite Ea. cbn [rbind]. rewrite Eb. cbn [rbind].
    destruct (div_W 0 7 (Bopp x) (fadd a b) (- B2R x) (B2R y ^ 2 + B2R x ^ 2) ltac:(lia)) as (Ed & Fd & Wd).
    { now rewrite is_finite_Bopp. } { rewrite B2R_Bopp. apply W_refl. } { exact Ws. } { lra. } { apply tame_mid, Tc. }
    change (n_div FN (n_neg FN x) (n_add FN a b)) with (f_div (Bopp x) (fadd a b)). rewrite Ed. cbn [rmap]. apply (computes_W lm _ 9); [exact Fd|exact Wd|lia].
  - apply computes_exact; reflexivity.
  - destruct (squares_range _ _ Tx Ty D) as (P & R1). set (h := sqrt (B2R x ^ 2 + B2R y ^ 2)) in *. assert (Ph : 0 < h) by (now apply sqrt_lt_R0).
    assert (Rh : r10 (-100) <= h <= r10 101).
    { unfold h. replace (r10 (-100)) with (sqrt (r10 (-200))). 2:{ replace (r10 (-200)) with (r10 (-100) * r10 (-100)) by (rewrite <- r10_add; reflexivity). apply sqrt_square, Rlt_le, r10_pos. }
      replace (r10 101) with (sqrt (r10 202)). 2:{ replace (r10 202) with (r10 101 * r10 101) by (rewrite <- r10_add; reflexivity). apply sqrt_square, Rlt_le, r10_pos. }
      assert (r10 201 <= r10 202) by (apply r10_le; lia). split; apply sqrt_le_1_alt; lra. }
    destruct (lib2_W G_hypot x y h eq_refl Fx Fy eq_refl) as (r & Er & Fr & Wr).
    { right. rewrite Rabs_pos_eq by lra. assert (r10 (-280) <= r10 (-100)) by (apply r10_le; lia). assert (r10 101 <= r10 280) by (apply r10_le; lia). lra. }
    rewrite Er. cbn [rbind].
    destruct (div_W 0 17 y r (B2R y) h ltac:(lia) Fy (W_refl _) Wr ltac:(lra) (tame_mid _ Tc)) as (Ed & Fd & Wd).
    change (n_div FN y r) with (f_div y r). rewrite Ed. cbn [rmap]. apply (computes_W lm _ 19); [exact Fd|exact Wd|lia].
  - destruct D as (Px & Py & N1). destruct (log_lib y Fy Py Ty) as (l & El & Fl & Wl).
    assert (NL : ln (B2R y) <> 0). { intros Z0. apply N1. rewrite <- ln_1 in Z0. apply ln_inv in Z0; lra. }
    assert (GL := ln_gap y Py N1). assert (Tly := ln_tame y Py Ty). assert (Bly := tame_bound _ Tly).
    set (L := ln (B2R x) / ln (B2R y)) in *.
    assert (RL : L = 0 \/ r10 (-118) <= Rabs L <= r10 118).
    { destruct (Req_dec (B2R x) 1) as [E1|NX]; [left; unfold L; rewrite E1, ln_1; unfold Rdiv; ring|right].
      assert (GX := ln_gap x Px NX). assert (BX := tame_bound _ (ln_tame x Px Tx)).
      exact (quot_range (-18) 100 (-18) 100 _ _ (conj GX BX) (conj GL Bly)). }
    destruct (lib2_W G_log x y L eq_refl Fx Fy) as (r & Er & Fr & Wr).
    { cbn [Rfun2]. rewrite (proj2 (Rltb_true _ _) Px), (proj2 (Rltb_true _ _) Py), (proj2 (Reqb_false _ _) N1). reflexivity. }
    { destruct RL as [->|M]; [now left|right]. assert (r10 (-280) <= r10 (-118)) by (apply r10_le; lia). assert (r10 118 <= r10 280) by (apply r10_le; lia). lra. }
    rewrite Er. cbn [rbind].
    assert (Ry : r10 (-100) <= Rabs (B2R y) <= r10 100) by (destruct (tame_r10 _ Ty) as [Z|M]; [lra|exact M]).
    destruct (div_W 17 0 (Bopp (r : f64)) y (- L) (B2R y) ltac:(lia)) as (E1 & F1 & W1).
    { now rewrite is_finite_Bopp. } { rewrite B2R_Bopp. now apply W_opp. } { apply W_refl. } { lra. }
    { destruct RL as [->|M]; [left; unfold Rdiv; ring|]. assert (Mo : r10 (-118) <= Rabs (- L) <= r10 118) by (rewrite Rabs_Ropp; exact M). apply (mid_of (-218) 218); [lia|lia|]. exact (quot_range (-118) 118 (-100) 100 _ _ Mo Ry). }
    change (n_div FN (n_neg FN r) y) with (f_div (Bopp (r : f64)) y). rewrite E1. cbn [rbind]. rewrite El. cbn [rbind].
    destruct (div_W 19 5 (fdiv (Bopp (r : f64)) y) l (- L / B2R y) (ln (B2R y)) ltac:(lia) F1 W1 Wl NL (tame_mid _ Tc)) as (Ed & Fd & Wd).
    change (n_div FN (fdiv (Bopp (r : f64)) y) l) with (f_div (fdiv (Bopp (r : f64)) y) l). rewrite Ed. cbn [rmap]. apply (computes_W lm _ 26); [exact Fd|exact Wd|lia].
  - destruct D as [Px|[(D & _)|(D & _)]]; [|discriminate D|discriminate D]. unfold mpow_der1.
    change (n_eq FN x (n_zero FN)) with (Beqb x f0). rewrite (Beqb_correct _ _ x f0 Fx eq_refl). change (B2R f0) with 0. rewrite (Req_bool_false (B2R x)) by lra. cbn [andb].
    destruct (log_lib x Fx Px Tx) as (l & El & Fl & Wl). rewrite El. cbn [rbind].
    assert (Hp := pow_of_ln x (B2R y) Px Tx Tc).
    destruct (lib2_W G_pow x y (Rpower (B2R x) (B2R y)) eq_refl Fx Fy) as (r & Er & Fr & Wr).
    { cbn [Rfun2]. unfold Rpow_math. rewrite Rpow_py_pos by exact Px. reflexivity. }
    { right. assert (P := r10_pos (-280)). rewrite Rabs_pos_eq by lra. exact Hp. }
    rewrite Er. cbn [rbind rmap]. destruct (mul_W 5 17 l r _ _ ltac:(lia) Fl Fr Wl Wr (tame_mid _ Tc)) as (M1 & M2).
    change (n_mul FN l r) with (fmul l r). apply (computes_W lm _ 24); [exact M1|exact M2|lia].
Qed.
Theorem function2_derivatives : forall f (p q : pynum FN), cfinite lm p = true -> cfinite lm q = true -> representable (cval lm p) -> representable (cval lm q) ->
  m2_dom f true true (cval lm p) (cval lm q) -> tame (cval lm p) -> tame (cval lm q) -> settled2 f (cval lm p) (cval lm q) ->
  exists cx cy, is_derive (fun t => real_fun2 f t (cval lm q)) (cval lm p) cx /\ is_derive (fun t => real_fun2 f (cval lm p) t) (cval lm q) cy /\
    (tame cx -> exists c, m2_pos (N:=FN) f 0 [PNum p; PNum q] [] = Ok c /\ cfinite lm c = true /\ about (cval lm c) cx) /\
    (tame cy -> exists c, m2_pos (N:=FN) f 1 [PNum p; PNum q] [] = Ok c /\ cfinite lm c = true /\ about (cval lm c) cy).
Proof.
  intros f p q Fp Fq Rp Rq D Tp Tq St. destruct (conv_exact lm p Fp Rp) as (x & Ex & Fx & Vx). destruct (conv_exact lm q Fq Rq) as (y & Ey & Fy & Vy).
  rewrite <- Vx, <- Vy in *. destruct (slopes_derive f _ _ D) as (A & B). eexists. eexists. split; [exact A|]. split; [exact B|].
  split; intros T.
  - destruct (two_x f x y Fx Fy D Tp Tq St T) as (d & Ed & c & Ec & Fc & Ac). exists c. split; [|split; assumption]. unfold m2_pos. rewrite Ed, Ex. cbn [rbind]. rewrite Ey. cbn [rbind]. rewrite Ec. reflexivity.
  - destruct (two_y f x y Fx Fy D Tp Tq T) as (d & Ed & c & Ec & Fc & Ac). exists c. split; [|split; assumption]. unfold m2_pos. rewrite Ed, Ex. cbn [rbind]. rewrite Ey. cbn [rbind]. rewrite Ec. reflexivity.
Qed.
End Two.
