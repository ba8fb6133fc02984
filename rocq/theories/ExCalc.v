(** Concrete cases: an ideal C library, and x = ufloat(4, 1); y = sqrt(x); z = y*x; w = z/2. *)
From Coq Require Import ZArith List Bool Lia Reals Lra.
From Coquelicot Require Import Coquelicot.
From Flocq Require Import Core BinarySingleNaN.
From Verif Require Import Base Heap HeapSpec HeapProofs NumR NumF Affine Ops UMath Machine Cov Calls Unumpy UMatrix History Fuel FFacts FmtF
  BinProofs BinQ NumFacts BinStd BinArith BinDeriv GradSpec Evolve BinGrad BinGradThm GradStd BinCov DerivR Prim Refine PrimReg CalcSpec CalcThm CalcAlg CalcFun CalcOp CalcPow CalcMore CalcTwo CalcTop.
Import ListNotations.
Local Open Scope R_scope.

(** A C library that rounds correctly. *)
Definition ideal (y : R) : f64 := fnorm (Ztrunc (scaled_mantissa radix2 fexp64 (rnd64 y))) (cexp radix2 fexp64 (rnd64 y)).
Definition ideal_libm : Libm := mkLibm
  (fun f x => match Rfun1 (fun _ => 0) (fun _ => 0) f (B2R x) with Ok y => Ok (ideal y) | Err e => Err e end)
  (fun f x y => match Rfun2 f (B2R x) (B2R y) with Ok z => Ok (ideal z) | Err e => Err e end) (fun x y => ideal (Rpower (B2R x) (B2R y))).
Lemma ideal_R : forall y, Rabs (rnd64 y) < bpow radix2 1024 -> is_finite (ideal y) = true /\ B2R (ideal y) = rnd64 y.
Proof.
  intros y H. unfold ideal. set (m := Ztrunc (scaled_mantissa radix2 fexp64 (rnd64 y))). set (e := cexp radix2 fexp64 (rnd64 y)).
  assert (G : rnd64 y = F2R (Float radix2 m e)) by (apply (generic_format_round radix2 fexp64 ZnearestE y)).
  destruct (Z.eq_dec m 0) as [Z|N].
  - rewrite G, Z, F2R_0. split; [|].
    + pose proof (binary_normalize_correct 53 1024 prec_gt_0_64 prec_lt_emax_64 mode_NE 0 e false) as X. cbv zeta in X. rewrite F2R_0, round_0, Rabs_R0, Rlt_bool_true in X by (apply bpow_gt_0 || apply valid_rnd_N). tauto.
    + pose proof (binary_normalize_correct 53 1024 prec_gt_0_64 prec_lt_emax_64 mode_NE 0 e false) as X. cbv zeta in X. rewrite F2R_0, round_0, Rabs_R0, Rlt_bool_true in X by (apply bpow_gt_0 || apply valid_rnd_N). tauto.
  - pose proof (fnorm_R m e N) as X. cbv zeta in X. rewrite <- G in X. rewrite (round_generic radix2 fexp64 ZnearestE (rnd64 y)) in X by (apply generic_format_round; [apply FLT_exp_valid; reflexivity|apply valid_rnd_N]).
    rewrite Rlt_bool_true in X by exact H. tauto.
Qed.
Lemma ideal_accurate : forall y, Rabs y <= 10 ^ 280 -> accurate (ideal y) y.
Proof.
  intros y H. rewrite p280 in H. assert (U := u53_val). assert (P := r10_pos (-300)).
  assert (C : Rabs (rnd64 y) < bpow radix2 1024 /\ Rabs (rnd64 y - y) <= u53 * Rabs y + r10 (-300)).
  { destruct (Rle_lt_dec (r10 (-300)) (Rabs y)) as [L|L].
    - assert (Q : y = 0 \/ lo <= Rabs y <= hi). { right. split; [exact L|]. apply Rle_trans with (1 := H). apply r10_le; lia. }
      destruct (rnd_ok y Q). split; [assumption|]. lra.
    - assert (D : Rabs (rnd64 y - y) <= u53 * Rabs y + r10 (-300)).
      { assert (X := rnd_any y). assert (Y := eta_small). assert (Z : r10 (-323) <= r10 (-300)) by (apply r10_le; lia). lra. }
      split; [|exact D]. replace (rnd64 y) with (rnd64 y - y + y) by ring. eapply Rle_lt_trans; [apply Rabs_triang|].
      assert (B : bpow radix2 0 <= bpow radix2 1024) by (apply bpow_le; lia). change (bpow radix2 0) with 1 in B.
      assert (T := tiny). nra. }
  destruct C as (C1 & C2). destruct (ideal_R y C1) as (F & E). unfold accurate. rewrite E, u51, ip280, ip300. split; [exact F|]. assert (Y := Rabs_pos y).
  split; [nra|]. intros Q. destruct (rnd_ok y) as (_ & A); [|nra].
  destruct Q as [Z|Q]; [left; exact Z|right]. split; [|apply Rle_trans with (1 := H); apply r10_le; lia]. apply Rle_trans with (2 := Q). apply r10_le; lia.
Qed.
Lemma ideal_ok : libm_ok ideal_libm.
Proof.
  split.
  - intros f x y I F E H. exists (ideal y). split; [|now apply ideal_accurate]. cbn [ideal_libm lm_fun1]. rewrite E. reflexivity.
  - intros x y Fx Fy P H. cbn [ideal_libm lm_pow]. apply ideal_accurate. rewrite Rabs_pos_eq; [exact H|]. apply Rlt_le, exp_pos.
Qed.
Lemma ideal_ok2 : libm2_ok ideal_libm.
Proof.
  intros f x y z I Fx Fy E H. assert (Y := Rabs_pos z). assert (Q : z = 0 \/ / 10 ^ 280 <= Rabs z) by tauto.
  assert (B : Rabs z <= 10 ^ 280). { destruct H as [->|H]; [|tauto]. rewrite Rabs_R0. apply pow_le. lra. }
  destruct (ideal_accurate z B) as (A1 & _ & A2). exists (ideal z). cbn [ideal_libm lm_fun2]. rewrite E. split; [reflexivity|]. split; [exact A1|].
  apply Rle_trans with (1 := A2 Q). apply Rmult_le_compat_r; [exact Y|]. simpl. lra.
Qed.

(** x = ufloat(4, 1); y = sqrt(x); c = 2; z = y*x; w = z/c, for any C library. *)
Section History.
Variable lm : Libm.
Notation FN := (FOps lm).
Definition fz (z : Z) : pynum FN := PF (N:=FN) (fnorm z 0).
Definition go (st : state FN) (ins : instr FN) : state FN := fst (step 40 st ins).
Definition c1 := go (init (N:=FN)) (INew (fz 4) (fz 1) None).
Definition c2 := go c1 (ICall (m1_fun F_sqrt) (m1_pos F_sqrt) (m1_kw F_sqrt) [0%nat] []).
Definition c3 := go c2 (IConst (PZ 2)).
Definition c4 := go c3 (IBin Bmul 1 0).
Definition c5 := go c4 (IBin Btruediv 3 2).
Definition is_none (o : out FN) : bool := match o with ONone => true | _ => false end.
Lemma does_go : forall st ins, is_none (snd (step 40 st ins)) = true -> does st ins (go st ins) ONone.
Proof. intros st ins H. apply does_step; [|discriminate]. destruct (snd (step 40 st ins)); try discriminate H. reflexivity. Qed.
Definition num_at (st : state FN) (i : nat) : uf FN := match nth_error (st_env st) i with Some (VUF u) => u | _ => mkUF (N:=FN) f0 0%nat None end.
Definition has_num (st : state FN) (i : nat) (z : Z) : bool :=
  match nth_error (st_env st) i with Some (VUF u) => is_finite (uf_nom u : f64) && Beqb (uf_nom u : f64) (fnorm z 0) | _ => false end.
Lemma num_ok : forall st i z, is_finite (fnorm z 0) = true -> has_num st i z = true -> is_number st i (num_at st i) /\ is_finite (uf_nom (num_at st i) : f64) = true /\ B2R (uf_nom (num_at st i) : f64) = B2R (fnorm z 0).
Proof.
  intros st i z Fz. unfold has_num, is_number, num_at. destruct (nth_error (st_env st) i) as [[|u]|]; try discriminate. intros H. apply andb_true_iff in H as (F & H).
  split; [reflexivity|]. split; [exact F|]. assert (Y := Beqb_correct _ _ (uf_nom u : f64) (fnorm z 0) F Fz). assert (Y2 := eq_trans (eq_sym Y) H).
  destruct (Req_bool_spec (B2R (uf_nom u : f64)) (B2R (fnorm z 0))) as [E|]; [exact E|discriminate Y2].
Qed.
Definition has_int (st : state FN) (i : nat) (z : Z) : bool := match nth_error (st_env st) i with Some (VPlain (PNum (PZ k))) => Z.eqb k z | _ => false end.
Lemma int_ok : forall st i z, has_int st i z = true -> nth_error (st_env st) i = Some (VPlain (PNum (PZ (N:=FN) z))).
Proof. intros st i z. unfold has_int. destruct (nth_error (st_env st) i) as [[[[k|]| | |]|]|]; try discriminate. intros H. apply Z.eqb_eq in H. now subst. Qed.
Ltac ev := vm_cast_no_check (eq_refl true).
Lemma four_R : B2R (fnorm 4 0) = 4. Proof. vm_compute. lra. Qed.
Lemma two_R : B2R (fnorm 2 0) = 2. Proof. vm_compute. lra. Qed.
Definition lin_y : lin := exact_lin [(/ 4, var_lin 0%nat)].
Definition lin_z : lin := exact_lin [(4, lin_y); (2, var_lin 0%nat)].
Definition lin_w : lin := exact_lin [(/ 2, lin_z)].
Lemma sqrt4 : sqrt 4 = 2.
Proof. replace 4 with (2 * 2) by ring. apply sqrt_square. lra. Qed.
Lemma analytic_c5 : analytic lm c5 [Some (var_lin 0%nat); Some lin_y; None; Some lin_z; Some lin_w].
Proof.
  assert (A1 : analytic lm c1 [Some (var_lin 0%nat)]).
  { destruct (num_ok c1 0 4 eq_refl ltac:(ev)) as (N & _ & _).
    eapply (an_new lm init [] (fz 4) (fz 1) None c1 (num_at c1 0)); [constructor|apply does_go; ev|exact N|reflexivity]. }
  assert (A2 : analytic lm c2 [Some (var_lin 0%nat); Some lin_y]).
  { destruct (num_ok c1 0 4 eq_refl ltac:(ev)) as (N & F & V). destruct (num_ok c2 1 2 eq_refl ltac:(ev)) as (N2 & _ & _). rewrite four_R in V.
    eapply (an_function lm c1 [Some (var_lin 0%nat)] F_sqrt 0%nat c2 (uf_nom (num_at c1 0)) (num_at c2 1) (num_at c1 0) (/ 4) [(/ 4, var_lin 0%nat)] A1).
    - apply does_go. ev.
    - exact N2.
    - exact N.
    - reflexivity.
    - reflexivity.
    - exact F.
    - rewrite V. cbn [m1_dom]. lra.
    - rewrite V. apply tame_small. lra.
    - rewrite V. replace (/ 4) with (slope F_sqrt 4) by (cbn [slope]; rewrite sqrt4; lra). apply slope_derive; [reflexivity|cbn [m1_dom]; lra].
    - apply tame_small. lra.
    - eapply ea_number; [exact N|reflexivity|constructor]. }
  assert (A3 : analytic lm c3 [Some (var_lin 0%nat); Some lin_y; None]).
  { assert (X := an_other lm c2 _ c3 A2). replace (length (st_env c3) - length (st_env c2))%nat with 1%nat in X by (vm_compute; reflexivity). apply X.
    apply act_statement with (ins := IConst (PZ 2)) (o := ONone); [apply does_go; ev|discriminate]. }
  assert (A4 : analytic lm c4 [Some (var_lin 0%nat); Some lin_y; None; Some lin_z]).
  { destruct (num_ok c3 0 4 eq_refl ltac:(ev)) as (N & F & V). destruct (num_ok c3 1 2 eq_refl ltac:(ev)) as (N1 & F1 & V1). destruct (num_ok c4 3 8 eq_refl ltac:(ev)) as (N2 & _ & _).
    rewrite four_R in V. rewrite two_R in V1.
    eapply (an_operator lm c3 [Some (var_lin 0%nat); Some lin_y; None] Bmul 1%nat 0%nat c4 (VUF (num_at c3 1)) (VUF (num_at c3 0)) (PF (uf_nom (num_at c3 1))) (PF (uf_nom (num_at c3 0))) (num_at c4 3) 4 2 [(4, lin_y); (2, var_lin 0%nat)] A3).
    - apply does_go. ev.
    - exact N2.
    - exact N1.
    - exact N.
    - reflexivity.
    - reflexivity.
    - exact F1.
    - exact F.
    - exact I.
    - cbn [cval]. rewrite V, V1. cbn [real_op]. auto_derive; auto; ring.
    - cbn [cval]. rewrite V, V1. cbn [real_op]. auto_derive; auto; ring.
    - apply tame_small. lra.
    - apply tame_small. lra.
    - eapply ea_number; [exact N1|reflexivity|]. eapply ea_number; [exact N|reflexivity|constructor]. }
  destruct (num_ok c4 3 8 eq_refl ltac:(ev)) as (N & F & V). destruct (num_ok c5 4 4 eq_refl ltac:(ev)) as (N2 & _ & _).
  assert (E8 : B2R (fnorm 8 0) = 8) by (vm_compute; lra). rewrite E8 in V.
  eapply (an_operator lm c4 [Some (var_lin 0%nat); Some lin_y; None; Some lin_z] Btruediv 3%nat 2%nat c5 (VUF (num_at c4 3)) (VPlain (PNum (PZ 2))) (PF (uf_nom (num_at c4 3))) (PZ 2) (num_at c5 4) (/ 2) (- (2)) [(/ 2, lin_z)] A4).
  - apply does_go. ev.
  - exact N2.
  - exact N.
  - apply int_ok. ev.
  - reflexivity.
  - reflexivity.
  - exact F.
  - reflexivity.
  - cbn [op_dom cval]. rewrite V. split; [lra|]. split; apply tame_small; lra.
  - cbn [cval]. rewrite V. cbn [real_op]. auto_derive; auto; lra.
  - cbn [cval]. rewrite V. cbn [real_op]. auto_derive; [lra|lra].
  - apply tame_small. lra.
  - right. rewrite Rabs_Ropp. destruct (tame_small 2) as [Z|Z]; [lra|lra|exact Z].
  - eapply ea_number; [exact N|reflexivity|]. eapply ea_plain; [apply (int_ok c4 2 2); ev|constructor].
Qed.
Lemma size_bound : forall c M, 1 <= M -> Rabs c <= M -> / M <= Rabs c -> size c <= M.
Proof.
  intros c M M1 H1 H2. unfold size. destruct (Req_EM_T c 0) as [->|N]; [exact M1|]. apply Rmax_lub; [exact H1|].
  rewrite <- (Rinv_inv M). apply Rinv_le_contravar; [apply Rinv_0_lt_compat; lra|exact H2].
Qed.
Lemma lin_w_ok : well_in_range lin_w /\ grad lin_w 0%nat = 3 / 2 /\ paths lin_w 0%nat = 3 / 2 /\ roundings lin_w = 156%nat.
Proof.
  assert (S4 : size 4 <= 4) by (apply size_bound; rewrite ?Rabs_pos_eq by lra; lra).
  assert (S2 : size 2 <= 4) by (apply size_bound; rewrite ?Rabs_pos_eq by lra; lra).
  assert (Sh : size (/ 2) <= 4) by (apply size_bound; rewrite ?Rabs_pos_eq by lra; lra).
  assert (Sq : size (/ 4) <= 4) by (apply size_bound; rewrite ?Rabs_pos_eq by lra; lra).
  assert (Q4 := size_ge1 4). assert (Q2 := size_ge1 2). assert (Qh := size_ge1 (/ 2)). assert (Qq := size_ge1 (/ 4)).
  assert (Ry : 1 <= range lin_y <= 4).
  { unfold lin_y, exact_lin. cbn [range fold_right fst snd var_lin]. rewrite Rmult_1_r. split; [apply Rmax_r|apply Rmax_lub; lra]. }
  assert (Rz : 1 <= range lin_z <= 16).
  { unfold lin_z. unfold exact_lin at 1 2. cbn [range fold_right fst snd]. split; [eapply Rle_trans; [|apply Rmax_r]; apply Rmax_r|].
    repeat apply Rmax_lub; [|cbn [var_lin range]; lra|lra]. apply Rle_trans with (4 * 4); [apply Rmult_le_compat; lra|lra]. }
  split; [split|].
  - vm_compute. discriminate.
  - apply Rle_trans with 64.
    + unfold lin_w. unfold exact_lin at 1. cbn [range fold_right fst snd]. apply Rmax_lub; [|lra]. apply Rle_trans with (4 * 16); [apply Rmult_le_compat; lra|lra].
    + apply Rle_trans with (2 ^ 6); [lra|]. apply Rle_pow; [lra|]. apply Nat.leb_le. reflexivity.
  - unfold lin_w, lin_z, lin_y, exact_lin, var_lin. cbn [grad paths roundings map Rsum fst snd Nat.eqb]. rewrite !Rabs_pos_eq by lra.
    split; [lra|]. split; [lra|]. reflexivity.
Qed.
End History.
Lemma ex_analytic : exists lm L, libm_ok lm /\ libm2_ok lm /\ analytic lm (c5 lm) L /\ nth_error L 4%nat = Some (Some lin_w) /\
  well_in_range lin_w /\ grad lin_w 0%nat = 3 / 2 /\ paths lin_w 0%nat = 3 / 2 /\ roundings lin_w = 156%nat.
Proof.
  exists ideal_libm. eexists. split; [exact ideal_ok|]. split; [exact ideal_ok2|]. split; [apply analytic_c5|]. split; [reflexivity|]. exact lin_w_ok.
Qed.
Lemma ex_function : exists lm (x : f64), libm_ok lm /\ settled F_exp (B2R x) /\ is_finite x = true /\ m1_dom F_exp (B2R x) /\ tame (B2R x) /\
  B2R x = 1 /\ is_derive (real_fun F_exp) 1 (exp 1) /\ tame (exp 1).
Proof.
  exists ideal_libm, fone. rewrite one_R. split; [exact ideal_ok|]. split; [exact I|]. split; [reflexivity|]. split; [exact I|]. split; [apply tame_small; lra|].
  split; [reflexivity|]. split; [apply (slope_derive F_exp); [reflexivity|exact I]|]. apply tame_small. assert (A := exp_ineq1_le 1). assert (B := exp_le_3). lra.
Qed.
Lemma ex_operator : exists lm (p q : pynum (FOps lm)), libm_ok lm /\ cfinite lm p = true /\ cfinite lm q = true /\ op_dom Bpow (cval lm p) (cval lm q) /\
  cval lm p = 2 /\ cval lm q = 3 /\ is_derive (fun t => real_op Bpow t 3) 2 12 /\ tame 12.
Proof.
  exists ideal_libm, (PF (N:=FOps ideal_libm) (fnorm 2 0)), (PZ 3). split; [exact ideal_ok|]. split; [reflexivity|]. split; [reflexivity|]. cbn [cval]. rewrite two_R.
  split; [|split; [reflexivity|]; split; [reflexivity|]; split; [|apply tame_small; lra]].
  - cbn [op_dom]. split; [lra|]. split; [apply tame_small; lra|]. split; [apply tame_small; lra|]. split; [exists (fnorm 2 0); split; [reflexivity|exact two_R]|].
    split; [exists (fnorm 3 0); split; [reflexivity|vm_compute; lra]|]. exists (fnorm 2 0). split; [reflexivity|]. rewrite two_R. lra.
  - cbn [real_op]. replace 12 with (3 * Rpower 2 (3 - 1)); [apply Rpower_derive_x; lra|]. replace (3 - 1) with (INR 2) by (simpl; lra). rewrite Rpower_pow by lra. lra.
Qed.
Lemma ex_power : exists lm (x : f64) (q : pynum (FOps lm)), libm_ok lm /\ is_finite x = true /\ B2R x = -2 /\ tame (B2R x) /\ cfinite lm q = true /\
  cval lm q = IZR 3 /\ tame (IZR 3) /\ representable (IZR 3) /\ representable (IZR 3 - 1) /\ is_derive (fun t => powerRZ t 3) (-2) 12 /\ tame 12.
Proof.
  assert (M2 : B2R (fnorm (-2) 0) = -2) by (vm_compute; lra).
  exists ideal_libm, (fnorm (-2) 0), (PZ 3). rewrite M2. split; [exact ideal_ok|]. split; [reflexivity|]. split; [reflexivity|].
  split. { right. rewrite Rabs_left by lra. destruct (tame_small 2) as [Z|Z]; [lra|lra|]. rewrite Rabs_pos_eq in Z by lra. replace (- -2) with 2 by ring. exact Z. }
  split; [reflexivity|]. split; [reflexivity|]. split; [apply tame_small; lra|]. split; [exists (fnorm 3 0); split; [reflexivity|vm_compute; lra]|].
  split; [exists (fnorm 2 0); split; [reflexivity|rewrite two_R; lra]|]. split; [|apply tame_small; lra].
  replace 12 with (IZR 3 * powerRZ (-2) (3 - 1)) by (simpl; lra). apply powerRZ_derive. left. lra.
Qed.
Lemma ex_acos : exists lm (x : f64), libm_ok lm /\ settled F_acos (B2R x) /\ is_finite x = true /\ m1_dom F_acos (B2R x) /\ tame (B2R x) /\
  B2R x = / 2 /\ is_derive (real_fun F_acos) (/ 2) (- (1) / sqrt (1 - (/ 2) ^ 2)) /\ tame (- (1) / sqrt (1 - (/ 2) ^ 2)).
Proof.
  assert (V : B2R (n_half (FOps ideal_libm) : f64) = / 2) by (vm_compute; lra).
  exists ideal_libm, (n_half (FOps ideal_libm) : f64). rewrite V. split; [exact ideal_ok|]. split; [cbn [settled]; lra|]. split; [reflexivity|]. split; [cbn [m1_dom]; lra|]. split; [apply tame_small; lra|].
  split; [reflexivity|]. split; [apply (settled_derive F_acos); [cbn [settled]; lra|cbn [m1_dom]; lra]|].
  assert (S : / 2 <= sqrt (1 - (/ 2) ^ 2) <= 1). { split; [replace (/ 2) with (sqrt (/ 2 * / 2)) at 1 by (apply sqrt_square; lra)|apply Rle_trans with (sqrt 1); [|rewrite sqrt_1; lra]]; apply sqrt_le_1_alt; lra. }
  set (s := sqrt (1 - (/ 2) ^ 2)) in *. destruct (tame_small (1 / s)) as [Z|Z].
  - split; apply Rmult_le_reg_r with s; try lra; unfold Rdiv; rewrite Rmult_assoc, Rinv_l by lra; lra.
  - left. unfold Rdiv in *. lra.
  - right. replace (- (1) / s) with (- (1 / s)) by (field; lra). rewrite Rabs_Ropp. exact Z.
Qed.
Lemma ex_function2 : exists lm (p q : pynum (FOps lm)), libm_ok lm /\ libm2_ok lm /\ cfinite lm p = true /\ cfinite lm q = true /\
  representable (cval lm p) /\ representable (cval lm q) /\ m2_dom G_hypot true true (cval lm p) (cval lm q) /\ tame (cval lm p) /\ tame (cval lm q) /\
  settled2 G_hypot (cval lm p) (cval lm q) /\ cval lm p = 3 /\ cval lm q = 4 /\
  is_derive (fun t => real_fun2 G_hypot t 4) 3 (3 / 5) /\ is_derive (fun t => real_fun2 G_hypot 3 t) 4 (4 / 5) /\ tame (3 / 5) /\ tame (4 / 5).
Proof.
  assert (V : B2R (fnorm 3 0) = 3) by (vm_compute; lra).
  exists ideal_libm, (PF (N:=FOps ideal_libm) (fnorm 3 0)), (PZ 4). cbn [cval]. rewrite V. split; [exact ideal_ok|]. split; [exact ideal_ok2|]. split; [reflexivity|]. split; [reflexivity|].
  split; [exists (fnorm 3 0); split; [reflexivity|exact V]|]. split; [exists (fnorm 4 0); split; [reflexivity|exact four_R]|].
  split; [left; lra|]. split; [apply tame_small; lra|]. split; [apply tame_small; lra|]. split; [exact I|]. split; [reflexivity|]. split; [reflexivity|].
  assert (S5 : sqrt (3 ^ 2 + 4 ^ 2) = 5) by (replace (3 ^ 2 + 4 ^ 2) with (5 * 5) by ring; apply sqrt_square; lra).
  destruct (slopes_derive G_hypot 3 4) as (A & B); [left; lra|]. cbn [slope_x slope_y] in A, B. rewrite S5 in A, B.
  split; [exact A|]. split; [exact B|]. split; apply tame_small; lra.
Qed.
