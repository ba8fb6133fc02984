(** The square root of a square in binary64, and x.s for variables. *)
From Coq Require Import ZArith List Bool Lia Reals Lra.
From Coq Require Import Relations.Relation_Operators.
From Flocq Require Import Core BinarySingleNaN.
From Verif Require Import Base Heap HeapSpec HeapProofs NumR NumF Affine Ops UMath Machine Cov Calls Unumpy UMatrix History Fuel FFacts FRefute FmtF
  BinProofs BinQ BinStd GradSpec Evolve BinGrad BinGradThm.
Import ListNotations.
Local Open Scope R_scope.

Local Instance vexp : Valid_exp fexp64 := fexp_correct 53 1024 prec_gt_0_64.
Lemma sqrt_square_rnd : forall x, generic_format radix2 fexp64 x -> bpow radix2 (-500) <= x <= bpow radix2 500 ->
  rnd64 (sqrt (rnd64 (x * x))) = x.
Proof.
  intros x Fx (L & Hi). assert (P : 0 < x) by (apply Rlt_le_trans with (2 := L); apply bpow_gt_0).
  assert (Nx : x <> 0) by lra. assert (He := conj (bpow_mag_le radix2 x Nx) (bpow_mag_gt radix2 x)). set (e := mag radix2 x : Z) in *.
  rewrite !Rabs_pos_eq in He by lra. destruct He as (He1 & He2).
  assert (Eb : (-500 < e <= 501)%Z).
  { split; [apply (lt_bpow radix2); lra|]. assert ((e - 1 <= 500)%Z); [|lia]. apply (le_bpow radix2). lra. }
  assert (Mx : (mag radix2 x : Z) = e) by reflexivity.
  assert (U : ulp radix2 fexp64 x = bpow radix2 (e - 53)).
  { rewrite ulp_neq_0 by exact Nx. unfold cexp. rewrite Mx. change (fexp64 e) with (Z.max (e - 53) (-1074)). rewrite Z.max_l by lia. reflexivity. }
  assert (Fe : generic_format radix2 fexp64 (bpow radix2 e)).
  { apply generic_format_bpow. change (fexp64 (e + 1)) with (Z.max (e + 1 - 53) (-1074)). lia. }
  assert (Sq : bpow radix2 (-1022) <= x * x).
  { apply Rle_trans with (bpow radix2 (-500) * bpow radix2 (-500)); [rewrite <- bpow_plus; apply bpow_le; lia|].
    apply Rmult_le_compat; try apply bpow_ge_0; exact L. }
  destruct (Rle_lt_or_eq_dec _ _ He1) as [He3|He3].
  - set (y := rnd64 (x * x)).
    assert (Ry : Rabs (y - x * x) <= u53 * (x * x)).
    { rewrite <- (Rabs_pos_eq (x * x)) at 2 by nra. apply rnd_relative. rewrite Rabs_pos_eq by nra. exact Sq. }
    set (d := bpow radix2 (e - 53)) in *. assert (Pd : 0 < d) by apply bpow_gt_0.
    assert (Sx : x + d <= bpow radix2 e).
    { rewrite <- U. rewrite <- succ_eq_pos by lra. apply succ_le_lt; auto. typeclasses eauto. }
    assert (Ud : bpow radix2 e * u53 = d) by (unfold u53, d; rewrite <- bpow_plus; reflexivity).
    assert (Ud2 : bpow radix2 (e - 1) * u53 = d / 2).
    { unfold u53, d. rewrite <- bpow_plus. unfold Rdiv. change (/ 2) with (bpow radix2 (-1)). rewrite <- bpow_plus. f_equal. lia. }
    assert (U0 : 0 < u53) by apply u53_val.
    assert (A1 : u53 * x <= d - u53 * d) by nra. assert (A2 : d / 2 <= u53 * x) by nra.
    apply Rabs_le_inv in Ry. assert (B : u53 * (x * x) <= x * d - u53 * x * d) by nra.
    assert (Y0 : 0 <= y) by (apply Rle_trans with ((1 - u53) * (x * x)); [apply Rmult_le_pos; [assert (X := u53_val); lra|nra]|lra]).
    assert (D1 : d < x). { apply Rlt_le_trans with (bpow radix2 (e - 1)); [|lra]. unfold d. apply bpow_lt. lia. }
    apply Rle_antisym.
    + apply round_N_le_midp; [exact vexp|exact Fx|]. rewrite succ_eq_pos by lra. rewrite U.
      apply Rsqr_incrst_0; [|apply sqrt_pos|lra]. unfold Rsqr. rewrite sqrt_sqrt by exact Y0.
      replace ((x + (x + d)) / 2 * ((x + (x + d)) / 2)) with (x * x + x * d + d * d / 4) by field. nra.
    + apply round_N_ge_midp; [exact vexp|exact Fx|]. rewrite pred_eq_pos by lra. unfold pred_pos. fold e. rewrite Req_bool_false by (intros X; lra). rewrite U.
      apply Rsqr_incrst_0; [|lra|apply sqrt_pos]. unfold Rsqr. rewrite sqrt_sqrt by exact Y0.
      replace ((x + (x - d)) / 2 * ((x + (x - d)) / 2)) with (x * x - x * d + d * d / 4) by field. nra.
  - clearbody e. assert (X : x * x = bpow radix2 (e - 1 + (e - 1))) by (rewrite bpow_plus, He3; reflexivity).
    rewrite X. rewrite round_generic with (x := bpow radix2 (e - 1 + (e - 1))); [|apply valid_rnd_N|].
    + rewrite <- X, sqrt_square by lra. apply round_generic; [apply valid_rnd_N|exact Fx].
    + apply generic_format_bpow. change (fexp64 (e - 1 + (e - 1) + 1)) with (Z.max (e - 1 + (e - 1) + 1 - 53) (-1074)). lia.
Qed.

(** ** sqrt(s ** 2) as calculated *)
Lemma f64_format : forall s : f64, generic_format radix2 fexp64 (B2R s).
Proof. intros s. apply generic_format_B2R. Qed.
Lemma bpow_pow : forall n : nat, bpow radix2 (Z.of_nat n) = 2 ^ n.
Proof. intros n. rewrite <- IZR_Zpower by lia. rewrite pow_IZR. reflexivity. Qed.
Lemma sqrt_square_f : forall lm, exact_squares lm -> forall s : f64, is_finite s = true -> / 2 ^ 500 <= B2R s <= 2 ^ 500 ->
  exists q, f_pow lm s ftwo = Ok (Some q) /\ f_sqrt (fadd f0 q) = Ok s.
Proof.
  intros lm Sq s F R. assert (P5 : 0 < 2 ^ 500) by (apply pow_lt; lra). assert (Pi := Rinv_0_lt_compat _ P5). assert (P : 0 < B2R s) by lra.
  assert (N1 : is_nanf s = false) by (destruct s; try discriminate F; reflexivity).
  assert (N2 : is_inf s = false) by (destruct s; try discriminate F; reflexivity).
  assert (L : Bltb s f0 = false) by (rewrite Bltb_correct by (auto; reflexivity); apply Rlt_bool_false; change (B2R f0) with 0; lra).
  assert (Z : Beqb s f0 = false) by (rewrite (Beqb_correct _ _ s f0 F eq_refl); apply Req_bool_false; change (B2R f0) with 0; lra).
  assert (Sg : Bsign s = false).
  { destruct s as [b| | |b m e E]; try discriminate F; try (simpl in P; lra). destruct b; [|reflexivity]. exfalso.
    assert (W : B2R (B754_finite true m e E : f64) < 0) by (apply F2R_lt_0; reflexivity). lra. }
  assert (Ab : fabs s = s) by (destruct s as [b| | |b m e E]; try discriminate F; cbn in Sg; subst b; reflexivity).
  assert (B5 : bpow radix2 (-500) <= B2R s <= bpow radix2 500).
  { change (-500)%Z with (- (500))%Z. rewrite bpow_opp. change 500%Z with (Z.of_nat 500). rewrite bpow_pow. exact R. }
  pose proof (Bmult_correct 53 1024 prec_gt_0_64 prec_lt_emax_64 mode_NE s s) as C. fold (fmul s s) in C.
  change (round_mode mode_NE) with ZnearestE in C.
  assert (O : Rabs (rnd64 (B2R s * B2R s)) < bpow radix2 1024).
  { apply Rle_lt_trans with (bpow radix2 1000); [|apply bpow_lt; lia]. apply abs_round_le_generic; [exact vexp|apply valid_rnd_N|apply generic_format_bpow; vm_compute; discriminate|].
    rewrite Rabs_pos_eq by nra. change 1000%Z with (500 + 500)%Z. rewrite bpow_plus. apply Rmult_le_compat; lra. }
  rewrite Rlt_bool_true in C by exact O. destruct C as (C1 & C2 & C3). rewrite F in C2. cbn [andb] in C2.
  assert (X : exists q : f64, f_pow lm s ftwo = Ok (Some q) /\ is_finite q = true /\ B2R q = rnd64 (B2R s * B2R s)).
  { unfold f_pow. change (Beqb ftwo f0) with false. change (is_nanf ftwo) with false. change (is_inf ftwo) with false. cbv iota.
    rewrite N1, N2, L, two_even, two_int. cbn [andb negb]. change (Bltb ftwo f0) with false. cbv iota. rewrite Z, Ab.
    destruct (Beqb s fone) eqn:E1.
    - exists fone. split; [reflexivity|]. split; [reflexivity|]. assert (Y := Beqb_correct _ _ s fone F eq_refl). assert (Y2 := eq_trans (eq_sym Y) E1).
      rewrite one_R in Y2. destruct (Req_bool_spec (B2R s) 1) as [Y3|]; [|discriminate Y2]. rewrite Y3, Rmult_1_r, one_R.
      symmetry. apply round_generic; [apply valid_rnd_N|]. rewrite <- one_R. apply f64_format.
    - rewrite (Sq s). assert (I : is_inf (fmul s s) = false) by (destruct (fmul s s); try discriminate C2; reflexivity). rewrite I.
      exists (fmul s s). auto. }
  destruct X as (q & Q1 & Q2 & Q3). exists q. split; [exact Q1|].
  pose proof (Bplus_correct 53 1024 prec_gt_0_64 prec_lt_emax_64 mode_NE f0 q eq_refl Q2) as D. fold (fadd f0 q) in D.
  change (round_mode mode_NE) with ZnearestE in D. change (B2R f0) with 0 in D. rewrite Rplus_0_l in D.
  rewrite (round_generic _ _ _ (B2R q)) in D by apply f64_format. rewrite Rlt_bool_true in D by (rewrite Q3; exact O). destruct D as (D1 & D2 & _).
  assert (Pq : 0 <= B2R q). { rewrite Q3. apply round_ge_generic; [exact vexp|apply valid_rnd_N|apply generic_format_0|nra]. }
  unfold f_sqrt. rewrite Bltb_correct by (auto; reflexivity). rewrite D1. rewrite Rlt_bool_false by exact Pq. f_equal.
  destruct (Bsqrt_correct 53 1024 prec_gt_0_64 prec_lt_emax_64 mode_NE (fadd f0 q)) as (E1 & E2 & E3).
  change (round_mode mode_NE) with ZnearestE in E1. rewrite D1, Q3, (sqrt_square_rnd _ (f64_format s) B5) in E1.
  assert (Fq : is_finite (Bsqrt mode_NE (fadd f0 q)) = true).
  { destruct (Bsqrt mode_NE (fadd f0 q)) eqn:W; try reflexivity; exfalso; simpl in E1; lra. }
  apply B2R_Bsign_inj; auto. rewrite Sg.
  destruct (Bsqrt mode_NE (fadd f0 q)) as [b| | |b m e E]; try discriminate Fq; try (simpl in E1; lra).
  destruct b; [|reflexivity]. exfalso. assert (W : B2R (B754_finite true m e E : f64) < 0) by (apply F2R_lt_0; reflexivity). lra.
Qed.

(** ** Variables *)
Section Vars.
Variable lm : Libm.
Notation FN := (FOps lm).
Lemma ev_dict : forall h h', ev (fun e => e = EFuel) h h' -> forall l (d : dict FN), (l < length (h_lc h))%nat -> get_lc h l = LDict d ->
  (l < length (h_lc h'))%nat /\ get_lc h' l = LDict d.
Proof.
  intros h h' V. induction V as [h|h xs objs Lo|h l0 its fuel r h' G X F|h1 h2 h3 V1 IH1 V2 IH2]; intros l d B D; auto.
  - split; [cbn; rewrite app_length; lia|]. rewrite get_more by exact B. exact D.
  - destruct (loop_others lm _ _ _ _ _ _ X) as (L & O). rewrite L. split; [exact B|]. rewrite O; [exact D|]. intros ->. rewrite G in D. discriminate D.
  - destruct (IH1 l d B D) as (B2 & D2). apply IH2; assumption.
Qed.
(** Whatever a program does, in any number of steps. *)
Definition later : state FN -> state FN -> Prop := clos_refl_trans_1n _ (acts lm).
Lemma later_sev : forall st st', later st st' -> sev (fun e => e = EFuel) st st'.
Proof.
  intros st st' H. induction H as [st|st1 st2 st3 A _ IH]; [apply sev_refl|]. eapply sev_trans; [|exact IH]. now apply acts_sev.
Qed.
Theorem variable_s : exact_squares lm -> forall st0 n s tag st1 st x, does st0 (INew n s tag) st1 ONone -> later st1 st ->
  let i := length (st_env st0) in reads st (IStd i) (ONum (N:=FN) x) ->
  is_finite (x : f64) = true -> / 2 ^ 500 <= B2R (x : f64) <= 2 ^ 500 -> reads st (IStdS i) (ONum (N:=FN) x).
Proof.
  intros Sq st0 n s tag st1 st x [k D] H i [st2 [k2 R]] F B. specialize (D k (le_n k)). cbn [step] in D.
  unfold new_var in D. destruct (pn_float n) as [nom|e]; [|discriminate D]. destruct (check_std s) as [sd0|e]; [|discriminate D].
  cbn [alloc_lc h_lc h_var push] in D. injection D as <-. apply later_sev in H as [V [new N]]. cbn [st_heap st_env] in V, N.
  set (v := length (h_var (st_heap st0))) in *. set (l := length (h_lc (st_heap st0))) in *.
  assert (E : nth_error (st_env st) i = Some (VUF (mkUF (N:=FN) nom l (Some v)))).
  { rewrite N, <- app_assoc. unfold i. rewrite nth_error_app2 by apply le_n. now rewrite Nat.sub_diag. }
  assert (G : get_lc (st_heap st) l = LDict [(v, n_one FN)]).
  { eapply (ev_dict _ _ V); cbn [h_lc]; [rewrite app_length; cbn; lia|]. unfold get_lc. cbn [h_lc]. rewrite app_nth2 by apply le_n. unfold l. now rewrite Nat.sub_diag. }
  specialize (R k2 (le_n k2)). cbn [step] in R. unfold with_uf, with_val in R. rewrite E in R. unfold std_dev in R. cbn [uf_var] in R.
  destruct (get_var (st_heap st) v) as [o|] eqn:O; [|discriminate R]. cbn [observe] in R. injection R as _ R.
  assert (Q : exists q, f_pow lm x ftwo = Ok (Some q) /\ f_sqrt (fadd f0 q) = Ok (x : f64)) by (apply sqrt_square_f; assumption).
  destruct Q as (q & Q1 & Q2).
  assert (P5 : 0 < 2 ^ 500) by (apply pow_lt; lra). assert (Pi := Rinv_0_lt_compat _ P5).
  assert (Zx : Beqb x f0 = false) by (rewrite (Beqb_correct _ _ (x : f64) f0 F eq_refl); apply Req_bool_false; change (B2R f0) with 0; lra).
  assert (M : fabs (fmul fone x) = x).
  { assert (M1 : B2R (fmul fone x) = B2R (x : f64) /\ is_finite (fmul fone x) = true).
    { pose proof (Bmult_correct 53 1024 prec_gt_0_64 prec_lt_emax_64 mode_NE fone x) as C. fold (fmul fone x) in C. change (round_mode mode_NE) with ZnearestE in C.
      rewrite one_R, Rmult_1_l in C. rewrite (round_generic _ _ _ (B2R (x : f64))) in C by apply f64_format.
      rewrite Rlt_bool_true in C by apply abs_B2R_lt_emax. destruct C as (C1 & C2 & _). split; [exact C1|]. rewrite C2, F. reflexivity. }
    destruct M1 as (M1 & M2).
    apply B2R_Bsign_inj; auto.
    - unfold fabs. rewrite is_finite_Babs. exact M2.
    - unfold fabs. rewrite B2R_Babs, M1, Rabs_pos_eq by lra. reflexivity.
    - unfold fabs. rewrite Bsign_Babs by (destruct (fmul fone x); try discriminate M2; reflexivity).
      destruct (x : f64) as [b| | |b m e Em]; try discriminate F; try (simpl in B; lra). destruct b; [|reflexivity]. exfalso.
      assert (W : B2R (B754_finite true m e Em : f64) < 0) by (apply F2R_lt_0; reflexivity). lra. }
  apply (reads_step 1); [|discriminate]. cbn [step]. unfold with_uf, with_val. rewrite E. unfold std_dev_s, std_dev_affine, bind, error_components, bind, derivatives, lc_derivatives.
  cbn [uf_lp]. rewrite G. cbn [components]. rewrite O. rewrite R. cbn [n_eq FOps n_zero]. rewrite Zx. cbn [n_mul n_one n_abs FOps]. rewrite M. cbn [components rbind map snd].
  cbn [sum_squares]. unfold pn_square, n_powf. cbn [n_pow n_two FOps]. rewrite Q1. cbn [rbind pn_add sum_squares]. unfold pn_sqrt.
  change (f_of_Z 0) with (Ok f0). cbn [rbind pn_float n_fun1 FOps f_fun1]. change (n_of_Z FN 0) with (Ok f0). cbn [rbind pn_float n_add FOps]. rewrite Q2. reflexivity.
Qed.
(** Calculated numbers: the same code. *)
Theorem calculated_s : forall (st : state FN) i u o, is_number st i u -> uf_var u = None ->
  (reads st (IStd i) o <-> reads st (IStdS i) o).
Proof.
  intros st i u o U V. assert (X : forall f, step f st (IStd i) = step f st (IStdS i)).
  { intros f. cbn [step]. unfold with_uf, with_val. unfold is_number in U. rewrite U. unfold std_dev. rewrite V. reflexivity. }
  split; intros [st' [k H]]; exists st', k; intros f Hf; [rewrite <- X|rewrite X]; auto.
Qed.
End Vars.
