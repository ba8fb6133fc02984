(** Variables in binary64: == and hash(). *)
From Coq Require Import ZArith List Bool Lia Reals Lra.
From Flocq Require Import Core BinarySingleNaN.
From Verif Require Import Base Heap HeapSpec HeapProofs NumR NumF Affine Ops UMath Machine Cov Calls Unumpy UMatrix History HistoryProofs Ordered Fuel FFacts FRefute FmtF
  BinProofs BinQ BinStd NumFacts GradSpec BinEq TwinSpec StaySpec Twin Stay.
Import ListNotations.
Local Open Scope R_scope.

Lemma errs_exist : forall (N : NumOps) (st : state N) i u v x, is_number st i u -> does st (IDeriv i) st (ODict [(v, x)]) -> existing st v -> exists e, reads st (IErrs i) (OErrs e).
Proof.
  intros N st i u v x U (k & D) E. unfold existing in E. destruct (get_var (st_heap st) v) as [o|] eqn:G; [|contradiction].
  assert (F : forall j, (k <= j)%nat -> derivatives j u (st_heap st) = (Ok [(v, x)], st_heap st)).
  { intros j Hj. specialize (D j Hj). cbn [step] in D. unfold with_uf, with_val, is_number, observe in *. rewrite U in D.
    destruct (derivatives j u (st_heap st)) as [[d|e] h1]; [|discriminate D]. injection D as D1 ->. f_equal. rewrite <- D1. reflexivity. }
  eexists. exists (mkState (st_heap st) (st_env st)), k. intros j Hj. cbn [step]. unfold with_uf, with_val, is_number, observe in *. rewrite U.
  unfold error_components, bind. rewrite (F j Hj). cbn [components]. rewrite G. reflexivity.
Qed.
Theorem variables_hash : forall lm, squares_ok lm -> forall (s1 s1' s2 s2' st : state (FOps lm)) n1 e1 t1 n2 e2 t2 u w,
  reachable st -> does s1 (INew n1 e1 t1) s1' ONone -> afterwards s1' st -> does s2 (INew n2 e2 t2) s2' ONone -> afterwards s2' st ->
  is_number st (length (st_env s1)) u -> is_number st (length (st_env s2)) w -> is_finite (uf_nom u : f64) = true -> is_finite (uf_nom w : f64) = true ->
  (forall v, uf_var u = Some v \/ uf_var w = Some v -> is_finite (sd st v : f64) = true /\ / 10 ^ 140 <= Rabs (B2R (sd st v : f64)) <= 10 ^ 140) ->
  exists b, reads st (ICmp Ceq (length (st_env s1)) (length (st_env s2))) (OBool b) /\
    (b = true <-> py_hash u = py_hash w /\ B2R (uf_nom u : f64) = B2R (uf_nom w : f64)).
Proof.
  intros lm SQ s1 s1' s2 s2' st n1 e1 t1 n2 e2 t2 u w R D1 A1 D2 A2 U W Fu Fw Sd.
  destruct (variable_stays s1 s1' st n1 e1 t1 D1 A1) as (u1 & v1 & U1 & V1 & _ & _ & K1 & Rd1 & _).
  destruct (variable_stays s2 s2' st n2 e2 t2 D2 A2) as (u2 & v2 & U2 & V2 & _ & _ & K2 & Rd2 & _).
  assert (u1 = u) by (unfold is_number in *; rewrite U in U1; injection U1 as <-; reflexivity).
  assert (u2 = w) by (unfold is_number in *; rewrite W in U2; injection U2 as <-; reflexivity). subst u1 u2.
  assert (X1 := proj2 (proj2 Rd1) u v1 U V1). assert (X2 := proj2 (proj2 Rd2) w v2 W V2).
  assert (One : forall v x, dget [(v, n_one (FOps lm))] x = if Nat.eqb x v then Some fone else None) by (intros v x; cbn [dget]; destruct (Nat.eqb x v); reflexivity).
  assert (Vl : forall v x, fval lm [(v, n_one (FOps lm))] x = if Nat.eqb x v then 1 else 0) by (intros v x; unfold fval; rewrite One; destruct (Nat.eqb x v); [exact one_R'|reflexivity]).
  assert (Cp : comparable lm st (length (st_env s1)) (length (st_env s2)) [(v1, n_one (FOps lm))] [(v2, n_one (FOps lm))]).
  { assert (Df : forall v, let x := fval lm [(v1, n_one (FOps lm))] v - fval lm [(v2, n_one (FOps lm))] v in rnd64 x = x /\ ((x = 0) \/ ((v = v1 \/ v = v2) /\ Rabs x = 1))).
    { intros v. cbv zeta. rewrite !Vl. destruct (Nat.eqb_spec v v1) as [E1|E1], (Nat.eqb_spec v v2) as [E2|E2].
      - replace (1 - 1) with 0 by ring. split; [apply rnd_zero|left; reflexivity].
      - replace (1 - 0) with (B2R fone) by (rewrite one_R'; ring). split; [apply rnd_B2R|right; split; [auto|rewrite one_R', Rabs_R1; reflexivity]].
      - replace (0 - 1) with (B2R (fneg fone)) by (rewrite (proj2 fneg_one); ring). split; [apply rnd_B2R|right; split; [auto|]]. rewrite (proj2 fneg_one), Rabs_left; lra.
      - replace (0 - 0) with 0 by ring. split; [apply rnd_zero|left; reflexivity]. }
    constructor; auto.
    - exact (errs_exist _ _ _ _ _ _ U K1 X1).
    - exact (errs_exist _ _ _ _ _ _ W K2 X2).
    - cbn. constructor; [tauto|constructor].
    - cbn. constructor; [tauto|constructor].
    - intros v x. rewrite One. destruct (Nat.eqb v v1); [|discriminate]. intros E. injection E as <-. reflexivity.
    - intros v x. rewrite One. destruct (Nat.eqb v v2); [|discriminate]. intros E. injection E as <-. reflexivity.
    - cbn. lra.
    - intros v [[<-|[]]|[<-|[]]]; apply Sd; auto.
    - intros v. destruct (Df v) as (-> & [->|(_ & ->)]); [rewrite Rabs_R0; apply bpow_gt_0|]. apply (bpow_lt radix2 0 1024). lia.
    - intros v. destruct (Df v) as (-> & [->|(E & Q)]); [left; ring|right]. rewrite Rabs_mult, Q, Rmult_1_l. apply Sd. destruct E as [->| ->]; auto. }
  destruct (equal_when_read lm SQ st _ _ u w _ _ U W Cp Fu Fw) as (b & Rb & Q). exists b. split; [exact Rb|]. rewrite Q. unfold py_hash. rewrite V1, V2.
  split.
  - intros (E & H). split; [|exact E]. specialize (H v1). rewrite !Vl, Nat.eqb_refl in H. destruct (Nat.eqb_spec v1 v2) as [->|Ne]; [reflexivity|].
    destruct H as [H|H]; [lra|]. destruct (Sd v1 (or_introl V1)) as (_ & S1 & _). rewrite H, Rabs_R0 in S1. assert (0 < / 10 ^ 140) by (apply Rinv_0_lt_compat, pow_lt; lra). lra.
  - intros (H & E). split; [exact E|]. intros v. left. injection H as ->. reflexivity.
Qed.
(** Two variables with a standard deviation of 2**-600: the squares underflow. *)
Definition small_twins : list (instr FN) := [INew (fl 1 0) (fl 1 (-600)) None; INew (fl 1 0) (fl 1 (-600)) None].
Lemma small_hash : exists u u', reachable (after small_twins) /\ is_number (after small_twins) 0 u /\
  is_number (after small_twins) 1 u' /\ Bltb f0 (sd (after small_twins) 0%nat : f64) = true /\ Bltb f0 (sd (after small_twins) 1%nat : f64) = true /\
  reads (after small_twins) (ICmp Ceq 0 1) (OBool true) /\ py_hash u <> py_hash u'.
Proof.
  exists (uf_at (after small_twins) 0), (uf_at (after small_twins) 1). split; [reach|]. split; [numb|]. split; [numb|].
  split; [vm_cast_no_check (eq_refl true)|]. split; [vm_cast_no_check (eq_refl true)|]. split; [run_big|]. vm_compute. discriminate.
Qed.
(** x = ufloat(1, 3); y = ufloat(1, 1). *)
Definition vx := fst (step 40 (init (N:=FN)) (INew (fl 1 0) (fl 3 0) None)).
Definition vy := fst (step 40 vx (INew (fl 1 0) (fl 1 0) None)).
Lemma one_four : forall x : f64, is_finite x = true -> Bleb fone x && Bleb x (fnorm 4 0) = true -> / 10 ^ 140 <= Rabs (B2R x) <= 10 ^ 140.
Proof.
  intros x F H. apply andb_true_iff in H as (H1 & H2).
  assert (L : 1 <= B2R x). { assert (Y := Bleb_correct _ _ fone x eq_refl F). rewrite one_R' in Y. rewrite H1 in Y. destruct (Rle_bool_spec 1 (B2R x)) as [L|]; [exact L|discriminate Y]. }
  assert (M : B2R x <= B2R (fnorm 4 0)). { assert (Y := Bleb_correct _ _ x (fnorm 4 0) F eq_refl). rewrite H2 in Y. destruct (Rle_bool_spec (B2R x) (B2R (fnorm 4 0))) as [M|]; [exact M|discriminate Y]. }
  assert (F4 : B2R (fnorm 4 0) = 4) by (change (B2R (fnorm 4 0)) with (IZR 4503599627370496 * / IZR 1125899906842624); lra).
  rewrite F4 in M. rewrite Rabs_pos_eq by lra.
  assert (B : 4 <= 10 ^ 140) by (rewrite pow10; apply Rle_trans with (r10 1); [rewrite r10_Z by lia; simpl; lra|apply r10_le; lia]).
  split; [|lra]. apply Rle_trans with 1; [|exact L]. rewrite <- Rinv_1. apply Rinv_le_contravar; lra.
Qed.
Lemma step_does : forall (st : state FN) ins, match snd (step 40 st ins) with ONone => true | _ => false end = true -> does st ins (fst (step 40 st ins)) ONone.
Proof. intros st ins H. apply does_step; [|discriminate]. destruct (snd (step 40 st ins)); try discriminate H. reflexivity. Qed.
Lemma ex_variables : squares_ok lm0 /\ reachable vy /\ does init (INew (fl 1 0) (fl 3 0) None) vx ONone /\ afterwards vx vy /\ does vx (INew (fl 1 0) (fl 1 0) None) vy ONone /\ afterwards vy vy /\
  exists u w, is_number vy 0 u /\ is_number vy 1 w /\ is_finite (uf_nom u : f64) = true /\ is_finite (uf_nom w : f64) = true /\
  (forall v, uf_var u = Some v \/ uf_var w = Some v -> is_finite (sd vy v : f64) = true /\ / 10 ^ 140 <= Rabs (B2R (sd vy v : f64)) <= 10 ^ 140).
Proof.
  assert (D1 : does init (INew (fl 1 0) (fl 3 0) None) vx ONone) by (apply step_does; vm_cast_no_check (eq_refl true)).
  assert (D2 : does vx (INew (fl 1 0) (fl 1 0) None) vy ONone) by (apply step_does; vm_cast_no_check (eq_refl true)).
  split; [apply exact_squares_ok, lm0_squares|]. split.
  { apply (reach_runs init [INew (fl 1 0) (fl 3 0) None; INew (fl 1 0) (fl 1 0) None] _ [ONone; ONone] reach_init). destruct D1 as (k1 & D1), D2 as (k2 & D2). exists (k1 + k2)%nat.
    intros f Hf. cbn [run]. rewrite D1 by lia. rewrite D2 by lia. reflexivity. }
  split; [exact D1|]. split; [eapply Relation_Operators.rt1n_trans; [exact (h_statement _ _ _ _ D2)|constructor]|]. split; [exact D2|]. split; [constructor|].
  exists (uf_at vy 0), (uf_at vy 1). split; [numb|]. split; [numb|]. split; [vm_cast_no_check (eq_refl true)|]. split; [vm_cast_no_check (eq_refl true)|].
  assert (V0 : uf_var (uf_at vy 0) = Some 0%nat) by (vm_compute; reflexivity). assert (V1 : uf_var (uf_at vy 1) = Some 1%nat) by (vm_compute; reflexivity). rewrite V0, V1.
  assert (F0 : is_finite (sd vy 0%nat : f64) = true) by (vm_cast_no_check (eq_refl true)). assert (F1 : is_finite (sd vy 1%nat : f64) = true) by (vm_cast_no_check (eq_refl true)).
  intros v [E|E]; injection E as <-; (split; [assumption|]); apply one_four; try assumption; vm_cast_no_check (eq_refl true).
Qed.
(** z = x*y is read; then x.std_dev = 2 and t = z*z. *)
Definition zs := after [INew (fl 1 0) (fl 3 0) None; INew (fl 1 0) (fl 1 0) None; IBin Bmul 0 1].
Definition zr := fst (step 40 zs (IDeriv 2)).
Definition zl := fst (step 40 zr (ISet 0 (PZ 2))).
Definition zt := fst (step 40 zl (IBin Bmul 2 2)).
Definition z_dict : list (varid * f64) := match snd (step 40 zs (IDeriv 2)) with ODict d => d | _ => [] end.
Lemma ex_stay : reachable zs /\ is_number zs 2 (uf_at zs 2) /\ does zs (IDeriv 2) zr (ODict (N:=FN) z_dict) /\ afterwards zr zt /\ length z_dict = 2%nat.
Proof.
  split; [unfold zs; reach|]. split; [numb|]. split; [|split].
  - apply does_step; [|discriminate]. assert (Y : match snd (step 40 zs (IDeriv 2)) with ODict _ => true | _ => false end = true) by (vm_cast_no_check (eq_refl true)).
    unfold z_dict. destruct (snd (step 40 zs (IDeriv 2))); try discriminate Y. reflexivity.
  - eapply Relation_Operators.rt1n_trans; [apply (h_statement zr (ISet 0 (PZ 2)) zl ONone); apply step_does; vm_cast_no_check (eq_refl true)|].
    eapply Relation_Operators.rt1n_trans; [apply (h_statement zl (IBin Bmul 2 2) zt ONone); apply step_does; vm_cast_no_check (eq_refl true)|]. constructor.
  - vm_compute. reflexivity.
Qed.
