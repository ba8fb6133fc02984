(** Differentials of arithmetic operators in binary64, and a concrete history. *)
From Coq Require Import ZArith List Bool Lia Reals Lra.
From Coq Require Import Relations.Relation_Operators.
From Flocq Require Import Core BinarySingleNaN.
From Verif Require Import Base Heap HeapSpec NumR NumF Affine Ops UMath Machine Cov Calls Unumpy UMatrix History Fuel FFacts FRefute ExGen FmtF
  BinProofs BinQ BinStd GradSpec Evolve BinGrad BinGradThm GradStd BinSqrt.
Import ListNotations.
Local Open Scope R_scope.

Theorem arithmetic_traced : forall lm (st : state (FOps lm)) L op i j u w a b st' r, traced lm st L ->
  is_number st i u -> is_number st j w -> nth_error L i = Some (Some a) -> nth_error L j = Some (Some b) ->
  is_finite (uf_nom u : f64) = true -> is_finite (uf_nom w : f64) = true ->
  does st (IBin op i j) st' ONone -> is_number st' (length (st_env st)) r ->
  let x := B2R (uf_nom u : f64) in let y := B2R (uf_nom w : f64) in
  match op with
  | Badd => traced lm st' (L ++ [Some (call_lin [(1, a); (1, b)])])
  | Bsub => traced lm st' (L ++ [Some (call_lin [(1, a); (-1, b)])])
  | Bmul => traced lm st' (L ++ [Some (call_lin [(y, a); (x, b)])])
  | _ => True
  end.
Proof.
  intros lm st L op i j u w a b st' r T U W A B Fu Fw D N x y.
  assert (M : B2R (fneg fone) = -1) by (unfold fneg; rewrite B2R_Bopp, one_R; reflexivity).
  assert (X : forall cx cy, op_der_x (N:=FOps lm) op (PF (uf_nom u)) (PF (uf_nom w)) = Ok cx -> op_der_y (N:=FOps lm) op (PF (uf_nom u)) (PF (uf_nom w)) = Ok cy ->
    cfinite lm cx = true -> cfinite lm cy = true -> traced lm st' (L ++ [Some (call_lin [(cval lm cx, a); (cval lm cy, b)])])).
  { intros cx cy Ex Ey Fx Fy. eapply (traced_operator lm st L op i j st' (VUF u) (VUF w)); eauto; [reflexivity|reflexivity|].
    rewrite Ex, Ey. eapply terms_number; eauto. eapply terms_number; eauto. constructor. }
  destruct op; try exact I.
  - specialize (X _ _ eq_refl eq_refl eq_refl eq_refl). cbn [cval n_one FOps] in X. rewrite one_R in X. exact X.
  - specialize (X _ _ eq_refl eq_refl eq_refl eq_refl). cbn [cval n_one n_neg FOps] in X. rewrite one_R in X. rewrite M in X. exact X.
  - specialize (X _ _ eq_refl eq_refl Fw Fu). exact X.
Qed.

(** ** x = ufloat(3, 1); y = x*x; z = y - x, with or without a read of y.derivatives *)


Definition go (st : state FN) (ins : instr FN) : state FN := fst (step 40 st ins).
Definition g1 := go (init (N:=FN)) (INew (fl 3 0) (fl 1 0) None).
Definition g2 := go g1 (IBin Bmul 0 0).
Definition g3 := go g2 (IBin Bsub 1 0).
Definition e2 := go g2 (IDeriv 1).
Definition e3 := go e2 (IBin Bsub 1 0).
Definition lin_z : lin := call_lin [(1, call_lin [(3, var_lin 0%nat); (3, var_lin 0%nat)]); (-1, var_lin 0%nat)].
Lemma three : forall z : f64, is_finite z && Beqb z (fnorm 3 0) = true -> is_finite z = true /\ B2R z = 3.
Proof.
  intros z H. apply andb_true_iff in H as (F & H). split; [exact F|]. assert (Y := Beqb_correct _ _ z (fnorm 3 0) F eq_refl).
  assert (Y2 := eq_trans (eq_sym Y) H). destruct (Req_bool_spec (B2R z) (B2R (fnorm 3 0))) as [E|]; [|discriminate Y2].
  rewrite E. change (B2R (fnorm 3 0)) with (IZR 6755399441055744 * / IZR 2251799813685248). lra.
Qed.
Ltac evals := vm_cast_no_check (eq_refl true).

Lemma traced_g2 : traced lm0 g2 [Some (var_lin 0%nat); Some (call_lin [(3, var_lin 0%nat); (3, var_lin 0%nat)])].
Proof.
  assert (T1 : traced lm0 g1 [Some (var_lin 0%nat)]).
  { eapply (traced_new lm0 init [] (fl 3 0) (fl 1 0) None g1 (uf_at g1 0%nat)); [constructor|unfold g1, go; run_is|numb|reflexivity]. }
  assert (X : is_finite (uf_nom (uf_at g1 0%nat) : f64) && Beqb (uf_nom (uf_at g1 0%nat)) (fnorm 3 0) = true) by evals.
  destruct (three _ X) as (F & E).
  assert (Y := arithmetic_traced lm0 g1 _ Bmul 0%nat 0%nat (uf_at g1 0%nat) (uf_at g1 0%nat) _ _ g2 (uf_at g2 1%nat) T1 ltac:(numb) ltac:(numb) eq_refl eq_refl F F ltac:(unfold g2, go; run_is) ltac:(numb)).
  cbv beta zeta iota in Y. rewrite E in Y. exact Y.
Qed.
Lemma traced_g3 : traced lm0 g3 [Some (var_lin 0%nat); Some (call_lin [(3, var_lin 0%nat); (3, var_lin 0%nat)]); Some lin_z].
Proof.
  exact (arithmetic_traced lm0 g2 _ Bsub 1%nat 0%nat (uf_at g2 1%nat) (uf_at g2 0%nat) _ _ g3 (uf_at g3 2%nat) traced_g2 ltac:(numb) ltac:(numb) eq_refl eq_refl
    ltac:(evals) ltac:(evals) ltac:(unfold g3, go; run_is) ltac:(numb)).
Qed.
Lemma traced_e3 : traced lm0 e3 [Some (var_lin 0%nat); Some (call_lin [(3, var_lin 0%nat); (3, var_lin 0%nat)]); Some lin_z].
Proof.
  assert (T2 : traced lm0 e2 [Some (var_lin 0%nat); Some (call_lin [(3, var_lin 0%nat); (3, var_lin 0%nat)])]).
  { assert (X : acts lm0 g2 e2).
    { assert (N : snd (step 40 g2 (IDeriv 1)) <> OExn EFuel).
      { assert (Y : match snd (step 40 g2 (IDeriv 1)) with ODict _ => true | _ => false end = true) by evals. intros E. rewrite E in Y. discriminate Y. }
      eapply (act_statement lm0 g2 (IDeriv 1) e2 (snd (step 40 g2 (IDeriv 1)))); [|exact N]. unfold e2, go. now apply does_step. }
    assert (Y := traced_other lm0 _ _ _ traced_g2 X). replace (length (st_env e2) - length (st_env g2))%nat with 0%nat in Y by (vm_compute; reflexivity). exact Y. }
  exact (arithmetic_traced lm0 e2 _ Bsub 1%nat 0%nat (uf_at e2 1%nat) (uf_at e2 0%nat) _ _ e3 (uf_at e3 2%nat) T2 ltac:(numb) ltac:(numb) eq_refl eq_refl
    ltac:(evals) ltac:(evals) ltac:(unfold e3, go; run_is) ltac:(numb)).
Qed.
Lemma size_bound : forall c M, 1 <= M -> Rabs c <= M -> / M <= Rabs c -> size c <= M.
Proof.
  intros c M M1 H1 H2. unfold size. destruct (Req_EM_T c 0) as [->|N]; [exact M1|]. apply Rmax_lub; [exact H1|].
  rewrite <- (Rinv_inv M). apply Rinv_le_contravar; [apply Rinv_0_lt_compat; lra|exact H2].
Qed.
Lemma lin_z_ok : in_range lin_z /\ grad lin_z 0%nat = 5 /\ paths lin_z 0%nat = 7 /\ roundings lin_z = 24%nat.
Proof.
  assert (S3 : size 3 <= 3) by (apply size_bound; rewrite ?Rabs_pos_eq by lra; lra).
  assert (S1 : size 1 <= 1) by (apply size_bound; rewrite ?Rabs_R1; lra).
  assert (Sm : size (-1) <= 1) by (apply size_bound; rewrite ?Rabs_left by lra; lra).
  split; [split|].
  - vm_compute. discriminate.
  - apply Rle_trans with 3.
    + unfold lin_z, call_lin, var_lin. cbn [range fold_right fst snd]. assert (Q := size_ge1 3). assert (Q1 := size_ge1 1). assert (Q2 := size_ge1 (-1)).
      assert (M : Rmax (size 3 * 1) (Rmax (size 3 * 1) 1) <= 3) by (repeat apply Rmax_lub; lra).
      assert (M0 : 0 <= Rmax (size 3 * 1) (Rmax (size 3 * 1) 1)) by (apply Rle_trans with (size 3 * 1); [lra|apply Rmax_l]).
      apply Rmax_lub; [|apply Rmax_lub; lra]. apply Rle_trans with (1 * 3); [apply Rmult_le_compat; lra|lra].
    + apply Rle_trans with (2 ^ 2); [lra|]. apply Rle_pow; [lra|]. apply Nat.leb_le. reflexivity.
  - unfold lin_z, call_lin, var_lin. cbn [grad paths roundings map Rsum fst snd Nat.eqb]. rewrite !Rabs_R1, (Rabs_left (-1)), (Rabs_pos_eq 3) by lra.
    split; [lra|]. split; [lra|]. reflexivity.
Qed.
Lemma ex_grad : exists L, traced lm0 g3 L /\ traced lm0 e3 L /\ nth_error L 2%nat = Some (Some lin_z) /\
  in_range lin_z /\ grad lin_z 0%nat = 5 /\ paths lin_z 0%nat = 7 /\ roundings lin_z = 24%nat /\ get_lc (st_heap g3) 1%nat <> get_lc (st_heap e3) 1%nat.
Proof.
  eexists. split; [exact traced_g3|]. split; [exact traced_e3|]. split; [reflexivity|]. destruct lin_z_ok as (A & B & C & D).
  split; [exact A|]. split; [exact B|]. split; [exact C|]. split; [exact D|].
  assert (X : match get_lc (st_heap g3) 1%nat with LList _ => true | _ => false end = true) by evals.
  assert (Y : match get_lc (st_heap e3) 1%nat with LList _ => true | _ => false end = false) by (vm_cast_no_check (eq_refl false)).
  intros E. rewrite E in X. rewrite X in Y. discriminate Y.
Qed.
Definition g_dict : list (varid * f64) := match snd (step 40 g3 (IDeriv 2)) with ODict d => d | _ => [] end.
Definition g_errs : list (varid * pynum FN) := match snd (step 40 g3 (IErrs 2)) with OErrs d => d | _ => [] end.
Lemma ex_std_exact : exists L u, squares_ok lm0 /\ traced lm0 g3 L /\ nth_error L 2%nat = Some (Some lin_z) /\ in_range lin_z /\
  is_number g3 2 u /\ uf_var u = None /\ reads g3 (IDeriv 2) (ODict (N:=FN) g_dict) /\ reads g3 (IErrs 2) (OErrs g_errs) /\
  List.Forall (entry_ok lm0 g3) g_dict /\ length g_dict = 1%nat /\ incl (dkeys g_dict) [0%nat] /\
  B2R (sd g3 0%nat : f64) = 1 /\ grad lin_z 0%nat * 1 = 5.
Proof.
  eexists _, (uf_at g3 2). split; [apply exact_squares_ok, lm0_squares|]. split; [exact traced_g3|]. split; [reflexivity|].
  destruct lin_z_ok as (A & B & _). split; [exact A|]. split; [numb|]. split; [vm_compute; reflexivity|].
  split. { apply (reads_step 40); [|discriminate]. unfold g_dict.
    assert (X : match snd (step 40 g3 (IDeriv 2)) with ODict _ => true | _ => false end = true) by evals.
    destruct (snd (step 40 g3 (IDeriv 2))); try discriminate X. reflexivity. }
  split. { apply (reads_step 40); [|discriminate]. unfold g_errs.
    assert (X : match snd (step 40 g3 (IErrs 2)) with OErrs _ => true | _ => false end = true) by evals.
    destruct (snd (step 40 g3 (IErrs 2))); try discriminate X. reflexivity. }
  assert (S : is_finite (sd g3 0%nat : f64) && Beqb (sd g3 0%nat : f64) fone = true) by evals. apply andb_true_iff in S as (S1 & S2).
  assert (S3 : B2R (sd g3 0%nat : f64) = 1).
  { assert (Y := Beqb_correct _ _ (sd g3 0%nat : f64) fone S1 eq_refl). rewrite one_R in Y. assert (Y2 := eq_trans (eq_sym Y) S2).
    destruct (Req_bool_spec (B2R (sd g3 0%nat : f64)) 1) as [E|]; [exact E|discriminate Y2]. }
  split.
  { assert (X : forallb (fun p => Nat.eqb (fst p) 0 && is_finite (snd p) && Beqb (snd p) (fnorm 5 0)) g_dict = true) by evals.
    apply List.Forall_forall. intros p I. rewrite forallb_forall in X. specialize (X p I). rewrite !andb_true_iff in X. destruct X as ((X0 & X1) & X2).
    apply Nat.eqb_eq in X0. destruct p as [v z]. cbn [fst snd] in *. subst v. split; [exact X1|]. split; [exact S1|]. unfold prod. cbn [fst snd]. rewrite S3.
    assert (E : B2R z = 5).
    { assert (Y := Beqb_correct _ _ z (fnorm 5 0) X1 eq_refl). assert (Y2 := eq_trans (eq_sym Y) X2).
      destruct (Req_bool_spec (B2R z) (B2R (fnorm 5 0))) as [E|]; [|discriminate Y2]. rewrite E.
      change (B2R (fnorm 5 0)) with (IZR 5629499534213120 * / IZR 1125899906842624). lra. }
    rewrite E. right. rewrite Rabs_pos_eq by lra.
    assert (G : 5 <= 10 ^ 140) by (rewrite pow10; apply Rle_trans with (r10 1); [rewrite r10_Z by lia; simpl; lra|apply r10_le; lia]).
    split; [|lra]. apply Rle_trans with 1; [|lra]. rewrite <- Rinv_1. apply Rinv_le_contravar; lra. }
  split; [vm_compute; reflexivity|]. split.
  { assert (X : forallb (fun v => Nat.eqb v 0) (dkeys g_dict) = true) by evals. intros v Hv. rewrite forallb_forall in X.
    specialize (X v Hv). apply Nat.eqb_eq in X. subst v. left. reflexivity. }
  split; [exact S3|]. lra.
Qed.
(** x.s for x = ufloat(3, 1), after x*x. *)
Lemma ex_variable_s : exists x, exact_squares lm0 /\ does (init (N:=FN)) (INew (fl 3 0) (fl 1 0) None) g1 ONone /\ later lm0 g1 g2 /\
  reads g2 (IStd 0) (ONum (N:=FN) x) /\ is_finite (x : f64) = true /\ / 2 ^ 500 <= B2R (x : f64) <= 2 ^ 500.
Proof.
  assert (X : match snd (step 40 g2 (IStd 0)) with ONum s => is_finite (s : f64) && Beqb s fone | _ => false end = true) by evals.
  destruct (snd (step 40 g2 (IStd 0))) as [| | |x| |] eqn:E; try discriminate X. apply andb_true_iff in X as (X1 & X2).
  exists x. split; [exact lm0_squares|]. split; [unfold g1, go; run_is|]. split.
  { eapply rt1n_trans; [|apply rt1n_refl]. eapply (act_statement lm0 g1 (IBin Bmul 0 0) g2 ONone); [unfold g2, go; run_is|discriminate]. }
  split; [apply (reads_step 40); [exact E|discriminate]|]. split; [exact X1|].
  assert (Y := Beqb_correct _ _ (x : f64) fone X1 eq_refl). assert (Y2 := eq_trans (eq_sym Y) X2). rewrite one_R in Y2.
  destruct (Req_bool_spec (B2R (x : f64)) 1) as [Z|]; [|discriminate Y2]. rewrite Z.
  assert (P : 1 <= 2 ^ 500) by (apply pow_R1_Rle; lra). split; [|exact P]. rewrite <- Rinv_1. apply Rinv_le_contravar; lra.
Qed.
