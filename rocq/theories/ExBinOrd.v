(** Concrete comparisons, truth values and scores in binary64. *)
From Coq Require Import ZArith List Bool Lia Reals Lra Permutation.
From Flocq Require Import Core BinarySingleNaN.
From Verif Require Import Base Heap HeapSpec NumR NumF Affine Ops UMath Machine Cov Calls Unumpy UMatrix History Fuel FFacts FRefute ExGen FmtF
  BinProofs BinQ BinStd NumFacts GradSpec Evolve BinGrad BinGradThm GradStd BinSqrt ExGrad BinCov ExBinCov BinEq BinOrd.
Import ListNotations.
Local Open Scope R_scope.

(** x = ufloat(1, 1/8); y = ufloat(-inf, 1); z = ufloat(nan, 1). *)
Definition mixed : list (instr FN) := [INew (fl 1 0) (fl 1 (-3)) None; INew (PF (N:=FN) (finf true)) (fl 1 0) None; INew (PF (N:=FN) fnan) (fl 1 0) None].
Lemma ex_order : exists u w x, is_number (after mixed) 0 u /\ is_number (after mixed) 1 w /\ is_number (after mixed) 2 x /\
  reads (after mixed) (ICmp Cgt 0 1) (OBool true) /\ reads (after mixed) (ICmp Cge 0 1) (OBool true) /\
  reads (after mixed) (ICmp Cgt 0 2) (OBool false) /\ reads (after mixed) (ICmp Clt 0 2) (OBool false) /\ reads (after mixed) (ICmp Cge 2 2) (OBool false).
Proof.
  exists (uf_at (after mixed) 0), (uf_at (after mixed) 1), (uf_at (after mixed) 2). split; [numb|]. split; [numb|]. split; [numb|]. repeat split; run_big.
Qed.

(** z = x*x - x = 6 +/- 5 for x = ufloat(3, 1): z.std_score(16) is 2. *)
Definition g_std : f64 := match snd (step 40 g3 (IStd 2)) with ONum x => x | _ => f0 end.
Lemma g_std_ok : reads g3 (IStd 2) (ONum (N:=FN) g_std) /\ is_finite g_std = true /\ B2R g_std = 5.
Proof.
  split.
  { apply (reads_step 40); [|discriminate]. unfold g_std.
    assert (X : match snd (step 40 g3 (IStd 2)) with ONum _ => true | _ => false end = true) by evals.
    destruct (snd (step 40 g3 (IStd 2))); try discriminate X. reflexivity. }
  assert (S : is_finite g_std && Beqb g_std (fnorm 5 0) = true) by evals. apply andb_true_iff in S as (S1 & S2). split; [exact S1|].
  assert (Y := Beqb_correct _ _ g_std (fnorm 5 0) S1 eq_refl). assert (Y2 := eq_trans (eq_sym Y) S2).
  destruct (Req_bool_spec (B2R g_std) (B2R (fnorm 5 0))) as [E|]; [|discriminate Y2]. rewrite E.
  change (B2R (fnorm 5 0)) with (IZR 5629499534213120 * / IZR 1125899906842624). lra.
Qed.
Lemma ex_score : exists u, is_number g3 2 u /\ is_finite (uf_nom u : f64) = true /\ B2R (uf_nom u : f64) = 6 /\
  reads g3 (IStd 2) (ONum (N:=FN) g_std) /\ is_finite g_std = true /\ B2R g_std = 5 /\
  is_finite (fnorm 16 0) = true /\ B2R (fnorm 16 0) = 16 /\ exists r : f64, reads g3 (IScore 2 (fl 16 0)) (ONum (N:=FN) r) /\ B2R r = 2.
Proof.
  exists (uf_at g3 2). split; [numb|]. destruct g_std_ok as (A & B & C).
  assert (S : is_finite (uf_nom (uf_at g3 2) : f64) && Beqb (uf_nom (uf_at g3 2) : f64) (fnorm 6 0) = true) by evals. apply andb_true_iff in S as (S1 & S2).
  split; [exact S1|]. split.
  { assert (Y := Beqb_correct _ _ (uf_nom (uf_at g3 2) : f64) (fnorm 6 0) S1 eq_refl). assert (Y2 := eq_trans (eq_sym Y) S2).
    destruct (Req_bool_spec (B2R (uf_nom (uf_at g3 2) : f64)) (B2R (fnorm 6 0))) as [E|]; [|discriminate Y2]. rewrite E.
    change (B2R (fnorm 6 0)) with (IZR 6755399441055744 * / IZR 1125899906842624). lra. }
  split; [exact A|]. split; [exact B|]. split; [exact C|]. split; [reflexivity|]. split.
  { change (B2R (fnorm 16 0)) with (IZR 4503599627370496 * / IZR 281474976710656). lra. }
  assert (X : match snd (step 40 g3 (IScore 2 (fl 16 0))) with ONum r => is_finite (r : f64) && Beqb (r : f64) (fnorm 2 0) | _ => false end = true) by evals.
  destruct (snd (step 40 g3 (IScore 2 (fl 16 0)))) as [| | |r| |] eqn:E; try discriminate X. apply andb_true_iff in X as (X1 & X2).
  exists r. split; [apply (reads_step 40); [exact E|discriminate]|].
  assert (Y := Beqb_correct _ _ (r : f64) (fnorm 2 0) X1 eq_refl). assert (Y2 := eq_trans (eq_sym Y) X2).
  destruct (Req_bool_spec (B2R (r : f64)) (B2R (fnorm 2 0))) as [H|]; [|discriminate Y2]. rewrite H.
  change (B2R (fnorm 2 0)) with (IZR 4503599627370496 * / IZR 2251799813685248). lra.
Qed.
(** A score whose standard deviation is zero. *)
Definition exact_one : list (instr FN) := [INew (fl 1 0) (fl 0 0) None].
Lemma ex_score_zero : reads (after exact_one) (IScore 0 (fl 16 0)) (OExn EValue).
Proof. run_big. Qed.

(** x - x is false, x is true. *)
Definition zeros : list (instr FN) := [INew (fl 1 0) (fl 1 (-3)) None; IBin Bsub 0 0; IDeriv 1].
Definition st_z := after zeros.
Definition zero_entry (d : dict FN) : bool := match d with [(O, x)] => is_finite (x : f64) && Beqb (x : f64) f0 | _ => false end.
Lemma ex_bool : exists u (e : list (varid * pynum FN)), squares_ok lm0 /\ reachable st_z /\ is_number st_z 1 u /\ known_dict lm0 st_z 1 (dict_at st_z 1) /\ reads st_z (IErrs 1) (OErrs e) /\
  NoDup (dkeys (dict_at st_z 1)) /\ List.Forall (entry_ok lm0 st_z) (dict_at st_z 1) /\ INR (length (dict_at st_z 1)) <= 1000000 /\ is_finite (uf_nom u : f64) = true /\
  reads st_z (IBool 1) (OBool false) /\ reads st_z (IBool 0) (OBool true).
Proof.
  destruct (errs_at st_z 1) as (e & E); [vm_cast_no_check (eq_refl true)|].
  exists (uf_at st_z 1), e. split; [apply exact_squares_ok, lm0_squares|]. split; [unfold st_z; reach|]. split; [numb|].
  split; [apply known_at; vm_cast_no_check (eq_refl true)|]. split; [exact E|].
  assert (Z : zero_entry (dict_at st_z 1) = true) by evals.
  assert (S : is_finite (sd st_z 0%nat : f64) = true) by evals.
  destruct (dict_at st_z 1) as [|[[|k] x] [|y d]]; try discriminate Z. cbn [zero_entry] in Z. apply andb_true_iff in Z as (Z1 & Z2).
  assert (X : B2R (x : f64) = 0).
  { assert (Y := Beqb_correct _ _ (x : f64) f0 Z1 eq_refl). assert (Y2 := eq_trans (eq_sym Y) Z2).
    destruct (Req_bool_spec (B2R (x : f64)) (B2R f0)) as [H|]; [exact H|discriminate Y2]. }
  split; [repeat constructor; intros []|]. split.
  { constructor; [|constructor]. split; [exact Z1|]. split; [exact S|]. left. unfold prod. cbn [fst snd]. rewrite X. ring. }
  split; [cbn [length INR]; lra|]. split; [vm_cast_no_check (eq_refl true)|]. split; run_big.
Qed.
(** ufloat(0, 2**-600) has a positive standard deviation and is false. *)
Definition tiny0 : list (instr FN) := [INew (fl 0 0) (fl 1 (-600)) None].
Theorem bool_tiny : reachable (after tiny0) /\ reads (after tiny0) (IStd 0) (ONum (N:=FN) (fnorm 1 (-600))) /\ 0 < B2R (fnorm 1 (-600)) /\
  reads (after tiny0) (IBool 0) (OBool false).
Proof.
  split; [reach|]. split; [apply (reads_step 40); [reflexivity|discriminate]|]. split; [|run_big].
  assert (L : Bltb f0 (fnorm 1 (-600)) = true) by (vm_compute; reflexivity). rewrite Bltb_correct in L by reflexivity.
  destruct (Rlt_bool_spec (B2R f0) (B2R (fnorm 1 (-600)))) as [H|]; [exact H|discriminate L].
Qed.

(** The variance of z is 25. *)
Lemma ex_diagonal : exists L m st' u, squares_ok lm0 /\ traced lm0 g3 L /\ covariance (fun l => l) g3 [2; 0]%nat (Ok m) st' /\
  nth_error L 2%nat = Some (Some lin_z) /\ small_lin lin_z /\ (forall v, usual (sd g3 v : f64)) /\
  is_number g3 2 u /\ uf_var u = None /\ reads g3 (IDeriv 2) (ODict (N:=FN) g_dict) /\ reads g3 (IErrs 2) (OErrs g_errs) /\
  List.Forall (entry_ok lm0 g3) g_dict /\ length g_dict = 1%nat /\ incl (dkeys g_dict) [0%nat] /\ (forall v, paths lin_z v <> 0 -> In v [0%nat]) /\
  B2R (entry (N:=FN) m 0 0 : f64) = 25 /\ reads g3 (IStd 2) (ONum (N:=FN) g_std) /\ B2R g_std = 5.
Proof.
  destruct g3_covariance as (m & st' & C & Ln & En).
  destruct ex_std_exact as (L0 & u & _ & _ & _ & _ & N1 & N2 & N3 & N4 & N5 & N6 & N7 & _).
  destruct ex_covariance as (L & m1 & st1 & S & T & _ & E & _ & S1 & _ & S3 & _).
  destruct g_std_ok as (A & B & C').
  exists L, m, st', u. split; [exact S|]. split; [exact T|]. split; [exact C|]. split; [exact E|]. split; [exact S1|]. split; [exact S3|].
  split; [exact N1|]. split; [exact N2|]. split; [exact N3|]. split; [exact N4|]. split; [exact N5|]. split; [exact N6|]. split; [exact N7|]. split.
  { intros v H. destruct v as [|v]; [now left|]. exfalso. apply H. unfold lin_z, call_lin, var_lin. cbn [paths map Rsum fst snd Nat.eqb]. ring. }
  split; [exact (proj2 (En 0%nat 0%nat 25%Z ltac:(cbn; auto)))|]. split; [exact A|exact C'].
Qed.
