(** Reads of uncertainties in binary64: numbers, NaN and overflows. *)
From Coq Require Import ZArith List Bool Lia.
From Flocq Require Import Core BinarySingleNaN.
From Verif Require Import Base Heap HeapSpec NumF Affine Ops UMath Machine Cov Calls Unumpy UMatrix History Fuel FRefute ExGen DepSpec Deps OutcomeSpec Outcome.
Import ListNotations.

Definition ogo (st : state FN) (ins : instr FN) : state FN := fst (step 40 st ins).
(** x = ufloat(1, 2.0**600); y = ufloat(2, 1); z = x + y; w = f(y), for a function f of which the
    derivative is given as the int 2**1030. *)
Definition far : list (instr FN) :=
  [INew (fl 1 0) (fl 1 600) None; INew (fl 2 0) (fl 1 0) None; IBin Badd 0 1;
   ICall (fun _ _ => Ok (PNum (fl 1 0))) (fun _ _ _ => Ok (PZ (2 ^ 1030)%Z)) (fun _ _ _ => Err EType) [1%nat] []].
Definition e1 := ogo (init (N:=FN)) (INew (fl 1 0) (fl 1 600) None).
Definition e2 := ogo e1 (INew (fl 2 0) (fl 1 0) None).
Definition e3 := ogo e2 (IBin Badd 0 1).
Definition o_known : list (option (list varid)) := [Some [0]; Some [1]; Some ([0] ++ [1] ++ [])]%nat.
Ltac ostep := unfold e1, e2, e3, ogo; run_is.
Lemma history_e3 : history e3 o_known.
Proof.
  assert (H1 : history e1 [Some [0%nat]]).
  { apply (history_new (N:=FN) init [] (fl 1 0) (fl 1 600) None e1 (uf_at e1 0) 0%nat); [constructor|ostep|numb|reflexivity]. }
  assert (H2 : history e2 [Some [0%nat]; Some [1%nat]]).
  { apply (history_new (N:=FN) e1 _ (fl 2 0) (fl 1 0) None e2 (uf_at e2 1) 1%nat H1); [ostep|numb|reflexivity]. }
  apply (history_operator (N:=FN) e2 _ Badd 0%nat 1%nat e3 (uf_at e3 2) _ H2); [ostep|numb|].
  apply (operands_number e2 _ 0%nat (uf_at e2 0)); [numb|reflexivity|]. apply (operands_number e2 _ 1%nat (uf_at e2 1)); [numb|reflexivity|]. constructor.
Qed.
Lemma reach_e3 : reachable e3.
Proof. change (reachable (after (firstn 3 far))). reach. Qed.
Lemma lm0_not_negative : squares_not_negative lm0.
Proof.
  intros a Ha. rewrite lm0_squares, negative_iff. pose proof (Bmult_correct 53 1024 prec_gt_0_64 prec_lt_emax_64 mode_NE a a) as C. fold (fmul a a) in C.
  destruct (is_nanf (fmul a a)) eqn:Na; [destruct (fmul a a); try discriminate Na; intros []|].
  assert (S : Bsign (fmul a a) = false).
  { revert C. case Raux.Rlt_bool; intros C.
    - destruct C as (_ & _ & C). rewrite C; [now rewrite Bool.xorb_nilpotent|]. destruct (fmul a a); try reflexivity. discriminate Na.
    - rewrite Bool.xorb_nilpotent in C. destruct (fmul a a); try discriminate C; now injection C as ->. }
  destruct (fmul a a) as [s|s| |s m e b]; cbn in S; subst; try discriminate; intros [].
Qed.
Lemma ex_overflows : squares_not_negative lm0 /\ reachable e3 /\ history e3 o_known /\ nth_error o_known 2 = Some (Some [0; 1]%nat) /\ is_number e3 2 (uf_at e3 2) /\
  uf_var (uf_at e3 2) = None /\ reads e3 (IStd 2) (OExn EOverflow).
Proof.
  split; [exact lm0_not_negative|]. split; [exact reach_e3|]. split; [exact history_e3|]. split; [reflexivity|]. split; [numb|]. split; [vm_compute; reflexivity|]. run_big.
Qed.
(** y.s is 1. *)
Lemma ex_deviation_y : exists s : f64, reads e3 (IStdS 1) (ONum (N:=FN) s) /\ Bltb f0 s = true.
Proof.
  assert (Y : match snd (step 40 e3 (IStdS 1)) with ONum s => Bltb f0 (s : f64) | _ => false end = true) by (vm_cast_no_check (eq_refl true)).
  destruct (snd (step 40 e3 (IStdS 1))) as [| | |s| |] eqn:E; try discriminate Y. exists s. split; [|exact Y]. apply (reads_step 40); [exact E|discriminate].
Qed.
Lemma ex_components : exists c, reads e3 (IErrs 2) (OErrs c) /\ length c = 2%nat.
Proof.
  assert (Y : match snd (step 40 e3 (IErrs 2)) with OErrs c => Nat.eqb (length c) 2 | _ => false end = true) by (vm_cast_no_check (eq_refl true)).
  destruct (snd (step 40 e3 (IErrs 2))) as [| |c| | |] eqn:E; try discriminate Y. exists c. split; [|now apply Nat.eqb_eq]. apply (reads_step 40); [exact E|discriminate].
Qed.
Lemma ex_derivatives : reachable (after far) /\ is_number (after far) 3 (uf_at (after far) 3) /\ reads (after far) (IDeriv 3) (OExn EOverflow) /\
  is_number (after far) 2 (uf_at (after far) 2) /\ exists d, reads (after far) (IDeriv 2) (ODict d) /\ length d = 2%nat.
Proof.
  split; [reach|]. split; [numb|]. split; [run_big|]. split; [numb|].
  assert (Y : match snd (step 40 (after far) (IDeriv 2)) with ODict c => Nat.eqb (length c) 2 | _ => false end = true) by (vm_cast_no_check (eq_refl true)).
  destruct (snd (step 40 (after far) (IDeriv 2))) as [|c| | | |] eqn:E; try discriminate Y. exists c. split; [|now apply Nat.eqb_eq]. apply (reads_step 40); [exact E|discriminate].
Qed.
(** The variance of y. *)
Lemma ex_variance : exists m st', covariance (fun l => l) e3 [1]%nat (Ok m) st' /\ nth_error [1]%nat 0 = Some 1%nat /\ Bltb f0 (entry (N:=FN) m 0 0 : f64) = true.
Proof.
  assert (C : match get_args (st_env e3) [1]%nat with
    | Some l => match covariance_matrix (fun l => l) 40 l (st_heap e3) with (Ok m, _) => Bltb f0 (entry m 0 0 : f64) | _ => false end
    | None => false end = true) by (vm_cast_no_check (eq_refl true)).
  destruct (get_args (st_env e3) [1]%nat) as [l|] eqn:A; [|discriminate C]. destruct (covariance_matrix (fun l => l) 40 l (st_heap e3)) as [[m|e] h'] eqn:E; [|discriminate C].
  exists m, (mkState h' (st_env e3)). split; [|split; [reflexivity|exact C]].
  exists l, 40%nat. split; [exact A|]. split; [reflexivity|]. intros f Hf. replace f with (40 + (f - 40))%nat by lia.
  rewrite (fm_cov (N:=FN) (fun l => l) l 40%nat (f - 40)%nat (st_heap e3)); [exact E|]. rewrite E. discriminate.
Qed.
(** x == x and x < y. *)
Lemma ex_comparisons : nth_error o_known 0 = Some (Some [0]%nat) /\ nth_error o_known 1 = Some (Some [1]%nat) /\ is_number e3 0 (uf_at e3 0) /\ is_number e3 1 (uf_at e3 1) /\
  reads e3 (ICmp Ceq 0 0) (OBool true) /\ reads e3 (ICmp Clt 0 1) (OBool true) /\ reads e3 (ICmp Cge 0 1) (OBool false).
Proof. split; [reflexivity|]. split; [reflexivity|]. split; [numb|]. split; [numb|]. split; [run_big|]. split; run_big. Qed.
