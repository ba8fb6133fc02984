(** Signs and uncertainties in binary64: example. *)
From Coq Require Import ZArith List Bool Lia Relations.
From Flocq Require Import Core BinarySingleNaN.
From Verif Require Import Base NumF Heap HeapSpec Affine Ops UMath Machine Cov Calls Unumpy UMatrix History Fuel FRefute ExGen DepSpec TwinSpec StaySpec BiggerSpec Bigger BiggerLater ExBigger Opposite.
Import ListNotations.

Lemma a_dict_of_two : forall o : out FN, match o with ODict [(a, _); (b, _)] => negb (Nat.eqb a b) | _ => false end = true -> exists d, o = ODict d /\ NoDup (dkeys d).
Proof.
  intros o H. destruct o as [|d| | | |]; try discriminate H. destruct d as [|[a x] [|[b y] [|]]]; try discriminate H. eexists. split; [reflexivity|].
  cbn [dkeys map fst]. apply negb_true_iff, Nat.eqb_neq in H. constructor; [intros [E|[]]; now apply H|]. constructor; [intros []|constructor].
Qed.
Lemma a_positive_number : forall o : out FN, match o with ONum s => Bltb f0 (s : f64) | _ => false end = true -> exists s : f64, o = ONum (N:=FN) s /\ Bltb f0 s = true.
Proof. intros o H. destruct o as [| | |s| |]; try discriminate H. exists s. split; [reflexivity|exact H]. Qed.
(** -z, after the derivatives of z have been read. *)
Definition minus_z : instr FN := ICall (unop_fun Uneg) (unop_pos Uneg) no_kw [2%nat] [].
Definition b7 : state FN := fst (step 40 b5 minus_z).
Lemma ex_opposite : exists d, reachable b3 /\ is_number b3 2 (uf_at b3 2) /\ does b3 (IDeriv 2) b5 (ODict d) /\ NoDup (dkeys d) /\
  does b5 (ICall (unop_fun Uneg) (unop_pos Uneg) no_kw [2%nat] []) b7 ONone /\
  exists s : f64, reads b5 (IStdS 2) (ONum (N:=FN) s) /\ Bltb f0 s = true.
Proof.
  destruct (a_dict_of_two (snd (step 40 b3 (IDeriv 2)))) as (d & E & ND); [vm_cast_no_check (eq_refl true)|]. exists d.
  split; [unfold b3; reach|]. split; [numb|]. split; [exact (does_step 40 b3 (IDeriv 2) (ODict d) E ltac:(discriminate))|]. split; [exact ND|].
  split; [change (does b5 minus_z b7 ONone); unfold b7; run_is|].
  destruct (a_positive_number (snd (step 40 b5 (IStdS 2)))) as (s & Es & P); [vm_cast_no_check (eq_refl true)|]. exists s. split; [exact (reads_step 40 _ _ _ Es ltac:(discriminate))|exact P].
Qed.
Lemma an_int : forall (a : option (value FN)) n, match a with Some (VPlain (PNum (PZ z))) => Z.eqb z n | _ => false end = true -> a = Some (VPlain (PNum (PZ n))).
Proof. intros [[[[z|]| | |]|]|] n H; try discriminate H. apply Z.eqb_eq in H. now rewrite H. Qed.
(** z + 3, after the derivatives of z have been read. *)
Definition c3 : state FN := after [INew (fl 1 0) (fl 3602879701896397 (-55)) None; INew (fl 2 0) (fl 5404319552844595 (-54)) None; IBin Bmul 0 1; IConst (PZ 3)].
Definition c4 : state FN := fst (step 40 c3 (IDeriv 2)).
Definition c5 : state FN := fst (step 40 c4 (IBin Badd 2 3)).
Lemma ex_shifted : exists d, reachable c3 /\ is_number c3 2 (uf_at c3 2) /\ does c3 (IDeriv 2) c4 (ODict d) /\ NoDup (dkeys d) /\
  nth_error (st_env c4) 3 = Some (VPlain (PNum (PZ 3))) /\ does c4 (IBin Badd 2 3) c5 ONone /\
  exists s : f64, reads c4 (IStdS 2) (ONum (N:=FN) s) /\ Bltb f0 s = true.
Proof.
  destruct (a_dict_of_two (snd (step 40 c3 (IDeriv 2)))) as (d & E & ND); [vm_cast_no_check (eq_refl true)|]. exists d.
  split; [unfold c3; reach|]. split; [numb|]. split; [exact (does_step 40 c3 (IDeriv 2) (ODict d) E ltac:(discriminate))|]. split; [exact ND|].
  split; [apply an_int; vm_cast_no_check (eq_refl true)|]. split; [unfold c5; run_is|].
  destruct (a_positive_number (snd (step 40 c4 (IStdS 2)))) as (s & Es & P); [vm_cast_no_check (eq_refl true)|]. exists s. split; [exact (reads_step 40 _ _ _ Es ltac:(discriminate))|exact P].
Qed.
(** umath.fabs(z) *)
Definition fabs_z : instr FN := ICall (m1_fun F_fabs) (m1_pos F_fabs) (m1_kw F_fabs) [2%nat] [].
Definition b8 : state FN := fst (step 40 b5 fabs_z).
Lemma ex_fabs : exists d, reachable b3 /\ is_number b3 2 (uf_at b3 2) /\ does b3 (IDeriv 2) b5 (ODict d) /\ NoDup (dkeys d) /\
  does b5 (ICall (m1_fun F_fabs) (m1_pos F_fabs) (m1_kw F_fabs) [2%nat] []) b8 ONone.
Proof.
  destruct ex_opposite as (d & A & B & C & E & _). exists d. split; [exact A|]. split; [exact B|]. split; [exact C|]. split; [exact E|].
  change (does b5 fabs_z b8 ONone). unfold b8. run_is.
Qed.
(** -1 * z *)
Definition m3 : state FN := after [INew (fl 1 0) (fl 3602879701896397 (-55)) None; INew (fl 2 0) (fl 5404319552844595 (-54)) None; IBin Bmul 0 1; IConst (PZ (-1))].
Definition m4 : state FN := fst (step 40 m3 (IDeriv 2)).
Definition m5 : state FN := fst (step 40 m4 (IBin Bmul 3 2)).
Lemma ex_times : exists d, reachable m3 /\ is_number m3 2 (uf_at m3 2) /\ does m3 (IDeriv 2) m4 (ODict d) /\ NoDup (dkeys d) /\
  nth_error (st_env m4) 3 = Some (VPlain (PNum (PZ (-1)))) /\ pn_float (PZ (N:=FN) (-1)) = Ok (fneg fone) /\ does m4 (IBin Bmul 3 2) m5 ONone.
Proof.
  destruct (a_dict_of_two (snd (step 40 m3 (IDeriv 2)))) as (d & E & ND); [vm_cast_no_check (eq_refl true)|]. exists d.
  split; [unfold m3; reach|]. split; [numb|]. split; [exact (does_step 40 m3 (IDeriv 2) (ODict d) E ltac:(discriminate))|]. split; [exact ND|].
  split; [apply an_int; vm_cast_no_check (eq_refl true)|]. split; [exact int_minus_one|]. unfold m5. run_is.
Qed.
