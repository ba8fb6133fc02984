(** A larger standard deviation, in binary64. *)
From Coq Require Import ZArith List Bool Lia Relations.
From Flocq Require Import Core BinarySingleNaN.
From Verif Require Import Base NumF Heap HeapSpec Affine Ops UMath Machine Cov Calls Unumpy UMatrix History Fuel FRefute ExGen DepSpec TwinSpec StaySpec BiggerSpec Bigger BiggerLater.
Import ListNotations.

(** x = ufloat(1, 0.1); y = ufloat(2, 0.3); z = x*y. *)
Definition b3 : state FN := after [INew (fl 1 0) (fl 3602879701896397 (-55)) None; INew (fl 2 0) (fl 5404319552844595 (-54)) None; IBin Bmul 0 1].
(** x.std_dev = 0.2 *)
Definition b4 : state FN := fst (step 40 b3 (ISet 0 (fl 3602879701896397 (-54)))).
Lemma two_numbers : forall o o' : out FN,
  match o, o' with ONum s, ONum t => negb (is_nanf (s : f64)) && negb (is_nanf (t : f64)) && Bltb (s : f64) (t : f64) | _, _ => false end = true ->
  exists s t : f64, o = ONum (N:=FN) s /\ o' = ONum (N:=FN) t /\ is_nanf s = false /\ is_nanf t = false /\ Bltb s t = true.
Proof.
  intros o o' Y. destruct o as [| | |s| |]; try discriminate Y. destruct o' as [| | |t| |]; try discriminate Y. apply andb_prop in Y as (Y & L). apply andb_prop in Y as (Ns & Nt).
  exists s, t. split; [reflexivity|]. split; [reflexivity|]. split; [now apply negb_true_iff|]. split; [now apply negb_true_iff|exact L].
Qed.
Lemma ex_larger : squares_grow lm0 /\ is_number b3 0 (uf_at b3 0) /\ uf_var (uf_at b3 0) = Some 0%nat /\ does b3 (ISet 0 (fl 3602879701896397 (-54))) b4 ONone /\
  Bleb f0 (sd b3 0%nat) = true /\ Bleb (sd b3 0%nat) (sd b4 0%nat) = true /\ is_number b3 2 (uf_at b3 2) /\ uf_var (uf_at b3 2) = None /\
  exists s t : f64, reads b3 (IStd 2) (ONum (N:=FN) s) /\ reads b4 (IStd 2) (ONum (N:=FN) t) /\ is_nanf s = false /\ is_nanf t = false /\ Bltb s t = true.
Proof.
  split; [exact (exact_squares_grow lm0 lm0_squares)|]. split; [numb|]. split; [vm_compute; reflexivity|]. split; [unfold b4; run_is|].
  split; [vm_cast_no_check (eq_refl true)|]. split; [vm_cast_no_check (eq_refl true)|]. split; [numb|]. split; [vm_compute; reflexivity|].
  destruct (two_numbers (snd (step 40 b3 (IStd 2))) (snd (step 40 b4 (IStd 2)))) as (s & t & E & E' & H); [vm_cast_no_check (eq_refl true)|].
  exists s, t. split; [exact (reads_step 40 _ _ _ E ltac:(discriminate))|]. split; [exact (reads_step 40 _ _ _ E' ltac:(discriminate))|exact H].
Qed.
(** The derivatives of z are read; then x.std_dev = 0.2. *)
Definition b5 : state FN := fst (step 40 b3 (IDeriv 2)).
Definition b6 : state FN := fst (step 40 b5 (ISet 0 (fl 3602879701896397 (-54)))).
Lemma a_dict : forall (o : out FN) f, match o with ODict d => forallb f (dkeys d) | _ => false end = true -> exists d, o = ODict d /\ forall v, In v (dkeys d) -> f v = true.
Proof. intros o f H. destruct o as [|d| | | |]; try discriminate H. exists d. split; [reflexivity|]. now apply forallb_forall. Qed.
Lemma ex_larger_later : exists d, reachable b3 /\ is_number b3 2 (uf_at b3 2) /\ does b3 (IDeriv 2) b5 (ODict d) /\ afterwards b5 b6 /\
  (forall v, In v (dkeys d) -> sd b6 v = sd b5 v \/ (Bleb f0 (sd b5 v) = true /\ Bleb (sd b5 v) (sd b6 v) = true)) /\
  exists s t : f64, reads b5 (IStd 2) (ONum (N:=FN) s) /\ reads b6 (IStd 2) (ONum (N:=FN) t) /\ is_nanf s = false /\ is_nanf t = false /\ Bltb s t = true.
Proof.
  destruct (a_dict (snd (step 40 b3 (IDeriv 2))) (fun v => Bleb f0 (sd b5 v) && Bleb (sd b5 v) (sd b6 v))) as (d & E & H); [vm_cast_no_check (eq_refl true)|].
  exists d. split; [unfold b3; reach|]. split; [numb|]. split; [exact (does_step 40 b3 (IDeriv 2) (ODict d) E ltac:(discriminate))|].
  assert (D : does b5 (ISet 0 (fl 3602879701896397 (-54))) b6 ONone) by (unfold b6; run_is).
  split; [eapply Relation_Operators.rt1n_trans; [exact (h_statement _ _ _ _ D)|constructor]|].
  split. { intros v Hv. right. apply andb_prop. now apply H. }
  destruct (two_numbers (snd (step 40 b5 (IStd 2))) (snd (step 40 b6 (IStd 2)))) as (s & t & Es & Et & Q); [vm_cast_no_check (eq_refl true)|].
  exists s, t. split; [exact (reads_step 40 _ _ _ Es ltac:(discriminate))|]. split; [exact (reads_step 40 _ _ _ Et ltac:(discriminate))|exact Q].
Qed.
