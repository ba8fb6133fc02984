(** Concrete dependencies in binary64, with a derivative that overflows and becomes NaN. *)
From Coq Require Import ZArith List Bool Lia Reals Permutation.
From Flocq Require Import Core BinarySingleNaN.
From Verif Require Import Base Heap HeapSpec NumF Affine Ops UMath Machine Cov Calls Unumpy UMatrix History Fuel FRefute ExGen DepSpec Deps.
Import ListNotations.

Definition dgo (st : state FN) (ins : instr FN) : state FN := fst (step 40 st ins).
(** x = ufloat(2.0**1023, 1); y = ufloat(2, 1); z = x*x; w = z-z, after a read of z.derivatives;
    t = w*y. The derivative of z is infinite, that of w is NaN. *)
Definition d1 := dgo (init (N:=FN)) (INew (fl 1 1023) (fl 1 0) None).
Definition d2 := dgo d1 (INew (fl 2 0) (fl 1 0) None).
Definition d3 := dgo d2 (IBin Bmul 0 0).
Definition d4 := dgo d3 (IDeriv 2).
Definition d5 := dgo d4 (IBin Bsub 2 2).
Definition d6 := dgo d5 (IBin Bmul 3 1).
Definition d_known : list (option (list varid)) :=
  [Some [0]; Some [1]; Some ([0] ++ [0] ++ []); Some (([0] ++ [0]) ++ ([0] ++ [0]) ++ []); Some ((([0] ++ [0]) ++ ([0] ++ [0])) ++ [1] ++ [])]%nat.

Ltac dstep := unfold d1, d2, d3, d4, d5, d6, dgo; run_is.
Lemma history_d5 : history d5 (firstn 4 d_known).
Proof.
  assert (H1 : history d1 [Some [0%nat]]).
  { apply (history_new (N:=FN) init [] (fl 1 1023) (fl 1 0) None d1 (uf_at d1 0) 0%nat); [constructor|dstep|numb|reflexivity]. }
  assert (H2 : history d2 [Some [0%nat]; Some [1%nat]]).
  { apply (history_new (N:=FN) d1 _ (fl 2 0) (fl 1 0) None d2 (uf_at d2 1) 1%nat H1); [dstep|numb|reflexivity]. }
  assert (H3 : history d3 (firstn 3 d_known)).
  { apply (history_operator (N:=FN) d2 _ Bmul 0%nat 0%nat d3 (uf_at d3 2) _ H2); [dstep|numb|].
    apply (operands_number d2 _ 0%nat (uf_at d2 0)); [numb|reflexivity|]. apply (operands_number d2 _ 0%nat (uf_at d2 0)); [numb|reflexivity|]. constructor. }
  assert (H4 : history d4 (firstn 3 d_known)).
  { assert (A : acts d3 d4).
    { apply (act_statement d3 (IDeriv 2) d4 (snd (step 40 d3 (IDeriv 2)))).
      - unfold d4, dgo. apply does_step; [reflexivity|].
        assert (Y : match snd (step 40 d3 (IDeriv 2)) with ODict _ => true | _ => false end = true) by (vm_cast_no_check (eq_refl true)).
        intros E. rewrite E in Y. discriminate Y.
      - intros _ (e & E). assert (Y : match snd (step 40 d3 (IDeriv 2)) with ODict _ => true | _ => false end = true) by (vm_cast_no_check (eq_refl true)).
        rewrite E in Y. discriminate Y. }
    assert (X := history_other d3 _ d4 H3 A). replace (length (st_env d4) - length (st_env d3))%nat with 0%nat in X by (vm_compute; reflexivity). exact X. }
  apply (history_operator (N:=FN) d4 _ Bsub 2%nat 2%nat d5 (uf_at d5 3) _ H4); [dstep|numb|].
  apply (operands_number d4 _ 2%nat (uf_at d4 2)); [numb|reflexivity|]. apply (operands_number d4 _ 2%nat (uf_at d4 2)); [numb|reflexivity|]. constructor.
Qed.
Lemma history_d6 : history d6 d_known.
Proof.
  apply (history_operator (N:=FN) d5 _ Bmul 3%nat 1%nat d6 (uf_at d6 4) _ history_d5); [dstep|numb|].
  apply (operands_number d5 _ 3%nat (uf_at d5 3)); [numb|reflexivity|]. apply (operands_number d5 _ 1%nat (uf_at d5 1)); [numb|reflexivity|]. constructor.
Qed.
Definition dict_at (st : state FN) (i : nat) : list (varid * f64) := match snd (step 40 st (IDeriv i)) with ODict d => d | _ => [] end.
Lemma reads_dict : forall (st : state FN) i, match snd (step 40 st (IDeriv i)) with ODict _ => true | _ => false end = true ->
  reads st (IDeriv i) (ODict (N:=FN) (dict_at st i)).
Proof.
  intros st i H. apply (reads_step 40); [|discriminate]. unfold dict_at. destruct (snd (step 40 st (IDeriv i))); try discriminate H. reflexivity.
Qed.
Definition nan_for (d : list (varid * f64)) (v : nat) : bool := existsb (fun p => Nat.eqb (fst p) v && match snd p with B754_nan => true | _ => false end) d.
Lemma ex_dependencies : history d6 d_known /\ nth_error d_known 3 = Some (Some [0; 0; 0; 0]%nat) /\ is_number d6 3 (uf_at d6 3) /\
  reads d6 (IDeriv 3) (ODict (N:=FN) (dict_at d6 3)) /\ dkeys (dict_at d6 3) = [0%nat] /\ nan_for (dict_at d6 3) 0 = true /\
  is_number d6 4 (uf_at d6 4) /\ reads d6 (IDeriv 4) (ODict (N:=FN) (dict_at d6 4)) /\ dkeys (dict_at d6 4) = [1; 0]%nat.
Proof.
  split; [exact history_d6|]. split; [reflexivity|]. split; [numb|]. split; [apply reads_dict; vm_cast_no_check (eq_refl true)|].
  split; [vm_compute; reflexivity|]. split; [vm_cast_no_check (eq_refl true)|]. split; [numb|]. split; [apply reads_dict; vm_cast_no_check (eq_refl true)|].
  vm_compute; reflexivity.
Qed.
(** The standard deviation of y is set: that of w remains NaN, that of y changes. *)
Lemma ex_unaffected : exists st', history d6 d_known /\ nth_error d_known 3 = Some (Some [0; 0; 0; 0]%nat) /\ is_number d6 3 (uf_at d6 3) /\
  is_number d6 1 (uf_at d6 1) /\ uf_var (uf_at d6 1) = Some 1%nat /\ ~ In 1%nat [0; 0; 0; 0]%nat /\
  does d6 (ISet 1 (PF (N:=FN) f0)) st' ONone /\ reads d6 (IStd 3) (ONum (N:=FN) fnan) /\ reads st' (IStd 1) (ONum (N:=FN) f0).
Proof.
  eexists. split; [exact history_d6|]. split; [reflexivity|]. split; [numb|]. split; [numb|]. split; [reflexivity|].
  split; [cbn; intuition discriminate|]. split; [run_is|]. split; run_big.
Qed.
(** The covariance of w and y is zero, although the one of w with itself is NaN. *)
Lemma ex_uncorrelated : exists m st', history d6 d_known /\ covariance (fun l => l) d6 [3; 1]%nat (Ok m) st' /\
  nth_error d_known 3 = Some (Some [0; 0; 0; 0]%nat) /\ nth_error d_known 1 = Some (Some [1]%nat) /\
  (forall v, In v [0; 0; 0; 0]%nat -> In v [1]%nat -> False) /\ entry m 0 0 = (fnan : f64) /\ entry m 0 1 = (f0 : f64).
Proof.
  assert (C : match get_args (st_env d6) [3; 1]%nat with
    | Some l => match covariance_matrix (fun l => l) 40 l (st_heap d6) with (Ok m, _) => match entry m 0 0 : f64 with B754_nan => true | _ => false end | _ => false end
    | None => false end = true) by (vm_cast_no_check (eq_refl true)).
  destruct (get_args (st_env d6) [3; 1]%nat) as [l|] eqn:A; [|discriminate C]. destruct (covariance_matrix (fun l => l) 40 l (st_heap d6)) as [[m|e] h'] eqn:E; [|discriminate C].
  assert (V : covariance (fun l => l) d6 [3; 1]%nat (Ok m) (mkState h' (st_env d6))).
  { exists l, 40%nat. split; [exact A|]. split; [reflexivity|]. intros f Hf. replace f with (40 + (f - 40))%nat by lia.
    rewrite (fm_cov (N:=FN) (fun l => l) l 40%nat (f - 40)%nat (st_heap d6)); [exact E|]. rewrite E. discriminate. }
  exists m, (mkState h' (st_env d6)). split; [exact history_d6|]. split; [exact V|]. split; [reflexivity|]. split; [reflexivity|].
  assert (Dj : forall v, In v [0; 0; 0; 0]%nat -> In v [1]%nat -> False) by (cbn; intuition congruence). split; [exact Dj|]. split.
  - destruct (entry m 0 0 : f64); try discriminate C. reflexivity.
  - exact (uncorrelated (N:=FN) _ d6 d_known [3; 1]%nat m _ 0 1 3 1 _ _ (fun l => Permutation_refl l) history_d6 V eq_refl eq_refl eq_refl eq_refl Dj).
Qed.
(** u = ufloat(0, 1) after all that. *)
Definition d7 := dgo d6 (INew (fl 0 0) (fl 1 0) None).
Lemma ex_fresh : history d6 d_known /\ does d6 (INew (fl 0 0) (fl 1 0) None) d7 ONone /\
  is_number d7 (length (st_env d6)) (uf_at d7 5) /\ uf_var (uf_at d7 5) = Some 2%nat.
Proof. split; [exact history_d6|]. split; [unfold d7; dstep|]. split; [numb|reflexivity]. Qed.
