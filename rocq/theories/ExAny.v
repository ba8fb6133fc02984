(** Concrete histories in binary64: components, covariances and correlations. *)
From Coq Require Import ZArith List Bool Lia.
From Flocq Require Import Core BinarySingleNaN.
From Verif Require Import Base NumF Heap HeapSpec Affine Ops UMath Machine Cov Calls Unumpy UMatrix History Fuel FRefute DepSpec AnySpec AnyArith TermSpec Term TermF.
Import ListNotations.

(** x = 1+/-3, y = 1+/-1, q = x + y; t is the sum of three variables with a standard deviation of 1. *)
Definition cors : list (instr FN) :=
  [INew (fl 1 0) (fl 3 0) None; INew (fl 1 0) (fl 1 0) None; IBin Badd 0 1; INew (fl 1 0) (fl 1 0) None; INew (fl 1 0) (fl 1 0) None;
   IBin Badd 1 3; IBin Badd 5 4].
Definition cor_args : list (value FN) := [VUF (uf_at (after cors) 0); VUF (uf_at (after cors) 2); VUF (uf_at (after cors) 6)].
Lemma cor_get : get_args (st_env (after cors)) [0; 2; 6]%nat = Some cor_args.
Proof.
  assert (H : forall i, has_uf (after cors) i = true -> nth_error (st_env (after cors)) i = Some (VUF (uf_at (after cors) i))) by (intros i; apply has_uf_at).
  cbn [get_args]. rewrite !H by (vm_cast_no_check (eq_refl true)). reflexivity.
Qed.
Lemma corr_observed : forall (st : state FN) is l k c h', get_args (st_env st) is = Some l ->
  (forall fuel, (k <= fuel)%nat -> correlation_matrix (N:=FN) (fun l => l) fuel l (st_heap st) = (Ok c, h')) ->
  correlation (fun l => l) st is (Ok c) (mkState h' (st_env st)).
Proof. intros st is l k c h' G F. exists l, k. split; [exact G|]. split; [reflexivity|exact F]. Qed.
Lemma cov_observed : forall (st : state FN) is l k c h', get_args (st_env st) is = Some l ->
  (forall fuel, (k <= fuel)%nat -> covariance_matrix (N:=FN) (fun l => l) fuel l (st_heap st) = (Ok c, h')) ->
  covariance (fun l => l) st is (Ok c) (mkState h' (st_env st)).
Proof. intros st is l k c h' G F. exists l, k. split; [exact G|]. split; [reflexivity|exact F]. Qed.
Lemma f_correlation : exists c m st', reachable (after cors) /\ correlation (fun l => l) (after cors) [0; 2; 6]%nat (Ok c) st' /\
  covariance (fun l => l) (after cors) [0; 2; 6]%nat (Ok m) st' /\
  Bltb (entry (N:=FN) c 0 1 : f64) (entry (N:=FN) c 1 0) = true /\ Bltb fone (entry (N:=FN) c 2 2 : f64) = true.
Proof.
  assert (Y : match fst (correlation_matrix (N:=FN) (fun l => l) 40 cor_args (st_heap (after cors))) with
    | Ok c => Bltb (entry (N:=FN) c 0 1 : f64) (entry (N:=FN) c 1 0) && Bltb fone (entry (N:=FN) c 2 2 : f64) | _ => false end = true) by (vm_cast_no_check (eq_refl true)).
  assert (F : forall fuel, (40 <= fuel)%nat -> correlation_matrix (N:=FN) (fun l => l) fuel cor_args (st_heap (after cors)) = correlation_matrix (N:=FN) (fun l => l) 40 cor_args (st_heap (after cors))).
  { intros fuel Hf. replace fuel with (40 + (fuel - 40))%nat by lia. apply (fm_corr (fun l => l) cor_args 40%nat (fuel - 40)%nat).
    intros E. rewrite E in Y. discriminate Y. }
  destruct (correlation_matrix (N:=FN) (fun l => l) 40 cor_args (st_heap (after cors))) as [[c|e] h'] eqn:C; [|discriminate Y]. cbn [fst] in Y.
  apply andb_true_iff in Y as (Y1 & Y2). unfold correlation_matrix, bind in C.
  destruct (covariance_matrix (N:=FN) (fun l => l) 40 cor_args (st_heap (after cors))) as [[m|e] h1] eqn:V; [|discriminate C].
  assert (h1 = h') by (injection C as _ ->; reflexivity). subst h1.
  exists c, m, (mkState h' (st_env (after cors))). split; [reach|]. split; [|split; [|split; [exact Y1|exact Y2]]].
  - apply (corr_observed _ _ _ 40 _ _ cor_get). exact F.
  - apply (cov_observed _ _ _ 40 _ _ cor_get). intros fuel Hf. replace fuel with (40 + (fuel - 40))%nat by lia.
    rewrite (fm_cov (fun l => l) cor_args 40%nat (fuel - 40)%nat); [exact V|rewrite V; discriminate].
Qed.

(** Reads of q. *)
Definition q_dict : list (varid * f64) := match snd (step 40 (after cors) (IDeriv 2)) with ODict d => d | _ => [] end.
Definition q_errs : list (varid * pynum FN) := match snd (step 40 (after cors) (IErrs 2)) with OErrs d => d | _ => [] end.
Lemma ex_read_q : exists u, is_number (after cors) 2 u /\ uf_var u = None /\ reads (after cors) (IDeriv 2) (ODict (N:=FN) q_dict) /\ dkeys q_dict = [1; 0]%nat /\
  reads (after cors) (IErrs 2) (OErrs q_errs) /\ dkeys q_errs = [1; 0]%nat /\ about (N:=FN) 2 (IStd 2).
Proof.
  exists (uf_at (after cors) 2). split; [numb|]. split; [vm_compute; reflexivity|]. split; [|split; [vm_compute; reflexivity|split; [|split; [vm_compute; reflexivity|unfold about; tauto]]]].
  - assert (Y : match snd (step 40 (after cors) (IDeriv 2)) with ODict _ => true | _ => false end = true) by (vm_cast_no_check (eq_refl true)).
    apply (reads_step 40); [|discriminate]. unfold q_dict. destruct (snd (step 40 (after cors) (IDeriv 2))); try discriminate Y. reflexivity.
  - assert (Y : match snd (step 40 (after cors) (IErrs 2)) with OErrs _ => true | _ => false end = true) by (vm_cast_no_check (eq_refl true)).
    apply (reads_step 40); [|discriminate]. unfold q_errs. destruct (snd (step 40 (after cors) (IErrs 2))); try discriminate Y. reflexivity.
Qed.
(** x.std_dev = 0. *)
Lemma ex_set_x : exists u st', is_number (after cors) 0 u /\ uf_var u = Some 0%nat /\ does (after cors) (ISet 0 (PZ 0)) st' ONone /\ reads st' (IStd 0) (ONum (N:=FN) f0).
Proof.
  exists (uf_at (after cors) 0), (fst (step 40 (after cors) (ISet 0 (PZ 0)))). split; [numb|]. split; [vm_compute; reflexivity|].
  assert (Y : match snd (step 40 (after cors) (ISet 0 (PZ 0))) with ONone => true | _ => false end = true) by (vm_cast_no_check (eq_refl true)).
  split; [apply does_step; [destruct (snd (step 40 (after cors) (ISet 0 (PZ 0)))); try discriminate Y; reflexivity|discriminate]|run_big].
Qed.
