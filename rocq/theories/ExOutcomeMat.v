(** Matrices and standard scores in binary64. *)
From Coq Require Import ZArith List Bool Lia.
From Flocq Require Import Core BinarySingleNaN.
From Verif Require Import Base NumF Heap HeapSpec Affine Ops UMath Machine Cov Copy Calls Unumpy UMatrix History Fuel FRefute DepSpec TwinSpec OutcomeSpec Outcome ExGen ExOutcome OutcomeMat.
Import ListNotations.

(** The covariance matrix of x and y is not calculated, because the square of the uncertainty of x is too large. *)
Lemma ex_matrices : (forall l v, In v ((fun l : list varid => l) l) -> In v l) /\ (forall i, In i [0; 1]%nat -> exists u vs, is_number e3 i u /\ nth_error o_known i = Some (Some vs)) /\
  exists st', covariance (fun l => l) e3 [0; 1]%nat (Err EOverflow) st'.
Proof.
  split; [auto|]. split. { intros i [<-|[<-|[]]]; (eexists; eexists; split; [|reflexivity]); [exact (proj1 (proj2 (proj2 ex_comparisons)))|exact (proj1 (proj2 (proj2 (proj2 ex_comparisons))))]. }
  assert (C : match get_args (st_env e3) [0; 1]%nat with
    | Some l => match covariance_matrix (fun l => l) 40 l (st_heap e3) with (Err EOverflow, _) => true | _ => false end
    | None => false end = true) by (vm_cast_no_check (eq_refl true)).
  destruct (get_args (st_env e3) [0; 1]%nat) as [l|] eqn:A; [|discriminate C]. destruct (covariance_matrix (fun l => l) 40 l (st_heap e3)) as [[m|[]] h'] eqn:E; try discriminate C.
  exists (mkState h' (st_env e3)). exists l, 40%nat. split; [exact A|]. split; [reflexivity|]. intros f Hf. replace f with (40 + (f - 40))%nat by lia.
  rewrite (fm_cov (N:=FN) (fun l => l) l 40%nat (f - 40)%nat (st_heap e3)); [exact E|]. rewrite E. discriminate.
Qed.
(** y.std_score(0), and z.std_score(0) for z = x + y. *)
Lemma ex_scores : (exists x, reads e3 (IScore 1 (PZ 0)) (ONum (N:=FN) x)) /\ reads e3 (IScore 2 (PZ 0)) (OExn EOverflow).
Proof.
  split; [|run_big]. assert (Y : match snd (step 40 e3 (IScore 1 (PZ 0))) with ONum c => true | _ => false end = true) by (vm_cast_no_check (eq_refl true)).
  destruct (snd (step 40 e3 (IScore 1 (PZ 0)))) as [| | |c| |] eqn:E; try discriminate Y. exists c. apply (reads_step 40); [exact E|discriminate].
Qed.
