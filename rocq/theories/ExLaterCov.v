(** A covariance matrix that is calculated again, in binary64. *)
From Coq Require Import ZArith List Bool Lia.
From Flocq Require Import Core BinarySingleNaN.
From Verif Require Import Base NumF Heap HeapSpec Affine Ops UMath Machine Cov Copy Calls Unumpy UMatrix History Fuel FRefute DepSpec TwinSpec StaySpec Stay StayF LaterSpec Later LaterMore ExLater LaterCov.
Import ListNotations.

(** The covariance matrix of z = x*y and y, of which the derivatives have been read. *)
Lemma ex_matrix : exists m st1, reachable zr /\ afterwards zr zq /\ (forall i, In i [2; 1]%nat -> settled zr i /\ same_deviations zr zq i) /\
  covariance (fun l => l) zr [2; 1]%nat (Ok m) st1 /\ Bltb f0 (entry (N:=FN) m 0 1 : f64) = true.
Proof.
  destruct ex_again as (R & A & _). destruct ex_compared as (S1 & S2 & D1 & D2 & _).
  assert (C : match get_args (st_env zr) [2; 1]%nat with
    | Some l => match covariance_matrix (fun l => l) 40 l (st_heap zr) with (Ok m, _) => Bltb f0 (entry m 0 1 : f64) | _ => false end
    | None => false end = true) by (vm_cast_no_check (eq_refl true)).
  destruct (get_args (st_env zr) [2; 1]%nat) as [l|] eqn:G; [|discriminate C]. destruct (covariance_matrix (fun l => l) 40 l (st_heap zr)) as [[m|e] h'] eqn:E; [|discriminate C].
  exists m, (mkState h' (st_env zr)). split; [exact R|]. split; [exact A|]. split; [intros i [<-|[<-|[]]]; auto|]. split; [|exact C].
  exists l, 40%nat. split; [exact G|]. split; [reflexivity|]. intros f Hf. replace f with (40 + (f - 40))%nat by lia.
  rewrite (fm_cov (N:=FN) (fun l => l) l 40%nat (f - 40)%nat (st_heap zr)); [exact E|]. rewrite E. discriminate.
Qed.
