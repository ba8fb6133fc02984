(** A concrete state in which reads raise: they still end. *)
From Coq Require Import ZArith List Bool Lia.
From Flocq Require Import Core BinarySingleNaN.
From Verif Require Import Base NumF Heap Affine Ops UMath Machine Cov History FRefute TermSpec Term TermF.
Import ListNotations.

Lemma ex_terminates : ends FN /\ reachable (after huge) /\ is_read (N:=FN) (IDeriv 4) = true /\ reads (after huge) (IDeriv 4) (OExn EOverflow) /\
  (forall i, In i [0; 2]%nat -> (i < length (st_env (after huge)))%nat).
Proof.
  split; [apply binary64_ends|]. destruct f_huge as (u & u' & R & A & B & _ & _ & D). split; [exact R|]. split; [reflexivity|]. split; [exact D|].
  intros i [<-|[<-|[]]]; unfold is_number in *.
  - assert (X : length (st_env (after huge)) = 5%nat) by (vm_compute; reflexivity). rewrite X. lia.
  - apply nth_error_Some. rewrite A. discriminate.
Qed.
