(** Truth values and comparisons with plain numbers in binary64. *)
From Coq Require Import ZArith List Bool Lia.
From Flocq Require Import Core BinarySingleNaN.
From Verif Require Import Base NumF Heap HeapSpec Affine Ops UMath Machine Cov Copy Calls Unumpy UMatrix History Fuel FRefute DepSpec TwinSpec OutcomeSpec Outcome ExGen ExOutcome OutcomeBool.
Import ListNotations.

(** Then c = 2**1030; d = 1.0. *)
Definition e4 := ogo e3 (IConst (PZ (2 ^ 1030)%Z)).
Definition e5 := ogo e4 (IConst (fl 1 0)).
Ltac estep := unfold e5, e4, ogo; run_is.
Lemma ex_truth : reachable e5 /\ history e5 ((o_known ++ [None]) ++ [None]) /\ nth_error ((o_known ++ [None]) ++ [None]) 1 = Some (Some [1]%nat) /\ is_number e5 1 (uf_at e5 1) /\
  reads e5 (IBool 1) (OBool true) /\ (exists p, nth_error (st_env e5) 3 = Some (VNum p)) /\ (exists p, nth_error (st_env e5) 4 = Some (VNum p)) /\
  reads e5 (ICmp Cgt 1 4) (OBool true) /\ reads e5 (ICmp Ceq 1 3) (OExn EOverflow).
Proof.
  assert (D4 : does e3 (IConst (PZ (2 ^ 1030)%Z)) e4 ONone) by estep. assert (D5 : does e4 (IConst (fl 1 0)) e5 ONone) by estep.
  split. { change (reachable (after (firstn 3 far ++ [IConst (PZ (2 ^ 1030)%Z); IConst (fl 1 0)]))). reach. }
  split. { apply (history_other (N:=FN) e4 (o_known ++ [None]) e5).
    - apply (history_other (N:=FN) e3 o_known e4 history_e3). eapply act_statement; [exact D4|]. intros Q; discriminate Q.
    - eapply act_statement; [exact D5|]. intros Q; discriminate Q. }
  split; [reflexivity|]. split; [numb|]. split; [run_big|]. split; [eexists; reflexivity|]. split; [eexists; reflexivity|]. split; run_big.
Qed.
