(** The arithmetic of binary64, and that of the reals, ends. *)
From Coq Require Import ZArith List Bool Reals.
From Coquelicot Require Import Coquelicot.
From Flocq Require Import Core.
From Verif Require Import Base NumF NumR Heap Affine Ops UMath Machine Cov History TermSpec Term.

Ltac cases := repeat match goal with
  | |- context [if ?b then _ else _] => destruct b
  | |- Ok _ <> _ => discriminate
  | |- Err _ <> _ => discriminate
  end.
Lemma binary64_ends : forall lm, ends (FOps lm).
Proof.
  intros lm. constructor; cbn [FOps n_of_Z n_divZ n_div n_pow n_fun1 n_nan n_npdiv num]; intros; try discriminate.
  - unfold f_of_Z. cbv zeta. cases.
  - unfold f_divZ. cbv zeta. cases.
  - unfold f_div. cases.
  - unfold f_pow. cbv zeta. cases.
  - unfold f_fun1, f_sqrt. cases.
Qed.
Lemma reals_end : forall g lg : R -> R, ends (ROps g lg).
Proof.
  intros g lg. constructor; cbn [ROps n_of_Z n_divZ n_div n_pow n_fun1 n_nan n_npdiv num]; intros; try discriminate.
  - unfold Rdiv_py. cases.
  - unfold Rdiv_py. cases.
  - unfold Rpow_py. cases.
  - unfold Rfun1. cases.
  - cases.
Qed.
Lemma reads_end_binary64 : forall lm (st : state (FOps lm)) ins, reachable st -> is_read ins = true ->
  exists st' o, does st ins st' o /\ o <> OExn EFuel.
Proof. intros lm. apply reads_end, binary64_ends. Qed.
Lemma matrices_end_binary64 : forall lm order (st : state (FOps lm)) is, reachable st -> (forall i, List.In i is -> (i < length (st_env st))%nat) ->
  (exists r st', covariance order st is r st' /\ r <> Err EFuel) /\ (exists r st', correlation order st is r st' /\ r <> Err EFuel).
Proof. intros lm. apply matrices_end, binary64_ends. Qed.
Lemma reads_end_any : forall N : NumOps, ends N -> forall (st : state N) ins, reachable st -> is_read ins = true ->
  exists st' o, does st ins st' o /\ o <> OExn EFuel.
Proof. intros N. exact reads_end. Qed.
