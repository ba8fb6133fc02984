(** Property theorems: reads end in any arithmetic; differences of equal functions in binary64. *)
From Coq Require Import ZArith List Bool Reals.
From Flocq Require Import Core BinarySingleNaN.
From Verif Require Import Base Heap HeapSpec NumF Affine Ops UMath Machine Cov Calls Unumpy UMatrix History FRefute GradSpec ExGrad TermSpec Term TermF ExTerm BinCancel.
Import ListNotations.
Local Open Scope R_scope.

(** ** C05 *)
(** C05: in any arithmetic whose operations end, every read of every reachable state ends, with a result or with an exception. *)
Theorem C05_terminates : forall N : NumOps, ends N -> forall (st : state N) ins, reachable st -> is_read ins = true ->
  exists st' o, does st ins st' o /\ o <> OExn EFuel.
Proof. exact reads_end_any. Qed.
Print Assumptions C05_terminates.
(** ... which is the case of binary64, whatever the C library. *)
Theorem C05_terminates_binary64 : forall lm (st : state (FOps lm)) ins, reachable st -> is_read ins = true ->
  exists st' o, does st ins st' o /\ o <> OExn EFuel.
Proof. exact reads_end_binary64. Qed.
Print Assumptions C05_terminates_binary64.
(** Covariance and correlation matrices, whatever the iteration order of sets. *)
Theorem C05_matrices_terminate : forall lm order (st : state (FOps lm)) is, reachable st -> (forall i, List.In i is -> (i < length (st_env st))%nat) ->
  (exists r st', covariance order st is r st' /\ r <> Err EFuel) /\ (exists r st', correlation order st is r st' /\ r <> Err EFuel).
Proof. exact matrices_end_binary64. Qed.
Print Assumptions C05_matrices_terminate.
(** A state of C05_binary64_refuted, in which a read raises OverflowError. *)
Example C05_terminates_example : ends FN /\ reachable (after huge) /\ is_read (N:=FN) (IDeriv 4) = true /\ reads (after huge) (IDeriv 4) (OExn EOverflow) /\
  (forall i, In i [0; 2]%nat -> (i < length (st_env (after huge)))%nat).
Proof. exact ex_terminates. Qed.
(** ** C06 *)
(** C06 in binary64: the derivatives of a difference of numbers with the same exact differential are roundings. *)
Theorem C06_cancel_binary64 : forall lm (st : state (FOps lm)) L i j u w a b st' r, traced lm st L ->
  is_number st i u -> is_number st j w -> nth_error L i = Some (Some a) -> nth_error L j = Some (Some b) ->
  is_finite (uf_nom u : f64) = true -> is_finite (uf_nom w : f64) = true ->
  (forall v, grad a v = grad b v) -> in_range (call_lin [(1, a); (-1, b)]) ->
  does st (IBin Bsub i j) st' ONone -> is_number st' (length (st_env st)) r ->
  uf_nom r = fsub (uf_nom u) (uf_nom w) /\
  exists d, reads st' (IDeriv (length (st_env st))) (ODict d) /\
    forall v, Rabs (fval lm d v) <= INR (roundings a + roundings b + 12) / 2 ^ 52 * (paths a v + paths b v).
Proof. exact differences_cancel. Qed.
Print Assumptions C06_cancel_binary64.
(** ((x + x) - x) - x for x = ufloat(3, 1). *)
Example C06_cancel_example : exists L u w r, traced lm0 c3 L /\ is_number c3 2 u /\ is_number c3 0 w /\ nth_error L 2%nat = Some (Some lin_back) /\
  nth_error L 0%nat = Some (Some (var_lin 0%nat)) /\ is_finite (uf_nom u : f64) = true /\ is_finite (uf_nom w : f64) = true /\
  (forall v, grad lin_back v = grad (var_lin 0%nat) v) /\ in_range (call_lin [(1, lin_back); (-1, var_lin 0%nat)]) /\
  does c3 (IBin Bsub 2 0) c4 ONone /\ length (st_env c3) = 3%nat /\ is_number c4 3 r.
Proof. exact ex_cancel. Qed.
(** (x + y) + z == x + (y + z) is false for 0.1+/-1, 0.2+/-1 and 0.3+/-1. *)
Theorem C06_binary64_refuted : exists u u', reachable (after sums3) /\ is_number (after sums3) 4 u /\ is_number (after sums3) 6 u' /\
  reads (after sums3) (ICmp Ceq 4 6) (OBool false) /\ reads (after sums3) (IStd 7) (ONum (N:=FN) f0).
Proof. exact f_sums. Qed.
Print Assumptions C06_binary64_refuted.
(** w - w for w = 0.1*v + 0.2*v + 0.3*v and v = ufloat(1, 1): 0 with a positive standard deviation. *)
Theorem C06_self_binary64_refuted : exists u u' x, reachable (after self_difference) /\ is_number (after self_difference) 8 u /\ is_number (after self_difference) 9 u' /\
  uf_nom u' = f0 /\ reads (after self_difference) (IStd 9) (ONum (N:=FN) x) /\ Bltb f0 x = true.
Proof. exact f_self. Qed.
Print Assumptions C06_self_binary64_refuted.
