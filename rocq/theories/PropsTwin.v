(** Property theorems: copies in any arithmetic; quotients of ints in binary64. *)
From Coq Require Import ZArith List Bool Reals.
From Flocq Require Import Core BinarySingleNaN.
From Verif Require Import Base NumF Heap HeapSpec Affine Ops UMath Machine Cov Calls Unumpy UMatrix History FRefute DepSpec TwinSpec Twin BinProofs IntDiv ExAny ExTwin.
Import ListNotations.
Local Open Scope R_scope.

(** ** C32, C33 *)
(** C32 in any arithmetic: a deep copy of a calculated number has the same nominal value and exactly the same uncertainty, through new variables. *)
Theorem C32_deepcopy_any : forall (N : NumOps), forall (st : state N) i u d, reachable st -> is_number st i u -> uf_var u = None -> readable st i d ->
  let st' := fst (call_step st (CDeepcopy i)) in
  exists rho, renews rho st st' (fun v => In v (dkeys d)) /\ twin rho st st' i (length (st_env st)).
Proof. exact @deepcopy_twin. Qed.
Print Assumptions C32_deepcopy_any.
(** A sum of three variables in binary64, not calculated yet. *)
Example C32_deepcopy_any_example : reachable (after cors) /\ is_number (after cors) 6 (uf_at (after cors) 6) /\ uf_var (uf_at (after cors) 6) = None /\
  readable (after cors) 6 (dict_of_read (after cors) 6) /\ length (dict_of_read (after cors) 6) = 3%nat.
Proof. exact ex_deepcopy_t. Qed.
(** Its copy depends on new variables only. *)
Example C32_copied_keys_example : exists d, reads (fst (call_step (after cors) (CDeepcopy 6))) (IDeriv (length (st_env (after cors)))) (ODict (N:=FN) d) /\
  Forall (fun v => existing (after cors) v -> False) (dkeys d) /\ length d = length (dict_of_read (after cors) 6).
Proof. exact ex_copied_keys. Qed.
(** ... A copy or a deep copy of a variable is a new variable. *)
Theorem C32_copy_variable_any : forall (N : NumOps), forall (st : state N) c i u v, c = CCopy i \/ c = CDeepcopy i -> is_number st i u -> uf_var u = Some v ->
  readable st i [(v, n_one N)] -> snd (call_step st c) = ONone ->
  exists w, renews (fun _ => w) st (fst (call_step st c)) (fun x => x = v) /\ twin (fun _ => w) st (fst (call_step st c)) i (length (st_env st)).
Proof. exact @copy_variable_twin. Qed.
Print Assumptions C32_copy_variable_any.
(** The variable x = 1+/-3. *)
Example C32_copy_variable_any_example : is_number (after cors) 0 (uf_at (after cors) 0) /\ uf_var (uf_at (after cors) 0) = Some 0%nat /\
  readable (after cors) 0 [(0%nat, n_one FN)] /\ snd (call_step (after cors) (CCopy 0)) = ONone.
Proof. exact ex_copy_x. Qed.
(** ... A copy of a calculated number has the same variables. *)
Theorem C32_copy_calculated_any : forall (N : NumOps), forall (st : state N) i u d, reachable st -> is_number st i u -> uf_var u = None -> readable st i d ->
  twin (fun v => v) st (fst (call_step st (CCopy i))) i (length (st_env st)).
Proof. exact @copy_shares. Qed.
Print Assumptions C32_copy_calculated_any.
(** ... What is read of any other number does not change. *)
Theorem C32_unaffected_any : forall (N : NumOps), forall (st : state N) c i u d, reachable st -> (exists j, c = CCopy j \/ c = CDeepcopy j) \/ (exists js, c = CPickle js) ->
  is_number st i u -> readable st i d ->
  forall read o, attribute read -> reads st (read i) o -> reads (fst (call_step st c)) (read i) o.
Proof. exact @others_same. Qed.
Print Assumptions C32_unaffected_any.
(** The variables of numbers with a known history exist. *)
Theorem C32_existing_any : forall (N : NumOps), forall (st : state N) L i vs d u, history st L -> nth_error L i = Some (Some vs) -> is_number st i u ->
  reads st (IDeriv i) (ODict d) -> readable st i d.
Proof. exact @history_readable. Qed.
Print Assumptions C32_existing_any.
(** C33 in any arithmetic: the numbers of a list that is pickled and read back have exactly the same uncertainties, through new variables; the same new variable for the same variable. *)
Theorem C33_pickle_any : forall (N : NumOps), forall (st : state N) is, reachable st -> snd (call_step st (CPickle is)) = ONone ->
  let st' := fst (call_step st (CPickle is)) in
  exists rho,
    renews rho st st' (fun v => exists i u d, In i is /\ is_number st i u /\ readable st i d /\ (In v (dkeys d) \/ uf_var u = Some v)) /\
    forall n i u d, nth_error is n = Some i -> is_number st i u -> readable st i d -> twin rho st st' i (length (st_env st) + n).
Proof. exact @pickle_twin. Qed.
Print Assumptions C33_pickle_any.
(** t, x and q = x + y. *)
Example C33_pickle_any_example : reachable (after cors) /\ snd (call_step (after cors) (CPickle [6; 0; 2]%nat)) = ONone /\
  Forall (fun i => readable (after cors) i (dict_of_read (after cors) i)) [6; 0; 2]%nat.
Proof. exact ex_pickle_t. Qed.
(** ** C66 *)
(** C66: the quotient of two Python ints is rounded once. *)
Theorem C66_int_quotient : forall (lm : Libm) (a b : Z),
  (b = 0%Z /\ pn_div (N:=FOps lm) (PZ a) (PZ b) = Err EZeroDiv) \/
  (b <> 0%Z /\ bpow radix2 1024 <= Rabs (rnd64 (IZR a / IZR b)) /\ pn_div (N:=FOps lm) (PZ a) (PZ b) = Err EOverflow) \/
  (b <> 0%Z /\ exists r : f64, pn_div (N:=FOps lm) (PZ a) (PZ b) = Ok (PF (N:=FOps lm) r) /\ is_finite r = true /\ B2R r = rnd64 (IZR a / IZR b)).
Proof. exact int_quotient. Qed.
Print Assumptions C66_int_quotient.
(** (2**53 + 1) / 3. *)
Example C66_int_quotient_example : pn_div (N:=FOps lm0) (PZ (2 ^ 53 + 1)) (PZ 3) = Ok (PF (N:=FOps lm0) (fnorm ((2 ^ 53 + 1) / 3) 0)) /\
  Beqb (fdiv (fnorm (2 ^ 53 + 1) 0) (fnorm 3 0)) (fnorm ((2 ^ 53 + 1) / 3) 0) = false.
Proof. exact ex_int_quotient. Qed.
