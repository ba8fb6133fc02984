(** Property theorems: what has been read of a number does not change, in any arithmetic; variables in binary64. *)
From Coq Require Import ZArith List Bool Reals.
From Flocq Require Import Core BinarySingleNaN.
From Verif Require Import Base NumF Heap HeapSpec Affine Ops UMath Machine Cov Calls Unumpy UMatrix History FRefute BinStd TwinSpec StaySpec Twin Stay StayF.
Import ListNotations.
Local Open Scope R_scope.

(** ** C79 *)
(** C79: derivatives that have been read are read again, exactly, whatever has happened in between. *)
Theorem C79_derivatives : forall (N : NumOps), forall (st0 st st' : state N) i u d, reachable st0 -> is_number st0 i u -> does st0 (IDeriv i) st (ODict d) -> afterwards st st' ->
  is_number st' i u /\ does st' (IDeriv i) st' (ODict d).
Proof. exact @derivatives_stay. Qed.
Print Assumptions C79_derivatives.
(** ... and so are the other attributes, as long as the standard deviations of the variables are the same. *)
Theorem C79_attributes : forall (N : NumOps), forall (st0 st st' : state N) i u d, reachable st0 -> is_number st0 i u -> does st0 (IDeriv i) st (ODict d) -> readable st i d -> afterwards st st' ->
  (forall v, In v (dkeys d) \/ uf_var u = Some v -> sd st' v = sd st v) ->
  forall read o, attribute read -> reads st (read i) o -> reads st' (read i) o.
Proof. exact @attributes_stay. Qed.
Print Assumptions C79_attributes.
(** z = x*y is read; then x.std_dev = 2 and t = z*z. *)
Example C79_example : reachable zs /\ is_number zs 2 (uf_at zs 2) /\ does zs (IDeriv 2) zr (ODict (N:=FN) z_dict) /\ afterwards zr zt /\ length z_dict = 2%nat.
Proof. exact ex_stay. Qed.
(** ... A variable always depends on itself only, with the derivative 1, and its standard deviation is the last one that was set. *)
Theorem C79_variable : forall (N : NumOps), forall (st st1 st' : state N) n s tag, does st (INew n s tag) st1 ONone -> afterwards st1 st' ->
  exists u v, is_number st' (length (st_env st)) u /\ uf_var u = Some v /\ pn_float n = Ok (uf_nom u) /\ ~ existing st v /\
    does st' (IDeriv (length (st_env st))) st' (ODict [(v, n_one N)]) /\ readable st' (length (st_env st)) [(v, n_one N)] /\ reads st' (IStd (length (st_env st))) (ONum (sd st' v)).
Proof. exact @variable_stays. Qed.
Print Assumptions C79_variable.
(** ... Numbers do not disappear and their nominal values do not change. *)
Theorem C79_numbers : forall (N : NumOps), forall (st st' : state N) i u, afterwards st st' -> is_number st i u -> is_number st' i u.
Proof. exact @number_stays. Qed.
Print Assumptions C79_numbers.
(** ** C13 *)
(** C13 in binary64: variables that are equal have the same hash, if their standard deviations are between 1e-140 and 1e140. *)
Theorem C13_binary64 : forall lm, squares_ok lm -> forall (s1 s1' s2 s2' st : state (FOps lm)) n1 e1 t1 n2 e2 t2 u w,
  reachable st -> does s1 (INew n1 e1 t1) s1' ONone -> afterwards s1' st -> does s2 (INew n2 e2 t2) s2' ONone -> afterwards s2' st ->
  is_number st (length (st_env s1)) u -> is_number st (length (st_env s2)) w -> is_finite (uf_nom u : f64) = true -> is_finite (uf_nom w : f64) = true ->
  (forall v, uf_var u = Some v \/ uf_var w = Some v -> is_finite (sd st v : f64) = true /\ / 10 ^ 140 <= Rabs (B2R (sd st v : f64)) <= 10 ^ 140) ->
  exists b, reads st (ICmp Ceq (length (st_env s1)) (length (st_env s2))) (OBool b) /\
    (b = true <-> py_hash u = py_hash w /\ B2R (uf_nom u : f64) = B2R (uf_nom w : f64)).
Proof. exact variables_hash. Qed.
Print Assumptions C13_binary64.
(** x = ufloat(1, 3), y = ufloat(1, 1). *)
Example C13_binary64_example : squares_ok lm0 /\ reachable vy /\ does init (INew (fl 1 0) (fl 3 0) None) vx ONone /\ afterwards vx vy /\ does vx (INew (fl 1 0) (fl 1 0) None) vy ONone /\ afterwards vy vy /\
  exists u w, is_number vy 0 u /\ is_number vy 1 w /\ is_finite (uf_nom u : f64) = true /\ is_finite (uf_nom w : f64) = true /\
  (forall v, uf_var u = Some v \/ uf_var w = Some v -> is_finite (sd vy v : f64) = true /\ / 10 ^ 140 <= Rabs (B2R (sd vy v : f64)) <= 10 ^ 140).
Proof. exact ex_variables. Qed.
(** Two variables with a standard deviation of 2**-600 are equal and have different hashes. *)
Theorem C13_binary64_refuted : exists u u', reachable (after small_twins) /\ is_number (after small_twins) 0 u /\
  is_number (after small_twins) 1 u' /\ Bltb f0 (sd (after small_twins) 0%nat : f64) = true /\ Bltb f0 (sd (after small_twins) 1%nat : f64) = true /\
  reads (after small_twins) (ICmp Ceq 0 1) (OBool true) /\ py_hash u <> py_hash u'.
Proof. exact small_hash. Qed.
Print Assumptions C13_binary64_refuted.
