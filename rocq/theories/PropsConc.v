(** Property theorems about interrupted and concurrent reads. *)
From Coq Require Import ZArith List Bool.
From Flocq Require Import BinarySingleNaN.
From Verif Require Import Base Heap Affine Machine History Conc ConcSpec ConcThm NumF FRefute FConc.
Import ListNotations.

(** ** C35 *)
(** C35, in any arithmetic (binary64 included): a thread that reads the derivatives of a number, while other threads read numbers that it does not use or that are already expanded, and are possibly interrupted, obtains exactly the sequential result, whatever the interleaving; it does obtain it after enough accesses; later reads give the same result. Partial: the unrestricted statement is false, see below. *)
Theorem C35_concurrent_read_partial : forall (N : NumOps), forall (st : state N) us t i u r, reachable st ->
  is_number st i u -> nth_error us t = Some u ->
  (forall t' u', t' <> t -> nth_error us t' = Some u' -> unrelated st u [u']) ->
  reads st (IDeriv i) (out_of r) -> r <> Err EFuel ->
  exists m, forall es, ~ interrupted t es ->
    (forall r', obtains st us es t r' -> r' = r /\
      (forall d, r = Ok d -> reads (afterwards st us es) (IDeriv i) (out_of r))) /\
    ((m <= runs_of t es)%nat -> obtains st us es t r).
Proof. exact @concurrent_read. Qed.
Print Assumptions C35_concurrent_read_partial.
(** A number whose derivatives have been read is expanded: it can be read by any number of threads. *)
Theorem C35_expanded : forall (N : NumOps), forall (st : state N) i u st' d, is_number st i u ->
  reachable st -> does st (IDeriv i) st' (Machine.ODict d) ->
  expanded (get_lc (st_heap st') (uf_lp u)) = true.
Proof. exact @read_expands. Qed.
Print Assumptions C35_expanded.
(** y = 2*x and w = 2*x. *)
Example C35_example : exists u w d, reachable (after fork) /\ is_number (after fork) 2 u /\
  is_number (after fork) 3 w /\ expanded (get_lc (st_heap (after fork)) (uf_lp u)) = false /\
  unrelated (after fork) u [w] /\ unrelated (after fork) w [u] /\ reads (after fork) (IDeriv 2) (out_of (Ok d)).
Proof. exact ex_fork. Qed.
(** x = ufloat(1, 1), y = 2*x, z = 2*y: y and z are uncertain. *)
Theorem C35_sequential : reachable (after chain) /\ is_number (after chain) 2 (num_at 2) /\
  is_number (after chain) 3 (num_at 3) /\
  (exists x, reads (after chain) (IStd 2) (ONum (N:=FN) x) /\ Bltb f0 x = true) /\
  (exists x, reads (after chain) (IStd 3) (ONum (N:=FN) x) /\ Bltb f0 x = true).
Proof. exact chain_uncertain. Qed.
Print Assumptions C35_sequential.
(** Two threads read y: one obtains {}, and y has lost its uncertainty afterwards. *)
Theorem C35_same_number_refuted : (forall t, ~ interrupted t race) /\ obtains (after chain) both_y race 1 (Ok []) /\
  reads (afterwards (after chain) both_y race) (IStd 2) (ONum (N:=FN) f0).
Proof. exact f_race. Qed.
Print Assumptions C35_same_number_refuted.
(** Another interleaving: IndexError. *)
Theorem C35_exception_refuted : (forall t, ~ interrupted t race_index) /\
  obtains (after chain) both_y race_index 0 (Err EIndex).
Proof. exact f_race_index. Qed.
Print Assumptions C35_exception_refuted.
(** One thread reads z and the other y: z has lost its uncertainty afterwards. *)
Theorem C35_shared_refuted : (forall t, ~ interrupted t race_shared) /\
  obtains (after chain) z_and_y race_shared 0 (Ok []) /\
  reads (afterwards (after chain) z_and_y race_shared) (IStd 3) (ONum (N:=FN) f0).
Proof. exact f_race_shared. Qed.
Print Assumptions C35_shared_refuted.
(** ** C34 *)
(** C34, in any arithmetic: whatever reads are interrupted, numbers that do not use what was being read (or use it expanded) are not affected. Partial: the unrestricted statement is false, see below. *)
Theorem C34_unrelated_partial : forall (N : NumOps), forall (st : state N) us es i u r, reachable st ->
  is_number st i u -> unrelated st u us ->
  reads st (IDeriv i) (out_of r) -> r <> Err EFuel ->
  reads (afterwards st us es) (IDeriv i) (out_of r).
Proof. exact @unrelated_read. Qed.
Print Assumptions C34_unrelated_partial.
Example C34_example : exists u w d, reachable (after fork) /\ is_number (after fork) 2 u /\
  is_number (after fork) 3 w /\ expanded (get_lc (st_heap (after fork)) (uf_lp u)) = false /\
  unrelated (after fork) u [w] /\ unrelated (after fork) w [u] /\ reads (after fork) (IDeriv 2) (out_of (Ok d)).
Proof. exact ex_fork. Qed.
(** The read of y is interrupted: y has lost its uncertainty afterwards. *)
Theorem C34_interrupted_refuted : obtains (after chain) [num_at 2] stopped 0 (Err EInterrupt) /\
  reads (afterwards (after chain) [num_at 2] stopped) (IStd 2) (ONum (N:=FN) f0).
Proof. exact f_interrupted. Qed.
Print Assumptions C34_interrupted_refuted.
