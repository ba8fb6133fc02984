(** Vocabulary for statements about copies. Specification only. *)
From Coq Require Import ZArith List Bool Reals.
From Verif Require Import Base Heap Affine NumR HeapSpec Machine Calls History.
Import ListNotations.
Local Open Scope R_scope.

Section CopySpec.
Context {g lg : R -> R}.
Notation RN := (ROps g lg).
(** The tag of a variable. *)
Definition tag_of (st : state RN) (v : varid) : option nat :=
  match get_var (st_heap st) v with Some o => v_tag o | None => None end.
(** In [st'], result number [k] is a copy of result number [i] of [st] on other variables:
    variable [v] of the original has been replaced by the variable [rho v], which has the same
    standard deviation and tag. *)
Definition is_copy (rho : varid -> varid) (st st' : state RN) (i k : nat) : Prop :=
  (forall p, has_nominal st i p -> has_nominal st' k p) /\
  (forall s, reads st (IStd i) (ONum s) -> reads st' (IStd k) (ONum s)) /\
  (forall d, reads st (IDeriv i) (ODict d) ->
     exists d', reads st' (IDeriv k) (ODict d') /\
       (forall v x, dget d v = Some x ->
          dget d' (rho v) = Some x /\ sd st' (rho v) = sd st v /\ tag_of st' (rho v) = tag_of st v) /\
       (forall w, dget d' w <> None -> exists v, w = rho v /\ dget d v <> None)) /\
  (forall u v, is_number st i u -> uf_var u = Some v ->
     exists u', is_number st' k u' /\ uf_var u' = Some (rho v)).
(** The renaming gives distinct variables, on which none of the numbers of [st] depends. *)
Definition fresh_renaming (rho : varid -> varid) (st st' : state RN) : Prop :=
  (forall v w, rho v = rho w -> v = w) /\
  (forall j d v, (j < length (st_env st))%nat -> reads st' (IDeriv j) (ODict d) -> dget d (rho v) = None).
(** Result number [j] is the same in both states, as far as can be observed. *)
Definition unaffected (st st' : state RN) (j : nat) : Prop :=
  (forall p, has_nominal st j p <-> has_nominal st' j p) /\
  (forall o o', reads st (IDeriv j) o -> reads st' (IDeriv j) o' -> same_out o o') /\
  (forall o o', reads st (IStd j) o -> reads st' (IStd j) o' -> same_out o o') /\
  (forall o o', reads st (IErrs j) o -> reads st' (IErrs j) o' -> same_out o o').
End CopySpec.
