(** Specification of copies in any arithmetic, in terms of what is read. *)
From Coq Require Import ZArith List Bool.
From Verif Require Import Base Heap Affine Ops UMath Machine Cov Calls Unumpy UMatrix History DepSpec.
Import ListNotations.

Section TwinSpec.
Context {N : NumOps}.
(** Variables that exist in a state, and their tags. *)
Definition existing (st : state N) (v : varid) : Prop := get_var (st_heap st) v <> None.
Definition vtag (st : state N) (v : varid) : option nat :=
  match get_var (st_heap st) v with Some o => v_tag o | None => None end.

(** What is read, with other names for the variables. *)
Definition keys_as {A} (rho : varid -> varid) (l : list (varid * A)) : list (varid * A) :=
  map (fun p => (rho (fst p), snd p)) l.
Definition out_as (rho : varid -> varid) (o : out N) : out N :=
  match o with ODict d => ODict (keys_as rho d) | OErrs e => OErrs (keys_as rho e) | _ => o end.

(** The attributes and methods of a number that show its uncertainty. *)
Definition attribute (read : nat -> instr N) : Prop :=
  read = IDeriv \/ read = IErrs \/ read = IStd \/ read = IStdS \/ exists p, read = fun i => IScore i p.

(** The variables [rho v] of the state [st'] are new; they have the standard deviations and the tags of
    the variables [v] of the state [st]. *)
Definition renews (rho : varid -> varid) (st st' : state N) (vs : varid -> Prop) : Prop :=
  (forall v w, vs v -> vs w -> rho v = rho w -> v = w) /\
  forall v, vs v -> ~ existing st (rho v) /\ existing st' (rho v) /\ sd st' (rho v) = sd st v /\ vtag st' (rho v) = vtag st v.
(** Result [k] of the state [st'] has the nominal value of result [i] of [st], and everything that is
    read of it is the same, exactly, but for the names of the variables. *)
Definition twin (rho : varid -> varid) (st st' : state N) (i k : nat) : Prop :=
  exists u u', is_number st i u /\ is_number st' k u' /\ uf_nom u' = uf_nom u /\ uf_var u' = option_map rho (uf_var u) /\
  forall read o, attribute read -> reads st (read i) o -> reads st' (read k) (out_as rho o).
(** The uncertainty of result [i] can be read, and the variables on which it depends exist. *)
Definition readable (st : state N) (i : nat) (d : dict N) : Prop :=
  reads st (IDeriv i) (ODict d) /\ Forall (existing st) (dkeys d) /\
  forall u v, is_number st i u -> uf_var u = Some v -> existing st v.
End TwinSpec.
