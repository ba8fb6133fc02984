(** Vocabulary for threads that read derivatives: which linear combinations a read uses, and
    when reads interfere. *)
From Coq Require Import ZArith List Bool.
From Verif Require Import Base Heap Affine Machine History Conc.
Import ListNotations.

Section ConcSpec.
Context {N : NumOps}.

(** [l'] is used by the calculation that led to [l] (or is [l]): some path of terms of
    unexpanded linear combinations leads to it. *)
Inductive uses (h : heap N) : loc -> loc -> Prop :=
| uses_self : forall l, uses h l l
| uses_term : forall l its c l1 l', get_lc h l = LList its -> In (IPair c l1) its ->
    uses h l1 l' -> uses h l l'.

(** Terms refer to linear combinations created before. *)
Definition ordered (h : heap N) : Prop :=
  forall l its c l', get_lc h l = LList its -> In (IPair c l') its -> (l' < l)%nat.

(** Thread [t] reads a number while the others read numbers which are already expanded or are
    not used by it. *)
Definition undisturbed (h : heap N) (ls : list loc) (t : nat) : Prop :=
  forall l t' l', nth_error ls t = Some l -> nth_error ls t' = Some l' -> t' <> t ->
    uses h l l' -> expanded (get_lc h l') = true.

(** Number of accesses of thread [t]. *)
Fixpoint runs_of (t : nat) (es : list event) : nat :=
  match es with
  | [] => 0%nat
  | Run t' :: es' => if Nat.eqb t' t then S (runs_of t es') else runs_of t es'
  | Interrupt _ :: es' => runs_of t es'
  end.
Definition interrupted (t : nat) (es : list event) : Prop := In (Interrupt t) es.

(** The threads that read the derivatives of the results numbered [is], after the events [es]:
    the memory, and what thread [t] has obtained, if it is finished. *)
Definition linear_parts (us : list (uf N)) : list loc := map (uf_lp (N:=N)) us.
Definition threads_run (st : state N) (us : list (uf N)) (es : list event) : cheap N * threads N :=
  cexec (of_heap (st_heap st), start (linear_parts us)) es.
Definition obtains (st : state N) (us : list (uf N)) (es : list event) (t : nat) (r : res (dict N))
  : Prop :=
  option_map snd (nth_error (snd (threads_run st us es)) t) = Some (PDone r).

(** The state of the program once the events [es] have happened and nothing else happens in the
    threads. *)
Definition settle (h : heap N) (c : cheap N) : heap N :=
  mkHeap (map (fun l => match c_bound c l with
                        | Some d => LDict d
                        | None => LList (c_list c l)
                        end) (seq 0 (length (h_lc h)))) (h_var h).
Definition afterwards (st : state N) (us : list (uf N)) (es : list event) : state N :=
  mkState (settle (st_heap st) (fst (threads_run st us es))) (st_env st).

(** The read of a number is not disturbed by threads that read [us]: it does not use any of
    them, except those that are expanded. *)
Definition unrelated (st : state N) (u : uf N) (us : list (uf N)) : Prop :=
  forall u', In u' us -> uses (st_heap st) (uf_lp u) (uf_lp u') ->
    expanded (get_lc (st_heap st) (uf_lp u')) = true.
Definition out_of (r : res (dict N)) : out N :=
  match r with Ok d => Machine.ODict d | Err e => OExn e end.
End ConcSpec.
