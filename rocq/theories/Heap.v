(** Heap of LinearCombination and Variable objects, and the lazy expansion of linear
    combinations. No proofs in this file. *)
From Coq Require Import ZArith List Bool.
From Verif Require Import Base.
Import ListNotations.

Definition loc := nat.    (* identity of a LinearCombination object *)
Definition varid := nat.  (* identity of a Variable object *)

Section Heap.
Context {N : NumOps}.

(** Element of the list form of a linear combination. core.py 1512-1516 documents a list of
    (coefficient, LinearCombination) pairs; umath_core.py 399 (frexp) builds a list of a bare
    number and a bare LinearCombination, hence the other two cases. *)
Inductive item := IPair (c : pynum N) (l : loc) | INum (c : pynum N) | ILC (l : loc).

(** core.py 1487-1519: a LinearCombination object holds either a dict (expanded form) or a
    list. The list is stored with its last element first, because [expand] pops from the
    end. *)
Definition dict := list (varid * num N).
Inductive lc := LDict (d : dict) | LList (its : list item).

(** core.py 2715-2765: attributes of a Variable object. Tags are abstracted to numbers. *)
Record varobj := mkVar {
  v_nom : num N;         (* _nominal_value *)
  v_lp : loc;            (* _linear_part *)
  v_std : num N;         (* _std_dev *)
  v_tag : option nat     (* tag *)
}.

Record heap := mkHeap { h_lc : list lc; h_var : list varobj }.

Definition empty_heap : heap := mkHeap [] [].

Definition get_lc (h : heap) (l : loc) : lc := nth l (h_lc h) (LDict []).
Definition set_lc (h : heap) (l : loc) (x : lc) : heap :=
  mkHeap (list_set (h_lc h) l x) (h_var h).
(** LinearCombination(x), core.py 1506-1519: a new object. *)
Definition alloc_lc (h : heap) (x : lc) : loc * heap :=
  (length (h_lc h), mkHeap (h_lc h ++ [x]) (h_var h)).
Definition get_var (h : heap) (v : varid) : option varobj := nth_error (h_var h) v.

(** A computation that may mutate the heap even when it raises. *)
Definition M (A : Type) := heap -> res A * heap.
Definition ret {A} (a : A) : M A := fun h => (Ok a, h).
Definition raise {A} (e : exn) : M A := fun h => (Err e, h).
Definition lift {A} (r : res A) : M A := fun h => (r, h).
Definition bind {A B} (m : M A) (k : A -> M B) : M B :=
  fun h => match m h with
           | (Ok a, h') => k a h'
           | (Err e, h') => (Err e, h')
           end.

(** core.py 1527-1531: expanded(). *)
Definition expanded (x : lc) : bool := match x with LDict _ => true | LList _ => false end.
(** core.py 1521-1526: __bool__(). *)
Definition lc_truth (x : lc) : bool :=
  match x with LDict [] => false | LList [] => false | _ => true end.

(** main_factor*factor where factor is a float of a dict: a float, or OverflowError if
    main_factor is an int too large for a float. *)
Definition cmul (c : pynum N) (f : num N) : res (num N) :=
  rbind (pn_float c) (fun x => Ok (n_mul N x f)).

(** core.py 1567-1569: for (var, factor) in main_expr.linear_combo.items():
    derivatives[var] += main_factor*factor, [derivatives] being a defaultdict(float). *)
Fixpoint acc_dict (c : pynum N) (d : dict) (acc : dict) : res dict :=
  match d with
  | [] => Ok acc
  | (v, f) :: d' =>
      rbind (cmul c f) (fun x =>
        let old := match dget acc v with Some y => y | None => n_zero N end in
        acc_dict c d' (dset acc v (n_add N old x)))
  end.

(** core.py 1571-1574: for (factor, expr) in main_expr.linear_combo:
    self.linear_combo.append((main_factor*factor, expr)). [its] is in Python order; the result
    is the stack (last element first) and the exception that stopped the loop, if any. *)
Fixpoint push_items (c : pynum N) (its : list item) (stack : list item)
  : list item * option exn :=
  match its with
  | [] => (stack, None)
  | IPair c' l :: its' =>
      match pn_mul c c' with
      | Ok p => push_items c its' (IPair p l :: stack)
      | Err e => (stack, Some e)
      end
  | _ :: _ => (stack, Some EType)   (* cannot unpack: TypeError *)
  end.

(** core.py 1533-1577: the while loop of expand(), with the dict built so far. *)
Fixpoint expand_loop (fuel : nat) (l : loc) (acc : dict) : M unit :=
  fun h =>
  match fuel with
  | O => (Err EFuel, h)
  | S n =>
      match get_lc h l with
      | LDict [] => (Ok tt, set_lc h l (LDict acc))
      | LDict _ => (Err EType, h)   (* dict.pop() without argument; cannot happen
                                       when a single thread runs *)
      | LList [] => (Ok tt, set_lc h l (LDict acc))
      | LList (it :: rest) =>
          let h1 := set_lc h l (LList rest) in
          match it with
          | IPair c l' =>
              match get_lc h1 l' with
              | LDict d =>
                  match acc_dict c d acc with
                  | Ok acc' => expand_loop n l acc' h1
                  | Err e => (Err e, h1)
                  end
              | LList its =>
                  match push_items c (rev its) rest with
                  | (stack, None) => expand_loop n l acc (set_lc h1 l (LList stack))
                  | (stack, Some e) => (Err e, set_lc h1 l (LList stack))
                  end
              end
          | _ => (Err EType, h1)    (* cannot unpack the popped element: TypeError *)
          end
      end
  end.

(** core.py 1684-1703: the dict behind the derivatives property for a linear part. *)
Definition lc_derivatives (fuel : nat) (l : loc) : M dict :=
  fun h =>
  match get_lc h l with
  | LDict d => (Ok d, h)
  | LList _ =>
      match expand_loop fuel l [] h with
      | (Ok _, h') =>
          match get_lc h' l with
          | LDict d => (Ok d, h')
          | LList _ => (Err EAttr, h')   (* list has no default_factory attribute *)
          end
      | (Err e, h') => (Err e, h')
      end
  end.

End Heap.
Arguments item N : clear implicits.
Arguments dict N : clear implicits.
Arguments lc N : clear implicits.
Arguments varobj N : clear implicits.
Arguments heap N : clear implicits.
Arguments M N A : clear implicits.
