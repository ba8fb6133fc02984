(** Reads of derivatives by several threads, and reads that are interrupted: the expansion of
    linear combinations (core.py 1533-1577 and 1684-1703) at the granularity of accesses to
    shared objects. No proofs in this file. *)
From Coq Require Import ZArith List Bool.
From Verif Require Import Base Heap.
Import ListNotations.

Section Conc.
Context {N : NumOps}.

(** Shared memory: the list object given to each LinearCombination when it was created (last
    element first, as in Heap.v), and the dict that replaced it in the attribute linear_combo,
    if any. The list object survives the replacement: a thread may still hold it. *)
Record cheap := mkC { c_list : loc -> list (item N); c_bound : loc -> option (dict N) }.

Definition of_heap (h : heap N) : cheap :=
  mkC (fun l => match get_lc h l with LList its => its | LDict _ => [] end)
      (fun l => match get_lc h l with LDict d => Some d | LList _ => None end).

Definition upd {A} (f : loc -> A) (l : loc) (x : A) : loc -> A :=
  fun l' => if Nat.eqb l' l then x else f l'.
Definition set_list (c : cheap) (l : loc) (x : list (item N)) : cheap :=
  mkC (upd (c_list c) l x) (c_bound c).
Definition set_bound (c : cheap) (l : loc) (d : dict N) : cheap :=
  mkC (c_list c) (upd (c_bound c) l (Some d)).

(** What an evaluation of the attribute linear_combo gives: the list object of a
    LinearCombination, or a dict. A dict is never modified once it is in the attribute (core.py
    1700 only resets its default factory). *)
Inductive obj := OList (l : loc) | ODct (d : dict N).
Definition load (c : cheap) (l : loc) : obj :=
  match c_bound c l with Some d => ODct d | None => OList l end.
Definition obj_truth (c : cheap) (o : obj) : bool :=
  match o with
  | OList l => match c_list c l with [] => false | _ => true end
  | ODct d => match d with [] => false | _ => true end
  end.

(** Where a thread is in x.derivatives. [acc] is its local dict (core.py 1548). *)
Inductive pc :=
| PStart                                     (* if not self._linear_part.expanded()   1695 *)
| PLoad (acc : dict N)                       (* while self.linear_combo               1550 *)
| PTest (acc : dict N) (o : obj)
| PLoadPop (acc : dict N)                    (* self.linear_combo.pop()               1562 *)
| PPop (acc : dict N) (o : obj)
| PCheck (acc : dict N) (c : pynum N) (l' : loc)      (* if main_expr.expanded()      1566 *)
| PLoadDict (acc : dict N) (c : pynum N) (l' : loc)   (* main_expr.linear_combo.items() 1567 *)
| PDict (acc : dict N) (c : pynum N) (d : dict N)     (* derivatives[var] += ...      1568 *)
| PLoadIter (acc : dict N) (c : pynum N) (l' : loc)   (* in main_expr.linear_combo    1571 *)
| PIter (acc : dict N) (c : pynum N) (o : obj) (i : nat)  (* next element             1571 *)
| PLoadApp (acc : dict N) (c : pynum N) (o : obj) (i : nat) (c' : pynum N) (l'' : loc)
                                             (* self.linear_combo.append              1573 *)
| PApp (acc : dict N) (c : pynum N) (o : obj) (i : nat) (c' : pynum N) (l'' : loc) (l1 : loc)
                                             (* call of append                        1573 *)
| PPublish (acc : dict N)                    (* self.linear_combo = derivatives       1577 *)
| PReturn                                    (* return self._linear_part.linear_combo 1702 *)
| PDone (r : res (dict N)).

(** One access of a thread that reads the derivatives of a number with linear part [l]. *)
Definition tstep (l : loc) (c : cheap) (p : pc) : cheap * pc :=
  match p with
  | PStart => (c, match c_bound c l with Some _ => PReturn | None => PLoad [] end)
  | PLoad acc => (c, PTest acc (load c l))
  | PTest acc o => (c, if obj_truth c o then PLoadPop acc else PPublish acc)
  | PLoadPop acc => (c, PPop acc (load c l))
  | PPop acc (ODct _) => (c, PDone (Err EType))      (* dict.pop() without argument *)
  | PPop acc (OList l0) =>
      match c_list c l0 with
      | [] => (c, PDone (Err EIndex))                (* pop from empty list *)
      | it :: rest =>
          (set_list c l0 rest,
           match it with
           | IPair f l' => PCheck acc f l'
           | _ => PDone (Err EType)                  (* cannot unpack *)
           end)
      end
  | PCheck acc f l' =>
      (c, match c_bound c l' with Some _ => PLoadDict acc f l' | None => PLoadIter acc f l' end)
  | PLoadDict acc f l' =>
      (c, match load c l' with
          | ODct d => PDict acc f d
          | OList _ => PDone (Err EAttr)             (* list has no items() *)
          end)
  | PDict acc f [] => (c, PLoad acc)
  | PDict acc f ((v, x) :: d) =>
      (c, match cmul f x with
          | Ok y =>
              let old := match dget acc v with Some z => z | None => n_zero N end in
              PDict (dset acc v (n_add N old y)) f d
          | Err e => PDone (Err e)
          end)
  | PLoadIter acc f l' => (c, PIter acc f (load c l') 0)
  | PIter acc f (ODct d) i =>
      (* the elements of a dict are variables: cannot unpack *)
      (c, match d with [] => PLoad acc | _ => PDone (Err EType) end)
  | PIter acc f (OList l0) i =>
      (c, match nth_error (rev (c_list c l0)) i with
          | None => PLoad acc
          | Some (IPair f' l'') => PLoadApp acc f (OList l0) (S i) f' l''
          | Some _ => PDone (Err EType)
          end)
  | PLoadApp acc f o i f' l'' =>
      (c, match load c l with
          | OList l1 => PApp acc f o i f' l'' l1
          | ODct _ => PDone (Err EAttr)              (* dict has no append *)
          end)
  | PApp acc f o i f' l'' l1 =>
      match pn_mul f f' with
      | Ok p => (set_list c l1 (IPair p l'' :: c_list c l1), PIter acc f o i)
      | Err e => (c, PDone (Err e))
      end
  | PPublish acc => (set_bound c l acc, PReturn)
  | PReturn =>
      (c, PDone (match c_bound c l with Some d => Ok d | None => Err EAttr end))
  | PDone r => (c, PDone r)
  end.

(** Threads: the linear part each one reads, and where it is. *)
Definition threads := list (loc * pc).
Definition start (ls : list loc) : threads := map (fun l => (l, PStart)) ls.

(** What the scheduler and the environment do: let thread [t] make one access, or raise an
    exception in it (KeyboardInterrupt, MemoryError). *)
Inductive event := Run (t : nat) | Interrupt (t : nat).

Definition cstep (s : cheap * threads) (e : event) : cheap * threads :=
  let (c, ths) := s in
  match e with
  | Run t =>
      match nth_error ths t with
      | Some (l, p) => let (c', p') := tstep l c p in (c', list_set ths t (l, p'))
      | None => (c, ths)
      end
  | Interrupt t =>
      match nth_error ths t with
      | Some (l, PDone r) => (c, ths)
      | Some (l, _) => (c, list_set ths t (l, PDone (Err EInterrupt)))
      | None => (c, ths)
      end
  end.
Definition cexec (s : cheap * threads) (es : list event) : cheap * threads := fold_left cstep es s.
End Conc.
Arguments cheap N : clear implicits.
Arguments obj N : clear implicits.
Arguments pc N : clear implicits.
Arguments threads N : clear implicits.
