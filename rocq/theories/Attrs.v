(** Attributes of the instances of subclasses of UFloat: how Python stores them (slots and
    __dict__), and how pickle and copy.copy() save and restore them through
    AffineScalarFunc.__getstate__ and __setstate__ (core.py 2376-2451). No proofs in this file.

    Simplifications: the class [object], which ends every MRO, is left out; metaclasses,
    __getattr__, __getattribute__ and __setattr__ of subclasses are not modelled; class
    attributes are plain values and read-only properties. *)
From Coq Require Import Ascii String List Bool Arith Permutation.
From Verif Require Import Base.
Import ListNotations.
Local Open Scope res_scope.
Local Open Scope string_scope.

(** The value of __slots__ in a class body (core.py 2423-2428): one name, names in a
    container, or names given by an iterator, which Python exhausts when it creates the class. *)
Inductive slots := SName (s : string) | SNames (l : list string) | SOnce (l : list string).

(** Names of the slots that Python creates (type.__new__). *)
Definition declared (s : slots) : list string :=
  match s with SName n => [n] | SNames l => l | SOnce l => l end.
(** Names which the iteration of __getstate__ on __slots__ gives after the class is created
    (core.py 2423-2428). *)
Definition listed (s : slots) : list string :=
  match s with SName n => [n] | SNames l => l | SOnce _ => [] end.

Fixpoint assoc {A} (n : string) (l : list (string * A)) : option A :=
  match l with [] => None | (m, a) :: l' => if String.eqb n m then Some a else assoc n l' end.
(** d[n] = a for a dictionary. *)
Fixpoint put {A} (n : string) (a : A) (l : list (string * A)) : list (string * A) :=
  match l with
  | [] => [(n, a)]
  | (m, b) :: l' => if String.eqb n m then (m, a) :: l' else (m, b) :: put n a l'
  end.
Definition mem (n : string) (l : list string) : bool := existsb (String.eqb n) l.

(** Private names: __x in the class C becomes _C__x (Python reference, 6.2.1). *)
Fixpoint strip (s : string) : string :=
  match s with String "_"%char s' => strip s' | _ => s end.
Definition ends_dunder (s : string) : bool :=
  let n := String.length s in
  Nat.leb 2 n && String.eqb (substring (n - 2) 2 s) "__".
Definition private (s : string) : bool := String.prefix "__" s && negb (ends_dunder s).
Definition mangle (c s : string) : string :=
  if private s then match strip c with EmptyString => s | c' => "_" ++ c' ++ s end else s.

Section Attrs.
Variable V : Type.        (* Python objects *)
Variable vnone : V.       (* None *)

(** Attributes in class bodies: values (and functions), properties without setter. *)
Inductive cattr := CPlain (v : V) | CProp (v : V).
Record class := mkClass {
  c_name : string;
  c_slots : option slots;               (* __slots__ of the class body, if any *)
  c_attrs : list (string * cattr);
  c_mro : list nat                      (* the class itself first *)
}.
(** The classes of the program. *)
Variable T : nat -> class.

(** The dictionaries that instances have as __dict__. *)
Definition dloc := nat.
Definition heap := list (list (string * V)).
Definition dict_at (h : heap) (d : dloc) : list (string * V) := nth d h [].
Definition dict_put (h : heap) (d : dloc) (n : string) (v : V) : heap :=
  (firstn d h ++ put n v (dict_at h d) :: skipn (S d) h)%list.

(** An instance: its class, its slots (each belongs to the class that declares it) and its
    __dict__ if any. *)
Record obj := mkObj {
  o_class : nat;
  o_slots : nat -> string -> option V;
  o_dict : option dloc
}.
(** The value of an attribute; __dict__ gives the dictionary itself. *)
Inductive aval := AV (v : V) | AD (d : dloc).

Definition mro (c : nat) : list nat := c_mro (T c).
Definition own (k : nat) : list string :=
  match c_slots (T k) with None => [] | Some s => declared s end.
(** Instances have a __dict__ if a class of the hierarchy has no __slots__, or lists __dict__
    in it; same for __weakref__ (Python reference, 3.3.2.4). *)
Definition gives (w : string) (k : nat) : bool :=
  match c_slots (T k) with None => true | Some s => mem w (declared s) end.
Definition has_dict (c : nat) : bool := existsb (gives "__dict__") (mro c).
Definition has_weakref (c : nat) : bool := existsb (gives "__weakref__") (mro c).
(** The descriptors created for the slots. *)
Definition special (n : string) : bool := String.eqb n "__dict__" || String.eqb n "__weakref__".
Definition descriptors (k : nat) : list string :=
  map (mangle (c_name (T k))) (filter (fun n => negb (special n)) (own k)).

(** What a name designates in the classes: first class of the MRO that has it. *)
Inductive found := FSlot (k : nat) | FAttr (a : cattr) | FNone.
Fixpoint lookup (l : list nat) (n : string) : found :=
  match l with
  | [] => FNone
  | k :: l' =>
      if mem n (descriptors k) then FSlot k
      else match assoc n (c_attrs (T k)) with Some a => FAttr a | None => lookup l' n end
  end.

Definition in_dict (h : heap) (o : obj) (n : string) : option V :=
  match o_dict o with Some d => assoc n (dict_at h d) | None => None end.

(** getattr(o, n) (object.__getattribute__). *)
Definition getattr (h : heap) (o : obj) (n : string) : res aval :=
  if String.eqb n "__dict__" then match o_dict o with Some d => Ok (AD d) | None => Err EAttr end
  else if String.eqb n "__weakref__" then if has_weakref (o_class o) then Ok (AV vnone) else Err EAttr
  else match lookup (mro (o_class o)) n with
  | FSlot k => match o_slots o k n with Some v => Ok (AV v) | None => Err EAttr end
  | FAttr (CProp v) => Ok (AV v)
  | FAttr (CPlain v) => match in_dict h o n with Some w => Ok (AV w) | None => Ok (AV v) end
  | FNone => match in_dict h o n with Some w => Ok (AV w) | None => Err EAttr end
  end.

Definition set_slot (o : obj) (k : nat) (n : string) (v : V) : obj :=
  mkObj (o_class o) (fun k' n' => if Nat.eqb k k' && String.eqb n n' then Some v else o_slots o k' n') (o_dict o).
(** setattr(o, n, a) (object.__setattr__). A __dict__ must be a dictionary: TypeError
    otherwise. An attribute whose value is a __dict__ is only met for the name __dict__. *)
Definition setattr (h : heap) (o : obj) (n : string) (a : aval) : res (heap * obj) :=
  if String.eqb n "__dict__" then
    match a, o_dict o with
    | AD d, Some _ => Ok (h, mkObj (o_class o) (o_slots o) (Some d))
    | AV _, Some _ => Err EType
    | _, None => Err EAttr
    end
  else if String.eqb n "__weakref__" then Err EAttr
  else match a with
  | AD _ => Err EType
  | AV v =>
      match lookup (mro (o_class o)) n with
      | FSlot k => Ok (h, set_slot o k n v)
      | FAttr (CProp _) => Err EAttr
      | FAttr (CPlain _) | FNone =>
          match o_dict o with Some d => Ok (dict_put h d n v, o) | None => Err EAttr end
      end
  end.

(** getattr(cls, '__slots__', ()) (core.py 2409-2421): inherited if the class has none. *)
Fixpoint slots_attr (l : list nat) : list string :=
  match l with
  | [] => []
  | k :: l' => match c_slots (T k) with Some s => listed s | None => slots_attr l' end
  end.
(** core.py 2415-2428: all_slots, a set; [order] is its order of iteration. *)
Variable order : list string -> list string.
Definition all_slots (c : nat) : list string :=
  order (nodup string_dec (flat_map (fun k => slots_attr (mro k)) (mro c))).

(** core.py 2430-2439. *)
Definition add_slot (h : heap) (o : obj) (st : list (string * aval)) (n : string) : list (string * aval) :=
  match getattr h o n with Ok a => put n a st | Err _ => st end.
(** AffineScalarFunc.__getstate__ (core.py 2376-2441). *)
Definition getstate (h : heap) (o : obj) : list (string * aval) :=
  let st := match getattr h o "__dict__" with Ok a => [("__dict__", a)] | Err _ => [] end in
  fold_left (add_slot h o) (all_slots (o_class o)) st.

(** AffineScalarFunc.__setstate__ (core.py 2443-2451). *)
Fixpoint setstate (h : heap) (o : obj) (st : list (string * aval)) : res (heap * obj) :=
  match st with
  | [] => Ok (h, o)
  | (n, a) :: st' => x <- setattr h o n a ;; setstate (fst x) (snd x) st'
  end.

(** cls.__new__(cls): empty slots, empty __dict__. *)
Definition new (h : heap) (c : nat) : heap * obj :=
  if has_dict c then ((h ++ [[]])%list, mkObj c (fun _ _ => None) (Some (List.length h)))
  else (h, mkObj c (fun _ _ => None) None).

(** copy.copy(o): copyreg.__newobj__ and __setstate__ with the state itself. *)
Definition shallow (h : heap) (o : obj) : res (heap * obj) :=
  let st := getstate h o in
  let '(h', o') := new h (o_class o) in setstate h' o' st.

(** pickle.loads(pickle.dumps(o)): same, with the state recreated. [p] says what pickle makes
    of the values; dictionaries are recreated with the same keys. *)
Variable p : V -> V.
Definition redict (d : list (string * V)) : list (string * V) := map (fun x => (fst x, p (snd x))) d.
Fixpoint restate (h : heap) (st : list (string * aval)) : heap * list (string * aval) :=
  match st with
  | [] => (h, [])
  | (n, AV v) :: st' => let '(h', s) := restate h st' in (h', (n, AV (p v)) :: s)
  | (n, AD d) :: st' =>
      let '(h', s) := restate (h ++ [redict (dict_at h d)])%list st' in (h', (n, AD (List.length h)) :: s)
  end.
Definition pickled (h : heap) (o : obj) : res (heap * obj) :=
  let '(h1, st) := restate h (getstate h o) in
  let '(h2, o') := new h1 (o_class o) in setstate h2 o' st.
End Attrs.

Arguments CPlain {V}. Arguments CProp {V}. Arguments mkClass {V}.
Arguments c_name {V}. Arguments c_slots {V}. Arguments c_attrs {V}. Arguments c_mro {V}.
Arguments mkObj {V}. Arguments o_class {V}. Arguments o_slots {V}. Arguments o_dict {V}.
Arguments AV {V}. Arguments AD {V}. Arguments dict_at {V}. Arguments dict_put {V}.
Arguments mro {V}. Arguments own {V}. Arguments gives {V}. Arguments has_dict {V}. Arguments has_weakref {V}.
Arguments descriptors {V}. Arguments FSlot {V}. Arguments FAttr {V}. Arguments FNone {V}.
Arguments lookup {V}. Arguments in_dict {V}. Arguments getattr {V}. Arguments set_slot {V}. Arguments setattr {V}.
Arguments slots_attr {V}. Arguments all_slots {V}. Arguments add_slot {V}. Arguments getstate {V}.
Arguments setstate {V}. Arguments new {V}. Arguments shallow {V}. Arguments redict {V}. Arguments restate {V}. Arguments pickled {V}.
