(** Vocabulary for the property about the code updater: calls, obsolete calls and their
    replacement, independently of patterns. *)
From Coq Require Import String.
From Coq Require Import List.
From Verif Require Import Fixer.
Import ListNotations.
Local Open Scope string_scope.
Local Open Scope list_scope.

(** A name; the attribute access .f; (...) with the given content. *)
Definition name (f : string) (t : tree) : Prop := exists p, t = Leaf NAME p f.
Definition attr (f : string) (t : tree) : Prop :=
  exists p q, t = Node trailer [Leaf DOT p "."; Leaf NAME q f].
Definition parens (ty : sym) (l : list tree) (t : tree) : Prop :=
  exists p q, t = Node ty (Leaf LPAR p "(" :: l ++ [Leaf RPAR q ")"]).
Definition is_comma (t : tree) : Prop := exists p, t = Leaf COMMA p ",".
(** Elements separated by commas. *)
Inductive commas : list tree -> list tree -> Prop :=
| commas_one : forall a, commas [a] [a]
| commas_more : forall a c l ts, is_comma c -> commas l ts -> commas (a :: l) (a :: c :: ts).
(** A call with these arguments. *)
Inductive call : list tree -> tree -> Prop :=
| call_none : forall t, parens trailer [] t -> call [] t
| call_one : forall a t, (forall ch, a <> Node arglist ch) -> parens trailer [a] t -> call [a] t
| call_list : forall a b l ts t, commas (a :: b :: l) ts -> parens trailer [Node arglist ts] t ->
    call (a :: b :: l) t.
(** The same in the trees that the updater makes. *)
Definition new_call (l : list tree) (t : tree) : Prop :=
  exists ts, commas l ts /\ parens trailer [Node arglist ts] t.
(** Keyword arguments, *sequence, **mapping, generators. *)
Definition special (t : tree) : Prop := exists ch, t = Node argument ch.
(** A call with a sequence of arguments: f( *a). *)
Definition star_call (a t : tree) : Prop :=
  exists ty p, parens trailer [Node arglist [Leaf ty p "*"; a]] t.
(** (a, b). *)
Definition pair (a b t : tree) : Prop :=
  exists ts, parens atom [Node testlist_gexp ts] t /\ commas [a; b] ts.
Definition string_literal (t : tree) : Prop := exists p s, t = Leaf STRING p s.

(** A power expression that starts with a call of f or module.f: what comes before the
    arguments, the arguments, the rest. *)
Inductive starts (f : string) : list tree -> tree -> list tree -> list tree -> Prop :=
| starts_name : forall n c rest, name f n -> starts f [n] c rest (n :: c :: rest)
| starts_attr : forall m x a c rest, name x m -> attr f a -> starts f [m; a] c rest (m :: a :: c :: rest).

(** ** Obsolete calls at the beginning of a power expression *)
Inductive obsolete_start : list tree -> Prop :=
| os_tuple : forall fs c rest ch t a b, starts "ufloat" fs c rest ch -> call [t] c -> pair a b t -> obsolete_start ch
| os_tuple_tag : forall fs c rest ch t a b tag, starts "ufloat" fs c rest ch -> call [t; tag] c -> pair a b t ->
    obsolete_start ch
| os_string : forall fs c rest ch s, starts "ufloat" fs c rest ch -> call [s] c -> string_literal s -> obsolete_start ch
| os_string_tag : forall fs c rest ch s tag, starts "ufloat" fs c rest ch -> call [s; tag] c -> string_literal s ->
    obsolete_start ch
| os_array : forall f fs c rest ch a, f = "uarray" \/ f = "umatrix" -> starts f fs c rest ch -> call [a] c ->
    ~ special a -> obsolete_start ch.
(** ** Obsolete calls at the end of a power expression *)
Inductive obsolete_end : list tree -> Prop :=
| oe_get : forall f before a c, f = "std_dev" \/ f = "std_devs" -> attr f a -> call [] c ->
    obsolete_end (before ++ [a; c])
| oe_set : forall before a c v, attr "set_std_dev" a -> call [v] c -> ~ special v ->
    obsolete_end (before ++ [a; c]).

(** The code does not have a part of this form. *)
Fixpoint everywhere (P : list tree -> Prop) (t : tree) : Prop :=
  match t with
  | Leaf _ _ _ => True
  | Node ty ch => (ty = power -> P ch) /\ fold_right (fun c Q => everywhere P c /\ Q) True ch
  end.
(** No obsolete call that the updater knows. *)
Definition current (t : tree) : Prop :=
  everywhere (fun ch => ~ obsolete_start ch /\ ~ obsolete_end ch) t.

(** Code that the updater treats correctly: uarray() and umatrix() are not called with a single
    special argument; set_std_dev() is called at the end of an expression with one
    argument which is not special, and not on the result of an obsolete call. *)
Definition treated (ch : list tree) : Prop :=
  (forall f fs c rest a, f = "uarray" \/ f = "umatrix" -> starts f fs c rest ch -> call [a] c -> ~ special a) /\
  (forall before a c v, ch = before ++ [a; c] -> attr "set_std_dev" a -> parens trailer [v] c ->
     ~ special v /\ (forall l, v <> Node arglist l) /\ ~ obsolete_start ch).

(** ** The update of a program *)
(** The code without its layout (white space, comments). *)
Fixpoint bare (t : tree) : tree :=
  match t with Leaf ty _ v => Leaf ty "" v | Node ty ch => Node ty (map bare ch) end.

(** Update of the beginning of a power expression, whose parts are already updated. *)
Inductive new_start : list tree -> list tree -> Prop :=
| ns_same : forall ch, ~ obsolete_start ch -> new_start ch ch
| ns_tuple : forall fs c c' rest ch t a b, starts "ufloat" fs c rest ch -> call [t] c -> pair a b t ->
    new_call [a; b] c' -> new_start ch (fs ++ c' :: rest)
| ns_tuple_tag : forall fs c c' rest ch t a b tag, starts "ufloat" fs c rest ch -> call [t; tag] c -> pair a b t ->
    new_call [a; b; tag] c' -> new_start ch (fs ++ c' :: rest)
| ns_string : forall fs fs' c c' rest ch ch' s, starts "ufloat" fs c rest ch -> call [s] c -> string_literal s ->
    new_call [s] c' -> starts "ufloat_fromstr" fs' c' rest ch' ->
    tl (rev fs') = tl (rev fs) -> new_start ch ch'
| ns_string_tag : forall fs fs' c c' rest ch ch' s tag, starts "ufloat" fs c rest ch -> call [s; tag] c -> string_literal s ->
    new_call [s; tag] c' -> starts "ufloat_fromstr" fs' c' rest ch' ->
    tl (rev fs') = tl (rev fs) -> new_start ch ch'
| ns_array_tuple : forall f fs c c' rest ch t a b, f = "uarray" \/ f = "umatrix" -> starts f fs c rest ch ->
    call [t] c -> pair a b t -> new_call [a; b] c' -> new_start ch (fs ++ c' :: rest)
| ns_array : forall f fs c c' rest ch t, f = "uarray" \/ f = "umatrix" -> starts f fs c rest ch ->
    call [t] c -> ~ special t -> (forall a b, ~ pair a b t) -> star_call t c' -> new_start ch (fs ++ c' :: rest).

(** [updated t t']: t' is t with all the obsolete calls replaced by the current ones. *)
Inductive updated : tree -> tree -> Prop :=
| up_leaf : forall ty p v, updated (Leaf ty p v) (Leaf ty p v)
| up_node : forall ty ch ch', ty <> power -> Forall2 updated ch ch' -> updated (Node ty ch) (Node ty ch')
| up_power : forall ch ch1 ch2, Forall2 updated ch ch1 -> ~ obsolete_end ch1 -> new_start ch1 ch2 ->
    updated (Node power ch) (Node power ch2)
| up_get : forall f ch before a c ch2, Forall2 updated ch (before ++ [a; c]) ->
    f = "std_dev" \/ f = "std_devs" -> attr f a -> call [] c -> new_start (before ++ [a]) ch2 ->
    updated (Node power ch) (Node power ch2)
| up_set : forall ch before a c v ch2 a' eq v', Forall2 updated ch (before ++ [a; c]) ->
    attr "set_std_dev" a -> call [v] c -> ~ special v ->
    attr "std_dev" a' -> new_start (before ++ [a']) ch2 ->
    bare v' = bare v -> (exists p, eq = Leaf EQUAL p "=") ->
    updated (Node power ch) (Node atom [Node power ch2; eq; v']).
