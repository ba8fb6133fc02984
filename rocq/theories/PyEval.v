(** The meaning of the programs that the code updater treats: what Python does with the syntax trees
    of lib2to3. Calls, attributes, tuples, keyword and starred arguments, assignments and sequences
    of statements are those of the Python Language Reference (6.2, 6.3, 7.1, 7.2); values, states and
    all other constructs are parameters. No proofs in this file. *)
From Coq Require Import String.
From Coq Require Import List Bool Arith.
From Verif Require Import Base Fixer FixerSpec.
Import ListNotations.
Local Open Scope string_scope.
Local Open Scope list_scope.

(** Calculations that may change the state, or raise. *)
Definition C (S A : Type) : Type := S -> res (A * S).
Definition cret {S A} (a : A) : C S A := fun s => Ok (a, s).
Definition cfail {S A} : C S A := fun _ => Err EUser.
Definition cbind {S A B} (m : C S A) (k : A -> C S B) : C S B :=
  fun s => match m s with Ok (a, s') => k a s' | Err e => Err e end.

(** The meaning of a tree: a token; an expression (its value, and what an assignment to it does); a
    statement; what follows an object, like .x, (1, 2), [3] (its value, and what an assignment
    does); arguments of a call; elements of a tuple. *)
Inductive mean (V S : Type) :=
| MLeaf (ty : tok) (v : string)
| MExpr (get : C S V) (set : V -> C S unit)
| MStmt (run : C S unit)
| MTrailer (get : V -> C S V) (set : V -> V -> C S unit)
| MArgs (a : C S (list V * list (string * V)))
| MSeq (a : C S (list V)).
Arguments MLeaf {V S} ty v.
Arguments MExpr {V S} get set.
Arguments MStmt {V S} run.
Arguments MTrailer {V S} get set.
Arguments MArgs {V S} a.
Arguments MSeq {V S} a.

(** Python, as far as it matters here. The last three are the remaining constructs: nodes of other types,
    trailers like [i], powers. *)
Record python := mkPython {
  pv : Type;  ps : Type;
  p_none : pv;
  p_name : string -> ps -> res pv;
  p_bind : string -> pv -> C ps unit;
  p_lit : string -> ps -> res pv;
  p_attr : pv -> string -> C ps pv;
  p_setattr : pv -> string -> pv -> C ps unit;
  p_call : pv -> list pv -> list (string * pv) -> C ps pv;
  p_tuple : list pv -> pv;
  p_iter : pv -> C ps (list pv);
  p_mapping : pv -> C ps (list (string * pv));
  p_pow : pv -> pv -> C ps pv;
  p_trailer : list (mean pv ps) -> (pv -> C ps pv) * (pv -> pv -> C ps unit);
  p_other : sym -> list (mean pv ps) -> C ps pv * (pv -> C ps unit)
}.

(** Statements are in nodes of these two types. *)
Definition file_input : sym := SOther 0.
Definition simple_stmt : sym := SOther 61.

Section Eval.
Context (P : python).
Let V := pv P.
Let S := ps P.
Notation mean := (mean V S).
Notation C := (C S).

Definition lift {A} (f : S -> res A) : C A := fun s => match f s with Ok a => Ok (a, s) | Err e => Err e end.
Definition as_get (m : mean) : C V :=
  match m with
  | MLeaf ty v =>
      if String.eqb v "*" then cfail else
      match ty with
      | NAME => lift (p_name P v)
      | NUMBER | STRING => lift (p_lit P v)
      | _ => cfail
      end
  | MExpr g _ => g
  | _ => cfail
  end.
Definition as_set (m : mean) : V -> C unit :=
  match m with MLeaf NAME v => p_bind P v | MExpr _ f => f | _ => fun _ => cfail end.

Definition is_tok (ty : tok) (m : mean) : bool := match m with MLeaf ty' _ => tok_eqb ty ty' | _ => false end.
(** Starred arguments: f( *v). *)
Definition star (x : mean) : C (list V) := cbind (as_get x) (p_iter P).
Fixpoint args (ms : list mean) : C (list V * list (string * V)) :=
  match ms with
  | [] => cret ([], [])
  | m :: r =>
      let tail r := match r with [] => cret ([], []) | m :: r' => if is_tok COMMA m then args r' else cfail end in
      let item p r := cbind p (fun p => cbind (tail r) (fun q => cret (fst p ++ fst q, snd p ++ snd q))) in
      match m with
      | MLeaf _ v =>
          if String.eqb v "*" then
            match r with
            | x :: r' => item (cbind (star x) (fun l => cret (l, []))) r'
            | [] => cfail
            end
          else item (cbind (as_get m) (fun v => cret ([v], []))) r
      | MArgs a => item a r
      | _ => item (cbind (as_get m) (fun v => cret ([v], []))) r
      end
  end.
Definition arguments (m : mean) : C (list V * list (string * V)) :=
  match m with MArgs a => a | _ => cbind (as_get m) (fun v => cret ([v], [])) end.

Definition no_set {A B} (_ : A) : C B := cfail.
Definition trailer_mean (ms : list mean) : mean :=
  let rest := MTrailer (fst (p_trailer P ms)) (snd (p_trailer P ms)) in
  match ms with
  | [a; b] =>
      if is_tok DOT a then
        match b with
        | MLeaf NAME f => MTrailer (fun o => p_attr P o f) (fun o => p_setattr P o f)
        | _ => rest
        end
      else if is_tok LPAR a && is_tok RPAR b then MTrailer (fun f => p_call P f [] []) (fun _ => no_set)
      else rest
  | [a; x; b] =>
      if is_tok LPAR a && is_tok RPAR b then
        MTrailer (fun f => cbind (arguments x) (fun q => p_call P f (fst q) (snd q))) (fun _ => no_set)
      else rest
  | _ => rest
  end.
Definition other (ty : sym) (ms : list mean) : mean := MExpr (fst (p_other P ty ms)) (snd (p_other P ty ms)).
Definition argument_mean (ms : list mean) : mean :=
  match ms with
  | [MLeaf NAME k; MLeaf EQUAL _; x] => MArgs (cbind (as_get x) (fun v => cret ([], [(k, v)])))
  | [MLeaf _ t; x] =>
      if String.eqb t "*" then MArgs (cbind (star x) (fun l => cret (l, [])))
      else if String.eqb t "**" then MArgs (cbind (cbind (as_get x) (p_mapping P)) (fun l => cret ([], l)))
      else other argument ms
  | _ => other argument ms
  end.

(** head trailer ... trailer ** exponent *)
Fixpoint trail (ms : list mean) (o : V) : C V :=
  match ms with
  | [] => cret o
  | MTrailer g _ :: r => cbind (g o) (trail r)
  | [MLeaf _ t; e] => if String.eqb t "**" then cbind (as_get e) (p_pow P o) else cfail
  | _ => cfail
  end.
Fixpoint trail_set (ms : list mean) (o v : V) : C unit :=
  match ms with
  | [MTrailer _ f] => f o v
  | MTrailer g _ :: r => cbind (g o) (fun o' => trail_set r o' v)
  | _ => cfail
  end.
Definition power_get (ms : list mean) : C V :=
  match ms with m :: r => cbind (as_get m) (trail r) | [] => cfail end.
Definition power_set (ms : list mean) (v : V) : C unit :=
  match ms with m :: r => cbind (as_get m) (fun o => trail_set r o v) | [] => cfail end.

(** Elements separated by commas. *)
Fixpoint elements (ms : list mean) : C (list V) :=
  match ms with
  | [] => cret []
  | [m] => cbind (as_get m) (fun v => cret [v])
  | m :: MLeaf COMMA _ :: r => cbind (as_get m) (fun v => cbind (elements r) (fun l => cret (v :: l)))
  | _ => cfail
  end.

(** In parentheses: an expression or a tuple. The updater puts assignments in such nodes too: target = value. *)
Definition atom_mean (ms : list mean) : mean :=
  match ms with
  | [a; b; c] =>
      if is_tok LPAR a && is_tok RPAR c then
        match b with
        | MSeq e => MExpr (cbind e (fun l => cret (p_tuple P l))) no_set
        | _ => MExpr (as_get b) (as_set b)
        end
      else if is_tok EQUAL b then MStmt (cbind (as_get c) (as_set a))
      else other atom ms
  | _ => other atom ms
  end.
Definition assignment_mean (ms : list mean) : mean :=
  match ms with
  | [t; MLeaf EQUAL _; v] => MStmt (cbind (as_get v) (as_set t))
  | _ => other expr_stmt ms
  end.
(** Statements in sequence; the values of expressions are not used. *)
Fixpoint statements (ms : list mean) : C unit :=
  match ms with
  | [] => cret tt
  | m :: r =>
      match m with
      | MLeaf NAME _ | MLeaf NUMBER _ | MLeaf STRING _ | MExpr _ _ => cbind (as_get m) (fun _ => statements r)
      | MStmt g => cbind g (fun _ => statements r)
      | MLeaf _ _ => statements r                        (* end of line, semicolon *)
      | _ => cfail
      end
  end.
Definition combine (ty : sym) (ms : list mean) : mean :=
  match ty with
  | power => MExpr (power_get ms) (power_set ms)
  | trailer => trailer_mean ms
  | arglist => MArgs (args ms)
  | argument => argument_mean ms
  | testlist_gexp => MSeq (elements ms)
  | atom => atom_mean ms
  | expr_stmt => assignment_mean ms
  | SOther n => if Nat.eqb n 0 || Nat.eqb n 61 then MStmt (statements ms) else other ty ms
  end.
Fixpoint meaning (t : tree) : mean :=
  match t with
  | Leaf ty _ v => MLeaf ty v
  | Node ty ch => combine ty (map meaning ch)
  end.
(** A program: it ends in a state, or raises an exception. *)
Definition execute (t : tree) (s : S) : res S :=
  match meaning t with
  | MStmt g => match g s with Ok (_, s') => Ok s' | Err e => Err e end
  | _ => Err EUser
  end.

(** ** What is expected of Python and of the library *)
(** What returns a result with m returns the same with m'. *)
Definition same_if_ok {A} (m m' : C A) : Prop := forall s r, m s = Ok r -> m' s = Ok r.
Inductive refines : mean -> mean -> Prop :=
| r_leaf : forall ty v, refines (MLeaf ty v) (MLeaf ty v)
| r_expr : forall g f g' f', same_if_ok g g' -> (forall v, same_if_ok (f v) (f' v)) -> refines (MExpr g f) (MExpr g' f')
| r_stmt : forall g g', same_if_ok g g' -> refines (MStmt g) (MStmt g')
| r_trailer : forall g f g' f', (forall o, same_if_ok (g o) (g' o)) -> (forall o v, same_if_ok (f o v) (f' o v)) ->
    refines (MTrailer g f) (MTrailer g' f')
| r_args : forall a a', same_if_ok a a' -> refines (MArgs a) (MArgs a')
| r_seq : forall a a', same_if_ok a a' -> refines (MSeq a) (MSeq a').

(** The names of the library are those of the library; objects with attributes named std_dev, std_devs or
    set_std_dev are those of the library; exceptions are not handled by the program. *)
Record library (uf fs : V) (array number : V -> Prop) : Prop := mkLibrary {
  l_name : forall s f, p_name P "ufloat" s = Ok f -> f = uf /\ p_name P "ufloat_fromstr" s = Ok fs;
  l_attr : forall o s f s', p_attr P o "ufloat" s = Ok (f, s') -> f = uf /\ p_attr P o "ufloat_fromstr" s = Ok (fs, s');
  l_array_name : forall n s f, n = "uarray" \/ n = "umatrix" -> p_name P n s = Ok f -> array f;
  l_array_attr : forall n o s f s', n = "uarray" \/ n = "umatrix" -> p_attr P o n s = Ok (f, s') -> array f;
  (* ufloat((a, b)), with or without a tag *)
  l_tuple : forall a b, same_if_ok (p_call P uf [p_tuple P [a; b]] []) (p_call P uf [a; b] []);
  l_tuple_tag : forall a b t, same_if_ok (p_call P uf [p_tuple P [a; b]; t] []) (p_call P uf [a; b; t] []);
  l_tuple_kw : forall a b t, same_if_ok (p_call P uf [p_tuple P [a; b]] [("tag", t)]) (p_call P uf [a; b] [("tag", t)]);
  (* ufloat('...') *)
  l_string : forall v s x, p_lit P v s = Ok x -> same_if_ok (p_call P uf [x] []) (p_call P fs [x] []);
  l_string_tag : forall v s x t, p_lit P v s = Ok x -> ~ number t ->
    same_if_ok (p_call P uf [x; t] []) (p_call P fs [x; t] []);
  l_string_kw : forall v s x t, p_lit P v s = Ok x ->
    same_if_ok (p_call P uf [x] [("tag", t)]) (p_call P fs [x] [("tag", t)]);
  (* uarray((n, s)), umatrix((n, s)) *)
  l_array : forall f t s r, array f -> p_call P f [t] [] s = Ok r ->
    exists l s', p_iter P t s = Ok (l, s') /\ p_call P f l [] s' = Ok r;
  l_iter : forall l s, p_iter P (p_tuple P l) s = Ok (l, s);
  (* x.std_dev(), m.std_devs() *)
  l_get : forall n o s v s' r, n = "std_dev" \/ n = "std_devs" -> p_attr P o n s = Ok (v, s') ->
    p_call P v [] [] s' = Ok r -> r = (v, s');
  (* x.set_std_dev(v) *)
  l_set : forall o s m s', p_attr P o "set_std_dev" s = Ok (m, s') -> s' = s /\
    forall v s1 x s2, p_call P m [v] [] s1 = Ok (x, s2) -> p_setattr P o "std_dev" v s1 = Ok (tt, s2);
  l_trailer : forall ms ms', Forall2 refines ms ms' ->
    (forall o, same_if_ok (fst (p_trailer P ms) o) (fst (p_trailer P ms') o)) /\
    (forall o v, same_if_ok (snd (p_trailer P ms) o v) (snd (p_trailer P ms') o v));
  l_other : forall ty ms ms', Forall2 refines ms ms' ->
    same_if_ok (fst (p_other P ty ms)) (fst (p_other P ty ms')) /\
    (forall v, same_if_ok (snd (p_other P ty ms) v) (snd (p_other P ty ms') v))
}.

(** ** Which programs *)
(** The order in which target and value are evaluated does not matter. *)
Definition independent (target value : C V) : Prop :=
  forall s o s1 v s2, target s = Ok (o, s1) -> value s1 = Ok (v, s2) ->
    exists s', value s = Ok (v, s') /\ target s' = Ok (o, s2).
Definition positional (t : tree) : Prop := ~ special t /\ forall ch, t <> Node arglist ch.
Definition tag_keyword (t : tree) : Prop := exists p q r x, t = Node argument [Leaf NAME p "tag"; Leaf EQUAL q r; x].
(** The tag is a second positional argument, or tag=...; after a string it is not a number;
    the order of evaluation does not matter for set_std_dev(). *)
Definition careful (number : V -> Prop) (ch : list tree) : Prop :=
  (forall fs c rest a tag, starts "ufloat" fs c rest ch -> call [a; tag] c ->
     (string_literal a \/ exists x y, pair x y a) ->
     tag_keyword tag \/ positional tag /\
       (string_literal a -> forall s v s', as_get (meaning tag) s = Ok (v, s') -> ~ number v)) /\
  (forall before a c v, ch = before ++ [a; c] -> attr "set_std_dev" a -> parens trailer [v] c ->
     independent (power_get (map meaning before)) (as_get (meaning v))).
(** set_std_dev() is only called by statements. *)
Definition set_call (t : tree) : Prop :=
  exists before a c v, t = Node power (before ++ [a; c]) /\ attr "set_std_dev" a /\ parens trailer [v] c.
Fixpoint sets_in_statements (t : tree) : Prop :=
  match t with
  | Leaf _ _ _ => True
  | Node ty ch => (ty <> simple_stmt -> Forall (fun c => ~ set_call c) ch) /\
      fold_right (fun c Q => sets_in_statements c /\ Q) True ch
  end.
End Eval.
