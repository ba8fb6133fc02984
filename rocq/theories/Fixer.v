(** The code updater uncertainties.1to2: the fixers of uncertainties/lib1to2/fixes, which lib2to3
    (Python 3.11) applies to syntax trees. No proofs in this file. *)
From Coq Require Import String.
From Coq Require Import List Bool Arith.
Import ListNotations.
Local Open Scope string_scope.
Local Open Scope list_scope.

(** ** Syntax trees: lib2to3/pytree.py *)
Inductive tok := NAME | NUMBER | STRING | LPAR | RPAR | DOT | COMMA | EQUAL | TOther (n : nat).
Inductive sym := power | trailer | atom | testlist_gexp | arglist | argument | expr_stmt | SOther (n : nat).
Definition tok_eq_dec : forall a b : tok, {a = b} + {a <> b}.
Proof. repeat decide equality. Defined.
Definition sym_eq_dec : forall a b : sym, {a = b} + {a <> b}.
Proof. repeat decide equality. Defined.
Definition tok_eqb (a b : tok) : bool := if tok_eq_dec a b then true else false.
Definition sym_eqb (a b : sym) : bool := if sym_eq_dec a b then true else false.

(** A leaf has a type, a prefix (the white space and comments before it) and a text. *)
Inductive tree := Leaf (ty : tok) (pre val : string) | Node (ty : sym) (ch : list tree).

(** str(tree): the source code. *)
Fixpoint show (t : tree) : string :=
  match t with
  | Leaf _ p v => (p ++ v)%string
  | Node _ ch => fold_right (fun c s => (show c ++ s)%string) "" ch
  end.

Definition children (t : tree) : list tree := match t with Leaf _ _ _ => [] | Node _ ch => ch end.
Definition set_children (t : tree) (ch : list tree) : tree :=
  match t with Leaf _ _ _ => t | Node ty _ => Node ty ch end.
(** tree.prefix = p *)
Fixpoint with_prefix (p : string) (t : tree) : tree :=
  match t with
  | Leaf ty _ v => Leaf ty p v
  | Node ty ch => Node ty (match ch with [] => [] | c :: cs => with_prefix p c :: cs end)
  end.
(** Replacement of a child; None is IndexError. *)
Fixpoint put {A} (l : list A) (i : nat) (x : A) : option (list A) :=
  match l, i with
  | [], _ => None
  | _ :: l', O => Some (x :: l')
  | a :: l', S i' => option_map (cons a) (put l' i' x)
  end.

(** ** Patterns: lib2to3/patcomp.py, pytree.py *)
(** Literals and tokens; nodes with details; any; any*. Simplification: only the forms that the
    fixers use. *)
Inductive pat :=
| PLeaf (ty : tok) (val : option string) (nm : option string)
| PNode (ty : sym) (content : list pat)
| PAny (nm : option string)
| PStar.
Definition results := list (string * tree).
Definition named (nm : option string) (t : tree) : results :=
  match nm with Some n => [(n, t)] | None => [] end.
Fixpoint lookup (n : string) (r : results) : option tree :=
  match r with
  | [] => None
  | (m, t) :: r' => if String.eqb n m then Some t else lookup n r'
  end.
(** Pattern.match(node, results). The list of the children must be matched completely;
    repetitions take as few nodes as possible. *)
Fixpoint pmatch (p : pat) (t : tree) {struct p} : option results :=
  match p with
  | PLeaf ty v nm =>
      match t with
      | Leaf ty' _ v' =>
          if tok_eqb ty ty' && match v with Some s => String.eqb s v' | None => true end
          then Some (named nm t) else None
      | Node _ _ => None
      end
  | PAny nm => Some (named nm t)
  | PStar => None
  | PNode ty ps =>
      match t with
      | Leaf _ _ _ => None
      | Node ty' ch =>
          if sym_eqb ty ty' then
            (fix seq (ps : list pat) (ts : list tree) {struct ps} : option results :=
               match ps with
               | [] => match ts with [] => Some [] | _ => None end
               | q :: ps' =>
                   match q with
                   | PStar =>
                       (fix skip (ts : list tree) : option results :=
                          match seq ps' ts with
                          | Some r => Some r
                          | None => match ts with [] => None | _ :: ts' => skip ts' end
                          end) ts
                   | _ =>
                       match ts with
                       | [] => None
                       | t :: ts' =>
                           match pmatch q t with
                           | Some r => match seq ps' ts' with Some r' => Some (r ++ r') | None => None end
                           | None => None
                           end
                       end
                   end
               end) ps ch
          else None
      end
  end.
(** Alternatives: the first one that matches. *)
Fixpoint first_match (ps : list pat) (t : tree) : option results :=
  match ps with
  | [] => None
  | p :: ps' => match pmatch p t with Some r => Some r | None => first_match ps' t end
  end.

(** ** Constructors: lib2to3/fixer_util.py *)
Definition Name (s : string) : tree := Leaf NAME "" s.
Definition String_ (s : string) : tree := Leaf STRING "" s.
Definition Comma : tree := Leaf COMMA "" ",".
(** Called with arguments. *)
Definition ArgList (args : list tree) : tree :=
  Node trailer [Leaf LPAR "" "("; Node arglist args; Leaf RPAR "" ")"].
Definition Assign (target source : tree) : tree :=
  Node atom [target; Leaf EQUAL " " "="; with_prefix " " source].

(** ** Fixers *)
(** A fixer has a pattern, and a method transform(node, results), which modifies the node
    in place, and may also replace it by another one in its parent. None is an exception. *)
Record fixer := mkFixer {
  f_pattern : list pat;
  f_transform : tree -> results -> option (tree * option tree) }.

Definition lit (s : string) : pat := PLeaf NAME (Some s) None.
Definition lpar : pat := PLeaf LPAR (Some "(") None.
Definition rpar : pat := PLeaf RPAR (Some ")") None.
Definition comma : pat := PLeaf COMMA (Some ",") None.
Definition attr_pat (s : string) : pat := PNode trailer [PLeaf DOT (Some ".") None; lit s].
Definition any_ (s : string) : pat := PAny (Some s).
Definition object : pat := PLeaf NAME None (Some "object").

(** fix_std_dev.py 14-18. *)
Definition std_dev_pattern : list pat := [
  PNode power [PStar; attr_pat "std_dev"; PNode trailer [lpar; rpar]];
  PNode power [PStar; attr_pat "set_std_dev"; PNode trailer [lpar; any_ "set_arg"; rpar]] ].
(** fix_std_dev.py 20-37. *)
Definition std_dev_transform (node : tree) (r : results) : option (tree * option tree) :=
  match lookup "set_arg" r with
  | Some arg =>
      match rev (children node) with
      | _ :: attribute :: before =>
          match put (children attribute) 1 (Name "std_dev") with
          | Some ch =>
              let node := set_children node (rev (set_children attribute ch :: before)) in
              Some (node, Some (Assign node arg))
          | None => None
          end
      | _ => None
      end
  | None => Some (set_children node (removelast (children node)), None)
  end.
Definition fix_std_dev : fixer := mkFixer std_dev_pattern std_dev_transform.

(** fix_std_devs.py 14-22. *)
Definition fix_std_devs : fixer := mkFixer
  [PNode power [PStar; attr_pat "std_devs"; PNode trailer [lpar; rpar]]]
  (fun node _ => Some (set_children node (removelast (children node)), None)).

(** fix_uarray_umatrix.py 19-22, fix_ufloat.py 19-22. *)
Definition tuple_pat : pat :=
  PNode atom [lpar; PNode testlist_gexp [any_ "arg0"; comma; any_ "arg1"]; rpar].
Definition tuple_call : pat := PNode trailer [lpar; tuple_pat; rpar].
(** fix_uarray_umatrix.py 31-44. *)
Definition array_pattern (f : string) : list pat := [
  PNode power [lit f; tuple_call; PStar];
  PNode power [object; attr_pat f; tuple_call; PStar];
  PNode power [lit f; PNode trailer [lpar; any_ "args"; rpar]; PStar];
  PNode power [object; attr_pat f; PNode trailer [lpar; any_ "args"; rpar]; PStar] ].
(** fix_uarray_umatrix.py 46-80. *)
Definition array_transform (node : tree) (r : results) : option (tree * option tree) :=
  let i := match lookup "object" r with Some _ => 2 | None => 1 end in
  match nth_error (children node) i with
  | None => None
  | Some args =>
      let replace new_args :=
        match put (children node) i (ArgList new_args) with
        | Some ch => Some (set_children node ch, None)
        | None => None
        end in
      match lookup "args" r with
      | Some (Node arglist _) => Some (node, None)
      | Some _ =>
          match nth_error (children args) 1 with
          | Some a => replace [String_ "*"; a]
          | None => None
          end
      | None =>
          match lookup "arg0" r, lookup "arg1" r with
          | Some a, Some b => replace [a; Comma; b]
          | _, _ => None
          end
      end
  end.
Definition fix_uarray_umatrix : fixer :=
  mkFixer (array_pattern "uarray" ++ array_pattern "umatrix") array_transform.

(** fix_ufloat.py 25-31. *)
Definition tuple_any_call : pat :=
  PNode trailer [lpar; PNode arglist [tuple_pat; comma; any_ "tag"]; rpar].
Definition string_pat : pat := PLeaf STRING None (Some "string").
(** fix_ufloat.py 41-67. *)
Definition ufloat_pattern : list pat := [
  PNode power [lit "ufloat"; tuple_call; PStar];
  PNode power [lit "ufloat"; tuple_any_call; PStar];
  PNode power [lit "ufloat"; PNode trailer [lpar; string_pat; rpar]; PStar];
  PNode power [lit "ufloat"; PNode trailer [lpar; PNode arglist [string_pat; comma; any_ "tag"]; rpar]; PStar];
  PNode power [object; attr_pat "ufloat"; tuple_call; PStar];
  PNode power [object; attr_pat "ufloat"; tuple_any_call; PStar];
  PNode power [object; attr_pat "ufloat"; PNode trailer [lpar; string_pat; rpar]; PStar];
  PNode power [object; attr_pat "ufloat"; PNode trailer [lpar; PNode arglist [string_pat; comma; any_ "tag"]; rpar]; PStar] ].
(** func_name.value = s *)
Definition set_value (t : tree) (s : string) : tree :=
  match t with Leaf ty p _ => Leaf ty p s | Node _ _ => t end.
(** fix_ufloat.py 70-105. *)
Definition ufloat_transform (node : tree) (r : results) : option (tree * option tree) :=
  match (match lookup "string" r with
         | Some s => Some ("ufloat_fromstr", [s])
         | None =>
             match lookup "arg0" r, lookup "arg1" r with
             | Some a, Some b => Some ("ufloat", [a; Comma; b])
             | _, _ => None
             end
         end) with
  | None => None
  | Some (name, new_args) =>
      let new_args := match lookup "tag" r with Some t => new_args ++ [Comma; t] | None => new_args end in
      match lookup "object" r, children node with
      | Some _, o :: attribute :: _ :: rest =>
          match children attribute with
          | dot :: func_name :: more =>
              Some (set_children node
                      (o :: set_children attribute (dot :: set_value func_name name :: more)
                         :: ArgList new_args :: rest), None)
          | _ => None
          end
      | None, func_name :: _ :: rest =>
          Some (set_children node (set_value func_name name :: ArgList new_args :: rest), None)
      | _, _ => None
      end
  end.
Definition fix_ufloat : fixer := mkFixer ufloat_pattern ufloat_transform.

(** The modules of uncertainties.lib1to2.fixes, in the order in which lib2to3 applies them
    (1to2.py 19; lib2to3/main.py sorts the names). *)
Definition fixers : list fixer := [fix_std_dev; fix_std_devs; fix_uarray_umatrix; fix_ufloat].

(** ** Application: lib2to3/refactor.py, traverse_by() *)
(** The fixers on one node: the node, and what has replaced it in its parent if it has been
    replaced; the next fixers still work on the node that was replaced. None is an exception
    (a node can only be replaced while it has a parent). *)
Fixpoint fix_node (fs : list fixer) (node : tree) (new : option tree) : option tree :=
  match fs with
  | [] => Some (match new with Some t => t | None => node end)
  | f :: fs' =>
      match first_match (f_pattern f) node with
      | None => fix_node fs' node new
      | Some r =>
          match f_transform f node r with
          | None => None
          | Some (node', None) => fix_node fs' node' new
          | Some (node', Some t) =>
              match new with Some _ => None | None => fix_node fs' node' (Some t) end
          end
      end
  end.
Fixpoint all_or_none {A} (l : list (option A)) : option (list A) :=
  match l with
  | [] => Some []
  | Some a :: l' => option_map (cons a) (all_or_none l')
  | None :: _ => None
  end.
(** refactor_tree(): the nodes are visited after their children. The children of a node that
    has been replaced are not visited again. Simplification: the root of the tree is not replaced;
    it is a file_input. *)
Fixpoint refactor (t : tree) : option tree :=
  match t with
  | Leaf _ _ _ => Some t
  | Node ty ch =>
      match all_or_none (map refactor ch) with
      | Some ch' =>
          let t' := Node ty ch' in
          match ty with power => fix_node fixers t' None | _ => Some t' end
      | None => None
      end
  end.
