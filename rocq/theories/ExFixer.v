(** Concrete programs for the theorems about the code updater; the trees are those that the parser
    of lib2to3 makes. *)
From Coq Require Import String.
From Coq Require Import List.
From Verif Require Import Fixer FixerSpec FixerProofs.
Import ListNotations.
Local Open Scope string_scope.
Local Open Scope list_scope.

(** f(ufloat((1, 2), 'a').std_dev(), uarray(t), u.ufloat('1+/-2')); x.set_std_dev(g(y)) *)
Definition p_mixed : tree := Node (SOther 0) [Node (SOther 61) [Node power [Leaf NAME "" "f"; Node trailer [Leaf LPAR "" "("; Node arglist [Node power [Leaf NAME "" "ufloat"; Node trailer [Leaf LPAR "" "("; Node arglist [Node atom [Leaf LPAR "" "("; Node testlist_gexp [Leaf NUMBER "" "1"; Leaf COMMA "" ","; Leaf NUMBER " " "2"]; Leaf RPAR "" ")"]; Leaf COMMA "" ","; Leaf STRING " " "'a'"]; Leaf RPAR "" ")"]; Node trailer [Leaf DOT "" "."; Leaf NAME "" "std_dev"]; Node trailer [Leaf LPAR "" "("; Leaf RPAR "" ")"]]; Leaf COMMA "" ","; Node power [Leaf NAME " " "uarray"; Node trailer [Leaf LPAR "" "("; Leaf NAME "" "t"; Leaf RPAR "" ")"]]; Leaf COMMA "" ","; Node power [Leaf NAME " " "u"; Node trailer [Leaf DOT "" "."; Leaf NAME "" "ufloat"]; Node trailer [Leaf LPAR "" "("; Leaf STRING "" "'1+/-2'"; Leaf RPAR "" ")"]]]; Leaf RPAR "" ")"]]; Leaf (TOther 4) "" "
"]; Node (SOther 61) [Node power [Leaf NAME "" "x"; Node trailer [Leaf DOT "" "."; Leaf NAME "" "set_std_dev"]; Node trailer [Leaf LPAR "" "("; Node power [Leaf NAME "" "g"; Node trailer [Leaf LPAR "" "("; Leaf NAME "" "y"; Leaf RPAR "" ")"]]; Leaf RPAR "" ")"]]; Leaf (TOther 4) "" "
"]; Leaf (TOther 0) "" ""].
(** f(ufloat(1, 2).std_dev, u.uarray( *t, *s)); x.std_dev = 3 *)
Definition p_current : tree := Node (SOther 0) [Node (SOther 61) [Node power [Leaf NAME "" "f"; Node trailer [Leaf LPAR "" "("; Node arglist [Node power [Leaf NAME "" "ufloat"; Node trailer [Leaf LPAR "" "("; Node arglist [Leaf NUMBER "" "1"; Leaf COMMA "" ","; Leaf NUMBER " " "2"]; Leaf RPAR "" ")"]; Node trailer [Leaf DOT "" "."; Leaf NAME "" "std_dev"]]; Leaf COMMA "" ","; Node power [Leaf NAME " " "u"; Node trailer [Leaf DOT "" "."; Leaf NAME "" "uarray"]; Node trailer [Leaf LPAR "" "("; Node arglist [Node argument [Leaf (TOther 16) "" "*"; Leaf NAME "" "t"]; Leaf COMMA "" ","; Node argument [Leaf (TOther 16) " " "*"; Leaf NAME "" "s"]]; Leaf RPAR "" ")"]]]; Leaf RPAR "" ")"]]; Leaf (TOther 4) "" "
"]; Node (SOther 61) [Node expr_stmt [Node power [Leaf NAME "" "x"; Node trailer [Leaf DOT "" "."; Leaf NAME "" "std_dev"]]; Leaf EQUAL " " "="; Leaf NUMBER " " "3"]; Leaf (TOther 4) "" "
"]; Leaf (TOther 0) "" ""].
(** x.std_dev()**2 *)
Definition p_power : tree := Node (SOther 0) [Node (SOther 61) [Node power [Leaf NAME "" "x"; Node trailer [Leaf DOT "" "."; Leaf NAME "" "std_dev"]; Node trailer [Leaf LPAR "" "("; Leaf RPAR "" ")"]; Leaf (TOther 36) "" "**"; Leaf NUMBER "" "2"]; Leaf (TOther 4) "" "
"]; Leaf (TOther 0) "" ""].
(** uarray(t) *)
Definition p_array : tree := Node (SOther 0) [Node (SOther 61) [Node power [Leaf NAME "" "uarray"; Node trailer [Leaf LPAR "" "("; Leaf NAME "" "t"; Leaf RPAR "" ")"]]; Leaf (TOther 4) "" "
"]; Leaf (TOther 0) "" ""].
(** uarray( *t) *)
Definition p_star : tree := Node (SOther 0) [Node (SOther 61) [Node power [Leaf NAME "" "uarray"; Node trailer [Leaf LPAR "" "("; Node argument [Leaf (TOther 16) "" "*"; Leaf NAME "" "t"]; Leaf RPAR "" ")"]]; Leaf (TOther 4) "" "
"]; Leaf (TOther 0) "" ""].
(** ufloat((1, 2)).set_std_dev(3) *)
Definition p_both : tree := Node (SOther 0) [Node (SOther 61) [Node power [Leaf NAME "" "ufloat"; Node trailer [Leaf LPAR "" "("; Node atom [Leaf LPAR "" "("; Node testlist_gexp [Leaf NUMBER "" "1"; Leaf COMMA "" ","; Leaf NUMBER " " "2"]; Leaf RPAR "" ")"]; Leaf RPAR "" ")"]; Node trailer [Leaf DOT "" "."; Leaf NAME "" "set_std_dev"]; Node trailer [Leaf LPAR "" "("; Leaf NUMBER "" "3"; Leaf RPAR "" ")"]]; Leaf (TOther 4) "" "
"]; Leaf (TOther 0) "" ""].
(** x.set_std_dev(value=3) *)
Definition p_keyword : tree := Node (SOther 0) [Node (SOther 61) [Node power [Leaf NAME "" "x"; Node trailer [Leaf DOT "" "."; Leaf NAME "" "set_std_dev"]; Node trailer [Leaf LPAR "" "("; Node argument [Leaf NAME "" "value"; Leaf EQUAL "" "="; Leaf NUMBER "" "3"]; Leaf RPAR "" ")"]]; Leaf (TOther 4) "" "
"]; Leaf (TOther 0) "" ""].
(** a.b.ufloat((1, 2)) *)
Definition p_nested : tree := Node (SOther 0) [Node (SOther 61) [Node power [Leaf NAME "" "a"; Node trailer [Leaf DOT "" "."; Leaf NAME "" "b"]; Node trailer [Leaf DOT "" "."; Leaf NAME "" "ufloat"]; Node trailer [Leaf LPAR "" "("; Node atom [Leaf LPAR "" "("; Node testlist_gexp [Leaf NUMBER "" "1"; Leaf COMMA "" ","; Leaf NUMBER " " "2"]; Leaf RPAR "" ")"]; Leaf RPAR "" ")"]]; Leaf (TOther 4) "" "
"]; Leaf (TOther 0) "" ""].
(** y = x.set_std_dev(3) *)
Definition p_assigned : tree := Node (SOther 0) [Node (SOther 61) [Node expr_stmt [Leaf NAME "" "y"; Leaf EQUAL " " "="; Node power [Leaf NAME " " "x"; Node trailer [Leaf DOT "" "."; Leaf NAME "" "set_std_dev"]; Node trailer [Leaf LPAR "" "("; Leaf NUMBER "" "3"; Leaf RPAR "" ")"]]]; Leaf (TOther 4) "" "
"]; Leaf (TOther 0) "" ""].

Ltac shape := repeat match goal with
  | H : _ /\ _ |- _ => destruct H
  | H : exists _, _ |- _ => destruct H
  | H : _ \/ _ |- _ => destruct H
  | H : starts _ _ _ _ _ |- _ => inversion H; clear H
  | H : call _ _ |- _ => inversion H; clear H
  | H : name _ _ |- _ => destruct H as (? & H)
  | H : attr _ _ |- _ => destruct H as (? & ? & H)
  | H : parens _ _ _ |- _ => destruct H as (? & ? & H)
  | H : pair _ _ _ |- _ => destruct H as (? & H)
  | H : commas _ _ |- _ => inversion H; clear H
  | H : is_comma _ |- _ => destruct H as (? & H)
  | H : special _ |- _ => destruct H as (? & H)
  | H : string_literal _ |- _ => destruct H as (? & ? & H)
  | H : obsolete_start _ |- _ => inversion H; clear H
  | H : obsolete_end _ |- _ => inversion H; clear H
  | H : Leaf _ _ _ = _ |- _ => try discriminate H; injection H; clear H; intros
  | H : Node _ _ = _ |- _ => try discriminate H; injection H; clear H; intros
  | H : _ :: _ = _ :: _ |- _ => injection H; clear H; intros
  | H : [] = _ :: _ |- _ => discriminate H
  | H : _ :: _ = [] |- _ => discriminate H
  | H : _ :: _ = ?l ++ _ |- _ => destruct l; cbn [app] in H
  | H : ?l ++ _ = _ :: _ |- _ => symmetry in H
  | H : [] = ?l ++ _ |- _ => destruct l; discriminate H
  | H : String _ _ = String _ _ |- _ => discriminate H
  | H : forall ch, Node arglist _ <> Node arglist ch |- _ => exfalso; exact (H _ eq_refl)
  | _ => progress subst
  end.
Ltac all_powers := repeat match goal with
  | |- everywhere _ (Node _ _) => apply everywhere_node; split; [try discriminate; intros _|]
  | |- everywhere _ (Leaf _ _ _) => exact I
  | |- Forall _ (_ :: _) => constructor
  | |- Forall _ [] => constructor
  end.
Ltac is_treated := split; [intros ? ? ? ? ? ? ? ? ?; shape; fail|
  intros ? ? ? ? ? ? ?; shape; try (exfalso; congruence); repeat split; try (intros ?; shape; fail); try discriminate].
Lemma ex_C52 : everywhere treated p_mixed /\ ~ current p_mixed /\ option_map show (refactor p_mixed) =
  Some "f(ufloat(1, 2, 'a').std_dev, uarray(*t), u.ufloat_fromstr('1+/-2'))
x.std_dev = g(y)
".
Proof.
  split; [|split; [|vm_compute; reflexivity]].
  - unfold p_mixed. all_powers; is_treated.
  - unfold p_mixed, current. rewrite everywhere_node. intros (_ & C). inversion C as [|x l C1 _]; subst.
    apply everywhere_node in C1 as (_ & C1). inversion C1 as [|x l C2 _]; subst. apply everywhere_node in C2 as (_ & C2).
    inversion C2 as [|x l _ C3]; subst. inversion C3 as [|x l C4 _]; subst. apply everywhere_node in C4 as (_ & C4).
    inversion C4 as [|x l _ C5]; subst. inversion C5 as [|x l C6 _]; subst. apply everywhere_node in C6 as (_ & C6).
    inversion C6 as [|x l C7 _]; subst. apply everywhere_node in C7 as (C7 & _). destruct (C7 eq_refl) as (_ & C8). apply C8.
    match goal with |- obsolete_end (?n :: ?c :: ?l) => change (obsolete_end ([n; c] ++ l)) end.
    eapply (oe_get "std_dev"); auto; [do 2 eexists; reflexivity|constructor; do 2 eexists; reflexivity].
Qed.
Ltac is_current := split; intros ?; shape; fail.
Lemma ex_C52_current : everywhere treated p_current /\ current p_current.
Proof.
  unfold current, p_current. split; [all_powers; is_treated|all_powers; is_current].
Qed.

(** Obsolete calls that are not updated. *)
Lemma misses : forall p, In p [p_power; p_nested] -> refactor p = Some p.
Proof.
  intros p [<-|[<-|[]]]; vm_compute; reflexivity.
Qed.
Lemma misses_text : map show [p_power; p_nested; p_both] = ["x.std_dev()**2
"; "a.b.ufloat((1, 2))
"; "ufloat((1, 2)).set_std_dev(3)
"] /\ map (fun p => option_map show (refactor p)) [p_power; p_nested; p_both] = [Some "x.std_dev()**2
"; Some "a.b.ufloat((1, 2))
"; Some "ufloat((1, 2)).std_dev = 3
"].
Proof.
  split; vm_compute; reflexivity.
Qed.
(** Code that is not updated to code with the same meaning. *)
Lemma wrong_text : map show [p_keyword; p_assigned] = ["x.set_std_dev(value=3)
"; "y = x.set_std_dev(3)
"] /\ map (fun p => option_map show (refactor p)) [p_keyword; p_assigned] = [Some "x.std_dev = value=3
"; Some "y = x.std_dev = 3
"].
Proof.
  split; vm_compute; reflexivity.
Qed.
(** Updated code is not always a fixed point. *)
Lemma not_fixed : show p_array = "uarray(t)
" /\ option_map show (refactor p_array) = Some (show p_star) /\ current p_star /\ option_map show (refactor p_star) = Some "uarray(**t)
".
Proof.
  split; [reflexivity|]. split; [vm_compute; reflexivity|]. split; [|vm_compute; reflexivity].
  unfold current, p_star. all_powers. split; intros ?; shape; try discriminate; match goal with H : ~ special _ |- _ => apply H; eexists; reflexivity end.
Qed.
