(** Programs that are run before and after their update. *)
From Coq Require Import String.
From Coq Require Import ZArith List.
From Verif Require Import Base Str FmtOps Format Parse ErrThm Fixer FixerSpec FixerProofs PyEval PyThm PyLib PyInst ExFixer ExParse ExFmt.
Import ListNotations.
Local Open Scope string_scope.
Local Open Scope list_scope.

(** x = ufloat((1, 2), 'a'); y = uncertainties.ufloat('1.5+/-0.5', tag='b'); t = ((1, 2), (3, x.std_dev())); m = umatrix(t); s = m.std_devs(); x.set_std_dev(y.std_dev()); w = unumpy.uarray(((1, 2), (0.1, 0.2))) *)
Definition p_library : tree := Node (SOther 0) [Node (SOther 61) [Node expr_stmt [Leaf NAME "" "x"; Leaf EQUAL " " "="; Node power [Leaf NAME " " "ufloat"; Node trailer [Leaf LPAR "" "("; Node arglist [Node atom [Leaf LPAR "" "("; Node testlist_gexp [Leaf NUMBER "" "1"; Leaf COMMA "" ","; Leaf NUMBER " " "2"]; Leaf RPAR "" ")"]; Leaf COMMA "" ","; Leaf STRING " " "'a'"]; Leaf RPAR "" ")"]]]; Leaf (Fixer.TOther 4) "" "
"]; Node (SOther 61) [Node expr_stmt [Leaf NAME "" "y"; Leaf EQUAL " " "="; Node power [Leaf NAME " " "uncertainties"; Node trailer [Leaf DOT "" "."; Leaf NAME "" "ufloat"]; Node trailer [Leaf LPAR "" "("; Node arglist [Leaf STRING "" "'1.5+/-0.5'"; Leaf COMMA "" ","; Node argument [Leaf NAME " " "tag"; Leaf EQUAL "" "="; Leaf STRING "" "'b'"]]; Leaf RPAR "" ")"]]]; Leaf (Fixer.TOther 4) "" "
"]; Node (SOther 61) [Node expr_stmt [Leaf NAME "" "t"; Leaf EQUAL " " "="; Node atom [Leaf LPAR " " "("; Node testlist_gexp [Node atom [Leaf LPAR "" "("; Node testlist_gexp [Leaf NUMBER "" "1"; Leaf COMMA "" ","; Leaf NUMBER " " "2"]; Leaf RPAR "" ")"]; Leaf COMMA "" ","; Node atom [Leaf LPAR " " "("; Node testlist_gexp [Leaf NUMBER "" "3"; Leaf COMMA "" ","; Node power [Leaf NAME " " "x"; Node trailer [Leaf DOT "" "."; Leaf NAME "" "std_dev"]; Node trailer [Leaf LPAR "" "("; Leaf RPAR "" ")"]]]; Leaf RPAR "" ")"]]; Leaf RPAR "" ")"]]; Leaf (Fixer.TOther 4) "" "
"]; Node (SOther 61) [Node expr_stmt [Leaf NAME "" "m"; Leaf EQUAL " " "="; Node power [Leaf NAME " " "umatrix"; Node trailer [Leaf LPAR "" "("; Leaf NAME "" "t"; Leaf RPAR "" ")"]]]; Leaf (Fixer.TOther 4) "" "
"]; Node (SOther 61) [Node expr_stmt [Leaf NAME "" "s"; Leaf EQUAL " " "="; Node power [Leaf NAME " " "m"; Node trailer [Leaf DOT "" "."; Leaf NAME "" "std_devs"]; Node trailer [Leaf LPAR "" "("; Leaf RPAR "" ")"]]]; Leaf (Fixer.TOther 4) "" "
"]; Node (SOther 61) [Node power [Leaf NAME "" "x"; Node trailer [Leaf DOT "" "."; Leaf NAME "" "set_std_dev"]; Node trailer [Leaf LPAR "" "("; Node power [Leaf NAME "" "y"; Node trailer [Leaf DOT "" "."; Leaf NAME "" "std_dev"]; Node trailer [Leaf LPAR "" "("; Leaf RPAR "" ")"]]; Leaf RPAR "" ")"]]; Leaf (Fixer.TOther 4) "" "
"]; Node (SOther 61) [Node expr_stmt [Leaf NAME "" "w"; Leaf EQUAL " " "="; Node power [Leaf NAME " " "unumpy"; Node trailer [Leaf DOT "" "."; Leaf NAME "" "uarray"]; Node trailer [Leaf LPAR "" "("; Node atom [Leaf LPAR "" "("; Node testlist_gexp [Node atom [Leaf LPAR "" "("; Node testlist_gexp [Leaf NUMBER "" "1"; Leaf COMMA "" ","; Leaf NUMBER " " "2"]; Leaf RPAR "" ")"]; Leaf COMMA "" ","; Node atom [Leaf LPAR " " "("; Node testlist_gexp [Leaf NUMBER "" "0.1"; Leaf COMMA "" ","; Leaf NUMBER " " "0.2"]; Leaf RPAR "" ")"]]; Leaf RPAR "" ")"]; Leaf RPAR "" ")"]]]; Leaf (Fixer.TOther 4) "" "
"]; Leaf (Fixer.TOther 0) "" ""].
(** pop().set_std_dev(pop()) *)
Definition p_order : tree := Node (SOther 0) [Node (SOther 61) [Node power [Leaf NAME "" "pop"; Node trailer [Leaf LPAR "" "("; Leaf RPAR "" ")"]; Node trailer [Leaf DOT "" "."; Leaf NAME "" "set_std_dev"]; Node trailer [Leaf LPAR "" "("; Node power [Leaf NAME "" "pop"; Node trailer [Leaf LPAR "" "("; Leaf RPAR "" ")"]]; Leaf RPAR "" ")"]]; Leaf (Fixer.TOther 4) "" "
"]; Leaf (Fixer.TOther 0) "" ""].
(** x = ufloat('1', 0.1) *)
Definition p_numtag : tree := Node (SOther 0) [Node (SOther 61) [Node expr_stmt [Leaf NAME "" "x"; Leaf EQUAL " " "="; Node power [Leaf NAME " " "ufloat"; Node trailer [Leaf LPAR "" "("; Node arglist [Leaf STRING "" "'1'"; Leaf COMMA "" ","; Leaf NUMBER " " "0.1"]; Leaf RPAR "" ")"]]]; Leaf (Fixer.TOther 4) "" "
"]; Leaf (Fixer.TOther 0) "" ""].

Definition Lib := Library (K := DecOps) uni.
Definition start : ps Lib := mkState [] [] [].
(** The variables at the end: nominal value, standard deviation and tag. *)
Definition tag_of (a : arg (K := DecOps)) : label := match a with ANone => TNone | AStr s => TStr s | ANum x => TNum x | _ => TOther end.
Definition shown (p : fl DecOps * fl DecOps * arg (K := DecOps)) : dec * dec * label := (fst (fst p), snd (fst p), tag_of (snd p)).
Definition result (r : res (state (K := DecOps))) : res (list (dec * dec * label)) :=
  match r with Ok s => Ok (map shown (vars s)) | Err e => Err e end.
Ltac is_careful := split; [intros ? ? ? ? ? ? ? ?; shape; fail|intros ? ? ? ? ? ? ?; shape; try (exfalso; congruence)].
Lemma ex_treated : everywhere treated p_library.
Proof. unfold p_library. all_powers; is_treated. Qed.
Lemma ex_independent : independent Lib (power_get Lib (map (meaning Lib) [Leaf NAME "" "x"]))
   (as_get Lib (meaning Lib (Node power [Leaf NAME "" "y"; Node trailer [Leaf DOT "" "."; Leaf NAME "" "std_dev"];
      Node trailer [Leaf LPAR "" "("; Leaf RPAR "" ")"]]))).
Proof.
  intros s o s1 v s2 H1 H2. cbn -[Lib] in *.
  apply bind_ok in H1 as (o' & s' & H1 & E). injection E as <- <-. unfold lift in H1. destruct (p_name Lib "x" s) as [ox|] eqn:Ex; [|discriminate H1].
  injection H1 as <- <-. exists s2. split; [exact H2|].
  assert (s2 = s) as ->.
  { apply bind_ok in H2 as (y & q & H2 & H3). unfold lift in H2. destruct (p_name Lib "y" s) as [oy|]; [|discriminate H2]. injection H2 as <- <-.
    apply bind_ok in H3 as (d & q & H2 & H3). apply bind_ok in H3 as (d' & q' & H3 & E). injection E as <- <-.
    assert (E := l_get _ _ _ _ _ (the_library DecOps uni) "std_dev" _ _ _ _ _ (or_introl eq_refl) H2 H3). injection E as -> ->.
    destruct oy; cbn in H2; try discriminate H2. destruct (nth_error _ _) as [[[? ?] ?]|]; [|discriminate H2]. injection H2 as _ <-. reflexivity.
    destruct matrix; discriminate H2. }
  apply bind_ok. exists ox, s. split; [unfold lift; rewrite Ex; reflexivity|reflexivity].
Qed.
Lemma ex_careful : everywhere (careful Lib is_number) p_library.
Proof.
  unfold p_library. all_powers; try is_careful.
  - split; [|intros ? ? ? ? ? ? ?; shape]. intros ? ? ? ? ? ? ? ?; shape; right.
    all: split; [split; [intros ?; shape|discriminate]|]. all: intros ?; shape.
  - split; [|intros ? ? ? ? ? ? ?; shape]. intros ? ? ? ? ? ? ? ?; shape; left. all: do 4 eexists; reflexivity.
  - exact ex_independent.
Qed.
Lemma ex_sets : sets_in_statements p_library.
Proof.
  unfold p_library. cbn [sets_in_statements fold_right]. repeat match goal with |- _ /\ _ => split end; try exact I; intros Hn; try (exfalso; apply Hn; reflexivity).
  all: repeat constructor; intros (? & ? & ? & ? & ? & ? & ?); shape.
Qed.
Definition num (m e : Z) : fl DecOps := DNum false m e.
Lemma ex_means : everywhere treated p_library /\ everywhere (careful Lib is_number) p_library /\ sets_in_statements p_library /\
  option_map show (refactor p_library) = Some "x = ufloat(1, 2, 'a')
y = uncertainties.ufloat_fromstr('1.5+/-0.5', tag='b')
t = ((1, 2), (3, x.std_dev))
m = umatrix(*t)
s = m.std_devs
x.std_dev = y.std_dev
w = unumpy.uarray((1, 2), (0.1, 0.2))
" /\ result (execute Lib p_library start) =
  Ok [(DNum false 1 0, DNum false 5 (-1), TStr (Str.lit "a")); (DNum false 15 (-1), DNum false 5 (-1), TStr (Str.lit "b"));
      (DNum false 1 0, DNum false 3 0, TNone); (DNum false 2 0, DNum false 2 0, TNone);
      (DNum false 1 0, DNum false 1 (-1), TNone); (DNum false 2 0, DNum false 2 (-1), TNone)].
Proof.
  split; [exact ex_treated|]. split; [exact ex_careful|]. split; [exact ex_sets|]. split; vm_compute; reflexivity.
Qed.
(** A list with a variable and a number. *)
Definition popped : ps Lib := mkState [(num 1 0, num 2 0, ANone)] [] [VVar 0; VNum (num 3 0)].
Definition run (p : option tree) (s : ps Lib) : res (list (dec * dec * label)) :=
  match p with Some t => result (execute Lib t s) | None => Err EUser end.
Lemma order_matters : show p_order = "pop().set_std_dev(pop())
" /\ option_map show (refactor p_order) = Some "pop().std_dev = pop()
" /\ everywhere treated p_order /\ sets_in_statements p_order /\
  run (Some p_order) popped = Ok [(DNum false 1 0, DNum false 3 0, TNone)] /\ run (refactor p_order) popped = Err EUser.
Proof.
  split; [reflexivity|]. split; [vm_compute; reflexivity|]. split; [unfold p_order; all_powers; is_treated|]. split; [|split; vm_compute; reflexivity].
  unfold p_order. cbn [sets_in_statements fold_right]. repeat match goal with |- _ /\ _ => split end; try exact I; intros Hn; try (exfalso; apply Hn; reflexivity).
  all: repeat constructor; intros (? & ? & ? & ? & ? & ? & ?); shape.
Qed.
Lemma number_as_tag : show p_numtag = "x = ufloat('1', 0.1)
" /\ option_map show (refactor p_numtag) = Some "x = ufloat_fromstr('1', 0.1)
" /\ everywhere treated p_numtag /\ sets_in_statements p_numtag /\
  run (Some p_numtag) start = Ok [(DNum false 1 0, DNum false 1 (-1), TNone)] /\
  run (refactor p_numtag) start = Ok [(DNum false 1 0, DNum false 1 0, TNum (DNum false 1 (-1)))].
Proof.
  split; [reflexivity|]. split; [vm_compute; reflexivity|]. split; [unfold p_numtag; all_powers; is_treated|]. split; [|split; vm_compute; reflexivity].
  unfold p_numtag. cbn [sets_in_statements fold_right]. repeat match goal with |- _ /\ _ => split end; try exact I; intros Hn; try (exfalso; apply Hn; reflexivity).
  all: repeat constructor; intros (? & ? & ? & ? & ? & ? & ?); shape.
Qed.
