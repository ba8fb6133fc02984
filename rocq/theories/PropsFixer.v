(** Property theorems about the code updater. *)
From Coq Require Import String.
From Coq Require Import ZArith List.
From Verif Require Import Base Str FmtOps Format Parse Fixer FixerSpec FixerProofs ExFixer PyEval PyLib PyInst PyEff ExFmt ExParse ExPy.
Import ListNotations.
Local Open Scope string_scope.
Local Open Scope list_scope.

(** ** C52 *)
(** C52. In any program in which set_std_dev() is only called at the end of an expression, with one positional argument and not on the result of an obsolete call, and in which uarray() and umatrix() are not called with a single starred or keyword argument: all the obsolete calls, at any depth, that start or end an expression are replaced by the current ones with the same arguments, and nothing else changes. *)
Theorem C52_updates_partial : forall t t', everywhere treated t -> refactor t = Some t' -> updated t t'.
Proof. exact updater_updates. Qed.
Print Assumptions C52_updates_partial.
(** The updater never fails. *)
Theorem C52_returns : forall t, exists t', refactor t = Some t'.
Proof. exact updater_total. Qed.
Print Assumptions C52_returns.
(** A program with several obsolete calls, some of them nested. *)
Example C52_example : everywhere treated p_mixed /\ ~ current p_mixed /\ option_map show (refactor p_mixed) =
  Some "f(ufloat(1, 2, 'a').std_dev, uarray(*t), u.ufloat_fromstr('1+/-2'))
x.std_dev = g(y)
".
Proof. exact ex_C52. Qed.
(** Such code without obsolete calls is not changed at all, layout included. *)
Theorem C52_keeps_current : forall t, everywhere treated t -> current t -> refactor t = Some t.
Proof. exact updater_keeps_current. Qed.
Print Assumptions C52_keeps_current.
Example C52_current_example : everywhere treated p_current /\ current p_current.
Proof. exact ex_C52_current. Qed.
(** Some obsolete calls are not updated: followed by an exponent; in a module of a package; before set_std_dev(). *)
Theorem C52_misses_refuted : map show [p_power; p_nested; p_both] = ["x.std_dev()**2
"; "a.b.ufloat((1, 2))
"; "ufloat((1, 2)).set_std_dev(3)
"] /\ map (fun p => option_map show (refactor p)) [p_power; p_nested; p_both] = [Some "x.std_dev()**2
"; Some "a.b.ufloat((1, 2))
"; Some "ufloat((1, 2)).std_dev = 3
"].
Proof. exact misses_text. Qed.
Print Assumptions C52_misses_refuted.
(** Keyword arguments, and set_std_dev() in an expression, are updated to code with another meaning. *)
Theorem C52_meaning_refuted : map show [p_keyword; p_assigned] = ["x.set_std_dev(value=3)
"; "y = x.set_std_dev(3)
"] /\ map (fun p => option_map show (refactor p)) [p_keyword; p_assigned] = [Some "x.std_dev = value=3
"; Some "y = x.std_dev = 3
"].
Proof. exact wrong_text. Qed.
Print Assumptions C52_meaning_refuted.
(** Updating twice may break code. *)
Theorem C52_fixed_point_refuted : show p_array = "uarray(t)
" /\ option_map show (refactor p_array) = Some (show p_star) /\ current p_star /\ option_map show (refactor p_star) = Some "uarray(**t)
".
Proof. exact not_fixed. Qed.
Print Assumptions C52_fixed_point_refuted.
(** ** C77 *)
(** C77. Whatever the values, states and other constructs of the language: if the functions of the library behave as described by library, a program that ends in some state ends in the same state once updated. *)
Theorem C77_same : forall (P : python) uf fromstr array number, library P uf fromstr array number ->
  forall t t', everywhere treated t -> everywhere (careful P number) t -> sets_in_statements t -> refactor t = Some t' ->
  forall s s', execute P t s = Ok s' -> execute P t' s = Ok s'.
Proof. exact updater_same. Qed.
Print Assumptions C77_same.
(** This is so for programs with the functions, variables, arrays and matrices of this repository, in any float arithmetic... *)
Theorem C77_library : forall (K : FmtOps) (U : Unicode) t t', everywhere treated t ->
  everywhere (careful (Library (K := K) U) is_number) t -> sets_in_statements t -> refactor t = Some t' ->
  forall s s', execute (Library (K := K) U) t s = Ok s' -> execute (Library (K := K) U) t' s = Ok s'.
Proof. exact library_same. Qed.
Print Assumptions C77_library.
(** ... because the obsolete forms are the current ones. *)
Theorem C77_laws : forall (K : FmtOps) (U : Unicode), library (Library (K := K) U) VUfloat VFromstr is_array is_number.
Proof. exact is_library. Qed.
Print Assumptions C77_laws.
(** What these functions do: new variables are added in order, one uncertainty is changed, values are read. *)
Theorem C77_effects : forall (K : FmtOps) (U : Unicode) (s : state (K := K)), let Lib := Library (K := K) U in
  (forall v u t, p_call Lib VUfloat [VNum v; VNum u; VStr t] [] s =
     if below0 K u then Err ENegStd else Ok (VVar (length (vars s)), mkState (vars s ++ [(v, u, AStr t)]) (names s) (items s))) /\
  (forall m ns us, length ns = length us -> Forall (fun u => below0 K u = false) us ->
     p_call Lib (VUarray m) [VTup (map VNum ns); VTup (map VNum us)] [] s =
       Ok (VArray m (seq (length (vars s)) (length ns)), mkState (vars s ++ map (fun p => (fst p, snd p, ANone)) (List.combine ns us)) (names s) (items s))) /\
  (forall i v u0 t u, nth_error (vars s) i = Some (v, u0, t) ->
     if below0 K u then p_setattr Lib (VVar i) "std_dev" (VNum u) s = Err ENegStd
     else exists s', p_setattr Lib (VVar i) "std_dev" (VNum u) s = Ok (tt, s') /\ names s' = names s /\ items s' = items s /\
       length (vars s') = length (vars s) /\ nth_error (vars s') i = Some (v, u, t) /\ forall j, j <> i -> nth_error (vars s') j = nth_error (vars s) j) /\
  (forall i v u t, nth_error (vars s) i = Some (v, u, t) ->
     p_attr Lib (VVar i) "nominal_value" s = Ok (VNum v, s) /\ p_attr Lib (VVar i) "std_dev" s = Ok (VStdDev u, s)) /\
  (forall l, Forall (fun i => (i < length (vars s))%nat) l -> exists us, p_attr Lib (VArray true l) "std_devs" s = Ok (VStdDevs us, s) /\
     Forall2 (fun i u => exists v t, nth_error (vars s) i = Some (v, u, t)) l us).
Proof. exact library_effects. Qed.
Print Assumptions C77_effects.
(** Calls with too many arguments, unknown keywords, or the same parameter twice raise TypeError. *)
Theorem C77_arguments : forall (K : FmtOps) (U : Unicode) (s : state (K := K)) pos kw, let Lib := Library (K := K) U in
  (~ fits K ["nominal_value"; "std_dev"; "tag"] pos kw -> p_call Lib VUfloat pos kw s = Err EType) /\
  (~ fits K ["representation"; "tag"] pos kw -> p_call Lib VFromstr pos kw s = Err EType) /\
  (forall m, ~ fits K ["nominal_values"; "std_devs"] pos kw -> p_call Lib (VUarray m) pos kw s = Err EType) /\
  (forall x, ~ fits K [] pos kw -> p_call Lib (VStdDev x) pos kw s = Err EType) /\
  (forall l, ~ fits K [] pos kw -> p_call Lib (VStdDevs l) pos kw s = Err EType).
Proof. exact library_arguments. Qed.
Print Assumptions C77_arguments.
Example C77_arguments_example : forall K : FmtOps, ~ fits K ["nominal_value"; "std_dev"; "tag"] [VNone] [("nominal_value", VNone)] /\
  fits K ["nominal_value"; "std_dev"; "tag"] [VNone] [("tag", VNone); ("std_dev", VNone)].
Proof. exact ex_arguments. Qed.
Example C77_example : everywhere treated p_library /\ everywhere (careful Lib is_number) p_library /\ sets_in_statements p_library /\
  option_map show (refactor p_library) = Some "x = ufloat(1, 2, 'a')
y = uncertainties.ufloat_fromstr('1.5+/-0.5', tag='b')
t = ((1, 2), (3, x.std_dev))
m = umatrix(*t)
s = m.std_devs
x.std_dev = y.std_dev
w = unumpy.uarray((1, 2), (0.1, 0.2))
" /\ result (execute Lib p_library start) =
  Ok [(DNum false 1 0, DNum false 5 (-1), TStr (Str.lit "a")); (DNum false 15 (-1), DNum false 5 (-1), TStr (Str.lit "b"));
      (DNum false 1 0, DNum false 3 0, TNone); (DNum false 2 0, DNum false 2 0, TNone);
      (DNum false 1 0, DNum false 1 (-1), TNone); (DNum false 2 0, DNum false 2 (-1), TNone)].
Proof. exact ex_means. Qed.
(** If the order of evaluation matters, set_std_dev() is not updated to code with the same meaning. *)
Theorem C77_order_refuted : show p_order = "pop().set_std_dev(pop())
" /\ option_map show (refactor p_order) = Some "pop().std_dev = pop()
" /\ everywhere treated p_order /\ sets_in_statements p_order /\
  run (Some p_order) popped = Ok [(DNum false 1 0, DNum false 3 0, TNone)] /\ run (refactor p_order) popped = Err EUser.
Proof. exact order_matters. Qed.
Print Assumptions C77_order_refuted.
(** A number given with a string that is a number is the uncertainty, and becomes a tag. *)
Theorem C77_number_refuted : show p_numtag = "x = ufloat('1', 0.1)
" /\ option_map show (refactor p_numtag) = Some "x = ufloat_fromstr('1', 0.1)
" /\ everywhere treated p_numtag /\ sets_in_statements p_numtag /\
  run (Some p_numtag) start = Ok [(DNum false 1 0, DNum false 1 (-1), TNone)] /\
  run (refactor p_numtag) start = Ok [(DNum false 1 0, DNum false 1 0, TNum (DNum false 1 (-1)))].
Proof. exact number_as_tag. Qed.
Print Assumptions C77_number_refuted.
