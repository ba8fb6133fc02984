(** Property theorems: nominal values and histories. *)
From Coq Require Import ZArith List Bool Reals.
From Verif Require Import Base Heap Affine Ops UMath Machine Plain PlainProofs NumR NumF FRefute.
Import ListNotations.

(** C01. Whatever the float arithmetic, the nominal values of a calculation with numbers with
    uncertainties are what the same calculation gives on plain floats. *)
Theorem C01_nominal_values : forall (N : NumOps) fuel (prog : list (instr N)),
  forallb simple prog = true ->
  defined_ok prog (snd (run fuel init prog)) ->
  map nominal_value (st_env (fst (run fuel init prog))) =
  map fst (p_env (peval (x0_of prog) pinit prog)).
Proof. exact @nominal_plain. Qed.
Print Assumptions C01_nominal_values.
(** 0.1*v + 0.2*v + 0.3*v in binary64. *)
Example C01_example : forallb simple tenths = true /\ defined_ok tenths (snd (run 40 init tenths)).
Proof. exact ex_C01. Qed.
