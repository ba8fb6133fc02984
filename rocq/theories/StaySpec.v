(** Anything that can happen after a point of a program. Specification only. *)
From Coq Require Import ZArith List Bool Relation_Operators.
From Verif Require Import Base Heap Affine Ops UMath Machine Cov Calls Unumpy UMatrix History.
Import ListNotations.

Section StaySpec.
Context {N : NumOps}.
(** One statement or call, with any outcome (exceptions too). *)
Inductive happens : state N -> state N -> Prop :=
| h_statement : forall st ins st' o, does st ins st' o -> happens st st'
| h_call : forall st c, happens st (fst (call_step st c))
| h_covariance : forall order st is r st', covariance order st is r st' -> happens st st'
| h_correlation : forall order st is r st', correlation order st is r st' -> happens st st'
| h_array : forall order fw st ia r st', array_call (uncert_func order fw) st ia r st' -> happens st st'
| h_wrapped : forall order f st ia r st', array_call (wrap_array_func order f) st ia r st' -> happens st st'
| h_operator : forall op st ia ja r st', array_call2 (array_op op) st ia ja r st' -> happens st st'
| h_product : forall st ia ja r st', array_call2 obj_matmul st ia ja r st' -> happens st st'.
Definition afterwards : state N -> state N -> Prop := clos_refl_trans_1n _ happens.
End StaySpec.
