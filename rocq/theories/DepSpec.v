(** Which variables a number depends on, in any arithmetic. Specification only: nothing here
    refers to the way in which linear combinations are stored or expanded. *)
From Coq Require Import ZArith List Bool.
From Verif Require Import Base Heap HeapSpec Affine Ops UMath Machine Cov Calls Unumpy UMatrix History.
Import ListNotations.

Section Dep.
Context {N : NumOps}.

(** Statements that read uncertainties. *)
Definition reading (ins : instr N) : bool :=
  match ins with
  | IDeriv _ | IStd _ | IStdS _ | IErrs _ | ICmp _ _ _ | IBool _ | IScore _ _ => true
  | _ => false
  end.
Definition raised (o : out N) : Prop := exists e, o = OExn e.

(** Statements that read the uncertainty of result number [i]. *)
Definition about (i : nat) (ins : instr N) : Prop :=
  ins = IDeriv i \/ ins = IErrs i \/ ins = IStd i \/ ins = IStdS i \/ exists p, ins = IScore i p.

(** Anything that a program can do, except for reads that raise an exception (C34). *)
Inductive acts : state N -> state N -> Prop :=
| act_statement : forall st ins st' o, does st ins st' o -> (reading ins = true -> ~ raised o) -> acts st st'
| act_call : forall st c, acts st (fst (call_step st c))
| act_covariance : forall order st is m st', covariance order st is (Ok m) st' -> acts st st'
| act_correlation : forall order st is m st', correlation order st is (Ok m) st' -> acts st st'
| act_array : forall order fw st ia ir st', array_call (uncert_func order fw) st ia (Ok ir) st' -> acts st st'
| act_wrapped : forall order f st ia ir st', array_call (wrap_array_func order f) st ia (Ok ir) st' -> acts st st'
| act_operator : forall op st ia ja r st', array_call2 (array_op op) st ia ja r st' -> acts st st'
| act_product : forall st ia ja r st', array_call2 obj_matmul st ia ja r st' -> acts st st'.

(** The variables of the arguments of a function; [L] gives those of the results so far. *)
Inductive operands (st : state N) (L : list (option (list varid))) : list nat -> list varid -> Prop :=
| operands_nil : operands st L [] []
| operands_plain : forall j a js vs, nth_error (st_env st) j = Some (VPlain a) -> operands st L js vs ->
    operands st L (j :: js) vs
| operands_number : forall j u js ws vs, is_number st j u -> nth_error L j = Some (Some ws) -> operands st L js vs ->
    operands st L (j :: js) (ws ++ vs).

(** Histories, with the variables on which results depend: new variables, operators and functions of
    numbers with known variables; whatever else happens in between. *)
Inductive history : state N -> list (option (list varid)) -> Prop :=
| history_init : history init []
| history_new : forall st L n s tag st' u v, history st L -> does st (INew n s tag) st' ONone ->
    is_number st' (length (st_env st)) u -> uf_var u = Some v -> history st' (L ++ [Some [v]])
| history_operator : forall st L op i j st' u vs, history st L -> does st (IBin op i j) st' ONone ->
    is_number st' (length (st_env st)) u -> operands st L [i; j] vs -> history st' (L ++ [Some vs])
| history_function : forall st L f pos kwd args kw st' u vs, history st L ->
    does st (ICall f pos kwd args kw) st' ONone -> is_number st' (length (st_env st)) u ->
    operands st L (args ++ map snd kw) vs -> history st' (L ++ [Some vs])
| history_modf : forall st L i st' u vs, history st L -> does st (IModf i) st' ONone ->
    is_number st' (length (st_env st)) u -> operands st L [i] vs -> history st' (L ++ [Some vs])
| history_ldexp : forall st L i e st' u vs, history st L -> does st (ILdexp i e) st' ONone ->
    is_number st' (length (st_env st)) u -> operands st L [i] vs -> history st' (L ++ [Some vs])
| history_other : forall st L st', history st L -> acts st st' ->
    history st' (L ++ repeat None (length (st_env st') - length (st_env st))).
End Dep.
