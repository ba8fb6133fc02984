(** Specification: where the elementary operations are differentiable. Independent of the
    derivative formulas of the code. *)
From Coq Require Import ZArith List Bool Reals.
From Verif Require Import Base Heap Affine Ops UMath NumR HeapSpec Machine Plain.
From Flocq Require Import Core.
Import ListNotations.
Local Open Scope R_scope.

Definition integral (y : R) : Prop := exists z : Z, y = IZR z.

(** Interior of the domain of the functions of one variable; gamma and lgamma are
    differentiated numerically and left out. *)
Definition m1_dom (f : mfun1) (x : R) : Prop :=
  match f with
  | F_acos | F_asin | F_atanh => -1 < x < 1
  | F_acosh => 1 < x
  | F_fabs => x <> 0
  | F_log | F_log10 | F_sqrt => 0 < x
  | F_log1p => -1 < x
  | F_tan => cos x <> 0
  | F_gamma | F_lgamma => False
  | _ => True
  end.

(** x^y, the booleans telling which operands vary. *)
Definition pow_dom (bx by_ : bool) (x y : R) : Prop :=
  0 < x \/
  (by_ = false /\ integral y /\ (x <> 0 \/ 0 <= y)) \/
  (bx = false /\ x = 0 /\ 0 < y).

Definition m2_dom (f : mfun2) (bx by_ : bool) (x y : R) : Prop :=
  match f with
  | G_atan2 => 0 < y \/ x <> 0               (* atan2(x, y) outside of its cut *)
  | G_copysign => x <> 0 /\ y <> 0
  | G_hypot => x <> 0 \/ y <> 0
  | G_log => 0 < x /\ 0 < y /\ y <> 1
  | G_pow => pow_dom bx by_ x y
  | G_fmod => False                           (* numerical *)
  end.

Definition op_dom (op : binop) (bx by_ : bool) (x y : R) : Prop :=
  match op with
  | Badd | Bsub | Bmul => True
  | Btruediv => y <> 0
  | Bfloordiv => y <> 0 /\ ~ integral (x / y)
  | Bmod => y <> 0 /\ ~ integral (x / y) /\
      (* the derivative with respect to y is a finite difference of half-width h; it is exact
         when no jump of x//y lies within *)
      (by_ = true -> let h := bpow radix2 (-26) * Rabs y in
         Zfloor (x / (y + h)) = Zfloor (x / y) /\ Zfloor (x / (y - h)) = Zfloor (x / y))
  | Bpow => pow_dom bx by_ x y
  end.

Definition unop_dom (op : unop) (x : R) : Prop :=
  match op with
  | Uabs => x <> 0
  | Uneg | Upos => True
  | Utrunc => ~ integral x
  end.

(** Calculations made of the package's operations, used inside these domains. *)
Section InDomain.
Context {g lg : R -> R}.
Notation RN := (ROps g lg).

(** Operands that depend on a variable are floats. *)
Definition okn (p : pynum RN) (b : bool) : Prop := b = true -> exists x : R, p = PF (N:=RN) x.
Definition okargs (args : list (pentry (N:=RN))) : Prop :=
  forall a b, In (a, b) args -> exists p, a = PNum p /\ okn p b.

(** Calls of unary operators, of umath functions, of umath.fsum. *)
Inductive builtin_call : pyfun RN -> (nat -> pyder RN) -> (nat -> pyder RN) ->
  list (pentry (N:=RN)) -> Prop :=
| bc_unop : forall op (x : R), unop_dom op x ->
    builtin_call (unop_fun op) (unop_pos op) no_kw [(PNum (PF (N:=RN) x), true)]
| bc_umath1 : forall f (x : R), m1_dom f x ->
    builtin_call (m1_fun f) (m1_pos f) (m1_kw f) [(PNum (PF (N:=RN) x), true)]
| bc_umath2 : forall f p q bp bq, okn p bp -> okn q bq -> m2_dom f bp bq (pval p) (pval q) ->
    builtin_call (m2_fun f) (m2_pos f) (m2_kw f) [(PNum p, bp); (PNum q, bq)]
| bc_fsum : forall args, okargs args ->
    builtin_call flat_fsum fsum_pos fsum_kw args.

Definition in_domain_ins (env : list (pentry (N:=RN))) (ins : instr RN) : Prop :=
  match ins with
  | IBin op i j =>
      exists p q bx by_, pargs env [i; j] = Some [(PNum p, bx); (PNum q, by_)] /\
        okn p bx /\ okn q by_ /\ bx || by_ = true /\ op_dom op bx by_ (pval p) (pval q) /\
        (* int % number with uncertainty raises TypeError *)
        (op = Bmod -> by_ = true -> exists x : R, p = PF (N:=RN) x)
  | ICall f pos kwd args kw =>
      exists a, pargs env args = Some a /\ kw = [] /\ builtin_call f pos kwd a
  | IModf i =>
      match nth_error env i with
      | Some (PNum (PF x), true) => ~ integral x
      | _ => True
      end
  | _ => True
  end.
Fixpoint in_domain (xs : nat -> R) (ps : pstate (N:=RN)) (prog : list (instr RN)) : Prop :=
  match prog with
  | [] => True
  | ins :: prog' =>
      in_domain_ins (p_env ps) ins /\ in_domain xs (pstep (N:=RN) xs ps ins) prog'
  end.
End InDomain.
