(** Specification: differentiability of functions of several real variables, and calculations
    whose elementary functions are differentiable at the values where they are used. *)
From Coq Require Import ZArith List Bool Reals.
From Verif Require Import Base Heap Affine Ops UMath NumR HeapSpec Machine Plain.
Import ListNotations.
Local Open Scope R_scope.

(** Norm and scalar product on the first [n] coordinates. *)
Definition nrm (n : nat) (h : nat -> R) : R := Rsum (map (fun i => Rabs (h i)) (seq 0 n)).
Definition dot (n : nat) (c h : nat -> R) : R := Rsum (map (fun i => c i * h i) (seq 0 n)).

(** [F], a partial function of [n] real variables, is defined around [x0] and has there the
    total derivative (gradient) [gr]. *)
Definition fdiff (n : nat) (F : (nat -> R) -> option R) (x0 gr : nat -> R) : Prop :=
  exists y0, F x0 = Some y0 /\
  forall eps, 0 < eps -> exists dlt, 0 < dlt /\
  forall x, nrm n (fun i => x i - x0 i) < dlt ->
  exists y, F x = Some y /\
    Rabs (y - y0 - dot n gr (fun i => x i - x0 i)) <= eps * nrm n (fun i => x i - x0 i).

(** The point [x0] with coordinate [v] replaced by [t]. *)
Definition upd (x0 : nat -> R) (v : nat) (t : R) (i : nat) : R :=
  if Nat.eqb i v then t else x0 i.

Section Regular.
Context {g lg : R -> R}.
Notation RN := (ROps g lg).
Notation pentry := (pentry (N:=RN)).

(** Arguments of a call with the uncertain ones replaced by the reals [z i], [z (i+1)], ... *)
Fixpoint fillp (i : nat) (args : list pentry) (z : nat -> R) : pargs_t RN :=
  match args with
  | [] => []
  | (a, true) :: r => PNum (PF (N:=RN) (z i)) :: fillp (S i) r z
  | (a, false) :: r => a :: fillp (S i) r z
  end.
Fixpoint fillk (i : nat) (kw : list (nat * pentry)) (z : nat -> R) : pkwargs_t RN :=
  match kw with
  | [] => []
  | (k, (a, true)) :: r => (k, PNum (PF (N:=RN) (z i))) :: fillk (S i) r z
  | (k, (a, false)) :: r => (k, a) :: fillk (S i) r z
  end.
(** f as a function of its uncertain arguments. *)
Definition callG (f : pyfun RN) (args : list pentry) (kw : list (nat * pentry)) (z : nat -> R)
  : option R :=
  match f (fillp 0 args z) (fillk (length args) kw z) with
  | Ok (PNum p) => Some (pval p)
  | _ => None
  end.
(** Nominal values of the arguments, numbered the same way. *)
Definition enum (a : pentry) : R := match fst a with PNum p => pval p | _ => 0 end.
Definition call_at (args : list pentry) (kw : list (nat * pentry)) (i : nat) : R :=
  nth i (map enum args ++ map (fun p => enum (snd p)) kw) 0.

(** The derivative functions [pos] and [kwd] are the partial derivatives of [f] at the given
    arguments, with respect to the uncertain ones. *)
Definition regular_call (f : pyfun RN) (pos kwd : nat -> pyder RN) (args : list pentry)
  (kw : list (nat * pentry)) : Prop :=
  exists c : nat -> R,
    fdiff (length args + length kw) (callG f args kw) (call_at args kw) c /\
    (forall i a, nth_error args i = Some (a, true) ->
       exists p, pos i (map fst args) (kw_plain kw) = Ok p /\ pval p = c i) /\
    (forall i k a, nth_error kw i = Some (k, (a, true)) ->
       exists p, kwd k (map fst args) (kw_plain kw) = Ok p /\ pval p = c (length args + i)%nat).

(** Conditions on one statement, given the plain values of its operands. *)
Definition regular_ins (env : list pentry) (ins : instr RN) : Prop :=
  match ins with
  | IBin op i j =>
      match pargs env [i; j] with
      | Some [a; b] =>
          if snd a then regular_call (float_method op) (op_pos op) no_kw [a; b] []
          else regular_call (float_rmethod op) (rop_pos op) no_kw [b; a] []
      | _ => True
      end
  | ICall f pos kwd args kw =>
      match pargs env args, pkwargs env kw with
      | Some a, Some k =>
          any_dep a || any_dep (map snd k) = true -> regular_call f pos kwd a k
      | _, _ => True
      end
  | IModf i =>
      match nth_error env i with
      | Some (PNum (PF x), true) =>
          fdiff 1 (fun z => Some (fst (n_modf RN (z 0%nat)))) (fun _ => x) (fun _ => 1)
      | _ => True
      end
  | _ => True
  end.
Fixpoint regular (xs : nat -> R) (ps : pstate (N:=RN)) (prog : list (instr RN)) : Prop :=
  match prog with
  | [] => True
  | ins :: prog' => regular_ins (p_env ps) ins /\ regular xs (pstep (N:=RN) xs ps ins) prog'
  end.

(** Value of result number [i] of the program as a function of the values of its variables. *)
Definition result (prog : list (instr RN)) (i : nat) (xs : nat -> R) : option R :=
  match nth_error (p_env (peval (N:=RN) xs pinit prog)) i with
  | Some (PNum p, true) => Some (pval p)
  | _ => None
  end.
End Regular.
