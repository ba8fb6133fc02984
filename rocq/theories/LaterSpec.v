(** A calculation that is repeated later. Specification only. *)
From Coq Require Import ZArith List Bool.
From Verif Require Import Base Heap Affine Ops UMath Machine Cov Calls Unumpy UMatrix History DepSpec TwinSpec.
Import ListNotations.

Section LaterSpec.
Context {N : NumOps}.
(** The results that a statement uses. *)
Definition operands (ins : instr N) : list nat :=
  match ins with
  | INew _ _ _ | IConst _ => []
  | IBin _ i j | ICmp _ i j => [i; j]
  | ICall _ _ _ args kw => args ++ map snd kw
  | IModf i | ILdexp i _ | IDeriv i | IStd i | IStdS i | IErrs i | ISet i _ | IBool i | IScore i _ => [i]
  end.
(** The same statement with other names for the results that it uses. *)
Definition rename (f : nat -> nat) (ins : instr N) : instr N :=
  match ins with
  | INew n s t => INew n s t | IConst p => IConst p
  | IBin op i j => IBin op (f i) (f j) | ICmp c i j => ICmp c (f i) (f j)
  | ICall g p k args kw => ICall g p k (map f args) (map (fun q => (fst q, f (snd q))) kw)
  | IModf i => IModf (f i) | ILdexp i e => ILdexp (f i) e | IDeriv i => IDeriv (f i) | IStd i => IStd (f i) | IStdS i => IStdS (f i)
  | IErrs i => IErrs (f i) | ISet i s => ISet (f i) s | IBool i => IBool (f i) | IScore i p => IScore (f i) p
  end.
(** The results of a program that starts with [n] results, when it starts with [n'] results. *)
Definition shifted (n n' i : nat) : nat := if Nat.ltb i n then i else (i - n) + n'.
(** A plain value, or a number whose derivatives have been read. *)
Definition settled (st : state N) (i : nat) : Prop :=
  (exists p, nth_error (st_env st) i = Some (VPlain p)) \/
  exists u d, is_number st i u /\ does st (IDeriv i) st (ODict d) /\ readable st i d.
(** The variables of result [i] have the same standard deviations in both states. *)
Definition same_deviations (st st' : state N) (i : nat) : Prop :=
  forall u d v, is_number st i u -> reads st (IDeriv i) (ODict d) -> In v (dkeys d) \/ uf_var u = Some v -> sd st' v = sd st v.
(** Result [i] of a program that uses results of [st] only if they are settled. *)
Definition uses_settled (st st' : state N) (prog : list (instr N)) : Prop :=
  forall ins i, In ins prog -> In i (operands ins) -> (i < length (st_env st))%nat -> settled st i /\ same_deviations st st' i.
End LaterSpec.
