(** Plain evaluation: the same program run on floats, the k-th variable being replaced by a
    float [xs k]. No number with uncertainty, no heap. Specification only. *)
From Coq Require Import ZArith List Bool.
From Verif Require Import Base Heap Affine Ops UMath Machine.
Import ListNotations.

Section Plain.
Context {N : NumOps}.
Local Open Scope res_scope.

(** A plain value and whether it was calculated from a variable. *)
Definition pentry := (plain N * bool)%type.
Record pstate := mkP { p_env : list pentry; p_nv : nat }.
Definition pinit : pstate := mkP [] 0.

(** Results that depend on a variable are converted to float, as they would be if the program
    used numbers with uncertainties (whose nominal values are floats); a result that is not a
    number becomes NotImplemented (core.py 703-714), a complex one is refused. *)
Definition to_float (r : res (plain N)) : res pentry :=
  a <- r ;;
  match a with
  | PNum p => x <- pn_float p ;; Ok (PNum (PF x), true)
  | PComplex => Err EType
  | _ => Ok (PNotImpl, false)
  end.

Definition ppush (ps : pstate) (r : res pentry) : pstate :=
  mkP (p_env ps ++ [match r with Ok e => e | Err _ => (POther 0, false) end]) (p_nv ps).

Fixpoint pargs (env : list pentry) (is : list nat) : option (list pentry) :=
  match is with
  | [] => Some []
  | i :: is' =>
      match nth_error env i, pargs env is' with
      | Some a, Some l => Some (a :: l)
      | _, _ => None
      end
  end.
Fixpoint pkwargs (env : list pentry) (ks : list (nat * nat)) : option (list (nat * pentry)) :=
  match ks with
  | [] => Some []
  | (k, i) :: ks' =>
      match nth_error env i, pkwargs env ks' with
      | Some a, Some l => Some ((k, a) :: l)
      | _, _ => None
      end
  end.
Definition any_dep (args : list pentry) : bool := existsb snd args.
Definition kw_plain (kw : list (nat * pentry)) : pkwargs_t N :=
  map (fun p => (fst p, fst (snd p))) kw.

(** a op b on floats (an int operand is converted). *)
Definition pbin (op : binop) (a b : pentry) : res pentry :=
  match fst a, fst b with
  | PNum p, PNum q =>
      if snd a || snd b
      then to_float (x <- pn_float p ;; y <- pn_float q ;; float_op op x y)
      else Err EType
  | _, _ => Err EType
  end.

Definition pcall (f : pyfun N) (args : list pentry) (kw : list (nat * pentry)) : res pentry :=
  let r := f (map fst args) (kw_plain kw) in
  if any_dep args || any_dep (map snd kw) then to_float r
  else a <- r ;; Ok (a, false).

Definition pmodf (a : pentry) : res pentry :=
  match fst a with
  | PNum p => x <- pn_float p ;; Ok (PNum (PF (fst (n_modf N x))), snd a)
  | _ => Err EType
  end.
Definition pldexp (a : pentry) (e : Z) : res pentry :=
  match fst a with
  | PNum p => x <- pn_float p ;; r <- n_ldexp N x e ;; Ok (PNum (PF r), snd a)
  | _ => Err EType
  end.

Definition pstep (xs : nat -> num N) (ps : pstate) (ins : instr N) : pstate :=
  let env := p_env ps in
  match ins with
  | INew _ _ _ => mkP (env ++ [(PNum (PF (xs (p_nv ps))), true)]) (S (p_nv ps))
  | IConst p => ppush ps (Ok (PNum p, false))
  | IBin op i j =>
      ppush ps (match pargs env [i; j] with Some [a; b] => pbin op a b | _ => Err EUser end)
  | ICall f _ _ args kw =>
      ppush ps (match pargs env args, pkwargs env kw with
                | Some a, Some k => pcall f a k
                | _, _ => Err EUser
                end)
  | IModf i => ppush ps (match nth_error env i with Some a => pmodf a | None => Err EUser end)
  | ILdexp i e =>
      ppush ps (match nth_error env i with Some a => pldexp a e | None => Err EUser end)
  | _ => ps
  end.
Fixpoint peval (xs : nat -> num N) (ps : pstate) (prog : list (instr N)) : pstate :=
  match prog with [] => ps | ins :: prog' => peval xs (pstep xs ps ins) prog' end.

(** Statements that define a result, and histories in which none of them raised. *)
Definition defines (ins : instr N) : bool :=
  match ins with
  | INew _ _ _ | IConst _ | IBin _ _ _ | ICall _ _ _ _ _ | IModf _ | ILdexp _ _ => true
  | _ => false
  end.
Definition is_exn (o : out N) : bool := match o with OExn _ => true | _ => false end.
Definition defined_ok (prog : list (instr N)) (outs : list (out N)) : Prop :=
  Forall2 (fun ins o => defines ins = true -> is_exn o = false) prog outs.

(** Nominal values given to the variables of a program, in order of creation. *)
Fixpoint noms (prog : list (instr N)) : list (num N) :=
  match prog with
  | [] => []
  | INew n _ _ :: prog' =>
      (match pn_float n with Ok x => x | Err _ => n_zero N end) :: noms prog'
  | _ :: prog' => noms prog'
  end.
Definition x0_of (prog : list (instr N)) (k : nat) : num N := nth k (noms prog) (n_zero N).

End Plain.
