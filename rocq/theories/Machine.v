(** Histories of API calls: a machine that runs straight-line programs mixing creation of
    variables, calculations, reads and updates. No proofs in this file. *)
From Coq Require Import ZArith List Bool.
From Verif Require Import Base Heap Affine Ops UMath.
Import ListNotations.

Section Machine.
Context {N : NumOps}.

(** One statement of a user program. Operands are indices of earlier results. [ICall] is the
    call of any function returned by wrap() (core.py 436-773), with the derivatives selected
    for each argument: all umath functions and unary operators are of this form
    ([UMath.umath1], [UMath.umath2], [UMath.umath_fsum], [Ops.py_unop]). *)
Inductive instr :=
| INew (n s : pynum N) (tag : option nat)         (* x = ufloat(n, s, tag) *)
| IConst (p : pynum N)                            (* x = 3 or x = 3.5 *)
| IBin (op : binop) (i j : nat)                   (* x = a op b *)
| ICall (f : pyfun N) (pos kwd : nat -> pyder N) (args : list nat) (kw : list (nat * nat))
                                                  (* x = f(a, ..., k=b, ...) *)
| IModf (i : nat)                                 (* x = umath.modf(a)[0] *)
| ILdexp (i : nat) (e : Z)                        (* x = umath.ldexp(a, e) *)
| IDeriv (i : nat)                                (* read a.derivatives *)
| IStd (i : nat)                                  (* read a.std_dev *)
| IStdS (i : nat)                                 (* read a.s *)
| IErrs (i : nat)                                 (* read a.error_components() *)
| ISet (i : nat) (s : pynum N)                    (* a.std_dev = s *)
| ICmp (c : cmpop) (i j : nat)                    (* read a == b, a < b, ... *)
| IBool (i : nat)                                 (* read bool(a) *)
| IScore (i : nat) (p : pynum N).                 (* read a.std_score(p) *)

(** What the program observes after a statement. *)
Inductive out :=
| ONone | ODict (d : dict N) | OErrs (l : list (varid * pynum N)) | ONum (x : num N)
| OBool (b : bool) | OExn (e : exn).

Record state := mkState { st_heap : heap N; st_env : list (value N) }.
Definition init : state := mkState empty_heap [].

(** A statement that raises leaves None ([VPlain (POther 0)]) as its result. *)
Definition push (st : state) (r : res (value N) * heap N) : state * out :=
  match r with
  | (Ok a, h) => (mkState h (st_env st ++ [a]), ONone)
  | (Err e, h) => (mkState h (st_env st ++ [VPlain (POther 0)]), OExn e)
  end.
Definition observe {A} (st : state) (f : A -> out) (r : res A * heap N) : state * out :=
  match r with
  | (Ok a, h) => (mkState h (st_env st), f a)
  | (Err e, h) => (mkState h (st_env st), OExn e)
  end.

(** Undefined names raise NameError, an exception of the user program. *)
Definition with_val (st : state) (i : nat) (k : value N -> state * out) : state * out :=
  match nth_error (st_env st) i with
  | Some a => k a
  | None => (mkState (st_heap st) (st_env st), OExn EUser)
  end.
(** Reading an attribute that plain numbers do not have raises AttributeError. *)
Definition with_uf (st : state) (i : nat) (k : uf N -> state * out) : state * out :=
  with_val st i (fun a => match a with VUF u => k u | _ => (st, OExn EAttr) end).

Fixpoint get_args (env : list (value N)) (is : list nat) : option (args_t N) :=
  match is with
  | [] => Some []
  | i :: is' =>
      match nth_error env i, get_args env is' with
      | Some a, Some l => Some (a :: l)
      | _, _ => None
      end
  end.
Fixpoint get_kwargs (env : list (value N)) (ks : list (nat * nat)) : option (kwargs_t N) :=
  match ks with
  | [] => Some []
  | (k, i) :: ks' =>
      match nth_error env i, get_kwargs env ks' with
      | Some a, Some l => Some ((k, a) :: l)
      | _, _ => None
      end
  end.

(** Comparison a op b in Python when the left operand is a number with uncertainty;
    NotImplemented leads to Python's fallback, here an exception of the user program for
    orderings and False/True for == and !=. *)
Definition py_cmp (fuel : nat) (c : cmpop) (x : uf N) (b : value N) : M N bool :=
  bind (method_cmp fuel c x b) (fun r =>
    match r, c with
    | Some t, _ => ret t
    | None, Ceq => ret false
    | None, Cne => ret true
    | None, _ => raise EType
    end).

Definition step (fuel : nat) (st : state) (ins : instr) : state * out :=
  let h := st_heap st in
  match ins with
  | INew n s tag =>
      push st (match new_var n s tag h with
               | (Ok u, h') => (Ok (VUF u), h')
               | (Err e, h') => (Err e, h')
               end)
  | IConst p => push st (Ok (VNum p), h)
  | IBin op i j =>
      match get_args (st_env st) [i; j] with
      | Some [a; b] => push st (py_binop op a b h)
      | _ => push st (Err EUser, h)
      end
  | ICall f pos kwd args kw =>
      match get_args (st_env st) args, get_kwargs (st_env st) kw with
      | Some a, Some k => push st (wcall f pos kwd a k h)
      | _, _ => push st (Err EUser, h)
      end
  | IModf i =>
      match nth_error (st_env st) i with
      | Some a => push st (match umath_modf a h with
                           | (Ok (fr, _), h') => (Ok fr, h')
                           | (Err e, h') => (Err e, h')
                           end)
      | None => push st (Err EUser, h)
      end
  | ILdexp i e =>
      match nth_error (st_env st) i with
      | Some a => push st (umath_ldexp a e h)
      | None => push st (Err EUser, h)
      end
  | IDeriv i => with_uf st i (fun u => observe st ODict (derivatives fuel u h))
  | IStd i => with_uf st i (fun u => observe st ONum (std_dev fuel u h))
  | IStdS i => with_uf st i (fun u => observe st ONum (std_dev_s fuel u h))
  | IErrs i => with_uf st i (fun u => observe st OErrs (error_components fuel u h))
  | ISet i s =>
      with_uf st i (fun u =>
        match uf_var u with
        | Some v => observe st (fun _ => ONone) (set_std v s h)
        | None => (st, OExn EAttr)   (* only variables can be updated *)
        end)
  | ICmp c i j =>
      with_uf st i (fun u => with_val st j (fun b => observe st OBool (py_cmp fuel c u b h)))
  | IBool i => with_uf st i (fun u => observe st OBool (py_bool fuel u h))
  | IScore i p => with_uf st i (fun u => observe st ONum (std_score fuel u p h))
  end.

Fixpoint run (fuel : nat) (st : state) (prog : list instr) : state * list out :=
  match prog with
  | [] => (st, [])
  | ins :: prog' =>
      let (st1, o) := step fuel st ins in
      let (st2, os) := run fuel st1 prog' in
      (st2, o :: os)
  end.

End Machine.
Arguments instr N : clear implicits.
Arguments out N : clear implicits.
Arguments state N : clear implicits.
