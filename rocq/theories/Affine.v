(** Numbers with uncertainties: values, wrap(), derivatives, standard deviation, variables,
    comparisons. No proofs in this file. *)
From Coq Require Import ZArith List Bool.
From Verif Require Import Base Heap.
Import ListNotations.

Section Affine.
Context {N : NumOps}.
Open Scope res_scope.

(** core.py 1586-1668: an AffineScalarFunc object: nominal value and linear part. [uf_var] is
    [Some v] when the object is the Variable [v] (core.py 2715). *)
Record uf := mkUF { uf_nom : num N; uf_lp : loc; uf_var : option varid }.

(** Python values without uncertainty that the modelled functions receive or return.
    [POther k] is any object that is not a number (string, list, NumPy array, None...);
    [PNotImpl] is NotImplemented. Simplification: complex numbers carry no value (the package
    never computes with them). *)
Inductive plain := PNum (p : pynum N) | PComplex | POther (k : nat) | PNotImpl.
(** Python values: plain ones and numbers with uncertainties. *)
Inductive value := VPlain (a : plain) | VUF (u : uf).

Definition is_uf (a : value) : bool := match a with VUF _ => true | _ => false end.

(** Positional and keyword arguments of wrapped functions; keyword names are abstracted to
    numbers. *)
Definition args_t := list value.
Definition kwargs_t := list (nat * value).

(** A Python function f and a derivative function; both are only called with plain values.
    Simplification: derivative functions return an int or a float (or raise). Functions are
    deterministic and do not modify their arguments. *)
Definition pargs_t := list plain.
Definition pkwargs_t := list (nat * plain).
Definition pyfun := pargs_t -> pkwargs_t -> res plain.
Definition pyder := pargs_t -> pkwargs_t -> res (pynum N).

(** core.py 2853-2866: nominal_value(x). *)
Definition nominal_value (a : value) : plain :=
  match a with VUF u => PNum (PF (uf_nom u)) | VPlain a => a end.

(** core.py 270-290: to_affine_scalar(x). complex is a numbers.Number, hence the TypeError of
    float(complex). *)
Definition to_affine_scalar (a : value) : M N uf :=
  match a with
  | VUF u => ret u
  | VPlain (PNum p) => fun h =>
      match pn_float p with
      | Ok x => let (l, h') := alloc_lc h (LDict []) in (Ok (mkUF x l None), h')
      | Err e => (Err e, h)
      end
  | VPlain PComplex => raise EType
  | _ => raise ENotUpcast
  end.

(** core.py 1684-1703: x.derivatives. *)
Definition derivatives (fuel : nat) (u : uf) : M N (dict N) := lc_derivatives fuel (uf_lp u).

(** core.py 1783-1815: error_components(), given the derivatives and the heap. A variable
    that is not in the heap cannot occur (Python objects are always valid). *)
Fixpoint components (h : heap N) (d : dict N) : res (list (varid * pynum N)) :=
  match d with
  | [] => Ok []
  | (v, x) :: d' =>
      match get_var h v with
      | None => Err EAttr
      | Some o =>
          let c := if n_eq N (v_std o) (n_zero N) then PZ 0%Z
                   else PF (n_abs N (n_mul N x (v_std o))) in
          r <- components h d' ;; Ok ((v, c) :: r)
      end
  end.

Definition error_components (fuel : nat) (u : uf) : M N (list (varid * pynum N)) :=
  bind (derivatives fuel u) (fun d h => (components h d, h)).

(** sum(delta**2 for delta in ...), starting from the int 0. *)
Fixpoint sum_squares (acc : pynum N) (l : list (pynum N)) : res (pynum N) :=
  match l with
  | [] => Ok acc
  | x :: l' => s <- pn_square x ;; a <- pn_add acc s ;; sum_squares a l'
  end.

(** core.py 1817-1838: AffineScalarFunc.std_dev. This is also what x.s returns for all
    numbers, variables included: [s = std_dev] (core.py 1838) binds the property of
    AffineScalarFunc and Variable only overrides std_dev (core.py 2767). *)
Definition std_dev_affine (fuel : nat) (u : uf) : M N (num N) :=
  bind (error_components fuel u) (fun ec h =>
    (s <- sum_squares (PZ 0%Z) (map snd ec) ;; pn_sqrt s, h)).

(** x.std_dev: overridden by Variable (core.py 2767-2769). *)
Definition std_dev (fuel : nat) (u : uf) : M N (num N) :=
  match uf_var u with
  | Some v => fun h =>
      match get_var h v with Some o => (Ok (v_std o), h) | None => (Err EAttr, h) end
  | None => std_dev_affine fuel u
  end.

(** x.s (core.py 1838). *)
Definition std_dev_s (fuel : nat) (u : uf) : M N (num N) := std_dev_affine fuel u.

(** isinfinite(x) on an int or a float (core.py 29-33). *)
Definition pn_isinfinite (p : pynum N) : res bool :=
  x <- pn_float p ;; Ok (n_isinfinite N x).

(** core.py 2775-2789: the test of the std_dev setter, then float(std_dev). *)
Definition check_std (p : pynum N) : res (num N) :=
  if pn_lt0 p then
    b <- pn_isinfinite p ;;
    if (b : bool) then pn_float p else Err ENegStd
  else pn_float p.

(** core.py 2728-2765: Variable(value, std_dev, tag). The two conversions are checked before
    the objects are created; objects created before an exception are unreachable. *)
Definition new_var (n s : pynum N) (tag : option nat) : M N uf :=
  fun h =>
  match pn_float n with
  | Err e => (Err e, h)
  | Ok x =>
      match check_std s with
      | Err e => (Err e, h)
      | Ok sd =>
          let v := length (h_var h) in
          let (l, h1) := alloc_lc h (LDict [(v, n_one N)]) in
          (Ok (mkUF x l (Some v)),
           mkHeap (h_lc h1) (h_var h1 ++ [mkVar x l sd tag]))
      end
  end.

(** core.py 2775-2789: v.std_dev = s. *)
Definition set_std (v : varid) (s : pynum N) : M N unit :=
  fun h =>
  match check_std s with
  | Err e => (Err e, h)
  | Ok sd =>
      match get_var h v with
      | None => (Err EAttr, h)
      | Some o =>
          (Ok tt, mkHeap (h_lc h)
             (list_set (h_var h) v (mkVar (v_nom o) (v_lp o) sd (v_tag o))))
      end
  end.

(** Position or name of an argument: the arg_ref of core.py 303. *)
Inductive argref := APos (i : nat) | AName (k : nat).

Fixpoint kw_get (kw : pkwargs_t) (k : nat) : option plain :=
  match kw with
  | [] => None
  | (k', a) :: kw' => if Nat.eqb k k' then Some a else kw_get kw' k
  end.
Fixpoint kw_set (kw : pkwargs_t) (k : nat) (a : plain) : pkwargs_t :=
  match kw with
  | [] => []
  | (k', a') :: kw' => if Nat.eqb k k' then (k', a) :: kw' else (k', a') :: kw_set kw' k a
  end.

(** Argument designated by a reference, and its replacement. *)
Definition arg_get (r : argref) (args : pargs_t) (kw : pkwargs_t) : option plain :=
  match r with APos i => nth_error args i | AName k => kw_get kw k end.
Definition arg_set (r : argref) (args : pargs_t) (kw : pkwargs_t) (a : plain)
  : pargs_t * pkwargs_t :=
  match r with
  | APos i => (list_set args i a, kw)
  | AName k => (args, kw_set kw k a)
  end.

(** Number expected: anything else makes the arithmetic of partial_derivative fail.
    Simplification: complex function values are treated as an error there. *)
Definition as_num (a : plain) : res (pynum N) :=
  match a with PNum p => Ok p | _ => Err EType end.

(** core.py 303-358: partial_derivative(f, arg_ref). *)
Definition partial_derivative (f : pyfun) (r : argref) : pyder :=
  fun args kw =>
  match arg_get r args kw with
  | None => Err (match r with APos _ => EIndex | AName _ => EKey end)
  | Some a =>
      p <- as_num a ;;
      step0 <- pn_mul (PF (n_step N)) (pn_abs p) ;;
      let step := if pn_is0 step0 then PF (n_step N) else step0 in
      p1 <- pn_add p step ;;
      let (args1, kw1) := arg_set r args kw (PNum p1) in
      fp <- f args1 kw1 ;;
      st2 <- pn_mul (PZ 2) step ;;
      p2 <- pn_sub p1 st2 ;;
      let (args2, kw2) := arg_set r args kw (PNum p2) in
      fm <- f args2 kw2 ;;
      yp <- as_num fp ;;
      ym <- as_num fm ;;
      df <- pn_sub yp ym ;;
      dh <- pn_div df (PZ 2) ;;
      pn_div dh step
  end.

(** core.py 722-732 and 734-747: one (coefficient, linear part) pair per uncertain argument;
    the positional ones first, in order. [pos i] and [kwd k] are the derivatives used for
    argument number i and keyword k. *)
Fixpoint pos_terms (pos : nat -> pyder) (i : nat) (rest : args_t)
  (av : pargs_t) (kv : pkwargs_t) : res (list (item N)) :=
  match rest with
  | [] => Ok []
  | VUF u :: rest' =>
      c <- pos i av kv ;;
      t <- pos_terms pos (S i) rest' av kv ;;
      Ok (IPair c (uf_lp u) :: t)
  | _ :: rest' => pos_terms pos (S i) rest' av kv
  end.
Fixpoint kw_terms (kwd : nat -> pyder) (rest : kwargs_t)
  (av : pargs_t) (kv : pkwargs_t) : res (list (item N)) :=
  match rest with
  | [] => Ok []
  | (k, VUF u) :: rest' =>
      c <- kwd k av kv ;;
      t <- kw_terms kwd rest' av kv ;;
      Ok (IPair c (uf_lp u) :: t)
  | _ :: rest' => kw_terms kwd rest' av kv
  end.

Definition kw_map (g : value -> plain) (kw : kwargs_t) : pkwargs_t :=
  map (fun p => (fst p, g (snd p))) kw.

(** core.py 646-752: f_with_affine_output, given the derivative functions
    selected for each argument. *)
Definition wcall (f : pyfun) (pos : nat -> pyder) (kwd : nat -> pyder)
  (args : args_t) (kw : kwargs_t) : M N value :=
  fun h =>
  let av := map nominal_value args in
  let kv := kw_map nominal_value kw in
  if negb (existsb is_uf args || existsb (fun p => is_uf (snd p)) kw)
  then (rmap VPlain (f av kv), h)     (* then av, kv are args, kw themselves *)
  else
    match f av kv with
    | Err e => (Err e, h)
    | Ok r =>
        match r with
        | PNum _ | PComplex =>
            match (tp <- pos_terms pos 0 args av kv ;;
                   tk <- kw_terms kwd kw av kv ;; Ok (tp ++ tk)) with
            | Err e => (Err e, h)
            | Ok terms =>
                match r with
                | PNum p =>
                    match pn_float p with
                    | Err e => (Err e, h)
                    | Ok x =>
                        let (l, h') := alloc_lc h (LList (rev terms)) in
                        (Ok (VUF (mkUF x l None)), h')
                    end
                | _ => (Err EType, h)      (* float(complex) *)
                end
            end
        | _ => (Ok (VPlain PNotImpl), h)
        end
    end.

(** core.py 2471-2483: nan_if_exception(f). *)
Definition nan_if_exception (r : res (pynum N)) : res (pynum N) :=
  match r with
  | Err EValue | Err EZeroDiv | Err EOverflow => rmap PF (n_nan N)
  | _ => r
  end.

End Affine.
Arguments uf N : clear implicits.
Arguments plain N : clear implicits.
Arguments value N : clear implicits.
Notation VNum p := (VPlain (PNum p)).
Notation VNotImpl := (VPlain PNotImpl).
Arguments args_t N : clear implicits.
Arguments pargs_t N : clear implicits.
Arguments pkwargs_t N : clear implicits.
Arguments kwargs_t N : clear implicits.
Arguments pyfun N : clear implicits.
Arguments pyder N : clear implicits.
