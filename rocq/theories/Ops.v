(** Operators of numbers with uncertainties and their derivatives; comparisons. No proofs in
    this file. *)
From Coq Require Import ZArith List Bool.
From Verif Require Import Base Heap Affine.
Import ListNotations.

Section Ops.
Context {N : NumOps}.
Open Scope res_scope.

(** Operators with a reflected version, core.py 2514-2530 and 2563 ('div' only exists in
    Python 2). *)
Inductive binop := Badd | Bsub | Bmul | Btruediv | Bfloordiv | Bmod | Bpow.
(** Operators without reflection, core.py 2648-2653. *)
Inductive unop := Uabs | Uneg | Upos | Utrunc.

(** float.__op__(x, y) on floats; pow goes through no_complex_result (core.py 2595-2621). *)
Definition float_op (op : binop) (x y : num N) : res (plain N) :=
  match op with
  | Badd => Ok (PNum (PF (n_add N x y)))
  | Bsub => Ok (PNum (PF (n_sub N x y)))
  | Bmul => Ok (PNum (PF (n_mul N x y)))
  | Btruediv => r <- n_div N x y ;; Ok (PNum (PF r))
  | Bfloordiv => r <- n_floordiv N x y ;; Ok (PNum (PF r))
  | Bmod => r <- n_mod N x y ;; Ok (PNum (PF r))
  | Bpow => r <- n_pow N x y ;;
            match r with Some z => Ok (PNum (PF z)) | None => Err EValue end
  end.

(** float.__op__ as a Python method: the first argument must be a float (TypeError
    otherwise), the second one an int or a float (NotImplemented otherwise). *)
Definition float_method (op : binop) : pyfun N :=
  fun args kw =>
  match args with
  | [PNum (PF x); PNum b] => y <- pn_float b ;; float_op op x y
  | [PNum (PF x); _] => Ok PNotImpl
  | _ => Err EType
  end.
(** float.__rop__(x, y) = y op x. *)
Definition float_rmethod (op : binop) : pyfun N :=
  fun args kw =>
  match args with
  | [PNum (PF x); PNum b] => y <- pn_float b ;; float_op op y x
  | [PNum (PF x); _] => Ok PNotImpl
  | _ => Err EType
  end.

(** x - 1 on a Python number (for the exponent y-1 of pow_deriv_0). *)
Definition pn_pred (p : pynum N) : pynum N :=
  match p with PZ z => PZ (z - 1) | PF x => PF (n_sub N x (n_one N)) end.
(** y % 1 == 0 *)
Definition pn_integral (p : pynum N) : bool :=
  match p with
  | PZ _ => true
  | PF x => match n_mod N x (n_one N) with
            | Ok r => n_eq N r (n_zero N)
            | Err _ => false
            end
  end.
(** x**y on Python numbers of which at least one is a float. *)
Definition pn_pow (x y : pynum N) : res (pynum N) :=
  a <- pn_float x ;; b <- pn_float y ;; r <- n_powf a b ;; Ok (PF r).

(** core.py 2549-2555: pow_deriv_0(x, y). *)
Definition pow_deriv_0 (x y : pynum N) : res (pynum N) :=
  if pn_is0 y then Ok (PF (n_zero N))
  else if negb (pn_is0 x) || pn_integral y then
    r <- pn_pow x (pn_pred y) ;; pn_mul y r
  else rmap PF (n_nan N).
(** core.py 2557-2561: pow_deriv_1(x, y). Simplification: log of an int goes through float. *)
Definition pow_deriv_1 (x y : pynum N) : res (pynum N) :=
  if pn_is0 x && pn_gt0 y then Ok (PF (n_zero N))
  else
    a <- pn_float x ;; l <- n_fun1 N F_log a ;; r <- pn_pow x y ;; pn_mul (PF l) r.

(** core.py 2514-2530: derivatives of x op y with respect to x and to y, as functions of
    (x, y); pow goes through nan_if_exception (core.py 2567-2573). *)
Definition op_der_x (op : binop) (x y : pynum N) : res (pynum N) :=
  match op with
  | Badd => Ok (PF (n_one N))
  | Bsub => Ok (PF (n_one N))
  | Bmul => Ok y
  | Btruediv => pn_div (PZ 1) y
  | Bfloordiv => Ok (PF (n_zero N))
  | Bmod => Ok (PF (n_one N))
  | Bpow => nan_if_exception (pow_deriv_0 x y)
  end.
Definition op_der_y (op : binop) (x y : pynum N) : res (pynum N) :=
  match op with
  | Badd => Ok (PF (n_one N))
  | Bsub => Ok (PF (n_neg N (n_one N)))
  | Bmul => Ok x
  | Btruediv => d <- pn_square y ;; pn_div (pn_neg x) d
  | Bfloordiv => Ok (PF (n_zero N))
  | Bmod => partial_derivative (float_method Bmod) (APos 1) [PNum x; PNum y] []
  | Bpow => nan_if_exception (pow_deriv_1 x y)
  end.

(** The list of derivatives given to wrap() for __op__ (core.py 2534-2535): functions of
    (x, y). Further positions do not exist for these methods. *)
Definition op_pos (op : binop) (i : nat) : pyder N :=
  fun args kw =>
  match args with
  | [PNum x; PNum y] =>
      match i with 0%nat => op_der_x op x y | 1%nat => op_der_y op x y | _ => Err EType end
  | _ => Err EType
  end.
(** For __rop__ (core.py 2537-2538, 2564-2565): the derivatives in reverse order, as
    functions of (y, x). *)
Definition rop_pos (op : binop) (i : nat) : pyder N :=
  fun args kw =>
  match args with
  | [PNum y; PNum x] =>
      match i with 0%nat => op_der_y op x y | 1%nat => op_der_x op x y | _ => Err EType end
  | _ => Err EType
  end.
(** These methods take no keyword argument. *)
Definition no_kw (k : nat) : pyder N := fun _ _ => Err EType.

(** core.py 2666-2697: x.__op__(y) and x.__rop__(y). *)
Definition method_op (op : binop) (u : uf N) (b : value N) : M N (value N) :=
  wcall (float_method op) (op_pos op) no_kw [VUF u; b] [].
Definition method_rop (op : binop) (u : uf N) (b : value N) : M N (value N) :=
  wcall (float_rmethod op) (rop_pos op) no_kw [VUF u; b] [].

(** Python's dispatch of [a op b] when at least one operand is a number with uncertainty.
    Variable does not override the reflected methods, so a Variable on the right has no
    priority. An operand of another type that declines leads to TypeError; simplification:
    other types ([VOther]) are assumed to decline (NumPy arrays do not). *)
Definition py_binop (op : binop) (a b : value N) : M N (value N) :=
  match a, b with
  | VUF u, _ =>
      bind (method_op op u b) (fun r => match r with VNotImpl => raise EType | _ => ret r end)
  | _, VUF u =>
      bind (method_rop op u a) (fun r => match r with VNotImpl => raise EType | _ => ret r end)
  | _, _ => raise EType
  end.

(** float.__op__(x) for the operators without reflection. *)
Definition float_unop (op : unop) (x : num N) : res (plain N) :=
  match op with
  | Uabs => Ok (PNum (PF (n_abs N x)))
  | Uneg => Ok (PNum (PF (n_neg N x)))
  | Upos => Ok (PNum (PF x))
  | Utrunc => z <- n_trunc N x ;; Ok (PNum (PZ z))
  end.
Definition unop_fun (op : unop) : pyfun N :=
  fun args kw => match args with [PNum (PF x)] => float_unop op x | _ => Err EType end.
(** core.py 2640-2653: derivatives of the operators without reflection. *)
Definition unop_der (op : unop) (x : num N) : res (pynum N) :=
  match op with
  | Uabs => Ok (PF (if n_le N (n_zero N) x then n_one N else n_neg N (n_one N)))
  | Uneg => Ok (PF (n_neg N (n_one N)))
  | Upos => Ok (PF (n_one N))
  | Utrunc => Ok (PF (n_zero N))
  end.
Definition unop_pos (op : unop) (i : nat) : pyder N :=
  fun args kw => match args with [PNum (PF x)] => unop_der op x | _ => Err EType end.
Definition py_unop (op : unop) (u : uf N) : M N (value N) :=
  wcall (unop_fun op) (unop_pos op) no_kw [VUF u] [].

(** core.py 823-831: eq_on_aff_funcs. *)
Definition eq_aff (fuel : nat) (x y : uf N) : M N bool :=
  bind (method_op Bsub x (VUF y)) (fun r =>
    match r with
    | VUF d =>
        if n_truth N (uf_nom d) then ret false
        else bind (std_dev fuel d) (fun s => ret (negb (n_truth N s)))
    | _ => raise EAttr
    end).
(** core.py 833-870. *)
Definition ne_aff (fuel : nat) (x y : uf N) : M N bool :=
  bind (eq_aff fuel x y) (fun b => ret (negb b)).
Definition gt_aff (x y : uf N) : bool := n_lt N (uf_nom y) (uf_nom x).
Definition lt_aff (x y : uf N) : bool := n_lt N (uf_nom x) (uf_nom y).
Definition ge_aff (fuel : nat) (x y : uf N) : M N bool :=
  if gt_aff x y then ret true else eq_aff fuel x y.
Definition le_aff (fuel : nat) (x y : uf N) : M N bool :=
  if lt_aff x y then ret true else eq_aff fuel x y.

Inductive cmpop := Ceq | Cne | Cgt | Cge | Clt | Cle.
Definition cmp_aff (fuel : nat) (c : cmpop) (x y : uf N) : M N bool :=
  match c with
  | Ceq => eq_aff fuel x y | Cne => ne_aff fuel x y
  | Cgt => ret (gt_aff x y) | Cge => ge_aff fuel x y
  | Clt => ret (lt_aff x y) | Cle => le_aff fuel x y
  end.

(** core.py 776-805, 1766-1777: x.__eq__(y), etc.: the second operand is upcast first;
    [None] is NotImplemented. *)
Definition method_cmp (fuel : nat) (c : cmpop) (x : uf N) (b : value N)
  : M N (option bool) :=
  fun h =>
  match to_affine_scalar b h with
  | (Ok y, h1) =>
      match cmp_aff fuel c x y h1 with
      | (Ok r, h2) => (Ok (Some r), h2)
      | (Err e, h2) => (Err e, h2)
      end
  | (Err ENotUpcast, h1) => (Ok None, h1)
  | (Err e, h1) => (Err e, h1)
  end.

(** core.py 1723-1734: bool(x). *)
Definition py_bool (fuel : nat) (u : uf N) : M N bool :=
  bind (method_cmp fuel Cne u (VNum (PF (n_zero N)))) (fun r =>
    match r with Some b => ret b | None => raise EType end).

(** core.py 2349-2362: x.std_score(value). *)
Definition std_score (fuel : nat) (u : uf N) (p : pynum N) : M N (num N) :=
  bind (std_dev fuel u) (fun s h =>
    (match (d <- pn_sub p (PF (uf_nom u)) ;; r <- pn_div d (PF s) ;; pn_float r) with
     | Err EZeroDiv => Err EValue
     | r => r
     end, h)).

(** core.py 2868-2881: std_dev(x) on any value. *)
Definition any_std_dev (fuel : nat) (a : value N) : M N (num N) :=
  match a with VUF u => std_dev fuel u | _ => ret (n_zero N) end.

(** hash(x): the identity of a Variable (core.py 2806-2811). AffineScalarFunc defines __eq__
    (core.py 1766) and not __hash__: Python then makes hash(x) raise TypeError. *)
Definition py_hash (u : uf N) : res nat :=
  match uf_var u with Some v => Ok v | None => Err EType end.

(** core.py 2700-2707: float(x), int(x), complex(x) on a number with uncertainty. *)
Definition coerce (u : uf N) : res (num N) := Err EType.

End Ops.
