(** Operators on arrays of numbers with uncertainties, and products of matrices. No proofs in
    this file. *)
From Coq Require Import ZArith List Bool.
From Verif Require Import Base Heap Affine Ops UMath Machine Unumpy.
Import ListNotations.

Section UMatrix.
Context {N : NumOps}.
Local Open Scope res_scope.

(** x op y on Python ints and floats. Simplification: //, % and ** go through float, also for
    two ints. *)
Definition pn_op (op : binop) (p q : pynum N) : res (plain N) :=
  match op with
  | Badd => r <- pn_add p q ;; Ok (PNum r)
  | Bsub => r <- pn_sub p q ;; Ok (PNum r)
  | Bmul => r <- pn_mul p q ;; Ok (PNum r)
  | Btruediv => r <- pn_div p q ;; Ok (PNum r)
  | _ => x <- pn_float p ;; y <- pn_float q ;; float_op op x y
  end.
(** The operator on elements of arrays of objects is Python's: the methods of
    uncertainties/core.py 2656-2699 when an element is a number with uncertainty. *)
Definition obj_op (op : binop) (a b : value N) : M N (value N) :=
  match a, b with
  | VPlain (PNum p), VPlain (PNum q) => lift (Base.rmap VPlain (pn_op op p q))
  | _, _ => py_binop op a b
  end.
(** a op b on arrays of objects (for * and ** on matrices, numpy.multiply(a, b) and
    numpy.power(a, b)): the operator on the elements of the broadcast arrays. NumPy's
    documentation of universal functions; unumpy/core.py 1-26 and 272-296 relies on it. *)
Definition array_op (op : binop) (a b : arr (value N)) : M N (arr (value N)) :=
  vectorize (fun l => match l with [x; y] => obj_op op x y | _ => raise EType end) [a; b].

(** numpy.dot() of two vectors of objects: x0*y0 + x1*y1 + ..., from the left. *)
Fixpoint dot_from (acc : value N) (l : list (value N * value N)) : M N (value N) :=
  match l with
  | [] => ret acc
  | (x, y) :: l' =>
      bind (obj_op Bmul x y) (fun p => bind (obj_op Badd acc p) (fun s => dot_from s l'))
  end.
Definition obj_dot (l : list (value N * value N)) : M N (value N) :=
  match l with
  | [] => raise EValue
  | (x, y) :: l' => bind (obj_op Bmul x y) (fun p => dot_from p l')
  end.
(** Row [i] of [a] and column [j] of [b], paired. *)
Definition row_col {A} (a b : arr A) (k i j : nat) : option (list (A * A)) :=
  all_some (map (fun l => match bget [i; l] a, bget [l; j] b with
                          | Some x, Some y => Some (x, y)
                          | _, _ => None
                          end) (seq 0 k)).
(** numpy.dot(a, b) for matrices of objects; the elements are calculated row by row.
    Simplifications: two-dimensional arrays only; with no column in [a], ValueError (NumPy
    gives an array of null references). *)
Definition obj_matmul (a b : arr (value N)) : M N (arr (value N)) :=
  match a_shape a, a_shape b with
  | [m; k], [k'; n] =>
      if Nat.eqb k k' then
        bind (mapM (fun idx => match idx with
                               | [i; j] => match row_col a b k i j with
                                           | Some l => obj_dot l
                                           | None => raise EIndex
                                           end
                               | _ => raise EIndex
                               end) (indices [m; n]))
             (fun l => ret (mkArr (cls_max (a_cls a) (a_cls b)) [m; n] l))
      else raise EValue
  | _, _ => raise EValue
  end.

(** unumpy/core.py 603-613: matrix.__rmul__(self, other), for [other * self]. A number [other]
    is represented by an array without dimensions. numpy.isscalar() is true for ints and floats,
    and not for numbers with uncertainties; numpy.dot() with an array without dimensions is
    numpy.multiply(). *)
Definition matrix_rmul (self other : arr (value N)) : M N (arr (value N)) :=
  match a_shape other, a_flat other with
  | [], [VPlain _] => array_op Bmul self other
  | [], [VUF _] => array_op Bmul other self
  | _, _ => obj_matmul other self
  end.
End UMatrix.
