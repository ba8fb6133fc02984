(** unumpy: arrays and matrices of numbers with uncertainties. No proofs in this file. *)
From Coq Require Import String.
From Coq Require Import ZArith List Bool.
From Verif Require Import Base Heap Affine Ops UMath Machine.
Import ListNotations.

(** ** NumPy arrays *)
(** Class of an array: numpy.ndarray (also for lists, which numpy.asanyarray converts),
    numpy.matrix, unumpy.matrix (unumpy/core.py 598). *)
Inductive acls := ANd | AMat | AUMat.
(** Shape, and elements in the order of the .flat iterator (last index fastest). *)
Record arr (A : Type) := mkArr { a_cls : acls; a_shape : list nat; a_flat : list A }.
Arguments mkArr {A} _ _ _.
Arguments a_cls {A} _.
Arguments a_shape {A} _.
Arguments a_flat {A} _.

(** All the indices of an array, in the order of .flat. *)
Fixpoint indices (sh : list nat) : list (list nat) :=
  match sh with
  | [] => [[]]
  | n :: sh' => flat_map (fun i => map (cons i) (indices sh')) (seq 0 n)
  end.
(** NumPy's broadcasting rule: shapes are compared from their last dimension; dimensions must
    be equal, or one of them 1. *)
Definition bdim (a b : nat) : option nat :=
  if Nat.eqb a b then Some a else if Nat.eqb a 1 then Some b
  else if Nat.eqb b 1 then Some a else None.
Fixpoint bzip (r1 r2 : list nat) : option (list nat) :=
  match r1, r2 with
  | [], _ => Some r2
  | _, [] => Some r1
  | a :: r1', b :: r2' =>
      match bdim a b, bzip r1' r2' with Some d, Some r => Some (d :: r) | _, _ => None end
  end.
Definition broadcast (s1 s2 : list nat) : option (list nat) := option_map (@rev nat) (bzip (rev s1) (rev s2)).
Fixpoint bshapes (l : list (list nat)) : option (list nat) :=
  match l with
  | [] => Some []
  | s :: l' => match bshapes l' with Some r => broadcast s r | None => None end
  end.
(** Position in .flat of the element that a broadcast array shows at an index; shape and index
    are given from their last component. *)
Fixpoint roffset (rsh ridx : list nat) (stride : nat) : nat :=
  match rsh, ridx with
  | n :: rsh', i :: ridx' => (if Nat.eqb n 1 then 0 else i) * stride + roffset rsh' ridx' (stride * n)
  | _, _ => 0
  end.
Definition bget {A} (idx : list nat) (a : arr A) : option A :=
  nth_error (a_flat a) (roffset (rev (a_shape a)) (rev idx) 1).
Fixpoint all_some {A} (l : list (option A)) : option (list A) :=
  match l with
  | [] => Some []
  | Some a :: l' => match all_some l' with Some r => Some (a :: r) | None => None end
  | None :: _ => None
  end.
Definition cls_max (a b : acls) : acls :=
  match a, b with AUMat, _ | _, AUMat => AUMat | AMat, _ | _, AMat => AMat | _, _ => ANd end.
Definition size (sh : list nat) : nat := fold_right Nat.mul 1 sh.
Definition amap {A B} (f : A -> B) (a : arr A) : arr B := mkArr (a_cls a) (a_shape a) (map f (a_flat a)).
Definition with_cls {A} (c : acls) (a : arr A) : arr A := mkArr c (a_shape a) (a_flat a).

Section Unumpy.
Context {N : NumOps}.
Open Scope res_scope.

Fixpoint mapM {A B} (f : A -> M N B) (l : list A) : M N (list B) :=
  match l with
  | [] => ret []
  | a :: l' => bind (f a) (fun b => bind (mapM f l') (fun r => ret (b :: r)))
  end.

(** numpy.vectorize(f)(args...): f on the elements of the broadcast arrays, in the order of
    .flat. Simplifications: arrays of incompatible shapes give ValueError; without otypes,
    NumPy calls f once more on the first elements, which has no effect for the functions
    used here. *)
Definition vectorize {A B} (f : list A -> M N B) (args : list (arr A)) : M N (arr B) :=
  match bshapes (map a_shape args) with
  | None => raise EValue
  | Some sh =>
      bind (mapM (fun idx => match all_some (map (bget idx) args) with
                             | Some l => f l
                             | None => raise EIndex
                             end) (indices sh))
           (fun l => ret (mkArr (fold_right cls_max ANd (map a_cls args)) sh l))
  end.
(** A function of one argument, for [vectorize]. *)
Definition arg1 {A B} (f : A -> M N B) (l : list A) : M N B :=
  match l with [a] => f a | _ => raise EType end.

(** Conversion to the float data type. Simplification: TypeError for all other objects. *)
Definition as_float (a : plain N) : res (num N) :=
  match a with PNum p => pn_float p | _ => Err EType end.

(** unumpy/core.py 71-80: unumpy_to_numpy_matrix(arr). *)
Definition to_numpy {A} (a : arr A) : arr A :=
  match a_cls a with AUMat => with_cls AMat a | _ => a end.
(** unumpy/core.py 59-63 and 82-96: nominal_values(arr). *)
Definition nominal_values (a : arr (value N)) : M N (arr (num N)) :=
  bind (vectorize (arg1 (fun x => lift (as_float (nominal_value x)))) [a]) (fun r => ret (to_numpy r)).
(** unumpy/core.py 65-69 and 98-112: std_devs(arr). *)
Definition std_devs (fuel : nat) (a : arr (value N)) : M N (arr (num N)) :=
  bind (vectorize (arg1 (any_std_dev fuel)) [a]) (fun r => ret (to_numpy r)).

(** unumpy/core.py 116-128: derivative(u, var). *)
Definition derivative (fuel : nat) (v : varid) (a : value N) : M N (num N) :=
  match a with
  | VUF u => bind (derivatives fuel u) (fun d =>
      ret (match dget d v with Some x => x | None => n_zero N end))
  | _ => ret (n_zero N)
  end.
(** unumpy/core.py 300-318: array_derivative(array_like, var). *)
Definition array_derivative (fuel : nat) (a : arr (value N)) (v : varid) : M N (arr (num N)) :=
  vectorize (arg1 (derivative fuel v)) [a].

(** First argument of uarray() and umatrix(): an array, or a tuple of arrays. *)
Inductive uarg := UArr (a : arr (pynum N)) | UTuple (l : list (arr (pynum N))).
(** (nominal_values, std_devs) = nominal_values, unumpy/core.py 289: a tuple, or an array whose
    first dimension is 2. *)
Definition unpack2 (a : uarg) : res (uarg * uarg) :=
  match a with
  | UTuple [n; s] => Ok (UArr n, UArr s)
  | UTuple _ => Err EValue
  | UArr a =>
      match a_shape a with
      | 2 :: sh => Ok (UArr (mkArr (a_cls a) sh (firstn (size sh) (a_flat a))),
                       UArr (mkArr (a_cls a) sh (skipn (size sh) (a_flat a))))
      | [] => Err EType
      | _ => Err EValue
      end
  end.
(** Tuples are converted to arrays by numpy.vectorize when their elements have the same
    shape. *)
Definition stack_tuple (a : uarg) : res (arr (pynum N)) :=
  match a with
  | UArr a => Ok a
  | UTuple [] => Ok (mkArr ANd [0] [])
  | UTuple (a :: l) =>
      if forallb (fun b => if list_eq_dec Nat.eq_dec (a_shape b) (a_shape a) then true else false) l
      then Ok (mkArr ANd (List.length (a :: l) :: a_shape a) (flat_map a_flat (a :: l)))
      else Err EValue
  end.
Definition new_element (l : list (pynum N)) : M N (value N) :=
  match l with
  | [v; s] => bind (new_var v s None) (fun u => ret (VUF u))
  | _ => raise EType
  end.
(** unumpy/core.py 272-296: uarray(nominal_values, std_devs=None). The deprecation warning of
    the first form is not modelled. *)
Definition uarray (noms : uarg) (stds : option uarg) : M N (arr (value N)) :=
  bind (lift (match stds with
              | Some s => Ok (noms, s)
              | None => unpack2 noms
              end)) (fun p =>
  bind (lift (n <- stack_tuple (fst p) ;; s <- stack_tuple (snd p) ;; Ok (n, s))) (fun q =>
  vectorize new_element [fst q; snd q])).
(** unumpy/core.py 644-659: umatrix(nominal_values, std_devs=None): a matrix view exists for at
    most two dimensions. *)
Definition as_matrix {A} (c : acls) (a : arr A) : res (arr A) :=
  match a_shape a with
  | [] => Ok (mkArr c [1; 1] (a_flat a))
  | [n] => Ok (mkArr c [1; n] (a_flat a))
  | [m; n] => Ok (mkArr c [m; n] (a_flat a))
  | _ => Err EValue
  end.
Definition umatrix (noms : uarg) (stds : option uarg) : M N (arr (value N)) :=
  bind (lift (match stds with
              | Some s => Ok (noms, s)
              | None => unpack2 noms
              end)) (fun p =>
  bind (uarray (fst p) (Some (snd p))) (fun a => lift (as_matrix AUMat a))).

(** ** Matrices of floats *)
(** Element (i, j) of a matrix. *)
Definition mget (a : arr (num N)) (i j : nat) : num N :=
  match a_shape a with [_; n] => nth (i * n + j) (a_flat a) (n_zero N) | _ => n_zero N end.
(** The m x n matrix of elements F i j. *)
Definition mtab (m n : nat) (F : nat -> nat -> num N) : arr (num N) :=
  mkArr AMat [m; n] (flat_map (fun i => map (F i) (seq 0 n)) (seq 0 m)).
(** Products of numpy.matrix objects. Simplification: terms are added from the first one. *)
Definition mdot (a b : arr (num N)) : res (arr (num N)) :=
  match a_shape a, a_shape b with
  | [m; k], [k'; n] =>
      if Nat.eqb k k' then
        Ok (mtab m n (fun i j =>
              fold_left (fun acc p => n_add N acc (n_mul N (mget a i p) (mget b p j))) (seq 0 k)
                        (n_zero N)))
      else Err EValue
  | _, _ => Err EValue
  end.
(** -a. *)
Definition mneg (a : arr (num N)) : arr (num N) := amap (n_neg N) a.
(** a+b and a-b of matrices that have the same shape; broadcasting cannot happen here. *)
Definition mop (f : num N -> num N -> num N) (a b : arr (num N)) : res (arr (num N)) :=
  match a_shape a, a_shape b with
  | [m; n], [m'; n'] =>
      if Nat.eqb m m' && Nat.eqb n n' then Ok (mtab m n (fun i j => f (mget a i j) (mget b i j)))
      else Err EValue
  | _, _ => Err EValue
  end.
(** a.H: the transpose, for real matrices. Complex matrices are not modelled. *)
Definition mtrans (a : arr (num N)) : res (arr (num N)) :=
  match a_shape a with
  | [m; n] => Ok (mtab n m (fun i j => mget a j i))
  | _ => Err EValue
  end.
(** numpy.eye(n). *)
Definition meye (n : nat) : arr (num N) :=
  mtab n n (fun i j => if Nat.eqb i j then n_one N else n_zero N).

(** ** Functions of matrices with derivatives *)
(** unumpy/core.py 334-358: a generator func_with_derivatives: the value of the function at an
    array, then the derivative of the function for each derivative of the array. *)
Record with_derivs := mkFW {
  fw_value : arr (num N) -> res (arr (num N));
  fw_deriv : arr (num N) -> arr (num N) -> arr (num N) -> res (arr (num N))
                                           (* argument, value, derivative of the argument *)
}.

(** variables |= set(element.derivatives.keys()), unumpy/core.py 386-392. *)
Fixpoint collect (fuel : nat) (l : list (value N)) (acc : list varid) : M N (list varid) :=
  match l with
  | [] => ret acc
  | VUF u :: l' =>
      bind (derivatives fuel u) (fun d =>
        collect fuel l' (acc ++ filter (fun v => negb (existsb (Nat.eqb v) acc)) (dkeys d)))
  | _ :: l' => collect fuel l' acc
  end.
(** bool(derivative_value): True for NaN. *)
Definition nonzero (x : num N) : bool := negb (n_eq N x (n_zero N)).
(** unumpy/core.py 431-434 and 239-243: for (derivative_dict, derivative_value) in zip(...). *)
Fixpoint add_derivs (v : varid) (ds : list (dict N)) (xs : list (num N)) : list (dict N) :=
  match ds, xs with
  | d :: ds', x :: xs' => (if nonzero x then dset d v x else d) :: add_derivs v ds' xs'
  | _, _ => ds
  end.
(** unumpy/core.py 426-434 and 195-243: the loop over the variables. [step] calculates the
    derivatives of the result with respect to a variable, from the derivatives of the array. *)
Fixpoint deriv_loop (fuel : nat) (step : varid -> arr (num N) -> M N (arr (num N))) (a : arr (value N))
  (vs : list varid) (ds : list (dict N)) : M N (list (dict N)) :=
  match vs with
  | [] => ret ds
  | v :: vs' =>
      bind (array_derivative fuel a v) (fun da =>
      bind (step v da) (fun dv => deriv_loop fuel step a vs' (add_derivs v ds (a_flat dv))))
  end.
(** unumpy/core.py 438-440 and 246-248: AffineScalarFunc(value, LinearCombination(dict)) for each
    element. *)
Fixpoint build (l : list (num N * dict N)) : M N (list (value N)) :=
  match l with
  | [] => ret []
  | (x, d) :: l' => fun h =>
      let (loc, h1) := alloc_lc h (LDict d) in
      bind (build l') (fun r => ret (VUF (mkUF x loc None) :: r)) h1
  end.
(** unumpy/core.py 406-447 and 186-248: the result of a function of arrays, for its value at the
    nominal values and the set of variables. [order] is the iteration order of the set, which
    does not change between the two iterations of lines 401 and 426. numpy.vectorize() without
    otypes does not accept empty arrays (lines 194 and 438; simplification: the error is raised
    before the loop in both cases). [c] is the class of the result. *)
Definition with_derivatives (order : list varid -> list varid) (fuel : nat)
  (step : varid -> arr (num N) -> M N (arr (num N))) (a : arr (value N)) (vars : list varid)
  (val : arr (num N)) (c : acls) : M N (arr (value N)) :=
  match vars with
  | [] => ret (amap (fun x => VNum (PF x)) val)
  | _ =>
      match a_flat val with
      | [] => raise EValue
      | _ =>
          bind (deriv_loop fuel step a (order vars) (repeat [] (List.length (a_flat val)))) (fun ds =>
          bind (build (combine (a_flat val) ds)) (fun l => ret (mkArr c (a_shape val) l)))
      end
  end.
(** unumpy/core.py 320-449: func_with_deriv_to_uncert_func(func_with_derivatives). The derivatives
    are only used after the function value has been obtained. *)
Definition uncert_func (order : list varid -> list varid) (fw : with_derivs) (fuel : nat)
  (a : arr (value N)) : M N (arr (value N)) :=
  bind (collect fuel (a_flat a) []) (fun vars =>
  bind (nominal_values a) (fun nom =>
  bind (lift (fw_value fw nom)) (fun val0 =>
  let val := with_cls (match a_cls a with ANd => ANd | _ => AMat end) val0 in
  with_derivatives order fuel (fun _ da => lift (fw_deriv fw nom val da)) a vars val
    (match a_cls val with AMat => AUMat | c => c end)))).

(** ** Functions of arrays, with numerical derivatives *)
(** a+b and a-b of arrays of floats, with NumPy's broadcasting. *)
Definition aop (f : num N -> num N -> num N) (a b : arr (num N)) : res (arr (num N)) :=
  match broadcast (a_shape a) (a_shape b) with
  | None => Err EValue
  | Some sh =>
      match all_some (map (fun idx => match bget idx a, bget idx b with
                                      | Some x, Some y => Some (f x y)
                                      | _, _ => None
                                      end) (indices sh)) with
      | Some l => Ok (mkArr (cls_max (a_cls a) (a_cls b)) sh l)
      | None => Err EIndex
      end
  end.
Fixpoint rmap {A B} (f : A -> res B) (l : list A) : res (list B) :=
  match l with
  | [] => Ok []
  | a :: l' => b <- f a ;; r <- rmap f l' ;; Ok (b :: r)
  end.
(** a/x for an array and a float other than 0. *)
Definition adiv (a : arr (num N)) (x : num N) : res (arr (num N)) :=
  l <- rmap (fun y => n_div N y x) (a_flat a) ;; Ok (mkArr (a_cls a) (a_shape a) l).
(** unumpy/core.py 219-227: shift_var. 1e-8 is the float nearest to 1/10^8, which the division of
    ints gives too. max() returns its first argument unless the second one is larger. *)
Definition shift_var (o : varobj N) : res (num N) :=
  c5 <- n_of_Z N 100000 ;; c8 <- n_divZ N 1 100000000 ;;
  s <- n_div N (v_std o) c5 ;;
  let m := n_mul N c8 (n_abs N (v_nom o)) in
  let shift := if n_lt N s m then m else s in
  Ok (if nonzero shift then shift else c8).
(** unumpy/core.py 229-235: numerical_deriv. *)
Definition numerical_deriv (f : arr (num N) -> res (arr (num N))) (nom val : arr (num N)) (o : varobj N)
  (da : arr (num N)) : res (arr (num N)) :=
  shift <- shift_var o ;;
  shifted <- aop (n_add N) nom (amap (fun x => n_mul N x shift) da) ;;
  fs <- f shifted ;; d <- aop (n_sub N) fs val ;; adiv d shift.
(** unumpy/core.py 130-267: wrap_array_func(func). [func] is the function, with its other
    arguments. Simplification: it returns an array of floats, and does not modify its argument. *)
Definition wrap_array_func (order : list varid -> list varid) (func : arr (num N) -> res (arr (num N)))
  (fuel : nat) (a : arr (value N)) : M N (arr (value N)) :=
  bind (nominal_values a) (fun nom =>
  bind (lift (func nom)) (fun val =>
  bind (collect fuel (a_flat a) []) (fun vars =>
  with_derivatives order fuel
    (fun v da h => match get_var h v with
                   | Some o => (numerical_deriv func nom val o da, h)
                   | None => (Err EAttr, h)
                   end) a vars val (a_cls val)))).

(** unumpy/core.py 453-477: inv(). [linv] is numpy.linalg.inv. *)
Definition inv_deriv (a inverse da : arr (num N)) : res (arr (num N)) :=
  p <- mdot (mneg inverse) da ;; mdot p inverse.
Definition inv (linv : arr (num N) -> res (arr (num N))) (order : list varid -> list varid)
  (fuel : nat) (a : arr (value N)) : M N (arr (value N)) :=
  uncert_func order (mkFW linv inv_deriv) fuel a.

(** unumpy/core.py 493-538 and 556-559: pinv(). [lpinv] is numpy.linalg.pinv, with its cutoff. *)
Definition pinv_deriv (a inverse da : arr (num N)) : res (arr (num N)) :=
  match a_shape a with
  | [m; n] =>
      pa <- mdot a inverse ;;
      ap <- mdot inverse a ;;
      ih <- mtrans inverse ;;
      factor21 <- mdot inverse ih ;;
      factor22 <- mop (n_sub N) (meye m) pa ;;
      factor31 <- mop (n_sub N) (meye n) ap ;;
      factor32 <- mdot ih inverse ;;
      p <- mdot (mneg inverse) da ;; term1 <- mdot p inverse ;;
      dh <- mtrans da ;;
      q <- mdot factor21 dh ;; term2 <- mdot q factor22 ;;
      r <- mdot factor31 dh ;; term3 <- mdot r factor32 ;;
      s <- mop (n_add N) term1 term2 ;; mop (n_add N) s term3
  | _ => Err EValue
  end.
Definition pinv (lpinv : arr (num N) -> res (arr (num N))) (order : list varid -> list varid)
  (fuel : nat) (a : arr (value N)) : M N (arr (value N)) :=
  uncert_func order (mkFW lpinv pinv_deriv) fuel a.

(** unumpy/core.py 617-622: the attribute I of a unumpy.matrix. *)
Definition matrix_I (linv lpinv : arr (num N) -> res (arr (num N)))
  (order : list varid -> list varid) (fuel : nat) (a : arr (value N)) : M N (arr (value N)) :=
  match a_shape a with
  | [m; n] => (if Nat.eqb m n then inv linv else pinv lpinv) order fuel a
  | _ => raise EValue
  end.

End Unumpy.
Arguments uarg N : clear implicits.
Arguments with_derivs N : clear implicits.

(** ** Names of the vectorized functions *)
Local Open Scope string_scope.
Definition str_in (s : string) (l : list string) : bool := existsb (String.eqb s) l.
(** umath_core.py 180-213: the keys of fixed_derivatives. *)
Definition fixed_names : list string :=
  ["acos"; "acosh"; "asin"; "asinh"; "atan"; "atan2"; "atanh"; "copysign"; "cos"; "cosh";
   "degrees"; "erf"; "erfc"; "exp"; "expm1"; "fabs"; "hypot"; "log"; "log10"; "log1p"; "pow";
   "radians"; "sin"; "sinh"; "sqrt"; "tan"; "tanh"].
(** umath_core.py 62: num_deriv_funcs; umath_core.py 74: locally_cst_funcs. *)
Definition num_deriv_names : list string := ["fmod"; "gamma"; "lgamma"].
Definition cst_names : list string := ["ceil"; "floor"; "isinf"; "isnan"; "trunc"].
(** umath_core.py 240-266, 351 and 375: many_scalars_to_scalar_funcs, for the functions
    dir(math) of a version of Python. *)
Definition umath_names (dir_math : list string) : list string :=
  filter (fun s => str_in s fixed_names || str_in s num_deriv_names || str_in s cst_names) dir_math
  ++ ["modf"; "ldexp"].
(** umath_core.py 289, 317, 406 and 411: non_std_wrapped_funcs, and all the names of umath. *)
Definition non_std_names : list string := ["factorial"; "fsum"; "frexp"].
Definition umath_all (dir_math : list string) : list string := umath_names dir_math ++ non_std_names.
(** unumpy/core.py 674-683: the names that are translated, and their translation. *)
Definition translated : list string := ["acos"; "acosh"; "asin"; "atan"; "atan2"; "atanh"].
Definition tail (s : string) : string := match s with EmptyString => EmptyString | String _ t => t end.
Definition unumpy_name (s : string) : string :=
  if str_in s translated then "arc" ++ tail s else s.
(** unumpy/core.py 663-728: the functions that unumpy defines: name, and the umath function that
    is vectorized. *)
Definition unumpy_funcs (dir_math : list string) : list (string * string) :=
  map (fun s => (unumpy_name s, s)) (umath_names dir_math).
