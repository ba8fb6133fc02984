(** Covariance and correlation matrices, and correlated values. No proofs in this file. *)
From Coq Require Import ZArith List Bool.
From Verif Require Import Base Heap Affine.
Import ListNotations.

Section Cov.
Context {N : NumOps}.
Open Scope res_scope.

Definition matrix := list (list (num N)).

(** core.py 2910-2918: the sum over the variables of [vs] of
    derivatives1[var]*derivatives2[var]*var._std_dev**2, starting from [acc]. *)
Fixpoint cov_sum (h : heap N) (d1 d2 : dict N) (vs : list varid) (acc : num N) : res (num N) :=
  match vs with
  | [] => Ok acc
  | v :: vs' =>
      match dget d1 v, dget d2 v, get_var h v with
      | Some x1, Some x2, Some o =>
          s <- n_powf (v_std o) (n_two N) ;;
          cov_sum h d1 d2 vs' (n_add N acc (n_mul N (n_mul N x1 x2) s))
      | _, _, _ => Err EKey
      end
  end.

(** core.py 2904-2918: vars1.intersection(derivatives2). The iteration order of a Python set
    of objects is arbitrary: [order] chooses it. *)
Definition common (order : list varid -> list varid) (d1 d2 : dict N) : list varid :=
  order (filter (fun v => existsb (Nat.eqb v) (dkeys d2)) (dkeys d1)).

(** x.derivatives of an element of the sequence: AttributeError for a plain number. *)
Definition elem_derivatives (fuel : nat) (a : value N) : M N (dict N) :=
  match a with VUF u => derivatives fuel u | _ => raise EAttr end.

(** core.py 2908-2918: the coefficients of one row, for the elements of [l]. *)
Fixpoint cov_row (order : list varid -> list varid) (fuel : nat) (d1 : dict N)
  (l : list (value N)) : M N (list (num N)) :=
  match l with
  | [] => ret []
  | a :: l' =>
      bind (elem_derivatives fuel a) (fun d2 =>
      bind (fun h => (cov_sum h d1 d2 (common order d1 d2) (n_zero N), h)) (fun c =>
      bind (cov_row order fuel d1 l') (fun r => ret (c :: r))))
  end.

(** core.py 2902-2920: the lower triangle, from row [i] (nums_with_uncert[:i1], i1 starting
    at 1). [l] is the whole sequence, [rest] its elements from row [i] on. *)
Fixpoint cov_rows (order : list varid -> list varid) (fuel : nat) (l : list (value N)) (i : nat)
  (rest : list (value N)) : M N matrix :=
  match rest with
  | [] => ret []
  | a :: rest' =>
      bind (elem_derivatives fuel a) (fun d1 =>
      bind (cov_row order fuel d1 (firstn (S i) l)) (fun row =>
      bind (cov_rows order fuel l (S i) rest') (fun rows => ret (row :: rows))))
  end.

(** m[j][i]; out of range only for a matrix that is not lower triangular. *)
Definition entry (m : matrix) (i j : nat) : num N := nth j (nth i m []) (n_zero N).

(** core.py 2922-2925: row number i is completed with m[j][i] for j > i. Rows are only
    extended, so the elements read are those of the lower triangle. *)
Definition symmetrize (m : matrix) : matrix :=
  map (fun i => nth i m [] ++ map (fun j => entry m j i) (seq (S i) (length m - S i)))
      (seq 0 (length m)).

(** core.py 2883-2926: covariance_matrix(nums_with_uncert). *)
Definition covariance_matrix (order : list varid -> list varid) (fuel : nat)
  (l : list (value N)) : M N matrix :=
  bind (cov_rows order fuel l 0 l) (fun m => ret (symmetrize m)).

(** Element-wise results. *)
Fixpoint rmapM {A B} (f : A -> res B) (l : list A) : res (list B) :=
  match l with
  | [] => Ok []
  | a :: l' => b <- f a ;; r <- rmapM f l' ;; Ok (b :: r)
  end.

(** NumPy element-wise operations do not raise: sqrt of a negative number is NaN, and a
    division by zero is NaN or infinite. *)
Definition np_sqrt (x : num N) : res (num N) :=
  if n_lt N x (n_zero N) then n_nan N else n_fun1 N F_sqrt x.
Definition np_div (x y : num N) : res (num N) := n_npdiv N x y.

(** numpy.diag(m). *)
Definition diagonal (m : matrix) : list (num N) := map (fun i => entry m i i) (seq 0 (length m)).

(** m/v/v[:, newaxis]: entry (i, j) is (m_ij/v_j)/v_i. *)
Definition normalize (m : matrix) (v : list (num N)) : res matrix :=
  rmapM (fun i =>
    rmapM (fun j => q <- np_div (entry m i j) (nth j v (n_zero N)) ;;
                    np_div q (nth i v (n_zero N)))
          (seq 0 (length m)))
    (seq 0 (length m)).

(** core.py 2933-2943: correlation_matrix(nums_with_uncert). *)
Definition correlation_matrix (order : list varid -> list varid) (fuel : nat)
  (l : list (value N)) : M N matrix :=
  bind (covariance_matrix order fuel l) (fun m =>
    lift (s <- rmapM np_sqrt (diagonal m) ;; normalize m s)).

(** core.py 240-243: Variable(0, sqrt(variance), tag) for each (variance, tag). *)
Fixpoint new_variables (l : list (num N * option nat)) : M N (list varid) :=
  match l with
  | [] => ret []
  | (x, tag) :: l' =>
      bind (lift (n_fun1 N F_sqrt x)) (fun s =>
      bind (new_var (PZ 0%Z) (PF s) tag) (fun u =>
      bind (new_variables l') (fun vs =>
        match uf_var u with Some v => ret (v :: vs) | None => raise EAttr end)))
  end.

(** core.py 250-254: AffineScalarFunc(value, LinearCombination(dict(zip(variables, coords)))). *)
Fixpoint new_combinations (vs : list varid) (l : list (list (num N) * num N)) : M N (list (uf N)) :=
  match l with
  | [] => ret []
  | (coords, x) :: l' => fun h =>
      let (loc, h1) := alloc_lc h (LDict (combine vs coords)) in
      bind (new_combinations vs l') (fun us => ret (mkUF x loc None :: us)) h1
  end.

(** core.py 191-256: correlated_values_norm(values_with_std_dev, correlation_mat, tags).
    [eigh] is numpy.linalg.eigh: eigenvalues and matrix of eigenvectors (as columns).
    Simplification: NumPy's shape errors are ValueError for an empty list, and for a transform
    that does not have one row per value. *)
Definition correlated_values_norm (eigh : matrix -> res (list (num N) * matrix))
  (vals : list (num N * num N)) (corr : matrix) (tags : option (list (option nat)))
  : M N (list (uf N)) :=
  let tags := match tags with None => repeat None (length vals) | Some t => t end in
  match vals with
  | [] => raise EValue
  | _ =>
      bind (lift (eigh corr)) (fun et =>
      let variances := map (fun x => if n_lt N x (n_zero N) then n_zero N else x) (fst et) in
      if negb (Nat.eqb (length (snd et)) (length vals)) then raise EValue else
      bind (new_variables (combine variances tags)) (fun vs =>
      let transform := map (fun p => map (fun c => n_mul N c (snd (snd p))) (fst p))
                           (combine (snd et) vals) in
      new_combinations vs (combine transform (map fst vals))))
  end.

(** core.py 139-187: correlated_values(nom_values, covariance_mat, tags). *)
Definition correlated_values (eigh : matrix -> res (list (num N) * matrix))
  (noms : list (num N)) (cov : matrix) (tags : option (list (option nat)))
  : M N (list (uf N)) :=
  bind (lift (rmapM np_sqrt (diagonal cov))) (fun stds =>
  let norms := map (fun s => if n_eq N s (n_zero N) then n_one N else s) stds in
  bind (lift (normalize cov norms)) (fun corr =>
  correlated_values_norm eigh (combine noms stds) corr tags)).
End Cov.
Arguments matrix N : clear implicits.
