(** Vocabulary for statements about covariance matrices. Specification only. *)
From Coq Require Import ZArith List Bool Reals.
From Verif Require Import Base Heap NumR HeapSpec Machine Cov History.
Import ListNotations.
Local Open Scope R_scope.

(** Sum of [F 0], ..., [F (n-1)]. *)
Definition Sum (n : nat) (F : nat -> R) : R := Rsum (map F (seq 0 n)).
(** Kronecker's symbol. *)
Definition kron (i j : nat) : R := if Nat.eqb i j then 1 else 0.
(** Positive semi-definite matrix. *)
Definition psd (n : nat) (M : nat -> nat -> R) : Prop :=
  forall x : nat -> R, 0 <= Sum n (fun i => Sum n (fun j => x i * x j * M i j)).

Section CovSpec.
Context {g lg : R -> R}.
Notation RN := (ROps g lg).
(** Element (i, j) of a matrix. *)
Definition mat (m : list (list R)) (i j : nat) : R := nth j (nth i m []) 0.
(** Covariance of two linear combinations of independent variables, from their derivatives. *)
Definition covsum (st : state RN) (d d' : dict RN) : R :=
  Rsum (map (fun p => snd p * dval d' (fst p) * sd st (fst p) ^ 2) d).
(** What numpy.linalg.eigh guarantees for a symmetric matrix, in exact arithmetic: eigenvalues
    and an orthogonal matrix whose columns are eigenvectors. *)
Definition eigh_exact (eigh : matrix RN -> res (list R * matrix RN)) : Prop :=
  forall n (m : matrix RN) (lam : list R) (V : matrix RN), square n m -> (forall i j, mat m i j = mat m j i) -> eigh m = Ok (lam, V) ->
    length lam = n /\ square n V /\
    (forall i j, (i < n)%nat -> (j < n)%nat ->
       mat m i j = Sum n (fun k => mat V i k * nth k lam 0 * mat V j k)) /\
    (forall k l, (k < n)%nat -> (l < n)%nat -> Sum n (fun i => mat V i k * mat V i l) = kron k l).
End CovSpec.
