(** Vocabulary for statements about arrays and matrices of numbers with uncertainties. Specification only. *)
From Coq Require Import ZArith List Bool Reals.
From Verif Require Import Base Heap Affine NumR HeapSpec Machine History CovSpec Unumpy UnumpySpec.
Import ListNotations.
Local Open Scope R_scope.

(** ** Arrays of results of a program *)
(** The pairs of elements of the broadcast arguments. *)
Definition pair_at {A} (a b : arr A) (idx : list nat) (x y : A) : Prop :=
  elem a (shown (a_shape a) idx) = Some x /\ elem b (shown (a_shape b) idx) = Some y.
Section ArraySpec.
Context {N : NumOps}.
(** The float that nominal_values() gives for an element. *)
Definition nominal_float (x : value N) (y : num N) : Prop :=
  match x with VUF u => y = uf_nom u | VNum p => pn_float p = Ok y | _ => False end.
(** Standard deviation of a variable or of a number without uncertainty: its attribute, and 0. *)
Definition own_std (h : heap N) (x : value N) (y : num N) : Prop :=
  match x with
  | VUF u => exists v o, uf_var u = Some v /\ get_var h v = Some o /\ y = v_std o
  | _ => y = n_zero N
  end.
(** A call of a function on an array of results, that returns an array of floats. *)
Definition array_read (f : nat -> arr (value N) -> M N (arr (num N))) (st : state N) (ia : arr nat)
  (r : res (arr (num N))) (st' : state N) : Prop :=
  exists a k, wf_arr ia /\ array_of st ia a /\ st_env st' = st_env st /\
    forall fuel, (k <= fuel)%nat -> f fuel a (st_heap st) = (r, st_heap st').
(** Standard deviation of result number [j]: what its attribute gives, 0 for other numbers. *)
Definition std_is (st : state N) (j : nat) (x : num N) : Prop :=
  match nth_error (st_env st) j with
  | Some (VUF _) => reads st (IStd j) (ONum x)
  | Some (VPlain _) => x = n_zero N
  | None => False
  end.
End ArraySpec.

(** ** Matrices of results of a program *)
Section MatrixSpec.
Context {g lg : R -> R}.
Notation RN := (ROps g lg).
(** The results numbered as in [ia] form an m x n matrix whose nominal values are [A]. *)
Definition nominal_matrix (st : state RN) (ia : arr nat) (m n : nat) (A : mx) : Prop :=
  a_shape ia = [m; n] /\
  forall i j, (i < m)%nat -> (j < n)%nat ->
    exists k p, elem ia [i; j] = Some k /\ has_nominal st k p /\ pval p = A i j.
(** The derivatives of the elements of the matrix with respect to [v] are [D]. *)
Definition deriv_matrix (st : state RN) (ia : arr nat) (m n : nat) (v : varid) (D : mx) : Prop :=
  a_shape ia = [m; n] /\
  forall i j, (i < m)%nat -> (j < n)%nat -> exists k, elem ia [i; j] = Some k /\ deriv_is st k v (D i j).
(** [v] is in the dictionary of derivatives of result number [k]. *)
Definition depends (st : state RN) (k : nat) (v : varid) : Prop :=
  exists d, reads st (IDeriv k) (ODict d) /\ In v (dkeys d).
(** A matrix of floats. *)
Definition entries (a : arr R) (m n : nat) (A : mx) : Prop :=
  a_shape a = [m; n] /\ wf_arr a /\
  forall i j, (i < m)%nat -> (j < n)%nat -> elem a [i; j] = Some (A i j).
(** What numpy.linalg.inv() is assumed to do on a matrix, and numpy.linalg.pinv(): when it
    returns, then with the exact inverse. *)
Definition inverts (linv : arr R -> res (arr R)) (n : nat) (A : mx) : Prop :=
  forall a b, entries a n n A -> linv a = Ok b -> exists B, entries b n n B /\ is_inverse n A B.
Definition pseudo_inverts (lpinv : arr R -> res (arr R)) (m n : nat) (A : mx) : Prop :=
  forall a b, entries a m n A -> lpinv a = Ok b -> exists P, entries b n m P /\ is_pinv m n A P.

(** ** Functions of arrays *)
(** The nominal values of the results numbered as in [ia]; their derivatives with respect to [v]. *)
Definition nominal_list (st : state RN) (ia : arr nat) (A : list R) : Prop :=
  Forall2 (fun k x => exists p, has_nominal st k p /\ pval p = x) (a_flat ia) A.
Definition deriv_list (st : state RN) (ia : arr nat) (v : varid) (D : list R) : Prop :=
  Forall2 (fun k x => deriv_is st k v x) (a_flat ia) D.
End MatrixSpec.
(** The function [f] of arrays returns arrays of shape [sh'] for arrays of shape [sh]; [F] gives
    the elements. *)
Definition computes (f : arr R -> res (arr R)) (sh sh' : list nat) (F : list R -> list R) : Prop :=
  forall a b, wf_arr a -> a_shape a = sh -> f a = Ok b -> wf_arr b /\ a_shape b = sh' /\ a_flat b = F (a_flat a).
(** Values of the elements when a variable moves by [t]: [A] are the values, [D] the derivatives. *)
Definition moved (A D : list R) (t : R) : list R := map (fun p => fst p + t * snd p) (combine A D).
(** Step for the numerical derivative with respect to a variable of nominal value [n] and standard
    deviation [s]: the larger of s/10^5 and |n|/10^8, or 1/10^8 if this is 0. *)
Definition step_for (n s t : R) : Prop :=
  let m := Rmax (s / 100000) (Rabs n / 100000000) in (m <> 0 -> t = m) /\ (m = 0 -> t = 1 / 100000000).
Definition quotients (t : R) (A B : list R) : list R := map (fun p => (snd p - fst p) / t) (combine A B).
