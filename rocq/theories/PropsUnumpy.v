(** Property theorems about arrays and matrices. *)
From Coq Require Import String.
From Coq Require Import ZArith List Bool Reals Permutation.
From Coquelicot Require Import Coquelicot.
From Verif Require Import Base Heap Affine Ops UMath NumR HeapSpec Machine History CovSpec Unumpy UnumpySpec MatrixSpec
  UarrProofs VecProofs InvThm WArrThm Examples ExPrim ExArr.
Import ListNotations.
Local Notation length := List.length.

(** ** C48 *)
(** C48, in any arithmetic. uarray(n, s) makes one new variable per index of the broadcast arrays, with the nominal value and the standard deviation found there; each element depends on its own variable only. *)
Theorem C48_uarray : forall (N : NumOps), forall (n s : arr (pynum N)) sh h, wf_arr n -> wf_arr s ->
  broadcasts (a_shape n) (a_shape s) sh ->
  (forall idx p q, valid sh idx -> pair_at n s idx p q ->
     (exists x, pn_float p = Ok x) /\ (exists y, check_std q = Ok y)) ->
  exists a h', uarray (UArr n) (Some (UArr s)) h = (Ok a, h') /\ wf_arr a /\ a_shape a = sh /\
  (forall idx, valid sh idx -> exists p q x y u v,
     pair_at n s idx p q /\ pn_float p = Ok x /\ check_std q = Ok y /\
     elem a idx = Some (VUF u) /\ uf_nom u = x /\ uf_var u = Some v /\ get_var h v = None /\
     (forall fuel, std_dev fuel u h' = (Ok y, h')) /\
     (forall fuel, derivatives fuel u h' = (Ok [(v, n_one N)], h'))) /\
  (forall idx idx' u u', valid sh idx -> valid sh idx' -> elem a idx = Some (VUF u) ->
     elem a idx' = Some (VUF u') -> uf_var u = uf_var u' -> idx = idx').
Proof. exact @uarray_spec. Qed.
Print Assumptions C48_uarray.
(** uarray() only returns if each pair of elements is acceptable to ufloat(). *)
Theorem C48_uarray_refuses : forall (N : NumOps), forall (n s : arr (pynum N)) sh h a h', wf_arr n -> wf_arr s ->
  broadcasts (a_shape n) (a_shape s) sh -> uarray (UArr n) (Some (UArr s)) h = (Ok a, h') ->
  forall idx p q, valid sh idx -> pair_at n s idx p q ->
    (exists x, pn_float p = Ok x) /\ (exists y, check_std q = Ok y).
Proof. exact @uarray_refuses. Qed.
Print Assumptions C48_uarray_refuses.
(** uarray(n, s) is one call of ufloat() per index. *)
Theorem C48_uarray_program : forall (N : NumOps), forall (n s : arr (pynum N)) sh (st : state N) a h', wf_arr n -> wf_arr s ->
  broadcasts (a_shape n) (a_shape s) sh -> uarray (UArr n) (Some (UArr s)) (st_heap st) = (Ok a, h') ->
  exists prog os, runs st prog (mkState h' (st_env st ++ a_flat a)) os /\
    Forall2 (fun idx ins => exists p q, pair_at n s idx p q /\ ins = INew p q None) (indices sh) prog /\
    List.Forall (fun o => o = ONone) os.
Proof. exact @uarray_runs. Qed.
Print Assumptions C48_uarray_program.
(** nominal_values(uarray(n, s)) = n and std_devs(uarray(n, s)) = s. *)
Theorem C48_values : forall (N : NumOps), forall (n s : arr (num N)) h fuel, wf_arr n -> wf_arr s ->
  a_shape s = a_shape n ->
  (forall y, In y (a_flat s) -> n_lt N y (n_zero N) = false) ->
  exists a h', uarray (UArr (amap PF n)) (Some (UArr (amap PF s))) h = (Ok a, h') /\
    a_shape a = a_shape n /\
    exists n' s', nominal_values a h' = (Ok n', h') /\ std_devs fuel a h' = (Ok s', h') /\
      a_shape n' = a_shape n /\ a_flat n' = a_flat n /\ a_shape s' = a_shape s /\ a_flat s' = a_flat s.
Proof. exact @uarray_values. Qed.
Print Assumptions C48_values.
(** nominal_values() of any array of numbers, with or without uncertainty. *)
Theorem C48_nominal_values : forall (N : NumOps), forall (a : arr (value N)) h, wf_arr a ->
  (forall x, In x (a_flat a) -> exists y, nominal_float x y) ->
  exists r, nominal_values a h = (Ok r, h) /\ wf_arr r /\ elementwise nominal_float a r /\
    a_cls r = match a_cls a with AUMat => AMat | c => c end.
Proof. exact @nominal_values_spec. Qed.
Print Assumptions C48_nominal_values.
(** std_devs() of any array of results, in exact arithmetic: the standard deviation of each number with uncertainty, 0 for the others. *)
Theorem C48_std_devs : forall (g lg : R -> R), forall (st : state (ROps g lg)) ia, reachable st -> wf_arr ia ->
  List.Forall (fun i => (i < length (st_env st))%nat) (a_flat ia) ->
  exists r st', array_read (std_devs (N:=ROps g lg)) st ia (Ok r) st' /\ elementwise (std_is st) ia r.
Proof. exact @std_devs_results. Qed.
Print Assumptions C48_std_devs.
(** std_devs() does not change what is observed later. *)
Theorem C48_invisible : forall (g lg : R -> R), forall (st : state (ROps g lg)) ia r st' prog st1 os1 st2 os2, reachable st ->
  array_read (std_devs (N:=ROps g lg)) st ia r st' -> runs st prog st1 os1 -> runs st' prog st2 os2 -> Forall2 same_out os1 os2.
Proof. exact @std_devs_invisible. Qed.
Print Assumptions C48_invisible.
(** uarray(a), for an array or a tuple a, is uarray(a[0], a[1]). *)
Theorem C48_one_argument : forall (N : NumOps), forall (a n s : arr (pynum N)) sh h, wf_arr a -> wf_arr n -> wf_arr s ->
  a_shape a = 2%nat :: sh -> a_shape n = sh -> a_shape s = sh -> a_cls n = a_cls a -> a_cls s = a_cls a ->
  (forall idx, valid sh idx -> elem n idx = elem a (0%nat :: idx) /\ elem s idx = elem a (1%nat :: idx)) ->
  uarray (UArr a) None h = uarray (UArr n) (Some (UArr s)) h /\
  uarray (UTuple [n; s]) None h = uarray (UArr n) (Some (UArr s)) h.
Proof. exact @uarray_pair. Qed.
Print Assumptions C48_one_argument.
(** umatrix(n, s) has the elements of uarray(n, s), in two dimensions, *)
Theorem C48_umatrix : forall (N : NumOps), forall (n s : arr (pynum N)) h m h', umatrix (UArr n) (Some (UArr s)) h = (Ok m, h') ->
  exists a, uarray (UArr n) (Some (UArr s)) h = (Ok a, h') /\ a_cls m = AUMat /\
    ((exists k l, a_shape a = [k; l] /\ a_shape m = [k; l] /\ forall i j, elem m [i; j] = elem a [i; j]) \/
     (exists l, a_shape a = [l] /\ a_shape m = [1%nat; l] /\ forall j, elem m [0%nat; j] = elem a [j]) \/
     (a_shape a = [] /\ a_shape m = [1%nat; 1%nat] /\ elem m [0%nat; 0%nat] = elem a [])).
Proof. exact @umatrix_spec. Qed.
Print Assumptions C48_umatrix.
(** and returns when uarray(n, s) does. *)
Theorem C48_umatrix_returns : forall (N : NumOps), forall (n s : arr (pynum N)) h a h', uarray (UArr n) (Some (UArr s)) h = (Ok a, h') ->
  (length (a_shape a) <= 2)%nat -> exists m, umatrix (UArr n) (Some (UArr s)) h = (Ok m, h').
Proof. exact @umatrix_returns. Qed.
Print Assumptions C48_umatrix_returns.
(** uarray([[1, 2], [3, 4]]) and umatrix([1, 2], [3, 4]). *)
Example C48_example_pair : forall (g lg : R -> R), wf_arr (n22 (g:=g) (lg:=lg)) /\ wf_arr (n2 (g:=g) (lg:=lg)) /\ wf_arr (s2 (g:=g) (lg:=lg)) /\ a_shape (n22 (g:=g) (lg:=lg)) = 2%nat :: a_shape (n2 (g:=g) (lg:=lg)) /\
  (forall idx, valid [2]%nat idx -> elem (n2 (g:=g) (lg:=lg)) idx = elem (n22 (g:=g) (lg:=lg)) (0%nat :: idx) /\ elem (s2 (g:=g) (lg:=lg)) idx = elem (n22 (g:=g) (lg:=lg)) (1%nat :: idx)) /\
  exists m h', umatrix (UArr (n2 (g:=g) (lg:=lg))) (Some (UArr (s2 (g:=g) (lg:=lg)))) (st_heap (init (N:=ROps g lg))) = (Ok m, h') /\ a_shape m = [1; 2]%nat.
Proof. exact @ex_C48_pair. Qed.
(** uarray([[1], [2]], [3, 4, 5]) has 6 elements. *)
Example C48_example : forall (g lg : R -> R), wf_arr (n21 (g:=g) (lg:=lg)) /\ wf_arr (s3 (g:=g) (lg:=lg)) /\ broadcasts (a_shape (n21 (g:=g) (lg:=lg))) (a_shape (s3 (g:=g) (lg:=lg))) [2; 3]%nat /\
  (forall idx p q, valid [2; 3]%nat idx -> pair_at (n21 (g:=g) (lg:=lg)) (s3 (g:=g) (lg:=lg)) idx p q ->
     (exists x, pn_float p = Ok x) /\ (exists y, check_std q = Ok y)) /\
  pair_at (n21 (g:=g) (lg:=lg)) (s3 (g:=g) (lg:=lg)) [1; 2]%nat (PF (N:=ROps g lg) 2) (PF (N:=ROps g lg) 5) /\
  exists a h', uarray (UArr (n21 (g:=g) (lg:=lg))) (Some (UArr (s3 (g:=g) (lg:=lg)))) (st_heap (init (N:=ROps g lg))) = (Ok a, h') /\
    a_shape a = [2; 3]%nat /\ length (a_flat a) = 6%nat.
Proof. exact @ex_C48. Qed.
(** The array [x, 7, x], x = 1 +/- 3. *)
Example C48_example_std : forall (g lg : R -> R), reachable (xc_st (g:=g) (lg:=lg)) /\ wf_arr ix3 /\ List.Forall (fun i => (i < length (st_env (xc_st (g:=g) (lg:=lg))))%nat) (a_flat ix3) /\
  std_is (xc_st (g:=g) (lg:=lg)) 0 (3 : num (ROps g lg)) /\ std_is (xc_st (g:=g) (lg:=lg)) 2 (0 : num (ROps g lg)).
Proof. exact @ex_C48_std. Qed.
Local Open Scope R_scope.
(** ** C49 *)
(** C49. ulinalg.inv() of an n x n matrix, when numpy.linalg.inv() inverts the nominal matrix A: nominal value, derivatives, dependences. *)
Theorem C49_result : forall (g lg : R -> R), forall linv order (st st' : state (ROps g lg)) ia ir n A,
  reachable st -> (forall l, Permutation (order l) l) -> inverts linv n A -> nominal_matrix st ia n n A ->
  array_call (inv (N:=ROps g lg) linv order) st ia (Ok ir) st' ->
  exists B, nominal_matrix st' ir n n B /\ is_inverse n A B /\
  forall v, exists D, deriv_matrix st ia n n v D /\
    deriv_matrix st' ir n n v (fun i j => - mprod n (mprod n B D) B i j) /\
    (forall i, In i (a_flat ir) -> depends st' i v -> exists i', In i' (a_flat ia) /\ depends st i' v).
Proof. exact @inv_result. Qed.
Print Assumptions C49_result.
(** The derivatives are those of the inverse matrix: along any curve F of matrices that starts at the nominal matrix with the derivative D of the elements, with inverse G. *)
Theorem C49_derivative : forall (g lg : R -> R), forall linv order (st st' : state (ROps g lg)) ia ir n A v D (F G : nat -> nat -> R -> R) t,
  reachable st -> (forall l, Permutation (order l) l) -> inverts linv n A ->
  nominal_matrix st ia n n A -> deriv_matrix st ia n n v D ->
  array_call (inv (N:=ROps g lg) linv order) st ia (Ok ir) st' ->
  (forall i j, (i < n)%nat -> (j < n)%nat -> F i j t = A i j /\ is_derive (F i j) t (D i j)) ->
  locally t (fun s => is_inverse n (fun i j => F i j s) (fun i j => G i j s)) ->
  nominal_matrix st' ir n n (fun i j => G i j t) /\
  exists D', deriv_matrix st' ir n n v D' /\
    forall i j, (i < n)%nat -> (j < n)%nat -> is_derive (G i j) t (D' i j).
Proof. exact @inv_derivative. Qed.
Print Assumptions C49_derivative.
(** inv() returns when numpy.linalg.inv() does. *)
Theorem C49_returns : forall (g lg : R -> R), forall linv order (st : state (ROps g lg)) ia n A,
  reachable st -> (forall l, Permutation (order l) l) -> inverts linv n A -> wf_arr ia -> nominal_matrix st ia n n A ->
  (forall a, entries a n n A -> exists b, linv a = Ok b) ->
  exists ir st', array_call (inv (N:=ROps g lg) linv order) st ia (Ok ir) st'.
Proof. exact @inv_succeeds. Qed.
Print Assumptions C49_returns.
(** Functions of matrices do not affect older results. *)
Theorem C49_unaffected : forall (g lg : R -> R), forall order fw (st st' : state (ROps g lg)) ia r k ins o o',
  reachable st -> (forall l, Permutation (order l) l) -> array_call (uncert_func order fw) st ia r st' ->
  In ins [IDeriv k; IStd k; IErrs k; IBool k] -> (k < length (st_env st))%nat ->
  reads st ins o -> reads st' ins o' -> same_out o o'.
Proof. exact @array_unaffected. Qed.
Print Assumptions C49_unaffected.
(** Inverse of [[x, y], [y, x]], x = 1 +/- 3, y = 2 +/- 4. *)
Example C49_example : forall (g lg : R -> R), reachable (xy_st (g:=g) (lg:=lg)) /\ inverts linv2 2 A2 /\ nominal_matrix (g:=g) (lg:=lg) xy_st ia2 2 2 A2 /\
  deriv_matrix (g:=g) (lg:=lg) xy_st ia2 2 2 0%nat (M2 1 0 0 1) /\
  (forall i j, (i < 2)%nat -> (j < 2)%nat -> F2 i j 0 = A2 i j /\ is_derive (F2 i j) 0 (M2 1 0 0 1 i j)) /\
  locally 0 (fun s => is_inverse 2 (fun i j => F2 i j s) (fun i j => G2 i j s)) /\
  exists ir st', array_call (inv (N:=ROps g lg) linv2 (fun l => l)) (xy_st (g:=g) (lg:=lg)) ia2 (Ok ir) st' /\
    nominal_matrix st' ir 2 2 (M2 (-1/3) (2/3) (2/3) (-1/3)) /\
    deriv_matrix st' ir 2 2 0%nat (M2 (-5/9) (4/9) (4/9) (-5/9)).
Proof. exact @ex_C49. Qed.
(** ** C50 *)
(** C50. ulinalg.pinv() of an m x n matrix, when numpy.linalg.pinv() gives the Moore-Penrose inverse of the nominal matrix. *)
Theorem C50_result : forall (g lg : R -> R), forall lpinv order (st st' : state (ROps g lg)) ia ir m n A,
  reachable st -> (forall l, Permutation (order l) l) -> pseudo_inverts lpinv m n A -> nominal_matrix st ia m n A ->
  array_call (pinv (N:=ROps g lg) lpinv order) st ia (Ok ir) st' ->
  (exists B, nominal_matrix st' ir n m B /\ is_pinv m n A B) /\
  forall v i, In i (a_flat ir) -> depends st' i v -> exists i', In i' (a_flat ia) /\ depends st i' v.
Proof. exact @pinv_value. Qed.
Print Assumptions C50_result.
(** The derivatives are those of the Moore-Penrose inverse, along any curve of matrices on which it is continuous. *)
Theorem C50_derivative : forall (g lg : R -> R), forall lpinv order (st st' : state (ROps g lg)) ia ir m n A v D (F G : nat -> nat -> R -> R) t,
  reachable st -> (forall l, Permutation (order l) l) -> pseudo_inverts lpinv m n A ->
  nominal_matrix st ia m n A -> deriv_matrix st ia m n v D ->
  array_call (pinv (N:=ROps g lg) lpinv order) st ia (Ok ir) st' ->
  (forall i j, (i < m)%nat -> (j < n)%nat -> F i j t = A i j /\ is_derive (F i j) t (D i j)) ->
  locally t (fun s => is_pinv m n (fun i j => F i j s) (fun i j => G i j s)) ->
  (forall i j, (i < n)%nat -> (j < m)%nat -> continuous (G i j) t) ->
  nominal_matrix st' ir n m (fun i j => G i j t) /\
  exists D', deriv_matrix st' ir n m v D' /\
    forall i j, (i < n)%nat -> (j < m)%nat -> is_derive (G i j) t (D' i j).
Proof. exact @pinv_derivatives. Qed.
Print Assumptions C50_derivative.
(** pinv() returns when numpy.linalg.pinv() does. *)
Theorem C50_returns : forall (g lg : R -> R), forall lpinv order (st : state (ROps g lg)) ia m n A,
  reachable st -> (forall l, Permutation (order l) l) -> pseudo_inverts lpinv m n A -> wf_arr ia -> nominal_matrix st ia m n A ->
  (forall a, entries a m n A -> exists b, lpinv a = Ok b) ->
  exists ir st', array_call (pinv (N:=ROps g lg) lpinv order) st ia (Ok ir) st'.
Proof. exact @pinv_succeeds. Qed.
Print Assumptions C50_returns.
(** The attribute I of a matrix is inv() for a square matrix, and pinv() otherwise. *)
Theorem C50_attribute : forall (N : NumOps), forall linv lpinv order fuel (a : arr (value N)) h m n, a_shape a = [m; n] ->
  (m = n -> matrix_I linv lpinv order fuel a h = inv linv order fuel a h) /\
  (m <> n -> matrix_I linv lpinv order fuel a h = pinv lpinv order fuel a h).
Proof. exact @matrix_I_spec. Qed.
Print Assumptions C50_attribute.
(** Pseudo-inverse of the column [[x], [y]]. *)
Example C50_example : forall (g lg : R -> R), reachable (xy_st (g:=g) (lg:=lg)) /\ pseudo_inverts lpinv2 2 1 (C2 1 2) /\
  nominal_matrix (g:=g) (lg:=lg) xy_st ic2 2 1 (C2 1 2) /\ deriv_matrix (g:=g) (lg:=lg) xy_st ic2 2 1 0%nat (C2 1 0) /\
  (forall i j, (i < 2)%nat -> (j < 1)%nat -> Fc i j 0 = C2 1 2 i j /\ is_derive (Fc i j) 0 (C2 1 0 i j)) /\
  locally 0 (fun s => is_pinv 2 1 (fun i j => Fc i j s) (fun i j => Gc i j s)) /\
  (forall i j, (i < 1)%nat -> (j < 2)%nat -> continuous (Gc i j) 0) /\
  exists ir st', array_call (pinv (N:=ROps g lg) lpinv2 (fun l => l)) (xy_st (g:=g) (lg:=lg)) ic2 (Ok ir) st' /\
    nominal_matrix st' ir 1 2 (R2 (1/5) (2/5)) /\
    deriv_matrix st' ir 1 2 0%nat (R2 (3/25) (-4/25)).
Proof. exact @ex_C50. Qed.
(** ** C62 *)
(** C62. A function wrapped by wrap_array_func(): nominal values, derivatives (difference quotients with a step that depends on the variable), dependences. *)
Theorem C62_result : forall (g lg : R -> R), forall f order (st st' : state (ROps g lg)) ia ir sh' F A,
  reachable st -> (forall l, Permutation (order l) l) -> computes f (a_shape ia) sh' F -> nominal_list st ia A ->
  array_call (wrap_array_func (N:=ROps g lg) order f) st ia (Ok ir) st' ->
  a_shape ir = sh' /\ nominal_list st' ir (F A) /\
  forall v o D t, get_var (st_heap st) v = Some o -> step_for (v_nom o) (v_std o) t -> deriv_list st ia v D ->
    0 < t /\ deriv_list st' ir v (quotients t (F A) (F (moved A D t))) /\
    (forall k i x, nth_error (a_flat ir) k = Some i -> nth_error (quotients t (F A) (F (moved A D t))) k = Some x ->
       (depends st' i v <-> x <> 0)).
Proof. exact @wrapped_result. Qed.
Print Assumptions C62_result.
(** The error of the derivative is at most M*t/2, if M bounds the second derivative along the variable over the step t. (M = 0: exact for affine functions.) *)
Theorem C62_accuracy : forall (g lg : R -> R), forall f order (st st' : state (ROps g lg)) ia ir sh' F A v o D t k i (phi1 phi2 : R -> R) M,
  reachable st -> (forall l, Permutation (order l) l) -> computes f (a_shape ia) sh' F -> nominal_list st ia A ->
  array_call (wrap_array_func (N:=ROps g lg) order f) st ia (Ok ir) st' ->
  get_var (st_heap st) v = Some o -> step_for (v_nom o) (v_std o) t -> deriv_list st ia v D ->
  nth_error (a_flat ir) k = Some i ->
  (forall s, 0 <= s <= t -> is_derive (fun s => nth k (F (moved A D s)) 0) s (phi1 s)) ->
  (forall s, 0 <= s <= t -> is_derive phi1 s (phi2 s)) -> (forall s, 0 <= s <= t -> Rabs (phi2 s) <= M) ->
  exists x, deriv_is st' i v x /\ Rabs (x - phi1 0) <= M * t / 2.
Proof. exact @wrapped_accuracy. Qed.
Print Assumptions C62_accuracy.
(** The wrapped function returns, if the function does and if its result is not empty. *)
Theorem C62_returns : forall (g lg : R -> R), forall f order (st : state (ROps g lg)) ia sh' F A,
  reachable st -> (forall l, Permutation (order l) l) -> wf_arr ia -> computes f (a_shape ia) sh' F ->
  (forall a, wf_arr a -> a_shape a = a_shape ia -> exists b, f a = Ok b) -> count sh' <> 0%nat -> nominal_list st ia A ->
  exists ir st', array_call (wrap_array_func (N:=ROps g lg) order f) st ia (Ok ir) st'.
Proof. exact @wrapped_returns. Qed.
Print Assumptions C62_returns.
(** Older results are not affected. *)
Theorem C62_unaffected : forall (g lg : R -> R), forall order f (st st' : state (ROps g lg)) ia r k ins o o',
  reachable st -> (forall l, Permutation (order l) l) -> array_call (wrap_array_func (N:=ROps g lg) order f) st ia r st' ->
  In ins [IDeriv k; IStd k; IErrs k; IBool k] -> (k < length (st_env st))%nat ->
  reads st ins o -> reads st' ins o' -> same_out o o'.
Proof. exact @wrapped_unaffected. Qed.
Print Assumptions C62_unaffected.
(** The function [a, b] -> [a*a, a*b] at [x, y], x = 1 +/- 3: the bound on the error is reached for a*a. *)
Example C62_example : forall (g lg : R -> R), reachable (xy_st (g:=g) (lg:=lg)) /\ computes sq_arr (a_shape ixy) [2]%nat sq_list /\
  nominal_list (g:=g) (lg:=lg) xy_st ixy [1; 2] /\ deriv_list (g:=g) (lg:=lg) xy_st ixy 0%nat [1; 0] /\
  (exists o, get_var (st_heap (xy_st (g:=g) (lg:=lg))) 0%nat = Some o /\ step_for (v_nom o) (v_std o) (3 / 100000)) /\
  exists ir st', array_call (wrap_array_func (N:=ROps g lg) (fun l => l) sq_arr) (xy_st (g:=g) (lg:=lg)) ixy (Ok ir) st' /\
    nominal_list st' ir [1; 2] /\ deriv_list st' ir 0%nat [2 + 3 / 100000; 2].
Proof. exact @ex_C62. Qed.
(** ** C51 *)
Local Open Scope string_scope.
(** C51, for any version of the math module: all functions but three. *)
Theorem C51_names_partial : forall dir_math s np, In s (umath_all dir_math) -> numpy_name s = Some np ->
  ~ In s ["asinh"; "pow"; "frexp"] -> In (np, s) (unumpy_funcs dir_math).
Proof. exact numpy_names. Qed.
Print Assumptions C51_names_partial.
(** The three exceptions: asinh, pow and frexp. *)
Theorem C51_refuted : forall dir_math, In "asinh" dir_math -> In "pow" dir_math ->
  exists l, l = ["asinh"; "pow"; "frexp"] /\
  forall s, In s l -> In s (umath_all dir_math) /\
    exists np, numpy_name s = Some np /\ ~ exists f, In (np, f) (unumpy_funcs dir_math).
Proof. exact numpy_names_refuted. Qed.
Print Assumptions C51_refuted.
(** A name stands for a single function. *)
Theorem C51_unique : forall dir_math np f f', In (np, f) (unumpy_funcs dir_math) ->
  In (np, f') (unumpy_funcs dir_math) -> f = f'.
Proof. exact unumpy_names_unique. Qed.
Print Assumptions C51_unique.
(** When a name of unumpy is one of NumPy, then for the same function. *)
Theorem C51_meaning : forall dir_math np f s, In (np, f) (unumpy_funcs dir_math) ->
  numpy_name s = Some np -> f = s.
Proof. exact unumpy_names_numpy. Qed.
Print Assumptions C51_meaning.
Local Close Scope string_scope.
(** In any arithmetic, a vectorized function of one argument does one call per element. *)
Theorem C51_one_argument : forall (N : NumOps), forall f pos kwd (st st' : state N) ia ir,
  array_call (fun _ a => vectorize (arg1 (fun x => wcall f pos kwd [x] [])) [a]) st ia (Ok ir) st' ->
  a_shape ir = a_shape ia /\
  runs st (map (fun i => ICall f pos kwd [i] []) (a_flat ia)) st' (repeat ONone (length (a_flat ia))).
Proof. exact @vectorized1. Qed.
Print Assumptions C51_one_argument.
(** A vectorized function of two arguments does one call per index of the broadcast arrays. *)
Theorem C51_two_arguments : forall (N : NumOps), forall f pos kwd (st st' : state N) ia ja sh ir a b c,
  wf_arr ia -> wf_arr ja -> broadcasts (a_shape ia) (a_shape ja) sh ->
  array_of st ia a -> array_of st ja b -> array_of st' ir c ->
  st_env st' = st_env st ++ a_flat c ->
  vectorize (fun l => wcall f pos kwd l []) [a; b] (st_heap st) = (Ok c, st_heap st') ->
  a_shape ir = sh /\
  exists prog, runs st prog st' (repeat ONone (length prog)) /\
    Forall2 (fun idx ins => exists i j, pair_at ia ja idx i j /\ ins = ICall f pos kwd [i; j] []) (indices sh) prog.
Proof. exact @vectorized2. Qed.
Print Assumptions C51_two_arguments.
Example C51_example_one : forall (g lg : R -> R), exists st' ir,
  array_call (N:=ROps g lg) (fun _ a => vectorize (arg1 (fun x => wcall (m1_fun F_sin) (m1_pos F_sin) (m1_kw F_sin) [x] [])) [a])
    (xy_st (g:=g) (lg:=lg)) ix21 (Ok ir) st' /\ length (a_flat ir) = 2%nat.
Proof. exact @ex_C51_one. Qed.
Example C51_example_two : forall (g lg : R -> R), exists (st' : state (ROps g lg)) ir (a b c : arr (value (ROps g lg))), wf_arr ix21 /\ wf_arr ix2 /\
  broadcasts (a_shape ix21) (a_shape ix2) [2; 2]%nat /\
  array_of (xy_st (g:=g) (lg:=lg)) ix21 a /\ array_of (xy_st (g:=g) (lg:=lg)) ix2 b /\ array_of st' ir c /\
  st_env st' = (st_env (xy_st (g:=g) (lg:=lg)) ++ a_flat c)%list /\
  vectorize (fun l => wcall flat_fsum fsum_pos fsum_kw l []) [a; b] (st_heap (xy_st (g:=g) (lg:=lg))) = (Ok c, st_heap st').
Proof. exact @ex_C51_two. Qed.
Local Open Scope string_scope.
Example C51_example : In "atan2" (umath_all ["atan2"; "asinh"; "pow"]) /\ numpy_name "atan2" = Some "arctan2" /\
  ~ In "atan2" ["asinh"; "pow"; "frexp"] /\ In ("arctan2", "atan2") (unumpy_funcs ["atan2"; "asinh"; "pow"]).
Proof. exact ex_C51. Qed.
