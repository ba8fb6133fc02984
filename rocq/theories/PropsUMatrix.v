(** Property theorems about operators on arrays and products of matrices. *)
From Coq Require Import String.
From Coq Require Import ZArith List Bool Reals Permutation.
From Coquelicot Require Import Coquelicot.
From Verif Require Import Base Heap Affine Ops UMath NumR HeapSpec Machine History CovSpec Unumpy UnumpySpec MatrixSpec
  UMatrix UMxThm InvThm Examples ExPrim ExArr ExMx.
Import ListNotations.
Local Notation length := List.length.
Local Open Scope R_scope.

(** ** C70 *)
(** C70, in any arithmetic. An operator on two arrays does the operator on each pair of elements of the broadcast arrays, in the order of the indices (when each pair contains a number with uncertainty). *)
Theorem C70_elementwise : forall (N : NumOps), forall op (st st' : state N) ia ja sh ir,
  broadcasts (a_shape ia) (a_shape ja) sh ->
  (forall idx i j, valid sh idx -> pair_at ia ja idx i j -> exists u, is_number st i u \/ is_number st j u) ->
  array_call2 (array_op op) st ia ja (Ok ir) st' ->
  a_shape ir = sh /\
  exists prog, runs st prog st' (repeat ONone (length prog)) /\
    Forall2 (fun idx ins => exists i j, pair_at ia ja idx i j /\ ins = IBin op i j) (indices sh) prog.
Proof. exact @operator_elementwise. Qed.
Print Assumptions C70_elementwise.
(** Exact arithmetic, all numbers, with or without uncertainty: shape, nominal values, derivatives and dependences of + - * /. *)
Theorem C70_result : forall (g lg : R -> R), forall op (st st' : state (ROps g lg)) ia ja sh ir, four op ->
  reachable st -> broadcasts (a_shape ia) (a_shape ja) sh ->
  array_call2 (array_op (N:=ROps g lg) op) st ia ja (Ok ir) st' ->
  a_shape ir = sh /\
  forall idx i j p q, valid sh idx -> pair_at ia ja idx i j -> has_nominal st i p -> has_nominal st j q ->
  (op = Btruediv -> pval q <> 0) /\
  exists k r, elem ir idx = Some k /\ has_nominal st' k r /\ pval r = real_op op (pval p) (pval q) /\
    (forall v x y, deriv_is st i v x -> deriv_is st j v y ->
       deriv_is st' k v (real_dx op (pval p) (pval q) * x + real_dy op (pval p) (pval q) * y)) /\
    (forall v, depends st' k v <-> depends st i v \/ depends st j v).
Proof. exact @operator_result. Qed.
Print Assumptions C70_result.
(** The result exists unless an element of the divisor is zero. *)
Theorem C70_returns : forall (g lg : R -> R), forall op (st : state (ROps g lg)) ia ja sh, four op ->
  reachable st -> wf_arr ia -> wf_arr ja -> broadcasts (a_shape ia) (a_shape ja) sh ->
  (forall k, In k (a_flat ia) \/ In k (a_flat ja) -> exists p, has_nominal st k p) ->
  (op = Btruediv -> forall k p, In k (a_flat ja) -> has_nominal st k p -> pval p <> 0) ->
  exists ir st', array_call2 (array_op (N:=ROps g lg) op) st ia ja (Ok ir) st'.
Proof. exact @operator_returns. Qed.
Print Assumptions C70_returns.
(** Older results are not affected. *)
Theorem C70_unaffected : forall (g lg : R -> R), forall op (st st' : state (ROps g lg)) ia ja r k ins o o',
  reachable st -> array_call2 (array_op op) st ia ja r st' ->
  In ins [IDeriv k; IStd k; IErrs k; IBool k] -> (k < length (st_env st))%nat ->
  reads st ins o -> reads st' ins o' -> same_out o o'.
Proof. exact @operator_unaffected. Qed.
Print Assumptions C70_unaffected.
(** [[x], [y]] / [x, y], x = 1 +/- 3, y = 2 +/- 4. *)
Example C70_example : forall (g lg : R -> R), reachable (xy_st (g:=g) (lg:=lg)) /\ broadcasts (a_shape col2) (a_shape row2) [2; 2]%nat /\
  valid [2; 2]%nat [0; 1]%nat /\ pair_at col2 row2 [0; 1]%nat 0%nat 1%nat /\
  has_nominal (g:=g) (lg:=lg) xy_st 0 (PF (N:=ROps g lg) 1) /\ has_nominal (g:=g) (lg:=lg) xy_st 1 (PF (N:=ROps g lg) 2) /\
  exists ir st' k r, array_call2 (array_op (N:=ROps g lg) Btruediv) xy_st col2 row2 (Ok ir) st' /\ a_shape ir = [2; 2]%nat /\
    elem ir [0; 1]%nat = Some k /\ has_nominal st' k r /\ pval r = 1 / 2 /\ deriv_is st' k 0%nat (1 / 2).
Proof. exact @ex_C70. Qed.
(** ** C71 *)
(** C71. Product of two matrices: nominal values, derivatives (rule of the derivative of a product) and dependences. *)
Theorem C71_product : forall (g lg : R -> R), forall (st st' : state (ROps g lg)) ia ja ir m k n A B,
  reachable st -> nominal_matrix st ia m k A -> nominal_matrix st ja k n B ->
  array_call2 (obj_matmul (N:=ROps g lg)) st ia ja (Ok ir) st' ->
  nominal_matrix st' ir m n (mprod k A B) /\
  (forall v DA DB, deriv_matrix st ia m k v DA -> deriv_matrix st ja k n v DB ->
     deriv_matrix st' ir m n v (madd (mprod k DA B) (mprod k A DB))) /\
  (forall v i j x, (i < m)%nat -> (j < n)%nat -> elem ir [i; j] = Some x ->
     (depends st' x v <-> exists t y, (t < k)%nat /\ (elem ia [i; t] = Some y \/ elem ja [t; j] = Some y) /\ depends st y v)).
Proof. exact @product_result. Qed.
Print Assumptions C71_product.
(** The product exists. *)
Theorem C71_returns : forall (g lg : R -> R), forall (st : state (ROps g lg)) ia ja m k n A B,
  reachable st -> wf_arr ia -> wf_arr ja -> nominal_matrix st ia m k A -> nominal_matrix st ja k n B -> (0 < k)%nat ->
  exists ir st', array_call2 (obj_matmul (N:=ROps g lg)) st ia ja (Ok ir) st'.
Proof. exact @product_returns. Qed.
Print Assumptions C71_returns.
(** Older results are not affected. *)
Theorem C71_unaffected : forall (g lg : R -> R), forall (st st' : state (ROps g lg)) ia ja r k ins o o',
  reachable st -> array_call2 obj_matmul st ia ja r st' ->
  In ins [IDeriv k; IStd k; IErrs k; IBool k] -> (k < length (st_env st))%nat ->
  reads st ins o -> reads st' ins o' -> same_out o o'.
Proof. exact @product_unaffected. Qed.
Print Assumptions C71_unaffected.
(** The left operand stays on the left, for a matrix on the right with uncertainties. *)
Theorem C71_order : forall (N : NumOps), forall (self other : arr (value N)), a_shape other <> [] ->
  matrix_rmul self other = obj_matmul other self.
Proof. exact @rmul_matrix. Qed.
Print Assumptions C71_order.
(** A number, with or without uncertainty, times a matrix. *)
Theorem C71_scalar : forall (g lg : R -> R), forall (st st' : state (ROps g lg)) io ia ir k p m n A,
  reachable st -> a_shape io = [] -> elem io [] = Some k -> has_nominal st k p -> nominal_matrix st ia m n A ->
  array_call2 (fun o s => matrix_rmul (N:=ROps g lg) s o) st io ia (Ok ir) st' ->
  nominal_matrix st' ir m n (mscal (pval p) A) /\
  forall v x D, deriv_is st k v x -> deriv_matrix st ia m n v D ->
    deriv_matrix st' ir m n v (madd (mscal x A) (mscal (pval p) D)).
Proof. exact @scalar_product. Qed.
Print Assumptions C71_scalar.
(** The product of a matrix and of its inverse, in either order, is the identity matrix, with zero derivatives and zero standard deviations: correlations are not lost. *)
Theorem C71_inverse : forall (g lg : R -> R), forall linv order (st st1 st2 : state (ROps g lg)) ia ib ir n A,
  reachable st -> (forall l, Permutation (order l) l) -> inverts linv n A -> nominal_matrix st ia n n A ->
  array_call (inv (N:=ROps g lg) linv order) st ia (Ok ib) st1 -> dependent st1 ib ->
  array_call2 (obj_matmul (N:=ROps g lg)) st1 ia ib (Ok ir) st2 \/ array_call2 (obj_matmul (N:=ROps g lg)) st1 ib ia (Ok ir) st2 ->
  nominal_matrix st2 ir n n kron /\
  (forall v, deriv_matrix st2 ir n n v (fun _ _ => 0)) /\
  (forall i j k o, (i < n)%nat -> (j < n)%nat -> elem ir [i; j] = Some k -> (exists u, is_number st2 k u) ->
     reads st2 (IStd k) o -> o = ONum (N:=ROps g lg) 0).
Proof. exact @times_inverse. Qed.
Print Assumptions C71_inverse.
(** Square of [[x, y], [y, x]]. *)
Example C71_example : forall (g lg : R -> R), reachable (xy_st (g:=g) (lg:=lg)) /\ wf_arr ia2 /\ nominal_matrix (g:=g) (lg:=lg) xy_st ia2 2 2 A2 /\
  deriv_matrix (g:=g) (lg:=lg) xy_st ia2 2 2 0%nat (M2 1 0 0 1) /\
  exists ir st', array_call2 (obj_matmul (N:=ROps g lg)) xy_st ia2 ia2 (Ok ir) st' /\
    nominal_matrix st' ir 2 2 (M2 5 4 4 5) /\ deriv_matrix st' ir 2 2 0%nat (M2 2 4 4 2).
Proof. exact @ex_C71. Qed.
(** y * [[x, y], [y, x]]. *)
Example C71_example_scalar : forall (g lg : R -> R), elem io1 [] = Some 1%nat /\ has_nominal (g:=g) (lg:=lg) xy_st 1 (PF (N:=ROps g lg) 2) /\
  exists ir st', array_call2 (fun o s => matrix_rmul (N:=ROps g lg) s o) (xy_st (g:=g) (lg:=lg)) io1 ia2 (Ok ir) st' /\
    nominal_matrix st' ir 2 2 (M2 2 4 4 2) /\ deriv_matrix st' ir 2 2 0%nat (M2 2 0 0 2).
Proof. exact @ex_C71_scalar. Qed.
(** [[x, y], [y, x]] times its inverse. *)
Example C71_example_inverse : forall (g lg : R -> R), exists ib st1 ir st2, array_call (inv (N:=ROps g lg) linv2 (fun l => l)) (xy_st (g:=g) (lg:=lg)) ia2 (Ok ib) st1 /\
  dependent st1 ib /\ array_call2 (obj_matmul (N:=ROps g lg)) st1 ia2 ib (Ok ir) st2 /\
  nominal_matrix st2 ir 2 2 kron /\ forall v, deriv_matrix st2 ir 2 2 v (fun _ _ => 0).
Proof. exact @ex_C71_inverse. Qed.
