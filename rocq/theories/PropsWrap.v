(** Property theorems about wrap() and the iterables of derivatives that it uses. *)
From Coq Require Import ZArith List Bool.
From Verif Require Import Base Heap Affine Wrap WrapSpec WrapProofs.
Import ListNotations.

(** ** C26 *)
(** C26. After any previous calls, a call of the wrapped function uses the documented derivatives. *)
Theorem C26_calls : forall (N : NumOps) (f : pyfun N) dargs dkw params,
  NoDup (map fst dkw) -> match params with Some ps => NoDup ps | None => True end ->
  exists w, wrap f dargs dkw params = Ok w /\
  forall calls args kw h,
    fst (wcall_w (wcalls w calls) args kw h) =
    wcall f (documented_pos f dargs) (documented_kw f dargs dkw params) args kw h.
Proof. exact wrapped_calls. Qed.
Print Assumptions C26_calls.
(** The documented choice in a case with missing derivatives, for a finite and for an infinite iterable. *)
Example C26_example : forall (N : NumOps) (f : pyfun N) d0 d2 d9,
  let ds := iter_list [Some d0; None; Some d2] in
  let dk := [(9%nat, Some d9); (8%nat, None); (7%nat, Some d9)] in
  let ps := Some [5%nat; 6%nat; 7%nat] in
  NoDup (map fst dk) /\ NoDup [5%nat; 6%nat; 7%nat] /\
  documented_pos f ds 0 = d0 /\ documented_pos f ds 1 = partial_derivative f (APos 1) /\
  documented_pos f ds 2 = d2 /\ documented_pos f ds 3 = partial_derivative f (APos 3) /\
  documented_pos f (fun _ => Some (Some d0)) 3 = d0 /\
  documented_kw f ds dk ps 5 = d0 /\ documented_kw f ds dk ps 6 = partial_derivative f (AName 6) /\
  documented_kw f ds dk ps 7 = d2 /\ documented_kw f ds dk ps 8 = partial_derivative f (AName 8) /\
  documented_kw f ds dk ps 9 = d9 /\ documented_kw f ds dk ps 4 = partial_derivative f (AName 4) /\
  documented_kw f ds dk None 7 = d9.
Proof. exact ex_C26. Qed.
(** ** C28 *)
(** C28. Access to element n, after any previous accesses. *)
Theorem C28_indexing : forall (A : Type), forall (it : iterator A) conv (accesses : list Z) n,
  let x := ii_accesses (ii_new it conv) accesses in
  ((forall k, (k <= n)%nat -> it k <> None) ->
     fst (ii_get x (Z.of_nat n)) =
     Ok (match it n with Some (Some a) => Some a | _ => conv n end)) /\
  ((exists k, (k <= n)%nat /\ it k = None) -> fst (ii_get x (Z.of_nat n)) = Err EStop).
Proof. exact @indexing. Qed.
Print Assumptions C28_indexing.
(** Negative indexes depend on the previous accesses: an exception or one of the elements obtained so far. The documentation does not allow them. *)
Theorem C28_negative_index : forall (A : Type) (it : iterator A) conv v0 v1,
  it 0%nat = Some (Some v0) -> it 1%nat = Some (Some v1) ->
  fst (ii_get (ii_new it conv) (-1)) = Err EIndex /\
  fst (ii_get (ii_accesses (ii_new it conv) [0%Z]) (-1)) = Ok (Some v0) /\
  fst (ii_get (ii_accesses (ii_new it conv) [1%Z]) (-1)) = Ok (Some v1).
Proof. exact negative_index. Qed.
Print Assumptions C28_negative_index.
Example C28_example : let it : iterator nat := fun n => if Nat.even n then Some None else Some (Some (n * n)%nat) in
  let x := ii_accesses (ii_new it (fun n => Some (100 + n)%nat)) [5%Z; 0%Z; (-1)%Z; 3%Z] in
  fst (ii_get x 3%Z) = Ok (Some 9%nat) /\ fst (ii_get x 4%Z) = Ok (Some 104%nat) /\
  fst (ii_get x 7%Z) = Ok (Some 49%nat) /\
  fst (ii_get (ii_new (iter_list [Some 1%nat]) (fun n => None)) 1%Z) = Err EStop.
Proof. exact ex_C28. Qed.
(** ** C58 *)
(** C58. A bound method with parameters (a, b): inspect.getfullargspec() also lists self, and wrap() uses, for the keyword argument a, the derivative given for b. *)
Theorem C58_bound_method_refuted : forall (N : NumOps) (f : pyfun N) d0 d1 (self a b : nat) w,
  self <> a -> self <> b -> a <> b ->
  wrap f (iter_list [Some d0; Some d1]) [] (Some [self; a; b]) = Ok w ->
  forall calls x y h,
  fst (wcall_w (wcalls w calls) [] [(a, VUF x); (b, VPlain y)] h) =
  wcall f (fun _ => d1) (fun _ => d1) [] [(a, VUF x); (b, VPlain y)] h.
Proof. exact bound_method. Qed.
Print Assumptions C58_bound_method_refuted.
Example C58_example : forall (N : NumOps) (f : pyfun N) d0 d1, exists w,
  wrap f (iter_list [Some d0; Some d1]) [] (Some [5%nat; 6%nat; 7%nat]) = Ok w /\
  5%nat <> 6%nat /\ 5%nat <> 7%nat /\ 6%nat <> 7%nat.
Proof. exact ex_C58. Qed.
