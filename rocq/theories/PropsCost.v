(** Property theorems: number of steps needed to read an uncertainty. *)
From Coq Require Import String.
From Coq Require Import ZArith List Bool Arith.
From Verif Require Import Base Heap Affine Ops Cost.
Import ListNotations.

(** ** C69 *)
(** Reading a number takes as many steps as the tree of its calculation, down to the numbers that have been read, has nodes; and none if it has been read. *)
Theorem C69_steps : forall (N : NumOps), forall (h : heap N) u n, (uf_lp u < length (h_lc h))%nat -> tree h (uf_lp u) n ->
  (is_read h u /\ steps h u 0) \/ (~ is_read h u /\ steps h u n).
Proof. exact @read_steps. Qed.
Print Assumptions C69_steps.
(** x + (x + y). *)
Example C69_steps_example : forall (N : NumOps), exists h1 h2 a b, py_binop Badd (VUF (two_x (N := N))) (VUF (two_y (N := N))) (two_h (N := N)) = (Ok (VUF a), h1) /\ py_binop Badd (VUF (two_x (N := N))) (VUF a) h1 = (Ok (VUF b), h2) /\
  (uf_lp b < length (h_lc h2))%nat /\ tree h2 (uf_lp b) 5 /\ ~ is_read h2 b /\
  fst (derivatives 4 b h2) = Err EFuel /\ exists d, fst (derivatives 5 b h2) = Ok d.
Proof. exact @ex_read. Qed.
(** The sum of a list takes at most two steps per term, with at most two terms pending. *)
Theorem C69_sum : forall (N : NumOps), forall (a : value N) (us : list (uf N)) (h : heap N) (r : uf N) (h' : heap N),
  match a with VUF u => is_read h u | VPlain _ => True end -> Forall (is_read h) us ->
  py_sum a us h = (Ok (VUF r), h') ->
  exists n, (n <= 2 * length us + 1)%nat /\ steps h' r n /\ pending h' r 2.
Proof. exact @sum_steps. Qed.
Print Assumptions C69_sum.
(** sum([x, y, x]). *)
Example C69_sum_example : forall (N : NumOps), let us := [(two_x (N := N)); (two_y (N := N)); (two_x (N := N))] in Forall (is_read (two_h (N := N))) us /\
  exists r h', py_sum (VPlain (PNum (PF (n_zero N)))) us (two_h (N := N)) = (Ok (VUF r), h') /\
    fst (derivatives 5 r h') = Err EFuel /\ exists d, fst (derivatives 6 r h') = Ok d.
Proof. exact @ex_sum. Qed.
(** The result of a function of numbers that have been read (variables, or numbers whose uncertainty was used) takes at most one step per argument, and one. *)
Theorem C69_call : forall (N : NumOps), (forall z, n_of_Z N z <> Err EFuel) -> forall (f : pyfun N) pos kwd (args : args_t N) (kw : kwargs_t N) (h : heap N) (r : uf N) (h' : heap N) fuel,
  args_read h args -> args_read h (map snd kw) -> wcall f pos kwd args kw h = (Ok (VUF r), h') ->
  (length args + length kw < fuel)%nat -> fst (derivatives fuel r h') <> Err EFuel.
Proof. exact @call_steps. Qed.
Print Assumptions C69_call.
(** Two arguments and a keyword argument. *)
Example C69_call_example : forall (N : NumOps), let f := fun _ _ => Ok (PNum (PF (n_one N))) in let d := fun _ _ _ => Ok (PF (n_two N)) in
  let args := [VUF (two_x (N := N)); VPlain (PNum (PZ 3))] in let kw := [(7%nat, VUF (two_y (N := N)))] in
  args_read (two_h (N := N)) args /\ args_read (two_h (N := N)) (map snd kw) /\
  exists r h', wcall f d d args kw (two_h (N := N)) = (Ok (VUF r), h') /\ exists v, fst (derivatives 4 r h') = Ok v.
Proof. exact @ex_call. Qed.
(** Without reading, the number of steps is not proportional to the number of operations: y = y op y, repeated n + 1 times, takes 2^(n + 2) - 1 steps. *)
Theorem C69_reuse : forall (N : NumOps), forall op n (u : uf N) (h : heap N) (r : uf N) (h' : heap N),
  is_read h u -> self_op op (S n) (VUF u) h = (Ok (VUF r), h') -> steps h' r (2 ^ (n + 2) - 1).
Proof. exact @self_steps. Qed.
Print Assumptions C69_reuse.
(** y = y + y, three times. *)
Example C69_reuse_example : forall (N : NumOps), is_read (two_h (N := N)) (two_x (N := N)) /\ exists r h', self_op Badd 3 (VUF (two_x (N := N))) (two_h (N := N)) = (Ok (VUF r), h') /\
  fst (derivatives 14 r h') = Err EFuel /\ exists d, fst (derivatives 15 r h') = Ok d.
Proof. exact @ex_self. Qed.
