(** Plain arguments of the locally constant functions (C31), hashes (C75) and conversions
    to plain numbers (C57). *)
From Coq Require Import ZArith List Bool.
From Verif Require Import Base Heap Affine Ops UMath Machine Calls History NumF FRefute ExGen.
Import ListNotations.

Section PlainThm.
Context {N : NumOps}.
(** An integer is its own ceiling, floor and truncation, whatever its size. *)
Theorem plain_integer : forall f z, f = K_ceil \/ f = K_floor \/ f = K_trunc -> umath_cst f (VPlain (PNum (PZ (N:=N) z))) = Ok z.
Proof. intros f z [E|[E|E]]; subst f; reflexivity. Qed.
(** A float and a number with uncertainty of the same nominal value have the same image. *)
Theorem plain_float : forall f x (u : uf N), uf_nom u = x ->
  umath_cst f (VPlain (PNum (PF x))) = umath_cst f (VUF u).
Proof. intros f x u <-. reflexivity. Qed.
(** Tests of an integer: those of the float it is converted to, if it is not too large. *)
Theorem plain_tests : forall z, (forall x, n_of_Z N z = Ok x ->
    umath_cst K_isnan (VPlain (PNum (PZ (N:=N) z))) = Ok (if n_isnan N x then 1%Z else 0%Z) /\
    umath_cst K_isinf (VPlain (PNum (PZ (N:=N) z))) = Ok (if n_isinf N x then 1%Z else 0%Z)) /\
  (forall e, n_of_Z N z = Err e -> umath_cst K_isnan (VPlain (PNum (PZ (N:=N) z))) = Err e /\
    umath_cst K_isinf (VPlain (PNum (PZ (N:=N) z))) = Err e).
Proof.
  intros z. split; intros x H; unfold umath_cst; cbn [nominal_value pn_float]; rewrite H; split; reflexivity.
Qed.

(** In any reachable state, the hash of a variable is its identity and results have none. *)
Theorem hashes : forall (st : state N) i u, is_number st i u ->
  (forall v, uf_var u = Some v -> py_hash u = Ok v) /\ (uf_var u = None -> py_hash u = Err EType).
Proof. intros st i u _. split; [intros v E|intros E]; unfold py_hash; rewrite E; reflexivity. Qed.
(** Numbers are never replaced: whatever is done next, the same name has the same hash. *)
Lemma push_keeps : forall (st : state N) r i a, nth_error (st_env st) i = Some a -> nth_error (st_env (fst (push st r))) i = Some a.
Proof.
  intros st [[b|e] h] i a E; cbn; rewrite nth_error_app1 by (apply nth_error_Some; congruence); exact E.
Qed.
Lemma observe_env : forall A (st : state N) (f : A -> out N) r, st_env (fst (observe st f r)) = st_env st.
Proof. intros A st f [[a|e] h]; reflexivity. Qed.
Lemma with_val_env : forall (st : state N) i k, (forall a, st_env (fst (k a)) = st_env st) -> st_env (fst (with_val st i k)) = st_env st.
Proof. intros st i k H. unfold with_val. destruct (nth_error (st_env st) i); [apply H|reflexivity]. Qed.
Lemma with_uf_env : forall (st : state N) i k, (forall a, st_env (fst (k a)) = st_env st) -> st_env (fst (with_uf st i k)) = st_env st.
Proof. intros st i k H. unfold with_uf. apply with_val_env. intros [p|u]; [reflexivity|apply H]. Qed.
Lemma step_keeps : forall fuel (st : state N) ins i a, nth_error (st_env st) i = Some a -> nth_error (st_env (fst (step fuel st ins))) i = Some a.
Proof.
  intros fuel st ins i a E. destruct ins; cbn [step]; try (apply push_keeps; exact E);
    try (rewrite with_uf_env; [exact E|intro u; try apply observe_env]).
  - destruct (get_args (st_env st) [i0; j]) as [[|x [|y [|z l]]]|]; apply push_keeps; exact E.
  - destruct (get_args (st_env st) args); [destruct (get_kwargs (st_env st) kw)|]; apply push_keeps; exact E.
  - destruct (nth_error (st_env st) i0); apply push_keeps; exact E.
  - destruct (nth_error (st_env st) i0); apply push_keeps; exact E.
  - destruct (uf_var u); [apply observe_env|reflexivity].
  - apply with_val_env. intro b. apply observe_env.
Qed.
Theorem same_hash_later : forall fuel prog (st st' : state N) os i u, run fuel st prog = (st', os) -> is_number st i u ->
  is_number st' i u.
Proof.
  induction prog as [|ins prog IH]; intros st st' os i u R H; cbn [run] in R.
  - injection R as <- _. exact H.
  - destruct (step fuel st ins) as [st1 o] eqn:S. destruct (run fuel st1 prog) as [st2 os'] eqn:R2. injection R as <- _.
    apply (IH st1 st2 os' i u R2). unfold is_number. pose proof (step_keeps fuel st ins i (VUF u) H) as K. rewrite S in K. exact K.
Qed.
Theorem same_hash_call : forall (st : state N) c i u, is_number st i u -> is_number (fst (call_step st c)) i u.
Proof.
  assert (P : forall (st : state N) r i a, nth_error (st_env st) i = Some a -> nth_error (st_env (fst (push_list st r))) i = Some a).
  { intros st [[b|e] h] i a E; cbn; [rewrite nth_error_app1 by (apply nth_error_Some; congruence)|]; exact E. }
  intros st c i u H. unfold is_number in *. destruct c; cbn [call_step]; try (apply P; exact H).
  - destruct (nth_error (st_env st) i0); apply push_keeps; exact H.
  - destruct (nth_error (st_env st) i0); apply push_keeps; exact H.
  - destruct (get_args (st_env st) is); apply P; exact H.
Qed.
(** float(x), int(x), complex(x). *)
Theorem conversions : forall (st : state N) i u, is_number st i u -> coerce u = Err EType.
Proof. reflexivity. Qed.
End PlainThm.

(** 10**400 is its own truncation; it is too large for math.isnan(). *)
Lemma ex_plain : umath_cst K_trunc (VPlain (PNum (PZ (N:=FN) (10 ^ 400)))) = Ok (10 ^ 400)%Z /\
  n_of_Z FN (10 ^ 400) = Err EOverflow /\ umath_cst K_isnan (VPlain (PNum (PZ (N:=FN) (10 ^ 400)))) = Err EOverflow /\
  umath_cst K_isnan (VPlain (PNum (PZ (N:=FN) 3))) = Ok 0%Z.
Proof. repeat split; vm_compute; reflexivity. Qed.
(** x and x + x. *)
Definition x_twice : list (instr FN) := [INew (fl 1 0) (fl 1 0) None; IBin Badd 0 0].
Lemma ex_hash : exists u w, is_number (after x_twice) 0 u /\ is_number (after x_twice) 1 w /\
  uf_var u = Some 0%nat /\ uf_var w = None.
Proof. eexists _, _. repeat split; reflexivity. Qed.
