(** Fuel: a statement that finishes with some fuel finishes identically with more, in any float
    arithmetic. *)
From Coq Require Import ZArith List Bool Lia.
From Verif Require Import Base Heap Affine Ops UMath Machine Cov History.
Import ListNotations.

Section Fuel.
Context {N : NumOps}.
Notation state := (state N).

Definition fmono {A} (m : nat -> M N A) : Prop :=
  forall n k h, fst (m n h) <> Err EFuel -> m (n + k)%nat h = m n h.

Lemma fm_const : forall A (m : M N A), fmono (fun _ => m).
Proof. intros A m n k h _. reflexivity. Qed.
Lemma fm_bind : forall A B (m : nat -> M N A) (f : nat -> A -> M N B),
  fmono m -> (forall a, fmono (fun n => f n a)) -> fmono (fun n => bind (m n) (f n)).
Proof.
  intros A B m f Hm Hf n k h H. unfold bind in *.
  destruct (m n h) as [[a|e] h1] eqn:E.
  - rewrite (Hm n k h) by (rewrite E; discriminate). rewrite E. apply Hf. exact H.
  - rewrite (Hm n k h), E by (rewrite E; simpl in *; congruence). reflexivity.
Qed.
Lemma fm_loop : forall l acc, fmono (fun n => expand_loop (N:=N) n l acc).
Proof.
  intros l acc n. revert acc. induction n as [|n IH]; intros acc k h H; [now elim H|].
  cbn [Nat.add expand_loop] in *.
  destruct (get_lc h l) as [[|]|[|[c l'|c|l'] rest]]; auto. cbv zeta in *.
  destruct (get_lc (set_lc h l (LList rest)) l') as [d|its].
  - destruct (acc_dict c d acc) as [acc'|e]; [apply IH; exact H|reflexivity].
  - destruct (push_items c (rev its) rest) as [s [e|]]; [reflexivity|apply IH; exact H].
Qed.
Lemma fm_deriv : forall l, fmono (fun n => lc_derivatives (N:=N) n l).
Proof.
  intros l n k h H. unfold lc_derivatives in *. destruct (get_lc h l) as [d|its]; auto.
  destruct (expand_loop n l [] h) as [[[]|e] h1] eqn:E.
  - rewrite (fm_loop l [] n k h) by (rewrite E; discriminate). now rewrite E.
  - rewrite (fm_loop l [] n k h), E by (rewrite E; simpl in *; congruence). reflexivity.
Qed.
Lemma fm_derivatives : forall u, fmono (fun n => derivatives (N:=N) n u).
Proof. intros u. apply fm_deriv. Qed.
Lemma fm_errors : forall u, fmono (fun n => error_components (N:=N) n u).
Proof.
  intros u. unfold error_components. apply (fm_bind _ _ _ (fun _ d h => (components h d, h))); [apply fm_derivatives|].
  intros; apply fm_const.
Qed.
Lemma fm_affine : forall u, fmono (fun n => std_dev_affine (N:=N) n u).
Proof.
  intros u. unfold std_dev_affine.
  apply (fm_bind _ _ _ (fun _ d => _)); [apply fm_errors|]. intros; apply fm_const.
Qed.
Lemma fm_std : forall u, fmono (fun n => std_dev (N:=N) n u).
Proof. intros u. unfold std_dev. destruct (uf_var u); [apply fm_const|apply fm_affine]. Qed.
Lemma fm_eq : forall x y, fmono (fun n => eq_aff (N:=N) n x y).
Proof.
  intros x y. unfold eq_aff.
  apply (fm_bind _ _ _ (fun n (r : value N) => match r with VUF d => _ | _ => _ end)); [apply fm_const|].
  intros [[]|d]; try apply fm_const. destruct (n_truth N (uf_nom d)); [apply fm_const|].
  apply (fm_bind _ _ _ (fun _ s => _)); [apply fm_std|intros; apply fm_const].
Qed.
Lemma fm_cmp : forall c x y, fmono (fun n => cmp_aff (N:=N) n c x y).
Proof.
  intros [] x y; unfold cmp_aff; try apply fm_const; try apply fm_eq.
  - unfold ne_aff. apply (fm_bind _ _ _ (fun _ s => _)); [apply fm_eq|intros; apply fm_const].
  - unfold ge_aff. destruct (gt_aff x y); [apply fm_const|apply fm_eq].
  - unfold le_aff. destruct (lt_aff x y); [apply fm_const|apply fm_eq].
Qed.
Lemma fm_method : forall c x b, fmono (fun n => method_cmp (N:=N) n c x b).
Proof.
  intros c x b n k h H. unfold method_cmp in *. destruct (to_affine_scalar b h) as [[y|e] h1]; auto.
  destruct (cmp_aff n c x y h1) as [[r|e] h2] eqn:E.
  - rewrite (fm_cmp c x y n k h1) by (rewrite E; discriminate). now rewrite E.
  - rewrite (fm_cmp c x y n k h1), E by (rewrite E; simpl in *; congruence). reflexivity.
Qed.
Lemma fm_pycmp : forall c x b, fmono (fun n => py_cmp (N:=N) n c x b).
Proof.
  intros c x b. unfold py_cmp. apply (fm_bind _ _ _ (fun _ s => _)); [apply fm_method|intros; apply fm_const].
Qed.
Lemma fm_bool : forall u, fmono (fun n => py_bool (N:=N) n u).
Proof.
  intros u. unfold py_bool. apply (fm_bind _ _ _ (fun _ s => _)); [apply fm_method|intros; apply fm_const].
Qed.
Lemma fm_score : forall u p, fmono (fun n => std_score (N:=N) n u p).
Proof.
  intros u p. unfold std_score. apply (fm_bind _ _ _ (fun _ s => _)); [apply fm_std|intros; apply fm_const].
Qed.

Lemma observe_mono : forall A (st : state) (f : A -> out N) (m : nat -> M N A) n k h st' o,
  fmono m -> observe st f (m n h) = (st', o) -> o <> OExn EFuel ->
  observe st f (m (n + k)%nat h) = (st', o).
Proof.
  intros A st f m n k h st' o Hm E H. rewrite Hm; auto. intros X.
  destruct (m n h) as [[a|e] h1]; simpl in X; [discriminate|].
  injection X; intros ->. simpl in E. injection E; intros <- <-. now elim H.
Qed.
Theorem step_mono : forall n k (st : state) ins st' o, step n st ins = (st', o) ->
  o <> OExn EFuel -> step (n + k) st ins = (st', o).
Proof.
  intros n k st ins st' o E H. destruct ins; cbn [step] in *; auto; unfold with_uf, with_val in *;
    destruct (nth_error (st_env st) i) as [[|u]|]; auto.
  - apply (observe_mono _ st _ (fun n => derivatives n u)); auto. apply fm_derivatives.
  - apply (observe_mono _ st _ (fun n => std_dev n u)); auto. apply fm_std.
  - apply (observe_mono _ st _ (fun n => std_dev_s n u)); auto. apply fm_affine.
  - apply (observe_mono _ st _ (fun n => error_components n u)); auto. apply fm_errors.
  - destruct (nth_error (st_env st) j) as [b|]; auto.
    apply (observe_mono _ st _ (fun n => py_cmp n c u b)); auto. apply fm_pycmp.
  - apply (observe_mono _ st _ (fun n => py_bool n u)); auto. apply fm_bool.
  - apply (observe_mono _ st _ (fun n => std_score n u p)); auto. apply fm_score.
Qed.
(** What is computed with some fuel is what happens. *)
Theorem does_step : forall n (st : state) ins o, snd (step n st ins) = o -> o <> OExn EFuel ->
  does st ins (fst (step n st ins)) o.
Proof.
  intros n st ins o E H. exists n. intros fuel F. replace fuel with (n + (fuel - n))%nat by lia.
  apply step_mono; auto. rewrite <- E. now destruct (step n st ins).
Qed.
Theorem reads_step : forall n (st : state) ins o, snd (step n st ins) = o -> o <> OExn EFuel ->
  reads st ins o.
Proof. intros n st ins o E H. eexists. exact (does_step n st ins o E H). Qed.
Theorem runs_run : forall n (prog : list (instr N)) (st : state),
  Forall (fun o => o <> OExn EFuel) (snd (run n st prog)) ->
  runs st prog (fst (run n st prog)) (snd (run n st prog)).
Proof.
  intros n prog. induction prog as [|ins prog IH]; intros st H; [exists 0%nat; reflexivity|].
  cbn [run] in *. destruct (step n st ins) as [st1 o] eqn:E. specialize (IH st1).
  destruct (run n st1 prog) as [st2 os] eqn:E2. cbn [fst snd] in *. inversion H; subst.
  destruct (IH H3) as [k K]. exists (Nat.max n k). intros fuel F. cbn [run].
  replace fuel with (n + (fuel - n))%nat at 1 by lia. rewrite (step_mono _ _ _ _ _ _ E H2).
  rewrite K by lia. reflexivity.
Qed.

(** The same for covariance_matrix(). *)
Lemma fm_elem : forall a, fmono (fun n => elem_derivatives (N:=N) n a).
Proof. intros [p|u]; [apply (fm_const _ (raise EAttr))|apply fm_derivatives]. Qed.
Lemma fm_row : forall order d l, fmono (fun n => cov_row (N:=N) order n d l).
Proof.
  intros order d. induction l as [|a l IH]; [apply (fm_const _ (ret []))|].
  apply (fm_bind _ _ (fun n => elem_derivatives n a) (fun n d2 => _)); [apply fm_elem|]. intros d2.
  apply (fm_bind _ _ (fun n h => (cov_sum h d d2 (common order d d2) (n_zero N), h)) (fun n c => _)); [apply fm_const|].
  intros c. apply (fm_bind _ _ (fun n => cov_row order n d l) (fun n r => _)); [exact IH|intros; apply fm_const].
Qed.
Lemma fm_rows : forall order l rest i, fmono (fun n => cov_rows (N:=N) order n l i rest).
Proof.
  intros order l. induction rest as [|a rest IH]; intros i; [apply (fm_const _ (ret []))|].
  apply (fm_bind _ _ (fun n => elem_derivatives n a) (fun n d2 => _)); [apply fm_elem|]. intros d2.
  apply (fm_bind _ _ (fun n => cov_row order n d2 (firstn (S i) l)) (fun n c => _)); [apply fm_row|].
  intros c. apply (fm_bind _ _ (fun n => cov_rows order n l (S i) rest) (fun n r => _)); [apply IH|intros; apply fm_const].
Qed.
Lemma fm_cov : forall order l, fmono (fun n => covariance_matrix (N:=N) order n l).
Proof.
  intros. apply (fm_bind _ _ (fun n => cov_rows order n l 0 l) (fun n r => _)); [apply fm_rows|intros; apply fm_const].
Qed.
Theorem covariance_step : forall n order (st : state) is l r, get_args (st_env st) is = Some l ->
  fst (covariance_matrix order n l (st_heap st)) = r -> r <> Err EFuel ->
  covariance order st is r (mkState (snd (covariance_matrix order n l (st_heap st))) (st_env st)).
Proof.
  intros n order st is l r G E H. exists l, n. split; auto. split; auto. intros fuel F.
  replace fuel with (n + (fuel - n))%nat by lia.
  assert (X : fst (covariance_matrix order n l (st_heap st)) <> Err EFuel) by congruence.
  rewrite (fm_cov order l n (fuel - n)%nat (st_heap st) X). cbn [st_heap]. rewrite <- E. apply surjective_pairing.
Qed.
End Fuel.
