(** How calls change the heap, for any arithmetic: new objects are appended, attributes of
    variables are replaced, and linear combinations are expanded. *)
From Coq Require Import ZArith List Bool Arith Lia Permutation.
From Verif Require Import Base Heap Affine Ops UMath HeapProofs Machine Cov Copy Calls Unumpy UMatrix History Ordered.
Import ListNotations.

Section Evolve.
Context {N : NumOps}.
Implicit Types h : heap N.
(** Exceptions after which nothing is claimed. *)
Variable bad : exn -> Prop.
Definition fine {A} (r : res A) : Prop := forall e, r = Err e -> ~ bad e.
Definition fine_out (o : out N) : Prop := forall e, o = OExn e -> ~ bad e.

Inductive ev : heap N -> heap N -> Prop :=
| ev_refl : forall h, ev h h
| ev_more : forall h xs objs, (length (h_var h) <= length objs)%nat -> ev h (mkHeap (h_lc h ++ xs) objs)
| ev_expand : forall h l its fuel r h', get_lc h l = LList its -> expand_loop fuel l [] h = (r, h') ->
    fine r -> ev h h'
| ev_trans : forall h1 h2 h3, ev h1 h2 -> ev h2 h3 -> ev h1 h3.

Ltac fine_tac := let e := fresh in let E := fresh in intros e E; first [discriminate E | match goal with F : fine _ |- _ => apply F; cbn in *; congruence | F : fine_out _ |- _ => apply F; cbn in *; congruence end].
Definition evs {A} (m : M N A) : Prop := forall h, fine (fst (m h)) -> ev h (snd (m h)).

Lemma evs_pure : forall A (r : heap N -> res A), evs (fun h => (r h, h)).
Proof. intros A r h _. apply ev_refl. Qed.
Lemma evs_ret : forall A (a : A), evs (ret a).
Proof. intros A a h _. apply ev_refl. Qed.
Lemma evs_raise : forall A e, evs (raise (A:=A) e).
Proof. intros A e h _. apply ev_refl. Qed.
Lemma evs_lift : forall A (r : res A), evs (lift r).
Proof. intros A r h _. apply ev_refl. Qed.
Lemma evs_bind : forall A B (m : M N A) (k : A -> M N B), evs m -> (forall a, evs (k a)) -> evs (bind m k).
Proof.
  intros A B m k Hm Hk h H. unfold bind in *. specialize (Hm h). destruct (m h) as [[a|e] h1]; cbn in *.
  - eapply ev_trans; [apply Hm; intros e E; discriminate E|]. apply Hk. exact H.
  - apply Hm. intros e' E. apply H. injection E as ->. reflexivity.
Qed.
(** The same, whatever is raised. *)
Definition evu {A} (m : M N A) : Prop := forall h, ev h (snd (m h)).
Lemma evs_evu : forall A (m : M N A), evu m -> evs m.
Proof. intros A m H h _. apply H. Qed.
Lemma evu_pure : forall A (r : heap N -> res A), evu (fun h => (r h, h)).
Proof. intros A r h. apply ev_refl. Qed.
Lemma evu_ret : forall A (a : A), evu (ret a).
Proof. intros A a h. apply ev_refl. Qed.
Lemma evu_raise : forall A e, evu (raise (A:=A) e).
Proof. intros A e h. apply ev_refl. Qed.
Lemma evu_lift : forall A (r : res A), evu (lift r).
Proof. intros A r h. apply ev_refl. Qed.
Lemma evu_bind : forall A B (m : M N A) (k : A -> M N B), evu m -> (forall a, evu (k a)) -> evu (bind m k).
Proof.
  intros A B m k Hm Hk h. unfold bind. specialize (Hm h). destruct (m h) as [[a|e] h1]; cbn in *; [|exact Hm].
  eapply ev_trans; [exact Hm|]. apply Hk.
Qed.
Lemma ev_alloc : forall h x, ev h (mkHeap (h_lc h ++ [x]) (h_var h)).
Proof. intros. apply ev_more, le_n. Qed.
Lemma ev_var : forall h objs, (length (h_var h) <= length objs)%nat -> ev h (mkHeap (h_lc h) objs).
Proof. intros. rewrite <- (app_nil_r (h_lc h)). now apply ev_more. Qed.

Lemma evu_affine : forall a, evu (to_affine_scalar (N:=N) a).
Proof.
  intros [[p| | |]|u]; try apply evu_raise; try apply evu_ret. intros h. unfold to_affine_scalar.
  destruct (pn_float p); cbn [alloc_lc fst snd]; [apply ev_alloc|apply ev_refl].
Qed.
Lemma evs_affine : forall a, evs (to_affine_scalar (N:=N) a).
Proof. intros. apply evs_evu, evu_affine. Qed.
Lemma evs_lc : forall fuel l, evs (lc_derivatives (N:=N) fuel l).
Proof.
  intros fuel l h H. unfold lc_derivatives in *. destruct (get_lc h l) as [d|its] eqn:G; [apply ev_refl|].
  destruct (expand_loop fuel l [] h) as [[[]|e] h'] eqn:E.
  - assert (X : ev h h') by (apply (ev_expand _ _ _ _ _ _ G E); fine_tac). destruct (get_lc h' l); exact X.
  - apply (ev_expand _ _ _ _ _ _ G E). fine_tac.
Qed.
Lemma evs_errors : forall fuel u, evs (error_components (N:=N) fuel u).
Proof. intros. apply evs_bind; [apply evs_lc|]. intros d. apply evs_pure. Qed.
Lemma evs_std_affine : forall fuel u, evs (std_dev_affine (N:=N) fuel u).
Proof. intros. apply evs_bind; [apply evs_errors|]. intros ec. apply (evs_pure _ (fun _ => _)). Qed.
Lemma evs_std : forall fuel u, evs (std_dev (N:=N) fuel u).
Proof.
  intros. unfold std_dev. destruct (uf_var u) as [v|]; [|apply evs_std_affine].
  intros h H. destruct (get_var h v); apply ev_refl.
Qed.
Lemma evu_new : forall n s tag, evu (new_var (N:=N) n s tag).
Proof.
  intros n s tag h. unfold new_var. destruct (pn_float n); [|apply ev_refl]. destruct (check_std s); [|apply ev_refl].
  cbn. apply ev_more. rewrite app_length. lia.
Qed.
Lemma evs_new : forall n s tag, evs (new_var (N:=N) n s tag).
Proof. intros. apply evs_evu, evu_new. Qed.
Lemma evu_set : forall v s, evu (set_std (N:=N) v s).
Proof.
  intros v s h. unfold set_std. destruct (check_std s); [|apply ev_refl]. destruct (get_var h v); [|apply ev_refl].
  apply ev_var. rewrite list_set_length. lia.
Qed.
Lemma evs_set : forall v s, evs (set_std (N:=N) v s).
Proof. intros. apply evs_evu, evu_set. Qed.
Lemma evu_wcall : forall f pos kwd args kw, evu (wcall (N:=N) f pos kwd args kw).
Proof.
  intros f pos kwd args kw h. unfold wcall. destruct (negb _); [apply ev_refl|].
  destruct (f _ _) as [r|e]; [|apply ev_refl].
  destruct r; try apply ev_refl; match goal with |- context [match ?m with Ok _ => _ | Err _ => _ end] => destruct m end; try apply ev_refl.
  destruct (pn_float p); [|apply ev_refl]. apply ev_alloc.
Qed.
Lemma evs_wcall : forall f pos kwd args kw, evs (wcall (N:=N) f pos kwd args kw).
Proof. intros. apply evs_evu, evu_wcall. Qed.
Lemma evu_method : forall op u b, evu (method_op (N:=N) op u b).
Proof. intros. apply evu_wcall. Qed.
Lemma evs_method : forall op u b, evs (method_op (N:=N) op u b).
Proof. intros. apply evs_evu, evu_method. Qed.
Lemma evu_binop : forall op a b, evu (py_binop (N:=N) op a b).
Proof.
  intros op [[p| | |]|u] [[q| | |]|w]; unfold py_binop; try apply evu_raise;
    (apply evu_bind; [apply evu_wcall|]; intros [[]|]; try apply evu_raise; apply evu_ret).
Qed.
Lemma evs_binop : forall op a b, evs (py_binop (N:=N) op a b).
Proof. intros. apply evs_evu, evu_binop. Qed.
Lemma evs_eq : forall fuel x y, evs (eq_aff (N:=N) fuel x y).
Proof.
  intros. apply evs_bind; [apply evs_method|]. intros [p|d]; [apply evs_raise|].
  destruct (n_truth N (uf_nom d)); [apply evs_ret|]. apply evs_bind; [apply evs_std|]. intros; apply evs_ret.
Qed.
Lemma evs_cmp : forall fuel c x y, evs (cmp_aff (N:=N) fuel c x y).
Proof.
  intros fuel [] x y; unfold cmp_aff; try apply evs_ret; try apply evs_eq.
  - apply evs_bind; [apply evs_eq|]. intros; apply evs_ret.
  - unfold ge_aff. destruct (gt_aff x y); [apply evs_ret|apply evs_eq].
  - unfold le_aff. destruct (lt_aff x y); [apply evs_ret|apply evs_eq].
Qed.
Lemma evs_method_cmp : forall fuel c x b, evs (method_cmp (N:=N) fuel c x b).
Proof.
  intros fuel c x b h H. unfold method_cmp in *. pose proof (evu_affine b h) as A.
  destruct (to_affine_scalar b h) as [[y|e] h1]; cbn [fst snd] in A.
  - pose proof (evs_cmp fuel c x y h1) as C. destruct (cmp_aff fuel c x y h1) as [[r|e] h2]; cbn in *.
    + eapply ev_trans; [exact A|apply C; fine_tac].
    + eapply ev_trans; [exact A|apply C; fine_tac].
  - destruct e; cbn in *; exact A.
Qed.
Lemma evs_pycmp : forall fuel c x b, evs (py_cmp (N:=N) fuel c x b).
Proof.
  intros. apply evs_bind; [apply evs_method_cmp|]. intros [t|]; [apply evs_ret|]. destruct c; try apply evs_ret; apply evs_raise.
Qed.
Lemma evs_bool : forall fuel u, evs (py_bool (N:=N) fuel u).
Proof. intros. apply evs_bind; [apply evs_method_cmp|]. intros [t|]; [apply evs_ret|apply evs_raise]. Qed.
Lemma evs_score : forall fuel u p, evs (std_score (N:=N) fuel u p).
Proof. intros. apply evs_bind; [apply evs_std|]. intros s. apply (evs_pure _ (fun _ => _)). Qed.
Lemma evu_modf : forall a, evu (umath_modf (N:=N) a).
Proof.
  intros a. apply evu_bind; [apply evu_affine|]. intros u h. destruct (n_modf N (uf_nom u)).
  destruct (lc_truth _); apply ev_refl.
Qed.
Lemma evs_modf : forall a, evs (umath_modf (N:=N) a).
Proof. intros. apply evs_evu, evu_modf. Qed.
Lemma evu_ldexp : forall a i, evu (umath_ldexp (N:=N) a i).
Proof.
  intros a i. apply evu_bind; [apply evu_affine|]. intros u h. destruct (lc_truth _).
  - destruct (n_ldexp N (uf_nom u) i); [|apply ev_refl]. destruct (two_power i); [|apply ev_refl]. apply ev_alloc.
  - destruct a as [[]|]; apply ev_refl.
Qed.
Lemma evs_ldexp : forall a i, evs (umath_ldexp (N:=N) a i).
Proof. intros. apply evs_evu, evu_ldexp. Qed.

(** Statements. *)
Definition sev (st st' : state N) : Prop :=
  ev (st_heap st) (st_heap st') /\ exists new, st_env st' = st_env st ++ new.
Lemma sev_refl : forall st, sev st st.
Proof. intros. split; [apply ev_refl|]. exists []. now rewrite app_nil_r. Qed.
Lemma sev_trans : forall a b c, sev a b -> sev b c -> sev a c.
Proof.
  intros a b c [E1 [n1 H1]] [E2 [n2 H2]]. split; [eapply ev_trans; eauto|]. exists (n1 ++ n2). now rewrite H2, H1, app_assoc.
Qed.
Lemma push_sev : forall st (r : res (value N) * heap N), (fine (fst r) -> ev (st_heap st) (snd r)) ->
  fine_out (snd (push st r)) -> sev st (fst (push st r)).
Proof.
  intros st [[a|e] h] H X; cbn in *; (split; [apply H; fine_tac|eexists; reflexivity]).
Qed.
Lemma observe_sev : forall A st (f : A -> out N) r, (fine (fst r) -> ev (st_heap st) (snd r)) ->
  fine_out (snd (observe st f r)) -> sev st (fst (observe st f r)).
Proof.
  intros A st f [[a|e] h] H X; cbn in *; (split; [apply H; fine_tac|exists []; cbn; now rewrite app_nil_r]).
Qed.
Lemma with_uf_sev : forall st i k, (forall u, fine_out (snd (k u)) -> sev st (fst (k u))) ->
  fine_out (snd (with_uf (N:=N) st i k)) -> sev st (fst (with_uf st i k)).
Proof.
  intros st i k H X. unfold with_uf, with_val in *. destruct (nth_error (st_env st) i) as [[p|u]|]; cbn in *.
  - apply sev_refl.
  - now apply H.
  - destruct st; apply sev_refl.
Qed.
Lemma step_sev : forall fuel st ins, fine_out (snd (step fuel st ins)) -> sev st (fst (step fuel st ins)).
Proof.
  intros fuel st ins. destruct ins as [n s tag|p|op i j|f pos kwd args kw|i|i e|i|i|i|i|i s|c i j|i|i p]; cbn [step].
  - apply push_sev. pose proof (evs_new n s tag (st_heap st)) as X.
    destruct (new_var n s tag (st_heap st)) as [[u|e] h']; cbn in *; intros; apply X; fine_tac.
  - apply push_sev. intros; apply ev_refl.
  - destruct (get_args (st_env st) [i; j]) as [[|a [|b [|]]]|]; apply push_sev; try (intros; apply ev_refl). apply evs_binop.
  - destruct (get_args (st_env st) args); [|apply push_sev; intros; apply ev_refl].
    destruct (get_kwargs (st_env st) kw); [|apply push_sev; intros; apply ev_refl]. apply push_sev. apply evs_wcall.
  - destruct (nth_error (st_env st) i) as [a|]; [|apply push_sev; intros; apply ev_refl]. apply push_sev.
    pose proof (evs_modf a (st_heap st)) as X.
    destruct (umath_modf a (st_heap st)) as [[[fr ip]|e] h']; cbn in *; intros; apply X; fine_tac.
  - destruct (nth_error (st_env st) i) as [a|]; [|apply push_sev; intros; apply ev_refl]. apply push_sev. apply evs_ldexp.
  - apply with_uf_sev. intros u. apply observe_sev. apply evs_lc.
  - apply with_uf_sev. intros u. apply observe_sev. apply evs_std.
  - apply with_uf_sev. intros u. apply observe_sev. apply evs_std_affine.
  - apply with_uf_sev. intros u. apply observe_sev. apply evs_errors.
  - apply with_uf_sev. intros u. destruct (uf_var u); [|intros; apply sev_refl]. apply observe_sev. apply evs_set.
  - apply with_uf_sev. intros u. unfold with_val. destruct (nth_error (st_env st) j); [|intros; destruct st; apply sev_refl].
    apply observe_sev. apply evs_pycmp.
  - apply with_uf_sev. intros u. apply observe_sev. apply evs_bool.
  - apply with_uf_sev. intros u. apply observe_sev. apply evs_score.
Qed.

(** Other calls. *)
Lemma evs_elem : forall fuel a, evs (elem_derivatives (N:=N) fuel a).
Proof. intros fuel [p|u]; [apply evs_raise|apply evs_lc]. Qed.
Lemma evs_row : forall order fuel d l, evs (cov_row (N:=N) order fuel d l).
Proof.
  intros order fuel d l. induction l as [|a l IH]; cbn [cov_row]; [apply evs_ret|].
  apply evs_bind; [apply evs_elem|]. intros d2. apply evs_bind; [apply evs_pure|]. intros c.
  apply evs_bind; [exact IH|]. intros; apply evs_ret.
Qed.
Lemma evs_rows : forall order fuel l rest i, evs (cov_rows (N:=N) order fuel l i rest).
Proof.
  intros order fuel l rest. induction rest as [|a rest IH]; intros i; cbn [cov_rows]; [apply evs_ret|].
  apply evs_bind; [apply evs_elem|]. intros d. apply evs_bind; [apply evs_row|]. intros c.
  apply evs_bind; [apply IH|]. intros; apply evs_ret.
Qed.
Lemma evs_cov : forall order fuel l, evs (covariance_matrix (N:=N) order fuel l).
Proof. intros. apply evs_bind; [apply evs_rows|]. intros; apply evs_ret. Qed.
Lemma evs_corr : forall order fuel l, evs (correlation_matrix (N:=N) order fuel l).
Proof. intros. apply evs_bind; [apply evs_cov|]. intros; apply evs_lift. Qed.
Lemma evu_new_vars : forall l, evu (new_variables (N:=N) l).
Proof.
  induction l as [|[x tag] l IH]; cbn [new_variables]; [apply evu_ret|]. apply evu_bind; [apply evu_lift|]. intros s.
  apply evu_bind; [apply evu_new|]. intros u. apply evu_bind; [exact IH|]. intros vs. destruct (uf_var u); [apply evu_ret|apply evu_raise].
Qed.
Lemma evs_new_vars : forall l, evs (new_variables (N:=N) l).
Proof. intros. apply evs_evu, evu_new_vars. Qed.
Lemma evu_combinations : forall vs l, evu (new_combinations (N:=N) vs l).
Proof.
  intros vs. induction l as [|[co x] l IH]; cbn [new_combinations]; [apply evu_ret|]. intros h. cbn [alloc_lc].
  eapply ev_trans; [apply ev_alloc|].
  apply (evu_bind _ _ (new_combinations vs l) (fun us => ret (mkUF x (length (h_lc h)) None :: us))); [exact IH|].
  intros; apply evu_ret.
Qed.
Lemma evs_combinations : forall vs l, evs (new_combinations (N:=N) vs l).
Proof. intros. apply evs_evu, evu_combinations. Qed.
Lemma evu_corr_norm : forall eigh vals corr tags, evu (correlated_values_norm (N:=N) eigh vals corr tags).
Proof.
  intros. unfold correlated_values_norm. destruct vals as [|p vals]; [apply evu_raise|].
  apply evu_bind; [apply evu_lift|]. intros et. cbv zeta. destruct (negb _); [apply evu_raise|].
  apply evu_bind; [apply evu_new_vars|]. intros; apply evu_combinations.
Qed.
Lemma evs_corr_norm : forall eigh vals corr tags, evs (correlated_values_norm (N:=N) eigh vals corr tags).
Proof. intros. apply evs_evu, evu_corr_norm. Qed.
Lemma evu_corr_values : forall eigh noms cov tags, evu (correlated_values (N:=N) eigh noms cov tags).
Proof.
  intros. unfold correlated_values. apply evu_bind; [apply evu_lift|]. intros et. cbv zeta.
  apply evu_bind; [apply evu_lift|]. intros. apply evu_corr_norm.
Qed.
Lemma evs_corr_values : forall eigh noms cov tags, evs (correlated_values (N:=N) eigh noms cov tags).
Proof. intros. apply evs_evu, evu_corr_values. Qed.
Lemma evu_copy : forall a, evu (py_copy (N:=N) a).
Proof.
  intros [p|u]; cbn [py_copy]; [apply evu_ret|]. destruct (uf_var u) as [v|]; [|apply evu_ret]. intros h.
  destruct (get_var h v) as [o|]; [|apply ev_refl]. pose proof (evu_new (PF (uf_nom u)) (PF (v_std o)) (v_tag o) h) as X.
  destruct (new_var _ _ _ h) as [[u'|e] h']; cbn in *; exact X.
Qed.
Lemma evs_copy : forall a, evs (py_copy (N:=N) a).
Proof. intros. apply evs_evu, evu_copy. Qed.
Lemma evu_deepcopy : forall a, evu (py_deepcopy (N:=N) a).
Proof.
  intros [p|u]; cbn [py_deepcopy]; [apply evu_ret|]. destruct (uf_var u) as [v|]; [apply evu_copy|]. intros h.
  apply ev_more. rewrite app_length. lia.
Qed.
Lemma evs_deepcopy : forall a, evs (py_deepcopy (N:=N) a).
Proof. intros. apply evs_evu, evu_deepcopy. Qed.
Lemma evu_pickle : forall l, evu (py_pickle (N:=N) l).
Proof. intros l h. apply ev_more. rewrite app_length. lia. Qed.
Lemma evs_pickle : forall l, evs (py_pickle (N:=N) l).
Proof. intros. apply evs_evu, evu_pickle. Qed.
Lemma push_list_sev : forall st (r : res (list (value N)) * heap N), (fine (fst r) -> ev (st_heap st) (snd r)) ->
  fine_out (snd (push_list st r)) -> sev st (fst (push_list st r)).
Proof.
  intros st [[a|e] h] H X; cbn in *; (split; [apply H; fine_tac|]); [eexists; reflexivity|exists []; cbn; now rewrite app_nil_r].
Qed.
Lemma call_sev : forall st c, fine_out (snd (call_step st c)) -> sev st (fst (call_step st c)).
Proof.
  intros st c. destruct c as [i|i|is|eigh noms cov tags|eigh vals corr tags]; cbn [call_step].
  - destruct (nth_error (st_env st) i); apply push_sev; [apply evs_copy|intros; apply ev_refl].
  - destruct (nth_error (st_env st) i); apply push_sev; [apply evs_deepcopy|intros; apply ev_refl].
  - destruct (get_args (st_env st) is); apply push_list_sev; [apply evs_pickle|intros; apply ev_refl].
  - apply push_list_sev. pose proof (evs_corr_values eigh noms cov tags (st_heap st)) as X.
    destruct (correlated_values _ _ _ _ _) as [[us|e] h']; cbn in *; intros; apply X; fine_tac.
  - apply push_list_sev. pose proof (evs_corr_norm eigh vals corr tags (st_heap st)) as X.
    destruct (correlated_values_norm _ _ _ _ _) as [[us|e] h']; cbn in *; intros; apply X; fine_tac.
Qed.

(** Functions of arrays. *)
Lemma evs_mapM : forall A B (f : A -> M N B) l, (forall a, evs (f a)) -> evs (mapM f l).
Proof.
  intros A B f l K. induction l as [|a l IH]; cbn [mapM]; [apply evs_ret|].
  apply evs_bind; [apply K|]. intros b. apply evs_bind; [exact IH|]. intros; apply evs_ret.
Qed.
Lemma evu_mapM : forall A B (f : A -> M N B) l, (forall a, evu (f a)) -> evu (mapM f l).
Proof.
  intros A B f l K. induction l as [|a l IH]; cbn [mapM]; [apply evu_ret|].
  apply evu_bind; [apply K|]. intros b. apply evu_bind; [exact IH|]. intros; apply evu_ret.
Qed.
Lemma evs_vectorize : forall A B (f : list A -> M N B) l, (forall a, evs (f a)) -> evs (vectorize f l).
Proof.
  intros A B f l K. unfold vectorize. destruct (bshapes _); [|apply evs_raise].
  apply evs_bind; [|intros; apply evs_ret]. apply evs_mapM. intros idx. destruct (all_some _); [apply K|apply evs_raise].
Qed.
Lemma evu_vectorize : forall A B (f : list A -> M N B) l, (forall a, evu (f a)) -> evu (vectorize f l).
Proof.
  intros A B f l K. unfold vectorize. destruct (bshapes _); [|apply evu_raise].
  apply evu_bind; [|intros; apply evu_ret]. apply evu_mapM. intros idx. destruct (all_some _); [apply K|apply evu_raise].
Qed.
Lemma evs_arg1 : forall A B (f : A -> M N B) l, (forall a, evs (f a)) -> evs (arg1 f l).
Proof. intros A B f [|a [|b l]] K; cbn; try apply evs_raise. apply K. Qed.
Lemma evu_arg1 : forall A B (f : A -> M N B) l, (forall a, evu (f a)) -> evu (arg1 f l).
Proof. intros A B f [|a [|b l]] K; cbn; try apply evu_raise. apply K. Qed.
Lemma evs_collect : forall fuel l acc, evs (collect (N:=N) fuel l acc).
Proof.
  intros fuel l. induction l as [|[p|u] l IH]; intros acc; cbn [collect]; [apply evs_ret|apply IH|].
  apply evs_bind; [apply evs_lc|]. intros; apply IH.
Qed.
Lemma evu_nominals : forall a, evu (nominal_values (N:=N) a).
Proof.
  intros a. unfold nominal_values. apply evu_bind; [|intros; apply evu_ret]. apply evu_vectorize. intros l. apply evu_arg1.
  intros x. apply evu_lift.
Qed.
Lemma evs_nominals : forall a, evs (nominal_values (N:=N) a).
Proof. intros. apply evs_evu, evu_nominals. Qed.
Lemma evs_deriv_loop : forall fuel step a vs ds, (forall v da, evs (step v da)) -> evs (deriv_loop (N:=N) fuel step a vs ds).
Proof.
  intros fuel step a vs ds K. revert ds. induction vs as [|v vs IH]; intros ds; cbn [deriv_loop]; [apply evs_ret|].
  apply evs_bind.
  - unfold array_derivative. apply evs_vectorize. intros l. apply evs_arg1.
    intros [p|u]; cbn [derivative]; [apply evs_ret|]. apply evs_bind; [apply evs_lc|]. intros; apply evs_ret.
  - intros da. apply evs_bind; [apply K|]. intros; apply IH.
Qed.
Lemma evu_build : forall l, evu (build (N:=N) l).
Proof.
  induction l as [|[x d] l IH]; cbn [build]; [apply evu_ret|]. intros h. cbn [alloc_lc].
  eapply ev_trans; [apply ev_alloc|].
  apply (evu_bind _ _ (build l) (fun r => ret (VUF (mkUF x (length (h_lc h)) None) :: r))); [exact IH|].
  intros; apply evu_ret.
Qed.
Lemma evs_build : forall l, evs (build (N:=N) l).
Proof. intros. apply evs_evu, evu_build. Qed.
Lemma evs_with : forall order fuel step a vars val c, (forall v da, evs (step v da)) ->
  evs (with_derivatives (N:=N) order fuel step a vars val c).
Proof.
  intros order fuel step a vars val c K. unfold with_derivatives. destruct vars; [apply evs_ret|].
  destruct (a_flat val); [apply evs_raise|]. apply evs_bind; [now apply evs_deriv_loop|]. intros ds.
  apply evs_bind; [apply evs_build|]. intros; apply evs_ret.
Qed.
Lemma evs_uncert : forall order fw fuel a, evs (uncert_func (N:=N) order fw fuel a).
Proof.
  intros. unfold uncert_func. apply evs_bind; [apply evs_collect|]. intros vars. apply evs_bind; [apply evs_nominals|]. intros nom.
  apply evs_bind; [apply evs_lift|]. intros val. apply evs_with. intros. apply evs_lift.
Qed.
Lemma evs_wrapped : forall order f fuel a, evs (wrap_array_func (N:=N) order f fuel a).
Proof.
  intros. unfold wrap_array_func. apply evs_bind; [apply evs_nominals|]. intros nom. apply evs_bind; [apply evs_lift|]. intros val.
  apply evs_bind; [apply evs_collect|]. intros vars. apply evs_with. intros v da h H. destruct (get_var h v); apply ev_refl.
Qed.
Lemma evu_obj_op : forall op a b, evu (obj_op (N:=N) op a b).
Proof.
  intros op [[p| | |]|u] b; unfold obj_op; try apply evu_binop. destruct b as [[q| | |]|w]; try apply evu_binop. apply evu_lift.
Qed.
Lemma evs_obj_op : forall op a b, evs (obj_op (N:=N) op a b).
Proof. intros. apply evs_evu, evu_obj_op. Qed.
Lemma evu_array_op : forall op a b, evu (array_op (N:=N) op a b).
Proof. intros. apply evu_vectorize. intros [|x [|y [|]]]; try apply evu_raise. apply evu_obj_op. Qed.
Lemma evs_array_op : forall op a b, evs (array_op (N:=N) op a b).
Proof. intros. apply evs_evu, evu_array_op. Qed.
Lemma evu_dot_from : forall l acc, evu (dot_from (N:=N) acc l).
Proof.
  induction l as [|[x y] l IH]; intros acc; cbn [dot_from]; [apply evu_ret|]. apply evu_bind; [apply evu_obj_op|]. intros p.
  apply evu_bind; [apply evu_obj_op|]. intros; apply IH.
Qed.
Lemma evs_dot_from : forall l acc, evs (dot_from (N:=N) acc l).
Proof. intros. apply evs_evu, evu_dot_from. Qed.
Lemma evu_matmul : forall a b, evu (obj_matmul (N:=N) a b).
Proof.
  intros a b. unfold obj_matmul. destruct (a_shape a) as [|m [|k [|]]]; try apply evu_raise.
  destruct (a_shape b) as [|k' [|n [|]]]; try apply evu_raise. destruct (Nat.eqb k k'); [|apply evu_raise].
  apply evu_bind; [|intros; apply evu_ret]. apply evu_mapM. intros [|i [|j [|]]]; try apply evu_raise.
  destruct (row_col a b k i j) as [[|[x y] l]|]; try apply evu_raise. cbn [obj_dot].
  apply evu_bind; [apply evu_obj_op|]. intros; apply evu_dot_from.
Qed.
Lemma evs_matmul : forall a b, evs (obj_matmul (N:=N) a b).
Proof. intros. apply evs_evu, evu_matmul. Qed.
End Evolve.
