(** Consequences of [Later]; standard deviations change only when they are set. *)
From Coq Require Import ZArith List Bool Arith Lia Relation_Operators.
From Verif Require Import Base Heap HeapProofs Affine Ops UMath Machine Cov Copy Calls Unumpy UMatrix History CallProofs Fuel Ordered Evolve DepSpec Deps AnySpec AnyArith TwinSpec Twin StaySpec Stay LaterSpec Later.
Import ListNotations.

Section More.
Context {N : NumOps}.
Theorem read_settles : forall (st0 st st' : state N) i u d, reachable st0 -> is_number st0 i u -> does st0 (IDeriv i) st (ODict d) -> readable st i d -> afterwards st st' -> settled st' i.
Proof.
  intros st0 st st' i u d R U D (_ & Ex & Ev) A. destruct (derivatives_stay _ _ _ _ _ _ R U D A) as (U' & D'). right. exists u, d. split; [exact U'|]. split; [exact D'|].
  destruct (read_dict _ _ _ _ _ R U D) as (U1 & _). assert (L := ev_vars _ _ (proj1 (afterwards_sev _ _ A))).
  assert (X : forall v, existing st v -> existing st' v) by (unfold existing, get_var; intros v Hv; apply nth_error_Some in Hv; apply nth_error_Some; lia).
  split; [exists st'; exact D'|]. split; [eapply Forall_impl; [|exact Ex]; auto|]. intros u1 v U2 Hv. assert (u1 = u) by (unfold is_number in *; congruence). subst u1. apply X. exact (Ev u v U1 Hv).
Qed.
Theorem variable_settled : forall (st st1 st' : state N) n s tag, does st (INew n s tag) st1 ONone -> afterwards st1 st' -> settled st' (length (st_env st)).
Proof.
  intros st st1 st' n s tag D A. destruct (variable_stays _ _ _ _ _ _ D A) as (u & v & U & _ & _ & _ & Dr & Rd & _). right. eauto.
Qed.
Lemma settled_lt : forall (st : state N) i, settled st i -> (i < length (st_env st))%nat.
Proof. intros st i [(p & H)|(u & d & H & _)]; unfold is_number in *; apply nth_error_Some; congruence. Qed.
(** Comparisons. *)
Theorem comparison_stays : forall (st st' : state N) c i j b, reachable st -> afterwards st st' -> settled st i -> settled st j ->
  same_deviations st st' i -> same_deviations st st' j -> reads st (ICmp c i j) (OBool b) -> reads st' (ICmp c i j) (OBool b).
Proof.
  intros st st' c i j b R A Si Sj Di Dj (s & k0 & H). assert (Li := settled_lt _ _ Si). assert (Lj := settled_lt _ _ Sj).
  assert (Us : uses_settled st st' [ICmp c i j]). { intros ins x [<-|[]] [<-|[<-|[]]] _; auto. }
  assert (X : forall k, (k0 <= k)%nat -> exists s', step k st' (ICmp c i j) = (s', OBool b)).
  { intros k Hk. destruct (later_same st st' [ICmp c i j] k s [OBool b] R A Us) as (rho & s' & _ & _ & Q & _); [cbn [run]; now rewrite (H k Hk)|].
    cbn [map rename run out_as] in Q. rewrite !shifted_old in Q by assumption. destruct (step k st' (ICmp c i j)) as [s1 o1]. injection Q as <- ->. eauto. }
  destruct (X k0 (le_n k0)) as (s' & E). apply (reads_step k0); [now rewrite E|discriminate].
Qed.
Theorem truth_stays : forall (st st' : state N) i b, reachable st -> afterwards st st' -> settled st i -> same_deviations st st' i ->
  reads st (IBool i) (OBool b) -> reads st' (IBool i) (OBool b).
Proof.
  intros st st' i b R A Si Di (s & k0 & H). assert (Li := settled_lt _ _ Si).
  assert (Us : uses_settled st st' [IBool i]). { intros ins x [<-|[]] [<-|[]] _; auto. }
  assert (X : forall k, (k0 <= k)%nat -> exists s', step k st' (IBool i) = (s', OBool b)).
  { intros k Hk. destruct (later_same st st' [IBool i] k s [OBool b] R A Us) as (rho & s' & _ & _ & Q & _); [cbn [run]; now rewrite (H k Hk)|].
    cbn [map rename run out_as] in Q. rewrite !shifted_old in Q by assumption. destruct (step k st' (IBool i)) as [s1 o1]. injection Q as <- ->. eauto. }
  destruct (X k0 (le_n k0)) as (s' & E). apply (reads_step k0); [now rewrite E|discriminate].
Qed.

(** Standard deviations. *)
Definition kp (h h' : heap N) : Prop := exists objs, h_var h' = h_var h ++ objs.
Lemma kp_refl : forall h, kp h h. Proof. intros h. exists []. now rewrite app_nil_r. Qed.
Lemma kp_trans : forall h1 h2 h3, kp h1 h2 -> kp h2 h3 -> kp h1 h3.
Proof. intros h1 h2 h3 (a & A) (b & B). exists (a ++ b). now rewrite B, A, app_assoc. Qed.
Definition keeps {A} (m : M N A) : Prop := forall h, kp h (snd (m h)).
Lemma keeps_bind : forall A B (m : M N A) (k : A -> M N B), keeps m -> (forall a, keeps (k a)) -> keeps (bind m k).
Proof.
  intros A B m k Hm Hk h. unfold bind. specialize (Hm h). destruct (m h) as [[a|e] h1]; cbn [snd] in *; [|exact Hm]. exact (kp_trans _ _ _ Hm (Hk a h1)).
Qed.
Lemma keeps_same : forall A (f : heap N -> res A), keeps (fun h => (f h, h)).
Proof. intros A f h. apply kp_refl. Qed.
Lemma keeps_deriv : forall k u, keeps (derivatives (N:=N) k u).
Proof.
  intros k u h. unfold derivatives, lc_derivatives. destruct (get_lc h (uf_lp u)); [apply kp_refl|]. destruct (expand_loop k (uf_lp u) [] h) as [r h1] eqn:X.
  apply loop_vars in X. assert (K : kp h h1) by (exists []; now rewrite app_nil_r). destruct r as [[]|e]; [|exact K]. destruct (get_lc h1 (uf_lp u)); exact K.
Qed.
Lemma keeps_errs : forall k u, keeps (error_components (N:=N) k u).
Proof. intros k u. unfold error_components. apply keeps_bind; [apply keeps_deriv|]. intros d. apply keeps_same. Qed.
Lemma keeps_stds : forall k u, keeps (std_dev_s (N:=N) k u).
Proof. intros k u. unfold std_dev_s, std_dev_affine. apply keeps_bind; [apply keeps_errs|]. intros d. apply keeps_same. Qed.
Lemma keeps_std : forall k u, keeps (std_dev (N:=N) k u).
Proof. intros k u. unfold std_dev. destruct (uf_var u) as [v|]; [|apply keeps_stds]. intros h. destruct (get_var h v); apply kp_refl. Qed.
Lemma kp_alloc : forall (h : heap N) x, kp h (mkHeap (h_lc h ++ [x]) (h_var h)).
Proof. intros h x. exists []. now rewrite app_nil_r. Qed.
Lemma keeps_upcast : forall a, keeps (to_affine_scalar (N:=N) a).
Proof.
  intros [[q| | |]|u] h; cbn [to_affine_scalar]; try apply kp_refl. destruct (pn_float q); [|apply kp_refl]. cbn [alloc_lc snd]. apply kp_alloc.
Qed.
Lemma keeps_wcall : forall f pos kwd l kw, keeps (wcall (N:=N) f pos kwd l kw).
Proof.
  intros f pos kwd l kw h. unfold wcall. cbv zeta. destruct (negb _); [apply kp_refl|]. destruct (f _ _) as [r|]; [|apply kp_refl].
  destruct r as [p| | |]; try apply kp_refl; (destruct (rbind _ _); [|apply kp_refl]); try apply kp_refl. destruct (pn_float p); [|apply kp_refl]. cbn [alloc_lc snd]. apply kp_alloc.
Qed.
Lemma keeps_binop : forall op a b, keeps (py_binop (N:=N) op a b).
Proof.
  intros op a b. assert (K : forall r : value N, keeps (match r with VNotImpl => raise EType | _ => ret r end)) by (intros [[]|] h; apply kp_refl).
  destruct a as [p|u]; cbn [py_binop]; [destruct b as [q|w]; [intros h; apply kp_refl|]|]; (apply keeps_bind; [apply keeps_wcall|exact K]).
Qed.
Lemma keeps_eq : forall k x y, keeps (eq_aff (N:=N) k x y).
Proof.
  intros k x y. unfold eq_aff. apply keeps_bind; [apply keeps_wcall|]. intros [p|d]; [intros h; apply kp_refl|]. destruct (n_truth N (uf_nom d)); [intros h; apply kp_refl|].
  apply keeps_bind; [apply keeps_std|]. intros s h. apply kp_refl.
Qed.
Lemma keeps_cmp : forall k c x y, keeps (cmp_aff (N:=N) k c x y).
Proof.
  intros k c x y. destruct c; cbn [cmp_aff]; unfold ge_aff, le_aff, ne_aff; try apply keeps_eq; try (intros h; apply kp_refl).
  - apply keeps_bind; [apply keeps_eq|]. intros b h. apply kp_refl.
  - destruct (gt_aff x y); [intros h; apply kp_refl|apply keeps_eq].
  - destruct (lt_aff x y); [intros h; apply kp_refl|apply keeps_eq].
Qed.
Lemma keeps_mcmp : forall k c x b, keeps (method_cmp (N:=N) k c x b).
Proof.
  intros k c x b h. unfold method_cmp. assert (U := keeps_upcast b h). destruct (to_affine_scalar b h) as [[y|e] h1]; cbn [snd] in U.
  - assert (C := keeps_cmp k c x y h1). destruct (cmp_aff k c x y h1) as [[r|e] h2]; cbn [snd] in *; exact (kp_trans _ _ _ U C).
  - destruct e; exact U.
Qed.
Lemma kp_sd : forall (h h' : heap N) v o, kp h h' -> get_var h v = Some o -> get_var h' v = Some o.
Proof. intros h h' v o (objs & E) G. unfold get_var in *. rewrite E. now apply nth_app_l. Qed.
Lemma push_kp : forall (st : state N) r, kp (st_heap st) (snd r) -> kp (st_heap st) (st_heap (fst (push st r))).
Proof. intros st [[a|e] h] H; exact H. Qed.
Lemma observe_kp : forall A (st : state N) f (r : res A * heap N), kp (st_heap st) (snd r) -> kp (st_heap st) (st_heap (fst (observe st f r))).
Proof. intros A st f [[a|e] h] H; exact H. Qed.
Lemma val_kp : forall (st : state N) i k, (forall a, kp (st_heap st) (st_heap (fst (k a)))) -> kp (st_heap st) (st_heap (fst (with_val st i k))).
Proof. intros st i k H. unfold with_val. destruct (nth_error (st_env st) i); [apply H|apply kp_refl]. Qed.
Lemma uf_kp : forall (st : state N) i k, (forall u, is_number st i u -> kp (st_heap st) (st_heap (fst (k u)))) -> kp (st_heap st) (st_heap (fst (with_uf st i k))).
Proof. intros st i k H. unfold with_uf, with_val, is_number in *. destruct (nth_error (st_env st) i) as [[p|u]|]; auto; apply kp_refl. Qed.
Lemma step_kp : forall k (st : state N) ins, (forall i s, ins <> ISet i s) -> kp (st_heap st) (st_heap (fst (step k st ins))).
Proof.
  intros k st ins Hn. destruct ins as [x s t|p|op i j|f pos kwd args kw|i|i e|i|i|i|i|i s|c i j|i|i p]; cbn [step]; cbv zeta.
  - apply push_kp. unfold new_var. destruct (pn_float x); [|apply kp_refl]. destruct (check_std s); [|apply kp_refl]. cbn [alloc_lc snd h_lc h_var]. eexists. reflexivity.
  - apply push_kp, kp_refl.
  - destruct (get_args (st_env st) [i; j]) as [[|a [|b [|]]]|]; apply push_kp; try apply kp_refl. apply keeps_binop.
  - destruct (get_args (st_env st) args), (get_kwargs (st_env st) kw); apply push_kp; try apply kp_refl. apply keeps_wcall.
  - destruct (nth_error (st_env st) i) as [a|]; apply push_kp; [|apply kp_refl].
    assert (K : keeps (umath_modf (N:=N) a)).
    { unfold umath_modf. apply keeps_bind; [apply keeps_upcast|]. intros u h. destruct (n_modf N (uf_nom u)). destruct (lc_truth _); apply kp_refl. }
    specialize (K (st_heap st)). destruct (umath_modf a (st_heap st)) as [[[fr ip]|e] h]; exact K.
  - destruct (nth_error (st_env st) i) as [a|]; apply push_kp; [|apply kp_refl].
    unfold umath_ldexp. apply keeps_bind; [apply keeps_upcast|]. intros u h. destruct (lc_truth _).
    + destruct (n_ldexp _ _ _); [|apply kp_refl]. destruct (two_power e); [|apply kp_refl]. cbn [alloc_lc snd]. apply kp_alloc.
    + destruct a as [[]|]; apply kp_refl.
  - apply uf_kp. intros u _. apply observe_kp, keeps_deriv.
  - apply uf_kp. intros u _. apply observe_kp, keeps_std.
  - apply uf_kp. intros u _. apply observe_kp, keeps_stds.
  - apply uf_kp. intros u _. apply observe_kp, keeps_errs.
  - now destruct (Hn i s).
  - apply uf_kp. intros u _. apply val_kp. intros b. apply observe_kp. unfold py_cmp. apply keeps_bind; [apply keeps_mcmp|]. intros [t|] h; [apply kp_refl|destruct c; apply kp_refl].
  - apply uf_kp. intros u _. apply observe_kp. unfold py_bool. apply keeps_bind; [apply keeps_mcmp|]. intros [t|] h; apply kp_refl.
  - apply uf_kp. intros u _. apply observe_kp. unfold std_score. apply keeps_bind; [apply keeps_std|]. intros s. apply keeps_same.
Qed.
(** The standard deviation of a variable changes only when it is set. *)
Theorem deviations_stay : forall (st : state N) ins st' o v, does st ins st' o -> existing st v ->
  (forall i s u, ins = ISet i s -> is_number st i u -> uf_var u <> Some v) -> sd st' v = sd st v /\ vtag st' v = vtag st v.
Proof.
  intros st ins st' o v (k & D) Ex Hn. specialize (D k (le_n k)). unfold existing in Ex. destruct (get_var (st_heap st) v) as [w|] eqn:G; [|contradiction].
  assert (X : get_var (st_heap st') v = Some w).
  { assert (Q : (forall i s, ins <> ISet i s) \/ exists i s, ins = ISet i s) by (destruct ins; eauto; left; discriminate). destruct Q as [Q|(i & s & ->)].
    - assert (Y := step_kp k st ins Q). rewrite D in Y. exact (kp_sd _ _ _ _ Y G).
    - cbn [step] in D. unfold with_uf, with_val in D. destruct (nth_error (st_env st) i) as [[p|u]|] eqn:E; [injection D as <- _; exact G| |injection D as <- _; exact G].
      destruct (uf_var u) as [x|] eqn:Ev; [|injection D as <- _; exact G]. specialize (Hn i s u eq_refl E). unfold set_std in D. destruct (check_std s) as [y|]; [|injection D as <- _; exact G].
      destruct (get_var (st_heap st) x) as [z|] eqn:Gx; [|injection D as <- _; exact G]. injection D as <- _. unfold get_var in *. cbn [st_heap h_var]. rewrite nth_error_list_set_neq; [exact G|congruence]. }
  unfold sd, vtag. rewrite G, X. now split.
Qed.
End More.
