(** Every history of API calls over exact numbers behaves as the specification of [Spec]. *)
From Coq Require Import ZArith List Bool Reals Lra Lia Arith.
From Verif Require Import Base Heap Affine Ops UMath NumR HeapSpec HeapProofs DenProofs Machine Spec.
From Flocq Require Import Core.
Import ListNotations.
Local Open Scope R_scope.

(** ** Fuel *)
Section Conv.
Context {N : NumOps}.
(** The computation gives [r] with enough fuel. *)
Definition conv {A} (m : nat -> A) (r : A) : Prop :=
  exists k, forall fuel, (k <= fuel)%nat -> m fuel = r.

Lemma conv_const : forall A (r : A), conv (fun _ => r) r.
Proof. intros; exists 0%nat; auto. Qed.

Lemma conv_map : forall A B (f : A -> B) (m : nat -> A) r r', conv m r -> f r = r' ->
  conv (fun fuel => f (m fuel)) r'.
Proof. intros A B f m r r' [k H] E. exists k. intros. now rewrite H. Qed.

Lemma conv_bind : forall A B (m : nat -> M N A) (k : nat -> A -> M N B) h a h' r,
  conv (fun fuel => m fuel h) (Ok a, h') -> conv (fun fuel => k fuel a h') r ->
  conv (fun fuel => bind (m fuel) (k fuel) h) r.
Proof.
  intros A B m k h a h' r [k1 H1] [k2 H2]. exists (max k1 k2). intros fuel Hf.
  unfold bind. rewrite H1 by lia. apply H2; lia.
Qed.

Lemma eloop_mono : forall f (h : heap N) st acc d, eloop f h st acc = Ok d ->
  forall f', (f <= f')%nat -> eloop f' h st acc = Ok d.
Proof.
  induction f as [|f IH]; intros h st acc d E f' Hf; simpl in E; [discriminate|].
  destruct f' as [|f']; [lia|]. simpl. destruct st as [|it st]; auto.
  destruct it as [c l|c|l]; try discriminate.
  destruct (get_lc h l).
  - destruct (acc_dict c d0 acc); [|discriminate]. apply IH; auto; lia.
  - destruct (push_items c (rev its) st) as [st' [e|]]; [discriminate|]. apply IH; auto; lia.
Qed.

Lemma lc_derivatives_conv : forall P (HP : coef_class P) (h : heap N) l, wf P h ->
  (l < length (h_lc h))%nat ->
  exists d, conv (fun fuel => lc_derivatives fuel l h)
      (Ok d, match get_lc h l with LDict _ => h | LList _ => set_lc h l (LDict d) end) /\
    NoDup (dkeys d) /\ (forall v, In v (dkeys d) <-> dep h l v).
Proof.
  intros P HP h l W Hl.
  destruct (lc_derivatives_total P HP h l (need h l) W Hl (Nat.le_refl _))
    as (d & E & F & ND & K).
  exists d. split; [|tauto].
  exists (need h l). intros fuel Hf.
  destruct (lc_derivatives_total P HP h l fuel W Hl Hf) as (d' & E' & F' & _).
  rewrite E'. destruct (get_lc h l).
  - congruence.
  - rewrite (eloop_mono _ _ _ _ _ F fuel Hf) in F'. congruence.
Qed.
End Conv.

Section Refine.
Context {g lg : R -> R}.
Notation RN := (ROps g lg).
Implicit Types h : heap RN.

(** ** Relation between heaps before and after an operation that creates no variable *)
Record hext h h' : Prop := {
  he_wf : wf anyc h';
  he_len : (length (h_lc h) <= length (h_lc h'))%nat;
  he_var : h_var h' = h_var h;
  he_den : forall l v, (l < length (h_lc h))%nat -> den h' l v = den h l v;
  he_dep : forall l v, (l < length (h_lc h))%nat -> (dep h' l v <-> dep h l v)
}.

Lemma hext_refl : forall h, wf anyc h -> hext h h.
Proof. intros. split; auto; tauto. Qed.

Lemma hext_trans : forall h1 h2 h3, hext h1 h2 -> hext h2 h3 -> hext h1 h3.
Proof.
  intros h1 h2 h3 A B. destruct A, B. split; auto; try lia.
  - congruence.
  - intros. rewrite he_den1, he_den0; auto; lia.
  - intros. rewrite he_dep1, he_dep0; auto; [tauto|lia].
Qed.

Lemma hext_alloc : forall h x, wf anyc h ->
  lc_ok anyc (length (h_var h)) (length (h_lc h)) x ->
  hext h (mkHeap (h_lc h ++ [x]) (h_var h)).
Proof.
  intros h x W Hx. split.
  - now apply wf_alloc.
  - simpl. rewrite app_length. lia.
  - reflexivity.
  - intros l v Hl. apply (den_agree h _ (length (h_lc h))); auto.
    + apply wf_below_of_wf; auto.
    + intros. now apply get_alloc_old.
  - intros l v Hl. eapply (dep_agree anyc h _ (length (h_lc h))); auto.
    + apply wf_below_of_wf; auto.
    + intros. now apply get_alloc_old.
Qed.

(** ** Relation between numbers *)
Record urel h (u : uf RN) (n : R) (gr : varid -> R) (ds : list varid) : Prop := {
  ur_nom : uf_nom u = n;
  ur_lp : (uf_lp u < length (h_lc h))%nat;
  ur_den : forall v, den h (uf_lp u) v = gr v;
  ur_dep : forall v, dep h (uf_lp u) v <-> In v ds
}.
Definition vrel h (a : value RN) (sa : sval g lg) : Prop :=
  match a, sa with
  | VPlain a, SPlain b => a = b
  | VUF u, SUF n gr ds var =>
      urel h u n gr ds /\ ds <> [] /\ uf_var u = var /\
      (forall v, var = Some v -> (v < length (h_var h))%nat /\ ds = [v] /\
                                 forall w, gr w = delta v w)
  | _, _ => False
  end.

Lemma urel_hext : forall h h' u n gr ds, hext h h' -> urel h u n gr ds -> urel h' u n gr ds.
Proof.
  intros h h' u n gr ds E U. destruct E, U. split; auto; try lia.
  - intros. rewrite he_den0; auto.
  - intros. rewrite he_dep0; auto.
Qed.
Lemma vrel_hext : forall h h' a sa, hext h h' -> vrel h a sa -> vrel h' a sa.
Proof.
  intros h h' [a|u] [b|n gr ds var] E; simpl; auto.
  intros (U & D & V & W). split; [eauto using urel_hext|]. split; auto. split; auto.
  intros v Hv. rewrite (he_var _ _ E). now apply W.
Qed.

Definition varsrel h (vs : svars) : Prop :=
  Forall2 (fun (o : varobj RN) s => v_std o = s /\ 0 <= s) (h_var h) vs.

Lemma varsrel_len : forall h vs, varsrel h vs -> length (h_var h) = length vs.
Proof. intros h vs H. unfold varsrel in H. induction H; simpl; auto. Qed.

Lemma Forall2_nth_error : forall A B (Q : A -> B -> Prop) l l', Forall2 Q l l' ->
  forall i a, nth_error l i = Some a -> exists b, nth_error l' i = Some b /\ Q a b.
Proof.
  intros A B Q l l' F. induction F; intros [|i] a E; simpl in *; try discriminate; eauto.
  injection E; intros; subst; eauto.
Qed.
Lemma Forall2_nth_error_None : forall A B (Q : A -> B -> Prop) l l', Forall2 Q l l' ->
  forall i, nth_error l i = None -> nth_error l' i = None.
Proof.
  intros A B Q l l' F. induction F; intros [|i] E; simpl in *; try discriminate; eauto.
Qed.

Lemma varsrel_get : forall h vs v, varsrel h vs -> (v < length (h_var h))%nat ->
  exists o, get_var h v = Some o /\ v_std o = sigma vs v /\ 0 <= sigma vs v.
Proof.
  intros h vs v H Hv. unfold get_var.
  destruct (nth_error (h_var h) v) eqn:E.
  - destruct (Forall2_nth_error _ _ _ _ _ H _ _ E) as (s & Es & E1 & E2).
    exists v0. unfold sigma. rewrite (nth_error_nth _ _ _ Es). auto.
  - apply nth_error_None in E. lia.
Qed.

Record sim (st : state RN) (ss : sstate g lg) : Prop := {
  si_wf : wf anyc (st_heap st);
  si_vars : varsrel (st_heap st) (ss_vars ss);
  si_env : Forall2 (vrel (st_heap st)) (st_env st) (ss_env ss)
}.

Lemma Forall2_impl' : forall A B (P Q : A -> B -> Prop) l l', (forall a b, P a b -> Q a b) ->
  Forall2 P l l' -> Forall2 Q l l'.
Proof. intros A B P Q l l' H F. induction F; constructor; auto. Qed.

Lemma sim_hext : forall h h' env vs senv, sim (mkState h env) (mkS vs senv) -> hext h h' ->
  sim (mkState h' env) (mkS vs senv).
Proof.
  intros h h' env vs senv [W V E] X. simpl in *. split; simpl.
  - apply X.
  - unfold varsrel. now rewrite (he_var _ _ X).
  - eapply Forall2_impl'; [|apply E]. intros; eapply vrel_hext; eauto.
Qed.

(** ** Reading derivatives *)
Lemma dget_restrict : forall (d : dict RN) ds gr,
  (forall v, In v (dkeys d) <-> In v ds) -> (forall v, dval d v = gr v) ->
  forall v, dget d v = restrict ds gr v.
Proof.
  intros d ds gr K D v. unfold restrict.
  destruct (existsb (Nat.eqb v) ds) eqn:E.
  - apply existsb_exists in E. destruct E as (w & I & E). apply Nat.eqb_eq in E; subst w.
    apply K in I. apply dget_In_keys in I. destruct I as [x Ex].
    specialize (D v). unfold dval in D. simpl in *. rewrite Ex in *. congruence.
  - apply dget_None. intros I. apply K in I.
    assert (existsb (Nat.eqb v) ds = true); [|congruence].
    apply existsb_exists. exists v. split; auto. apply Nat.eqb_refl.
Qed.

Lemma derivatives_conv : forall h u n gr ds, wf anyc h -> urel h u n gr ds ->
  exists d h', conv (fun fuel => derivatives fuel u h) (Ok d, h') /\ hext h h' /\
    NoDup (dkeys d) /\ (forall v, In v (dkeys d) <-> In v ds) /\ (forall v, dval d v = gr v).
Proof.
  intros h u n gr ds W U.
  destruct (lc_derivatives_conv anyc anyc_class h (uf_lp u) W (ur_lp _ _ _ _ _ U))
    as (d & C & ND & K).
  assert (DV : forall v, dval d v = den h (uf_lp u) v).
  { destruct C as [k C].
    destruct (lc_derivatives_R h (uf_lp u) (max k (need h (uf_lp u))) W (ur_lp _ _ _ _ _ U))
      as (d' & E' & _ & _ & D'); [lia|].
    rewrite C in E' by lia. assert (d = d') by congruence. subst. auto. }
  eexists d, _. split; [exact C|]. split; [|split; [auto|split]].
  - destruct (get_lc h (uf_lp u)) as [d0|its] eqn:E.
    + now apply hext_refl.
    + split.
      * eapply wf_set_dict; eauto. apply U.
      * rewrite set_lc_length; lia.
      * reflexivity.
      * intros. apply den_set_dict; auto. apply U.
      * intros. apply dep_set_dict; auto. apply U.
  - intros v. rewrite K. apply (ur_dep _ _ _ _ _ U).
  - intros v. rewrite DV. apply (ur_den _ _ _ _ _ U).
Qed.

(** ** Standard deviations *)
Lemma Reqb_true : forall x y, Reqb x y = true <-> x = y.
Proof. intros. unfold Reqb. destruct (Req_EM_T x y); split; congruence. Qed.
Lemma Reqb_false : forall x y, Reqb x y = false <-> x <> y.
Proof. intros. unfold Reqb. destruct (Req_EM_T x y); split; congruence. Qed.
Lemma Rltb_true : forall x y, Rltb x y = true <-> x < y.
Proof. intros. unfold Rltb. destruct (Rlt_dec x y); split; auto; congruence. Qed.
Lemma Rltb_false : forall x y, Rltb x y = false <-> y <= x.
Proof. intros. unfold Rltb. destruct (Rlt_dec x y); split; auto; try lra; congruence. Qed.
Lemma Rleb_true : forall x y, Rleb x y = true <-> x <= y.
Proof. intros. unfold Rleb. destruct (Rle_dec x y); split; auto; congruence. Qed.
Lemma Rleb_false : forall x y, Rleb x y = false <-> y < x.
Proof. intros. unfold Rleb. destruct (Rle_dec x y); split; auto; try lra; congruence. Qed.

Lemma Ris_int_IZR : forall z, Ris_int (IZR z) = true.
Proof. intros. unfold Ris_int. rewrite Zfloor_IZR. now apply Reqb_true. Qed.

Lemma Rpow_py_nat : forall x (n : nat), (0 < n)%nat -> Rpow_py x (INR n) = Ok (Some (x ^ n)).
Proof.
  intros x n Hn. unfold Rpow_py.
  assert (Hp : 0 < INR n) by (apply lt_0_INR; auto).
  replace (Reqb (INR n) 0) with false by (symmetry; apply Reqb_false; lra).
  destruct (Rltb 0 x) eqn:E.
  - apply Rltb_true in E. now rewrite Rpower_pow.
  - apply Rltb_false in E. destruct (Reqb x 0) eqn:E0.
    + apply Reqb_true in E0; subst.
      replace (Rltb 0 (INR n)) with true by (symmetry; now apply Rltb_true).
      rewrite pow_i; auto.
    + rewrite INR_IZR_INZ, Ris_int_IZR, Zfloor_IZR. now rewrite <- pow_powerRZ.
Qed.

Lemma Rsq_py : forall x, n_powf (N:=RN) x 2 = Ok (x ^ 2).
Proof.
  intros. unfold n_powf. simpl. replace 2 with (INR 2) by (simpl; lra).
  rewrite Rpow_py_nat by lia. reflexivity.
Qed.

Lemma pn_square_R : forall a : pynum RN, exists p, pn_square a = Ok p /\ pval p = pval a ^ 2.
Proof.
  intros [z|x]; unfold pn_square.
  - eexists; split; [reflexivity|]. simpl. rewrite mult_IZR. ring.
  - change (n_two RN) with 2. rewrite Rsq_py. simpl. eexists; split; [reflexivity|]. reflexivity.
Qed.

Lemma pn_add_R : forall a b : pynum RN, exists p, pn_add a b = Ok p /\ pval p = pval a + pval b.
Proof.
  intros [x|x] [y|y]; simpl; eexists; (split; [reflexivity|]); simpl; auto.
  apply plus_IZR.
Qed.
Lemma pn_sub_R : forall a b : pynum RN, exists p, pn_sub a b = Ok p /\ pval p = pval a - pval b.
Proof.
  intros [x|x] [y|y]; simpl; eexists; (split; [reflexivity|]); simpl; auto.
  apply minus_IZR.
Qed.
Lemma pn_float_R : forall a : pynum RN, pn_float a = Ok (pval a).
Proof. intros [x|x]; reflexivity. Qed.

Lemma sum_squares_R : forall (l : list (pynum RN)) acc, exists p,
  sum_squares acc l = Ok p /\ pval p = pval acc + Rsum (map (fun a => pval a ^ 2) l).
Proof.
  induction l as [|x l IH]; intros acc; simpl.
  - eexists; split; [reflexivity|]. lra.
  - destruct (pn_square_R x) as (s & Es & Vs). rewrite Es. simpl.
    destruct (pn_add_R acc s) as (a & Ea & Va). rewrite Ea. simpl.
    destruct (IH a) as (p & Ep & Vp). exists p. split; auto. simpl in *. lra.
Qed.

(** Component of a variable in the error. *)
Lemma components_R : forall h vs (d : dict RN), varsrel h vs ->
  (forall v, In v (dkeys d) -> (v < length (h_var h))%nat) ->
  exists l, components h d = Ok l /\ dkeys l = dkeys d /\
    map (fun p => pval (snd p)) l = map (fun p => Rabs (snd p * sigma vs (fst p))) d /\
    (forall v, option_map pval (dget l v) =
               option_map (fun x => Rabs (x * sigma vs v)) (dget d v)).
Proof.
  intros h vs d H. induction d as [|[v x] d IH]; intros K.
  - exists []. simpl. auto.
  - destruct IH as (l & E & Ek & Em & Eg). { intros; apply K; simpl; auto. }
    destruct (varsrel_get h vs v H) as (o & Go & So & Po). { apply K; simpl; auto. }
    simpl components. rewrite Go, E. simpl.
    eexists; split; [reflexivity|]. simpl.
    rewrite So.
    assert (X : pval (if Reqb (sigma vs v) 0 then PZ 0%Z else PF (N:=RN) (Rabs (x * sigma vs v)))
                = Rabs (x * sigma vs v)).
    { destruct (Reqb (sigma vs v) 0) eqn:Eq; simpl; auto.
      apply Reqb_true in Eq. rewrite Eq, Rmult_0_r, Rabs_R0. reflexivity. }
    repeat split.
    + now rewrite Ek.
    + f_equal; auto.
    + intros w. destruct (Nat.eqb w v) eqn:Ew; simpl; auto.
      apply Nat.eqb_eq in Ew; subst w. now rewrite X.
Qed.

Lemma Rsum_perm_seq : forall (F : nat -> R) (ks : list nat) n, NoDup ks ->
  (forall v, In v ks -> (v < n)%nat) ->
  (forall v, (v < n)%nat -> ~ In v ks -> F v = 0) ->
  Rsum (map F ks) = Rsum (map F (seq 0 n)).
Proof.
  intros F ks n. revert ks. induction n as [|n IH]; intros ks ND B Z.
  - destruct ks as [|k ks]; auto. specialize (B k (or_introl eq_refl)). lia.
  - rewrite seq_S, map_app, Rsum_app. simpl.
    destruct (in_dec Nat.eq_dec n ks) as [I|I].
    + apply in_split in I. destruct I as (a & b & ->).
      assert (NI : ~ In n (a ++ b)) by (apply NoDup_remove_2 in ND; auto).
      apply NoDup_remove_1 in ND.
      rewrite <- (IH (a ++ b)); auto.
      * rewrite !map_app, !Rsum_app. simpl. lra.
      * intros v Hv. assert (v < S n)%nat.
        { apply B. apply in_app_iff in Hv. apply in_app_iff. simpl. tauto. }
        assert (v <> n) by congruence. lia.
      * intros v Hv Hn. apply Z; [lia|]. intros X. apply Hn.
        apply in_app_iff in X. apply in_app_iff. simpl in X. destruct X as [X|[X|X]]; auto. lia.
    + rewrite <- (IH ks); auto.
      * rewrite (Z n) by (auto; lia). lra.
      * intros v Hv. specialize (B v Hv). assert (v <> n) by congruence. lia.
Qed.

Lemma map_dget_keys : forall A (d : list (nat * A)) (F : nat -> A -> R) (G : nat -> R),
  NoDup (dkeys d) ->
  (forall v x, dget d v = Some x -> F v x = G v) ->
  map (fun p => F (fst p) (snd p)) d = map G (dkeys d).
Proof.
  intros A d F G ND H. unfold dkeys. rewrite map_map. apply map_ext_in.
  intros [v x] I. simpl. apply H. now apply In_dget.
Qed.

Lemma svariance_nonneg : forall vs gr, 0 <= svariance vs gr.
Proof.
  intros. unfold svariance. induction (seq 0 (length vs)); simpl; [lra|].
  pose proof (pow2_ge_0 (gr a * sigma vs a)). simpl in *. lra.
Qed.

Lemma urel_bound : forall h u n gr ds v, wf anyc h -> urel h u n gr ds ->
  In v ds -> (v < length (h_var h))%nat.
Proof.
  intros h u n gr ds v W U I. apply (dep_bound anyc h (uf_lp u)); auto. apply U.
  now apply (ur_dep _ _ _ _ _ U).
Qed.

Lemma error_components_conv : forall h vs u n gr ds, wf anyc h -> varsrel h vs ->
  urel h u n gr ds ->
  exists l h', conv (fun fuel => error_components fuel u h) (Ok l, h') /\ hext h h' /\
    NoDup (dkeys l) /\
    (forall v, option_map pval (dget l v) =
               restrict ds (fun v => Rabs (gr v * sigma vs v)) v) /\
    Rsum (map (fun a => pval a ^ 2) (map snd l)) = svariance vs gr.
Proof.
  intros h vs u n gr ds W V U.
  destruct (derivatives_conv h u n gr ds W U) as (d & h' & C & X & ND & K & D).
  assert (V' : varsrel h' vs) by (unfold varsrel; now rewrite (he_var _ _ X)).
  destruct (components_R h' vs d V') as (l & E & Ek & Em & Eg).
  { intros v Hv. rewrite (he_var _ _ X). apply K in Hv. eapply urel_bound; eauto. }
  exists l, h'. split; [|split; [exact X|split; [|split]]].
  - eapply conv_bind; [exact C|]. simpl. rewrite E. apply conv_const.
  - now rewrite Ek.
  - intros v. rewrite Eg. rewrite (dget_restrict d ds gr K D v). unfold restrict.
    destruct (existsb (Nat.eqb v) ds); auto.
  - rewrite map_map. unfold svariance.
    rewrite <- (map_map (fun p => pval (snd p)) (fun r => r ^ 2)), Em, map_map.
    pose proof (map_dget_keys R d (fun v x => Rabs (x * sigma vs v) ^ 2)
                (fun v => (gr v * sigma vs v) ^ 2) ND) as Q.
    etransitivity; [apply f_equal; apply Q|].
    2:{ apply Rsum_perm_seq; auto.
      * intros v Hv. rewrite <- (varsrel_len _ _ V). apply K in Hv. eapply urel_bound; eauto.
      * intros v _ Hn. rewrite <- D. unfold dval. apply dget_None in Hn. simpl in *.
        rewrite Hn. ring. }
    + intros v x Ex. rewrite pow2_abs. f_equal. f_equal.
      specialize (D v). unfold dval in D. simpl in *. rewrite Ex in D. auto.
Qed.

Lemma std_affine_conv : forall h vs u n gr ds, wf anyc h -> varsrel h vs -> urel h u n gr ds ->
  exists h', conv (fun fuel => std_dev_affine fuel u h) (Ok (sstd vs gr), h') /\ hext h h'.
Proof.
  intros h vs u n gr ds W V U.
  destruct (error_components_conv h vs u n gr ds W V U) as (l & h' & C & X & _ & _ & S).
  exists h'. split; auto.
  eapply conv_bind; [exact C|]. simpl.
  destruct (sum_squares_R (map snd l) (PZ 0%Z)) as (p & Ep & Vp).
  rewrite Ep. simpl. rewrite S in Vp. simpl in Vp. rewrite Rplus_0_l in Vp.
  unfold pn_sqrt. rewrite pn_float_R. simpl. rewrite Vp.
  replace (Rleb 0 (svariance vs gr)) with true; [apply conv_const|].
  symmetry. apply Rleb_true. apply svariance_nonneg.
Qed.

Lemma Rsum_single : forall (F : nat -> R) n v, (v < n)%nat ->
  (forall w, (w < n)%nat -> w <> v -> F w = 0) -> Rsum (map F (seq 0 n)) = F v.
Proof.
  intros F n v Hv Z. rewrite <- (Rsum_perm_seq F [v] n); simpl.
  - lra.
  - constructor; [simpl; tauto|constructor].
  - intros w [<-|[]]; auto.
  - intros w Hw Hn. apply Z; auto.
Qed.

Lemma sstd_var : forall vs v gr, (v < length vs)%nat -> (forall w, gr w = delta v w) ->
  0 <= sigma vs v -> sstd vs gr = sigma vs v.
Proof.
  intros vs v gr Hv Hg Hs. unfold sstd, svariance.
  rewrite (Rsum_single _ _ v Hv).
  - rewrite Hg. unfold delta. rewrite Nat.eqb_refl, Rmult_1_l. now apply sqrt_pow2.
  - intros w _ Hw. rewrite Hg. unfold delta.
    destruct (Nat.eqb w v) eqn:E; [apply Nat.eqb_eq in E; congruence|]. ring.
Qed.

Lemma std_conv : forall h vs u n gr ds var, wf anyc h -> varsrel h vs ->
  vrel h (VUF u) (SUF n gr ds var) ->
  exists h', conv (fun fuel => std_dev fuel u h) (Ok (sstd vs gr), h') /\ hext h h'.
Proof.
  intros h vs u n gr ds var W V (U & D & Ev & Hv).
  unfold std_dev. rewrite Ev. destruct var as [v|].
  - destruct (Hv v eq_refl) as (Lv & _ & Gv).
    destruct (varsrel_get h vs v V Lv) as (o & Go & So & Po).
    exists h. split; [|now apply hext_refl].
    rewrite Go. rewrite So. rewrite (sstd_var vs v gr); auto. { apply conv_const. }
    now rewrite <- (varsrel_len _ _ V).
  - eapply std_affine_conv; eauto.
Qed.

(** ** Calls *)
Lemma nominal_rel : forall h a sa, vrel h a sa -> nominal_value a = snom sa.
Proof.
  intros h [a|u] [b|n gr ds var]; simpl; intros H; try tauto.
  destruct H as (U & _). now rewrite (ur_nom _ _ _ _ _ U).
Qed.
Lemma isuf_rel : forall h a sa, vrel h a sa -> is_uf a = is_suf sa.
Proof. intros h [a|u] [b|n gr ds var]; simpl; intros; tauto. Qed.

Lemma map_rel : forall h args sargs, Forall2 (vrel h) args sargs ->
  map nominal_value args = map snom sargs /\ existsb is_uf args = existsb is_suf sargs.
Proof.
  intros h args sargs F. induction F as [|a b l l' Hab F [I1 I2]]; simpl; auto.
  rewrite (nominal_rel _ _ _ Hab), (isuf_rel _ _ _ Hab), I1, I2. auto.
Qed.

Definition kwrel h (kw : kwargs_t RN) (skw : list (nat * sval g lg)) : Prop :=
  Forall2 (fun p q => fst p = fst q /\ vrel h (snd p) (snd q)) kw skw.
Lemma kwmap_rel : forall h kw skw, kwrel h kw skw ->
  kw_map nominal_value kw = map (fun p => (fst p, snom (snd p))) skw /\
  existsb (fun p => is_uf (snd p)) kw = existsb (fun p => is_suf (snd p)) skw.
Proof.
  intros h kw skw F. induction F as [|a b l l' [Hab1 Hab] F [I1 I2]]; simpl; auto.
  unfold kw_map in *. simpl.
  rewrite (nominal_rel _ _ _ Hab), (isuf_rel _ _ _ Hab), I1, I2, Hab1. auto.
Qed.

(** Terms of a new linear combination. *)
Definition trel h (it : item RN) (t : R * sval g lg) : Prop :=
  match it with
  | IPair c l => pval c = fst t /\ exists u, uf_lp u = l /\
      match snd t with SUF n gr ds _ => urel h u n gr ds | _ => False end
  | _ => False
  end.
Definition trel1 h (it : item RN) (t : R * sval g lg) : Prop :=
  trel h it t /\ sdeps (snd t) <> [].
Definition resrel {A B} (Q : A -> B -> Prop) (a : res A) (b : res B) : Prop :=
  match a, b with Ok x, Ok y => Q x y | Err e, Err e' => e = e' | _, _ => False end.

Lemma spos_rel : forall h pos av kv args sargs, Forall2 (vrel h) args sargs ->
  forall i, resrel (Forall2 (trel1 h)) (pos_terms pos i args av kv) (spos pos i sargs av kv).
Proof.
  intros h pos av kv args sargs F. induction F as [|a b l l' Hab F IH]; intros i; simpl.
  - constructor.
  - destruct a as [a|u], b as [b|n gr ds var]; simpl in Hab; try tauto; simpl.
    + apply IH.
    + destruct (pos i av kv) as [c|e]; simpl; auto.
      specialize (IH (S i)).
      destruct (pos_terms pos (S i) l av kv), (spos pos (S i) l' av kv); simpl in *; auto; try tauto.
      constructor; auto. destruct Hab as (U & D & _). split; auto. split; auto. exists u. split; auto.
Qed.
Lemma skws_rel : forall h kwd av kv kw skw, kwrel h kw skw ->
  resrel (Forall2 (trel1 h)) (kw_terms kwd kw av kv) (skws kwd skw av kv).
Proof.
  intros h kwd av kv kw skw F. induction F as [|[k a] [k' b] l l' [Hk Hab] F IH]; simpl.
  - constructor.
  - simpl in Hk, Hab. subst k'.
    destruct a as [a|u], b as [b|n gr ds var]; simpl in Hab; simpl; try tauto.
    + destruct (kwd k av kv) as [c|e]; simpl; auto.
      destruct (kw_terms kwd l av kv), (skws kwd l' av kv); simpl in *; auto; try tauto.
      constructor; auto. destruct Hab as (U & D & _). split; auto. split; auto. exists u. split; auto.
Qed.

Lemma trel_item_ok : forall h it t, trel h it t -> item_ok anyc (length (h_lc h)) it.
Proof.
  intros h [c l|c|l] t; simpl; try tauto.
  intros (_ & u & <- & H). destruct (snd t); [tauto|].
  split; [exact I|]. apply H.
Qed.

Lemma sden_rev : forall h its v, sden h (rev its) v = sden h its v.
Proof.
  intros. induction its as [|a its IH]; simpl; auto. rewrite sden_app, IH.
  unfold sden; simpl. lra.
Qed.

Lemma alloc_terms : forall h its ts x, wf anyc h -> Forall2 (trel h) its ts ->
  hext h (mkHeap (h_lc h ++ [LList (rev its)]) (h_var h)) /\
  urel (mkHeap (h_lc h ++ [LList (rev its)]) (h_var h)) (mkUF (N:=RN) x (length (h_lc h)) None)
       x (lin_grad ts) (lin_deps ts).
Proof.
  intros h its ts x W F.
  assert (Hok : lc_ok anyc (length (h_var h)) (length (h_lc h)) (LList (rev its))).
  { simpl. intros it Hi. apply in_rev in Hi.
    clear - F Hi. induction F as [|a b l l' Hab F IH]; simpl in Hi; [tauto|].
    destruct Hi as [<-|Hi]; auto. eapply trel_item_ok; eauto. }
  assert (X : hext h (mkHeap (h_lc h ++ [LList (rev its)]) (h_var h))) by now apply hext_alloc.
  split; auto.
  assert (G : get_lc (mkHeap (h_lc h ++ [LList (rev its)]) (h_var h)) (length (h_lc h))
              = LList (rev its)) by apply get_alloc_new.
  assert (L : length (h_lc (mkHeap (h_lc h ++ [LList (rev its)]) (h_var h)))
              = S (length (h_lc h))) by (simpl; rewrite app_length; simpl; lia).
  assert (LV : length (h_var (mkHeap (h_lc h ++ [LList (rev its)]) (h_var h)))
              = length (h_var h)) by reflexivity.
  remember (mkHeap (h_lc h ++ [LList (rev its)]) (h_var h)) as h' eqn:Eh'. clear Eh'.
  split; simpl.
  - reflexivity.
  - lia.
  - intros v. rewrite (den_list _ _ (rev its)); auto.
    2:{ apply wf_below_of_wf; [apply X|]. lia. }
    rewrite sden_rev. unfold sden, lin_grad. f_equal.
    clear - F X. induction F as [|a b l l' Hab F IH]; simpl; auto. f_equal; auto.
    destruct a as [c l0|c|l0]; simpl in Hab; try tauto.
    destruct Hab as (Hc & u & <- & H). unfold iden. rewrite Hc.
    destruct (snd b) as [|n gr ds var]; simpl in H; [tauto|]. rename H into U.
    f_equal. rewrite (he_den _ _ X) by apply U. apply U.
  - intros v. split.
    + intros D. inversion D as [l d v' G' I'|l its' c l' v' G' I' D']; subst.
      * rewrite G in G'; discriminate.
      * rewrite G in G'. injection G'; intros; subst its'. apply in_rev in I'.
        clear - F X I' D'. induction F as [|a b l l0 Hab F IH]; simpl in I'; [tauto|].
        unfold lin_deps. simpl. apply in_app_iff. destruct I' as [->|I'].
        -- left. simpl in Hab. destruct Hab as (_ & u & <- & H).
           destruct (snd b) as [|n gr ds var]; simpl in H; [tauto|]. rename H into U.
           simpl. apply U. apply (he_dep _ _ X); auto. apply U.
        -- right. apply IH; auto.
    + intros I. unfold lin_deps in I. apply in_flat_map in I. destruct I as (t & It & Iv).
      assert (exists it, In it its /\ trel h it t) as (it & Ii & Hit).
      { clear - F It. induction F as [|a b l l' Hab F IH]; simpl in It; [tauto|].
        destruct It as [->|It]; [exists a; simpl; auto|].
        destruct (IH It) as (it & A & B). exists it; simpl; auto. }
      destruct it as [c l|c|l]; simpl in Hit; try tauto.
      destruct Hit as (_ & u & <- & H).
      destruct (snd t) as [|n gr ds var]; simpl in H; [tauto|]. rename H into U.
      eapply dep_list; [exact G| |].
      * apply -> in_rev. exact Ii.
      * apply (he_dep _ _ X); [apply U|]. apply U. exact Iv.
Qed.

Lemma lin_deps_nonempty : forall h its ts, Forall2 (trel1 h) its ts -> its <> [] ->
  lin_deps ts <> [].
Proof.
  intros h its ts F. destruct F as [|a b l l' [_ D] F]; [congruence|]. intros _.
  unfold lin_deps. simpl. destruct (sdeps (snd b)); simpl; congruence.
Qed.

Lemma pos_terms_nonempty : forall h pos av kv args sargs ts, Forall2 (vrel h) args sargs ->
  forall i, pos_terms pos i args av kv = Ok ts -> existsb is_uf args = true -> ts <> [].
Proof.
  intros h pos av kv args sargs ts F. revert ts.
  induction F as [|a b l l' Hab F IH]; intros ts i E X; simpl in *; [discriminate|].
  destruct a; simpl in X; eauto.
  destruct (pos i av kv); simpl in E; [|discriminate].
  destruct (pos_terms pos (S i) l av kv); simpl in E; [|discriminate].
  injection E; intros; subst. congruence.
Qed.
Lemma kw_terms_nonempty : forall kwd av kv (kw : kwargs_t RN) ts,
  kw_terms kwd kw av kv = Ok ts -> existsb (fun p => is_uf (snd p)) kw = true -> ts <> [].
Proof.
  induction kw as [|[k a] kw IH]; intros ts E X; simpl in *; [discriminate|].
  destruct a; simpl in X; eauto.
  destruct (kwd k av kv); simpl in E; [|discriminate].
  destruct (kw_terms kwd kw av kv); simpl in E; [|discriminate].
  injection E; intros; subst. congruence.
Qed.

Definition okrel h0 (p : res (value RN) * heap RN) (s : res (sval g lg)) : Prop :=
  hext h0 (snd p) /\ resrel (vrel (snd p)) (fst p) s.

Lemma wcall_rel : forall h f pos kwd args kw sargs skw, wf anyc h ->
  Forall2 (vrel h) args sargs -> kwrel h kw skw ->
  okrel h (wcall f pos kwd args kw h) (scall f pos kwd sargs skw).
Proof.
  intros h f pos kwd args kw sargs skw W FA FK.
  destruct (map_rel _ _ _ FA) as [EA XA]. destruct (kwmap_rel _ _ _ FK) as [EK XK].
  pose proof (spos_rel h pos (map snom sargs) (map (fun p => (fst p, snom (snd p))) skw)
                _ _ FA 0%nat) as RP.
  pose proof (skws_rel h kwd (map snom sargs) (map (fun p => (fst p, snom (snd p))) skw)
                _ _ FK) as RK.
  assert (HR : hext h h) by now apply hext_refl.
  unfold wcall, scall. rewrite EA, EK, XA, XK.
  destruct (existsb is_suf sargs || existsb (fun p => is_suf (snd p)) skw) eqn:XX; simpl.
  2:{ split; simpl; auto. destruct (f _ _); simpl; auto. }
  set (av := map snom sargs) in *.
  set (kv := map (fun p => (fst p, snom (snd p))) skw) in *.
  destruct (f av kv) as [r|e]; simpl; [|split; simpl; auto].
  assert (EP : resrel (Forall2 (trel1 h))
     (rbind (pos_terms pos 0 args av kv) (fun tp =>
        rbind (kw_terms kwd kw av kv) (fun tk => Ok (tp ++ tk))))
     (rbind (spos pos 0 sargs av kv) (fun tp =>
        rbind (skws kwd skw av kv) (fun tk => Ok (tp ++ tk))))).
  { destruct (pos_terms pos 0 args av kv), (spos pos 0 sargs av kv); simpl in *; try tauto.
    destruct (kw_terms kwd kw av kv), (skws kwd skw av kv); simpl in *; try tauto.
    now apply Forall2_app. }
  assert (NE : forall ts,
     rbind (pos_terms pos 0 args av kv) (fun tp =>
        rbind (kw_terms kwd kw av kv) (fun tk => Ok (tp ++ tk))) = Ok ts -> ts <> []).
  { intros ts Ets.
    destruct (pos_terms pos 0 args av kv) as [tp|] eqn:E1; simpl in Ets; [|discriminate].
    destruct (kw_terms kwd kw av kv) as [tk|] eqn:E2; simpl in Ets; [|discriminate].
    injection Ets; intros; subst. rewrite <- XA, <- XK in XX.
    apply orb_true_iff in XX. destruct XX as [XX|XX].
    - assert (tp <> []) by (eapply pos_terms_nonempty; eauto). destruct tp; simpl; congruence.
    - assert (tk <> []) by (eapply kw_terms_nonempty; eauto).
      destruct tp; simpl; congruence. }
  destruct r as [p| |k|]; simpl.
  - destruct (rbind (pos_terms pos 0 args av kv) _) as [its|e] eqn:E1.
    + destruct (spos pos 0 sargs av kv) as [tp|]; simpl in *; [|tauto].
      destruct (skws kwd skw av kv) as [tk|]; simpl in *; [|tauto].
      rewrite pn_float_R. simpl.
      assert (EP' : Forall2 (trel h) its (tp ++ tk)).
      { eapply Forall2_impl'; [|exact EP]. intros a b [H _]; exact H. }
      destruct (alloc_terms h its (tp ++ tk) (pval p) W EP') as [A U].
      split; simpl; auto. split; [exact U|]. split; [|split; [reflexivity|congruence]].
      eapply lin_deps_nonempty; eauto.
    + destruct (spos pos 0 sargs av kv) as [tp|]; simpl in *.
      * destruct (skws kwd skw av kv) as [tk|]; simpl in *; [tauto|].
        subst. split; simpl; auto.
      * subst. split; simpl; auto.
  - destruct (rbind (pos_terms pos 0 args av kv) _) as [its|e] eqn:E1.
    + destruct (spos pos 0 sargs av kv) as [tp|]; simpl in *; [|tauto].
      destruct (skws kwd skw av kv) as [tk|]; simpl in *; [|tauto].
      split; simpl; auto.
    + destruct (spos pos 0 sargs av kv) as [tp|]; simpl in *.
      * destruct (skws kwd skw av kv) as [tk|]; simpl in *; [tauto|].
        subst. split; simpl; auto.
      * subst. split; simpl; auto.
  - split; simpl; auto.
  - split; simpl; auto.
Qed.

Lemma py_binop_rel : forall h op a b sa sb, wf anyc h -> vrel h a sa -> vrel h b sb ->
  okrel h (py_binop op a b h) (sbin op sa sb).
Proof.
  intros h op a b sa sb W Ha Hb. unfold py_binop, sbin.
  rewrite <- (isuf_rel _ _ _ Ha), <- (isuf_rel _ _ _ Hb).
  assert (K : kwrel h [] []) by constructor.
  destruct a as [a|u]; [destruct b as [b|w]|]; simpl is_uf; cbv iota.
  - split; simpl; auto using hext_refl.
  - unfold bind, method_rop.
    assert (F : Forall2 (vrel h) [VUF w; VPlain a] [sb; sa]) by (repeat constructor; auto).
    destruct (wcall_rel h (float_rmethod op) (rop_pos op) no_kw _ _ _ _ W F K) as [A B].
    destruct (wcall _ _ _ _ _ h) as [r h']. simpl in A, B.
    destruct r as [r|e], (scall _ _ _ _ _) as [s|e']; simpl in B; try tauto;
      [|split; simpl; auto].
    destruct r as [r|r], s as [s|s]; simpl in B; try tauto; subst; simpl; auto.
    + destruct s; split; simpl; auto.
    + split; simpl; auto.
  - unfold bind, method_op.
    assert (F : Forall2 (vrel h) [VUF u; b] [sa; sb]) by (repeat constructor; auto).
    destruct (wcall_rel h (float_method op) (op_pos op) no_kw _ _ _ _ W F K) as [A B].
    destruct (wcall _ _ _ _ _ h) as [r h']. simpl in A, B.
    destruct r as [r|e], (scall _ _ _ _ _) as [s|e']; simpl in B; try tauto;
      [|split; simpl; auto].
    destruct r as [r|r], s as [s|s]; simpl in B; try tauto; subst; simpl; auto.
    + destruct s; split; simpl; auto.
    + split; simpl; auto.
Qed.

End Refine.
