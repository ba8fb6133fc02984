(** The calls of [Calls] keep the relation between states and specification states. *)
From Coq Require Import ZArith List Bool Reals Lra Lia Arith Sorted.
From Verif Require Import Base Heap Affine Ops UMath NumR HeapSpec HeapProofs DenProofs Machine Spec
  Refine RefineStep Cov Copy Calls History.
Import ListNotations.

(** ** Ranks *)
Lemma mem_In : forall x l, mem x l = true <-> In x l.
Proof.
  intros. unfold mem. rewrite existsb_exists. split.
  - intros (y & H & E). apply Nat.eqb_eq in E. now subst.
  - intros. exists x. rewrite Nat.eqb_refl. auto.
Qed.
Lemma listed_In : forall n s x, In x (listed n s) <-> (x < n)%nat /\ In x s.
Proof. intros. unfold listed. rewrite filter_In, in_seq, mem_In. intuition lia. Qed.
Lemma listed_sorted : forall n s, StronglySorted lt (listed n s).
Proof.
  intros. unfold listed. generalize 0%nat as a. induction n as [|n IH]; intros a; cbn.
  - constructor.
  - destruct (mem a s); [|apply IH]. constructor; [apply IH|].
    apply Forall_forall. intros y Hy. apply filter_In in Hy as [Hy _]. apply in_seq in Hy. lia.
Qed.
Lemma sorted_NoDup : forall l, StronglySorted lt l -> NoDup l.
Proof.
  induction l as [|x l IH]; intros S; constructor; inversion S as [|? ? S' F]; subst.
  - intros H. rewrite Forall_forall in F. specialize (F x H). lia.
  - auto.
Qed.
Lemma rank_nth : forall l x, In x l -> nth_error l (rank l x) = Some x.
Proof.
  induction l as [|y l IH]; intros x H; [contradiction|]. cbn.
  destruct (Nat.eqb x y) eqn:E; [apply Nat.eqb_eq in E; subst; reflexivity|].
  cbn. apply IH. destruct H as [->|]; auto. rewrite Nat.eqb_refl in E. discriminate.
Qed.
Lemma rank_lt : forall l x, In x l -> (rank l x < length l)%nat.
Proof. intros. apply nth_error_Some. rewrite rank_nth; auto. discriminate. Qed.
Lemma rank_inj : forall l x y, In x l -> In y l -> rank l x = rank l y -> x = y.
Proof.
  intros l x y Hx Hy E. apply rank_nth in Hx. apply rank_nth in Hy. rewrite E in Hx. congruence.
Qed.
Lemma rank_of_nth : forall l k x, NoDup l -> nth_error l k = Some x -> rank l x = k.
Proof.
  intros l k x ND H. assert (Hx : In x l) by (eapply nth_error_In; eauto).
  pose proof (rank_nth l x Hx) as Q. pose proof (rank_lt l x Hx).
  rewrite NoDup_nth_error in ND. apply ND; auto. congruence.
Qed.
Lemma rank_mono : forall l x y, StronglySorted lt l -> In x l -> In y l -> (x < y)%nat ->
  (rank l x < rank l y)%nat.
Proof.
  induction l as [|z l IH]; intros x y S Hx Hy Hxy; [contradiction|].
  inversion S as [|? ? S' F]; subst. rewrite Forall_forall in F. cbn.
  destruct (Nat.eqb x z) eqn:Ex, (Nat.eqb y z) eqn:Ey.
  - apply Nat.eqb_eq in Ex, Ey. lia.
  - lia.
  - apply Nat.eqb_eq in Ey. subst. destruct Hx as [->|Hx]; [lia|]. specialize (F x Hx). lia.
  - apply Nat.eqb_neq in Ex, Ey. destruct Hx as [->|Hx]; [lia|]. destruct Hy as [->|Hy]; [lia|].
    apply -> Nat.succ_lt_mono. auto.
Qed.
Lemma renamed_inj : forall b l x y, In x l -> In y l -> renamed b l x = renamed b l y -> x = y.
Proof. unfold renamed. intros. eapply rank_inj; eauto. lia. Qed.

Section CallProofs.
Context {g lg : R -> R}.
Notation RN := (ROps g lg).
Local Open Scope R_scope.
Implicit Types h : heap RN.

(** ** Growing the heap *)
Definition grown h (lcs : list (lc RN)) (objs : list (varobj RN)) : heap RN :=
  mkHeap (h_lc h ++ lcs) (h_var h ++ objs).

Lemma grown_old : forall h lcs objs l, (l < length (h_lc h))%nat ->
  get_lc (grown h lcs objs) l = get_lc h l.
Proof. intros. unfold get_lc, grown; cbn. now rewrite app_nth1. Qed.
Lemma grown_new : forall h lcs objs k x, nth_error lcs k = Some x ->
  get_lc (grown h lcs objs) (length (h_lc h) + k)%nat = x.
Proof.
  intros. unfold get_lc, grown; cbn. rewrite app_nth2 by lia.
  replace (length (h_lc h) + k - length (h_lc h))%nat with k by lia.
  now apply nth_error_nth.
Qed.
Lemma grown_var_old : forall h lcs objs v, (v < length (h_var h))%nat ->
  get_var (grown h lcs objs) v = get_var h v.
Proof. intros. unfold get_var, grown; cbn. now rewrite nth_error_app1. Qed.
Lemma grown_var_new : forall h lcs objs k,
  get_var (grown h lcs objs) (length (h_var h) + k)%nat = nth_error objs k.
Proof.
  intros. unfold get_var, grown; cbn. rewrite nth_error_app2 by lia. f_equal. lia.
Qed.

Record grow_ok h (lcs : list (lc RN)) (objs : list (varobj RN)) : Prop := {
  gr_lc : forall k x, nth_error lcs k = Some x ->
    lc_ok anyc (length (h_var h) + length objs)%nat (length (h_lc h) + k)%nat x;
  gr_var : forall k o, nth_error objs k = Some o ->
    (v_lp o < length (h_lc h) + length lcs)%nat /\
    get_lc (grown h lcs objs) (v_lp o) = LDict (N:=RN) [((length (h_var h) + k)%nat, 1)];
  gr_std : Forall (fun o : varobj RN => 0 <= v_std o) objs
}.

Lemma wf_grow : forall h lcs objs, wf anyc h -> grow_ok h lcs objs -> wf anyc (grown h lcs objs).
Proof.
  intros h lcs objs W [A B _]. split.
  - intros l Hl. cbn in Hl. rewrite app_length in Hl.
    cbn [h_var grown]. rewrite app_length.
    destruct (Nat.lt_ge_cases l (length (h_lc h))) as [L|L].
    + rewrite grown_old by auto. eapply lc_ok_mono; [|apply (wf_lc _ _ W); auto]. lia.
    + replace l with (length (h_lc h) + (l - length (h_lc h)))%nat by lia.
      destruct (nth_error lcs (l - length (h_lc h))) as [x|] eqn:E.
      * rewrite (grown_new h lcs objs _ x E). auto.
      * apply nth_error_None in E. lia.
  - intros v o Gv. destruct (Nat.lt_ge_cases v (length (h_var h))) as [L|L].
    + rewrite grown_var_old in Gv by auto. destruct (wf_var _ _ W v o Gv) as (P & Q).
      split; [cbn; rewrite app_length; lia|]. rewrite grown_old; auto.
    + replace v with (length (h_var h) + (v - length (h_var h)))%nat in Gv by lia.
      rewrite grown_var_new in Gv. destruct (B _ _ Gv) as (P & Q).
      split; [cbn; rewrite app_length; lia|]. rewrite Q.
      replace (length (h_var h) + (v - length (h_var h)))%nat with v by lia. reflexivity.
Qed.
Lemma den_grow : forall h lcs objs l v, wf anyc h -> (l < length (h_lc h))%nat ->
  den (grown h lcs objs) l v = den h l v.
Proof.
  intros h lcs objs l v W Hl. apply (den_agree h _ (length (h_lc h))); auto.
  - apply wf_below_of_wf; auto.
  - intros. apply grown_old. auto.
Qed.
Lemma dep_grow : forall h lcs objs l v, wf anyc h -> (l < length (h_lc h))%nat ->
  (dep (grown h lcs objs) l v <-> dep h l v).
Proof.
  intros h lcs objs l v W Hl. apply (dep_agree anyc h _ (length (h_lc h))); auto.
  - apply wf_below_of_wf; auto.
  - intros. apply grown_old. auto.
Qed.
Lemma vrel_grow : forall h lcs objs a sa, wf anyc h -> vrel h a sa ->
  vrel (grown h lcs objs) a sa.
Proof.
  intros h lcs objs a sa W H. destruct a as [a|u], sa as [a'|n gr ds var]; cbn in H |- *; auto.
  destruct H as ([U1 U2 U3 U4] & D & Ev & Hv). repeat split; auto.
  - cbn. rewrite app_length. lia.
  - intros v. rewrite den_grow; auto.
  - intros X. apply U4. rewrite <- dep_grow; eauto.
  - intros X. rewrite dep_grow; auto. now apply U4.
  - rewrite app_length. specialize (Hv v H). lia.
  - now apply Hv.
  - now apply Hv.
Qed.
Lemma sim_grow : forall h env vs senv lcs objs, sim (mkState h env) (mkS vs senv) ->
  grow_ok h lcs objs ->
  sim (mkState (grown h lcs objs) env) (mkS (vs ++ map v_std objs) senv).
Proof.
  intros h env vs senv lcs objs [W V E] G. cbn in *. split; cbn [st_heap ss_vars st_env ss_env].
  - now apply wf_grow.
  - unfold varsrel, grown in *. cbn. apply Forall2_app; auto.
    pose proof (gr_std _ _ _ G) as F. clear G. induction F; cbn; constructor; auto.
  - eapply Forall2_impl'; [|exact E]. intros. apply vrel_grow; auto.
Qed.
Lemma sim_add : forall h env vs senv a sa, sim (mkState h env) (mkS vs senv) -> vrel h a sa ->
  sim (mkState h (env ++ [a])) (mkS vs (senv ++ [sa])).
Proof.
  intros h env vs senv a sa [W V E] H. split; cbn in *; auto. apply Forall2_app; auto.
Qed.
Lemma sim_adds : forall h env vs senv l sl, sim (mkState h env) (mkS vs senv) ->
  Forall2 (vrel h) l sl -> sim (mkState h (env ++ l)) (mkS vs (senv ++ sl)).
Proof.
  intros h env vs senv l sl [W V E] H. split; cbn in *; auto. apply Forall2_app; auto.
Qed.

(** ** Copies of a closed set of objects *)
Section CopySet.
Variables (h : heap RN) (ls vs : list nat) (more : list (lc RN))
  (objs : list (varobj RN)).
Let nl := length (h_lc h).
Let nv := length (h_var h).
Let fl := renamed nl ls.
Let fv := renamed nv vs.
Let copies := map (fun l : nat => copy_lc fl fv (get_lc h l)) ls.
Let h' := grown h (copies ++ more) objs.
Hypothesis W : wf anyc h.
Hypothesis Sls : StronglySorted lt ls.
Hypothesis Bls : forall l, In l ls -> (l < nl)%nat.
Hypothesis Bvs : forall v, In v vs -> (v < nv)%nat.
Hypothesis Lobjs : length objs = length vs.
Hypothesis Cls : forall l its c l', In l ls -> get_lc h l = LList its -> In (IPair c l') its -> In l' ls.
Hypothesis Cvs : forall l d v, In l ls -> get_lc h l = LDict d -> In v (dkeys d) -> In v vs.

Lemma copies_length : length copies = length ls.
Proof. unfold copies. apply map_length. Qed.
Lemma fl_lt : forall l, In l ls -> (fl l < nl + length copies)%nat.
Proof.
  intros l H. pose proof (rank_lt ls l H). pose proof copies_length as E. unfold fl, renamed.
  rewrite E. lia.
Qed.
Lemma fv_lt : forall v, In v vs -> (fv v < nv + length objs)%nat.
Proof. intros v H. unfold fv, renamed. pose proof (rank_lt vs v H). lia. Qed.
Lemma fv_new : forall v, (nv <= fv v)%nat.
Proof. intros. unfold fv, renamed. lia. Qed.
Lemma copy_nth : forall l, In l ls ->
  nth_error (copies ++ more) (rank ls l) = Some (copy_lc fl fv (get_lc h l)).
Proof.
  intros l H. rewrite nth_error_app1 by (rewrite copies_length; now apply rank_lt).
  unfold copies. rewrite nth_error_map, rank_nth by auto. reflexivity.
Qed.
Lemma copy_get : forall l, In l ls -> get_lc h' (fl l) = copy_lc fl fv (get_lc h l).
Proof. intros l H. unfold h', fl, renamed. apply grown_new. now apply copy_nth. Qed.

Lemma map_NoDup_inj : forall (f : nat -> nat) l, NoDup l ->
  (forall x y, In x l -> In y l -> f x = f y -> x = y) -> NoDup (map f l).
Proof.
  induction l as [|x l IH]; intros ND I; cbn; constructor; inversion ND; subst.
  - intros H. apply in_map_iff in H as (y & E & Hy). apply I in E; cbn; auto. subst. contradiction.
  - apply IH; auto. intros; apply I; cbn; auto.
Qed.
Lemma dkeys_copy : forall (d : dict RN), dkeys (map (fun p => (fv (fst p), snd p)) d) = map fv (dkeys d).
Proof. intros. unfold dkeys. rewrite !map_map. reflexivity. Qed.

Lemma copy_ok : forall k x, nth_error copies k = Some x -> lc_ok anyc (nv + length objs)%nat (nl + k)%nat x.
Proof.
  intros k x H. unfold copies in H. rewrite nth_error_map in H.
  destruct (nth_error ls k) as [l|] eqn:E; [|discriminate]. injection H; intros <-.
  assert (Hl : In l ls) by (eapply nth_error_In; eauto).
  assert (Rk : rank ls l = k) by (apply rank_of_nth; auto using sorted_NoDup).
  pose proof (wf_lc _ _ W l (Bls l Hl)) as X. destruct (get_lc h l) as [d|its] eqn:G; cbn in X |- *.
  - destruct X as (ND & B). rewrite dkeys_copy. split.
    + apply map_NoDup_inj; auto. intros x y Hx Hy. apply renamed_inj; eapply Cvs; eauto.
    + intros v Hv. apply in_map_iff in Hv as (w & <- & Hw). apply fv_lt. eapply Cvs; eauto.
  - intros it Hit. apply in_map_iff in Hit as (it0 & <- & Hi0). specialize (X _ Hi0).
    destruct it0 as [c l'| |]; cbn in X |- *; auto. split; [exact I|].
    unfold fl, renamed. rewrite <- Rk. apply Nat.add_lt_mono_l. apply rank_mono; auto; [|tauto].
    eapply Cls; eauto.
Qed.

Hypothesis W' : wf anyc h'.

Lemma fl_len : forall l, In l ls -> (fl l < length (h_lc h'))%nat.
Proof.
  intros l H. unfold h', grown. cbn. rewrite !app_length. pose proof (fl_lt l H). fold nl. lia.
Qed.

Lemma copy_dep : forall l, In l ls -> forall w, dep h' (fl l) w <-> exists v, dep h l v /\ w = fv v.
Proof.
  intros l. induction l as [l IH] using lt_wf_ind. intros Hl w.
  pose proof (copy_get l Hl) as G. pose proof (wf_lc _ _ W l (Bls l Hl)) as X.
  destruct (get_lc h l) as [d|its] eqn:E; cbn [copy_lc] in G.
  - split.
    + intros D. inversion D as [? ? ? G' I|? ? ? ? ? G' I D']; subst; rewrite G in G'; [|discriminate].
      injection G'; intros <-. rewrite dkeys_copy in I. apply in_map_iff in I as (v & <- & Hv).
      exists v. split; auto. eapply dep_dict; eauto.
    + intros (v & D & ->). inversion D as [? ? ? G' I|? ? ? ? ? G' I D']; subst; rewrite E in G'; [|discriminate].
      injection G'; intros <-. eapply dep_dict; eauto. rewrite dkeys_copy. now apply in_map.
  - split.
    + intros D. inversion D as [? ? ? G' I|? ? c l1 ? G' I D']; subst; rewrite G in G'; [discriminate|].
      injection G'; intros <-. apply in_map_iff in I as (it & Ei & Hi).
      destruct it as [c0 l0| |]; try discriminate. cbn in Ei. injection Ei; intros <- <-.
      specialize (X _ Hi). cbn in X.
      apply IH in D'; [|tauto|eapply Cls; eauto]. destruct D' as (v & D' & ->).
      exists v. split; auto. eapply dep_list; eauto.
    + intros (v & D & ->). inversion D as [? ? ? G' I|? ? c l1 ? G' I D']; subst; rewrite E in G'; [discriminate|].
      injection G'; intros <-. specialize (X _ I). cbn in X.
      eapply dep_list; [exact G| |].
      * apply in_map_iff. exists (IPair c l1). split; [reflexivity|auto].
      * apply IH; [tauto|eapply Cls; eauto|eauto].
Qed.
Lemma copy_den : forall l, In l ls -> forall v, In v vs -> den h' (fl l) (fv v) = den h l v.
Proof.
  intros l. induction l as [l IH] using lt_wf_ind. intros Hl v Hv.
  pose proof (copy_get l Hl) as G. pose proof (wf_lc _ _ W l (Bls l Hl)) as X.
  destruct (get_lc h l) as [d|its] eqn:E; cbn [copy_lc] in G.
  - rewrite (den_dict _ _ _ _ G), (den_dict _ _ _ _ E). unfold dval.
    assert (K : forall u, In u (dkeys d) -> In u vs) by (intros; eapply Cvs; eauto).
    clear - K Hv. induction d as [|[u c] d IH]; cbn; [reflexivity|].
    destruct (Nat.eqb v u) eqn:E.
    + apply Nat.eqb_eq in E. subst. rewrite Nat.eqb_refl. reflexivity.
    + destruct (Nat.eqb (fv v) (fv u)) eqn:E'.
      * apply Nat.eqb_eq in E'. apply renamed_inj in E'; auto; [|apply K; cbn; auto].
        apply Nat.eqb_neq in E. contradiction.
      * apply IH. intros w Hw. apply K. cbn. auto.
  - pose proof (wf_lc _ _ W' (fl l) (fl_len l Hl)) as X'. rewrite G in X'.
    rewrite (den_list h' (fl l) _ (fv v) X'); auto.
    2:{ eapply wf_below_of_wf; eauto. pose proof (fl_len l Hl). lia. }
    rewrite (den_list h l its v X); auto.
    2:{ eapply wf_below_of_wf; eauto. pose proof (Bls l Hl). fold nl. lia. }
    unfold sden. rewrite map_map. f_equal. apply map_ext_in. intros it Hi.
    specialize (X _ Hi). destruct it as [c l'| |]; cbn in X |- *; auto. f_equal.
    apply IH; [tauto|eapply Cls; eauto|auto].
Qed.
Lemma copy_den_other : forall l, In l ls -> forall w, (forall v, In v vs -> w <> fv v) -> den h' (fl l) w = 0.
Proof.
  intros l Hl w Hw. apply den_not_dep; auto; [apply fl_len; auto|].
  intros D. apply copy_dep in D as (v & D & ->); auto. apply (Hw v); auto.
  clear Hw. revert Hl. induction D as [l d v G I|l its c l1 v G I D IH]; intros Hl.
  - eapply Cvs; eauto.
  - apply IH. eapply Cls; eauto.
Qed.
Lemma dep_in_vs : forall l v, In l ls -> dep h l v -> In v vs.
Proof.
  intros l v Hl D. revert Hl. induction D as [l d v G I|l its c l1 v G I D IH]; intros Hl.
  - eapply Cvs; eauto.
  - apply IH. eapply Cls; eauto.
Qed.

(** The copy of a number, as seen by the specification. *)
Lemma copy_vrel : forall u n gr ds var, In (uf_lp u) ls ->
  vrel h (VUF u) (SUF (g:=g) (lg:=lg) n gr ds var) ->
  forall var', (var' = None \/ var' = option_map fv var) ->
  vrel h' (VUF (mkUF (N:=RN) (uf_nom u) (fl (uf_lp u)) var'))
    (SUF (g:=g) (lg:=lg) n (fun w => den h' (fl (uf_lp u)) w) (map fv ds) var').
Proof.
  intros u n gr ds var Hl ([U1 U2 U3 U4] & D & Ev & Hv) var' V'. cbn.
  split; [split; cbn; auto|].
  - apply fl_len; auto.
  - intros w. rewrite copy_dep by auto. rewrite in_map_iff. split.
    + intros (v & Dv & ->). exists v. split; auto. now apply U4.
    + intros (v & <- & Iv). exists v. split; auto. now apply U4.
  - split; [destruct ds; cbn; congruence|]. split; [reflexivity|].
    intros w Ew. subst var'. destruct V' as [V'|V']; [discriminate|].
    destruct var as [v|]; [|discriminate]. cbn [option_map] in V'.
    assert (w = fv v) by congruence. subst w. clear V'.
    destruct (Hv v eq_refl) as (A & B & C). subst ds.
    assert (Iv : In v vs).
    { eapply dep_in_vs; [exact Hl|]. apply U4. cbn; auto. }
    split; [unfold h', grown; cbn; rewrite app_length; fold nv; pose proof (fv_lt v Iv); lia|].
    split; [reflexivity|]. intros w0. unfold delta.
    destruct (Nat.eqb w0 (fv v)) eqn:E.
    + apply Nat.eqb_eq in E. subst w0. rewrite copy_den by auto. rewrite U3, C. unfold delta.
      now rewrite Nat.eqb_refl.
    + apply Nat.eqb_neq in E.
      apply den_not_dep; auto; [apply fl_len; auto|]. rewrite copy_dep by auto.
      intros (v0 & D0 & ->). apply U4 in D0. cbn in D0. destruct D0 as [->|[]]. congruence.
Qed.
End CopySet.

(** ** What is reached from a number *)
Lemma reach_self : forall h n l, In l (reach_lcs h n l).
Proof. intros h n l. destruct n; cbn; auto. Qed.
Lemma reach_le : forall h, wf anyc h -> forall n l x, (l < length (h_lc h))%nat ->
  In x (reach_lcs h n l) -> (x <= l)%nat.
Proof.
  intros h W n. induction n as [|n IH]; intros l x Hl Hx; cbn in Hx; destruct Hx as [->|Hx]; auto.
  - contradiction.
  - pose proof (wf_lc _ _ W l Hl) as X. destruct (get_lc h l) as [d|its]; [contradiction|].
    cbn in X. apply in_flat_map in Hx as (it & Hi & Hx). specialize (X it Hi).
    destruct it as [c l'| |]; cbn in X; try contradiction.
    apply IH in Hx; [|lia]. lia.
Qed.
Lemma reach_closed : forall h, wf anyc h -> forall n l x its c l', (l < length (h_lc h))%nat ->
  (l <= n)%nat -> In x (reach_lcs h n l) -> get_lc h x = LList its -> In (IPair c l') its ->
  In l' (reach_lcs h n l).
Proof.
  intros h W n. induction n as [|n IH]; intros l x its c l' Hl Hn Hx G Hi.
  - assert (l = 0%nat) by lia. subst. cbn in Hx. destruct Hx as [<-|[]].
    pose proof (wf_lc _ _ W 0%nat Hl) as X. rewrite G in X. specialize (X _ Hi). cbn in X. lia.
  - cbn in Hx |- *. destruct Hx as [<-|Hx].
    + rewrite G. right. apply in_flat_map. exists (IPair c l'). split; auto. apply reach_self.
    + pose proof (wf_lc _ _ W l Hl) as X. destruct (get_lc h l) as [d|its0]; [contradiction|].
      cbn in X. apply in_flat_map in Hx as (it & Hit & Hx). pose proof (X it Hit) as Y.
      destruct it as [c1 l1| |]; cbn in Y; try contradiction.
      right. apply in_flat_map. exists (IPair c1 l1). split; auto. eapply IH; eauto; lia.
Qed.
Lemma keys_of_In : forall h ls v, In v (keys_of h ls) <->
  exists l d, In l ls /\ get_lc h l = LDict d /\ In v (dkeys d).
Proof.
  intros h ls v. unfold keys_of. rewrite in_flat_map. split.
  - intros (l & Hl & Hv). exists l. destruct (get_lc h l) as [d|]; [|contradiction]. eauto.
  - intros (l & d & Hl & G & Hv). exists l. rewrite G. auto.
Qed.
Lemma keys_bound : forall h l d v, wf anyc h -> (l < length (h_lc h))%nat -> get_lc h l = LDict d ->
  In v (dkeys d) -> (v < length (h_var h))%nat.
Proof. intros h l d v W Hl G Hv. pose proof (wf_lc _ _ W l Hl) as X. rewrite G in X. now apply X. Qed.

Lemma var_objects_spec : forall h vs, (forall v, In v vs -> (v < length (h_var h))%nat) ->
  length (var_objects h vs) = length vs /\
  forall k, nth_error (var_objects h vs) k =
    match nth_error vs k with Some v => get_var h v | None => None end.
Proof.
  intros h vs. induction vs as [|v vs IH]; intros B.
  - split; [reflexivity|]. intros [|k]; reflexivity.
  - destruct IH as [L E]; [intros; apply B; cbn; auto|].
    change (var_objects h (v :: vs)) with
      ((match get_var h v with Some o => [o] | None => [] end) ++ var_objects h vs).
    destruct (get_var h v) as [o|] eqn:G.
    + cbn [app length nth_error]. split; [now rewrite L|]. intros [|k]; cbn [nth_error]; auto.
    + unfold get_var in G. apply nth_error_None in G. specialize (B v (or_introl eq_refl)). lia.
Qed.

(** The variables [fv v] of [h'] are new ones, with the attributes of the variables [v]. *)
Definition var_copies h h' (fv : varid -> varid) (vs : list nat) : Prop :=
  (forall v w, In v vs -> In w vs -> fv v = fv w -> v = w) /\
  forall v, In v vs -> (length (h_var h) <= fv v)%nat /\
    exists o o', get_var h v = Some o /\ get_var h' (fv v) = Some o' /\
      v_nom o' = v_nom o /\ v_std o' = v_std o /\ v_tag o' = v_tag o.
(** [a'] is, in [h'], a copy of [a], with the variables renamed. *)
Definition scopied (fv : varid -> varid) (vs : list nat) (a a' : sval g lg) : Prop :=
  match a, a' with
  | SPlain p, SPlain q => p = q
  | SUF n gr ds var, SUF n' gr' ds' var' =>
      n' = n /\ ds' = map fv ds /\ (forall v, In v ds -> In v vs /\ gr' (fv v) = gr v) /\
      var' = option_map fv var
  | _, _ => False
  end.

Lemma combine_seq_nth : forall A (l : list A) b k,
  nth_error (combine (seq b (length l)) l) k =
  match nth_error l k with Some x => Some ((b + k)%nat, x) | None => None end.
Proof.
  intros A l. induction l as [|x l IH]; intros b [|k]; cbn; auto.
  - now rewrite Nat.add_0_r.
  - rewrite IH. destruct (nth_error l k); auto. now rewrite Nat.add_succ_r.
Qed.

Lemma deepcopy_rel : forall h env vs senv u n gr ds, sim (mkState h env) (mkS vs senv) ->
  vrel h (VUF u) (SUF n gr ds None) ->
  exists u' h' objs sa' fv us, py_deepcopy (VUF u) h = (Ok (VUF u'), h') /\
    h_var h' = h_var h ++ objs /\
    sim (mkState h' (env ++ [VUF u'])) (mkS (vs ++ map v_std objs) (senv ++ [sa'])) /\
    var_copies h h' fv us /\ scopied fv us (SUF n gr ds None) sa'.
Proof.
  intros h env vs senv u n gr ds S Rl. pose proof S as [W V E]. cbn in W, V, E.
  pose proof Rl as (U & _ & Ev & _). cbn in Ev.
  cbn [py_deepcopy]. rewrite Ev. cbv zeta.
  set (nl := length (h_lc h)). set (nv := length (h_var h)).
  set (ls := listed nl (reach_lcs h (uf_lp u) (uf_lp u))).
  set (us := listed nv (keys_of h ls)).
  set (fl := renamed nl ls). set (fv := renamed nv us).
  set (copies := map (fun l : nat => copy_lc fl fv (get_lc h l)) ls).
  set (os := var_objects h us).
  set (base := (nl + length copies)%nat).
  set (news := map (fun k : nat => LDict (N:=RN) [((nv + k)%nat, n_one RN)]) (seq 0 (length os))).
  set (objs := map (fun p => mkVar (v_nom (snd p)) (base + fst p)%nat (v_std (snd p)) (v_tag (snd p)))
                   (combine (seq 0 (length os)) os)).
  pose proof (ur_lp _ _ _ _ _ U) as Ul.
  assert (Sls : StronglySorted lt ls) by apply listed_sorted.
  assert (Bls : forall l, In l ls -> (l < nl)%nat) by (intros l H; apply listed_In in H; tauto).
  assert (Bus : forall v, In v us -> (v < nv)%nat) by (intros v H; apply listed_In in H; tauto).
  destruct (var_objects_spec h us Bus) as [Los Eos]. fold os in Los, Eos.
  assert (Lobjs : length objs = length us).
  { unfold objs. rewrite map_length, combine_length, seq_length. lia. }
  assert (Cls : forall l its c l', In l ls -> get_lc h l = LList its -> In (IPair c l') its -> In l' ls).
  { intros l its c l' Hl G Hi. apply listed_In in Hl as [Hl0 Hl]. apply listed_In. split.
    - pose proof (wf_lc _ _ W l Hl0) as X. rewrite G in X. specialize (X _ Hi). cbn in X. fold nl. lia.
    - eapply reach_closed; eauto. }
  assert (Cvs : forall l d v, In l ls -> get_lc h l = LDict d -> In v (dkeys d) -> In v us).
  { intros l d v Hl G Hv. apply listed_In. split; [exact (keys_bound h l d v W (Bls l Hl) G Hv)|].
    apply keys_of_In. eauto. }
  assert (Hu : In (uf_lp u) ls) by (apply listed_In; split; auto; apply reach_self).
  assert (Eobj : forall k o', nth_error objs k = Some o' -> exists o, nth_error os k = Some o /\
     o' = mkVar (N:=RN) (v_nom o) (base + k)%nat (v_std o) (v_tag o)).
  { intros k o' H. unfold objs in H. rewrite nth_error_map, combine_seq_nth in H.
    destruct (nth_error os k) as [o|]; [|discriminate]. cbn in H. exists o. split; congruence. }
  assert (Lc : length copies = length ls) by (unfold copies; apply map_length).
  assert (Lnews : length news = length us).
  { unfold news. rewrite map_length, seq_length. exact Los. }
  assert (Enews : forall k x, nth_error news k = Some x -> x = LDict (N:=RN) [((nv + k)%nat, 1)] /\ (k < length us)%nat).
  { intros k x H. assert (L : (k < length news)%nat) by (apply nth_error_Some; congruence).
    split; [|lia]. unfold news in H. rewrite nth_error_map in H.
    rewrite (nth_error_nth' _ 0%nat) in H by (rewrite seq_length; lia).
    rewrite seq_nth in H by lia. cbn in H. injection H; intros <-. reflexivity. }
  assert (G : grow_ok h (copies ++ news) objs).
  { split.
    - intros k x H. destruct (Nat.lt_ge_cases k (length copies)) as [L|L].
      + rewrite nth_error_app1 in H by auto.
        apply (copy_ok h ls us objs W Sls Bls Lobjs Cls Cvs k x H).
      + rewrite nth_error_app2 in H by auto. apply Enews in H as [-> L'].
        cbn. split; [constructor; [cbn; tauto|constructor]|]. intros v [<-|[]]. fold nv. lia.
    - intros k o' H. assert (Lk : (k < length objs)%nat) by (apply nth_error_Some; congruence).
      destruct (Eobj _ _ H) as (o & Ho & ->). cbn [v_lp]. split.
      + rewrite app_length. unfold base. fold nl. lia.
      + replace (base + k)%nat with (length (h_lc h) + (length copies + k))%nat by (unfold base; fold nl; lia).
        apply grown_new. rewrite nth_error_app2 by lia.
        replace (length copies + k - length copies)%nat with k by lia.
        destruct (nth_error news k) as [x|] eqn:Ex; [|apply nth_error_None in Ex; lia].
        apply Enews in Ex as [-> _]. reflexivity.
    - apply Forall_forall. intros o' H. apply In_nth_error in H as [k H].
      destruct (Eobj _ _ H) as (o & Ho & ->). cbn [v_std]. rewrite Eos in Ho.
      destruct (nth_error us k) as [v|] eqn:Ek; [|discriminate].
      destruct (varsrel_get h vs v V) as (o1 & G1 & G2 & G3).
      { apply Bus. eapply nth_error_In; eauto. }
      rewrite G1 in Ho. injection Ho; intros <-. rewrite G2. exact G3. }
  pose proof (sim_grow h env vs senv (copies ++ news) objs S G) as S'.
  pose proof (si_wf _ _ S') as W'. cbn [st_heap] in W'.
  pose proof (copy_vrel h ls us news objs W Bls Lobjs Cls Cvs W' u n gr ds None Hu Rl None (or_introl eq_refl)) as Rl'.
  do 6 eexists. split; [reflexivity|]. split; [reflexivity|].
  split; [eapply sim_add; [exact S'|exact Rl']|]. split.
  - instantiate (1 := us). instantiate (1 := fv). split.
    + intros v w. apply renamed_inj.
    + intros v Hv. split; [unfold fv, renamed; fold nv; lia|].
      assert (Lr := rank_lt us v Hv).
      destruct (nth_error objs (rank us v)) as [o'|] eqn:Eo; [|apply nth_error_None in Eo; lia].
      destruct (Eobj _ _ Eo) as (o & Ho & ->). rewrite Eos, rank_nth in Ho by auto.
      exists o, (mkVar (N:=RN) (v_nom o) (base + rank us v)%nat (v_std o) (v_tag o)). split; [exact Ho|]. split; [|repeat split].
      unfold fv, renamed. change (get_var (grown h (copies ++ news) objs) (nv + rank us v)%nat = Some (mkVar (N:=RN) (v_nom o) (base + rank us v)%nat (v_std o) (v_tag o))).
      unfold nv. rewrite grown_var_new. exact Eo.
  - cbn [scopied]. split; [reflexivity|]. split; [reflexivity|]. split; [|reflexivity].
    intros v Hv. assert (Hd : In v us).
    { apply (dep_in_vs h ls us Cls Cvs (uf_lp u) v Hu). now apply (ur_dep _ _ _ _ _ U). }
    split; auto. rewrite <- (ur_den _ _ _ _ _ U).
    apply (copy_den h ls us news objs W Bls Lobjs Cls Cvs W' (uf_lp u) Hu v Hd).
Qed.

Lemma pickle_rel : forall h env vs senv l sl, sim (mkState h env) (mkS vs senv) ->
  Forall2 (vrel h) l sl ->
  exists l' h' objs sl' fv us, py_pickle l h = (Ok l', h') /\
    h_var h' = h_var h ++ objs /\
    sim (mkState h' (env ++ l')) (mkS (vs ++ map v_std objs) (senv ++ sl')) /\
    var_copies h h' fv us /\ Forall2 (scopied fv us) sl sl'.
Proof.
  intros h env vs senv l sl S Rl. pose proof S as [W V E]. cbn in W, V, E.
  unfold py_pickle.
  set (nl := length (h_lc h)). set (nv := length (h_var h)).
  set (ls0 := flat_map (fun r => reach_lcs h r r) (flat_map lp_of l)).
  set (us := listed nv (flat_map var_of l ++ keys_of h ls0)).
  set (os := var_objects h us).
  set (ls := listed nl (ls0 ++ map v_lp os)).
  set (fl := renamed nl ls). set (fv := renamed nv us).
  set (copies := map (fun l : nat => copy_lc fl fv (get_lc h l)) ls).
  set (objs := map (fun o => mkVar (v_nom o) (fl (v_lp o)) (v_std o) (v_tag o)) os).
  assert (Sls : StronglySorted lt ls) by apply listed_sorted.
  assert (Bls : forall l, In l ls -> (l < nl)%nat) by (intros x H; apply listed_In in H; tauto).
  assert (Bus : forall v, In v us -> (v < nv)%nat) by (intros v H; apply listed_In in H; tauto).
  destruct (var_objects_spec h us Bus) as [Los Eos]. fold os in Los, Eos.
  assert (Lobjs : length objs = length us) by (unfold objs; rewrite map_length; exact Los).
  assert (Dl : forall u, In (VUF u) l -> (uf_lp u < nl)%nat).
  { clear - Rl. intros u Hu. induction Rl as [|a sa l sl Ha Rl IH]; [contradiction|].
    destruct Hu as [->|Hu]; auto. destruct sa; [contradiction|]. destruct Ha as (U & _). apply U. }
  assert (Hos : forall o, In o os -> exists v, In v us /\ get_var h v = Some o).
  { intros o Ho. apply In_nth_error in Ho as [k Ho]. rewrite Eos in Ho.
    destruct (nth_error us k) as [v|] eqn:Ek; [|discriminate]. exists v. split; auto.
    eapply nth_error_In; eauto. }
  assert (Cls : forall l its c l', In l ls -> get_lc h l = LList its -> In (IPair c l') its -> In l' ls).
  { intros x its c l' Hl G Hi. apply listed_In in Hl as [Hl0 Hl]. apply listed_In. split.
    - pose proof (wf_lc _ _ W x Hl0) as X. rewrite G in X. specialize (X _ Hi). cbn in X. fold nl. lia.
    - apply in_app_iff in Hl as [Hl|Hl].
      + apply in_app_iff. left. unfold ls0 in *. apply in_flat_map in Hl as (r & Hr & Hl).
        apply in_flat_map. exists r. split; auto. eapply reach_closed; eauto.
        apply in_flat_map in Hr as ([p|u] & Hu & Hr); [contradiction|]. destruct Hr as [<-|[]]. now apply Dl.
      + apply in_map_iff in Hl as (o & <- & Ho). destruct (Hos o Ho) as (v & _ & Gv).
        destruct (wf_var _ _ W v o Gv) as [_ G']. rewrite G' in G. discriminate. }
  assert (Cvs : forall l d v, In l ls -> get_lc h l = LDict d -> In v (dkeys d) -> In v us).
  { intros x d v Hl G Hv. pose proof Hl as Hl1. apply listed_In in Hl1 as [Hl0 Hl1].
    apply in_app_iff in Hl1 as [Hl1|Hl1].
    - apply listed_In. split; [exact (keys_bound h x d v W Hl0 G Hv)|].
      apply in_app_iff. right. apply keys_of_In. eauto.
    - apply in_map_iff in Hl1 as (o & <- & Ho). destruct (Hos o Ho) as (v1 & Hv1 & Gv).
      destruct (wf_var _ _ W v1 o Gv) as [_ G']. rewrite G' in G. injection G; intros <-.
      cbn in Hv. destruct Hv as [<-|[]]. exact Hv1. }
  assert (Hu : forall u, In (VUF u) l -> In (uf_lp u) ls).
  { intros u Hu. apply listed_In. split; [now apply Dl|]. apply in_app_iff. left.
    apply in_flat_map. exists (uf_lp u). split; [|apply reach_self].
    apply in_flat_map. exists (VUF u). split; [exact Hu|]. cbn. auto. }
  assert (Eobj : forall k o', nth_error objs k = Some o' -> exists v o, nth_error us k = Some v /\
     get_var h v = Some o /\ o' = mkVar (N:=RN) (v_nom o) (fl (v_lp o)) (v_std o) (v_tag o)).
  { intros k o' H. unfold objs in H. rewrite nth_error_map, Eos in H.
    destruct (nth_error us k) as [v|]; [|discriminate].
    destruct (get_var h v) as [o|] eqn:Gv; [|discriminate]. exists v, o.
    split; auto. split; auto. cbn in H. congruence. }
  assert (Lc : length copies = length ls) by (unfold copies; apply map_length).
  assert (G : grow_ok h (copies ++ []) objs).
  { split.
    - intros k x H. rewrite app_nil_r in H.
      apply (copy_ok h ls us objs W Sls Bls Lobjs Cls Cvs k x H).
    - intros k o' H. destruct (Eobj _ _ H) as (v & o & Ev & Go & ->). cbn [v_lp].
      destruct (wf_var _ _ W v o Go) as [Lo Eo].
      assert (Io : In (v_lp o) ls).
      { apply listed_In. split; auto. apply in_app_iff. right. apply in_map.
        apply (nth_error_In os k). now rewrite Eos, Ev. }
      split.
      + rewrite app_nil_r. unfold fl, renamed. pose proof (rank_lt ls _ Io). fold nl. lia.
      + pose proof (copy_get h ls us [] objs (v_lp o) Io) as Q.
        rewrite Eo in Q. cbn [copy_lc map fst snd] in Q.
        assert (Ek : renamed (length (h_var h)) us v = (length (h_var h) + k)%nat).
        { unfold renamed. f_equal. apply rank_of_nth; auto. apply sorted_NoDup, listed_sorted. }
        rewrite Ek in Q. exact Q.
    - apply Forall_forall. intros o' H. apply In_nth_error in H as [k H].
      destruct (Eobj _ _ H) as (v & o & Ek & Ho & ->). cbn [v_std].
      destruct (varsrel_get h vs v V) as (o1 & G1 & G2 & G3).
      { apply Bus. eapply nth_error_In; eauto. }
      rewrite G1 in Ho. injection Ho; intros <-. rewrite G2. exact G3. }
  pose proof (sim_grow h env vs senv (copies ++ []) objs S G) as S'.
  pose proof (si_wf _ _ S') as W'. cbn [st_heap] in W'.
  assert (Q : forall l1 sl1, Forall2 (vrel h) l1 sl1 -> (forall u, In (VUF u) l1 -> In (uf_lp u) ls) ->
    exists sl', Forall2 (vrel (grown h (copies ++ []) objs))
      (map (fun a => match a with
                     | VPlain p => VPlain p
                     | VUF u => VUF (mkUF (N:=RN) (uf_nom u) (fl (uf_lp u)) (option_map fv (uf_var u)))
                     end) l1) sl' /\ Forall2 (scopied fv us) sl1 sl').
  { clear - W Bls Lobjs Cls Cvs W'. intros l1 sl1 R1.
    induction R1 as [|a sa l1 sl1 Ha R1 IH]; intros Hu'.
    - exists []. split; constructor.
    - destruct IH as (sl' & A & B); [intros; apply Hu'; cbn; auto|].
      destruct a as [p|u], sa as [q|n gr ds var]; try contradiction.
      + exists (SPlain q :: sl'). split; constructor; auto. reflexivity.
      + assert (Hl : In (uf_lp u) ls) by (apply Hu'; cbn; auto).
        pose proof (copy_vrel h ls us [] objs W Bls Lobjs Cls Cvs W' u n gr ds var Hl Ha _ (or_intror eq_refl)) as R2.
        pose proof Ha as (U & _ & Ev & _). rewrite <- Ev in R2.
        eexists (_ :: sl'). split; constructor; [exact R2|exact A| |exact B].
        cbn [scopied]. split; [reflexivity|]. split; [reflexivity|]. split; [|now rewrite Ev].
        intros v Hv. assert (Hd : In v us).
        { apply (dep_in_vs h ls us Cls Cvs (uf_lp u) v Hl). now apply (ur_dep _ _ _ _ _ U). }
        split; auto. rewrite <- (ur_den _ _ _ _ _ U).
        apply (copy_den h ls us [] objs W Bls Lobjs Cls Cvs W' (uf_lp u) Hl v Hd). }
  destruct (Q l sl Rl Hu) as (sl' & Q1 & Q2).
  assert (Eh : grown h (copies ++ []) objs = mkHeap (h_lc h ++ copies) (h_var h ++ objs)).
  { unfold grown. now rewrite app_nil_r. }
  rewrite Eh in *.
  do 3 eexists. exists sl', fv, us. split; [reflexivity|]. split; [reflexivity|].
  split; [apply sim_adds; [exact S'|exact Q1]|]. split; [|exact Q2]. split.
  - intros v w. apply renamed_inj.
  - intros v Hv. split; [unfold fv, renamed; fold nv; lia|].
    assert (Lr := rank_lt us v Hv).
    destruct (nth_error objs (rank us v)) as [o'|] eqn:Eo; [|apply nth_error_None in Eo; lia].
    destruct (Eobj _ _ Eo) as (v0 & o & Ho & Gv & ->). rewrite rank_nth in Ho by auto.
    injection Ho; intros <-.
    exists o, (mkVar (N:=RN) (v_nom o) (fl (v_lp o)) (v_std o) (v_tag o)). split; [exact Gv|]. split; [|repeat split].
    pose proof (grown_var_new h copies objs (rank us v)) as Q3. rewrite Eo in Q3. exact Q3.
Qed.

(** ** New variables and combinations *)
Lemma new_variable_rel : forall h env vs senv x tag, sim (mkState h env) (mkS vs senv) -> 0 <= x ->
  exists h', new_var (N:=RN) (PZ 0%Z) (PF (N:=RN) x) tag h =
      (Ok (mkUF (N:=RN) 0 (length (h_lc h)) (Some (length (h_var h)))), h') /\
    (exists o, h_var h' = h_var h ++ [o] /\ v_std o = x /\ v_tag o = tag) /\
    sim (mkState h' env) (mkS (vs ++ [x]) senv).
Proof.
  intros h env vs senv x tag S Hx.
  set (o := mkVar (N:=RN) 0 (length (h_lc h)) x tag).
  exists (grown h [LDict (N:=RN) [(length (h_var h), 1)]] [o]). split; [|split].
  - unfold new_var. rewrite pn_float_R, check_std_R. cbn [pval].
    destruct (Rltb x 0) eqn:E; [apply Rltb_true in E; lra|]. reflexivity.
  - exists o. repeat split.
  - apply (sim_grow h env vs senv [LDict (N:=RN) [(length (h_var h), 1)]] [o] S). split.
    + intros [|k] y H; cbn in H; [|destruct k; discriminate]. injection H; intros <-. cbn.
      split; [constructor; [cbn; tauto|constructor]|]. intros v [<-|[]]. lia.
    + intros [|k] y H; cbn in H; [|destruct k; discriminate]. injection H; intros <-. cbn [v_lp o].
      rewrite Nat.add_0_r. split; [cbn; lia|].
      rewrite <- (Nat.add_0_r (length (h_lc h))) at 1. apply grown_new. reflexivity.
    + constructor; [exact Hx|constructor].
Qed.
Lemma new_variables_rel : forall l h env vs senv, sim (mkState h env) (mkS vs senv) ->
  Forall (fun p : R * option nat => 0 <= fst p) l ->
  exists h' objs, new_variables (N:=RN) l h = (Ok (seq (length (h_var h)) (length l)), h') /\
    h_var h' = h_var h ++ objs /\
    map (fun o : varobj RN => (v_std o, v_tag o)) objs = map (fun p => (sqrt (fst p), snd p)) l /\
    sim (mkState h' env) (mkS (vs ++ map (fun p => sqrt (fst p)) l) senv).
Proof.
  induction l as [|[x tag] l IH]; intros h env vs senv S F.
  - exists h, []. cbn. rewrite !app_nil_r. auto.
  - inversion F as [|? ? Hx F']; subst. cbn [fst] in Hx. cbn [new_variables map fst snd length seq].
    unfold bind at 1. unfold lift. cbn [n_fun1 ROps Rfun1]. unfold Rleb.
    destruct (Rle_dec 0 x); [|contradiction].
    destruct (new_variable_rel h env vs senv (sqrt x) tag S (sqrt_pos x)) as (h1 & E1 & (o & O1 & O2 & O3) & S1).
    unfold bind at 1. rewrite E1.
    destruct (IH h1 env _ senv S1 F') as (h2 & objs & E2 & O4 & O5 & S2).
    unfold bind at 1. rewrite E2. cbn [uf_var]. rewrite O1, app_length. cbn [length].
    rewrite Nat.add_1_r. exists h2, (o :: objs). split; [reflexivity|]. split.
    { rewrite O4, O1, <- app_assoc. reflexivity. }
    split. { cbn [map fst snd]. rewrite O2, O3. f_equal. exact O5. }
    rewrite <- app_assoc in S2. exact S2.
Qed.

(** The number of the specification made from new variables [vs] and coefficients. *)
Definition scomb (vs : list varid) (p : list R * R) : sval g lg :=
  SUF (snd p) (fun w => dval (g:=g) (lg:=lg) (combine vs (fst p)) w) (firstn (length (fst p)) vs) None.
Lemma dkeys_combine : forall (vs : list varid) (l : list R), dkeys (combine vs l) = firstn (length l) vs.
Proof.
  induction vs as [|v vs IH]; intros [|x l]; cbn; auto. now rewrite <- IH.
Qed.
Lemma firstn_In : forall A n (l : list A) x, In x (firstn n l) -> In x l.
Proof.
  induction n as [|n IH]; intros [|a l] x H; cbn in *; auto; try contradiction.
  destruct H; auto.
Qed.
Lemma firstn_NoDup : forall A n (l : list A), NoDup l -> NoDup (firstn n l).
Proof.
  induction n as [|n IH]; intros [|a l] H; cbn; try constructor; inversion H; subst; auto.
  intros I. apply firstn_In in I. contradiction.
Qed.
Lemma new_combinations_rel : forall nvs l h env vs senv, sim (mkState h env) (mkS vs senv) ->
  NoDup nvs -> nvs <> [] -> (forall v, In v nvs -> (v < length (h_var h))%nat) ->
  Forall (fun p : list R * R => fst p <> []) l ->
  exists us h', new_combinations (N:=RN) nvs l h = (Ok us, h') /\ hext h h' /\
    length us = length l /\
    sim (mkState h' (env ++ map VUF us)) (mkS vs (senv ++ map (scomb nvs) l)).
Proof.
  intros nvs. induction l as [|[c x] l IH]; intros h env vs senv S ND NN B F.
  - exists [], h. split; [reflexivity|]. split; [apply hext_refl; apply S|]. split; [reflexivity|].
    cbn. now rewrite !app_nil_r.
  - inversion F as [|? ? Hc F']; subst. cbn [fst] in Hc. cbn [new_combinations alloc_lc].
    set (d := combine nvs c).
    pose proof S as [W V E]. cbn in W, V, E.
    assert (X : hext h (mkHeap (h_lc h ++ [LDict (N:=RN) d]) (h_var h))).
    { apply hext_alloc; auto. cbn. unfold d. rewrite dkeys_combine. split.
      - now apply firstn_NoDup.
      - intros v Hv. apply B. eapply firstn_In; eauto. }
    set (h1 := mkHeap (h_lc h ++ [LDict (N:=RN) d]) (h_var h)) in *.
    pose proof (sim_hext h h1 env vs senv S X) as S1.
    assert (G : get_lc h1 (length (h_lc h)) = LDict (N:=RN) d).
    { unfold get_lc, h1; cbn. now rewrite app_nth2, Nat.sub_diag by auto. }
    assert (Rl : vrel h1 (VUF (mkUF (N:=RN) x (length (h_lc h)) None)) (scomb nvs (c, x))).
    { unfold scomb. cbn [fst snd]. split; [split|].
      - reflexivity.
      - cbn. rewrite app_length. cbn. lia.
      - intros v. exact (den_dict h1 _ d v G).
      - intros v. cbn [uf_lp]. rewrite <- dkeys_combine. split.
        + intros D. inversion D as [? ? ? G' I|? ? ? ? ? G' I D']; subst; rewrite G in G'; [|discriminate].
          injection G'; intros <-. exact I.
        + intros I. eapply dep_dict; [exact G|exact I].
      - split; [|split; [reflexivity|discriminate]].
        destruct nvs; [congruence|]. destruct c; [congruence|]. discriminate. }
    pose proof (sim_add h1 env vs senv _ _ S1 Rl) as S2.
    destruct (IH h1 _ vs _ S2 ND NN B F') as (us & h2 & E2 & X2 & L2 & S3).
    exists (mkUF (N:=RN) x (length (h_lc h)) None :: us), h2. split; [|split; [|split]].
    + transitivity (bind (N:=RN) (new_combinations (N:=RN) nvs l)
        (fun us => ret (mkUF (N:=RN) x (length (h_lc h)) None :: us)) h1); [reflexivity|].
      unfold bind. rewrite E2. reflexivity.
    + eapply hext_trans; eauto.
    + cbn. now rewrite L2.
    + cbn [map]. rewrite <- !app_assoc in S3. exact S3.
Qed.

Definition clip (x : R) : R := if Rltb x 0 then 0 else x.
Lemma clip_pos : forall x, 0 <= clip x.
Proof. intros. unfold clip. destruct (Rltb x 0) eqn:E; [lra|]. apply Rltb_false in E. lra. Qed.
Lemma map_combine_fst : forall A B C (f : A -> C) (l : list A) (m : list B), length l = length m ->
  map (fun p => f (fst p)) (combine l m) = map f l.
Proof.
  intros A B C f l. induction l as [|a l IH]; intros [|b m] H; cbn in *; try discriminate; auto.
  f_equal. apply IH. lia.
Qed.

(** The rows of coefficients of the numbers made by correlated_values_norm(). *)
Definition rows (V : matrix RN) (vals : list (R * R)) : list (list R) :=
  map (fun p => map (fun c => c * snd (snd p)) (fst p)) (combine V vals).
Lemma corr_norm_unfold : forall eigh (vals : list (R * R)) corr tags (lam : list R) (V : matrix RN) h,
  vals <> [] -> eigh corr = Ok (lam, V) -> length V = length vals ->
  correlated_values_norm (N:=RN) eigh vals corr tags h =
  bind (N:=RN) (new_variables (N:=RN) (combine (map clip lam)
          match tags with None => repeat None (length vals) | Some t => t end))
    (fun nvs => new_combinations (N:=RN) nvs (combine (rows V vals) (map fst vals))) h.
Proof.
  intros eigh vals corr tags lam V h Nv Ee Lv. unfold correlated_values_norm.
  destruct vals as [|p vals]; [congruence|]. unfold bind at 1. unfold lift. rewrite Ee.
  cbn [fst snd]. rewrite Lv. rewrite Nat.eqb_refl. reflexivity.
Qed.
Lemma corr_norm_rel : forall eigh (vals : list (R * R)) corr tags (lam : list R) (V : matrix RN) h env vs senv,
  sim (mkState h env) (mkS vs senv) -> vals <> [] -> eigh corr = Ok (lam, V) ->
  length lam = length vals -> square (length vals) V -> tags_ok (length vals) tags ->
  exists us h' objs, correlated_values_norm (N:=RN) eigh vals corr tags h = (Ok us, h') /\
    h_var h' = h_var h ++ objs /\
    map v_std objs = map (fun x => sqrt (clip x)) lam /\
    map v_tag objs = match tags with None => repeat None (length vals) | Some t => t end /\
    length us = length vals /\
    sim (mkState h' (env ++ map VUF us))
        (mkS (vs ++ map (fun x => sqrt (clip x)) lam)
             (senv ++ map (scomb (seq (length (h_var h)) (length vals)))
                          (combine (rows V vals) (map fst vals)))).
Proof.
  intros eigh vals corr tags lam V h env vs senv S Nv Ee Ll [Lv Fv] Ht.
  set (tg := match tags with None => repeat None (length vals) | Some t => t end).
  assert (Lt : length tg = length vals).
  { unfold tg. destruct tags; [exact Ht|apply repeat_length]. }
  assert (Ll' : length (map clip lam) = length tg).
  { transitivity (length lam); [apply map_length|]. exact (eq_trans Ll (eq_sym Lt)). }
  assert (L0 : (0 < length vals)%nat) by (destruct vals; [congruence|cbn; lia]).
  destruct (new_variables_rel (combine (map clip lam) tg) h env vs senv S) as (h1 & objs & E1 & O1 & O2 & S1).
  { apply Forall_forall. intros [x t] H. apply in_combine_l in H. apply in_map_iff in H as (y & <- & _).
    apply clip_pos. }
  rewrite (map_combine_fst _ _ _ sqrt) in S1 by exact Ll'. rewrite map_map in S1.
  assert (Lc : length (combine (map clip lam) tg) = length vals).
  { rewrite combine_length, Ll'. lia. }
  rewrite Lc in E1.
  assert (Lobjs : length objs = length vals).
  { apply (f_equal (@length _)) in O2. rewrite !map_length, Lc in O2. exact O2. }
  assert (Lr : length (rows V vals) = length vals).
  { unfold rows. rewrite map_length. etransitivity; [apply combine_length|]. rewrite Lv. apply Nat.min_id. }
  destruct (new_combinations_rel (seq (length (h_var h)) (length vals))
     (combine (rows V vals) (map fst vals)) h1 env _ senv S1) as (us & h2 & E2 & X2 & L2 & S2).
  { apply seq_NoDup. }
  { destruct (length vals); [lia|discriminate]. }
  { intros v Hv. apply in_seq in Hv. rewrite O1, app_length. lia. }
  { apply Forall_forall. intros [c x] H. cbn [fst]. apply in_combine_l in H. unfold rows in H.
    apply in_map_iff in H as ([r p] & <- & H). apply in_combine_l in H. cbn [fst snd].
    rewrite Forall_forall in Fv. specialize (Fv r H). destruct r; [cbn in Fv; lia|discriminate]. }
  exists us, h2, objs. split; [|split; [|split; [|split; [|split]]]].
  - rewrite (corr_norm_unfold eigh vals corr tags lam V h Nv Ee Lv). unfold bind.
    change (new_variables _ h) with (new_variables (N:=RN) (combine (map clip lam) tg) h).
    rewrite E1. exact E2.
  - rewrite (he_var _ _ X2). exact O1.
  - apply (f_equal (map fst)) in O2. rewrite !map_map in O2. cbn [fst] in O2.
    etransitivity; [exact O2|].
    etransitivity; [apply (map_combine_fst _ _ _ sqrt); exact Ll'|]. now rewrite map_map.
  - apply (f_equal (map snd)) in O2. rewrite !map_map in O2. cbn [snd] in O2.
    etransitivity; [exact O2|].
    assert (Q : forall (A B : Type) (l : list A) (m : list B), length l = length m ->
      map (fun p => snd p) (combine l m) = m).
    { clear. intros A B l. induction l as [|a l IH]; intros [|b m] H; cbn in *; try discriminate; auto.
      f_equal. apply IH. lia. }
    apply Q. exact Ll'.
  - rewrite L2. etransitivity; [apply combine_length|]. rewrite Lr, map_length. apply Nat.min_id.
  - exact S2.
Qed.

Lemma rmapM_length : forall A B (f : A -> res B) l r, rmapM f l = Ok r -> length r = length l.
Proof.
  intros A B f. induction l as [|a l IH]; intros r H; cbn in H.
  - injection H; intros <-. reflexivity.
  - destruct (f a); [|discriminate]. cbn in H. destruct (rmapM f l); [|discriminate].
    cbn in H. injection H; intros <-. cbn. now rewrite IH.
Qed.
Lemma rmapM_Forall : forall A B (f : A -> res B) (P : B -> Prop) l r, rmapM f l = Ok r ->
  (forall a b, f a = Ok b -> P b) -> Forall P r.
Proof.
  intros A B f P. induction l as [|a l IH]; intros r H Q; cbn in H.
  - injection H; intros <-. constructor.
  - destruct (f a) eqn:E; [|discriminate]. cbn in H. destruct (rmapM f l); [|discriminate].
    cbn in H. injection H; intros <-. constructor; eauto.
Qed.
Lemma normalize_square : forall (m : matrix RN) v r, normalize m v = Ok r -> square (length m) r.
Proof.
  intros m v r H. unfold normalize in H. split.
  - rewrite (rmapM_length _ _ _ _ _ H). apply seq_length.
  - eapply rmapM_Forall; [exact H|]. cbn beta. intros a b Hb. rewrite (rmapM_length _ _ _ _ _ Hb). apply seq_length.
Qed.
(** correlated_values() ends in an error that leaves the objects unchanged, or is a call of
    correlated_values_norm(). *)
Lemma corr_values_cases : forall eigh (noms : list R) (cov : matrix RN) tags h, square (length noms) cov ->
  (exists e, correlated_values (N:=RN) eigh noms cov tags h = (Err e, h)) \/
  (exists stds corr, rmapM (np_sqrt (N:=RN)) (diagonal cov) = Ok stds /\ length stds = length noms /\
     normalize cov (map (fun s => if Reqb s 0 then 1 else s) stds) = Ok corr /\
     square (length noms) corr /\
     correlated_values (N:=RN) eigh noms cov tags h =
     correlated_values_norm (N:=RN) eigh (combine noms stds) corr tags h).
Proof.
  intros eigh noms cov tags h [L F]. unfold correlated_values. unfold bind at 1. unfold lift at 1.
  destruct (rmapM np_sqrt (diagonal cov)) as [stds|e] eqn:Es; [|left; eauto].
  unfold bind, lift. change (fun s => if n_eq RN s (n_zero RN) then n_one RN else s) with (fun s => if Reqb s 0 then 1 else s).
  destruct (normalize cov _) as [corr|e] eqn:Ec; [|left; eauto].
  right. exists stds, corr. split; auto. split.
  - rewrite (rmapM_length _ _ _ _ _ Es). unfold diagonal. rewrite map_length, seq_length. exact L.
  - split; [exact Ec|]. split; auto. rewrite <- L. eapply normalize_square; eauto.
Qed.

(** ** Calls *)
(** In the specification, distinct results that are variables are distinct variables. *)
Definition vars_unique (ss : sstate g lg) : Prop :=
  (forall i j n gr ds n' gr' ds' v, nth_error (ss_env ss) i = Some (SUF n gr ds (Some v)) ->
     nth_error (ss_env ss) j = Some (SUF n' gr' ds' (Some v)) -> i = j) /\
  (forall i n gr ds v, nth_error (ss_env ss) i = Some (SUF n gr ds (Some v)) ->
     (v < length (ss_vars ss))%nat).

(** New variables only. *)
Definition news_ok (ss : sstate g lg) (ne : list (sval g lg)) : Prop :=
  (forall i n gr ds v, nth_error ne i = Some (SUF n gr ds (Some v)) -> (length (ss_vars ss) <= v)%nat) /\
  (vars_unique ss -> forall i j n gr ds n' gr' ds' v, nth_error ne i = Some (SUF n gr ds (Some v)) ->
     nth_error ne j = Some (SUF n' gr' ds' (Some v)) -> i = j).
Lemma news_novar : forall ss ne,
  Forall (fun a => match a with SUF _ _ _ (Some _) => False | _ => True end) ne -> news_ok ss ne.
Proof.
  intros ss ne F. rewrite Forall_forall in F. split.
  - intros i n gr ds v H. apply nth_error_In in H. destruct (F _ H).
  - intros _ i j n gr ds n' gr' ds' v H. apply nth_error_In in H. destruct (F _ H).
Qed.
Lemma vars_unique_grow : forall st ss nv ne, sim st (mkS (ss_vars ss ++ nv) (ss_env ss ++ ne)) ->
  news_ok ss ne -> vars_unique ss -> vars_unique (mkS (ss_vars ss ++ nv) (ss_env ss ++ ne)).
Proof.
  intros st ss nv ne [W V E] [A B] U. specialize (B U). destruct U as [U1 U2]. split; cbn [ss_env ss_vars].
  - intros i j n gr ds n' gr' ds' v Hi Hj.
    destruct (Nat.lt_ge_cases i (length (ss_env ss))) as [Li|Li],
             (Nat.lt_ge_cases j (length (ss_env ss))) as [Lj|Lj];
      [rewrite nth_error_app1 in Hi, Hj by auto|rewrite nth_error_app1 in Hi by auto; rewrite nth_error_app2 in Hj by auto|
       rewrite nth_error_app2 in Hi by auto; rewrite nth_error_app1 in Hj by auto|rewrite nth_error_app2 in Hi, Hj by auto].
    + eapply U1; eauto.
    + apply U2 in Hi. apply A in Hj. lia.
    + apply U2 in Hj. apply A in Hi. lia.
    + specialize (B _ _ _ _ _ _ _ _ _ Hi Hj). lia.
  - intros i n gr ds v Hi. cbn in V, E.
    assert (Q : exists a, nth_error (st_env st) i = Some a /\ vrel (st_heap st) a (SUF n gr ds (Some v))).
    { clear - E Hi. revert i Hi. induction E; intros [|i] Hi; cbn in *; try discriminate.
      - injection Hi; intros <-. eauto.
      - eauto. }
    destruct Q as ([p|u] & _ & Q); [contradiction|]. destruct Q as (_ & _ & _ & Q).
    destruct (Q v eq_refl) as [L _]. now rewrite <- (varsrel_len _ _ V).
Qed.

Lemma sargs_nth : forall (senv : list (sval g lg)) is sl, sargs senv is = Some sl ->
  forall k a, nth_error sl k = Some a -> exists i, nth_error is k = Some i /\ nth_error senv i = Some a.
Proof.
  induction is as [|i is IH]; intros sl H k a Hk; cbn in H.
  - injection H; intros <-. destruct k; discriminate.
  - destruct (nth_error senv i) as [b|] eqn:Ei; [|discriminate].
    destruct (sargs senv is) as [l|]; [|discriminate]. injection H; intros <-.
    destruct k as [|k]; cbn in Hk |- *; eauto. injection Hk; intros <-. eauto.
Qed.

Lemma corr_norm_call : forall h env vs senv eigh (vals : list (R * R)) corr tags,
  sim (mkState h env) (mkS vs senv) -> eigh_shape eigh -> square (length vals) corr ->
  tags_ok (length vals) tags ->
  exists ss', sim (fst (push_list (mkState h env) (as_values (correlated_values_norm (N:=RN) eigh vals corr tags h)))) ss' /\
    ((exists n s tag, ss' = fst (sstep (mkS vs senv) (INew (N:=RN) n s tag))) \/
     exists nv ne, ss' = mkS (vs ++ nv) (senv ++ ne) /\ news_ok (mkS vs senv) ne).
Proof.
  intros h env vs senv eigh vals corr tags S Hs Hq Ht.
  assert (Z : exists nv ne, mkS vs senv = mkS (g:=g) (lg:=lg) (vs ++ nv) (senv ++ ne) /\ news_ok (mkS vs senv) ne).
  { exists [], []. rewrite !app_nil_r. split; auto. apply news_novar. constructor. }
  destruct vals as [|p vals].
  { cbn. exists (mkS vs senv). auto. }
  destruct (eigh corr) as [[lam V]|e] eqn:Ee.
  2:{ unfold correlated_values_norm, bind, lift. rewrite Ee. cbn. exists (mkS vs senv). auto. }
  destruct (Hs _ _ _ _ Hq Ee) as [Ll Lv].
  destruct (corr_norm_rel eigh (p :: vals) corr tags lam V h env vs senv S) as (us & h' & objs & E1 & _ & _ & _ & _ & S'); auto; [discriminate|].
  rewrite E1. cbn [as_values push_list fst st_env]. eexists. split; [exact S'|].
  right. do 2 eexists. split; [reflexivity|]. apply news_novar. apply Forall_forall.
  intros a Ha. apply in_map_iff in Ha as (q & <- & _). exact I.
Qed.

Theorem call_sim : forall st ss c, sim st ss -> call_ok c ->
  exists ss', sim (fst (call_step st c)) ss' /\
    ((exists n s tag, ss' = fst (sstep ss (INew (N:=RN) n s tag))) \/
     exists nv ne, ss' = mkS (ss_vars ss ++ nv) (ss_env ss ++ ne) /\ news_ok ss ne).
Proof.
  intros [h env] [vs senv] c S Hc. pose proof S as [W V E]. cbn [st_heap st_env ss_vars ss_env] in W, V, E.
  assert (P0 : forall p, sim (mkState h (env ++ [VPlain p])) (mkS vs (senv ++ [SPlain p])) /\
     (exists nv ne, mkS vs (senv ++ [SPlain p]) = mkS (g:=g) (lg:=lg) (vs ++ nv) (senv ++ ne) /\ news_ok (mkS vs senv) ne)).
  { intros p. split.
    - apply (sim_add h env vs senv (VPlain p) (SPlain p)); auto. reflexivity.
    - exists [], [SPlain p]. rewrite app_nil_r. split; auto. apply news_novar. repeat constructor. }
  assert (C : forall a sa, vrel h a sa ->
    exists ss', sim (fst (push (mkState h env) (py_copy a h))) ss' /\
    ((exists n s tag, ss' = fst (sstep (mkS vs senv) (INew (N:=RN) n s tag))) \/
     exists nv ne, ss' = mkS (vs ++ nv) (senv ++ ne) /\ news_ok (mkS vs senv) ne)).
  { intros [p|u] [q|n gr ds var] Rl; try contradiction.
    - cbn in Rl. subst q. destruct (P0 p). eauto.
    - pose proof Rl as (U & D & Ev & Hv). cbn [py_copy]. destruct (uf_var u) as [v|] eqn:Eu.
      + subst var. destruct (Hv v eq_refl) as (Lv & _).
        destruct (varsrel_get h vs v V Lv) as (o & Go & Gs & Gp). rewrite Go.
        pose proof (new_rel (mkState h env) (mkS vs senv) (PF (N:=RN) (uf_nom u)) (PF (N:=RN) (v_std o)) (v_tag o) S) as Q.
        destruct Q as [Q _]. cbn [step st_heap] in Q. exists (fst (sstep (mkS (g:=g) (lg:=lg) vs senv) (INew (N:=RN) (PF (N:=RN) (uf_nom u)) (PF (N:=RN) (v_std o)) (v_tag o)))).
        split; [|left; do 3 eexists; reflexivity].
        destruct (new_var (PF (N:=RN) (uf_nom u)) (PF (N:=RN) (v_std o)) (v_tag o) h) as [[u'|e] h']; exact Q.
      + subst var. cbn. eexists. split.
        * apply (sim_add h env vs senv _ (SUF (g:=g) (lg:=lg) n gr ds None) S).
          destruct U as [U1 U2 U3 U4]. split; [split; cbn; auto|].
          split; [exact D|]. split; [reflexivity|]. discriminate.
        * right. exists [], [SUF n gr ds None]. rewrite app_nil_r. split; auto.
          apply news_novar. repeat constructor. }
  destruct c as [i|i|is|eigh noms cov tags|eigh vals corr tags]; cbn [call_step st_heap st_env].
  - destruct (nth_error env i) as [a|] eqn:Ei.
    + destruct (Forall2_nth_error _ _ _ _ _ E _ _ Ei) as (sa & _ & Rl). eapply C; eauto.
    + destruct (P0 (POther 0)) as [Q1 Q2]. eauto.
  - destruct (nth_error env i) as [a|] eqn:Ei.
    + destruct (Forall2_nth_error _ _ _ _ _ E _ _ Ei) as (sa & _ & Rl).
      destruct a as [p|u], sa as [q|n gr ds var]; try contradiction.
      * cbn in Rl. subst q. destruct (P0 p). eauto.
      * destruct (uf_var u) as [v|] eqn:Eu.
        -- cbn [py_deepcopy]. rewrite Eu. eapply C; eauto.
        -- assert (var = None) by (destruct Rl as (_ & _ & Ev & _); congruence). subst var.
           destruct (deepcopy_rel h env vs senv u n gr ds S Rl) as (u' & h' & objs & sa' & fv & us & E1 & _ & S' & _ & Sc).
           rewrite E1. cbn [push fst]. eexists. split; [exact S'|]. right. do 2 eexists. split; [reflexivity|].
           apply news_novar. constructor; [|constructor]. destruct sa' as [|? ? ? v]; [contradiction|].
           destruct Sc as (_ & _ & _ & ->). exact I.
    + destruct (P0 (POther 0)) as [Q1 Q2]. eauto.
  - pose proof (get_args_rel h env senv is E) as A.
    destruct (get_args env is) as [l|] eqn:Ga; destruct (sargs senv is) as [sl|] eqn:Gs; try contradiction.
    + destruct (pickle_rel h env vs senv l sl S A) as (l' & h' & objs & sl' & fv & us & E1 & _ & S' & (Inj & VC) & Sc).
      rewrite E1. cbn [push_list fst st_env]. eexists. split; [exact S'|]. right. do 2 eexists. split; [reflexivity|].
      assert (Q : forall k n gr ds w, nth_error sl' k = Some (SUF n gr ds (Some w)) ->
        exists i n0 gr0 ds0 v, nth_error is k = Some i /\ nth_error senv i = Some (SUF n0 gr0 ds0 (Some v)) /\
          In v us /\ w = fv v).
      { intros k n gr ds w Hk.
        assert (X : exists a, nth_error sl k = Some a /\ scopied fv us a (SUF n gr ds (Some w))).
        { clear - Sc Hk. revert k Hk. induction Sc; intros [|k] Hk; cbn in *; try discriminate; eauto.
          injection Hk; intros <-. eauto. }
        destruct X as (a & Ha & Ca). destruct (sargs_nth senv is sl Gs k a Ha) as (i & Hi & Hs).
        destruct a as [|n0 gr0 ds0 var0]; [contradiction|]. destruct Ca as (_ & _ & Ca & Cv).
        destruct var0 as [v|]; [|discriminate]. injection Cv; intros ->.
        exists i, n0, gr0, ds0, v. split; auto. split; auto. split; auto.
        assert (Y : exists b, nth_error env i = Some b /\ vrel h b (SUF n0 gr0 ds0 (Some v))).
        { clear - E Hs. revert i Hs. induction E; intros [|i] Hs; cbn in *; try discriminate; eauto.
          injection Hs; intros <-. eauto. }
        destruct Y as ([p|u] & _ & Y); [contradiction|]. destruct Y as (_ & _ & _ & Y).
        destruct (Y v eq_refl) as (_ & -> & _). apply Ca. cbn; auto. }
      split.
      * intros k n gr ds w Hk. destruct (Q _ _ _ _ _ Hk) as (i & n0 & gr0 & ds0 & v & _ & _ & Hv & ->).
        cbn [ss_vars]. rewrite <- (varsrel_len _ _ V). apply VC. exact Hv.
      * intros [U1 U2] k k' n gr ds n' gr' ds' w Hk Hk'.
        destruct (Q _ _ _ _ _ Hk) as (i & n0 & gr0 & ds0 & v & Hi & Hs & Hv & ->).
        destruct (Q _ _ _ _ _ Hk') as (i' & n0' & gr0' & ds0' & v' & Hi' & Hs' & Hv' & Ew).
        apply Inj in Ew; auto. subst v'. cbn [ss_env] in U1.
        assert (i = i') by (eapply U1; eauto). subst i'. cbn in Hc. rewrite NoDup_nth_error in Hc.
        apply Hc; [|congruence]. apply nth_error_Some. congruence.
    + cbn. exists (mkS vs senv). split; [exact S|]. right. exists [], []. rewrite !app_nil_r. split; auto.
      apply news_novar. constructor.
  - destruct Hc as (Hs & Hq & Ht).
    assert (Z : exists nv ne, mkS vs senv = mkS (g:=g) (lg:=lg) (vs ++ nv) (senv ++ ne) /\ news_ok (mkS vs senv) ne).
    { exists [], []. rewrite !app_nil_r. split; auto. apply news_novar. constructor. }
    destruct (corr_values_cases eigh noms cov tags h Hq) as [[e ->]|(stds & corr & _ & Ls & _ & Hq' & ->)].
    { cbn. exists (mkS vs senv). auto. }
    assert (Lc : length (combine noms stds) = length noms).
    { etransitivity; [apply combine_length|]. rewrite Ls. apply Nat.min_id. }
    apply (corr_norm_call h env vs senv eigh (combine noms stds) corr tags S Hs).
    + exact (eq_ind_r (fun n => square n corr) Hq' Lc).
    + exact (eq_ind_r (fun n => tags_ok n tags) Ht Lc).
  - destruct Hc as (Hs & Hq & Ht). apply (corr_norm_call h env vs senv eigh vals corr tags S Hs Hq Ht).
Qed.
End CallProofs.
