(** Proofs about lazy expansion: termination, dependence, value. *)
From Coq Require Import ZArith List Bool Reals Arith Lia Lra.
From Verif Require Import Base Heap NumR HeapSpec.
Import ListNotations.

(** ** Lists and dictionaries *)
Lemma list_set_length : forall A (l : list A) i x, length (list_set l i x) = length l.
Proof. induction l; destruct i; simpl; intros; auto. Qed.

Lemma list_set_set : forall A (l : list A) i x y,
  list_set (list_set l i x) i y = list_set l i y.
Proof. induction l; destruct i; simpl; intros; auto. f_equal; auto. Qed.

Lemma nth_list_set_eq : forall A (l : list A) i x d,
  (i < length l)%nat -> nth i (list_set l i x) d = x.
Proof. induction l; destruct i; simpl; intros; auto; try lia. apply IHl; lia. Qed.

Lemma nth_list_set_neq : forall A (l : list A) i j x d,
  i <> j -> nth j (list_set l i x) d = nth j l d.
Proof.
  induction l; destruct i, j; simpl; intros; auto; try congruence.
Qed.

Lemma nth_error_list_set_eq : forall A (l : list A) i x,
  (i < length l)%nat -> nth_error (list_set l i x) i = Some x.
Proof. induction l; destruct i; simpl; intros; auto; try lia. apply IHl; lia. Qed.

Lemma nth_error_list_set_neq : forall A (l : list A) i j x,
  i <> j -> nth_error (list_set l i x) j = nth_error l j.
Proof. induction l; destruct i, j; simpl; intros; auto; congruence. Qed.

Lemma list_set_self : forall A (l : list A) i d,
  (i < length l)%nat -> list_set l i (nth i l d) = l.
Proof. induction l; destruct i; simpl; intros; auto; try lia. f_equal. apply IHl; lia. Qed.

Lemma Forall2_rev : forall A B (R : A -> B -> Prop) l l',
  Forall2 R l l' -> Forall2 R (rev l) (rev l').
Proof.
  intros A B R l l' H. induction H; simpl; [constructor|].
  apply Forall2_app; auto.
Qed.

Section Dicts.
Context {V : Type}.
Implicit Types d : list (nat * V).

Lemma dget_dset_eq : forall d k v, dget (dset d k v) k = Some v.
Proof.
  induction d as [|[k' v'] d IH]; intros; simpl.
  - now rewrite Nat.eqb_refl.
  - destruct (Nat.eqb k k') eqn:E; simpl; rewrite E; auto.
Qed.

Lemma dget_dset_neq : forall d k k' v, k <> k' -> dget (dset d k v) k' = dget d k'.
Proof.
  induction d as [|[k0 v0] d IH]; intros; simpl.
  - destruct (Nat.eqb k' k) eqn:E; auto. apply Nat.eqb_eq in E; congruence.
  - destruct (Nat.eqb k k0) eqn:E; simpl.
    + apply Nat.eqb_eq in E; subst.
      destruct (Nat.eqb k' k0) eqn:E2; auto. apply Nat.eqb_eq in E2; congruence.
    + rewrite IH by auto. reflexivity.
Qed.

Lemma dget_In_keys : forall d k, In k (dkeys d) <-> exists v, dget d k = Some v.
Proof.
  induction d as [|[k0 v0] d IH]; intros; simpl.
  - split; [tauto|intros [v H]; discriminate].
  - destruct (Nat.eqb k k0) eqn:E.
    + apply Nat.eqb_eq in E; subst. split; eauto.
    + apply Nat.eqb_neq in E. rewrite <- IH. split; [intros [H|H]; [congruence|auto]|auto].
Qed.

Lemma dget_None : forall d k, dget d k = None <-> ~ In k (dkeys d).
Proof.
  intros. rewrite dget_In_keys. split.
  - intros H [v E]; congruence.
  - intros H. destruct (dget d k) eqn:E; auto. exfalso; eauto.
Qed.

Lemma dkeys_dset : forall d k v k', In k' (dkeys (dset d k v)) <-> k' = k \/ In k' (dkeys d).
Proof.
  induction d as [|[k0 v0] d IH]; intros; simpl.
  - intuition.
  - destruct (Nat.eqb k k0) eqn:E; simpl.
    + apply Nat.eqb_eq in E; subst. intuition.
    + rewrite IH. intuition.
Qed.

Lemma dset_NoDup : forall d k v, NoDup (dkeys d) -> NoDup (dkeys (dset d k v)).
Proof.
  induction d as [|[k0 v0] d IH]; intros k v H; simpl.
  - constructor; [simpl; tauto|constructor].
  - inversion H; subst. destruct (Nat.eqb k k0) eqn:E; simpl.
    + constructor; auto.
    + apply Nat.eqb_neq in E. constructor; [|auto].
      change (map fst (dset d k v)) with (dkeys (dset d k v)).
      rewrite dkeys_dset. intros [?|?]; [congruence|contradiction].
Qed.

Lemma In_dget : forall d k v, NoDup (dkeys d) -> In (k, v) d -> dget d k = Some v.
Proof.
  induction d as [|[k0 v0] d IH]; intros k v H I; simpl in *; [tauto|].
  inversion H; subst. destruct I as [E|I].
  - injection E; intros; subst. now rewrite Nat.eqb_refl.
  - destruct (Nat.eqb k k0) eqn:E; [|auto].
    apply Nat.eqb_eq in E; subst. exfalso. apply H2. apply (in_map fst) in I; auto.
Qed.

Lemma dget_In : forall d k v, dget d k = Some v -> In (k, v) d.
Proof.
  induction d as [|[k0 v0] d IH]; intros k v H; simpl in *; [discriminate|].
  destruct (Nat.eqb k k0) eqn:E; [|auto].
  apply Nat.eqb_eq in E; subst. injection H; intros; subst; auto.
Qed.
End Dicts.

(** ** Heap accessors *)
Section HeapAcc.
Context {N : NumOps}.
Implicit Types h : heap N.

Lemma get_set_eq : forall h l x, (l < length (h_lc h))%nat -> get_lc (set_lc h l x) l = x.
Proof. intros. unfold get_lc, set_lc; simpl. now apply nth_list_set_eq. Qed.

Lemma get_set_neq : forall h l l' x, l <> l' -> get_lc (set_lc h l x) l' = get_lc h l'.
Proof. intros. unfold get_lc, set_lc; simpl. now apply nth_list_set_neq. Qed.

Lemma set_set : forall h l x y, set_lc (set_lc h l x) l y = set_lc h l y.
Proof. intros. unfold set_lc; simpl. now rewrite list_set_set. Qed.

Lemma set_self : forall h l, (l < length (h_lc h))%nat -> set_lc h l (get_lc h l) = h.
Proof.
  intros. unfold set_lc, get_lc. rewrite list_set_self by auto. destruct h; reflexivity.
Qed.

Lemma set_lc_length : forall h l x, length (h_lc (set_lc h l x)) = length (h_lc h).
Proof. intros. apply list_set_length. Qed.
End HeapAcc.

(** ** The expansion loop as a function of the stack *)
Section Loop.
Context {N : NumOps}.

(** The loop of [expand], reading the other objects in a fixed heap. *)
Fixpoint eloop (fuel : nat) (h : heap N) (stack : list (item N)) (acc : dict N)
  : res (dict N) :=
  match fuel with
  | O => Err EFuel
  | S n =>
      match stack with
      | [] => Ok acc
      | IPair c l' :: rest =>
          match get_lc h l' with
          | LDict d => rbind (acc_dict c d acc) (fun acc' => eloop n h rest acc')
          | LList its =>
              match push_items c (rev its) rest with
              | (st, None) => eloop n h st acc
              | (st, Some e) => Err e
              end
          end
      | _ :: _ => Err EType
      end
  end.

Definition refs_below (l : loc) (st : list (item N)) : Prop :=
  forall it, In it st -> match it with IPair _ l' => (l' < l)%nat | _ => True end.
Definition lists_below (h : heap N) (l : loc) : Prop :=
  forall l' its, (l' < l)%nat -> get_lc h l' = LList its -> refs_below l' its.

Lemma push_items_refs : forall c its st l st' oe,
  refs_below l its -> refs_below l st ->
  push_items c its st = (st', oe) -> refs_below l st'.
Proof.
  induction its as [|it its IH]; intros st l st' oe Hi Hs E; simpl in E.
  - injection E; intros; subst; auto.
  - assert (Ht : refs_below l its) by (intros x Hx; apply Hi; right; auto).
    destruct it as [c' l'| |].
    + destruct (pn_mul c c') as [p|e].
      * apply (IH _ _ _ _ Ht) in E; auto.
        intros x [Hx|Hx]; [subst|now apply Hs].
        exact (Hi _ (or_introl eq_refl)).
      * injection E; intros; subst; auto.
    + injection E; intros; subst; auto.
    + injection E; intros; subst; auto.
Qed.

Lemma refs_below_rev : forall l (st : list (item N)), refs_below l st -> refs_below l (rev st).
Proof. intros l st H it Hi. apply H. now apply in_rev. Qed.

Lemma refs_below_mono : forall l l' (st : list (item N)),
  (l <= l')%nat -> refs_below l st -> refs_below l' st.
Proof.
  intros l l' st Hl H it Hi. specialize (H it Hi). destruct it; auto. lia.
Qed.

(** The loop on the heap is the loop on the stack. *)
Lemma expand_loop_eloop : forall fuel (h0 : heap N) l st acc,
  (l < length (h_lc h0))%nat -> lists_below h0 l -> refs_below l st ->
  exists st' : list (item N),
  expand_loop fuel l acc (set_lc h0 l (LList st)) =
  match eloop fuel h0 st acc with
  | Ok d => (Ok tt, set_lc h0 l (LDict d))
  | Err e => (Err e, set_lc h0 l (LList st'))
  end.
Proof.
  induction fuel as [|n IH]; intros h0 l st acc Hl Hb Hr; simpl.
  - exists st; reflexivity.
  - rewrite get_set_eq by auto. destruct st as [|it rest].
    + exists []. now rewrite set_set.
    + assert (Hr' : refs_below l rest) by (intros x Hx; apply Hr; right; auto).
      rewrite set_set. destruct it as [c l'| |].
      2-3: exists rest; reflexivity.
      assert (Hl' : (l' < l)%nat) by exact (Hr _ (or_introl eq_refl)).
      rewrite get_set_neq by lia.
      destruct (get_lc h0 l') as [d|its] eqn:E.
      * destruct (acc_dict c d acc) as [acc'|e]; simpl.
        -- apply IH; auto.
        -- exists rest; reflexivity.
      * destruct (push_items c (rev its) rest) as [st' oe] eqn:Ep.
        assert (refs_below l st').
        { eapply push_items_refs; [|exact Hr'|exact Ep].
          apply refs_below_mono with (l := l'); [lia|].
          apply refs_below_rev. eapply Hb; eauto. }
        destruct oe as [e|].
        -- exists st'. now rewrite set_set.
        -- rewrite set_set. apply IH; auto.
Qed.

(** *** Termination *)
Variable P : pynum N -> Prop.
Hypothesis HP : coef_class P.

Definition item_ok' (l : loc) (it : item N) : Prop := item_ok P l it.
Definition wf_below (h : heap N) (l : loc) : Prop :=
  forall l', (l' < l)%nat -> lc_ok P (length (h_var h)) l' (get_lc h l').

Lemma wf_lists_below : forall h l, wf_below h l -> lists_below h l.
Proof.
  intros h l H l' its Hl E it Hi. specialize (H l' Hl). rewrite E in H. simpl in H.
  specialize (H it Hi). destruct it; simpl in *; tauto.
Qed.

Lemma usize_stable : forall (h : heap N) l, wf_below h l ->
  forall l' n m, (l' < l)%nat -> (l' <= n)%nat -> (l' <= m)%nat -> usize n h l' = usize m h l'.
Proof.
  intros h l H l'. revert l' l H.
  induction l' as [l' IH] using lt_wf_ind. intros l H n m Hl Hn Hm.
  assert (Wl := H l' Hl).
  destruct (get_lc h l') as [d|its] eqn:E.
  - destruct n, m; simpl; rewrite ?E; auto.
  - assert (Hits : forall it, In it its -> item_ok P l' it) by exact Wl.
    destruct n as [|n], m as [|m]; simpl; rewrite ?E.
    + reflexivity.
    + assert (l' = 0%nat) by lia. subst. destruct its as [|it its]; auto.
      specialize (Hits it (or_introl eq_refl)). destruct it; simpl in Hits; try tauto. lia.
    + assert (l' = 0%nat) by lia. subst. destruct its as [|it its]; auto.
      specialize (Hits it (or_introl eq_refl)). destruct it; simpl in Hits; try tauto. lia.
    + f_equal. f_equal. apply map_ext_in. intros it Hi. specialize (Hits it Hi).
      destruct it as [c k| |]; auto. simpl in Hits.
      apply (IH k) with (l := l'); try lia. intros k' Hk'. apply H. lia.
Qed.

Definition isize (h : heap N) (it : item N) : nat :=
  match it with IPair _ l' => usize l' h l' | _ => 0 end.
Definition ssize (h : heap N) (st : list (item N)) : nat := list_sum (map (isize h) st).

Lemma usize_pos : forall n (h : heap N) l, (0 < usize n h l)%nat.
Proof. destruct n; simpl; intros; [lia|]. destruct (get_lc h l); lia. Qed.

Lemma usize_list : forall (h : heap N) l l' its, wf_below h l -> (l' < l)%nat ->
  get_lc h l' = LList its -> usize l' h l' = S (ssize h its).
Proof.
  intros h l l' its H Hl E.
  rewrite (usize_stable h l H l' l' (S l')) by lia.
  simpl usize. rewrite E. f_equal. unfold ssize. f_equal. apply map_ext_in. intros it Hi.
  assert (Wl := H l' Hl). rewrite E in Wl. specialize (Wl it Hi).
  destruct it as [c k| |]; simpl; auto. simpl in Wl.
  apply usize_stable with (l := l'); try lia. intros k' Hk. apply H; lia.
Qed.

(** Pushing well-formed items succeeds and multiplies coefficients. *)
Definition scaled (c : pynum N) (it it' : item N) : Prop :=
  match it, it' with
  | IPair c0 l0, IPair c1 l1 => l1 = l0 /\ pn_mul c c0 = Ok c1
  | _, _ => False
  end.

Lemma push_items_ok : forall c l its st, P c ->
  (forall it, In it its -> item_ok P l it) ->
  exists its', push_items c its st = (rev its' ++ st, None) /\
    Forall2 (scaled c) its its' /\ (forall it, In it its' -> item_ok P l it).
Proof.
  intros c l its. induction its as [|it its IH]; intros st Hc Hi; simpl.
  - exists []. split; [reflexivity|]. split; [constructor|]. simpl; tauto.
  - assert (Hit := Hi it (or_introl eq_refl)). destruct it as [c' k| |]; simpl in Hit; try tauto.
    destruct Hit as [Hc' Hk]. destruct (cc_mul P HP c c' Hc Hc') as [p [Ep Hp]].
    rewrite Ep. destruct (IH (IPair p k :: st) Hc) as [its' [E [F G]]].
    { intros; apply Hi; right; auto. }
    exists (IPair p k :: its'). split; [|split].
    + rewrite E. simpl. now rewrite <- app_assoc.
    + constructor; simpl; auto.
    + intros x [Hx|Hx]; [subst; simpl; auto|auto].
Qed.

Lemma scaled_ssize : forall (h : heap N) c its its', Forall2 (scaled c) its its' ->
  ssize h its' = ssize h its.
Proof.
  intros h c its its' H. unfold ssize. induction H as [|x y l l' Hxy H IH]; simpl; auto.
  rewrite IH. f_equal. destruct x, y; simpl in *; try tauto.
  destruct Hxy as [-> _]; reflexivity.
Qed.

Lemma ssize_app : forall (h : heap N) a b, ssize h (a ++ b) = (ssize h a + ssize h b)%nat.
Proof. intros. unfold ssize. rewrite map_app, list_sum_app. reflexivity. Qed.

Lemma ssize_rev : forall (h : heap N) a, ssize h (rev a) = ssize h a.
Proof.
  intros. induction a; simpl; auto. rewrite ssize_app, IHa. unfold ssize; simpl. lia.
Qed.

Lemma acc_dict_ok : forall c d acc, P c -> exists acc', acc_dict c d acc = Ok acc'.
Proof.
  intros c d. induction d as [|[v f] d IH]; intros acc Hc; simpl; [eauto|].
  destruct (cc_float P HP c Hc) as [x Ex]. unfold cmul. rewrite Ex. simpl. apply IH; auto.
Qed.

Definition stack_ok (l : loc) (st : list (item N)) : Prop :=
  forall it, In it st -> item_ok P l it.

(** Main invariant of the loop, for an arbitrary relation preserved by both kinds of step. *)
Lemma eloop_ind : forall (h : heap N) l, wf_below h l ->
  forall (Q : list (item N) -> dict N -> Prop),
  (forall c l' d rest acc acc', (l' < l)%nat -> P c -> get_lc h l' = LDict d ->
     stack_ok l rest -> Q (IPair c l' :: rest) acc -> acc_dict c d acc = Ok acc' ->
     Q rest acc') ->
  (forall c l' its its' rest acc, (l' < l)%nat -> P c -> get_lc h l' = LList its ->
     stack_ok l rest -> Q (IPair c l' :: rest) acc -> Forall2 (scaled c) its its' ->
     Q (its' ++ rest) acc) ->
  forall fuel st acc, stack_ok l st -> (ssize h st < fuel)%nat -> Q st acc ->
  exists d, eloop fuel h st acc = Ok d /\ Q [] d.
Proof.
  intros h l Hw Q Hd Hl fuel. induction fuel as [|n IH]; intros st acc Hs Hf HQ; [lia|].
  simpl. destruct st as [|it rest]; [eauto|].
  assert (Hrest : stack_ok l rest) by (intros x Hx; apply Hs; right; auto).
  assert (Hit := Hs it (or_introl eq_refl)). destruct it as [c l'| |]; simpl in Hit; try tauto.
  destruct Hit as [Hc Hl'].
  destruct (get_lc h l') as [d|its] eqn:E.
  - destruct (acc_dict_ok c d acc Hc) as [acc' Ea]. rewrite Ea. simpl.
    apply IH; auto.
    + unfold ssize in *. simpl in Hf. pose proof (usize_pos l' h l'). lia.
    + eapply Hd; eauto.
  - assert (Wl := Hw l' Hl'). rewrite E in Wl.
    destruct (push_items_ok c l' (rev its) rest Hc) as [its0 [Ep [F G]]].
    { intros it Hi. apply Wl. now apply in_rev. }
    rewrite Ep.
    assert (F' : Forall2 (scaled c) its (rev its0)).
    { rewrite <- (rev_involutive its). now apply Forall2_rev. }
    apply IH.
    + intros it Hi. apply in_app_or in Hi as [Hi|Hi]; [|auto].
      apply in_rev in Hi. specialize (G it Hi).
      destruct it; simpl in *; try tauto. split; [tauto|lia].
    + rewrite ssize_app, (scaled_ssize h c its (rev its0)) by auto.
      assert (Hu := usize_list h l l' its Hw Hl' E).
      unfold ssize in *. simpl in Hf. lia.
    + eapply Hl; eauto.
Qed.

(** *** Dependence *)
Definition dep_stack (h : heap N) (st : list (item N)) (v : varid) : Prop :=
  exists c l', In (IPair c l') st /\ dep h l' v.

Lemma acc_dict_keys : forall c (d acc acc' : dict N), acc_dict c d acc = Ok acc' ->
  (NoDup (dkeys acc) -> NoDup (dkeys acc')) /\
  (forall v, In v (dkeys acc') <-> In v (dkeys acc) \/ In v (dkeys d)).
Proof.
  intros c d. induction d as [|[v f] d IH]; intros acc acc' E; simpl in E.
  - injection E; intros; subst. simpl. intuition.
  - destruct (cmul c f) as [x|e]; simpl in E; [|discriminate].
    apply IH in E. destruct E as [E1 E2]. split.
    + intros. apply E1. now apply dset_NoDup.
    + intros v0. rewrite E2, dkeys_dset. simpl. intuition.
Qed.

Lemma eloop_keys : forall (h : heap N) l fuel st, wf_below h l -> stack_ok l st ->
  (ssize h st < fuel)%nat ->
  exists d, eloop fuel h st [] = Ok d /\ NoDup (dkeys d) /\
    (forall v, In v (dkeys d) <-> dep_stack h st v).
Proof.
  intros h l fuel st Hw Hs Hf.
  destruct (eloop_ind h l Hw
    (fun st' acc => NoDup (dkeys acc) /\
       forall v, (In v (dkeys acc) \/ dep_stack h st' v) <-> dep_stack h st v))
    with (fuel := fuel) (st := st) (acc := @nil (varid * num N)) as [d [E [ND K]]]; auto.
  - intros c l' d rest acc acc' Hl Hc Eg Hr [ND K] Ea.
    destruct (acc_dict_keys _ _ _ _ Ea) as [A1 A2]. split; auto.
    intros v. rewrite <- K, A2. split.
    + intros [[H|H]|[c0 [k [I D]]]]; auto.
      * right. exists c, l'. split; [left; auto|]. eapply dep_dict; eauto.
      * right. exists c0, k. split; [right|]; auto.
    + intros [H|[c0 [k [[I|I] D]]]]; auto.
      * injection I; intros; subst. left; right.
        inversion D; subst; congruence.
      * right. exists c0, k; auto.
  - intros c l' its its' rest acc Hl Hc Eg Hr [ND K] F. split; auto.
    intros v. rewrite <- K. split; (intros [H|[c0 [k [I D]]]]; [tauto|]); right.
    + apply in_app_or in I as [I|I].
      * exists c, l'. split; [left; auto|].
        clear - F I D Eg.
        assert (H : exists c1, In (IPair c1 k) its).
        { clear - F I. induction F as [|x y a b Hxy F IH]; simpl in *; [tauto|].
          destruct I as [I|I].
          - subst. destruct x as [c1 l1| |]; simpl in Hxy; try tauto.
            destruct Hxy as [-> _]. eauto.
          - destruct (IH I) as [c1 ?]. eauto. }
        destruct H as [c1 H]. eapply dep_list; eauto.
      * exists c0, k. split; [right; auto|auto].
    + destruct I as [I|I].
      * injection I; intros; subst c0 k.
        inversion D as [? ? ? G1 G2|? its1 c1 l1 ? G1 G2 G3]; subst; [congruence|].
        rewrite Eg in G1. injection G1; intros; subst its1.
        assert (H : exists c2, In (IPair c2 l1) its').
        { clear - F G2. induction F as [|x y a b Hxy F IH]; simpl in *; [tauto|].
          destruct G2 as [I|I].
          - subst. destruct y as [c2 l2| |]; simpl in Hxy; try tauto.
            destruct Hxy as [-> _]. eauto.
          - destruct (IH I) as [c2 ?]. eauto. }
        destruct H as [c2 H]. exists c2, l1. split; auto. apply in_or_app; auto.
      * exists c0, k. split; auto. apply in_or_app; auto.
  - split; [constructor|]. intros v. simpl. tauto.
  - exists d. split; auto. split; auto. intros v. rewrite <- K.
    split; auto. intros [H|[c [l' [[] _]]]]; auto.
Qed.
End Loop.

(** ** Reading derivatives: any number domain *)
Section Generic.
Context {N : NumOps}.
Variable P : pynum N -> Prop.
Hypothesis HP : coef_class P.

Lemma wf_below_of_wf : forall (h : heap N) l, wf P h -> (l <= length (h_lc h))%nat ->
  wf_below P h l.
Proof. intros h l W Hl l' Hl'. apply (wf_lc P h W). lia. Qed.

Lemma wf_list_ok : forall (h : heap N) l its, wf P h -> (l < length (h_lc h))%nat ->
  get_lc h l = LList its -> stack_ok P l its.
Proof. intros h l its W Hl E it Hi. pose proof (wf_lc P h W l Hl) as X. rewrite E in X. auto. Qed.

(** Fuel that suffices to read the derivatives of a linear part. *)
Definition need (h : heap N) (l : loc) : nat :=
  match get_lc h l with LDict _ => 0 | LList its => S (ssize h its) end.

Theorem lc_derivatives_total : forall (h : heap N) l fuel, wf P h ->
  (l < length (h_lc h))%nat -> (need h l <= fuel)%nat ->
  exists d, lc_derivatives fuel l h =
      (Ok d, match get_lc h l with LDict _ => h | LList _ => set_lc h l (LDict d) end) /\
    (match get_lc h l with LDict d' => d = d' | LList its => eloop fuel h its [] = Ok d end) /\
    NoDup (dkeys d) /\ (forall v, In v (dkeys d) <-> dep h l v).
Proof.
  intros h l fuel W Hl Hf. unfold lc_derivatives, need in *.
  destruct (get_lc h l) as [d|its] eqn:E.
  - exists d. split; [reflexivity|]. split; [reflexivity|].
    pose proof (wf_lc P h W l Hl) as X. rewrite E in X. destruct X as [X1 X2].
    split; auto. intros v. split; intros H.
    + eapply dep_dict; eauto.
    + inversion H; subst; congruence.
  - pose proof (wf_below_of_wf h l W (Nat.lt_le_incl _ _ Hl)) as Wb.
    pose proof (wf_list_ok h l its W Hl E) as So.
    destruct (eloop_keys P HP h l fuel its Wb So Hf) as [d [Ed [ND K]]].
    exists d.
    assert (Eh : h = set_lc h l (LList its)) by (rewrite <- E; symmetry; now apply set_self).
    destruct (expand_loop_eloop fuel h l its [] Hl (wf_lists_below P h l Wb)) as [st' Ee].
    { intros it Hi. specialize (So it Hi). destruct it; simpl in *; tauto. }
    rewrite <- Eh, Ed in Ee. rewrite Ee. rewrite get_set_eq by auto.
    split; [reflexivity|]. split; [auto|]. split; [auto|].
    intros v. rewrite K. split.
    + intros [c [l' [I D]]]. eapply dep_list; eauto.
    + intros D. inversion D as [|? its' c l' ? G1 G2 G3]; subst; [congruence|].
      rewrite E in G1. injection G1; intros; subst. exists c, l'. auto.
Qed.

(** Replacing a linear combination by a dict with the same variables changes no
    dependence. *)
Lemma dep_set_dict : forall (h : heap N) l d, (l < length (h_lc h))%nat ->
  (forall v, In v (dkeys d) <-> dep h l v) ->
  forall l' v, dep (set_lc h l (LDict d)) l' v <-> dep h l' v.
Proof.
  intros h l d Hl K l' v. split; intros D.
  - induction D as [l0 d0 v G I|l0 its c l1 v G I D IH].
    + destruct (Nat.eq_dec l l0) as [->|Hn].
      * rewrite get_set_eq in G by auto. injection G; intros; subst. now apply K.
      * rewrite get_set_neq in G by auto. eapply dep_dict; eauto.
    + destruct (Nat.eq_dec l l0) as [->|Hn].
      * rewrite get_set_eq in G by auto. discriminate.
      * rewrite get_set_neq in G by auto. eapply dep_list; eauto.
  - induction D as [l0 d0 v G I|l0 its c l1 v G I D IH].
    + destruct (Nat.eq_dec l l0) as [->|Hn].
      * apply dep_dict with (d := d); [now apply get_set_eq|].
        apply K. eapply dep_dict; eauto.
      * eapply dep_dict; [rewrite get_set_neq by auto; eauto|auto].
    + destruct (Nat.eq_dec l l0) as [->|Hn].
      * apply dep_dict with (d := d); [now apply get_set_eq|].
        apply K. eapply dep_list; eauto.
      * eapply dep_list; [rewrite get_set_neq by auto; eauto|eauto|auto].
Qed.

Lemma dep_bound : forall (h : heap N) l v, wf P h -> (l < length (h_lc h))%nat ->
  dep h l v -> (v < length (h_var h))%nat.
Proof.
  intros h l v W Hl D. induction D as [l d v G I|l its c l1 v G I D IH].
  - pose proof (wf_lc P h W l Hl) as X. rewrite G in X. now apply X.
  - apply IH. pose proof (wf_lc P h W l Hl) as X. rewrite G in X.
    specialize (X _ I). simpl in X. lia.
Qed.

(** Allocation does not change existing objects. *)
Lemma get_alloc_old : forall (h : heap N) x l, (l < length (h_lc h))%nat ->
  get_lc (mkHeap (h_lc h ++ [x]) (h_var h)) l = get_lc h l.
Proof. intros. unfold get_lc; simpl. now rewrite app_nth1. Qed.
Lemma get_alloc_new : forall (lcs : list (lc N)) x vs,
  get_lc (mkHeap (lcs ++ [x]) vs) (length lcs) = x.
Proof. intros. unfold get_lc; simpl. rewrite app_nth2, Nat.sub_diag; auto. Qed.

(** Two heaps that agree below a bound have the same dependences there. *)
Lemma dep_agree : forall (h h' : heap N) b,
  wf_below P h b ->
  (forall l, (l < b)%nat -> get_lc h' l = get_lc h l) ->
  forall l v, (l < b)%nat -> (dep h' l v <-> dep h l v).
Proof.
  intros h h' b W A l v Hl. split; intros D.
  - induction D as [l d v G I|l its c l1 v G I D IH].
    + rewrite A in G by auto. eapply dep_dict; eauto.
    + rewrite A in G by auto. eapply dep_list; eauto. apply IH.
      pose proof (W l Hl) as X. rewrite G in X. specialize (X _ I). simpl in X. lia.
  - induction D as [l d v G I|l its c l1 v G I D IH].
    + eapply dep_dict; eauto. rewrite A; auto.
    + eapply dep_list; [rewrite A by auto; eauto|eauto|]. apply IH.
      pose proof (W l Hl) as X. rewrite G in X. specialize (X _ I). simpl in X. lia.
Qed.

(** Well-formedness is kept by expansion, allocation and creation of variables. *)
Lemma wf_set_dict : forall (h : heap N) l d its, wf P h -> (l < length (h_lc h))%nat ->
  get_lc h l = LList its ->
  NoDup (dkeys d) -> (forall v, In v (dkeys d) <-> dep h l v) ->
  wf P (set_lc h l (LDict d)).
Proof.
  intros h l d its W Hl E ND K. split.
  - intros l' Hl'. rewrite set_lc_length in Hl'. simpl h_var.
    destruct (Nat.eq_dec l l') as [->|Hn].
    + rewrite get_set_eq by auto. split; auto. intros v Hv. apply K in Hv.
      eapply dep_bound; eauto.
    + rewrite get_set_neq by auto. now apply (wf_lc P h W).
  - intros v o G. destruct (wf_var P h W v o G) as [A B]. split.
    + now rewrite set_lc_length.
    + rewrite get_set_neq; auto. intros ->. congruence.
Qed.

Lemma wf_alloc : forall (h : heap N) x, wf P h ->
  lc_ok P (length (h_var h)) (length (h_lc h)) x ->
  wf P (mkHeap (h_lc h ++ [x]) (h_var h)).
Proof.
  intros h x W Hx. split.
  - intros l Hl. simpl in Hl. rewrite app_length in Hl; simpl in Hl.
    destruct (Nat.eq_dec l (length (h_lc h))) as [->|Hn].
    + destruct h as [lcs vs]; simpl. rewrite get_alloc_new. exact Hx.
    + rewrite get_alloc_old by lia. apply (wf_lc P h W). lia.
  - intros v o G. destruct (wf_var P h W v o G) as [A B]. split.
    + simpl. rewrite app_length. lia.
    + rewrite get_alloc_old; auto.
Qed.

Lemma lc_ok_mono : forall nv nv' l (x : lc N), (nv <= nv')%nat ->
  lc_ok P nv l x -> lc_ok P nv' l x.
Proof.
  intros nv nv' l [d|its] H; simpl; auto. intros [A B]. split; auto.
  intros v Hv. specialize (B v Hv). lia.
Qed.

End Generic.
