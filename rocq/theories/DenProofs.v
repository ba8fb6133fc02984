(** Proofs about lazy expansion in exact arithmetic: the derivatives dict is the denotation
    of the linear combination, and expansion does not change any denotation. *)
From Coq Require Import ZArith List Bool Reals Arith Lia Lra.
From Verif Require Import Base Heap NumR HeapSpec HeapProofs.
Import ListNotations.

Section Den.
Context {g lg : R -> R}.
Notation RN := (ROps g lg).
Local Open Scope R_scope.

(** In the reals every coefficient multiplies and converts. *)
Definition anyc : pynum RN -> Prop := fun _ => True.
Lemma anyc_class : coef_class anyc.
Proof.
  split.
  - intros [x|x] [y|y] _ _; simpl; eexists; split; try reflexivity; exact I.
  - intros [x|x] _; simpl; eauto.
Qed.

Lemma pn_mul_R : forall a b p : pynum RN, pn_mul a b = Ok p -> pval p = pval a * pval b.
Proof.
  intros [x|x] [y|y] p E; simpl in E; injection E; intros; subst; simpl; auto.
  apply mult_IZR.
Qed.

Definition iden (h : heap RN) (v : varid) (it : item RN) : R :=
  match it with IPair c l' => pval c * den h l' v | _ => 0 end.
Definition sden (h : heap RN) (st : list (item RN)) (v : varid) : R :=
  Rsum (map (iden h v) st).

Lemma uden_stable : forall (h : heap RN) l v, wf_below anyc h l ->
  forall l' n m, (l' < l)%nat -> (l' <= n)%nat -> (l' <= m)%nat ->
  uden n h l' v = uden m h l' v.
Proof.
  intros h l v H l'. revert l' l H.
  induction l' as [l' IH] using lt_wf_ind. intros l H n m Hl Hn Hm.
  assert (Wl := H l' Hl).
  destruct (get_lc h l') as [d|its] eqn:E.
  - destruct n, m; simpl; rewrite ?E; auto.
  - assert (Hits : forall it, In it its -> item_ok anyc l' it) by exact Wl.
    destruct n as [|n], m as [|m]; simpl; rewrite ?E.
    + reflexivity.
    + assert (l' = 0%nat) by lia. subst. destruct its as [|it its]; auto.
      specialize (Hits it (or_introl eq_refl)). destruct it; simpl in Hits; try tauto. lia.
    + assert (l' = 0%nat) by lia. subst. destruct its as [|it its]; auto.
      specialize (Hits it (or_introl eq_refl)). destruct it; simpl in Hits; try tauto. lia.
    + f_equal. apply map_ext_in. intros it Hi. specialize (Hits it Hi).
      destruct it as [c k| |]; auto. simpl in Hits. f_equal.
      apply (IH k) with (l := l'); try lia. intros k' Hk'. apply H. lia.
Qed.

Lemma den_dict : forall (h : heap RN) l d v, get_lc h l = LDict d -> den h l v = dval d v.
Proof. intros h l d v E. unfold den. destruct l; simpl; rewrite E; auto. Qed.

Lemma den_list : forall (h : heap RN) l its v, lc_ok anyc (length (h_var h)) l (LList its) ->
  wf_below anyc h l -> get_lc h l = LList its -> den h l v = sden h its v.
Proof.
  intros h l its v Hok H E. unfold den, sden. simpl in Hok.
  destruct l as [|l].
  - simpl. rewrite E. destruct its as [|it its]; auto.
    specialize (Hok it (or_introl eq_refl)). destruct it; simpl in Hok; try tauto. lia.
  - simpl uden. rewrite E. f_equal. apply map_ext_in. intros it Hi.
    specialize (Hok it Hi). destruct it as [c k| |]; simpl in *; auto.
    f_equal. unfold den. apply uden_stable with (l := S l); try lia; auto.
Qed.

Lemma Rsum_app : forall a b, Rsum (a ++ b) = Rsum a + Rsum b.
Proof. induction a; simpl; intros; [lra|]. rewrite IHa. lra. Qed.

Lemma sden_app : forall h a b v, sden h (a ++ b) v = sden h a v + sden h b v.
Proof. intros. unfold sden. now rewrite map_app, Rsum_app. Qed.

Lemma sden_scaled : forall h c its its' v, Forall2 (scaled c) its its' ->
  sden h its' v = pval c * sden h its v.
Proof.
  intros h c its its' v F. unfold sden.
  induction F as [|x y a b Hxy F IH]; simpl; [lra|].
  rewrite IH. destruct x, y; simpl in *; try tauto. destruct Hxy as [-> Hm].
  rewrite (pn_mul_R _ _ _ Hm). lra.
Qed.

Lemma dval_dset : forall (d : dict RN) k x v,
  dval (dset d k x) v = if Nat.eqb v k then x else dval d v.
Proof.
  intros. unfold dval. destruct (Nat.eqb v k) eqn:E.
  - apply Nat.eqb_eq in E; subst. now rewrite dget_dset_eq.
  - apply Nat.eqb_neq in E. now rewrite dget_dset_neq by auto.
Qed.

Lemma dval_cons : forall k x (d : dict RN) v,
  dval ((k, x) :: d) v = if Nat.eqb v k then x else dval d v.
Proof. intros. unfold dval; simpl. destruct (Nat.eqb v k); auto. Qed.

Lemma acc_dict_R : forall c (d acc acc' : dict RN), acc_dict c d acc = Ok acc' ->
  NoDup (dkeys d) ->
  forall v, dval acc' v = dval acc v + pval c * dval d v.
Proof.
  intros c d. induction d as [|[k f] d IH]; intros acc acc' E ND v; simpl in E.
  - injection E; intros; subst. change (dval [] v) with 0. lra.
  - inversion ND as [|? ? Hk ND']; subst.
    assert (Ec : cmul c f = Ok (pval c * f)) by (destruct c; reflexivity).
    rewrite Ec in E. simpl in E.
    rewrite (IH _ _ E) by auto. rewrite dval_dset, dval_cons.
    destruct (Nat.eqb v k) eqn:Ek; [|reflexivity].
    apply Nat.eqb_eq in Ek; subst.
    assert (Z0 : dval d k = 0).
    { unfold dval. destruct (dget d k) eqn:Eg; auto. exfalso. apply Hk.
      apply dget_In_keys. eauto. }
    rewrite Z0. unfold dval. simpl. destruct (dget acc k); lra.
Qed.

Lemma eloop_den : forall (h : heap RN) l fuel st, wf_below anyc h l -> stack_ok anyc l st ->
  (ssize h st < fuel)%nat ->
  exists d, eloop fuel h st [] = Ok d /\ (forall v, dval d v = sden h st v).
Proof.
  intros h l fuel st Hw Hs Hf.
  destruct (eloop_ind anyc anyc_class h l Hw
    (fun st' acc => forall v, dval acc v + sden h st' v = sden h st v))
    with (fuel := fuel) (st := st) (acc := @nil (varid * num RN)) as [d [E K]]; auto.
  - intros c l' d rest acc acc' Hl Hc Eg Hr K Ea v. rewrite <- K.
    assert (Wl := Hw l' Hl). rewrite Eg in Wl. destruct Wl as [ND _].
    rewrite (acc_dict_R _ _ _ _ Ea ND). unfold sden; simpl.
    rewrite (den_dict h l' d v Eg). lra.
  - intros c l' its its' rest acc Hl Hc Eg Hr K F v. rewrite <- K.
    assert (Wl := Hw l' Hl). rewrite Eg in Wl.
    rewrite sden_app, (sden_scaled h c its its' v F).
    unfold sden at 3; simpl. fold (sden h rest v).
    rewrite (den_list h l' its v Wl); auto. intros k Hk. apply Hw; lia.
  - intros v. unfold dval; simpl. lra.
  - exists d. split; auto. intros v. rewrite <- K. unfold sden; simpl. lra.
Qed.

(** Reading derivatives in exact arithmetic. *)
Theorem lc_derivatives_R : forall (h : heap RN) l fuel, wf anyc h ->
  (l < length (h_lc h))%nat -> (need h l <= fuel)%nat ->
  exists d, lc_derivatives fuel l h =
      (Ok d, match get_lc h l with LDict _ => h | LList _ => set_lc h l (LDict d) end) /\
    NoDup (dkeys d) /\ (forall v, In v (dkeys d) <-> dep h l v) /\
    (forall v, dval d v = den h l v).
Proof.
  intros h l fuel W Hl Hf.
  destruct (lc_derivatives_total anyc anyc_class h l fuel W Hl Hf) as [d [E [Ev [ND K]]]].
  exists d. repeat (split; auto). intros v. unfold need in Hf.
  destruct (get_lc h l) as [d'|its] eqn:Eg.
  - subst. symmetry. now apply den_dict.
  - pose proof (wf_below_of_wf anyc h l W (Nat.lt_le_incl _ _ Hl)) as Wb.
    pose proof (wf_list_ok anyc h l its W Hl Eg) as So.
    destruct (eloop_den h l fuel its Wb So Hf) as [d2 [E2 K2]].
    rewrite Ev in E2. injection E2; intros; subst.
    rewrite K2. symmetry. apply den_list; auto.
Qed.

Lemma den_agree : forall (h h' : heap RN) b v, wf_below anyc h b ->
  (forall l, (l < b)%nat -> get_lc h' l = get_lc h l) ->
  forall l, (l < b)%nat -> den h' l v = den h l v.
Proof.
  intros h h' b v W A l Hl. unfold den.
  assert (G : forall n l, (l < b)%nat -> uden n h' l v = uden n h l v).
  { induction n as [|n IH]; intros l0 Hl0; simpl; rewrite A by auto.
    - destruct (get_lc h l0); auto.
    - destruct (get_lc h l0) as [d|its] eqn:E; auto.
      f_equal. apply map_ext_in. intros it Hi.
      pose proof (W l0 Hl0) as X. rewrite E in X. specialize (X it Hi).
      destruct it as [c k| |]; auto. simpl in X. rewrite IH by lia. reflexivity. }
  apply G; auto.
Qed.

Lemma den_set_dict : forall (h : heap RN) l d v, wf anyc h -> (l < length (h_lc h))%nat ->
  (forall u, dval d u = den h l u) ->
  forall l', (l' < length (h_lc h))%nat -> den (set_lc h l (LDict d)) l' v = den h l' v.
Proof.
  intros h l d v W Hl K l'. induction l' as [l' IH] using lt_wf_ind. intros Hl'.
  destruct (Nat.eq_dec l l') as [->|Hn].
  - rewrite (den_dict _ l' d); [auto|]. now apply get_set_eq.
  - destruct (get_lc h l') as [d'|its] eqn:E.
    + rewrite (den_dict h l' d' v E). apply den_dict. rewrite get_set_neq; auto.
    + pose proof (wf_lc anyc h W l' Hl') as X. rewrite E in X.
      rewrite (den_list h l' its v X); auto.
      2: { eapply wf_below_of_wf; eauto; lia. }
      set (h' := set_lc h l (LDict d)) in *.
      assert (Eg : get_lc h' l' = LList its) by (unfold h'; rewrite get_set_neq; auto).
      (* unfold one level of the denotation in the new heap, using the old bounds *)
      assert (S1 : den h' l' v = sden h' its v).
      { unfold den, sden. destruct l' as [|k].
        - simpl. rewrite Eg. destruct its as [|it its']; auto.
          specialize (X it (or_introl eq_refl)). destruct it; simpl in X; try tauto. lia.
        - simpl uden. rewrite Eg. f_equal. apply map_ext_in. intros it Hi.
          specialize (X it Hi). destruct it as [c j| |]; simpl in *; auto. f_equal.
          unfold den.
          assert (G : forall j n m, (j < length (h_lc h))%nat -> (j <= n)%nat ->
                    (j <= m)%nat -> uden n h' j v = uden m h' j v).
          { clear - W Hl. subst h'. induction j as [j IHj] using lt_wf_ind.
            intros n m Hj Hn Hm. set (h' := set_lc h l (LDict d)).
            destruct (Nat.eq_dec l j) as [->|Hne].
            - assert (Q : get_lc h' j = LDict d) by (apply get_set_eq; auto).
              destruct n, m; simpl; rewrite ?Q; auto.
            - assert (Q : get_lc h' j = get_lc h j) by (apply get_set_neq; auto).
              pose proof (wf_lc anyc h W j Hj) as X.
              destruct (get_lc h j) as [dd|its] eqn:Ej.
              + destruct n, m; simpl; rewrite ?Q; auto.
              + destruct n as [|n], m as [|m]; simpl; rewrite ?Q; auto.
                * assert (j = 0%nat) by lia; subst. destruct its as [|it its]; auto.
                  specialize (X it (or_introl eq_refl)).
                  destruct it; simpl in X; try tauto; lia.
                * assert (j = 0%nat) by lia; subst. destruct its as [|it its]; auto.
                  specialize (X it (or_introl eq_refl)).
                  destruct it; simpl in X; try tauto; lia.
                * f_equal. apply map_ext_in. intros it Hi. specialize (X it Hi).
                  destruct it as [c k| |]; auto. simpl in X. f_equal.
                  apply IHj; lia. }
          apply G; lia. }
      rewrite S1. unfold sden. f_equal. apply map_ext_in. intros it Hi.
      specialize (X it Hi). destruct it as [c j| |]; simpl in *; auto.
      f_equal. apply IH; lia.
Qed.

Lemma Rsum_zero : forall l, (forall x, In x l -> x = 0) -> Rsum l = 0.
Proof.
  induction l as [|x l IH]; simpl; intros H; auto.
  rewrite (H x) by auto. rewrite IH by auto. lra.
Qed.

Lemma den_not_dep : forall (h : heap RN) l v, wf anyc h -> (l < length (h_lc h))%nat ->
  ~ dep h l v -> den h l v = 0.
Proof.
  intros h l v W. induction l as [l IH] using lt_wf_ind. intros Hl D.
  destruct (get_lc h l) as [d|its] eqn:E.
  - rewrite (den_dict h l d v E). unfold dval. destruct (dget d v) eqn:Eg; auto.
    exfalso. apply D. eapply dep_dict; eauto. apply dget_In_keys; eauto.
  - pose proof (wf_lc anyc h W l Hl) as X. rewrite E in X.
    rewrite (den_list h l its v X); auto.
    2: { eapply wf_below_of_wf; eauto; lia. }
    unfold sden. apply Rsum_zero. intros x Hx. apply in_map_iff in Hx as [it [Hx Hi]].
    specialize (X it Hi). destruct it as [c j| |]; simpl in *; subst; auto.
    rewrite IH; [lra|tauto|lia|]. intros Dj. apply D. eapply dep_list; eauto.
Qed.
End Den.
