(** In every reachable state, for any arithmetic (binary64 included), terms refer to linear
    combinations created before. *)
From Coq Require Import ZArith List Bool Arith Lia Sorted.
From Verif Require Import Base Heap Affine Ops UMath HeapProofs Machine Cov Copy Calls Unumpy UMatrix History
  CallProofs Conc ConcSpec.
Import ListNotations.

Section Ordered.
Context {N : NumOps}.
Implicit Types h : heap N.

Definition okv h (a : value N) : Prop :=
  match a with VUF u => (uf_lp u < length (h_lc h))%nat | VPlain _ => True end.
Definition oku h (u : uf N) : Prop := (uf_lp u < length (h_lc h))%nat.
(** All terms are pairs that refer to older linear combinations. *)
Definition okt (l : nat) (it : item N) : Prop :=
  match it with IPair _ l' => (l' < l)%nat | _ => False end.
Definition pairs h : Prop := forall l its it, get_lc h l = LList its -> In it its -> okt l it.
Definition okh h : Prop :=
  pairs h /\ forall v o, get_var h v = Some o ->
    (v_lp o < length (h_lc h))%nat /\ expanded (get_lc h (v_lp o)) = true.
Definition grows h h' : Prop := (length (h_lc h) <= length (h_lc h'))%nat.

Lemma okv_grows : forall h h' a, grows h h' -> okv h a -> okv h' a.
Proof. intros h h' [p|u] G H; simpl in *; auto. unfold grows in G. lia. Qed.

Definition keeps {A} h (m : M N A) (Q : heap N -> A -> Prop) : Prop :=
  okh h -> okh (snd (m h)) /\ grows h (snd (m h)) /\ forall a, fst (m h) = Ok a -> Q (snd (m h)) a.

Lemma keeps_pure : forall A h (r : res A) (Q : heap N -> A -> Prop),
  (forall a, r = Ok a -> Q h a) -> keeps h (fun h => (r, h)) Q.
Proof. intros A h r Q H O. simpl. split; [auto|]. split; [unfold grows; lia|auto]. Qed.
Lemma keeps_ret : forall A h (a : A) (Q : heap N -> A -> Prop), Q h a -> keeps h (ret a) Q.
Proof. intros A h a Q H. apply keeps_pure. intros a' E. now inversion E; subst. Qed.
Lemma keeps_raise : forall A h e (Q : heap N -> A -> Prop), keeps h (raise e) Q.
Proof. intros A h e Q. apply keeps_pure. discriminate. Qed.
Lemma keeps_bind : forall A B h (m : M N A) (k : A -> M N B) Q Q',
  keeps h m Q -> (forall a h', grows h h' -> Q h' a -> keeps h' (k a) Q') ->
  keeps h (bind m k) Q'.
Proof.
  intros A B h m k Q Q' Hm Hk O. unfold bind. destruct (Hm O) as [O1 [G1 P1]].
  destruct (m h) as [[a|e] h1]; simpl in *.
  - destruct (Hk a h1 G1 (P1 a eq_refl) O1) as [O2 [G2 P2]]. split; [auto|].
    split; [unfold grows in *; lia|auto].
  - split; [auto|]. split; [auto|discriminate].
Qed.
Lemma keeps_weaken : forall A h (m : M N A) (Q Q' : heap N -> A -> Prop),
  keeps h m Q -> (forall h' a, grows h h' -> Q h' a -> Q' h' a) -> keeps h m Q'.
Proof. intros A h m Q Q' H W O. destruct (H O) as [A1 [A2 A3]]. split; [|split]; auto. Qed.

(** Allocation. *)
Definition okx (l : nat) (x : lc N) : Prop :=
  match x with LDict _ => True | LList its => forall it, In it its -> okt l it end.
Lemma ordered_grown : forall h lcs objs, pairs h ->
  (forall k x, nth_error lcs k = Some x -> okx (length (h_lc h) + k) x) ->
  pairs (mkHeap (h_lc h ++ lcs) objs).
Proof.
  intros h lcs objs O H l its it G I. unfold get_lc in G. simpl in G.
  destruct (Nat.lt_ge_cases l (length (h_lc h))) as [L|L].
  - rewrite app_nth1 in G by auto. exact (O l its it G I).
  - rewrite app_nth2 in G by auto. destruct (nth_error lcs (l - length (h_lc h))) as [x|] eqn:E.
    + pose proof (H _ _ E) as X. rewrite (nth_error_nth _ _ _ E) in G. subst x. simpl in X.
      specialize (X it I). now replace (length (h_lc h) + (l - length (h_lc h)))%nat with l in X by lia.
    + apply nth_error_None in E. rewrite nth_overflow in G by auto. discriminate.
Qed.
Lemma okh_alloc : forall h x, okh h -> okx (length (h_lc h)) x ->
  okh (mkHeap (h_lc h ++ [x]) (h_var h)).
Proof.
  intros h x [O V] X. split.
  - apply ordered_grown; auto. intros [|[|k]] y E; simpl in E; inversion E; subst.
    now rewrite Nat.add_0_r.
  - intros v o E. destruct (V v o E) as [V1 V2]. simpl. rewrite app_length. split; [lia|].
    unfold get_lc in *; simpl. now rewrite app_nth1.
Qed.
Lemma okh_set : forall h l x, okh h -> okx l x ->
  (expanded x = false -> expanded (get_lc h l) = false) -> okh (set_lc h l x).
Proof.
  intros h l x [O V] X Y. split.
  - intros l1 its it G I. destruct (Nat.eq_dec l1 l) as [->|Hn].
    + destruct (Nat.lt_ge_cases l (length (h_lc h))) as [L|L].
      * rewrite get_set_eq in G by auto. subst x. simpl in X. eauto.
      * unfold get_lc in G. rewrite nth_overflow in G by (rewrite set_lc_length; auto). discriminate.
    + rewrite get_set_neq in G by auto. exact (O _ _ _ G I).
  - intros v o E. rewrite set_lc_length. destruct (V v o E) as [V1 V2]. split; [auto|].
    destruct (Nat.eq_dec (v_lp o) l) as [<-|Hn].
    + rewrite get_set_eq by auto. destruct (expanded x) eqn:Ex; auto. rewrite Y in V2; auto.
    + rewrite get_set_neq by auto. auto.
Qed.
Lemma grows_set : forall h l x, grows h (set_lc h l x).
Proof. intros. unfold grows. rewrite set_lc_length. lia. Qed.

(** The expansion. *)
Lemma push_items_below : forall c its st l st' oe,
  (forall it, In it its -> okt l it) -> (forall it, In it st -> okt l it) ->
  push_items (N:=N) c its st = (st', oe) -> forall it, In it st' -> okt l it.
Proof.
  intros c its. induction its as [|it its IH]; intros st l st' oe Hi Hs E; simpl in E.
  - inversion E; subst; auto.
  - destruct it as [c1 l1| |].
    + destruct (pn_mul c c1) as [p|e].
      * apply (IH (IPair p l1 :: st) l st' oe); auto.
        -- intros it H. apply Hi. now right.
        -- intros it [H|H]; [|auto]. subst. apply (Hi (IPair c1 l1)). now left.
      * inversion E; subst; auto.
    + inversion E; subst; auto.
    + inversion E; subst; auto.
Qed.
Lemma okt_mono : forall l l' it, (l <= l')%nat -> okt l it -> okt l' it.
Proof. intros l l' [] H; simpl; auto. lia. Qed.

Lemma expand_keeps : forall fuel l acc h, okh h ->
  okh (snd (expand_loop fuel l acc h)) /\ grows h (snd (expand_loop fuel l acc h)).
Proof.
  induction fuel as [|n IH]; intros l acc h O; simpl; [split; [auto|unfold grows; lia]|].
  destruct (get_lc h l) as [[|p d]|[|it rest]] eqn:G; simpl.
  - split; [apply okh_set; [auto|exact I|discriminate]|apply grows_set].
  - split; [auto|unfold grows; lia].
  - split; [apply okh_set; [auto|exact I|discriminate]|apply grows_set].
  - assert (Xr : okx l (LList rest)).
    { intros x H. destruct O as [O _]. apply (O l _ x G). now right. }
    assert (O1 : okh (set_lc h l (LList rest))).
    { apply okh_set; auto. intros _. now rewrite G. }
    pose proof (grows_set h l (LList rest)) as G1.
    destruct it as [c l1| |]; simpl; auto.
    destruct (get_lc (set_lc h l (LList rest)) l1) as [d|its] eqn:G2.
    + destruct (acc_dict c d acc) as [acc'|e]; simpl; auto.
      destruct (IH l acc' _ O1) as [A B]. split; auto. unfold grows in *; lia.
    + destruct (push_items c (rev its) rest) as [st oe] eqn:P.
      assert (Xs : okx l (LList st)).
      { intros x H. eapply push_items_below; [| |exact P|exact H].
        - intros y H1. apply in_rev in H1. destruct O1 as [O1 _].
          pose proof (O1 _ _ _ G2 H1) as Y. destruct O as [O _].
          assert (Z : okt l (IPair c l1)) by (apply (O l _ _ G); now left). simpl in Z.
          eapply okt_mono; [|exact Y]. lia.
        - exact Xr. }
      assert (O2 : okh (set_lc (set_lc h l (LList rest)) l (LList st))).
      { rewrite set_set. apply okh_set; auto. intros _. now rewrite G. }
      assert (G3 : grows h (set_lc (set_lc h l (LList rest)) l (LList st))).
      { unfold grows. rewrite !set_lc_length. lia. }
      destruct oe as [e|]; simpl; auto.
      destruct (IH l acc _ O2) as [A B]. split; auto. unfold grows in *; lia.
Qed.

Definition any {A} (_ : heap N) (_ : A) : Prop := True.
Lemma lc_derivatives_keeps : forall fuel l h, keeps h (lc_derivatives fuel l) any.
Proof.
  intros fuel l h O. unfold lc_derivatives. destruct (get_lc h l) as [d|its].
  - simpl. split; [auto|]. split; [unfold grows; lia|]. intros; exact I.
  - destruct (expand_keeps fuel l [] h O) as [A B].
    destruct (expand_loop fuel l [] h) as [[u|e] h1]; simpl in *.
    + destruct (get_lc h1 l); simpl; split; auto; split; auto; intros; exact I.
    + split; auto. split; auto. discriminate.
Qed.
Lemma error_components_keeps : forall fuel u h, keeps h (error_components fuel u) any.
Proof.
  intros. unfold error_components, derivatives. eapply keeps_bind; [apply lc_derivatives_keeps|].
  intros d h' _ _. apply (keeps_pure _ h'). intros; exact I.
Qed.
Lemma std_affine_keeps : forall fuel u h, keeps h (std_dev_affine fuel u) any.
Proof.
  intros. unfold std_dev_affine. eapply keeps_bind; [apply error_components_keeps|].
  intros d h' _ _. apply (keeps_pure _ h'). intros; exact I.
Qed.
Lemma std_dev_keeps : forall fuel u h, keeps h (std_dev fuel u) any.
Proof.
  intros. unfold std_dev. destruct (uf_var u) as [v|]; [|apply std_affine_keeps].
  intros O. destruct (get_var h v); simpl; split; auto; split; unfold grows; auto; intros; exact I.
Qed.

(** Calculations. *)
Lemma to_affine_keeps : forall a h, okv h a -> keeps h (to_affine_scalar a) oku.
Proof.
  intros a h Ha. destruct a as [[p| | |]|u]; simpl; try apply keeps_raise.
  - intros O. destruct (pn_float p) as [x|e]; simpl.
    + split; [apply okh_alloc; [auto|exact I]|]. unfold grows, oku; simpl. rewrite app_length; simpl.
      split; [lia|]. intros a E. inversion E; subst; simpl. lia.
    + split; auto. split; [unfold grows; lia|discriminate].
  - apply keeps_ret. exact Ha.
Qed.

Lemma pos_terms_below : forall h pos (args : args_t N) i av kv t, Forall (okv h) args ->
  pos_terms pos i args av kv = Ok t ->
  forall it, In it t -> okt (length (h_lc h)) it.
Proof.
  intros h pos args. induction args as [|a args IH]; intros i av kv t F E it I0; simpl in E.
  - inversion E; subst. contradiction.
  - inversion F; subst. destruct a as [p|u]; [eapply IH; eauto|].
    destruct (pos i av kv) as [x|e]; simpl in E; [|discriminate].
    destruct (pos_terms pos (S i) args av kv) as [t'|e] eqn:E'; simpl in E; [|discriminate].
    inversion E; subst. destruct I0 as [I0|I0]; [subst; auto|eapply IH; eauto].
Qed.
Lemma kw_terms_below : forall h kwd (kw : kwargs_t N) av kv t,
  Forall (fun p => okv h (snd p)) kw -> kw_terms kwd kw av kv = Ok t ->
  forall it, In it t -> okt (length (h_lc h)) it.
Proof.
  intros h kwd kw. induction kw as [|[k a] kw IH]; intros av kv t F E it I0; simpl in E.
  - inversion E; subst. contradiction.
  - inversion F; subst. destruct a as [p|u]; [eapply IH; eauto|].
    destruct (kwd k av kv) as [x|e]; simpl in E; [|discriminate].
    destruct (kw_terms kwd kw av kv) as [t'|e] eqn:E'; simpl in E; [|discriminate].
    inversion E; subst. destruct I0 as [I0|I0]; [subst; auto|eapply IH; eauto].
Qed.

Lemma wcall_keeps : forall f pos kwd args kw h, Forall (okv h) args ->
  Forall (fun p => okv h (snd p)) kw -> keeps h (wcall f pos kwd args kw) okv.
Proof.
  intros f pos kwd args kw h Fa Fk O. unfold wcall.
  set (av := map nominal_value args). set (kv := kw_map nominal_value kw).
  assert (Triv : forall r : res (value N), (forall a, r = Ok a -> okv h a) ->
    okh (snd (r, h)) /\ grows h (snd (r, h)) /\ forall a, fst (r, h) = Ok a -> okv (snd (r, h)) a).
  { intros r H. simpl. split; auto. split; [unfold grows; lia|auto]. }
  destruct (negb _).
  - apply Triv. intros a E. destruct (f av kv); simpl in E; inversion E; subst; exact I.
  - destruct (f av kv) as [r|e]; [|apply Triv; discriminate].
    assert (Num : forall m, m = (match (rbind (pos_terms pos 0 args av kv)
                     (fun tp => rbind (kw_terms kwd kw av kv) (fun tk => Ok (tp ++ tk)))) with
            | Err e => (Err e, h)
            | Ok terms =>
                match r with
                | PNum p =>
                    match pn_float p with
                    | Err e => (Err e, h)
                    | Ok x =>
                        let (l, h') := alloc_lc h (LList (rev terms)) in
                        (Ok (VUF (mkUF x l None)), h')
                    end
                | _ => (Err EType, h)
                end
            end) -> okh (snd m) /\ grows h (snd m) /\ forall a, fst m = Ok a -> okv (snd m) a).
    { intros m ->.
 destruct (pos_terms pos 0 args av kv) as [tp|e] eqn:Ep; simpl; [|apply Triv; discriminate].
      destruct (kw_terms kwd kw av kv) as [tk|e] eqn:Ek; simpl; [|apply Triv; discriminate].
      destruct r as [p| | |]; try (apply Triv; discriminate).
      destruct (pn_float p) as [x|e]; [|apply Triv; discriminate]. simpl.
      split; [|split].
      - apply okh_alloc; auto. intros it I0. apply in_rev in I0. apply in_app_or in I0.
        destruct I0 as [I0|I0]; [exact (pos_terms_below _ _ _ _ _ _ _ Fa Ep _ I0)|
                                 exact (kw_terms_below _ _ _ _ _ _ Fk Ek _ I0)].
      - unfold grows; simpl. rewrite app_length. lia.
      - intros a E. inversion E; subst. simpl. rewrite app_length. simpl. lia. }
    destruct r as [p| | |]; try exact (Num _ eq_refl).
    + apply Triv. intros a E. inversion E; subst; exact I.
    + apply Triv. intros a E. inversion E; subst; exact I.
Qed.

Lemma okv_plain : forall h p, okv h (VPlain p). Proof. intros; exact I. Qed.
Lemma method_keeps : forall op u b h, oku h u -> okv h b -> keeps h (method_op op u b) okv.
Proof. intros. apply wcall_keeps; repeat constructor; auto. Qed.
Lemma rmethod_keeps : forall op u b h, oku h u -> okv h b -> keeps h (method_rop op u b) okv.
Proof. intros. apply wcall_keeps; repeat constructor; auto. Qed.
Lemma binop_keeps : forall op a b h, okv h a -> okv h b -> keeps h (py_binop op a b) okv.
Proof.
  intros op a b h Ha Hb.
  assert (K : forall m : M N (value N), keeps h m okv ->
    keeps h (bind m (fun r => match r with VNotImpl => raise EType | _ => ret r end)) okv).
  { intros m Hm. eapply keeps_bind; [exact Hm|]. intros r h' G Hr.
    destruct r as [[| | |]|]; try apply keeps_ret; auto. apply keeps_raise. }
  destruct a as [p|u]; simpl.
  - destruct b as [q|w]; [apply keeps_raise|]. apply K. now apply rmethod_keeps.
  - apply K. now apply method_keeps.
Qed.

Lemma eq_keeps : forall fuel x y h, oku h x -> oku h y -> keeps h (eq_aff fuel x y) any.
Proof.
  intros fuel x y h Hx Hy. unfold eq_aff. eapply keeps_bind; [apply method_keeps; auto|].
  intros r h' G Hr. destruct r as [p|d]; [apply keeps_raise|].
  destruct (n_truth N (uf_nom d)); [apply keeps_ret; exact I|].
  eapply keeps_bind; [apply std_dev_keeps|]. intros; apply keeps_ret; exact I.
Qed.
Lemma cmp_keeps : forall fuel c x y h, oku h x -> oku h y -> keeps h (cmp_aff fuel c x y) any.
Proof.
  intros fuel c x y h Hx Hy. destruct c; simpl; try (apply keeps_ret; exact I).
  - now apply eq_keeps.
  - unfold ne_aff. eapply keeps_bind; [now apply eq_keeps|]. intros; apply keeps_ret; exact I.
  - unfold ge_aff. destruct (gt_aff x y); [apply keeps_ret; exact I|now apply eq_keeps].
  - unfold le_aff. destruct (lt_aff x y); [apply keeps_ret; exact I|now apply eq_keeps].
Qed.
Lemma oku_grows : forall h h' u, grows h h' -> oku h u -> oku h' u.
Proof. unfold oku, grows. intros. lia. Qed.
Lemma method_cmp_keeps : forall fuel c x b h, oku h x -> okv h b ->
  keeps h (method_cmp fuel c x b) any.
Proof.
  intros fuel c x b h Hx Hb O. unfold method_cmp. destruct (to_affine_keeps b h Hb O) as [O1 [G1 P1]].
  destruct (to_affine_scalar b h) as [[y|e] h1]; simpl in *.
  - destruct (cmp_keeps fuel c x y h1 (oku_grows _ _ _ G1 Hx) (P1 y eq_refl) O1) as [O2 [G2 _]].
    destruct (cmp_aff fuel c x y h1) as [[r|e] h2]; simpl in *; split; auto; split; unfold grows in *; auto; try lia; intros; exact I.
  - destruct e; simpl; split; auto; split; auto; intros; exact I.
Qed.
Lemma py_cmp_keeps : forall fuel c x b h, oku h x -> okv h b -> keeps h (py_cmp fuel c x b) any.
Proof.
  intros. unfold py_cmp. eapply keeps_bind; [now apply method_cmp_keeps|]. intros r h' _ _.
  destruct r as [t|]; [apply keeps_ret; exact I|]. destruct c; try apply keeps_raise; apply keeps_ret; exact I.
Qed.
Lemma py_bool_keeps : forall fuel x h, oku h x -> keeps h (py_bool fuel x) any.
Proof.
  intros. unfold py_bool. eapply keeps_bind; [apply method_cmp_keeps; auto; exact I|].
  intros [b|] h' _ _; [apply keeps_ret; exact I|apply keeps_raise].
Qed.
Lemma score_keeps : forall fuel u p h, keeps h (std_score fuel u p) any.
Proof.
  intros. unfold std_score. eapply keeps_bind; [apply std_dev_keeps|]. intros s h' _ _.
  apply (keeps_pure _ h'). intros; exact I.
Qed.

Lemma modf_keeps : forall a h, okv h a -> keeps h (umath_modf a) (fun h' r => okv h' (fst r)).
Proof.
  intros a h Ha. unfold umath_modf. eapply keeps_bind; [now apply to_affine_keeps|].
  intros u h' G Hu O. destruct (n_modf N (uf_nom u)) as [fr ip].
  destruct (lc_truth _); simpl; split; auto; split; unfold grows; auto; intros r E; inversion E; subst;
    [exact Hu|exact I].
Qed.
Lemma ldexp_keeps : forall a i h, okv h a -> keeps h (umath_ldexp a i) okv.
Proof.
  intros a i h Ha. unfold umath_ldexp. eapply keeps_bind; [now apply to_affine_keeps|].
  intros u h' G Hu O. destruct (lc_truth _).
  - destruct (n_ldexp N (uf_nom u) i) as [x|e]; [|simpl; split; auto; split; [unfold grows; lia|discriminate]].
    destruct (two_power i) as [c|e]; [|simpl; split; auto; split; [unfold grows; lia|discriminate]].
    simpl. split; [|split].
    + apply okh_alloc; auto. intros it [E|[]]. subst. exact Hu.
    + unfold grows; simpl. rewrite app_length. lia.
    + intros r E. inversion E; subst. simpl. rewrite app_length. simpl. lia.
  - destruct a as [[p| | |]|u0]; simpl; split; auto; split; try (unfold grows; lia); try discriminate.
    intros r E. destruct (pn_float p) as [x|]; simpl in E; [|discriminate].
    destruct (n_ldexp N x i); simpl in E; inversion E; subst; exact I.
Qed.
Lemma new_var_keeps : forall n s tag h, keeps h (new_var n s tag) oku.
Proof.
  intros n s tag h O. unfold new_var. destruct (pn_float n) as [x|e].
  2: simpl; split; auto; split; [unfold grows; lia|discriminate].
  destruct (check_std s) as [sd|e].
  2: simpl; split; auto; split; [unfold grows; lia|discriminate].
  simpl. destruct O as [O V]. split; [|split].
  - split.
    + apply (ordered_grown h [_] (h_var h ++ _)); auto. intros [|[|k]] y E; simpl in E; inversion E; subst; exact I.
    + intros v o E. simpl. rewrite app_length. simpl. unfold get_var in E. simpl in E.
      destruct (Nat.lt_ge_cases v (length (h_var h))) as [L|L].
      * rewrite nth_error_app1 in E by auto. destruct (V v o E) as [V1 V2]. split; [lia|].
        unfold get_lc in *; simpl. now rewrite app_nth1.
      * rewrite nth_error_app2 in E by auto. destruct (v - length (h_var h))%nat as [|[|k]]; simpl in E; inversion E; subst. simpl. split; [lia|].
        unfold get_lc; simpl. rewrite app_nth2 by lia. now rewrite Nat.sub_diag.
  - unfold grows; simpl. rewrite app_length. lia.
  - intros u E. inversion E; subst. unfold oku; simpl. rewrite app_length. simpl. lia.
Qed.
Lemma set_std_keeps : forall v s h, keeps h (set_std v s) any.
Proof.
  intros v s h O. unfold set_std. destruct (check_std s) as [sd|e].
  2: simpl; split; auto; split; [unfold grows; lia|discriminate].
  destruct (get_var h v) as [o|] eqn:G.
  2: simpl; split; auto; split; [unfold grows; lia|discriminate].
  simpl. destruct O as [O V]. split; [|split; [unfold grows; simpl; lia|intros; exact I]].
  split; [exact O|]. intros w o' E. unfold get_var in E. simpl in E.
  destruct (Nat.eq_dec w v) as [->|Hn].
  - assert (Lv : (v < length (h_var h))%nat) by (apply nth_error_Some; unfold get_var in G; congruence).
    rewrite nth_error_list_set_eq in E by auto. inversion E; subst. simpl. exact (V v o G).
  - rewrite nth_error_list_set_neq in E by auto. exact (V w o' E).
Qed.

(** Statements. *)
Definition oks (st : state N) : Prop := okh (st_heap st) /\ Forall (okv (st_heap st)) (st_env st).

Lemma oks_push : forall st m, oks st -> keeps (st_heap st) m okv -> oks (fst (push st (m (st_heap st)))).
Proof.
  intros [h env] m [O E] K. simpl in *. destruct (K O) as [O1 [G1 P1]].
  assert (E' : Forall (okv (snd (m h))) env).
  { eapply Forall_impl; [|exact E]. intros a. now apply okv_grows. }
  destruct (m h) as [[a|e] h1]; simpl in *; split; simpl; auto; apply Forall_app; split; auto;
    constructor; auto; exact I.
Qed.
Lemma oks_observe : forall A st (f : A -> out N) m, oks st -> keeps (st_heap st) m any ->
  oks (fst (observe st f (m (st_heap st)))).
Proof.
  intros A [h env] f m [O E] K. simpl in *. destruct (K O) as [O1 [G1 P1]].
  assert (E' : Forall (okv (snd (m h))) env).
  { eapply Forall_impl; [|exact E]. intros a. now apply okv_grows. }
  destruct (m h) as [[a|e] h1]; simpl in *; split; simpl; auto.
Qed.
Lemma get_args_ok : forall h env is l, Forall (okv h) env -> get_args (N:=N) env is = Some l ->
  Forall (okv h) l.
Proof.
  intros h env is. induction is as [|i is IH]; intros l F E; simpl in E.
  - inversion E; subst; constructor.
  - destruct (nth_error env i) as [a|] eqn:Ei; [|discriminate].
    destruct (get_args env is) as [l'|]; [|discriminate]. inversion E; subst. constructor; auto.
    rewrite Forall_forall in F. apply F. eapply nth_error_In; eauto.
Qed.
Lemma get_kwargs_ok : forall h env ks l, Forall (okv h) env -> get_kwargs (N:=N) env ks = Some l ->
  Forall (fun p => okv h (snd p)) l.
Proof.
  intros h env is. induction is as [|[k i] is IH]; intros l F E; simpl in E.
  - inversion E; subst; constructor.
  - destruct (nth_error env i) as [a|] eqn:Ei; [|discriminate].
    destruct (get_kwargs env is) as [l'|]; [|discriminate]. inversion E; subst. constructor; auto.
    simpl. rewrite Forall_forall in F. apply F. eapply nth_error_In; eauto.
Qed.
Lemma oks_nth : forall st i a, oks st -> nth_error (st_env st) i = Some a -> okv (st_heap st) a.
Proof. intros st i a [_ F] E. rewrite Forall_forall in F. apply F. eapply nth_error_In; eauto. Qed.
Lemma oks_err : forall st e, oks st -> oks (fst (push st (Err e, st_heap st))).
Proof. intros st e O. apply (oks_push st (raise e) O). apply keeps_raise. Qed.

Lemma oks_with_uf : forall st i k, oks st -> (forall u, oku (st_heap st) u -> oks (fst (k u))) ->
  oks (fst (with_uf st i k)).
Proof.
  intros st i k O H. unfold with_uf, with_val. destruct (nth_error (st_env st) i) as [a|] eqn:E.
  - pose proof (oks_nth _ _ _ O E). destruct a as [p|u]; [exact O|]. now apply H.
  - destruct st; exact O.
Qed.

Lemma oks_step : forall fuel st ins, oks st -> oks (fst (step fuel st ins)).
Proof.
  intros fuel st ins O. pose proof O as [Oh Oe].
  destruct ins as [n s tag|p|op i j|f pos kwd args kw|i|i e|i|i|i|i|i s|c i j|i|i p]; cbn [step].
  - apply (oks_push st (fun h => match new_var n s tag h with
               | (Ok u, h') => (Ok (VUF u), h') | (Err e, h') => (Err e, h') end) O).
    intros O1. destruct (new_var_keeps n s tag _ O1) as [A [B C]].
    destruct (new_var n s tag (st_heap st)) as [[u|e] h']; simpl in *; split; auto; split; auto.
    + intros a E. inversion E; subst. now apply C.
    + discriminate.
  - apply (oks_push st (ret (VNum p)) O). apply keeps_ret. exact I.
  - destruct (get_args (st_env st) [i; j]) as [l|] eqn:E; [|now apply oks_err].
    pose proof (get_args_ok _ _ _ _ Oe E) as F.
    destruct l as [|a [|b [|c l]]]; try now apply oks_err.
    inversion F as [|? ? Fa F']; subst. inversion F'; subst.
    apply (oks_push st (py_binop op a b) O). now apply binop_keeps.
  - destruct (get_args (st_env st) args) as [l|] eqn:E; [|now apply oks_err].
    destruct (get_kwargs (st_env st) kw) as [k|] eqn:E'; [|now apply oks_err].
    apply (oks_push st (wcall f pos kwd l k) O). apply wcall_keeps.
    + eapply get_args_ok; eauto.
    + eapply get_kwargs_ok; eauto.
  - destruct (nth_error (st_env st) i) as [a|] eqn:E; [|now apply oks_err].
    apply (oks_push st (fun h => match umath_modf a h with
                           | (Ok (fr, _), h') => (Ok fr, h') | (Err e, h') => (Err e, h') end) O).
    intros O1. destruct (modf_keeps a _ (oks_nth _ _ _ O E) O1) as [A [B C]].
    destruct (umath_modf a (st_heap st)) as [[[fr ip]|e] h']; simpl in *; split; auto; split; auto.
    + intros r X. inversion X; subst. exact (C _ eq_refl).
    + discriminate.
  - destruct (nth_error (st_env st) i) as [a|] eqn:E; [|now apply oks_err].
    apply (oks_push st (umath_ldexp a e) O). apply ldexp_keeps. eapply oks_nth; eauto.
  - apply oks_with_uf; auto. intros u Hu. apply (oks_observe _ st _ (derivatives fuel u) O).
    apply lc_derivatives_keeps.
  - apply oks_with_uf; auto. intros u Hu. apply (oks_observe _ st _ (std_dev fuel u) O).
    apply std_dev_keeps.
  - apply oks_with_uf; auto. intros u Hu. apply (oks_observe _ st _ (std_dev_s fuel u) O).
    apply std_affine_keeps.
  - apply oks_with_uf; auto. intros u Hu. apply (oks_observe _ st _ (error_components fuel u) O).
    apply error_components_keeps.
  - apply oks_with_uf; auto. intros u Hu. destruct (uf_var u) as [v|]; [|exact O].
    apply (oks_observe _ st _ (set_std v s) O). apply set_std_keeps.
  - apply oks_with_uf; auto. intros u Hu. unfold with_val.
    destruct (nth_error (st_env st) j) as [b|] eqn:E; [|destruct st; exact O].
    apply (oks_observe _ st _ (py_cmp fuel c u b) O). apply py_cmp_keeps; auto. eapply oks_nth; eauto.
  - apply oks_with_uf; auto. intros u Hu. apply (oks_observe _ st _ (py_bool fuel u) O).
    now apply py_bool_keeps.
  - apply oks_with_uf; auto. intros u Hu. apply (oks_observe _ st _ (std_score fuel u p) O).
    apply score_keeps.
Qed.
Lemma oks_run : forall fuel prog st, oks st -> oks (fst (run fuel st prog)).
Proof.
  intros fuel prog. induction prog as [|ins prog IH]; intros st O; cbn [run]; [exact O|].
  pose proof (oks_step fuel st ins O) as O1. destruct (step fuel st ins) as [st1 o].
  simpl in O1. specialize (IH st1 O1). destruct (run fuel st1 prog). exact IH.
Qed.
Lemma oks_init : oks init.
Proof.
  split; [|constructor]. split.
  - intros l its it G. unfold get_lc in G. simpl in G. destruct l; discriminate.
  - intros v o G. unfold get_var in G. simpl in G. destruct v; discriminate.
Qed.

(** Matrices, correlated values. *)
Lemma elem_keeps : forall fuel a h, keeps h (elem_derivatives fuel a) any.
Proof. intros fuel [p|u] h; simpl; [apply keeps_raise|apply lc_derivatives_keeps]. Qed.
Lemma cov_row_keeps : forall order fuel d1 l h, keeps h (cov_row order fuel d1 l) any.
Proof.
  intros order fuel d1 l. induction l as [|a l IH]; intros h; simpl; [apply keeps_ret; exact I|].
  eapply keeps_bind; [apply elem_keeps|]. intros d2 h1 _ _.
  eapply keeps_bind; [apply (keeps_pure _ h1 _ any); intros; exact I|]. intros c h2 _ _.
  eapply keeps_bind; [apply IH|]. intros; apply keeps_ret; exact I.
Qed.
Lemma cov_rows_keeps : forall order fuel l rest i h, keeps h (cov_rows order fuel l i rest) any.
Proof.
  intros order fuel l rest. induction rest as [|a rest IH]; intros i h; simpl; [apply keeps_ret; exact I|].
  eapply keeps_bind; [apply elem_keeps|]. intros d2 h1 _ _.
  eapply keeps_bind; [apply cov_row_keeps|]. intros c h2 _ _.
  eapply keeps_bind; [apply IH|]. intros; apply keeps_ret; exact I.
Qed.
Lemma cov_keeps : forall order fuel l h, keeps h (covariance_matrix order fuel l) any.
Proof.
  intros. unfold covariance_matrix. eapply keeps_bind; [apply cov_rows_keeps|].
  intros; apply keeps_ret; exact I.
Qed.
Lemma corr_keeps : forall order fuel l h, keeps h (correlation_matrix order fuel l) any.
Proof.
  intros. unfold correlation_matrix. eapply keeps_bind; [apply cov_keeps|].
  intros m h' _ _. apply (keeps_pure _ h'). intros; exact I.
Qed.
Lemma new_variables_keeps : forall l h, keeps h (new_variables l) any.
Proof.
  induction l as [|[x tag] l IH]; intros h; simpl; [apply keeps_ret; exact I|].
  eapply keeps_bind; [apply (keeps_pure _ h _ any); intros; exact I|]. intros s h1 _ _.
  eapply keeps_bind; [apply new_var_keeps|]. intros u h2 _ _.
  eapply keeps_bind; [apply IH|]. intros vs h3 _ _.
  destruct (uf_var u); [apply keeps_ret; exact I|apply keeps_raise].
Qed.
Lemma new_combinations_keeps : forall vs l h,
  keeps h (new_combinations vs l) (fun h' us => Forall (oku h') us).
Proof.
  intros vs l. induction l as [|[co x] l IH]; intros h; simpl; [apply keeps_ret; constructor|].
  intros O. set (h1 := mkHeap (h_lc h ++ [LDict (combine vs co)]) (h_var h)).
  assert (O1 : okh h1) by (apply okh_alloc; [auto|exact I]).
  assert (L1 : length (h_lc h1) = S (length (h_lc h))) by (unfold h1; simpl; rewrite app_length; simpl; lia).
  assert (K : keeps h1 (bind (new_combinations vs l) (fun us => ret (mkUF x (length (h_lc h)) None :: us)))
                (fun h' us => Forall (oku h') us)).
  { eapply keeps_bind; [apply IH|]. intros us h' G F. apply keeps_ret. constructor; auto.
    unfold oku, grows in *; simpl. lia. }
  destruct (K O1) as [A [B C]]. split; [exact A|]. split; [|exact C].
  unfold grows in *. lia.
Qed.
Lemma corr_norm_keeps : forall eigh vals corr tags h,
  keeps h (correlated_values_norm eigh vals corr tags) (fun h' us => Forall (oku h') us).
Proof.
  intros. unfold correlated_values_norm. destruct vals as [|p vals]; [apply keeps_raise|].
  eapply keeps_bind; [apply (keeps_pure _ h _ any); intros; exact I|]. intros et h1 _ _.
  cbv zeta. destruct (negb _); [apply keeps_raise|].
  eapply keeps_bind; [apply new_variables_keeps|]. intros vs h2 _ _. apply new_combinations_keeps.
Qed.
Lemma corr_values_keeps : forall eigh noms cov tags h,
  keeps h (correlated_values eigh noms cov tags) (fun h' us => Forall (oku h') us).
Proof.
  intros. unfold correlated_values.
  eapply keeps_bind; [apply (keeps_pure _ h _ any); intros; exact I|]. intros et h1 _ _. cbv zeta.
  eapply keeps_bind; [apply (keeps_pure _ h1 _ any); intros; exact I|]. intros m h2 _ _.
  apply corr_norm_keeps.
Qed.

(** Copies. *)
Lemma copy_keeps : forall a h, okv h a -> keeps h (py_copy a) okv.
Proof.
  intros a h Ha. destruct a as [p|u]; simpl; [apply keeps_ret; exact I|].
  destruct (uf_var u) as [v|]; [|apply keeps_ret; exact Ha]. intros O.
  destruct (get_var h v) as [o|]; [|simpl; split; auto; split; [unfold grows; lia|discriminate]].
  destruct (new_var_keeps (PF (uf_nom u)) (PF (v_std o)) (v_tag o) h O) as [A [B C]].
  destruct (new_var (PF (uf_nom u)) (PF (v_std o)) (v_tag o) h) as [[u'|e] h']; simpl in *;
    split; auto; split; auto; [|discriminate].
  intros a E. inversion E; subst. now apply C.
Qed.

Lemma reach_in : forall h n l, In l (reach_lcs h n l).
Proof. intros h n l. destruct n; cbn; auto. Qed.
Lemma reach_step : forall h, pairs h -> forall n l x its c l',
  (l <= n)%nat -> In x (reach_lcs h n l) -> get_lc h x = LList its -> In (IPair c l') its ->
  In l' (reach_lcs h n l).
Proof.
  intros h O n. induction n as [|n IH]; intros l x its c l' Hn Hx G Hi.
  - assert (l = 0%nat) by lia. subst. cbn in Hx. destruct Hx as [<-|[]].
    pose proof (O _ _ _ G Hi) as X. simpl in X. lia.
  - cbn in Hx |- *. destruct Hx as [<-|Hx].
    + rewrite G. right. apply in_flat_map. exists (IPair c l'). split; auto. apply reach_in.
    + destruct (get_lc h l) as [d|its0] eqn:Gl; [contradiction|].
      apply in_flat_map in Hx as (it & Hit & Hx). right. apply in_flat_map. exists it.
      split; auto. pose proof (O _ _ _ Gl Hit) as X. destruct it as [c1 l1|c1|l1]; simpl in X; try contradiction.
      eapply IH; eauto. lia.
Qed.

(** The copies of a closed set of linear combinations. *)
Lemma copies_ok : forall h ls fv, pairs h -> StronglySorted lt ls ->
  (forall l, In l ls -> (l < length (h_lc h))%nat) ->
  (forall l its c l', In l ls -> get_lc h l = LList its -> In (IPair c l') its -> In l' ls) ->
  forall k x, nth_error (map (fun l => copy_lc (renamed (length (h_lc h)) ls) fv (get_lc h l)) ls) k = Some x ->
  okx (length (h_lc h) + k) x.
Proof.
  intros h ls fv O S B C k x E.
  destruct (nth_error ls k) as [l|] eqn:El.
  2:{ apply nth_error_None in El. assert (X : nth_error (map (fun l : nat => copy_lc (renamed (length (h_lc h)) ls) fv (get_lc h l)) ls) k = None)
        by (apply nth_error_None; rewrite map_length; exact El). pose proof (eq_trans (eq_sym X) E). discriminate. }
  pose proof (eq_trans (eq_sym (map_nth_error (fun l : nat => copy_lc (renamed (length (h_lc h)) ls) fv (get_lc h l)) k ls El)) E) as E1.
  injection E1; intros <-. clear E E1.
  assert (Il : In l ls) by (eapply nth_error_In; eauto).
  destruct (get_lc h l) as [d|its] eqn:G; simpl; auto.
  intros it Hit. apply in_map_iff in Hit as (it0 & <- & Hit).
  pose proof (O _ _ _ G Hit) as X. destruct it0 as [c l'|c|l']; simpl in X; try contradiction. simpl.
  pose proof (C _ _ _ _ Il G Hit) as Il'. unfold renamed.
  pose proof (rank_mono ls l' l S Il' Il X) as Y.
  rewrite (rank_of_nth ls k l (sorted_NoDup _ S) El) in Y. lia.
Qed.

Lemma deepcopy_keeps : forall a h, okv h a -> keeps h (py_deepcopy a) okv.
Proof.
  intros a h Ha. destruct a as [p|u]; [apply keeps_ret; exact I|]. unfold py_deepcopy.
  destruct (uf_var u) as [v|] eqn:Ev; [now apply copy_keeps|]. intros [O V]. cbv zeta.
  set (nl := length (h_lc h)). set (nv := length (h_var h)).
  set (ls := listed nl (reach_lcs h (uf_lp u) (uf_lp u))).
  set (us := listed nv (keys_of h ls)).
  set (copies := map (fun l : nat => copy_lc (renamed nl ls) (renamed nv us) (get_lc h l)) ls).
  set (os := var_objects h us).
  set (news := map (fun k : nat => LDict (N:=N) [((nv + k)%nat, n_one N)]) (seq 0 (length os))).
  simpl in Ha. cbn [fst snd].
  assert (Iu : In (uf_lp u) ls) by (apply listed_In; split; [exact Ha|apply reach_in]).
  split; [|split].
  - split.
    + apply ordered_grown; auto. intros k x E.
      destruct (Nat.lt_ge_cases k (length copies)) as [L|L].
      * rewrite nth_error_app1 in E by auto.
        refine (copies_ok h ls (renamed nv us) O (listed_sorted _ _) _ _ k x E).
        -- intros l Hl. apply listed_In in Hl. apply Hl.
        -- intros l its c l' Hl G Hi. apply listed_In in Hl as [L1 L2]. apply listed_In.
           pose proof (O _ _ _ G Hi) as X. simpl in X. split; [lia|]. eapply reach_step; eauto.
      * rewrite nth_error_app2 in E by auto. apply nth_error_In in E. unfold news in E.
        apply in_map_iff in E as (? & <- & _). exact I.
    + intros v o E. cbn [h_lc]. rewrite !app_length. unfold get_var in E. cbn [h_var] in E.
      destruct (Nat.lt_ge_cases v (length (h_var h))) as [L|L].
      * rewrite nth_error_app1 in E by auto. destruct (V v o E) as [V1 V2]. split; [lia|].
        unfold get_lc in *; cbn [h_lc]. now rewrite app_nth1.
      * rewrite nth_error_app2 in E by auto. apply nth_error_In in E. apply in_map_iff in E as ([k o'] & <- & Ho).
        cbn [fst snd v_lp]. apply in_combine_l in Ho. apply in_seq in Ho.
        assert (Ln : length news = length os) by (unfold news; now rewrite map_length, seq_length).
        fold nl. split; [lia|]. unfold get_lc; cbn [h_lc].
        rewrite app_nth2 by (unfold nl; lia). rewrite app_nth2 by (unfold nl; lia).
        match goal with |- context [nth ?i news ?d] =>
          destruct (nth_in_or_default i news d) as [X|X]; [|rewrite X; reflexivity];
          revert X; generalize (nth i news d) end.
        intros x X. unfold news in X. apply in_map_iff in X as (? & <- & _). reflexivity.
  - unfold grows; simpl. rewrite app_length. lia.
  - intros r E. inversion E; subst. simpl. rewrite !app_length.
    pose proof (rank_lt ls _ Iu) as X. assert (Lc : length copies = length ls) by (unfold copies; now rewrite map_length).
    unfold renamed at 1. fold copies nl. eapply Nat.lt_le_trans; [apply Nat.add_lt_mono_l, X|].
    apply Nat.add_le_mono_l. transitivity (length copies); [rewrite Lc; apply le_n|apply Nat.le_add_r].
Qed.

Lemma pickle_keeps : forall l h, Forall (okv h) l ->
  keeps h (py_pickle l) (fun h' r => Forall (okv h') r).
Proof.
  intros l h Hl [O V]. unfold py_pickle. cbv zeta.
  set (nl := length (h_lc h)). set (nv := length (h_var h)).
  set (ls0 := flat_map (fun r : loc => reach_lcs h r r) (flat_map lp_of l)).
  set (us := listed nv (flat_map var_of l ++ keys_of h ls0)).
  set (os := var_objects h us).
  set (ls := listed nl (ls0 ++ map v_lp os)).
  set (copies := map (fun l : nat => copy_lc (renamed nl ls) (renamed nv us) (get_lc h l)) ls).
  cbn [fst snd].
  assert (Os : forall o, In o os -> exists v, get_var h v = Some o).
  { intros o Ho. unfold os, var_objects in Ho. apply in_flat_map in Ho as (v & _ & Ho).
    exists v. destruct (get_var h v); simpl in Ho; [|contradiction]. destruct Ho as [->|[]]; auto. }
  assert (Lf : forall x, In x ls -> (renamed nl ls x < nl + length copies)%nat).
  { intros x Hx. unfold renamed, copies. rewrite map_length. pose proof (rank_lt ls x Hx). lia. }
  split; [|split].
  - split.
    + apply ordered_grown; auto. refine (copies_ok h ls (renamed nv us) O (listed_sorted _ _) _ _).
      * intros x Hx. apply listed_In in Hx. apply Hx.
      * intros x its c l' Hx G Hi. apply listed_In in Hx as [L1 L2]. apply listed_In.
        pose proof (O _ _ _ G Hi) as X. simpl in X. split; [lia|]. apply in_app_or in L2 as [L2|L2].
        -- apply in_or_app. left. unfold ls0 in *. apply in_flat_map in L2 as (r & Hr & L2).
           apply in_flat_map. exists r. split; auto. eapply reach_step; eauto.
        -- apply in_map_iff in L2 as (o & <- & Ho). destruct (Os o Ho) as [w Hw].
           destruct (V w o Hw) as [_ V2]. rewrite G in V2. discriminate.
    + intros v o E. cbn [h_lc]. rewrite app_length. unfold get_var in E. cbn [h_var] in E.
      destruct (Nat.lt_ge_cases v (length (h_var h))) as [L|L].
      * rewrite nth_error_app1 in E by auto. destruct (V v o E) as [V1 V2]. split; [lia|].
        unfold get_lc in *; cbn [h_lc]. now rewrite app_nth1.
      * rewrite nth_error_app2 in E by auto. apply nth_error_In in E. apply in_map_iff in E as (o' & <- & Ho).
        cbn [v_lp]. fold nl. destruct (Os o' Ho) as [w Hw]. destruct (V w o' Hw) as [V1 V2].
        assert (Io : In (v_lp o') ls).
        { apply listed_In. split; [exact V1|]. apply in_or_app. right. apply in_map. exact Ho. }
        split; [now apply Lf|].
        change (expanded (nth (nl + rank ls (v_lp o'))%nat (h_lc h ++ copies) (LDict [])) = true).
        rewrite app_nth2 by (unfold nl; lia).
        replace (nl + rank ls (v_lp o') - length (h_lc h))%nat with (rank ls (v_lp o')) by (unfold nl; lia).
        assert (Ec : nth_error copies (rank ls (v_lp o')) =
          Some (copy_lc (renamed nl ls) (renamed nv us) (get_lc h (v_lp o')))).
        { unfold copies. exact (map_nth_error (fun l : nat => copy_lc (renamed nl ls) (renamed nv us) (get_lc h l)) _ _ (rank_nth ls _ Io)). }
        pose proof (nth_error_nth copies _ (LDict []) Ec) as X.
        etransitivity; [exact (f_equal expanded X)|]. destruct (get_lc h (v_lp o')); [reflexivity|discriminate].
  - unfold grows; simpl. rewrite app_length. lia.
  - intros r E. inversion E; subst. apply Forall_forall. intros a Ha. apply in_map_iff in Ha as (a0 & <- & Ha).
    destruct a0 as [p|u]; simpl; auto. rewrite app_length. fold nl. apply Lf. apply listed_In.
    rewrite Forall_forall in Hl. split; [exact (Hl _ Ha)|]. apply in_or_app. left. apply in_flat_map.
    exists (uf_lp u). split; [|apply reach_in]. apply in_flat_map. exists (VUF u). split; auto. simpl; auto.
Qed.

Lemma oks_push_list : forall st m, oks st ->
  keeps (st_heap st) m (fun h' r => Forall (okv h') r) ->
  oks (fst (push_list st (m (st_heap st)))).
Proof.
  intros [h env] m [O E] K. simpl in *. destruct (K O) as [O1 [G1 P1]].
  assert (E' : Forall (okv (snd (m h))) env).
  { eapply Forall_impl; [|exact E]. intros a. now apply okv_grows. }
  destruct (m h) as [[a|e] h1]; simpl in *; split; simpl; auto. apply Forall_app; split; auto.
Qed.
Lemma as_values_keeps : forall (m : M N (list (uf N))) h,
  keeps h m (fun h' us => Forall (oku h') us) ->
  keeps h (fun h => as_values (m h)) (fun h' r => Forall (okv h') r).
Proof.
  intros m h K O. destruct (K O) as [A [B C]].
  destruct (m h) as [[us|e] h1]; simpl in *; split; auto; split; auto; [|discriminate].
  intros r E. inversion E; subst. specialize (C us eq_refl). apply Forall_map. exact C.
Qed.

Lemma oks_call : forall st c, oks st -> oks (fst (call_step st c)).
Proof.
  intros st c O. pose proof O as [_ Oe]. destruct c as [i|i|is|eigh noms cov tags|eigh vals corr tags]; cbn [call_step].
  - destruct (nth_error (st_env st) i) as [a|] eqn:E; [|now apply oks_err].
    apply (oks_push st (py_copy a) O). apply copy_keeps. eapply oks_nth; eauto.
  - destruct (nth_error (st_env st) i) as [a|] eqn:E; [|now apply oks_err].
    apply (oks_push st (py_deepcopy a) O). apply deepcopy_keeps. eapply oks_nth; eauto.
  - destruct (get_args (st_env st) is) as [l|] eqn:E.
    + apply (oks_push_list st (py_pickle l) O). apply pickle_keeps. eapply get_args_ok; eauto.
    + apply (oks_push_list st (raise EUser) O). apply keeps_raise.
  - apply (oks_push_list st (fun h => as_values (correlated_values eigh noms cov tags h)) O).
    apply (as_values_keeps (correlated_values eigh noms cov tags)). apply corr_values_keeps.
  - apply (oks_push_list st (fun h => as_values (correlated_values_norm eigh vals corr tags h)) O).
    apply (as_values_keeps (correlated_values_norm eigh vals corr tags)). apply corr_norm_keeps.
Qed.

Lemma oks_observes : forall A (f : nat -> list (value N) -> M N A) st is r st',
  (forall fuel l h, keeps h (f fuel l) any) -> observes f st is r st' -> oks st -> oks st'.
Proof.
  intros A f st is r st' K (l & k & Eg & Ee & Ef) [O E].
  specialize (Ef k (le_n k)). destruct (K k l (st_heap st) O) as [A1 [B1 _]].
  rewrite Ef in A1, B1. simpl in A1, B1. split; [exact A1|]. rewrite Ee.
  eapply Forall_impl; [|exact E]. intros a. now apply okv_grows.
Qed.

(** Functions of matrices. *)
Lemma mapM_keeps : forall A B (f : A -> M N B) l h, (forall a h', keeps h' (f a) any) -> keeps h (mapM f l) any.
Proof.
  intros A B f l h K. revert h. induction l as [|a l IH]; intros h; cbn [mapM]; [apply keeps_ret; exact I|].
  eapply keeps_bind; [apply K|]. intros b h1 _ _. eapply keeps_bind; [apply IH|]. intros; apply keeps_ret; exact I.
Qed.
Lemma vectorize_keeps : forall A B (f : A -> M N B) (a : arr A) h, (forall x h', keeps h' (f x) any) ->
  keeps h (vectorize (arg1 f) [a]) any.
Proof.
  intros A B f a h K. unfold vectorize. destruct (bshapes _) as [sh|]; [|apply keeps_raise].
  eapply keeps_bind; [|intros; apply keeps_ret; exact I]. apply mapM_keeps. intros idx h'.
  destruct (all_some _) as [[|x [|]]|]; try apply keeps_raise. apply K.
Qed.
Lemma collect_keeps : forall fuel l acc h, keeps h (collect fuel l acc) any.
Proof.
  intros fuel l. induction l as [|[p|u] l IH]; intros acc h; cbn [collect]; [apply keeps_ret; exact I|apply IH|].
  eapply keeps_bind; [apply lc_derivatives_keeps|]. intros; apply IH.
Qed.
Lemma deriv_loop_keeps : forall fuel step a vs ds h, (forall v da h', keeps h' (step v da) any) ->
  keeps h (deriv_loop fuel step a vs ds) any.
Proof.
  intros fuel step a vs ds h Ks. revert ds h. induction vs as [|v vs IH]; intros ds h; cbn [deriv_loop]; [apply keeps_ret; exact I|].
  eapply keeps_bind; [apply vectorize_keeps|].
  - intros [p|u] h'; cbn [derivative]; [apply keeps_ret; exact I|].
    eapply keeps_bind; [apply lc_derivatives_keeps|]. intros; apply keeps_ret; exact I.
  - intros da h1 _ _. eapply keeps_bind; [apply Ks|]. intros; apply IH.
Qed.
Lemma build_keeps : forall l h, keeps h (build l) (fun h' r => Forall (okv h') r).
Proof.
  induction l as [|[x d] l IH]; intros h; cbn [build]; [apply keeps_ret; constructor|].
  intros O. cbn [alloc_lc].
  assert (O1 : okh (mkHeap (h_lc h ++ [LDict d]) (h_var h))) by (apply okh_alloc; auto; exact I).
  assert (K : keeps (mkHeap (h_lc h ++ [LDict d]) (h_var h))
     (bind (build l) (fun r => ret (VUF (mkUF x (length (h_lc h)) None) :: r))) (fun h' r => Forall (okv h') r)).
  { eapply keeps_bind; [apply IH|]. intros r h1 G1 F1. apply keeps_ret. constructor; auto. cbn.
    unfold grows in G1. cbn in G1. rewrite app_length in G1. cbn in G1. lia. }
  destruct (K O1) as (K1 & K2 & K3). split; auto. split; auto. unfold grows in *. cbn in K2. rewrite app_length in K2. lia.
Qed.
Lemma with_derivatives_keeps : forall order fuel step a vars val c h, (forall v da h', keeps h' (step v da) any) ->
  keeps h (with_derivatives order fuel step a vars val c) (fun h' b => Forall (okv h') (a_flat b)).
Proof.
  intros order fuel step a vars val c h Ks. unfold with_derivatives. destruct vars as [|v vars].
  - apply keeps_ret. cbn. apply Forall_forall. intros x Hx. apply in_map_iff in Hx as (y & <- & _). exact I.
  - destruct (a_flat val); [apply keeps_raise|]. eapply keeps_bind; [now apply deriv_loop_keeps|]. intros ds h4 _ _.
    eapply keeps_bind; [apply build_keeps|]. intros r h5 _ F. apply keeps_ret. exact F.
Qed.
Lemma nominal_values_keeps : forall (a : arr (value N)) h, keeps h (nominal_values a) any.
Proof.
  intros a h. unfold nominal_values. eapply keeps_bind with (Q := any); [apply vectorize_keeps|intros; apply keeps_ret; exact I].
  intros x h'. apply (keeps_pure _ h' _ any). intros; exact I.
Qed.
Lemma uncert_keeps : forall order fw fuel a h,
  keeps h (uncert_func order fw fuel a) (fun h' b => Forall (okv h') (a_flat b)).
Proof.
  intros order fw fuel a h. unfold uncert_func.
  eapply keeps_bind; [apply collect_keeps|]. intros vars h1 _ _.
  eapply keeps_bind; [apply nominal_values_keeps|].
  intros nom h2 _ _. eapply keeps_bind; [apply (keeps_pure _ h2 _ any); intros; exact I|].
  intros val h3 _ _. apply with_derivatives_keeps. intros v da h'. apply (keeps_pure _ h' _ any). intros; exact I.
Qed.
Lemma wrapped_keeps : forall order f fuel a h,
  keeps h (wrap_array_func order f fuel a) (fun h' b => Forall (okv h') (a_flat b)).
Proof.
  intros order f fuel a h. unfold wrap_array_func.
  eapply keeps_bind; [apply nominal_values_keeps|].
  intros nom h2 _ _. eapply keeps_bind; [apply (keeps_pure _ h2 _ any); intros; exact I|]. intros val h3 _ _.
  eapply keeps_bind; [apply collect_keeps|]. intros vars h1 _ _.
  apply with_derivatives_keeps. intros v da h' O. destruct (get_var h' v) as [o|].
  - exact (keeps_pure _ h' (numerical_deriv f nom val o da) any (fun _ _ => I) O).
  - exact (keeps_raise _ h' EAttr any O).
Qed.
Lemma oks_array : forall f st ia r st', (forall fuel a h, keeps h (f fuel a) (fun h' b => Forall (okv h') (a_flat b))) ->
  array_call f st ia r st' -> oks st -> oks st'.
Proof.
  intros f st ia r st' K (a & k & _ & _ & H) [O E].
  destruct r as [ir|e].
  - destruct H as (b & _ & He & _ & Hf). specialize (Hf k (le_n k)).
    destruct (K k a (st_heap st) O) as (K1 & K2 & K3). rewrite Hf in K1, K2, K3. cbn in *.
    split; auto. rewrite He. apply Forall_app. split; auto. eapply Forall_impl; [|exact E]. intros x. now apply okv_grows.
  - destruct H as (He & Hf). specialize (Hf k (le_n k)).
    destruct (K k a (st_heap st) O) as (K1 & K2 & K3). rewrite Hf in K1, K2, K3. cbn in *.
    split; auto. rewrite He. eapply Forall_impl; [|exact E]. intros x. now apply okv_grows.
Qed.

(** Operators on arrays and products of matrices. *)
Lemma grows_trans3 : forall h1 h2 h3 : heap N, grows h1 h2 -> grows h2 h3 -> grows h1 h3.
Proof. unfold grows. intros. lia. Qed.
Lemma mapM_keeps_okv : forall A (f : A -> M N (value N)) l h,
  (forall a h', grows h h' -> keeps h' (f a) okv) -> keeps h (mapM f l) (fun h' r => Forall (okv h') r).
Proof.
  intros A f l. induction l as [|a l IH]; intros h K; cbn [mapM]; [apply keeps_ret; constructor|].
  eapply keeps_bind; [apply K; unfold grows; lia|]. intros b h1 G1 Hb.
  eapply keeps_bind; [apply IH; intros a' h' G'; apply K; eapply grows_trans3; eauto|].
  intros r h2 G2 Hr. apply keeps_ret. constructor; auto. now apply (okv_grows h1).
Qed.
Lemma obj_op_keeps : forall op a b h, okv h a -> okv h b -> keeps h (obj_op op a b) okv.
Proof.
  intros op a b h Ha Hb. unfold obj_op.
  destruct a as [[p| | |]|u]; try (now apply binop_keeps). destruct b as [[q| | |]|u]; try (now apply binop_keeps).
  apply (keeps_pure _ h (Base.rmap VPlain (pn_op op p q)) okv). intros x E. destruct (pn_op op p q); inversion E; subst. exact I.
Qed.
Lemma bget_okv : forall h (a : arr (value N)) idx x, Forall (okv h) (a_flat a) -> bget idx a = Some x -> okv h x.
Proof. intros h a idx x F E. rewrite Forall_forall in F. apply F. eapply nth_error_In. exact E. Qed.
Lemma array_op_keeps : forall op (a b : arr (value N)) h, Forall (okv h) (a_flat a) -> Forall (okv h) (a_flat b) ->
  keeps h (array_op op a b) (fun h' c => Forall (okv h') (a_flat c)).
Proof.
  intros op a b h Fa Fb. unfold array_op, vectorize. destruct (bshapes _) as [sh|]; [|apply keeps_raise].
  eapply keeps_bind; [apply mapM_keeps_okv|intros l h1 _ F; apply keeps_ret; exact F].
  intros idx h' G. cbn [map all_some]. destruct (bget idx a) as [x|] eqn:Ex; [|apply keeps_raise].
  destruct (bget idx b) as [y|] eqn:Ey; [|apply keeps_raise].
  apply obj_op_keeps; (apply (okv_grows h); [exact G|]);
    [exact (bget_okv h a idx x Fa Ex)|exact (bget_okv h b idx y Fb Ey)].
Qed.
Lemma dot_from_keeps : forall l acc h, okv h acc -> Forall (fun p => okv h (fst p) /\ okv h (snd p)) l -> keeps h (dot_from acc l) okv.
Proof.
  intros l. induction l as [|[x y] l IH]; intros acc h Ha F; cbn [dot_from]; [now apply keeps_ret|].
  inversion F as [|? ? [Hx Hy] F']; subst. cbn [fst snd] in *.
  eapply keeps_bind; [now apply obj_op_keeps|]. intros p h1 G1 Hp.
  eapply keeps_bind; [apply obj_op_keeps; auto; now apply (okv_grows h)|]. intros s h2 G2 Hs.
  apply IH; auto. eapply Forall_impl; [|exact F']. intros q [Q1 Q2].
  split; (apply (okv_grows h); [eapply grows_trans3; eauto|assumption]).
Qed.
Lemma obj_dot_keeps : forall l h, Forall (fun p => okv h (fst p) /\ okv h (snd p)) l -> keeps h (obj_dot l) okv.
Proof.
  intros [|[x y] l] h F; cbn [obj_dot]; [apply keeps_raise|]. inversion F as [|? ? [Hx Hy] F']; subst. cbn [fst snd] in *.
  eapply keeps_bind; [now apply obj_op_keeps|]. intros p h1 G1 Hp. apply dot_from_keeps; auto.
  eapply Forall_impl; [|exact F']. intros q [Q1 Q2]. split; now apply (okv_grows h).
Qed.
Lemma matmul_keeps : forall (a b : arr (value N)) h, Forall (okv h) (a_flat a) -> Forall (okv h) (a_flat b) ->
  keeps h (obj_matmul a b) (fun h' c => Forall (okv h') (a_flat c)).
Proof.
  intros a b h Fa Fb. unfold obj_matmul.
  destruct (a_shape a) as [|m [|k [|? ?]]]; try apply keeps_raise.
  destruct (a_shape b) as [|k' [|n [|? ?]]]; try apply keeps_raise.
  destruct (Nat.eqb k k'); [|apply keeps_raise].
  eapply keeps_bind; [apply mapM_keeps_okv|intros l h1 _ F; apply keeps_ret; exact F].
  intros idx h' G. destruct idx as [|i [|j [|? ?]]]; try apply keeps_raise.
  destruct (row_col a b k i j) as [l|] eqn:E; [|apply keeps_raise]. apply obj_dot_keeps.
  unfold row_col in E. revert l E. induction (seq 0 k) as [|t ts IH]; intros l E; cbn [map all_some] in E.
  - injection E as <-. constructor.
  - destruct (bget [i; t] a) as [x|] eqn:Ex; [|discriminate]. destruct (bget [t; j] b) as [y|] eqn:Ey; [|discriminate].
    destruct (all_some _) as [r|]; [|discriminate]. injection E as <-. constructor; auto. cbn.
    split; (apply (okv_grows h); [exact G|]); [exact (bget_okv h a _ x Fa Ex)|exact (bget_okv h b _ y Fb Ey)].
Qed.
Lemma oks_array2 : forall f st ia ja r st',
  (forall a b h, Forall (okv h) (a_flat a) -> Forall (okv h) (a_flat b) -> keeps h (f a b) (fun h' c => Forall (okv h') (a_flat c))) ->
  array_call2 f st ia ja r st' -> oks st -> oks st'.
Proof.
  intros f st ia ja r st' K (a & b & _ & _ & (_ & _ & Ga) & (_ & _ & Gb) & H) [O E].
  specialize (K a b (st_heap st) (get_args_ok _ _ _ _ E Ga) (get_args_ok _ _ _ _ E Gb) O).
  destruct r as [ir|e].
  - destruct H as (c & _ & He & _ & Hf). rewrite Hf in K. destruct K as (K1 & K2 & K3). cbn in *.
    split; auto. rewrite He. apply Forall_app. split; auto. eapply Forall_impl; [|exact E]. intros x. now apply okv_grows.
  - destruct H as (He & Hf). rewrite Hf in K. destruct K as (K1 & K2 & K3). cbn in *.
    split; auto. rewrite He. eapply Forall_impl; [|exact E]. intros x. now apply okv_grows.
Qed.

Theorem reachable_ok : forall st : state N, reachable st -> oks st.
Proof.
  intros st R. induction R as [|st prog st' os R IH [k Hk]|st c R IH Hc|order st is r st' R IH Ho|order st is r st' R IH Ho|order fw st ia r st' R IH P Ho Hd|order f st ia r st' R IH P Ho Hd|op st ia ja r st' R IH Ho|st ia ja r st' R IH Ho].
  - exact oks_init.
  - specialize (Hk k (le_n k)). pose proof (oks_run k prog st IH) as X. now rewrite Hk in X.
  - now apply oks_call.
  - eapply oks_observes; eauto. intros. apply cov_keeps.
  - eapply oks_observes; eauto. intros. apply corr_keeps.
  - eapply oks_array; eauto. intros; apply uncert_keeps.
  - eapply oks_array; eauto. intros; apply wrapped_keeps.
  - eapply oks_array2; eauto. intros; now apply array_op_keeps.
  - eapply oks_array2; eauto. intros; now apply matmul_keeps.
Qed.
Lemma pairs_ordered : forall h, pairs h -> ordered h.
Proof. intros h O l its c l' G Hi. exact (O l its _ G Hi). Qed.
Theorem reachable_ordered : forall st : state N, reachable st -> ordered (st_heap st).
Proof. intros st R. apply pairs_ordered. apply (reachable_ok st R). Qed.
Theorem reachable_bound : forall (st : state N) i u, reachable st -> is_number st i u ->
  (uf_lp u < length (h_lc (st_heap st)))%nat.
Proof. intros st i u R E. exact (oks_nth st i _ (reachable_ok st R) E). Qed.
End Ordered.
