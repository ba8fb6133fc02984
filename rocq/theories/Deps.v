(** Dependencies are tracked exactly, in any arithmetic (C78). *)
From Coq Require Import ZArith List Bool Arith Lia Permutation.
From Verif Require Import Base Heap HeapSpec Affine Ops UMath HeapProofs Machine Cov Copy Calls Unumpy UMatrix History Ordered Fuel Evolve DepSpec.
Import ListNotations.

Section Deps.
Context {N : NumOps}.
Notation ghosts := (list (option (list varid))).
Notation qev := (ev (N:=N) (fun _ => True)).
Notation qsev := (sev (N:=N) (fun _ => True)).

(** What is known of a linear combination that depends on the variables [a]. *)
Definition rel (Lm : ghosts) (l : loc) (it : item N) (a : list varid) : Prop :=
  match it with IPair _ l' => (l' < l)%nat /\ nth_error Lm l' = Some (Some a) | _ => False end.
Definition okl (Lm : ghosts) (l : loc) (a : list varid) (x : lc N) : Prop :=
  match x with
  | LDict d => NoDup (dkeys d) /\ forall v, In v (dkeys d) <-> In v a
  | LList its => exists gs, Forall2 (rel Lm l) its gs /\ forall v, In v a <-> In v (concat gs)
  end.
Definition Inv (Lm : ghosts) (h : heap N) : Prop := length Lm = length (h_lc h) /\
  forall l a, nth_error Lm l = Some (Some a) -> (forall v, In v a -> (v < length (h_var h))%nat) /\ okl Lm l a (get_lc h l).

Lemma nth_app_l : forall A (l l' : list A) i x, nth_error l i = Some x -> nth_error (l ++ l') i = Some x.
Proof. intros A l l' i x H. rewrite nth_error_app1; [exact H|]. apply nth_error_Some. congruence. Qed.
Lemma rel_more : forall Lm more l it a, rel Lm l it a -> rel (Lm ++ more) l it a.
Proof. intros Lm more l [c l'| |] a H; try contradiction. destruct H as (A & B). split; [exact A|]. now apply nth_app_l. Qed.
Lemma okl_more : forall Lm more l a x, okl Lm l a x -> okl (Lm ++ more) l a x.
Proof.
  intros Lm more l a [d|its] H; [exact H|]. destruct H as (gs & A & B). exists gs. split; [|exact B].
  clear - A. induction A; constructor; auto. now apply rel_more.
Qed.
Lemma get_more : forall (h : heap N) xs objs l, (l < length (h_lc h))%nat -> get_lc (mkHeap (h_lc h ++ xs) objs) l = get_lc h l.
Proof. intros. unfold get_lc. cbn. now rewrite app_nth1. Qed.
Lemma Inv_more : forall (Lm : ghosts) (h : heap N) xs objs (more : ghosts), Inv Lm h -> length more = length xs -> (length (h_var h) <= length objs)%nat ->
  (forall k a, nth_error more k = Some (Some a) -> (forall v, In v a -> (v < length objs)%nat) /\
     okl (Lm ++ more) (length (h_lc h) + k)%nat a (nth k xs (LDict []))) ->
  Inv (Lm ++ more) (mkHeap (h_lc h ++ xs) objs).
Proof.
  intros Lm h xs objs more [L H] Lx Lo Hm. split; [cbn [h_lc]; rewrite !app_length, L, Lx; reflexivity|]. intros l a Hl. cbn [h_var].
  destruct (Nat.lt_ge_cases l (length Lm)) as [B|B].
  - rewrite nth_error_app1 in Hl by exact B. destruct (H l a Hl) as (W & O). split.
    + intros v Hv. specialize (W v Hv). lia.
    + rewrite get_more by lia. now apply okl_more.
  - rewrite nth_error_app2 in Hl by exact B. destruct (Hm _ _ Hl) as (W & O). split; [exact W|].
    replace (length (h_lc h) + (l - length Lm))%nat with l in O by lia. unfold get_lc. cbn. rewrite app_nth2 by lia. rewrite <- L. exact O.
Qed.
Lemma repeat_none : forall n k (a : list varid), nth_error (repeat None n) k = Some (Some a) -> False.
Proof. induction n as [|n IH]; intros [|k] a H; cbn in H; try discriminate. eapply IH; eauto. Qed.
Lemma lc_bound : forall (h : heap N) l its, get_lc h l = LList its -> (l < length (h_lc h))%nat.
Proof.
  intros h l its H. destruct (Nat.lt_ge_cases l (length (h_lc h))) as [B|B]; [exact B|]. unfold get_lc in H. rewrite nth_overflow in H by exact B. discriminate.
Qed.

(** ** The loop of expand() *)
Lemma push_rel : forall Lm l c its gs stack gs0 stack', push_items c its stack = (stack', None) ->
  Forall2 (rel Lm l) its gs -> Forall2 (rel Lm l) stack gs0 -> Forall2 (rel Lm l) stack' (rev gs ++ gs0).
Proof.
  intros Lm l c. induction its as [|it its IH]; intros gs stack gs0 stack' P F G; cbn in P.
  - injection P as <-. inversion F; subst. exact G.
  - inversion F as [|? g ? gs' R F']; subst. destruct it as [c' l'| |]; try contradiction R.
    destruct (pn_mul c c') as [p|e]; [|discriminate P]. cbn [rev]. rewrite <- app_assoc. cbn [app].
    apply (IH gs' _ (g :: gs0) _ P F'). constructor; [exact R|exact G].
Qed.
Lemma rel_below : forall Lm l l' it a, (l' < l)%nat -> rel Lm l' it a -> rel Lm l it a.
Proof. intros Lm l l' [c l2| |] a B H; try contradiction. destruct H as (A & H). split; [lia|exact H]. Qed.
Lemma in_concat_app : forall (v : varid) a b, In v (concat (a ++ b)) <-> In v (concat a) \/ In v (concat b).
Proof. intros. rewrite concat_app, in_app_iff. tauto. Qed.
Lemma in_concat_rev : forall (v : varid) gs, In v (concat (rev gs)) <-> In v (concat gs).
Proof. intros v gs. rewrite !in_concat. split; intros (x & A & B); exists x; split; auto; [now apply in_rev in A|now apply in_rev; rewrite rev_involutive]. Qed.
Lemma loop_keys : forall Lm l fuel its gs acc (h h' : heap N),
  (forall l' a, (l' < l)%nat -> nth_error Lm l' = Some (Some a) -> okl Lm l' a (get_lc h l')) ->
  get_lc h l = LList its -> Forall2 (rel Lm l) its gs -> NoDup (dkeys acc) -> expand_loop fuel l acc h = (Ok tt, h') ->
  exists d, h' = set_lc h l (LDict d) /\ NoDup (dkeys d) /\ forall v, In v (dkeys d) <-> In v (dkeys acc) \/ In v (concat gs).
Proof.
  intros Lm l. induction fuel as [|n IH]; intros its gs acc h h' C G F Na X; [discriminate X|]. cbn [expand_loop] in X. rewrite G in X.
  destruct its as [|it rest].
  - injection X as <-. inversion F; subst. exists acc. split; [reflexivity|]. split; [exact Na|]. intros v. cbn. tauto.
  - inversion F as [|? g ? gs' R F']; subst. destruct it as [c l'| |]; try contradiction R. destruct R as (B & R). cbv zeta in X.
    assert (Lb := lc_bound _ _ _ G).
    assert (C' : forall x l2 a, (l2 < l)%nat -> nth_error Lm l2 = Some (Some a) -> okl Lm l2 a (get_lc (set_lc h l x) l2)).
    { intros x l2 a B2 H2. rewrite get_set_neq by lia. now apply C. }
    assert (O := C l' g B R). rewrite (get_set_neq h) in X by lia. destruct (get_lc h l') as [d|its'].
    + destruct (acc_dict c d acc) as [acc'|e] eqn:A; [|discriminate X]. destruct (acc_dict_keys _ _ _ _ A) as (K1 & K2). destruct O as (O1 & O2).
      destruct (IH rest gs' acc' _ h' (C' (LList rest)) (get_set_eq _ _ _ Lb) F' (K1 Na) X) as (d' & D1 & D2 & D3).
      exists d'. split; [rewrite D1; apply set_set|]. split; [exact D2|]. intros v. rewrite D3, K2. cbn [concat]. rewrite in_app_iff, O2. tauto.
    + destruct O as (gs2 & O1 & O2). destruct (push_items c (rev its') rest) as [stack [e|]] eqn:P; [discriminate X|]. rewrite set_set in X.
      assert (F2 : Forall2 (rel Lm l) (rev its') (rev gs2)).
      { clear - O1 B. induction O1; [constructor|]. cbn [rev]. apply Forall2_app; [exact IHO1|]. repeat constructor. eapply rel_below; eauto. }
      assert (F3 := push_rel _ _ _ _ _ _ _ _ P F2 F').
      destruct (IH stack _ acc _ h' (C' (LList stack)) (get_set_eq _ _ _ Lb) F3 Na X) as (d' & D1 & D2 & D3).
      exists d'. split; [rewrite D1; apply set_set|]. split; [exact D2|]. intros v. rewrite D3, in_concat_app, rev_involutive. cbn [concat]. rewrite in_app_iff, O2. tauto.
Qed.
Lemma loop_others : forall (fuel : nat) l acc (h : heap N) r h', expand_loop fuel l acc h = (r, h') ->
  length (h_lc h') = length (h_lc h) /\ h_var h' = h_var h /\ forall l', l' <> l -> get_lc h' l' = get_lc h l'.
Proof.
  induction fuel as [|n IH]; intros l acc h r h' H; cbn [expand_loop] in H.
  - injection H as <- <-. auto.
  - assert (Q : forall x, length (h_lc (set_lc h l x)) = length (h_lc h) /\ h_var (set_lc h l x) = h_var h /\ forall l', l' <> l -> get_lc (set_lc h l x) l' = get_lc h l').
    { intros x. split; [apply set_lc_length|]. split; [reflexivity|]. intros l' Hn. now apply get_set_neq; auto. }
    destruct (get_lc h l) as [[|p d]|[|it rest]].
    + injection H as <- <-. apply Q.
    + injection H as <- <-. auto.
    + injection H as <- <-. apply Q.
    + cbv zeta in H. destruct it as [c l'| |]; try (injection H as <- <-; apply Q).
      destruct (get_lc (set_lc h l (LList rest)) l') as [d|its].
      * destruct (acc_dict c d acc) as [acc'|e]; [|injection H as <- <-; apply Q].
        destruct (IH _ _ _ _ _ H) as (A & A2 & B). destruct (Q (LList rest)) as (C & C2 & D). split; [congruence|]. split; [congruence|]. intros l2 Hn. rewrite B, D; auto.
      * destruct (push_items c (rev its) rest) as [s [e|]].
        -- injection H as <- <-. rewrite set_set. apply Q.
        -- destruct (IH _ _ _ _ _ H) as (A & A2 & B). rewrite set_set in A, A2, B. destruct (Q (LList s)) as (C & C2 & D). split; [congruence|]. split; [congruence|].
           intros l2 Hn. rewrite B, D; auto.
Qed.
Lemma expand_inv : forall Lm (h : heap N) l its fuel h', Inv Lm h -> get_lc h l = LList its -> expand_loop fuel l [] h = (Ok tt, h') ->
  Inv Lm h' /\ forall a, nth_error Lm l = Some (Some a) -> exists d, get_lc h' l = LDict d /\ NoDup (dkeys d) /\ forall v, In v (dkeys d) <-> In v a.
Proof.
  intros Lm h l its fuel h' I G X. destruct (loop_others _ _ _ _ _ _ X) as (A & A2 & B).
  assert (K : forall a, nth_error Lm l = Some (Some a) -> exists d, get_lc h' l = LDict d /\ NoDup (dkeys d) /\ forall v, In v (dkeys d) <-> In v a).
  { intros a Ha. destruct (proj2 I l a Ha) as (_ & O). rewrite G in O. destruct O as (gs & O1 & O2).
    destruct (loop_keys Lm l fuel its gs [] h h') as (d & -> & D2 & D3); auto; [|constructor|].
    - intros l' b _ Hb. exact (proj2 (proj2 I l' b Hb)).
    - exists d. rewrite get_set_eq by exact (lc_bound _ _ _ G). split; [reflexivity|]. split; [exact D2|]. intros v. rewrite D3, O2. cbn. tauto. }
  split; [|exact K]. split; [rewrite A; apply I|]. rewrite A2. intros l' a Hl. split; [apply (proj2 I _ _ Hl)|].
  destruct (Nat.eq_dec l' l) as [->|Hn].
  - destruct (K a Hl) as (d & -> & D). exact D.
  - rewrite B by exact Hn. apply (proj2 I _ _ Hl).
Qed.
Lemma ev_inv : forall h h', qev h h' -> forall Lm, Inv Lm h -> exists more, Inv (Lm ++ more) h'.
Proof.
  intros h h' V. induction V as [h|h xs objs Lo|h l its fuel r h' G X F|h1 h2 h3 V1 IH1 V2 IH2]; intros Lm I.
  - exists []. now rewrite app_nil_r.
  - exists (repeat None (length xs)). apply Inv_more; [exact I|apply repeat_length|exact Lo|]. intros k a Hk. destruct (repeat_none _ _ _ Hk).
  - exists []. rewrite app_nil_r. destruct r as [[]|e]; [|exfalso; exact (F e eq_refl Logic.I)].
    exact (proj1 (expand_inv _ _ _ _ _ _ I G X)).
  - destruct (IH1 Lm I) as (m1 & I1). destruct (IH2 _ I1) as (m2 & I2). exists (m1 ++ m2). rewrite app_assoc. exact I2.
Qed.

(** ** Results of a program *)
Definition known (Lm : ghosts) (env : list (value N)) (L : ghosts) : Prop := length L = length env /\
  forall i a, nth_error L i = Some (Some a) -> exists u, nth_error env i = Some (VUF u) /\ nth_error Lm (uf_lp u) = Some (Some a) /\
    forall v, uf_var u = Some v -> In v a.
Lemma known_more : forall Lm more env new L l, known Lm env L -> length l = length new ->
  (forall k a, nth_error l k = Some (Some a) -> exists u, nth_error new k = Some (VUF u) /\ nth_error (Lm ++ more) (uf_lp u) = Some (Some a) /\
     forall v, uf_var u = Some v -> In v a) ->
  known (Lm ++ more) (env ++ new) (L ++ l).
Proof.
  intros Lm more env new L l [A B] C D. split; [rewrite !app_length; congruence|]. intros i a H.
  destruct (Nat.lt_ge_cases i (length L)) as [X|X].
  - rewrite nth_error_app1 in H by exact X. destruct (B i a H) as (u & U1 & U2 & U3). exists u. split; [now apply nth_app_l|]. split; [now apply nth_app_l|exact U3].
  - rewrite nth_error_app2 in H by exact X. destruct (D _ _ H) as (u & U1 & U2). exists u. split; [|exact U2].
    rewrite nth_error_app2 by lia. rewrite <- A. exact U1.
Qed.
Definition tracks (Lm : ghosts) (st : state N) (L : ghosts) : Prop := Inv Lm (st_heap st) /\ known Lm (st_env st) L.
Lemma sev_tracks : forall st st' Lm L, qsev st st' -> tracks Lm st L ->
  exists Lm', tracks Lm' st' (L ++ repeat None (length (st_env st') - length (st_env st))).
Proof.
  intros st st' Lm L [V [new E]] [I K]. destruct (ev_inv _ _ V Lm I) as (more & I'). exists (Lm ++ more). split; [exact I'|].
  rewrite E. apply known_more; [exact K|rewrite repeat_length, app_length; lia|]. intros k a Hk. destruct (repeat_none _ _ _ Hk).
Qed.

(** ** Statements *)
Lemma push_qsev : forall st (r : res (value N) * heap N), qev (st_heap st) (snd r) -> qsev st (fst (push st r)).
Proof. intros st [[a|e] h] H; cbn in *; (split; [exact H|eexists; reflexivity]). Qed.
Lemma push_list_qsev : forall st (r : res (list (value N)) * heap N), qev (st_heap st) (snd r) -> qsev st (fst (push_list st r)).
Proof. intros st [[a|e] h] H; cbn in *; (split; [exact H|]); [eexists; reflexivity|exists []; cbn; now rewrite app_nil_r]. Qed.
Lemma observe_qsev : forall A st (f : A -> out N) r, qev (st_heap st) (snd r) -> qsev st (fst (observe st f r)).
Proof. intros A st f [[a|e] h] H; cbn in *; (split; [exact H|exists []; cbn; now rewrite app_nil_r]). Qed.
Lemma step_qsev : forall fuel st ins, (reading ins = true -> ~ raised (snd (step fuel st ins))) -> qsev st (fst (step fuel st ins)).
Proof.
  intros fuel st ins R.
  assert (Rd : reading ins = true -> qsev st (fst (step fuel st ins))).
  { intros E. apply step_sev. intros e X _. apply (R E). exists e. exact X. }
  destruct ins as [n s tag|p|op i j|f pos kwd args kw|i|i e|i|i|i|i|i s|c i j|i|i p]; try (now apply Rd); cbn [step].
  - apply push_qsev. pose proof (evu_new (fun _ => True) n s tag (st_heap st)) as X.
    destruct (new_var n s tag (st_heap st)) as [[u|e] h']; exact X.
  - apply push_qsev. apply ev_refl.
  - destruct (get_args (st_env st) [i; j]) as [[|a [|b [|]]]|]; apply push_qsev; try apply ev_refl. apply evu_binop.
  - destruct (get_args (st_env st) args); [|apply push_qsev; apply ev_refl].
    destruct (get_kwargs (st_env st) kw); [|apply push_qsev; apply ev_refl]. apply push_qsev. apply evu_wcall.
  - destruct (nth_error (st_env st) i) as [a|]; [|apply push_qsev; apply ev_refl]. apply push_qsev.
    pose proof (evu_modf (fun _ => True) a (st_heap st)) as X.
    destruct (umath_modf a (st_heap st)) as [[[fr ip]|e] h']; exact X.
  - destruct (nth_error (st_env st) i) as [a|]; [|apply push_qsev; apply ev_refl]. apply push_qsev. apply evu_ldexp.
  - unfold with_uf, with_val. destruct (nth_error (st_env st) i) as [[p|u]|]; cbn [fst]; try (destruct st; apply sev_refl).
    destruct (uf_var u); [|apply sev_refl]. apply observe_qsev. apply evu_set.
Qed.
Lemma call_qsev : forall st c, qsev st (fst (call_step st c)).
Proof.
  intros st c. destruct c as [i|i|is|eigh noms cov tags|eigh vals corr tags]; cbn [call_step].
  - destruct (nth_error (st_env st) i); apply push_qsev; [apply evu_copy|apply ev_refl].
  - destruct (nth_error (st_env st) i); apply push_qsev; [apply evu_deepcopy|apply ev_refl].
  - destruct (get_args (st_env st) is); apply push_list_qsev; [apply evu_pickle|apply ev_refl].
  - apply push_list_qsev. pose proof (evu_corr_values (fun _ => True) eigh noms cov tags (st_heap st)) as X.
    destruct (correlated_values _ _ _ _ _) as [[us|e] h']; exact X.
  - apply push_list_qsev. pose proof (evu_corr_norm (fun _ => True) eigh vals corr tags (st_heap st)) as X.
    destruct (correlated_values_norm _ _ _ _ _) as [[us|e] h']; exact X.
Qed.
Lemma ok_fine : forall A (a : A), fine (fun _ => True) (Ok a).
Proof. intros A a e E. discriminate E. Qed.
Lemma acts_qsev : forall st st', acts st st' -> qsev st st'.
Proof.
  intros st st' A. destruct A as [st ins st' o [k D] F|st c|order st is m st' (l & k & _ & He & D)|order st is m st' (l & k & _ & He & D)
    |order fw st ia ir st' (a & k & _ & _ & b & _ & He & _ & D)|order f st ia ir st' (a & k & _ & _ & b & _ & He & _ & D)
    |op st ia ja r st' (a & b & _ & _ & _ & _ & D)|st ia ja r st' (a & b & _ & _ & _ & _ & D)].
  - specialize (D k (le_n k)). pose proof (step_qsev k st ins) as X. rewrite D in X. auto.
  - apply call_qsev.
  - specialize (D k (le_n k)). pose proof (evs_cov (fun _ => True) order k l (st_heap st)) as X. rewrite D in X. split; [apply X, ok_fine|]. exists []. now rewrite app_nil_r.
  - specialize (D k (le_n k)). pose proof (evs_corr (fun _ => True) order k l (st_heap st)) as X. rewrite D in X. split; [apply X, ok_fine|]. exists []. now rewrite app_nil_r.
  - pose proof (evs_uncert (fun _ => True) order fw k a (st_heap st)) as X. specialize (D k (le_n k)). rewrite D in X. split; [apply X, ok_fine|eauto].
  - pose proof (evs_wrapped (fun _ => True) order f k a (st_heap st)) as X. specialize (D k (le_n k)). rewrite D in X. split; [apply X, ok_fine|eauto].
  - pose proof (evu_array_op (fun _ => True) op a b (st_heap st)) as X. destruct r as [ir|e].
    + destruct D as (c & _ & He & _ & D). rewrite D in X. split; [exact X|eauto].
    + destruct D as (He & D). rewrite D in X. split; [exact X|exists []; now rewrite app_nil_r].
  - pose proof (evu_matmul (fun _ => True) a b (st_heap st)) as X. destruct r as [ir|e].
    + destruct D as (c & _ & He & _ & D). rewrite D in X. split; [exact X|eauto].
    + destruct D as (He & D). rewrite D in X. split; [exact X|exists []; now rewrite app_nil_r].
Qed.

(** ** Functions *)
Definition trel (Lm : ghosts) (it : item N) (a : list varid) : Prop :=
  match it with IPair _ l => nth_error Lm l = Some (Some a) | _ => False end.
Lemma tracks_call : forall Lm st L ts gs vs x, tracks Lm st L -> Forall2 (trel Lm) ts gs -> (forall v, In v vs <-> In v (concat gs)) ->
  exists Lm', tracks Lm' (mkState (mkHeap (h_lc (st_heap st) ++ [LList (rev ts)]) (h_var (st_heap st)))
      (st_env st ++ [VUF (mkUF x (length (h_lc (st_heap st))) None)])) (L ++ [Some vs]).
Proof.
  intros Lm st L ts gs vs x [I K] F E. exists (Lm ++ [Some vs]). split.
  - apply (Inv_more Lm (st_heap st) [LList (rev ts)] _ [Some vs]); [exact I|reflexivity|apply le_n|].
    intros [|[|k]] a Hk; cbn in Hk; try discriminate. injection Hk as <-. split.
    + intros v Hv. apply E, in_concat in Hv. destruct Hv as (g & G1 & G2).
      destruct (In_nth_error _ _ G1) as (k & G3). assert (X : exists l, nth_error Lm l = Some (Some g)).
      { clear - F G1. induction F as [|it a ts gs R F IH]; [destruct G1|]. destruct G1 as [->|G1]; [|auto]. destruct it as [c l| |]; try contradiction R. eauto. }
      destruct X as (l & X). exact (proj1 (proj2 I l g X) v G2).
    + cbn [nth okl]. exists (rev gs). split; [|intros v; rewrite in_concat_rev; apply E]. rewrite Nat.add_0_r.
      assert (B : Forall2 (rel (Lm ++ [Some vs]) (length (h_lc (st_heap st)))) ts gs).
      { clear - F I. destruct I as [I _]. induction F as [|it a ts gs R F IH]; constructor; [|exact IH]. destruct it as [c l| |]; try contradiction R.
        cbn in *. split; [rewrite <- I; apply nth_error_Some; congruence|now apply nth_app_l]. }
      clear - B. induction B; [constructor|]. cbn [rev]. apply Forall2_app; [exact IHB|]. repeat constructor. assumption.
  - cbn [st_env]. apply known_more; [exact K|reflexivity|]. intros [|[|k]] a Hk; cbn in Hk; try discriminate. injection Hk as <-.
    eexists. split; [reflexivity|]. cbn [uf_lp uf_var]. rewrite nth_error_app2 by (rewrite (proj1 I); apply le_n). rewrite (proj1 I), Nat.sub_diag. split; [reflexivity|]. intros w Hw; (discriminate Hw || (left; congruence)).
Qed.
Lemma wcall_result : forall f pos kwd (args : args_t N) kw h u h', wcall f pos kwd args kw h = (Ok (VUF u), h') ->
  exists tp tk x, pos_terms pos 0 args (map nominal_value args) (kw_map nominal_value kw) = Ok tp /\
    kw_terms kwd kw (map nominal_value args) (kw_map nominal_value kw) = Ok tk /\
    u = mkUF x (length (h_lc h)) None /\ h' = mkHeap (h_lc h ++ [LList (rev (tp ++ tk))]) (h_var h).
Proof.
  intros f pos kwd args kw h u h' H. unfold wcall in H. destruct (negb _).
  - exfalso. destruct (f _ _); cbn in H; discriminate H.
  - destruct (f _ _) as [r|e]; [|discriminate H]. destruct r as [p| | |]; try discriminate H.
    + destruct (pos_terms pos 0 args _ _) as [tp|e]; [|discriminate H]. cbn [rbind] in H.
      destruct (kw_terms kwd kw _ _) as [tk|e]; [|discriminate H]. cbn [rbind] in H.
      destruct (pn_float p) as [x|e]; [|discriminate H]. cbn [alloc_lc] in H. injection H as <- <-. exists tp, tk, x. auto.
    + exfalso. match type of H with context [match ?m with Ok _ => _ | Err _ => _ end] => destruct m end; discriminate H.
Qed.
Lemma operands_pos : forall Lm (st : state N) L pos av kv, tracks Lm st L -> forall js i args tp js2 vs,
  get_args (st_env st) js = Some args -> pos_terms pos i args av kv = Ok tp -> operands st L (js ++ js2) vs ->
  exists gs v2, operands st L js2 v2 /\ vs = concat gs ++ v2 /\ Forall2 (trel Lm) tp gs.
Proof.
  intros Lm st L pos av kv [_ K]. induction js as [|j js IH]; intros i args tp js2 vs G T H; cbn in G.
  - injection G as <-. cbn in T. injection T as <-. exists [], vs. split; [exact H|]. split; [reflexivity|constructor].
  - destruct (nth_error (st_env st) j) as [a|] eqn:Ej; [|discriminate]. destruct (get_args (st_env st) js) as [args'|] eqn:G'; [|discriminate]. injection G as <-.
    cbn [app] in H. inversion H as [|j0 a0 js0 vs0 P0 T0|j0 u js0 ws vs0 P0 P1 T0]; subst.
    + rewrite Ej in P0. injection P0 as ->. cbn in T. exact (IH (S i) args' tp js2 vs eq_refl T T0).
    + unfold is_number in P0. rewrite Ej in P0. injection P0 as ->. cbn in T. destruct (pos i av kv) as [c|e]; [|discriminate]. cbn in T.
      destruct (pos_terms pos (S i) args' av kv) as [t|e] eqn:Et; [|discriminate]. cbn in T. injection T as <-.
      destruct (IH (S i) args' t js2 vs0 eq_refl Et T0) as (gs & v2 & A & -> & C).
      exists (ws :: gs), v2. split; [exact A|]. split; [cbn [concat]; now rewrite app_assoc|]. constructor; [|exact C]. cbn [trel].
      destruct (proj2 K _ _ P1) as (u' & U1 & U2 & _). rewrite Ej in U1. injection U1 as <-. exact U2.
Qed.
Lemma operands_kw : forall Lm st L kwd av kv, tracks Lm st L -> forall js kw tk vs,
  get_kwargs (st_env st) js = Some kw -> kw_terms kwd kw av kv = Ok tk -> operands st L (map snd js) vs ->
  exists gs, vs = concat gs /\ Forall2 (trel Lm) tk gs.
Proof.
  intros Lm st L kwd av kv [_ K]. induction js as [|[k j] js IH]; intros kw tk vs G T H; cbn in G.
  - injection G as <-. cbn in T. injection T as <-. inversion H; subst. exists []. split; [reflexivity|constructor].
  - destruct (nth_error (st_env st) j) as [a|] eqn:Ej; [|discriminate]. destruct (get_kwargs (st_env st) js) as [kw'|] eqn:G'; [|discriminate]. injection G as <-.
    cbn [map snd] in H. inversion H as [|j0 a0 js0 vs0 P0 T0|j0 u js0 ws vs0 P0 P1 T0]; subst.
    + rewrite Ej in P0. injection P0 as ->. cbn in T. exact (IH kw' tk vs eq_refl T T0).
    + unfold is_number in P0. rewrite Ej in P0. injection P0 as ->. cbn in T. destruct (kwd k av kv) as [c|e]; [|discriminate]. cbn in T.
      destruct (kw_terms kwd kw' av kv) as [t|e] eqn:Et; [|discriminate]. cbn in T. injection T as <-.
      destruct (IH kw' t vs0 eq_refl Et T0) as (gs & -> & C). exists (ws :: gs). split; [reflexivity|]. constructor; [|exact C]. cbn [trel].
      destruct (proj2 K _ _ P1) as (u' & U1 & U2 & _). rewrite Ej in U1. injection U1 as <-. exact U2.
Qed.
Lemma tracks_wcall : forall Lm st L f pos kwd args kw u h' vs js ks, tracks Lm st L -> wcall f pos kwd args kw (st_heap st) = (Ok (VUF u), h') ->
  get_args (st_env st) js = Some args -> get_kwargs (st_env st) ks = Some kw -> forall vs0, operands st L (js ++ map snd ks) vs0 ->
  (forall v, In v vs <-> In v vs0) -> exists Lm', tracks Lm' (mkState h' (st_env st ++ [VUF u])) (L ++ [Some vs]).
Proof.
  intros Lm st L f pos kwd args kw u h' vs js ks T W G K vs0 H E.
  destruct (wcall_result _ _ _ _ _ _ _ _ W) as (tp & tk & x & P & Q & -> & ->).
  destruct (operands_pos _ _ _ _ _ _ T _ _ _ _ _ _ G P H) as (gs & v2 & H2 & -> & F1).
  destruct (operands_kw _ _ _ _ _ _ T _ _ _ _ K Q H2) as (gs2 & -> & F2).
  apply (tracks_call Lm st L _ (gs ++ gs2)); [exact T|now apply Forall2_app|]. intros v. rewrite E, concat_app. tauto.
Qed.
Lemma binop_result : forall op (a b : value N) h u h', py_binop op a b h = (Ok (VUF u), h') ->
  (exists u1, a = VUF u1 /\ wcall (float_method op) (op_pos op) no_kw [VUF u1; b] [] h = (Ok (VUF u), h')) \/
  (exists x u2, a = VPlain x /\ b = VUF u2 /\ wcall (float_rmethod op) (rop_pos op) no_kw [VUF u2; VPlain x] [] h = (Ok (VUF u), h')).
Proof.
  intros op a b h u h' H. unfold py_binop in H. destruct a as [x|u1].
  - right. destruct b as [y|u2]; [discriminate H|]. exists x, u2. split; [reflexivity|]. split; [reflexivity|].
    unfold bind, method_rop in H. destruct (wcall _ _ _ _ _ h) as [[r|e] h1]; [|discriminate H].
    destruct r as [[| | |]|u3]; try discriminate H; exact H.
  - left. exists u1. split; [reflexivity|].
    unfold bind, method_op in H. destruct b as [y|u2]; (destruct (wcall _ _ _ _ _ h) as [[r|e] h1]; [|discriminate H];
    destruct r as [[| | |]|u3]; try discriminate H; exact H).
Qed.
Lemma push_number : forall (st st' : state N) r u, push st r = (st', ONone) -> is_number st' (length (st_env st)) u ->
  exists h', r = (Ok (VUF u), h') /\ st' = mkState h' (st_env st ++ [VUF u]).
Proof.
  intros st st' [[v|e] h'] u H U; [|discriminate H]. injection H as <-. unfold is_number in U. cbn in U.
  rewrite nth_error_app2, Nat.sub_diag in U by apply le_n. injection U as ->. eauto.
Qed.
Lemma operands_one : forall (st : state N) L i a vs, operands st L [i] vs -> nth_error (st_env st) i = Some a ->
  (exists p, a = VPlain p /\ vs = []) \/ (exists u, a = VUF u /\ nth_error L i = Some (Some vs)).
Proof.
  intros st L i a vs H E. inversion H as [|j0 a0 js0 vs0 P0 T0|j0 u js0 ws vs0 P0 P1 T0]; subst; inversion T0; subst.
  - left. rewrite E in P0. injection P0 as ->. eauto.
  - right. unfold is_number in P0. rewrite E in P0. injection P0 as ->. exists u. rewrite app_nil_r. auto.
Qed.
Lemma operands_args : forall (st : state N) L js vs, operands st L js vs -> exists args, get_args (st_env st) js = Some args.
Proof.
  intros st L js vs H. induction H as [|j a js vs E H [l IH]|j u js ws vs E E2 H [l IH]]; cbn [get_args]; [eauto| |].
  - rewrite E, IH. eauto.
  - unfold is_number in E. rewrite E, IH. eauto.
Qed.
Theorem history_tracks : forall (st : state N) L, history st L -> exists Lm, tracks Lm st L.
Proof.
  intros st L T. induction T as [|st L n s tag st' u v T [Lm IH] [k D] U V|st L op i j st' u vs T [Lm IH] [k D] U H
    |st L f pos kwd args kw st' u vs T [Lm IH] [k D] U H|st L i st' u vs T [Lm IH] [k D] U H|st L i e st' u vs T [Lm IH] [k D] U H|st L st' T [Lm IH] A].
  - exists []. split; [split; [reflexivity|]|split; [reflexivity|]]; intros [|?] ? H; discriminate H.
  - specialize (D k (le_n k)). cbn [step] in D. destruct (push_number _ _ _ _ D U) as (h' & E & ->).
    unfold new_var in E. destruct (pn_float n) as [x|e]; [|discriminate E]. destruct (check_std s) as [sd|e]; [|discriminate E].
    cbn [alloc_lc h_lc h_var] in E. injection E as <- <-. cbn [uf_var] in V. injection V as V. destruct IH as [I K].
    exists (Lm ++ [Some [v]]). split.
    + apply (Inv_more Lm (st_heap st) [LDict [(length (h_var (st_heap st)), n_one N)]] _ [Some [v]]); [exact I|reflexivity|rewrite app_length; lia|].
      intros [|[|k1]] a Hk; cbn in Hk; try discriminate. injection Hk as <-. split.
      * intros w [<-|[]]. rewrite app_length. cbn. lia.
      * cbn [nth okl dkeys map fst]. rewrite V. split; [repeat constructor; intros []|]. tauto.
    + cbn [st_env]. apply known_more; [exact K|reflexivity|]. intros [|[|k1]] a Hk; cbn in Hk; try discriminate. injection Hk as <-.
      eexists. split; [reflexivity|]. cbn [uf_lp uf_var]. rewrite nth_error_app2 by (rewrite (proj1 I); apply le_n). rewrite (proj1 I), Nat.sub_diag. split; [reflexivity|]. intros w Hw; (discriminate Hw || (left; congruence)).
  - specialize (D k (le_n k)). cbn [step] in D. destruct (operands_args _ _ _ _ H) as (args & G). rewrite G in D.
    cbn [get_args] in G. destruct (nth_error (st_env st) i) as [a|] eqn:A; [|discriminate G]. destruct (nth_error (st_env st) j) as [b|] eqn:B; [|discriminate G].
    injection G as <-. destruct (push_number _ _ _ _ D U) as (h' & E & ->).
    destruct (binop_result _ _ _ _ _ _ E) as [(u1 & -> & W)|(x & u2 & -> & -> & W)].
    + eapply (tracks_wcall Lm st L _ _ _ [VUF u1; b] [] u h' vs [i; j] [] IH W); [cbn; now rewrite A, B|reflexivity|exact H|tauto].
    + assert (O : operands st L ([j; i] ++ map snd (@nil (nat * nat))) vs).
      { inversion H as [|j0 a0 js0 vs0 P0 T0|j0 u0 js0 ws vs0 P0 P1 T0]; subst; [|unfold is_number in P0; congruence].
        inversion T0 as [|j1 a1 js1 vs1 Q0 T1|j1 u1 js1 ws vs1 Q0 Q1 T1]; subst; [congruence|].
        apply operands_number with (u := u1); auto. eapply operands_plain; [exact A|]. exact T1. }
      eapply (tracks_wcall Lm st L _ _ _ [VUF u2; VPlain x] [] u h' vs [j; i] [] IH W); [cbn; now rewrite A, B|reflexivity|exact O|tauto].
  - specialize (D k (le_n k)). cbn [step] in D. 
    destruct (get_args (st_env st) args) as [a|] eqn:A.
    + destruct (get_kwargs (st_env st) kw) as [kk|] eqn:B.
      * destruct (push_number _ _ _ _ D U) as (h' & E & ->). eapply (tracks_wcall Lm st L f pos kwd a kk u h' vs args kw IH E A B); [exact H|tauto].
      * destruct (push_number _ _ _ _ D U) as (h' & E & _). discriminate E.
    + destruct (push_number _ _ _ _ D U) as (h' & E & _). discriminate E.
  - specialize (D k (le_n k)). cbn [step] in D. destruct (operands_args _ _ _ _ H) as (args & G). cbn [get_args] in G.
    destruct (nth_error (st_env st) i) as [a|] eqn:A; [|discriminate G]. destruct (push_number _ _ _ _ D U) as (h' & E & ->).
    destruct (operands_one _ _ _ _ _ H A) as [(p & -> & ->)|(u0 & -> & Li)].
    + exfalso. unfold umath_modf, bind in E. destruct p as [q| | |]; cbn [to_affine_scalar raise] in E; try discriminate E.
      destruct (pn_float q) as [x|e]; cbn [alloc_lc raise] in E; [|discriminate E]. cbn [uf_nom uf_lp] in E.
      destruct (n_modf N x) as [fr ip]. unfold get_lc in E. cbn [h_lc] in E. rewrite app_nth2, Nat.sub_diag in E by apply le_n. cbn in E. discriminate E.
    + unfold umath_modf, bind in E. cbn [to_affine_scalar ret] in E. destruct (n_modf N (uf_nom u0)) as [fr ip]. destruct (lc_truth _); [|discriminate E].
      injection E as <- <-. destruct IH as [I K]. exists Lm. split; [exact I|]. cbn [st_env]. rewrite <- (app_nil_r Lm).
      apply known_more; [exact K|reflexivity|]. intros [|[|k1]] a Hk; cbn in Hk; try discriminate. injection Hk as <-.
      eexists. split; [reflexivity|]. cbn [uf_lp uf_var]. rewrite app_nil_r. split; [|discriminate]. destruct (proj2 K _ _ Li) as (u' & U1 & U2 & _). rewrite A in U1. injection U1 as <-. exact U2.
  - specialize (D k (le_n k)). cbn [step] in D. destruct (operands_args _ _ _ _ H) as (args & G). cbn [get_args] in G.
    destruct (nth_error (st_env st) i) as [a|] eqn:A; [|discriminate G]. destruct (push_number _ _ _ _ D U) as (h' & E & ->).
    destruct (operands_one _ _ _ _ _ H A) as [(p & -> & ->)|(u0 & -> & Li)].
    + exfalso. unfold umath_ldexp, bind in E. destruct p as [q| | |]; cbn [to_affine_scalar raise] in E; try discriminate E.
      destruct (pn_float q) as [x|e1]; cbn [alloc_lc raise] in E; [|discriminate E]. cbn [uf_nom uf_lp] in E.
      unfold get_lc in E. cbn [h_lc] in E. rewrite app_nth2, Nat.sub_diag in E by apply le_n. cbn in E.
      destruct (n_ldexp N x e); discriminate E.
    + unfold umath_ldexp, bind in E. cbn [to_affine_scalar ret] in E. destruct (lc_truth _); [|discriminate E].
      destruct (n_ldexp N (uf_nom u0) e) as [x|]; [|discriminate E]. destruct (two_power e) as [c|]; [|discriminate E]. cbn [alloc_lc] in E.
      injection E as <- <-. apply (tracks_call Lm st L [IPair c (uf_lp u0)] [vs]); [exact IH| |intros v; cbn; rewrite app_nil_r; tauto].
      constructor; [|constructor]. cbn [trel]. destruct (proj2 (proj2 IH) _ _ Li) as (u' & U1 & U2 & _). rewrite A in U1. injection U1 as <-. exact U2.
  - eapply sev_tracks; [|exact IH]. now apply acts_qsev.
Qed.

(** ** Reads *)
Lemma read_keys : forall Lm (h : heap N) fuel l a d h', Inv Lm h -> nth_error Lm l = Some (Some a) -> lc_derivatives fuel l h = (Ok d, h') ->
  Inv Lm h' /\ NoDup (dkeys d) /\ forall v, In v (dkeys d) <-> In v a.
Proof.
  intros Lm h fuel l a d h' I Hl R. unfold lc_derivatives in R. destruct (get_lc h l) as [d0|its] eqn:G.
  - injection R as <- <-. destruct (proj2 I l a Hl) as (_ & O). rewrite G in O. auto.
  - destruct (expand_loop fuel l [] h) as [[[]|e] h1] eqn:X; [|discriminate R].
    destruct (expand_inv _ _ _ _ _ _ I G X) as (I1 & K). destruct (K a Hl) as (d1 & E & D1 & D2). rewrite E in R. injection R as <- <-. auto.
Qed.
Lemma known_number : forall Lm (st : state N) L i a u, tracks Lm st L -> nth_error L i = Some (Some a) -> is_number st i u ->
  nth_error Lm (uf_lp u) = Some (Some a) /\ forall v, uf_var u = Some v -> In v a.
Proof. intros Lm st L i a u [_ K] Hi Hu. destruct (proj2 K i a Hi) as (u' & U1 & U2). unfold is_number in Hu. rewrite U1 in Hu. injection Hu as ->. exact U2. Qed.
Lemma var_exists : forall (h : heap N) v, (v < length (h_var h))%nat <-> get_var h v <> None.
Proof. intros h v. unfold get_var. symmetry. apply nth_error_Some. Qed.
Theorem dependencies : forall (st : state N) L i vs u d, history st L -> nth_error L i = Some (Some vs) -> is_number st i u ->
  reads st (IDeriv i) (ODict d) ->
  NoDup (dkeys d) /\ (forall v, In v (dkeys d) <-> In v vs) /\ (forall v, In v vs -> get_var (st_heap st) v <> None).
Proof.
  intros st L i vs u d H Hi Hu (st' & k & R). destruct (history_tracks _ _ H) as (Lm & T). specialize (R k (le_n k)).
  destruct (known_number _ _ _ _ _ _ T Hi Hu) as (Hl & _). cbn [step] in R. unfold with_uf, with_val in R. unfold is_number in Hu. rewrite Hu in R.
  unfold derivatives in R. destruct (lc_derivatives k (uf_lp u) (st_heap st)) as [[d'|e] h'] eqn:E; cbn in R; [|discriminate R]. injection R as _ ->.
  destruct (read_keys _ _ _ _ _ _ _ (proj1 T) Hl E) as (_ & A & B). split; [exact A|]. split; [exact B|].
  intros v Hv. apply var_exists. exact (proj1 (proj2 (proj1 T) _ _ Hl) v Hv).
Qed.
Lemma components_total : forall (h : heap N) d, (forall v, In v (dkeys d) -> get_var h v <> None) -> exists e, components h d = Ok e /\ dkeys e = dkeys d.
Proof.
  intros h. induction d as [|[v x] d IH]; intros H; cbn [components]; [exists []; auto|].
  destruct (get_var h v) as [o|] eqn:G; [|exfalso; apply (H v); [now left|exact G]].
  destruct IH as (e & E & K); [intros w Hw; apply H; now right|]. rewrite E. cbn [rbind]. eexists. split; [reflexivity|]. cbn. f_equal. exact K.
Qed.
Lemma read_objs : forall fuel l (h : heap N) r h', lc_derivatives fuel l h = (r, h') -> h_var h' = h_var h.
Proof.
  intros fuel l h r h' R. unfold lc_derivatives in R. destruct (get_lc h l); [now injection R as <- <-|].
  destruct (expand_loop fuel l [] h) as [[[]|e] h1] eqn:X; destruct (loop_others _ _ _ _ _ _ X) as (_ & A & _); [|injection R as _ <-; exact A].
  destruct (get_lc h1 l); injection R as _ <-; exact A.
Qed.
Theorem components_exist : forall (st : state N) L i vs u d, history st L -> nth_error L i = Some (Some vs) -> is_number st i u ->
  reads st (IDeriv i) (ODict d) -> exists e, reads st (IErrs i) (OErrs e) /\ dkeys e = dkeys d.
Proof.
  intros st L i vs u d H Hi Hu R. destruct (dependencies _ _ _ _ _ _ H Hi Hu R) as (_ & B & V). destruct R as (st' & k & R).
  destruct (components_total (st_heap st) d) as (e & E & K); [intros v Hv; apply V, B, Hv|]. exists e. split; [|exact K]. exists st', k. intros f Hf. specialize (R f Hf).
  cbn [step] in *. unfold with_uf, with_val in *. unfold is_number in Hu. rewrite Hu in *. unfold error_components, bind, derivatives in *.
  destruct (lc_derivatives f (uf_lp u) (st_heap st)) as [[d'|x] h'] eqn:X; cbn in R; [|discriminate R]. injection R as <- <-.
  assert (EV : components h' d' = components (st_heap st) d').
  { assert (Y := read_objs _ _ _ _ _ X). clear - Y. induction d' as [|[v x] d IH]; [reflexivity|]. cbn [components]. unfold get_var. rewrite Y, IH. reflexivity. }
  rewrite EV, E. reflexivity.
Qed.

(** ** Other attributes of the variables *)
Definition with_objs (h : heap N) objs : heap N := mkHeap (h_lc h) objs.
Lemma loop_objs : forall fuel l acc (h : heap N) objs,
  expand_loop fuel l acc (with_objs h objs) = (fst (expand_loop fuel l acc h), with_objs (snd (expand_loop fuel l acc h)) objs).
Proof.
  induction fuel as [|n IH]; intros l acc h objs; [reflexivity|]. cbn [expand_loop].
  change (get_lc (with_objs h objs) l) with (get_lc h l). destruct (get_lc h l) as [[|p d]|[|it rest]]; try reflexivity.
  cbv zeta. destruct it as [c l'| |]; try reflexivity.
  change (set_lc (with_objs h objs) l (LList rest)) with (with_objs (set_lc h l (LList rest)) objs).
  change (get_lc (with_objs (set_lc h l (LList rest)) objs) l') with (get_lc (set_lc h l (LList rest)) l').
  destruct (get_lc (set_lc h l (LList rest)) l') as [d|its].
  - destruct (acc_dict c d acc); [apply IH|reflexivity].
  - destruct (push_items c (rev its) rest) as [s [e|]]; [reflexivity|].
    change (set_lc (with_objs (set_lc h l (LList rest)) objs) l (LList s)) with (with_objs (set_lc (set_lc h l (LList rest)) l (LList s)) objs). apply IH.
Qed.
Lemma deriv_objs : forall fuel l (h : heap N) objs,
  lc_derivatives fuel l (with_objs h objs) = (fst (lc_derivatives fuel l h), with_objs (snd (lc_derivatives fuel l h)) objs).
Proof.
  intros fuel l h objs. unfold lc_derivatives. change (get_lc (with_objs h objs) l) with (get_lc h l). destruct (get_lc h l) as [d|its]; [reflexivity|].
  rewrite loop_objs. destruct (expand_loop fuel l [] h) as [[[]|e] h']; [|reflexivity]. cbn [fst snd].
  change (get_lc (with_objs h' objs) l) with (get_lc h' l). destruct (get_lc h' l); reflexivity.
Qed.
Lemma components_ext : forall (h h2 : heap N) d, (forall v, In v (dkeys d) -> get_var h v = get_var h2 v) -> components h d = components h2 d.
Proof.
  intros h h2. induction d as [|[v x] d IH]; intros H; cbn [components]; [reflexivity|]. rewrite <- (H v) by now left. rewrite IH; [reflexivity|].
  intros w Hw. apply H. now right.
Qed.
Lemma same_reads : forall Lm (st : state N) L i a u objs, tracks Lm st L -> nth_error L i = Some (Some a) -> is_number st i u ->
  (forall v, In v a -> nth_error objs v = get_var (st_heap st) v) ->
  forall ins o, about i ins -> reads st ins o -> reads (mkState (with_objs (st_heap st) objs) (st_env st)) ins o.
Proof.
  intros Lm st L i a u objs T Hi Hu Ho ins o Ab (st' & k & R). destruct (known_number _ _ _ _ _ _ T Hi Hu) as (Hl & Hv).
  exists (mkState (with_objs (st_heap st') objs) (st_env st')), k. intros f Hf. specialize (R f Hf). unfold is_number in Hu.
  assert (ER : error_components f u (with_objs (st_heap st) objs) =
    (fst (error_components f u (st_heap st)), with_objs (snd (error_components f u (st_heap st))) objs)).
  { unfold error_components, bind, derivatives. rewrite deriv_objs. destruct (lc_derivatives f (uf_lp u) (st_heap st)) as [[d|e] h'] eqn:X; [|reflexivity].
    cbn [fst snd]. f_equal. apply components_ext. intros v Kv. destruct (read_keys _ _ _ _ _ _ _ (proj1 T) Hl X) as (_ & _ & B).
    unfold get_var at 2. rewrite (read_objs _ _ _ _ _ X). cbn [with_objs get_var h_var]. apply Ho, B, Kv. }
  assert (SA : std_dev_affine f u (with_objs (st_heap st) objs) =
    (fst (std_dev_affine f u (st_heap st)), with_objs (snd (std_dev_affine f u (st_heap st))) objs)).
  { unfold std_dev_affine, bind. rewrite ER. destruct (error_components f u (st_heap st)) as [[e|x] h']; reflexivity. }
  assert (SD : std_dev f u (with_objs (st_heap st) objs) =
    (fst (std_dev f u (st_heap st)), with_objs (snd (std_dev f u (st_heap st))) objs)).
  { unfold std_dev. destruct (uf_var u) as [v|]; [|exact SA]. change (get_var (with_objs (st_heap st) objs) v) with (nth_error objs v).
    rewrite (Ho v (Hv v eq_refl)). destruct (get_var (st_heap st) v); reflexivity. }
  destruct Ab as [->|[->|[->|[->|(p & ->)]]]]; cbn [step] in *; unfold with_uf, with_val in *; cbn [st_env st_heap] in *; rewrite Hu in *.
  - unfold derivatives in *. rewrite deriv_objs. destruct (lc_derivatives f (uf_lp u) (st_heap st)) as [[d|e] h']; injection R as <- <-; reflexivity.
  - rewrite ER. destruct (error_components f u (st_heap st)) as [[d|e] h']; injection R as <- <-; reflexivity.
  - rewrite SD. destruct (std_dev f u (st_heap st)) as [[d|e] h']; injection R as <- <-; reflexivity.
  - unfold std_dev_s in *. rewrite SA. destruct (std_dev_affine f u (st_heap st)) as [[d|e] h']; injection R as <- <-; reflexivity.
  - unfold std_score, bind in *. rewrite SD. destruct (std_dev f u (st_heap st)) as [[d|e] h']; cbn [fst snd] in *; [|injection R as <- <-; reflexivity].
    match goal with |- context [observe _ _ (?m, _)] => destruct m as [x|e] end; injection R as <- <-; reflexivity.
Qed.
Theorem unaffected : forall (st : state N) L i vs u j w v s st' o, history st L -> nth_error L i = Some (Some vs) -> is_number st i u ->
  is_number st j w -> uf_var w = Some v -> ~ In v vs -> does st (ISet j s) st' o ->
  is_number st' i u /\ forall ins o', about i ins -> (reads st ins o' <-> reads st' ins o').
Proof.
  intros st L i vs u j w v s st' o H Hi Hu Hw Vw Nv [k D]. destruct (history_tracks _ _ H) as (Lm & T).
  specialize (D k (le_n k)). cbn [step] in D. unfold with_uf, with_val in D. unfold is_number in Hw. rewrite Hw, Vw in D.
  assert (X : exists objs, st' = mkState (with_objs (st_heap st) objs) (st_env st) /\ (length (h_var (st_heap st)) <= length objs)%nat /\
    forall v', v' <> v -> nth_error objs v' = get_var (st_heap st) v').
  { unfold set_std in D. destruct (check_std s) as [x|e].
    - destruct (get_var (st_heap st) v) as [ob|].
      + cbn in D. injection D as <- _. eexists. split; [reflexivity|]. split; [rewrite list_set_length; lia|]. intros v' Hn. unfold get_var.
        apply nth_error_list_set_neq. auto.
      + cbn in D. injection D as <- _. exists (h_var (st_heap st)). split; [destruct st as [[] ?]; reflexivity|]. split; [lia|]. reflexivity.
    - cbn in D. injection D as <- _. exists (h_var (st_heap st)). split; [destruct st as [[] ?]; reflexivity|]. split; [lia|]. reflexivity. }
  destruct X as (objs & -> & Lo & Ho). split; [exact Hu|]. intros ins o' Ab. split.
  - apply (same_reads Lm st L i vs u); auto. intros v' Hv'. apply Ho. intros ->. contradiction.
  - intros R. destruct st as [[lcs vars] env]. cbn [st_heap st_env with_objs h_lc h_var] in *.
    assert (T' : tracks Lm (mkState (mkHeap lcs objs) env) L).
    { destruct T as [[I1 I2] K]. split; [|exact K]. split; [exact I1|]. intros l a Hl. destruct (I2 l a Hl) as (A & B). split; [|exact B].
      intros v' Hv'. specialize (A v' Hv'). cbn [st_heap h_var] in *. lia. }
    apply (same_reads Lm (mkState (mkHeap lcs objs) env) L i vs u vars); auto.
    intros v' Hv'. cbn [st_heap get_var h_var]. unfold get_var in Ho. cbn [h_var] in Ho. symmetry. apply Ho. intros ->. contradiction.
Qed.

(** ** Covariances *)
Lemma bind_ok : forall A B (m : M N A) (f : A -> M N B) (h : heap N) b h', bind m f h = (Ok b, h') -> exists a h1, m h = (Ok a, h1) /\ f a h1 = (Ok b, h').
Proof. intros A B m f h b h' H. unfold bind in H. destruct (m h) as [[a|e] h1]; [|discriminate H]. exists a, h1. auto. Qed.
Definition dict_of (Lm : ghosts) (w : value N) (d : dict N) : Prop :=
  forall u a, w = VUF u -> nth_error Lm (uf_lp u) = Some (Some a) -> forall v, In v (dkeys d) <-> In v a.
Lemma elem_inv : forall Lm (h : heap N) fuel w d h', Inv Lm h -> elem_derivatives fuel w h = (Ok d, h') -> Inv Lm h' /\ dict_of Lm w d.
Proof.
  intros Lm h fuel [x|u] d h' I H; [discriminate H|]. cbn [elem_derivatives] in H. unfold derivatives, lc_derivatives in H. split.
  - destruct (get_lc h (uf_lp u)) as [d0|its] eqn:G; [now injection H as _ <-|]. destruct (expand_loop fuel (uf_lp u) [] h) as [[[]|e] h1] eqn:X; [|discriminate H].
    destruct (get_lc h1 (uf_lp u)); [injection H as _ <-|discriminate H]. exact (proj1 (expand_inv _ _ _ _ _ _ I G X)).
  - intros u' a E Ha. injection E as <-. exact (proj2 (proj2 (read_keys _ _ _ _ _ _ _ I Ha H))).
Qed.
Definition one_entry (Lm : ghosts) (order : list varid -> list varid) (w1 w2 : value N) (x : num N) : Prop :=
  exists h d1 d2, dict_of Lm w1 d1 /\ dict_of Lm w2 d2 /\ cov_sum h d1 d2 (common order d1 d2) (n_zero N) = Ok x.
Lemma row_inv : forall Lm order fuel w1 d1, dict_of Lm w1 d1 -> forall l (h : heap N) r h', Inv Lm h -> cov_row order fuel d1 l h = (Ok r, h') ->
  Inv Lm h' /\ length r = length l /\ forall j w, nth_error l j = Some w -> one_entry Lm order w1 w (nth j r (n_zero N)).
Proof.
  intros Lm order fuel w1 d1 D1. induction l as [|w l IH]; intros h r h' I H; cbn [cov_row] in H.
  - injection H as <- <-. split; [exact I|]. split; [reflexivity|]. intros [|j] w X; discriminate X.
  - apply bind_ok in H as (d2 & h1 & H1 & H). apply bind_ok in H as (c & h2 & H2 & H). apply bind_ok in H as (r' & h3 & H3 & H).
    injection H as <- <-. destruct (cov_sum h1 d1 d2 (common order d1 d2) (n_zero N)) as [c'|e] eqn:C; [|discriminate H2]. injection H2 as -> <-.
    destruct (elem_inv _ _ _ _ _ _ I H1) as (I1 & D2). destruct (IH _ _ _ I1 H3) as (I3 & L3 & E3).
    split; [exact I3|]. split; [cbn [length]; congruence|]. intros [|j] w' X; cbn [nth_error nth] in *.
    + injection X as <-. exists h1, d1, d2. auto.
    + apply E3. exact X.
Qed.
Lemma rows_inv : forall Lm order fuel l rest i (h : heap N) m h', Inv Lm h -> cov_rows order fuel l i rest h = (Ok m, h') ->
  length m = length rest /\
  forall a w, nth_error rest a = Some w -> length (nth a m []) = length (firstn (S (i + a)) l) /\
    forall j w', (j <= i + a)%nat -> nth_error l j = Some w' -> one_entry Lm order w w' (nth j (nth a m []) (n_zero N)).
Proof.
  intros Lm order fuel l. induction rest as [|w rest IH]; intros i h m h' I H; cbn [cov_rows] in H.
  - injection H as <- <-. split; [reflexivity|]. intros [|a] w X; discriminate X.
  - apply bind_ok in H as (d1 & h1 & H1 & H). apply bind_ok in H as (row & h2 & H2 & H). apply bind_ok in H as (m' & h3 & H3 & H).
    injection H as <- <-. destruct (elem_inv _ _ _ _ _ _ I H1) as (I1 & D1). destruct (row_inv _ _ _ _ _ D1 _ _ _ _ I1 H2) as (I2 & L2 & E2).
    destruct (IH _ _ _ _ I2 H3) as (L3 & E3). split; [cbn [length]; congruence|].
    intros [|a] w0 X; cbn [nth_error nth] in *.
    + injection X as <-. rewrite Nat.add_0_r. split; [exact L2|]. intros j w' Hj Hw. apply E2.
      rewrite <- Hw. clear - Hj. revert i j Hj. induction l as [|y l IH]; intros i j Hj; [now destruct j|]. destruct j as [|j]; [reflexivity|]. cbn [firstn nth_error]. destruct i as [|i]; [lia|]. apply (IH i j). lia.
    + destruct (E3 a w0 X) as (A & B). replace (i + S a)%nat with (S i + a)%nat by lia. split; [exact A|]. exact B.
Qed.
Lemma sym_entry : forall (m : matrix N) p q, (forall a, (a < length m)%nat -> length (nth a m []) = S a) -> (p < length m)%nat -> (q < length m)%nat ->
  entry (symmetrize m) p q = if (q <=? p)%nat then entry m p q else entry m q p.
Proof.
  intros m p q H Hp Hq. unfold symmetrize, entry at 1.
  set (F := fun i => nth i m [] ++ map (fun j => entry m j i) (seq (S i) (length m - S i))).
  assert (X : nth p (map F (seq 0 (length m))) [] = F p).
  { rewrite (nth_indep _ [] (F 0%nat)) by (rewrite map_length, seq_length; exact Hp). rewrite map_nth, seq_nth by exact Hp. reflexivity. }
  rewrite X. unfold F. destruct (Nat.leb_spec q p) as [L|L].
  - rewrite app_nth1 by (rewrite H by exact Hp; lia). reflexivity.
  - rewrite app_nth2 by (rewrite H by exact Hp; lia). rewrite H by exact Hp.
    rewrite (nth_indep _ _ (entry m 0 p)) by (rewrite map_length, seq_length; lia).
    rewrite (map_nth (fun j => entry m j p) (seq (S p) (length m - S p)) 0%nat). rewrite seq_nth by lia. f_equal. lia.
Qed.
Lemma disjoint_entry : forall Lm order u w a b x, (forall l, Permutation (order l) l) -> one_entry Lm order (VUF u) (VUF w) x ->
  nth_error Lm (uf_lp u) = Some (Some a) -> nth_error Lm (uf_lp w) = Some (Some b) -> (forall v, In v a -> In v b -> False) -> x = n_zero N.
Proof.
  intros Lm order u w a b x Po (h & d1 & d2 & D1 & D2 & C) Ua Wb Dj. specialize (D1 u a eq_refl Ua). specialize (D2 w b eq_refl Wb).
  assert (E : filter (fun v => existsb (Nat.eqb v) (dkeys d2)) (dkeys d1) = []).
  { destruct (filter _ (dkeys d1)) as [|v l] eqn:F; [reflexivity|]. exfalso.
    assert (X : In v (filter (fun v => existsb (Nat.eqb v) (dkeys d2)) (dkeys d1))) by (rewrite F; now left). apply filter_In in X as (X1 & X2).
    apply existsb_exists in X2 as (v' & X2 & X3). apply Nat.eqb_eq in X3 as <-. apply (Dj v); [apply D1, X1|apply D2, X2]. }
  unfold common in C. rewrite E in C. assert (O := Permutation_nil (Permutation_sym (Po []))). unfold varid in *. rewrite O in C. cbn in C. now injection C as <-.
Qed.
Theorem uncorrelated : forall order (st : state N) L is m st' p q i j vs ws, (forall l, Permutation (order l) l) -> history st L ->
  covariance order st is (Ok m) st' -> nth_error is p = Some i -> nth_error is q = Some j ->
  nth_error L i = Some (Some vs) -> nth_error L j = Some (Some ws) -> (forall v, In v vs -> In v ws -> False) -> entry m p q = n_zero N.
Proof.
  intros order st L is m st' p q i j vs ws Po T (l & k & Gl & _ & Hc) Hp Hq Hi Hj Dj.
  destruct (history_tracks _ _ T) as (Lm & I & K). destruct (proj2 K _ _ Hi) as (u & U1 & U2 & _). destruct (proj2 K _ _ Hj) as (w & W1 & W2 & _).
  specialize (Hc k (le_n k)). unfold covariance_matrix in Hc. apply bind_ok in Hc as (m0 & h1 & H0 & H1). injection H1 as <- _.
  destruct (rows_inv Lm order k l l 0 _ _ _ I H0) as (Lm0 & En).
  assert (El : forall n y e, nth_error is n = Some y -> nth_error (st_env st) y = Some e -> nth_error l n = Some e).
  { clear - Gl. revert l Gl. induction is as [|z is IH]; intros l Gl n y e A B; [destruct n; discriminate A|]. cbn [get_args] in Gl.
    destruct (nth_error (st_env st) z) as [e0|] eqn:Z; [|discriminate Gl]. destruct (get_args (st_env st) is) as [l0|]; [|discriminate Gl]. injection Gl as <-.
    destruct n as [|n]; cbn [nth_error] in *; [congruence|]. eapply IH; eauto. }
  assert (Pl := El _ _ _ Hp U1). assert (Ql := El _ _ _ Hq W1).
  assert (Pb : (p < length l)%nat) by (apply nth_error_Some; congruence). assert (Qb : (q < length l)%nat) by (apply nth_error_Some; congruence).
  assert (Tri : forall c, (c < length m0)%nat -> length (nth c m0 []) = S c).
  { intros c Hb. rewrite Lm0 in Hb. destruct (nth_error l c) as [e|] eqn:Z; [|apply nth_error_None in Z; lia]. rewrite (proj1 (En c e Z)). rewrite firstn_length. cbn [Nat.add]. lia. }
  rewrite (sym_entry m0 p q Tri) by lia. destruct (Nat.leb_spec q p) as [Le|Le].
  - apply (disjoint_entry Lm order u w vs ws); auto. apply (proj2 (En p _ Pl) q); [lia|exact Ql].
  - apply (disjoint_entry Lm order w u ws vs); auto; [|intros v A B; exact (Dj v B A)]. apply (proj2 (En q _ Ql) p); [lia|exact Pl].
Qed.

(** ** New variables *)
Theorem fresh_variable : forall (st : state N) L n s tag st' w v, history st L -> does st (INew n s tag) st' ONone ->
  is_number st' (length (st_env st)) w -> uf_var w = Some v ->
  get_var (st_heap st) v = None /\ get_var (st_heap st') v <> None /\
  (forall i vs u d, nth_error L i = Some (Some vs) -> is_number st' i u -> reads st' (IDeriv i) (ODict d) -> ~ In v (dkeys d)) /\
  forall d x, reads st' (IDeriv (length (st_env st))) (ODict d) -> (In x (dkeys d) <-> x = v).
Proof.
  intros st L n s tag st' w v H D W V. assert (H' := history_new _ _ _ _ _ _ _ _ H D W V).
  assert (LL : length L = length (st_env st)) by (destruct (history_tracks _ _ H) as (Lm & _ & K); exact (proj1 K)).
  assert (G : get_var (st_heap st) v = None /\ get_var (st_heap st') v <> None).
  { destruct D as [k D]. specialize (D k (le_n k)). cbn [step] in D. unfold new_var, bind in D. destruct (pn_float n) as [z|e]; [|discriminate D].
    destruct (check_std s) as [y|e]; [|discriminate D]. cbn in D. injection D as <-. unfold is_number in W. cbn in W.
    rewrite nth_error_app2 in W by lia. rewrite Nat.sub_diag in W. cbn in W. injection W as <-. cbn in V. injection V as <-. unfold get_var. cbn.
    split; [apply nth_error_None; lia|]. rewrite nth_error_app2 by lia. rewrite Nat.sub_diag. discriminate. }
  split; [apply G|]. split; [apply G|]. split.
  - intros i vs u d Hi Hu R X. assert (B : (i < length L)%nat) by (apply nth_error_Some; congruence).
    assert (Hi' : nth_error (L ++ [Some [v]]) i = Some (Some vs)) by now apply nth_app_l.
    apply (proj1 (proj2 (dependencies _ _ _ _ _ _ H' Hi' Hu R)) v) in X.
    destruct (history_tracks _ _ H) as (Lm & I & K). destruct (proj2 K _ _ Hi) as (u0 & _ & U2 & _).
    apply (proj1 (var_exists (st_heap st) v)); [|apply G]. exact (proj1 (proj2 I _ _ U2) v X).
  - intros d x R. assert (Hi' : nth_error (L ++ [Some [v]]) (length (st_env st)) = Some (Some [v])) by (rewrite nth_error_app2 by lia; rewrite LL, Nat.sub_diag; reflexivity).
    rewrite (proj1 (proj2 (dependencies _ _ _ _ _ _ H' Hi' W R)) x). cbn. intuition.
Qed.
End Deps.
