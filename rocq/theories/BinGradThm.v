(** Derivatives in binary64: histories. *)
From Coq Require Import ZArith List Bool Lia Reals Lra.
From Flocq Require Import Core BinarySingleNaN.
From Verif Require Import Base Heap HeapSpec HeapProofs NumR NumF Affine Ops UMath Machine Cov Calls Unumpy UMatrix History Fuel FFacts FRefute FmtF
  BinProofs BinQ BinStd GradSpec Evolve BinGrad.
Import ListNotations.
Local Open Scope R_scope.

Section Thm.
Variable lm : Libm.
Notation FN := (FOps lm).
Notation ghosts := (list (option lin)).
Notation okl := (okl lm).
Notation good := (good lm).
Notation rel := (rel lm).

Definition Inv (Lm : ghosts) (h : heap FN) : Prop := length Lm = length (h_lc h) /\
  forall l a, nth_error Lm l = Some (Some a) -> wfl a /\ (in_range a -> okl Lm l a (get_lc h l)).

Lemma nth_app_l : forall A (l l' : list A) i x, nth_error l i = Some x -> nth_error (l ++ l') i = Some x.
Proof. intros A l l' i x H. rewrite nth_error_app1; [exact H|]. apply nth_error_Some. congruence. Qed.
Lemma rel_more : forall Lm more l r it q, rel Lm l r it q -> rel (Lm ++ more) l r it q.
Proof. intros Lm more l r [c l'| |] q H; try contradiction. destruct H as (A & B & C). split; [exact A|]. split; [now apply nth_app_l|exact C]. Qed.
Lemma okl_more : forall Lm more l a x, okl Lm l a x -> okl (Lm ++ more) l a x.
Proof.
  intros Lm more l a [d|its] H; [exact H|]. destruct H as (gs & A & B). exists gs. split; [|exact B].
  clear - A. induction A; constructor; auto. now apply rel_more.
Qed.
Lemma get_more : forall (h : heap FN) xs objs l, (l < length (h_lc h))%nat -> get_lc (mkHeap (h_lc h ++ xs) objs) l = get_lc h l.
Proof. intros. unfold get_lc. cbn. now rewrite app_nth1. Qed.
(** New objects: [more] describes what is known of them. *)
Lemma Inv_more : forall Lm h xs objs more, Inv Lm h -> length more = length xs ->
  (forall k a, nth_error more k = Some (Some a) -> wfl a /\ (in_range a -> okl (Lm ++ more) (length (h_lc h) + k)%nat a (nth k xs (LDict [])))) ->
  Inv (Lm ++ more) (mkHeap (h_lc h ++ xs) objs).
Proof.
  intros Lm h xs objs more [L H] Lx Hm. split; [cbn; rewrite !app_length; lia|]. intros l a Hl.
  destruct (Nat.lt_ge_cases l (length Lm)) as [B|B].
  - rewrite nth_error_app1 in Hl by exact B. destruct (H l a Hl) as (W & O). split; [exact W|]. intros R.
    rewrite get_more by lia. apply okl_more. auto.
  - rewrite nth_error_app2 in Hl by exact B. destruct (Hm _ _ Hl) as (W & O). split; [exact W|]. intros R. specialize (O R).
    replace (length (h_lc h) + (l - length Lm))%nat with l in O by lia. unfold get_lc. cbn. rewrite app_nth2 by lia. rewrite <- L. exact O.
Qed.
Lemma repeat_none : forall n k (a : lin), nth_error (repeat None n) k = Some (Some a) -> False.
Proof. induction n as [|n IH]; intros [|k] a H; cbn in H; try discriminate. eapply IH; eauto. Qed.

Lemma loop_others : forall (fuel : nat) l acc (h : heap FN) r h', expand_loop fuel l acc h = (r, h') ->
  length (h_lc h') = length (h_lc h) /\ forall l', l' <> l -> get_lc h' l' = get_lc h l'.
Proof.
  induction fuel as [|n IH]; intros l acc h r h' H; cbn [expand_loop] in H.
  - injection H as <- <-. auto.
  - assert (Q : forall x, length (h_lc (set_lc h l x)) = length (h_lc h) /\ forall l', l' <> l -> get_lc (set_lc h l x) l' = get_lc h l').
    { intros x. split; [apply set_lc_length|]. intros l' N. now apply get_set_neq; auto. }
    destruct (get_lc h l) as [[|p d]|[|it rest]].
    + injection H as <- <-. apply Q.
    + injection H as <- <-. auto.
    + injection H as <- <-. apply Q.
    + cbv zeta in H. destruct it as [c l'| |]; try (injection H as <- <-; apply Q).
      destruct (get_lc (set_lc h l (LList rest)) l') as [d|its].
      * destruct (acc_dict c d acc) as [acc'|e]; [|injection H as <- <-; apply Q].
        destruct (IH _ _ _ _ _ H) as (A & B). destruct (Q (LList rest)) as (C & D). split; [congruence|]. intros l2 N. rewrite B, D; auto.
      * destruct (push_items c (rev its) rest) as [s [e|]].
        -- injection H as <- <-. rewrite set_set. apply Q.
        -- destruct (IH _ _ _ _ _ H) as (A & B). rewrite set_set in A, B. destruct (Q (LList s)) as (C & D). split; [congruence|].
           intros l2 N. rewrite B, D; auto.
Qed.
Lemma lc_bound : forall (h : heap FN) l its, get_lc h l = LList its -> (l < length (h_lc h))%nat.
Proof.
  intros h l its H. destruct (Nat.lt_ge_cases l (length (h_lc h))) as [B|B]; [exact B|]. unfold get_lc in H. rewrite nth_overflow in H by exact B. discriminate.
Qed.
(** Expansion of a known linear combination. *)
Lemma expand_known : forall Lm h l a its, Inv Lm h -> nth_error Lm l = Some (Some a) -> in_range a -> get_lc h l = LList its ->
  exists k d, good (roundings a) (grad a) (paths a) d /\ forall fuel, (k <= fuel)%nat -> expand_loop fuel l [] h = (Ok tt, set_lc h l (LDict d)).
Proof.
  intros Lm h l a its [L H] Hl R Hg. destruct (H l a Hl) as (W & O). specialize (O R). rewrite Hg in O. destruct O as (gs & O1 & O2 & O3 & O4 & O5).
  assert (B := lc_bound _ _ _ Hg).
  destruct (loop_ok lm Lm l a h R W B) with (fuel := S (sK gs)) (its := its) (gs := gs) (acc := @nil (varid * f64)) (K := 0%nat) (G := fun _ : varid => 0) (M := fun _ : varid => 0) as (d & D1 & D2); auto.
  - intros l' b Hb. destruct (H l' b Hb) as (X & Y). split; [exact X|]. intros _. exact Y.
  - eapply List.Forall_impl; [|exact O2]. cbn. intros q Hq. lia.
  - intros v. rewrite O3. ring.
  - intros v. rewrite O4. ring.
  - intros v. rewrite Rabs_R0. lra.
  - split; [constructor|]. split; [discriminate|]. intros v. unfold fval. cbn. rewrite Rminus_0_r, Rabs_R0. lra.
  - rewrite <- Hg, set_self in D1 by exact B. exists (S (sK gs)), d. split; [exact D2|]. intros fuel F. replace fuel with (S (sK gs) + (fuel - S (sK gs)))%nat by lia.
    etransitivity; [|exact D1]. apply (fm_loop (N:=FOps lm)). intros X. assert (Y := eq_trans (eq_sym (f_equal fst D1)) X). discriminate Y.
Qed.

Notation fuel_out := (fun e => e = EFuel).
Lemma not_fuel : forall A (r : res A), r <> Err EFuel -> fine fuel_out r.
Proof. intros A r H e E X. subst e. auto. Qed.
Lemma not_fuel_out : forall o : out FN, o <> OExn EFuel -> fine_out fuel_out o.
Proof. intros o H e E X. subst e. auto. Qed.
Lemma ev_inv : forall h h', ev fuel_out h h' -> forall Lm, Inv Lm h -> exists more, Inv (Lm ++ more) h'.
Proof.
  intros h h' V. induction V as [h|h xs objs Lo|h l its fuel r h' G X F|h1 h2 h3 V1 IH1 V2 IH2]; intros Lm I.
  - exists []. now rewrite app_nil_r.
  - exists (repeat None (length xs)). apply Inv_more; [exact I|apply repeat_length|]. intros k a Hk. destruct (repeat_none _ _ _ Hk).
  - exists []. rewrite app_nil_r. destruct (loop_others _ _ _ _ _ _ X) as (A & B). split; [rewrite A; apply I|].
    intros l' a Hl. destruct (Nat.eq_dec l' l) as [->|N].
    + split; [apply (proj2 I _ _ Hl)|]. intros R. destruct (expand_known _ _ _ _ _ I Hl R G) as (k & d & Gd & K).
      assert (NF : fst (expand_loop (N:=FOps lm) fuel l [] h) <> Err EFuel) by (intros Z; exact (F EFuel (eq_trans (eq_sym (f_equal fst X)) Z) eq_refl)).
      assert (Y := eq_trans (eq_sym (K (fuel + k)%nat ltac:(lia))) (eq_trans (fm_loop (N:=FOps lm) l [] fuel k h NF) X)).
      injection Y as <- <-.
      rewrite get_set_eq by exact (lc_bound _ _ _ G). exact Gd.
    + rewrite B by exact N. apply (proj2 I _ _ Hl).
  - destruct (IH1 Lm I) as (m1 & I1). destruct (IH2 _ I1) as (m2 & I2). exists (m1 ++ m2). rewrite app_assoc. exact I2.
Qed.

(** ** Results of a program *)
Definition known (Lm : ghosts) (env : list (value FN)) (L : list (option lin)) : Prop := length L = length env /\
  forall i a, nth_error L i = Some (Some a) -> exists u, nth_error env i = Some (VUF u) /\ nth_error Lm (uf_lp u) = Some (Some a).
Lemma known_more : forall Lm more env new L l, known Lm env L -> length l = length new ->
  (forall k a, nth_error l k = Some (Some a) -> exists u, nth_error new k = Some (VUF u) /\ nth_error (Lm ++ more) (uf_lp u) = Some (Some a)) ->
  known (Lm ++ more) (env ++ new) (L ++ l).
Proof.
  intros Lm more env new L l [A B] C D. split; [rewrite !app_length; congruence|]. intros i a H.
  destruct (Nat.lt_ge_cases i (length L)) as [X|X].
  - rewrite nth_error_app1 in H by exact X. destruct (B i a H) as (u & U1 & U2). exists u. split; now apply nth_app_l.
  - rewrite nth_error_app2 in H by exact X. destruct (D _ _ H) as (u & U1 & U2). exists u. split; [|exact U2].
    rewrite nth_error_app2 by lia. rewrite <- A. exact U1.
Qed.
Definition tracks (Lm : ghosts) (st : state FN) (L : list (option lin)) : Prop := Inv Lm (st_heap st) /\ known Lm (st_env st) L.

Lemma sev_tracks : forall st st' Lm L, sev fuel_out st st' -> tracks Lm st L ->
  exists Lm', tracks Lm' st' (L ++ repeat None (length (st_env st') - length (st_env st))).
Proof.
  intros st st' Lm L [V [new N]] [I K]. destruct (ev_inv _ _ V Lm I) as (more & I'). exists (Lm ++ more). split; [exact I'|].
  rewrite N. apply known_more; [exact K|rewrite repeat_length, app_length; lia|]. intros k a Hk. destruct (repeat_none _ _ _ Hk).
Qed.
Lemma acts_sev : forall st st', acts lm st st' -> sev fuel_out st st'.
Proof.
  intros st st' A. destruct A as [st ins st' o [k D] F|st c F|order st is r st' (l & k & _ & He & D) F|order st is r st' (l & k & _ & He & D) F
    |order fw st ia r st' (a & k & _ & _ & D) F|order f st ia r st' (a & k & _ & _ & D) F|op st ia ja r st' (a & b & _ & _ & _ & _ & D) F|st ia ja r st' (a & b & _ & _ & _ & _ & D) F].
  - specialize (D k (le_n k)). pose proof (step_sev fuel_out k st ins) as X. rewrite D in X. apply X. now apply not_fuel_out.
  - apply call_sev. now apply not_fuel_out.
  - specialize (D k (le_n k)). pose proof (evs_cov fuel_out order k l (st_heap st)) as X. rewrite D in X. split; [apply X; now apply not_fuel|]. exists []. now rewrite app_nil_r.
  - specialize (D k (le_n k)). pose proof (evs_corr fuel_out order k l (st_heap st)) as X. rewrite D in X. split; [apply X; now apply not_fuel|]. exists []. now rewrite app_nil_r.
  - pose proof (evs_uncert fuel_out order fw k a (st_heap st)) as X. destruct r as [ir|e].
    + destruct D as (b & _ & He & _ & D). specialize (D k (le_n k)). rewrite D in X. split; [apply X, not_fuel; discriminate|eauto].
    + destruct D as (He & D). specialize (D k (le_n k)). rewrite D in X. split; [apply X, not_fuel; cbn; congruence|exists []; now rewrite app_nil_r].
  - pose proof (evs_wrapped fuel_out order f k a (st_heap st)) as X. destruct r as [ir|e].
    + destruct D as (b & _ & He & _ & D). specialize (D k (le_n k)). rewrite D in X. split; [apply X, not_fuel; discriminate|eauto].
    + destruct D as (He & D). specialize (D k (le_n k)). rewrite D in X. split; [apply X, not_fuel; cbn; congruence|exists []; now rewrite app_nil_r].
  - pose proof (evs_array_op fuel_out op a b (st_heap st)) as X. destruct r as [ir|e].
    + destruct D as (c & _ & He & _ & D). rewrite D in X. split; [apply X, not_fuel; discriminate|eauto].
    + destruct D as (He & D). rewrite D in X. split; [apply X, not_fuel; cbn; congruence|exists []; now rewrite app_nil_r].
  - pose proof (evs_matmul fuel_out a b (st_heap st)) as X. destruct r as [ir|e].
    + destruct D as (c & _ & He & _ & D). rewrite D in X. split; [apply X, not_fuel; discriminate|eauto].
    + destruct D as (He & D). rewrite D in X. split; [apply X, not_fuel; cbn; congruence|exists []; now rewrite app_nil_r].
Qed.

(** ** Calls *)
Definition trel (Lm : ghosts) (it : item FN) (p : R * lin) : Prop :=
  match it with IPair c l' => nth_error Lm l' = Some (Some (snd p)) /\ cfinite lm c = true /\ cval lm c = fst p | _ => False end.
Lemma range_in : forall l p, In p l -> size (fst p) * range (snd p) <= range (call_lin l).
Proof.
  intros l p. unfold call_lin. cbn [range]. induction l as [|q l IH]; intros H; [contradiction|]. cbn [fold_right].
  destruct H as [->|H]; [apply Rmax_l|]. apply Rle_trans with (1 := IH H). apply Rmax_r.
Qed.
Lemma range_ge1 : forall l, 1 <= range (call_lin l).
Proof. intros l. unfold call_lin. cbn [range]. induction l as [|q l IH]; cbn [fold_right]; [lra|]. apply Rle_trans with (1 := IH). apply Rmax_r. Qed.
Lemma range_cons : forall q l, range (call_lin l) <= range (call_lin (q :: l)).
Proof. intros q l. unfold call_lin. cbn [range fold_right]. apply Rmax_r. Qed.
Lemma call_wfl : forall l, List.Forall (fun p => wfl (snd p)) l -> wfl (call_lin l).
Proof.
  intros l H. split; [apply range_ge1|]. intros v. induction H as [|[c a] l W F IH].
  - cbn. rewrite Rabs_R0. split; [lra|]. split; [now left|]. lra.
  - cbn [snd] in W. destruct W as [W1 W2]. destruct (W2 v) as (W3 & W4 & W5). destruct IH as (I1 & I2 & I3).
    assert (R1 := range_in ((c, a) :: l) (c, a) (or_introl eq_refl)). assert (R2 := range_cons (c, a) l). assert (R3 := range_ge1 l).
    cbn [fst snd] in R1. set (r := range (call_lin ((c, a) :: l))) in *.
    change (grad (call_lin ((c, a) :: l)) v) with (c * grad a v + grad (call_lin l) v).
    change (paths (call_lin ((c, a) :: l)) v) with (Rabs c * paths a v + paths (call_lin l) v).
    change (roundings (call_lin ((c, a) :: l))) with (roundings a + 6 + roundings (call_lin l))%nat.
    assert (S1 := size_ge1 c). assert (S2 := size_up c). assert (Pc := Rabs_pos c). assert (Pp : 0 <= paths a v) by (assert (X := Rabs_pos (grad a v)); lra).
    assert (Pl : 0 <= paths (call_lin l) v) by (assert (X := Rabs_pos (grad (call_lin l) v)); lra).
    assert (Pt : 0 <= Rabs c * paths a v) by (apply Rmult_le_pos; assumption).
    split; [|split].
    + apply Rle_trans with (1 := Rabs_triang _ _). rewrite Rabs_mult. apply Rplus_le_compat; [|exact I1]. apply Rmult_le_compat_l; assumption.
    + assert (T : Rabs c * paths a v = 0 \/ / r <= Rabs c * paths a v).
      { destruct W4 as [Z|Z]; [left; rewrite Z; ring|]. destruct (size_low c) as [Z0|Z0]; [left; rewrite Z0, Rabs_R0; ring|right].
        apply Rle_trans with (/ (size c * range a)); [apply Rinv_le_contravar; [apply Rmult_lt_0_compat; lra|exact R1]|].
        rewrite Rinv_mult. apply Rmult_le_compat; try assumption; apply Rlt_le, Rinv_0_lt_compat; lra. }
      destruct I2 as [I2|I2].
      * destruct T as [T|T]; [left; lra|right; lra].
      * right. apply Rle_trans with (/ range (call_lin l)); [apply Rinv_le_contravar; lra|]. lra.
    + rewrite !plus_INR. change (INR 6) with (1 + 1 + 1 + 1 + 1 + 1). assert (N1 := pos_INR (roundings a)). assert (N2 := pos_INR (roundings (call_lin l))).
      assert (A1 : Rabs c * paths a v <= (INR (roundings a) + 1) * r).
      { apply Rle_trans with (size c * ((INR (roundings a) + 1) * range a)).
        - apply Rmult_le_compat; assumption.
        - replace (size c * ((INR (roundings a) + 1) * range a)) with ((INR (roundings a) + 1) * (size c * range a)) by ring. apply Rmult_le_compat_l; lra. }
      assert (A2 : paths (call_lin l) v <= (INR (roundings (call_lin l)) + 1) * r).
      { apply Rle_trans with (1 := I3). apply Rmult_le_compat_l; lra. }
      nra.
Qed.
Lemma Rsum_rev : forall l, Rsum (rev l) = Rsum l.
Proof. induction l as [|x l IH]; cbn; [reflexivity|]. rewrite Rsum_app, IH. cbn. ring. Qed.
Lemma list_sum_rev : forall l, list_sum (rev l) = list_sum l.
Proof. induction l as [|x l IH]; [reflexivity|]. cbn [rev]. rewrite list_sum_app, IH. unfold list_sum. cbn [fold_right]. lia. Qed.

(** A new linear combination. *)
Lemma Inv_call : forall Lm h ts l objs, Inv Lm h -> Forall2 (trel Lm) ts l ->
  Inv (Lm ++ [Some (call_lin l)]) (mkHeap (h_lc h ++ [LList (rev ts)]) objs).
Proof.
  intros Lm h ts l objs I F. apply Inv_more; [exact I|reflexivity|]. intros [|[|k]] a Hk; cbn in Hk; try discriminate. injection Hk as <-.
  assert (W : List.Forall (fun p => wfl (snd p)) l).
  { clear - I F. induction F as [|it p ts l H _ IH]; constructor; auto. destruct it as [c l'| |]; try contradiction. exact (proj1 (proj2 I _ _ (proj1 H))). }
  split; [now apply call_wfl|]. intros _. rewrite Nat.add_0_r. cbn [nth BinGrad.okl].
  set (f := fun p : R * lin => (fst p, snd p, 0%nat) : gitem). exists (rev (map f l)). split; [|split; [|split; [|split]]].
  - apply Forall2_rev. assert (X : forall p, In p l -> size (fst p) * range (snd p) <= range (call_lin l)) by apply range_in.
    generalize dependent (range (call_lin l)). generalize ([Some (call_lin l)]). clear W. intros mr r X. induction F as [|it p ts l H _ IH]; constructor.
    + destruct it as [c l'| |]; try contradiction. destruct H as (H1 & H2 & H3). split; [|split; [|split]].
      * assert (B : (l' < length Lm)%nat) by (apply nth_error_Some; congruence). rewrite <- (proj1 I). exact B.
      * now apply nth_app_l.
      * split; [exact H2|]. unfold gP, gm, f. cbn [fst snd]. rewrite H3. replace (fst p - fst p) with 0 by ring. rewrite Rabs_R0, E_0. lra.
      * unfold gP, gL, f. cbn [fst snd]. apply X. now left.
    + apply IH. intros q Hq. apply X. now right.
  - apply List.Forall_rev. apply List.Forall_forall. intros q Hq. apply in_map_iff in Hq as (p & <- & _). reflexivity.
  - intros v. unfold sG. rewrite map_rev, Rsum_rev, map_map. reflexivity.
  - intros v. unfold sA. rewrite map_rev, Rsum_rev, map_map. reflexivity.
  - unfold sK. rewrite map_rev, list_sum_rev, map_map. apply Nat.le_refl.
Qed.
Lemma tracks_call : forall Lm st L ts l x objs, tracks Lm st L -> Forall2 (trel Lm) ts l ->
  exists Lm', tracks Lm' (mkState (mkHeap (h_lc (st_heap st) ++ [LList (rev ts)]) objs)
      (st_env st ++ [VUF (mkUF x (length (h_lc (st_heap st))) None)])) (L ++ [Some (call_lin l)]).
Proof.
  intros Lm st L ts l x objs [I K] F. exists (Lm ++ [Some (call_lin l)]). split; [now apply Inv_call|]. cbn [st_env].
  apply known_more; [exact K|reflexivity|]. intros [|[|k]] a Hk; cbn in Hk; try discriminate. injection Hk as <-.
  eexists. split; [reflexivity|]. cbn [uf_lp]. rewrite nth_error_app2 by (rewrite (proj1 I); apply le_n). rewrite (proj1 I), Nat.sub_diag. reflexivity.
Qed.

Lemma wcall_result : forall f pos kwd (args : args_t FN) kw h u h', wcall f pos kwd args kw h = (Ok (VUF u), h') ->
  exists tp tk x, pos_terms pos 0 args (map nominal_value args) (kw_map nominal_value kw) = Ok tp /\
    kw_terms kwd kw (map nominal_value args) (kw_map nominal_value kw) = Ok tk /\
    u = mkUF x (length (h_lc h)) None /\ h' = mkHeap (h_lc h ++ [LList (rev (tp ++ tk))]) (h_var h).
Proof.
  intros f pos kwd args kw h u h' H. unfold wcall in H. destruct (negb _).
  - exfalso. destruct (f _ _); cbn in H; discriminate H.
  - destruct (f _ _) as [r|e]; [|discriminate H]. destruct r as [p| | |]; try discriminate H.
    + destruct (pos_terms pos 0 args _ _) as [tp|e]; [|discriminate H]. cbn [rbind] in H.
      destruct (kw_terms kwd kw _ _) as [tk|e]; [|discriminate H]. cbn [rbind] in H.
      destruct (pn_float p) as [x|e]; [|discriminate H]. cbn [alloc_lc] in H. injection H as <- <-. exists tp, tk, x. auto.
    + exfalso. match type of H with context [match ?m with Ok _ => _ | Err _ => _ end] => destruct m end; discriminate H.
Qed.
Notation terms := (terms lm).
Lemma terms_pos : forall Lm st L pos av kv, tracks Lm st L -> forall js i args tp ds l,
  get_args (st_env st) js = Some args -> pos_terms pos i args av kv = Ok tp ->
  terms st L (combine (map (fun n => pos n av kv) (seq i (length js))) js ++ ds) l ->
  exists l1 l2, l = l1 ++ l2 /\ terms st L ds l2 /\ Forall2 (trel Lm) tp l1.
Proof.
  intros Lm st L pos av kv [_ K]. induction js as [|j js IH]; intros i args tp ds l G T H; cbn in G.
  - injection G as <-. cbn in T. injection T as <-. cbn in H. exists [], l. split; [reflexivity|]. split; [exact H|constructor].
  - destruct (nth_error (st_env st) j) as [a|] eqn:Ej; [|discriminate]. destruct (get_args (st_env st) js) as [args'|] eqn:G'; [|discriminate]. injection G as <-.
    cbn [length seq map combine app] in H. inversion H as [|r0 j0 a0 ds0 l0 P0 T0|c j0 u a0 ds0 l0 P0 P1 P2 T0]; subst.
    + rewrite Ej in P0. injection P0 as ->. cbn in T. destruct (IH (S i) args' tp ds l eq_refl T T0) as (l1 & l2 & A & B & C). exists l1, l2. auto.
    + unfold is_number in P0. rewrite Ej in P0. injection P0 as ->. cbn in T. destruct (pos i av kv) as [c'|e] eqn:Ep; [|discriminate]. cbn in T.
      match goal with X : Ok _ = Ok _ |- _ => injection X as X; subst end.
      destruct (pos_terms pos (S i) args' av kv) as [t|e] eqn:Et; [|discriminate]. cbn in T. injection T as <-.
      destruct (IH (S i) args' t ds l0 eq_refl Et T0) as (l1 & l2 & A & B & C). subst l0.
      exists ((cval lm c', a0) :: l1), l2. split; [reflexivity|]. split; [exact B|]. constructor; [|exact C]. cbn [trel fst snd].
      destruct (proj2 K _ _ P2) as (u' & U1 & U2). rewrite Ej in U1. injection U1 as <-. auto.
Qed.
Lemma terms_kw : forall Lm st L kwd av kv, tracks Lm st L -> forall js kw tk l,
  get_kwargs (st_env st) js = Some kw -> kw_terms kwd kw av kv = Ok tk ->
  terms st L (map (fun p => (kwd (fst p) av kv, snd p)) js) l -> Forall2 (trel Lm) tk l.
Proof.
  intros Lm st L kwd av kv [_ K]. induction js as [|[k j] js IH]; intros kw tk l G T H; cbn in G.
  - injection G as <-. cbn in T. injection T as <-. cbn in H. inversion H; subst. constructor.
  - destruct (nth_error (st_env st) j) as [a|] eqn:Ej; [|discriminate]. destruct (get_kwargs (st_env st) js) as [kw'|] eqn:G'; [|discriminate]. injection G as <-.
    cbn [map fst snd] in H. inversion H as [|r0 j0 a0 ds0 l0 P0 T0|c j0 u a0 ds0 l0 P0 P1 P2 T0]; subst.
    + rewrite Ej in P0. injection P0 as ->. cbn in T. exact (IH kw' tk l eq_refl T T0).
    + unfold is_number in P0. rewrite Ej in P0. injection P0 as ->. cbn in T. destruct (kwd k av kv) as [c'|e] eqn:Ep; [|discriminate]. cbn in T.
      match goal with X : Ok _ = Ok _ |- _ => injection X as X; subst end.
      destruct (kw_terms kwd kw' av kv) as [t|e] eqn:Et; [|discriminate]. cbn in T. injection T as <-.
      constructor; [|exact (IH kw' t l0 eq_refl Et T0)]. cbn [trel fst snd].
      destruct (proj2 K _ _ P2) as (u' & U1 & U2). rewrite Ej in U1. injection U1 as <-. auto.
Qed.

Lemma good_var : forall v, good 0 (grad (var_lin v)) (paths (var_lin v)) [(v, fone)].
Proof.
  intros v. split; [repeat constructor; intros []|]. split.
  - intros w x H. cbn in H. destruct (Nat.eqb w v); [injection H as <-; reflexivity|discriminate].
  - intros w. unfold fval. rewrite E_0, Rmult_0_l. cbn [dget grad var_lin]. destruct (Nat.eqb w v).
    + rewrite one_R. replace (1 - 1) with 0 by ring. rewrite Rabs_R0. lra.
    + rewrite Rminus_0_r, Rabs_R0. lra.
Qed.
Lemma var_wfl : forall v, wfl (var_lin v).
Proof.
  intros v. split; [cbn; lra|]. intros w. cbn. destruct (Nat.eqb w v).
  - rewrite Rabs_R1. split; [lra|]. split; [right; rewrite Rinv_1; lra|lra].
  - rewrite Rabs_R0. split; [lra|]. split; [now left|lra].
Qed.
Lemma tracks_wcall : forall Lm st L f pos kwd args kw u h' l js, tracks Lm st L -> wcall f pos kwd args kw (st_heap st) = (Ok (VUF u), h') ->
  get_args (st_env st) js = Some args -> forall ks, get_kwargs (st_env st) ks = Some kw ->
  terms st L (combine (map (fun n => pos n (map nominal_value args) (kw_map nominal_value kw)) (seq 0 (length js))) js ++
     map (fun p => (kwd (fst p) (map nominal_value args) (kw_map nominal_value kw), snd p)) ks) l ->
  exists Lm', tracks Lm' (mkState h' (st_env st ++ [VUF u])) (L ++ [Some (call_lin l)]).
Proof.
  intros Lm st L f pos kwd args kw u h' l js T W G ks K H.
  destruct (wcall_result _ _ _ _ _ _ _ _ W) as (tp & tk & x & P & Q & -> & ->).
  destruct (terms_pos _ _ _ _ _ _ T _ _ _ _ _ _ G P H) as (l1 & l2 & -> & H2 & F1).
  assert (F2 := terms_kw _ _ _ _ _ _ T _ _ _ _ K Q H2). apply (tracks_call Lm); [exact T|]. now apply Forall2_app.
Qed.
Lemma binop_result : forall op (a b : value FN) h u h', py_binop op a b h = (Ok (VUF u), h') ->
  (exists u1, a = VUF u1 /\ wcall (float_method op) (op_pos op) no_kw [VUF u1; b] [] h = (Ok (VUF u), h')) \/
  (exists x u2, a = VPlain x /\ b = VUF u2 /\ wcall (float_rmethod op) (rop_pos op) no_kw [VUF u2; VPlain x] [] h = (Ok (VUF u), h')).
Proof.
  intros op a b h u h' H. unfold py_binop in H. destruct a as [x|u1].
  - right. destruct b as [y|u2]; [discriminate H|]. exists x, u2. split; [reflexivity|]. split; [reflexivity|].
    unfold bind, method_rop in H. destruct (wcall _ _ _ _ _ h) as [[r|e] h1]; [|discriminate H].
    destruct r as [[| | |]|u3]; try discriminate H; exact H.
  - left. exists u1. split; [reflexivity|].
    unfold bind, method_op in H. destruct b as [y|u2]; (destruct (wcall _ _ _ _ _ h) as [[r|e] h1]; [|discriminate H];
    destruct r as [[| | |]|u3]; try discriminate H; exact H).
Qed.
Lemma push_number : forall (st st' : state FN) r u, push st r = (st', ONone) -> is_number st' (length (st_env st)) u ->
  exists h', r = (Ok (VUF u), h') /\ st' = mkState h' (st_env st ++ [VUF u]).
Proof.
  intros st st' [[v|e] h'] u H U; [|discriminate H]. injection H as <-. unfold is_number in U. cbn in U.
  rewrite nth_error_app2, Nat.sub_diag in U by apply le_n. injection U as ->. eauto.
Qed.

Theorem traced_tracks : forall st L, traced lm st L -> exists Lm, tracks Lm st L.
Proof.
  intros st L T. induction T as [|st L n s tag st' u v T [Lm IH] [k D] U V|st L op i j st' a b p q u l T [Lm IH] [k D] U A B P Q H
    |st L f pos kwd args kw st' a k u l T [Lm IH] [k0 D] U A B av kv H|st L st' T [Lm IH] A].
  - exists []. split; [split; [reflexivity|]|split; [reflexivity|]]; intros [|?] ? H; discriminate H.
  - specialize (D k (le_n k)). cbn [step] in D. destruct (push_number _ _ _ _ D U) as (h' & E & ->).
    unfold new_var in E. destruct (pn_float n) as [x|e]; [|discriminate E]. destruct (check_std s) as [sd|e]; [|discriminate E].
    cbn [alloc_lc h_lc h_var] in E. injection E as <- <-. cbn [uf_var] in V. injection V as V. destruct IH as [I K].
    exists (Lm ++ [Some (var_lin v)]). split.
    + apply (Inv_more Lm (st_heap st) [LDict (N:=FOps lm) [(length (h_var (st_heap st)), fone)]] _ [Some (var_lin v)]); [exact I|reflexivity|].
      intros [|[|k1]] a Hk; cbn in Hk; try discriminate. injection Hk as <-. split; [apply var_wfl|]. intros _. cbn [nth BinGrad.okl].
      rewrite V. apply good_var.
    + cbn [st_env]. apply known_more; [exact K|reflexivity|]. intros [|[|k1]] a Hk; cbn in Hk; try discriminate. injection Hk as <-.
      eexists. split; [reflexivity|]. cbn [uf_lp]. rewrite nth_error_app2 by (rewrite (proj1 I); apply le_n). rewrite (proj1 I), Nat.sub_diag. reflexivity.
  - specialize (D k (le_n k)). cbn [step get_args] in D. rewrite A, B in D. destruct (push_number _ _ _ _ D U) as (h' & E & ->).
    destruct (binop_result _ _ _ _ _ _ E) as [(u1 & -> & W)|(x & u2 & -> & -> & W)].
    + eapply (tracks_wcall Lm st L _ _ _ [VUF u1; b] [] u h' l [i; j] IH W) with (ks := []); [cbn; now rewrite A, B|reflexivity|].
      cbn [length seq map combine app kw_map]. rewrite P, Q. exact H.
    + eapply (tracks_wcall Lm st L _ _ _ [VUF u2; VPlain x] [] u h' l [j; i] IH W) with (ks := []); [cbn; now rewrite A, B|reflexivity|].
      cbn [length seq map combine app kw_map]. rewrite P, Q. cbn [rop_pos].
      inversion H as [|r0 j0 a0 ds0 l0 P0 T0|c j0 u0 a0 ds0 l0 P0 P1 P2 T0]; subst; [|unfold is_number in P0; congruence].
      inversion T0 as [|r1 j1 a1 ds1 l1 Q0 T1|c j1 u1 a1 ds1 l1 Q0 Q1 Q2 T1]; subst; [congruence|].
      apply terms_number with (u := u1); auto. eapply terms_plain; [exact A|]. exact T1.
  - specialize (D k0 (le_n k0)). cbn [step] in D. rewrite A, B in D. destruct (push_number _ _ _ _ D U) as (h' & E & ->).
    eapply (tracks_wcall Lm st L f pos kwd a k u h' l args IH E A kw B). exact H.
  - eapply sev_tracks; [|exact IH]. now apply acts_sev.
Qed.

(** ** Reading derivatives *)
Theorem derivatives_accurate : forall st L i a, traced lm st L -> nth_error L i = Some (Some a) -> in_range a ->
  exists d, reads st (IDeriv i) (ODict d) /\ NoDup (dkeys d) /\ (forall v x, dget d v = Some x -> is_finite (x : f64) = true) /\
    forall v, Rabs (fval lm d v - grad a v) <= INR (roundings a) / 2 ^ 52 * paths a v.
Proof.
  intros st L i a T Hi R. destruct (traced_tracks _ _ T) as (Lm & I & K). destruct (proj2 K _ _ Hi) as (u & U1 & U2).
  destruct (proj2 I _ _ U2) as (W & O). specialize (O R).
  assert (X : exists k d, good (roundings a) (grad a) (paths a) d /\ forall fuel, (k <= fuel)%nat -> fst (derivatives fuel u (st_heap st)) = Ok d).
  { unfold derivatives, lc_derivatives. destruct (get_lc (st_heap st) (uf_lp u)) as [d|its] eqn:G.
    - exists 0%nat, d. split; [exact O|]. reflexivity.
    - destruct (expand_known _ _ _ _ _ I U2 R G) as (k & d & Gd & E). exists k, d. split; [exact Gd|]. intros fuel F.
      rewrite (E fuel F). rewrite get_set_eq by exact (lc_bound _ _ _ G). reflexivity. }
  destruct X as (k & d & (N & F & Gd) & E). exists d. split; [|split; [exact N|split; [exact F|]]].
  - specialize (E k (le_n k)). apply (reads_step k); [|discriminate]. cbn [step]. unfold with_uf, with_val. rewrite U1. unfold observe.
    destruct (derivatives k u (st_heap st)) as [r h']. cbn in E. subst r. reflexivity.
  - intros v. apply Rle_trans with (1 := Gd v). apply Rmult_le_compat_r.
    { destruct (proj2 W v) as (P & _). assert (Q := Rabs_pos (grad a v)). lra. }
    apply Rle_trans with (2 * INR (roundings a) * u53).
    + apply E_le, small_k. destruct R as [R _]. lia.
    + right. rewrite u53_pow. field.
Qed.
Lemma reads_one : forall (st : state FN) ins o o', reads st ins o -> reads st ins o' -> o = o'.
Proof.
  intros st ins o o' [s1 [k1 D1]] [s2 [k2 D2]]. specialize (D1 (k1 + k2)%nat ltac:(lia)). specialize (D2 (k1 + k2)%nat ltac:(lia)).
  rewrite D1 in D2. now injection D2.
Qed.
Theorem derivatives_repeatable : forall st1 L1 i1 st2 L2 i2 a d1 d2, traced lm st1 L1 -> traced lm st2 L2 ->
  nth_error L1 i1 = Some (Some a) -> nth_error L2 i2 = Some (Some a) -> in_range a ->
  reads st1 (IDeriv i1) (ODict d1) -> reads st2 (IDeriv i2) (ODict d2) ->
  forall v, Rabs (fval lm d1 v - fval lm d2 v) <= INR (roundings a) / 2 ^ 51 * paths a v.
Proof.
  intros st1 L1 i1 st2 L2 i2 a d1 d2 T1 T2 H1 H2 R D1 D2 v.
  destruct (derivatives_accurate _ _ _ _ T1 H1 R) as (e1 & E1 & _ & _ & A1).
  destruct (derivatives_accurate _ _ _ _ T2 H2 R) as (e2 & E2 & _ & _ & A2).
  assert (X1 := reads_one _ _ _ _ D1 E1). injection X1 as ->. assert (X2 := reads_one _ _ _ _ D2 E2). injection X2 as ->.
  specialize (A1 v). specialize (A2 v).
  replace (fval lm e1 v - fval lm e2 v) with ((fval lm e1 v - grad a v) + - (fval lm e2 v - grad a v)) by ring.
  apply Rle_trans with (1 := Rabs_triang _ _). rewrite Rabs_Ropp.
  replace (INR (roundings a) / 2 ^ 51 * paths a v) with (INR (roundings a) / 2 ^ 52 * paths a v + INR (roundings a) / 2 ^ 52 * paths a v) by field.
  lra.
Qed.
End Thm.
