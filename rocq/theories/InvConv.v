(** Functions of matrices over exact numbers: what func_with_deriv_to_uncert_func() returns. *)
From Coq Require Import ZArith List Bool Reals Lra Lia Arith Permutation.
From Verif Require Import Base Heap Affine Ops UMath NumR HeapSpec HeapProofs DenProofs Machine Spec
  Refine RefineStep CovConv Unumpy History UnumpySpec ArrProofs.
Import ListNotations.

Section InvConv.
Context {g lg : R -> R}.
Notation RN := (ROps g lg).
Local Open Scope R_scope.
Implicit Types h : heap RN.

Lemma NoDup_app_intro : forall A (l l' : list A), NoDup l -> NoDup l' -> (forall x, In x l -> ~ In x l') -> NoDup (l ++ l').
Proof.
  induction l as [|x l IH]; intros l' H H' D; cbn; auto. inversion H; subst. constructor.
  - rewrite in_app_iff. intros [I|I]; [auto|]. apply (D x); cbn; auto.
  - apply IH; auto. intros y Hy. apply D. cbn; auto.
Qed.

(** ** The variables *)
Lemma collect_conv : forall l sl h acc, wf anyc h -> Forall2 (vrel h) l sl -> NoDup acc ->
  exists vars h', conv (fun f => collect f l acc h) (Ok vars, h') /\ hext h h' /\ NoDup vars /\
    (forall v, In v vars <-> In v acc \/ exists sa, In sa sl /\ In v (sdeps (g:=g) (lg:=lg) sa)).
Proof.
  intros l sl h acc W F. revert h acc W F. revert sl.
  induction l as [|a l IH]; intros sl h acc W F ND; inversion F as [|? sa ? sl' Ha F']; subst.
  - exists acc, h. split; [exists 0%nat; reflexivity|]. split; auto using hext_refl. split; auto.
    intros v. split; auto. intros [H|(sa & [] & _)]; auto.
  - destruct a as [p|u], sa as [q|n gr ds var]; try contradiction.
    + destruct (IH sl' h acc W F' ND) as (vars & h' & C & X & N' & K). exists vars, h'.
      split; [exact C|]. split; auto. split; auto. intros v. rewrite K. split.
      * intros [H|(sa & I & H)]; auto. right. exists sa. cbn; auto.
      * intros [H|(sa & [<-|I] & H)]; auto; [destruct H|]. right. eauto.
    + destruct Ha as (U & _). destruct (derivatives_conv h u n gr ds W U) as (d & h1 & C1 & X1 & ND1 & K1 & D1).
      set (acc' := acc ++ filter (fun v => negb (existsb (Nat.eqb v) acc)) (dkeys d)).
      assert (KA : forall v, In v acc' <-> In v acc \/ In v ds).
      { intros v. unfold acc'. rewrite in_app_iff, filter_In, negb_true_iff. split.
        - intros [H|[H _]]; auto. right. now apply K1.
        - intros [H|H]; auto. destruct (existsb (Nat.eqb v) acc) eqn:E.
          + left. apply existsb_exists in E as (w & I & E). apply Nat.eqb_eq in E. now subst.
          + right. split; auto. now apply K1. }
      assert (ND' : NoDup acc').
      { unfold acc'. apply NoDup_app_intro.
        - auto.
        - now apply NoDup_filter.
        - intros v H1 H2. apply filter_In in H2 as [_ H2]. rewrite negb_true_iff in H2.
          assert (existsb (Nat.eqb v) acc = true); [|congruence]. apply existsb_exists. exists v. split; auto. apply Nat.eqb_refl. }
      destruct (IH sl' h1 acc' (he_wf _ _ X1) (Forall2_hext _ _ _ _ X1 F') ND') as (vars & h' & C & X & N' & K).
      exists vars, h'. split. { cbn [collect]. eapply conv_bind; [exact C1|exact C]. }
      split; [eapply hext_trans; eauto|]. split; auto. intros v. rewrite K, KA. split.
      * intros [[H|H]|(sa & I & H)]; auto; right. { exists (SUF n gr ds var). cbn; auto. } exists sa. cbn; auto.
      * intros [H|(sa & [<-|I] & H)]; auto. right. eauto.
Qed.

(** ** Derivatives of the elements *)
Lemma derivative_conv : forall h a sa v, wf anyc h -> vrel h a sa ->
  exists h', conv (fun f => derivative f v a h) (Ok (sgrad (g:=g) (lg:=lg) sa v), h') /\ hext h h'.
Proof.
  intros h [p|u] [q|n gr ds var] v W Rl; try contradiction.
  - exists h. split; [exists 0%nat; reflexivity|]. now apply hext_refl.
  - destruct Rl as (U & _). destruct (derivatives_conv h u n gr ds W U) as (d & h1 & C1 & X1 & _ & _ & D1).
    exists h1. split; auto. unfold derivative. eapply conv_bind; [exact C1|]. cbn [sgrad]. rewrite <- D1.
    exists 0%nat. reflexivity.
Qed.
Lemma elements_conv : forall v l sl h, wf anyc h -> Forall2 (vrel h) l sl ->
  exists h' k, hext h h' /\ forall fuel, (k <= fuel)%nat ->
    calls (derivative fuel v) l h (map (fun sa => sgrad (g:=g) (lg:=lg) sa v) sl) h'.
Proof.
  intros v. induction l as [|a l IH]; intros sl h W F; inversion F as [|? sa ? sl' Ha F']; subst.
  - exists h, 0%nat. split; auto using hext_refl. intros. constructor.
  - destruct (derivative_conv h a sa v W Ha) as (h1 & [k1 C1] & X1).
    destruct (IH sl' h1 (he_wf _ _ X1) (Forall2_hext _ _ _ _ X1 F')) as (h2 & k2 & X2 & C2).
    exists h2, (max k1 k2). split; [eapply hext_trans; eauto|]. intros fuel Hf. cbn [map].
    econstructor; [apply C1; lia|apply C2; lia].
Qed.
Definition dmatrix (a : arr (value RN)) (sl : list (sval g lg)) (v : varid) : arr R :=
  mkArr (a_cls a) (a_shape a) (map (fun sa => sgrad sa v) sl).
Lemma array_derivative_conv : forall v (a : arr (value RN)) sl h, wf anyc h -> wf_arr a -> Forall2 (vrel h) (a_flat a) sl ->
  exists h', conv (fun f => array_derivative f a v h) (Ok (dmatrix a sl v), h') /\ hext h h'.
Proof.
  intros v a sl h W Wa F. destruct (elements_conv v (a_flat a) sl h W F) as (h' & k & X & C).
  exists h'. split; auto. exists k. intros fuel Hf. unfold array_derivative. apply vectorize1; auto.
Qed.

(** ** The loop over the variables *)
(** The dictionary of element number k after the loop. *)
Definition entry (dvs : varid -> arr R) (vs : list varid) (k : nat) (v : varid) : option R :=
  if in_dec Nat.eq_dec v vs then
    match nth_error (a_flat (dvs v)) k with
    | Some x => if Req_EM_T x 0 then None else Some x
    | None => None
    end
  else None.
Lemma entry_some : forall dvs vs k v, (exists x, entry dvs vs k v = Some x) <->
  In v vs /\ exists z, nth_error (a_flat (dvs v)) k = Some z /\ z <> 0.
Proof.
  intros dvs vs k v. unfold entry. destruct (in_dec Nat.eq_dec v vs) as [I|I].
  2:{ split; [intros [z Hz]; discriminate|tauto]. }
  destruct (nth_error (a_flat (dvs v)) k) as [z|].
  2:{ split; [intros [z Hz]; discriminate|intros [_ (z & Hz & _)]; discriminate]. }
  destruct (Req_EM_T z 0).
  - split; [intros [z' Hz]; discriminate|]. intros [_ (z' & Hz & Hz')]. congruence.
  - split; intros _; eauto.
Qed.
Lemma entry_value : forall dvs vs k v x, entry dvs vs k v = Some x -> nth_error (a_flat (dvs v)) k = Some x.
Proof.
  intros dvs vs k v x. unfold entry. destruct (in_dec Nat.eq_dec v vs); [|discriminate].
  destruct (nth_error (a_flat (dvs v)) k) as [z|]; [|discriminate]. destruct (Req_EM_T z 0); congruence.
Qed.
Definition dicts_ok (dvs : varid -> arr R) (vs : list varid) (ds : list (dict RN)) : Prop :=
  forall k d, nth_error ds k = Some d ->
    NoDup (dkeys d) /\ (forall v, dget d v = entry dvs vs k v).

Lemma add_derivs_length : forall v xs (ds : list (dict RN)), length (add_derivs v ds xs) = length ds.
Proof. intros v xs ds. revert xs. induction ds; intros [|x xs]; cbn; auto. Qed.
Lemma add_derivs_nth : forall v xs (ds : list (dict RN)) k, nth_error (add_derivs v ds xs) k =
  match nth_error ds k with
  | None => None
  | Some d => Some (match nth_error xs k with Some x => if nonzero (N:=RN) x then dset d v x else d | None => d end)
  end.
Proof.
  intros v xs ds. revert xs. induction ds as [|d ds IH]; intros [|x xs] [|k]; cbn [add_derivs nth_error]; auto.
  destruct (nth_error ds k); auto.
Qed.
Lemma nonzero_R : forall x, nonzero (N:=RN) x = if Req_EM_T x 0 then false else true.
Proof. intros x. unfold nonzero. cbn. unfold Reqb. destruct (Req_EM_T x 0); reflexivity. Qed.

Lemma add_derivs_ok : forall dvs vs v ds, ~ In v vs -> dicts_ok dvs vs ds ->
  dicts_ok dvs (vs ++ [v]) (add_derivs v ds (a_flat (dvs v))).
Proof.
  intros dvs vs v ds Nv H k d E. rewrite add_derivs_nth in E.
  destruct (nth_error ds k) as [d0|] eqn:E0; [|discriminate]. destruct (H k d0 E0) as [ND G].
  injection E; intros <-; clear E.
  assert (Ge : forall w, w <> v -> entry dvs (vs ++ [v]) k w = entry dvs vs k w).
  { intros w Hw. unfold entry. destruct (in_dec Nat.eq_dec w (vs ++ [v])) as [I|I], (in_dec Nat.eq_dec w vs) as [J|J]; auto.
    - apply in_app_iff in I as [I|[I|[]]]; [contradiction|congruence].
    - exfalso. apply I. apply in_app_iff. auto. }
  assert (Gv : dget d0 v = None).
  { rewrite G. unfold entry. destruct (in_dec Nat.eq_dec v vs); [contradiction|reflexivity]. }
  assert (Ev : entry dvs (vs ++ [v]) k v = match nth_error (a_flat (dvs v)) k with
             | Some x => if Req_EM_T x 0 then None else Some x | None => None end).
  { unfold entry. destruct (in_dec Nat.eq_dec v (vs ++ [v])) as [I|I]; auto. exfalso. apply I, in_app_iff. cbn; auto. }
  destruct (nth_error (a_flat (dvs v)) k) as [x|] eqn:Ex.
  - rewrite nonzero_R. destruct (Req_EM_T x 0) as [Z|Z].
    + split; auto. intros w. destruct (Nat.eq_dec w v) as [->|Hw]; [rewrite Ev; exact Gv|]. rewrite Ge by auto. apply G.
    + split; [now apply dset_NoDup|]. intros w. destruct (Nat.eq_dec w v) as [->|Hw].
      * rewrite Ev. apply dget_dset_eq.
      * rewrite Ge by auto. rewrite dget_dset_neq by auto. apply G.
  - split; auto. intros w. destruct (Nat.eq_dec w v) as [->|Hw]; [rewrite Ev; exact Gv|]. rewrite Ge by auto. apply G.
Qed.

Lemma deriv_loop_conv : forall (step : varid -> arr R -> M RN (arr R)) sres (a : arr (value RN)) sl vs pre ds h, wf anyc h -> wf_arr a ->
  Forall2 (vrel h) (a_flat a) sl -> NoDup (pre ++ vs) ->
  (forall v da h', In v vs -> h_var h' = h_var h -> step v da h' = (sres v da : res (arr R), h')) ->
  exists r h', conv (fun f => deriv_loop (N:=RN) f step a vs ds h) (r, h') /\ hext h h' /\
    (forall dvs, (forall v, In v vs -> sres v (dmatrix a sl v) = Ok (dvs v)) ->
       exists ds', r = Ok ds') /\
    (forall ds', r = Ok ds' ->
       (forall v, In v vs -> exists dv, sres v (dmatrix a sl v) = Ok dv) /\
       length ds' = length ds /\
       forall dvs, (forall v, In v vs -> sres v (dmatrix a sl v) = Ok (dvs v)) ->
         dicts_ok dvs pre ds -> dicts_ok dvs (pre ++ vs) ds').
Proof.
  intros step sres a sl vs. induction vs as [|v vs IH]; intros pre ds h W Wa F ND Hs.
  - exists (Ok ds), h. split; [exists 0%nat; reflexivity|]. split; auto using hext_refl. split; [eauto|].
    intros ds' E. injection E; intros <-. rewrite app_nil_r. split; [intros v []|]. split; auto.
  - destruct (array_derivative_conv v a sl h W Wa F) as (h1 & C1 & X1).
    assert (Hv : step v (dmatrix a sl v) h1 = (sres v (dmatrix a sl v), h1)).
    { apply Hs; [cbn; auto|apply (he_var _ _ X1)]. }
    destruct (sres v (dmatrix a sl v)) as [dv|e] eqn:Ed.
    + destruct (IH (pre ++ [v]) (add_derivs v ds (a_flat dv)) h1 (he_wf _ _ X1) Wa (Forall2_hext _ _ _ _ X1 F))
        as (r & h2 & C2 & X2 & T2 & R2).
      { rewrite <- app_assoc. exact ND. }
      { intros w da h' I E. apply Hs; [cbn; auto|]. rewrite E. apply (he_var _ _ X1). }
      exists r, h2. split; [|split; [eapply hext_trans; eauto|split]].
      * cbn [deriv_loop]. eapply conv_bind; [exact C1|].
        eapply (conv_bind _ _ (fun _ => step v (dmatrix a sl v))); [|exact C2]. exists 0%nat. intros. exact Hv.
      * intros dvs Hd. apply (T2 dvs). intros w Hw. apply Hd. cbn; auto.
      * intros ds' E. destruct (R2 ds' E) as (A1 & A2 & A3). split; [|split].
        -- intros w [<-|Hw]; eauto.
        -- rewrite A2. apply add_derivs_length.
        -- intros dvs Hd Hok. assert (Ev : dv = dvs v).
           { specialize (Hd v (or_introl eq_refl)). rewrite Ed in Hd. now injection Hd. }
           replace (pre ++ v :: vs) with ((pre ++ [v]) ++ vs) by (rewrite <- app_assoc; reflexivity).
           apply A3. { intros w Hw. apply Hd. cbn; auto. }
           rewrite Ev. apply add_derivs_ok; auto.
           apply NoDup_remove_2 in ND. intros I. apply ND. apply in_app_iff. auto.
    + exists (Err e), h1. split; [|split; [auto|split]].
      * cbn [deriv_loop]. eapply conv_bind; [exact C1|].
        eapply (conv_bind_err _ _ (fun _ => step v (dmatrix a sl v))). exists 0%nat. intros. exact Hv.
      * intros dvs Hd. specialize (Hd v (or_introl eq_refl)). congruence.
      * intros ds' E. discriminate.
Qed.

(** ** The new objects *)
Lemma build_conv : forall l h, wf anyc h ->
  (forall x d, In (x, d) l -> NoDup (dkeys d) /\ forall v, In v (dkeys d) -> (v < length (h_var h))%nat) ->
  exists r h', (forall fuel : nat, build l h = (Ok r, h')) /\ hext h h' /\
    Forall2 (fun p b => exists u, b = VUF u /\ uf_var u = None /\
        urel h' u (fst p) (dval (snd p)) (dkeys (snd p))) l r.
Proof.
  induction l as [|[x d] l IH]; intros h W K.
  - exists [], h. split; [reflexivity|]. split; auto using hext_refl.
  - set (h1 := mkHeap (h_lc h ++ [LDict d]) (h_var h)).
    assert (X1 : hext h h1) by (apply hext_alloc; auto; cbn; apply K with x; cbn; auto).
    destruct (IH h1 (he_wf _ _ X1)) as (r & h' & C & X & F).
    { intros y e I. apply (K y e). cbn; auto. }
    exists (VUF (mkUF x (length (h_lc h)) None) :: r), h'. split; [|split].
    + intros fuel. cbn [build alloc_lc]. fold h1. unfold bind. rewrite (C fuel). reflexivity.
    + eapply hext_trans; eauto.
    + constructor; auto. exists (mkUF x (length (h_lc h)) None). cbn [uf_var fst snd].
      split; auto. split; auto. apply (urel_hext h1); auto.
      assert (G : get_lc h1 (length (h_lc h)) = LDict d) by apply get_alloc_new.
      split; cbn [uf_nom uf_lp]; auto.
      * unfold h1; cbn. rewrite app_length; cbn. lia.
      * intros v. now apply den_dict.
      * intros v. split.
        -- intros Dp. inversion Dp as [? d' ? G' I|? its ? ? ? G' _ _]; subst; [|congruence].
           rewrite G in G'. injection G'; intros <-. exact I.
        -- intros I. eapply dep_dict; eauto.
Qed.

(** ** The nominal values *)
Definition noms_of (sl : list (sval g lg)) (noms : list R) : Prop :=
  Forall2 (fun sa x => as_float (N:=RN) (snom sa) = Ok x) sl noms.
Definition np_arr (a : arr (value RN)) (noms : list R) : arr R :=
  mkArr (match a_cls a with AUMat => AMat | c => c end) (a_shape a) noms.
Lemma vrel_nom : forall h a sa, vrel h a sa -> nominal_value a = snom (g:=g) (lg:=lg) sa.
Proof.
  intros h [p|u] [q|n gr ds var] Rl; try contradiction; cbn in *; [congruence|].
  destruct Rl as (U & _). now rewrite (ur_nom _ _ _ _ _ U).
Qed.
Lemma nominal_conv : forall (a : arr (value RN)) sl h, wf_arr a -> Forall2 (vrel h) (a_flat a) sl ->
  (forall noms, noms_of sl noms -> nominal_values a h = (Ok (np_arr a noms), h)) /\
  ((forall noms, ~ noms_of sl noms) -> exists e, nominal_values a h = (Err e, h)).
Proof.
  intros a sl h W F. split.
  - intros noms Hn. assert (E : vectorize (arg1 (fun x => lift (as_float (nominal_value x)))) [a] h = (Ok (mkArr (a_cls a) (a_shape a) noms), h)).
    { apply vectorize1; auto. cbn. split; auto. split; auto. apply calls_pure. split; auto.
      clear W. revert noms Hn. induction F as [|x sa l sl Hx F IH]; intros noms Hn; inversion Hn; subst; constructor; auto.
      erewrite vrel_nom by eauto. auto. }
    unfold nominal_values, bind. rewrite E. unfold ret, to_numpy, np_arr. cbn. destruct (a_cls a); reflexivity.
  - intros Hn. assert (P : forall l, snd (mapM (fun idx => match all_some (map (bget idx) [a]) with
        | Some l => arg1 (fun x => lift (as_float (nominal_value x))) l | None => raise EIndex end) l h) = h).
    { clear. induction l as [|i l IH]; cbn [mapM]; [reflexivity|]. unfold bind.
      assert (Q : snd ((match all_some (map (bget i) [a]) with
        | Some l => arg1 (fun x => lift (as_float (nominal_value (N:=RN) x))) l | None => raise EIndex end) h) = h).
      { destruct (all_some (map (bget i) [a])) as [[|x [|]]|]; reflexivity. }
      destruct (_ h) as [[y|e] h1]; cbn in Q; subst h1; [|reflexivity].
      destruct (mapM _ l h) as [[r|e] h2]; cbn in IH; subst; reflexivity. }
    destruct (vectorize (arg1 (fun x => lift (as_float (nominal_value x)))) [a] h) as [[r|e] h'] eqn:E.
    + exfalso. apply vectorize1 in E as (_ & _ & C); auto. apply calls_pure in C as [_ C]. apply (Hn (a_flat r)).
      clear -F C. revert C. generalize (a_flat r). induction F as [|x sa l sl Hx F IH]; intros fl C; inversion C; subst; constructor; auto.
      * erewrite <- vrel_nom by eauto. auto.
      * now apply IH.
    + exists e. unfold nominal_values, bind. rewrite E. f_equal.
      unfold vectorize in E. destruct (bshapes _); [|injection E; auto]. unfold bind in E.
      specialize (P (indices l)). destruct (mapM _ (indices l) h) as [[y|e1] h1]; cbn in P; subst; [discriminate|].
      now injection E.
Qed.

(** ** The whole function *)
Definition used (sl : list (sval g lg)) (v : varid) : Prop := exists sa, In sa sl /\ In v (sdeps sa).
(** A function of arrays of floats: its value; its derivatives, for the variables, the nominal
    values, the value, a variable and the derivatives of the argument; the class of the value. *)
Record afun := mkAF {
  af_value : arr R -> res (arr R);
  af_deriv : list (varobj RN) -> arr R -> arr R -> varid -> arr R -> res (arr R);
  af_cls : acls -> acls -> acls
}.
Definition val_of (F : afun) (a : arr (value RN)) (val0 : arr R) : arr R :=
  with_cls (af_cls F (a_cls a) (a_cls val0)) val0.
Record uresult (F : afun) (V : list (varobj RN)) (a : arr (value RN)) (sl : list (sval g lg)) h (b : arr (value RN))
  (noms : list R) (val0 : arr R) (dvs : varid -> arr R) : Prop := {
  ur_noms : noms_of sl noms;
  ur_value : af_value F (np_arr a noms) = Ok val0;
  ur_shape : a_shape b = a_shape val0;
  ur_derivs : forall v, used sl v -> af_deriv F V (np_arr a noms) (val_of F a val0) v (dmatrix a sl v) = Ok (dvs v);
  ur_length : length (a_flat b) = length (a_flat val0);
  ur_elems : forall k x, nth_error (a_flat b) k = Some x ->
    exists y, nth_error (a_flat val0) k = Some y /\
    ((forall v, ~ used sl v) /\ x = VNum (PF (N:=RN) y) \/
     (exists v, used sl v) /\
     exists u gr ds, x = VUF u /\ uf_var u = None /\ urel h u y gr ds /\
       (forall v, In v ds <-> used sl v /\ exists z, nth_error (a_flat (dvs v)) k = Some z /\ z <> 0) /\
       (forall v, In v ds -> nth_error (a_flat (dvs v)) k = Some (gr v)) /\
       (forall v, ~ In v ds -> gr v = 0))
}.
(** A function of arrays of numbers with uncertainties extends a function of arrays of floats. *)
Definition behaves (f : nat -> arr (value RN) -> M RN (arr (value RN))) (F : afun) : Prop :=
  forall a sl h, wf anyc h -> Forall2 (vrel h) (a_flat a) sl -> wf_arr a ->
  exists r h', conv (fun fuel => f fuel a h) (r, h') /\ hext h h' /\
   (forall b, r = Ok b -> exists noms val0 dvs, uresult F (h_var h) a sl h' b noms val0 dvs) /\
   (forall noms val0, noms_of sl noms -> af_value F (np_arr a noms) = Ok val0 ->
     (forall v, used sl v -> a_flat val0 <> [] /\
        exists dv, af_deriv F (h_var h) (np_arr a noms) (val_of F a val0) v (dmatrix a sl v) = Ok dv) ->
     exists b, r = Ok b).

Lemma used_bound : forall h l sl v, wf anyc h -> Forall2 (vrel h) l sl -> used sl v -> (v < length (h_var h))%nat.
Proof.
  intros h l sl v W F (sa & I & D). induction F as [|a b l sl Hab F IH]; [destruct I|].
  destruct I as [->|I]; auto. destruct a as [p|u], sa as [q|n gr ds var]; try contradiction.
  destruct Hab as (U & _). eapply urel_bound; eauto.
Qed.
Lemma noms_dec : forall sl : list (sval g lg), (exists noms, noms_of sl noms) \/ (forall noms, ~ noms_of sl noms).
Proof.
  induction sl as [|sa sl IH]; [left; exists []; constructor|].
  destruct (as_float (N:=RN) (snom sa)) as [x|e] eqn:E.
  - destruct IH as [[noms H]|H]; [left; exists (x :: noms); constructor; auto|].
    right. intros noms Hn. inversion Hn; subst. eapply H; eauto.
  - right. intros noms Hn. inversion Hn; subst. congruence.
Qed.
Lemma noms_unique : forall (sl : list (sval g lg)) l l', noms_of sl l -> noms_of sl l' -> l = l'.
Proof.
  intros sl l l' H. revert l'. induction H as [|sa x sl l Hx H IH]; intros l' H'; inversion H'; subst; auto.
  f_equal; auto. congruence.
Qed.

Lemma with_derivatives_conv : forall order (step : varid -> arr R -> M RN (arr R)) F a sl h vars noms val0 c, wf anyc h -> Forall2 (vrel h) (a_flat a) sl -> wf_arr a ->
  (forall l, Permutation (order l) l) -> NoDup vars -> (forall v, In v vars <-> used sl v) -> noms_of sl noms ->
  af_value F (np_arr a noms) = Ok val0 ->
  (forall v da h', In v vars -> h_var h' = h_var h ->
     step v da h' = (af_deriv F (h_var h) (np_arr a noms) (val_of F a val0) v da, h')) ->
  exists r h', conv (fun f => with_derivatives (N:=RN) order f step a vars (val_of F a val0) c h) (r, h') /\ hext h h' /\
   (forall b, r = Ok b -> exists dvs, uresult F (h_var h) a sl h' b noms val0 dvs) /\
   ((forall v, used sl v -> a_flat val0 <> [] /\
      exists dv, af_deriv F (h_var h) (np_arr a noms) (val_of F a val0) v (dmatrix a sl v) = Ok dv) ->
    exists b, r = Ok b).
Proof.
  intros order step FF a sl h1 vars noms val0 c W F1 Wa P ND KU Hn Ev Hs.
  destruct vars as [|v0 vars0].
  - (* no number with uncertainty *)
    exists (Ok (amap (fun x => VNum (PF (N:=RN) x)) (val_of FF a val0))), h1. split; [|split; [auto using hext_refl|split]].
    + exists 0%nat. reflexivity.
    + intros b E. injection E; intros <-. exists (fun _ => val0). constructor; auto.
      * intros v Hv. apply KU in Hv. destruct Hv.
      * cbn. now rewrite map_length.
      * intros k x Ek.
        assert (G : nth_error (map (fun x : R => VNum (PF (N:=RN) x)) (a_flat val0)) k = Some x) by exact Ek.
        rewrite nth_error_map in G. destruct (@nth_error R (a_flat val0) k) as [y|] eqn:Ey; [|discriminate G].
        exists y. split; [reflexivity|]. left. split; [|cbn in G; congruence]. intros v Hv. apply KU in Hv. destruct Hv.
    + eauto.
  - set (vars := v0 :: vars0) in *.
    assert (De : a_flat val0 = [] \/ a_flat val0 <> []) by (destruct (a_flat val0); [now left|right; discriminate]).
    destruct De as [Ef|Ne].
    { exists (Err EValue), h1. split; [|split; [auto using hext_refl|split]].
      - exists 0%nat. intros fuel _. unfold with_derivatives, vars. cbn [val_of with_cls a_flat].
        change (a_flat (A:=num RN) val0) with (a_flat (A:=R) val0). rewrite Ef. reflexivity.
      - discriminate.
      - intros H. exfalso. apply (H v0); auto. apply KU. cbn; auto. }
    assert (NO : NoDup ([] ++ order vars)) by (eapply Permutation_NoDup; [symmetry; apply P|exact ND]).
    assert (KO : forall v, In v (order vars) <-> used sl v).
    { intros v. rewrite <- KU. split; apply Permutation_in; [|symmetry]; apply P. }
    set (sres := af_deriv FF (h_var h1) (np_arr a noms) (val_of FF a val0)) in *.
    destruct (deriv_loop_conv step sres a sl (order vars) [] (repeat [] (length (a_flat val0))) h1 W Wa F1 NO)
      as (r & h2 & C2 & X2 & T2 & R2).
    { intros v da h' I E. apply Hs; auto. apply KU. now apply KO. }
    assert (Cc : forall r' : res (arr (value RN)) * heap RN, conv (fun f => bind (deriv_loop (N:=RN) f step a (order vars) (repeat [] (length (a_flat val0))))
               (fun ds => bind (build (N:=RN) (combine (a_flat (val_of FF a val0)) ds)) (fun l =>
                 ret (mkArr c (a_shape (val_of FF a val0)) l))) h1) r' ->
               conv (fun f => with_derivatives (N:=RN) order f step a vars (val_of FF a val0) c h1) r').
    { intros r' [k C]. exists k. intros fuel Hf. rewrite <- (C fuel Hf). unfold with_derivatives, vars. cbn [val_of with_cls a_flat].
      change (a_flat (A:=num RN) val0) with (a_flat (A:=R) val0). destruct (a_flat val0); [congruence|reflexivity]. }
    set (dvs := fun v => match sres v (dmatrix a sl v) with Ok dv => dv | Err _ => val0 end).
    destruct r as [ds|e].
    2:{ exists (Err e), h2. split; [|split; [auto|split]].
        - apply Cc. eapply conv_bind_err. exact C2.
        - discriminate.
        - intros Hd. destruct (T2 dvs) as [ds' Q]; [|discriminate]. intros v Hv. apply KO in Hv. destruct (Hd v Hv) as [_ [dv E]].
          unfold dvs. now rewrite E. }
    destruct (R2 ds eq_refl) as (A1 & A2 & A3). rewrite repeat_length in A2.
    assert (Hd : forall v, In v (order vars) -> sres v (dmatrix a sl v) = Ok (dvs v)).
    { intros v Hv. destruct (A1 v Hv) as [dv E]. unfold dvs. now rewrite E. }
    assert (DK : dicts_ok dvs (order vars) ds).
    { apply (A3 dvs Hd). intros k d E. apply nth_error_In, repeat_spec in E. subst d. split; [constructor|]. reflexivity. }
    assert (Bd : forall x d, In (x, d) (combine (a_flat val0) ds) -> NoDup (dkeys d) /\ forall v, In v (dkeys d) -> (v < length (h_var h2))%nat).
    { intros x d I. apply in_combine_r in I. apply In_nth_error in I as [k E]. destruct (DK k d E) as [D1 D2]. split; auto.
      intros v Hv. rewrite (he_var _ _ X2). apply (used_bound h1 (a_flat a) sl); auto. apply KO.
      apply dget_In_keys in Hv as [y Hy]. rewrite D2 in Hy. unfold entry in Hy. destruct (in_dec Nat.eq_dec v (order vars)); [auto|discriminate]. }
    destruct (build_conv (combine (a_flat val0) ds) h2 (he_wf _ _ X2) Bd) as (l & h3 & C3 & X3 & F3).
    eexists (Ok _), h3. split; [|split; [|split]].
    + apply Cc. eapply conv_bind; [exact C2|].
      eapply (conv_bind _ _ (fun _ => build (N:=RN) (combine (a_flat val0) ds))). { exists 0%nat. intros fuel _. exact (C3 fuel). }
      exists 0%nat. reflexivity.
    + eapply hext_trans; eauto.
    + intros b E. injection E; intros <-. exists dvs.
      assert (Ll : length l = length (a_flat val0)).
      { transitivity (length (combine (a_flat val0) ds)); [symmetry; clear -F3; induction F3; cbn; auto|].
        rewrite combine_length. lia. }
      constructor; auto.
      * intros v Hv. apply Hd. now apply KO.
      * intros k x Ek. cbn [a_flat] in Ek. assert (Lk : (k < length (a_flat val0))%nat) by (rewrite <- Ll; apply nth_error_Some; congruence).
        destruct (nth_error (a_flat val0) k) as [y|] eqn:Ey; [|apply nth_error_None in Ey; lia].
        destruct (nth_error ds k) as [d|] eqn:Ed; [|apply nth_error_None in Ed; lia].
        exists y. split; auto. right. split. { exists v0. apply KU. cbn; auto. }
        assert (Ec : nth_error (combine (a_flat val0) ds) k = Some (y, d)).
        { clear -Ey Ed. revert k ds Ey Ed. induction (a_flat val0) as [|p q IH]; intros [|k] [|s t] Ey Ed; cbn in *; try discriminate; [congruence|auto]. }
        destruct (Forall2_nth_error _ _ _ _ _ F3 k _ Ec) as (x' & Ex' & u & -> & U1 & U2). cbn [fst snd] in U2.
        assert (x = VUF u) by congruence. subst x. destruct (DK k d Ed) as [D1 D2].
        exists u, (dval d), (dkeys d). split; auto. split; auto. split; auto.
        assert (G : forall v, dval d v = match entry dvs (order vars) k v with Some z => z | None => 0 end).
        { intros v. unfold dval. rewrite D2. reflexivity. }
        split; [|split].
        -- intros v. rewrite <- KO. rewrite dget_In_keys, <- (entry_some dvs (order vars) k v). rewrite D2. reflexivity.
        -- intros v Hv. apply dget_In_keys in Hv as [z Hz]. rewrite G. rewrite D2 in Hz. rewrite Hz.
           eapply entry_value. exact Hz.
        -- intros v Hv. apply dget_None in Hv. unfold dval. now rewrite Hv.
    + eauto.
Qed.

Definition of_fw (fw : with_derivs RN) : afun :=
  mkAF (fw_value fw) (fun _ nom val _ da => fw_deriv fw nom val da)
       (fun c _ => match c with ANd => ANd | _ => AMat end).
Lemma uncert_conv : forall order fw, (forall l, Permutation (order l) l) -> behaves (uncert_func order fw) (of_fw fw).
Proof.
  intros order fw P a sl h W F Wa.
  destruct (collect_conv (a_flat a) sl h [] W F (NoDup_nil _)) as (vars & h1 & C1 & X1 & ND & K).
  assert (KU : forall v, In v vars <-> used sl v).
  { intros v. rewrite K. unfold used. cbn. tauto. }
  pose proof (Forall2_hext _ _ _ _ X1 F) as F1.
  destruct (nominal_conv a sl h1 Wa F1) as [N1 N2].
  destruct (noms_dec sl) as [[noms Hn]|DN].
  2:{ destruct (N2 DN) as [e E]. exists (Err e), h1. split; [|split; [auto|split]].
      - unfold uncert_func. eapply conv_bind; [exact C1|]. eapply (conv_bind_err _ _ (fun _ => nominal_values a)).
        exists 0%nat. intros. exact E.
      - discriminate.
      - intros noms val0 Hn. exfalso. eapply DN; eauto. }
  destruct (fw_value fw (np_arr a noms)) as [val0|e] eqn:Ev.
  2:{ exists (Err e), h1. split; [|split; [auto|split]].
      - unfold uncert_func. eapply conv_bind; [exact C1|].
        eapply (conv_bind _ _ (fun _ => nominal_values a)). { exists 0%nat. intros. exact (N1 _ Hn). }
        eapply (conv_bind_err _ _ (fun _ => lift (fw_value fw (np_arr a noms)))). exists 0%nat. intros. unfold lift. now rewrite Ev.
      - discriminate.
      - intros noms' val0 Hn' Ev'. cbn in Ev'. rewrite (noms_unique _ _ _ Hn' Hn) in Ev'. congruence. }
  destruct (with_derivatives_conv order (fun _ da => lift (fw_deriv fw (np_arr a noms) (val_of (of_fw fw) a val0) da)) (of_fw fw)
     a sl h1 vars noms val0 (match a_cls (val_of (of_fw fw) a val0) with AMat => AUMat | c => c end)
     (he_wf _ _ X1) F1 Wa P ND KU Hn Ev) as (r & h2 & C2 & X2 & R2 & T2).
  { reflexivity. }
  exists r, h2. split; [|split; [eapply hext_trans; eauto|split]].
  - unfold uncert_func. eapply conv_bind; [exact C1|].
    eapply (conv_bind _ _ (fun _ => nominal_values a)). { exists 0%nat. intros. exact (N1 _ Hn). }
    eapply (conv_bind _ _ (fun _ => lift (fw_value fw (np_arr a noms)))). { exists 0%nat. intros. unfold lift. now rewrite Ev. }
    exact C2.
  - intros b E. destruct (R2 b E) as [dvs U]. exists noms, val0, dvs. rewrite (he_var _ _ X1) in U. exact U.
  - intros noms' val1 Hn' Ev' Hd. rewrite (noms_unique _ _ _ Hn' Hn) in *. cbn in Ev'. assert (val1 = val0) by congruence. subst val1.
    apply T2. rewrite (he_var _ _ X1). exact Hd.
Qed.

Definition of_func (f : arr R -> res (arr R)) : afun :=
  mkAF f (fun V nom val v da => match nth_error V v with
                                | Some o => numerical_deriv (N:=RN) f nom val o da
                                | None => Err EAttr
                                end) (fun _ c => c).
Lemma wrapped_conv : forall order f, (forall l, Permutation (order l) l) -> behaves (wrap_array_func (N:=RN) order f) (of_func f).
Proof.
  intros order f P a sl h W F Wa.
  destruct (nominal_conv a sl h Wa F) as [N1 N2].
  destruct (noms_dec sl) as [[noms Hn]|DN].
  2:{ destruct (N2 DN) as [e E]. exists (Err e), h. split; [|split; [auto using hext_refl|split]].
      - unfold wrap_array_func. eapply (conv_bind_err _ _ (fun _ => nominal_values a)). exists 0%nat. intros. exact E.
      - discriminate.
      - intros noms val0 Hn. exfalso. eapply DN; eauto. }
  destruct (f (np_arr a noms)) as [val0|e] eqn:Ev.
  2:{ exists (Err e), h. split; [|split; [auto using hext_refl|split]].
      - unfold wrap_array_func. 
        eapply (conv_bind _ _ (fun _ => nominal_values a)). { exists 0%nat. intros. exact (N1 _ Hn). }
        eapply (conv_bind_err _ _ (fun _ => lift (f (np_arr a noms)))). exists 0%nat. intros. unfold lift. now rewrite Ev.
      - discriminate.
      - intros noms' val0 Hn' Ev'. cbn in Ev'. rewrite (noms_unique _ _ _ Hn' Hn) in Ev'. congruence. }
  destruct (collect_conv (a_flat a) sl h [] W F (NoDup_nil _)) as (vars & h1 & C1 & X1 & ND & K).
  assert (KU : forall v, In v vars <-> used sl v).
  { intros v. rewrite K. unfold used. cbn. tauto. }
  pose proof (Forall2_hext _ _ _ _ X1 F) as F1.
  assert (Ec : val_of (of_func f) a val0 = val0) by (destruct val0; reflexivity).
  destruct (with_derivatives_conv order
     (fun v da h => match get_var h v with
                    | Some o => (numerical_deriv (N:=RN) f (np_arr a noms) val0 o da, h)
                    | None => (Err EAttr, h)
                    end) (of_func f)
     a sl h1 vars noms val0 (a_cls val0) (he_wf _ _ X1) F1 Wa P ND KU Hn Ev) as (r & h2 & C2 & X2 & R2 & T2).
  { intros v da h' I E. rewrite Ec. unfold get_var. rewrite E. cbn. destruct (nth_error (h_var h1) v); reflexivity. }
  rewrite Ec in C2. exists r, h2. split; [|split; [eapply hext_trans; eauto|split]].
  - unfold wrap_array_func.
    eapply (conv_bind _ _ (fun _ => nominal_values a)). { exists 0%nat. intros. exact (N1 _ Hn). }
    eapply (conv_bind _ _ (fun _ => lift (f (np_arr a noms)))). { exists 0%nat. intros. unfold lift. now rewrite Ev. }
    eapply conv_bind; [exact C1|]. exact C2.
  - intros b E. destruct (R2 b E) as [dvs U]. exists noms, val0, dvs. rewrite (he_var _ _ X1) in U. exact U.
  - intros noms' val1 Hn' Ev' Hd. rewrite (noms_unique _ _ _ Hn' Hn) in *. cbn in Ev'. assert (val1 = val0) by congruence. subst val1.
    apply T2. rewrite (he_var _ _ X1). exact Hd.
Qed.

(** ** Calls on the results of a program *)
Lemma array_sim : forall f F st ss ia r st', sim (g:=g) (lg:=lg) st ss -> behaves f F ->
  array_call f st ia r st' -> (forall ir, r = Ok ir -> dependent st' ir) ->
  exists ne, sim st' (mkS (ss_vars ss) (ss_env ss ++ ne)) /\
    forall i n gr ds v, nth_error ne i <> Some (SUF n gr ds (Some v)).
Proof.
  intros f FF [h env] [vs senv] ia r [h' env'] S P (a & k & Wi & (A1 & A2 & A3) & H) Dp.
  cbn [st_heap st_env ss_vars ss_env] in *. pose proof S as [W V E]. cbn in W, V, E.
  pose proof (get_args_rel h env senv (a_flat ia) E) as A. rewrite A3 in A.
  destruct (sargs senv (a_flat ia)) as [sl|]; [|contradiction].
  assert (Wa : wf_arr a).
  { unfold wf_arr in *. rewrite A2, <- Wi. clear -A3. revert A3. generalize (a_flat a) as l. induction (a_flat ia) as [|i is IH]; intros l E; cbn in E.
    - injection E; intros <-. reflexivity.
    - destruct (nth_error env i); [|discriminate]. destruct (get_args env is); [|discriminate]. injection E; intros <-. cbn. auto. }
  destruct (P a sl h W A Wa) as (r1 & h1 & C & X & Ho & _).
  assert (Sx : sim (mkState h1 env) (mkS vs senv)) by (eapply sim_hext; eauto).
  destruct r as [ir|e].
  2:{ destruct H as [He H]. assert (Q : (r1, h1) = (Err e, h')).
      { destruct C as [k1 C]. rewrite <- (C (max k k1)) by lia. apply H. lia. }
      injection Q; intros -> ->. subst env'. exists []. rewrite app_nil_r. split; auto. intros [|i]; discriminate. }
  destruct H as (b & (B1 & B2 & B3) & He & Hf & H). assert (Q : (r1, h1) = (Ok b, h')).
  { destruct C as [k1 C]. rewrite <- (C (max k k1)) by lia. apply H. lia. }
  injection Q; intros -> ->. clear Q. destruct (Ho b eq_refl) as (noms & val0 & dvs & U). clear Ho. subst env'.
  assert (F : exists ne, Forall2 (vrel h') (a_flat b) ne /\ forall i n gr ds v, nth_error ne i <> Some (SUF n gr ds (Some v))).
  { assert (G : forall j x, nth_error (a_flat b) j = Some x -> exists sx, vrel h' x sx /\ forall n gr ds v, sx <> SUF n gr ds (Some v)).
    { intros j x Ej. destruct (ur_elems _ _ _ _ _ _ _ _ _ U j x Ej) as (y & Ey & [[_ ->]|(_ & u & gr & ds & -> & Uv & Ur & _)]).
      - exists (SPlain (PNum (PF (N:=RN) y))). split; [reflexivity|discriminate].
      - exists (SUF y gr ds None). split; [|discriminate]. cbn. split; auto. split; [|split; [auto|discriminate]].
        intros ->. set (kk := (length env + j)%nat). apply (Dp ir eq_refl kk).
        + rewrite Hf. apply in_seq. assert (j < length (a_flat b))%nat by (apply nth_error_Some; congruence). unfold kk; lia.
        + destruct (derivatives_conv h' u y gr [] (he_wf _ _ X) Ur) as (d & h2 & [k2 C2] & _ & _ & K2 & _).
          assert (d = []) as ->. { destruct d as [|[w z] d]; auto. exfalso. apply (proj1 (K2 w)). cbn; auto. }
          eexists. exists k2. intros fuel Hk. cbn [step]. unfold with_uf, with_val. cbn [st_env].
          rewrite nth_error_app2 by (unfold kk; lia). replace (kk - length env)%nat with j by (unfold kk; lia). rewrite Ej.
          unfold observe. cbn [st_heap]. rewrite C2 by auto. reflexivity. }
    clear -G. induction (a_flat b) as [|x l IH]; [exists []; split; [constructor|intros [|i]; discriminate]|].
    destruct (G 0%nat x eq_refl) as (sx & Rx & Nx). destruct IH as (ne & F & Nn). { intros j y Ej. apply (G (S j) y Ej). }
    exists (sx :: ne). split; [constructor; auto|]. intros [|i] n gr ds v; cbn; auto. intros E; injection E. apply Nx. }
  destruct F as (ne & F & Nn). exists ne. split; auto. destruct Sx as [W1 V1 E1]. split; cbn in *; auto. apply Forall2_app; auto.
Qed.
End InvConv.
