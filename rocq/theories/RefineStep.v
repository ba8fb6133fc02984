(** Every history of API calls over exact numbers behaves as the specification: comparisons,
    single steps, whole histories. *)
From Coq Require Import ZArith List Bool Reals Lra Lia Arith.
From Verif Require Import Base Heap Affine Ops UMath NumR HeapSpec HeapProofs DenProofs Machine Spec
  Refine.
From Flocq Require Import Core.
Import ListNotations.
Local Open Scope R_scope.

Section RefineStep.
Context {g lg : R -> R}.
Notation RN := (ROps g lg).
Implicit Types h : heap RN.

Lemma Rsum_sq_zero : forall (F : nat -> R) l,
  Reqb (Rsum (map (fun v => F v ^ 2) l)) 0 = forallb (fun v => Reqb (F v) 0) l.
Proof.
  intros F l.
  assert (P : forall l, 0 <= Rsum (map (fun v => F v ^ 2) l)).
  { induction l0; simpl; [lra|]. pose proof (pow2_ge_0 (F a)). simpl in *. lra. }
  induction l as [|a l IH]; simpl.
  - now apply Reqb_true.
  - rewrite <- IH. pose proof (P l). simpl in *.
    destruct (Reqb (F a) 0) eqn:E; simpl.
    + apply Reqb_true in E. rewrite E. f_equal. ring.
    + apply Reqb_false in E. apply Reqb_false.
      assert (0 < F a * F a) by (destruct (Rtotal_order (F a) 0) as [?|[?|?]]; nra).
      lra.
Qed.

Lemma sstd_zero : forall vs gr,
  Reqb (sstd vs gr) 0 = forallb (fun v => Reqb (gr v * sigma vs v) 0) (seq 0 (length vs)).
Proof.
  intros. rewrite <- (Rsum_sq_zero (fun v => gr v * sigma vs v)).
  change (Rsum (map (fun v => (gr v * sigma vs v) ^ 2) (seq 0 (length vs))))
    with (svariance vs gr).
  unfold sstd. pose proof (svariance_nonneg vs gr).
  destruct (Reqb (svariance vs gr) 0) eqn:E.
  - apply Reqb_true in E. rewrite E. apply Reqb_true. apply sqrt_0.
  - apply Reqb_false in E. apply Reqb_false. intros X. apply E. now apply sqrt_eq_0.
Qed.

Lemma forallb_ext' : forall A (f f' : A -> bool) l, (forall x, f x = f' x) ->
  forallb f l = forallb f' l.
Proof. induction l; simpl; intros; auto. rewrite H, IHl; auto. Qed.

Lemma eq_aff_conv : forall h vs x y n1 g1 ds1 n2 g2 ds2, wf anyc h -> varsrel h vs ->
  urel h x n1 g1 ds1 -> urel h y n2 g2 ds2 ->
  exists h', conv (fun fuel => eq_aff fuel x y h) (Ok (seq_uf vs n1 n2 g1 g2), h') /\ hext h h'.
Proof.
  intros h vs x y n1 g1 ds1 n2 g2 ds2 W V X Y.
  destruct (alloc_terms (g:=g) (lg:=lg) h
     [IPair (PF (N:=RN) 1) (uf_lp x); IPair (PF (N:=RN) (-(1))) (uf_lp y)]
     [(1, SUF n1 g1 ds1 None); (-(1), SUF n2 g2 ds2 None)] (n1 - n2) W) as [A U].
  { repeat constructor; simpl; auto; eexists; split; eauto. }
  assert (E : method_op Bsub x (VUF y) h =
    (Ok (VUF (mkUF (N:=RN) (n1 - n2) (length (h_lc h)) None)),
     mkHeap (h_lc h ++ [LList (rev [IPair (PF (N:=RN) 1) (uf_lp x);
                                    IPair (PF (N:=RN) (-(1))) (uf_lp y)])]) (h_var h))).
  { rewrite <- (ur_nom _ _ _ _ _ X), <- (ur_nom _ _ _ _ _ Y). reflexivity. }
  set (h1 := mkHeap (h_lc h ++ [LList _]) (h_var h)) in *.
  assert (V1 : varsrel h1 vs) by (unfold varsrel; now rewrite (he_var _ _ A)).
  destruct (std_affine_conv h1 vs _ _ _ _ (he_wf _ _ A) V1 U) as (h2 & C & X2).
  unfold eq_aff. unfold seq_uf.
  destruct (Reqb n1 n2) eqn:En.
  - apply Reqb_true in En. exists h2. split; [|eapply hext_trans; eauto].
    eapply conv_bind; [rewrite E; apply conv_const|].
    cbn [uf_nom n_truth]. unfold n_truth.
    replace (n_eq RN (n1 - n2) (n_zero RN)) with true.
    2:{ symmetry. apply Reqb_true. simpl. lra. }
    cbn [negb]. eapply conv_bind; [exact C|].
    cbn [andb]. unfold ret. rewrite negb_involutive.
    replace (forallb (fun v => Reqb ((g1 v - g2 v) * sigma vs v) 0) (seq 0 (length vs)))
      with (n_eq RN (sstd vs (lin_grad [(1, SUF (g:=g) (lg:=lg) n1 g1 ds1 None);
                                        (-(1), SUF n2 g2 ds2 None)])) (n_zero RN)).
    + apply conv_const.
    + simpl n_eq. rewrite sstd_zero. apply forallb_ext'. intros v. f_equal.
      unfold lin_grad. simpl. ring.
  - apply Reqb_false in En. exists h1. split; auto.
    eapply conv_bind; [rewrite E; apply conv_const|].
    cbn [uf_nom n_truth]. unfold n_truth.
    replace (n_eq RN (n1 - n2) (n_zero RN)) with false.
    2:{ symmetry. apply Reqb_false. simpl. lra. }
    cbn [negb andb]. apply conv_const.
Qed.

Lemma cmp_aff_conv : forall h vs c x y n1 g1 ds1 n2 g2 ds2, wf anyc h -> varsrel h vs ->
  urel h x n1 g1 ds1 -> urel h y n2 g2 ds2 ->
  exists h', conv (fun fuel => cmp_aff fuel c x y h) (Ok (scmp vs c n1 n2 g1 g2), h') /\
             hext h h'.
Proof.
  intros h vs c x y n1 g1 ds1 n2 g2 ds2 W V X Y.
  destruct (eq_aff_conv h vs x y n1 g1 ds1 n2 g2 ds2 W V X Y) as (h' & C & E).
  assert (R : hext h h) by now apply hext_refl.
  assert (G : gt_aff x y = Rltb n2 n1).
  { unfold gt_aff. now rewrite (ur_nom _ _ _ _ _ X), (ur_nom _ _ _ _ _ Y). }
  assert (L : lt_aff x y = Rltb n1 n2).
  { unfold lt_aff. now rewrite (ur_nom _ _ _ _ _ X), (ur_nom _ _ _ _ _ Y). }
  destruct c; unfold cmp_aff, scmp.
  - exists h'; auto.
  - exists h'; split; auto. eapply conv_bind; [exact C|]. apply conv_const.
  - exists h. rewrite G. split; auto. apply conv_const.
  - unfold ge_aff. rewrite G. destruct (Rltb n2 n1); simpl.
    + exists h; split; auto. apply conv_const.
    + exists h'; auto.
  - exists h. rewrite L. split; auto. apply conv_const.
  - unfold le_aff. rewrite L. destruct (Rltb n1 n2); simpl.
    + exists h; split; auto. apply conv_const.
    + exists h'; auto.
Qed.

Lemma dep_dict_iff : forall h l d v, get_lc h l = LDict d -> (dep h l v <-> In v (dkeys d)).
Proof.
  intros h l d v G. split.
  - intros D. inversion D as [? ? ? G' I|? ? ? ? ? G' ? ?]; subst; rewrite G in G'.
    + injection G'; intros; subst; auto.
    + discriminate.
  - intros I. eapply dep_dict; eauto.
Qed.

(** Upcast of a plain number. *)
Lemma to_affine_num : forall h (p : pynum RN), wf anyc h ->
  exists u h', to_affine_scalar (VNum p) h = (Ok u, h') /\ hext h h' /\
    urel h' u (pval p) (fun _ => 0) [].
Proof.
  intros h p W. unfold to_affine_scalar. rewrite pn_float_R. cbn [alloc_lc].
  eexists _, _. split; [reflexivity|].
  assert (X : hext h (mkHeap (h_lc h ++ [LDict []]) (h_var h))).
  { apply hext_alloc; auto. simpl. split; [constructor|tauto]. }
  split; auto.
  assert (G : get_lc (mkHeap (h_lc h ++ [LDict []]) (h_var h)) (length (h_lc h)) = LDict [])
    by apply get_alloc_new.
  split; simpl; auto.
  - rewrite app_length; simpl; lia.
  - intros v. rewrite (den_dict _ _ _ _ G). reflexivity.
  - intros v. apply (dep_dict_iff _ _ _ v G).
Qed.

Definition sres (b : sout) (r : res bool) : Prop :=
  match b, r with SBoolO b, Ok b' => b = b' | SExn e, Err e' => e = e' | _, _ => False end.

Lemma py_cmp_conv : forall h vs c x n1 g1 ds1 b sb, wf anyc h -> varsrel h vs ->
  urel h x n1 g1 ds1 -> vrel h b sb ->
  exists r h', conv (fun fuel => py_cmp fuel c x b h) (r, h') /\ hext h h' /\
    sres (scmp_val vs c n1 g1 sb) r.
Proof.
  intros h vs c x n1 g1 ds1 b sb W V X B.
  unfold py_cmp.
  assert (R : hext h h) by now apply hext_refl.
  destruct b as [a|y], sb as [a'|n2 g2 ds2 var]; simpl in B; try tauto.
  - subst a'. destruct a as [p| |k|].
    + destruct (to_affine_num h p W) as (u & h1 & E1 & X1 & U).
      assert (V1 : varsrel h1 vs) by (unfold varsrel; now rewrite (he_var _ _ X1)).
      destruct (cmp_aff_conv h1 vs c x u n1 g1 ds1 (pval p) (fun _ => 0) [] (he_wf _ _ X1) V1)
        as (h2 & C & X2); auto. { eapply urel_hext; eauto. }
      eexists (Ok _), h2. split; [|split; [eapply hext_trans; eauto|reflexivity]].
      eapply conv_bind.
      * unfold method_cmp. rewrite E1.
        eapply (conv_map _ _ (fun r => match r with (Ok r, h2) => (Ok (Some r), h2)
                                               | (Err e, h2) => (Err e, h2) end));
          [exact C|reflexivity].
      * apply conv_const.
    + exists (Err EType), h. split; [|split; auto; reflexivity]. exists 0%nat; intros; reflexivity.
    + destruct c; eexists _, h; (split; [exists 0%nat; intros; reflexivity|split; auto; reflexivity]).
    + destruct c; eexists _, h; (split; [exists 0%nat; intros; reflexivity|split; auto; reflexivity]).
  - destruct B as (U & _).
    destruct (cmp_aff_conv h vs c x y n1 g1 ds1 n2 g2 ds2 W V X U) as (h2 & C & X2).
    eexists (Ok _), h2. split; [|split; [eauto|reflexivity]].
    eapply conv_bind.
    + unfold method_cmp. simpl to_affine_scalar. unfold ret.
      eapply (conv_map _ _ (fun r => match r with (Ok r, h2) => (Ok (Some r), h2)
                                             | (Err e, h2) => (Err e, h2) end));
        [exact C|reflexivity].
    + apply conv_const.
Qed.

Lemma vrel_truth : forall h u n gr ds, urel h u n gr ds -> ds <> [] ->
  lc_truth (get_lc h (uf_lp u)) = true.
Proof.
  intros h u n gr ds U D. destruct ds as [|v ds]; [congruence|].
  assert (X : dep h (uf_lp u) v) by (apply (ur_dep _ _ _ _ _ U); simpl; auto).
  inversion X as [l d w G I|l its c l' w G I _]; subst; rewrite G; simpl.
  - destruct d; simpl in *; tauto.
  - destruct its; simpl in *; tauto.
Qed.

Lemma modf_rel : forall h a sa, wf anyc h -> vrel h a sa ->
  okrel h (match umath_modf a h with
           | (Ok (fr, _), h') => (Ok fr, h') | (Err e, h') => (Err e, h') end) (smodf sa).
Proof.
  intros h a sa W B. assert (R : hext h h) by now apply hext_refl.
  destruct a as [a|u], sa as [a'|n gr ds var]; simpl in B; try tauto.
  - subst a'. destruct a as [p| |k|]; try (split; simpl; auto; reflexivity).
    destruct (to_affine_num h p W) as (u & h1 & E1 & X1 & U).
    unfold umath_modf, bind. rewrite E1. cbn [n_modf ROps].
    assert (F : lc_truth (get_lc h1 (uf_lp u)) = false).
    { simpl in E1. rewrite pn_float_R in E1. injection E1; intros; subst.
      simpl. rewrite get_alloc_new. reflexivity. }
    rewrite F. split; auto. simpl. now rewrite (ur_nom _ _ _ _ _ U).
  - destruct B as (U & D & _).
    unfold umath_modf, bind, to_affine_scalar, ret. cbn [n_modf ROps].
    rewrite (vrel_truth h u n gr ds U D).
    split; auto. simpl. destruct U as [U1 U2 U3 U4].
    split; [split; simpl; auto|]. 2:{ repeat split; auto; congruence. }
    now rewrite U1.
Qed.

Lemma two_power_R : forall e, exists c : pynum RN, two_power e = Ok c /\ pval c = bpow radix2 e.
Proof.
  intros e. unfold two_power. destruct (Z.leb_spec 0 e).
  - exists (PZ (2 ^ e)). split; auto. change 2%Z with (radix_val radix2). simpl pval.
    now apply (IZR_Zpower radix2).
  - simpl n_of_Z. cbv iota. unfold n_powf. simpl n_pow. unfold Rpow_py.
    replace (Reqb (IZR e) 0) with false.
    2:{ symmetry. apply Reqb_false. apply IZR_neq. lia. }
    replace (Rltb 0 2) with true by (symmetry; apply Rltb_true; lra).
    exists (PF (N:=RN) (Rpower 2 (IZR e))). split; auto. simpl pval.
    rewrite bpow_powerRZ. simpl. rewrite powerRZ_Rpower by lra. auto.
Qed.

Lemma ldexp_rel : forall h a sa e, wf anyc h -> vrel h a sa ->
  okrel h (umath_ldexp a e h) (sldexp sa e).
Proof.
  intros h a sa e W B. assert (R : hext h h) by now apply hext_refl.
  destruct a as [a|u], sa as [a'|n gr ds var]; simpl in B; try tauto.
  - subst a'. destruct a as [p| |k|]; try (split; simpl; auto; reflexivity).
    destruct (to_affine_num h p W) as (u & h1 & E1 & X1 & U).
    unfold umath_ldexp, bind. rewrite E1.
    assert (F : lc_truth (get_lc h1 (uf_lp u)) = false).
    { simpl in E1. rewrite pn_float_R in E1. injection E1; intros; subst.
      simpl. rewrite get_alloc_new. reflexivity. }
    rewrite F, pn_float_R. split; auto. reflexivity.
  - pose proof B as B'. destruct B as (U & D & _).
    unfold umath_ldexp, bind, to_affine_scalar, ret.
    rewrite (vrel_truth h u n gr ds U D). cbn [n_ldexp ROps].
    destruct (two_power_R e) as (c & Ec & Vc). rewrite Ec. cbn [alloc_lc].
    destruct (alloc_terms (g:=g) (lg:=lg) h [IPair c (uf_lp u)]
       [(bpow radix2 e, SUF n gr ds None)] (uf_nom u * bpow radix2 e) W) as [A U'].
    { constructor; [|constructor]. simpl. split; auto. exists u; auto. }
    split; simpl; auto. destruct U' as [U1 U2 U3 U4]. simpl in *.
    split; [split; simpl; auto|].
    + now rewrite (ur_nom _ _ _ _ _ U).
    + intros v. rewrite U3. unfold lin_grad. simpl. lra.
    + intros v. rewrite U4. unfold lin_deps. simpl. now rewrite app_nil_r.
    + repeat split; auto; congruence.
Qed.

(** ** Access to operands *)
Lemma get_args_rel : forall h env senv is, Forall2 (vrel h) env senv ->
  match get_args env is, sargs senv is with
  | Some a, Some b => Forall2 (vrel h) a b
  | None, None => True
  | _, _ => False
  end.
Proof.
  intros h env senv is F. induction is as [|i is IH]; simpl; auto.
  destruct (nth_error env i) eqn:E.
  - destruct (Forall2_nth_error _ _ _ _ _ F _ _ E) as (b & Eb & Hb). rewrite Eb.
    destruct (get_args env is), (sargs senv is); try tauto. constructor; auto.
  - rewrite (Forall2_nth_error_None _ _ _ _ _ F _ E). auto.
Qed.
Lemma get_kwargs_rel : forall h env senv ks, Forall2 (vrel h) env senv ->
  match get_kwargs env ks, skwargs senv ks with
  | Some a, Some b => kwrel h a b
  | None, None => True
  | _, _ => False
  end.
Proof.
  intros h env senv ks F. induction ks as [|[k i] ks IH]; simpl; auto. { constructor. }
  destruct (nth_error env i) eqn:E.
  - destruct (Forall2_nth_error _ _ _ _ _ F _ _ E) as (b & Eb & Hb). rewrite Eb.
    destruct (get_kwargs env ks), (skwargs senv ks); try tauto. constructor; auto.
  - rewrite (Forall2_nth_error_None _ _ _ _ _ F _ E). auto.
Qed.

Definition stepok (p : state RN * out RN) (q : sstate g lg * sout) : Prop :=
  sim (fst p) (fst q) /\ out_ok (snd p) (snd q).

Lemma push_rel : forall st ss p s, sim st ss -> okrel (st_heap st) p s ->
  stepok (push st p) (spush ss s).
Proof.
  intros [h env] [vs senv] [r h'] s S [A B]. simpl in *.
  pose proof (sim_hext h h' env vs senv S A) as [S1 S2 S3]. simpl in *.
  destruct r as [a|e], s as [b|e']; simpl in B; try tauto.
  - split; simpl; auto. split; simpl; auto. apply Forall2_app; auto.
  - subst. split; simpl; auto. split; simpl; auto. apply Forall2_app; auto.
    repeat constructor.
Qed.

Lemma step_uf_rel : forall st ss i
  (k : nat -> uf RN -> state RN * out RN) sk, sim st ss ->
  (forall u n gr ds var, vrel (st_heap st) (VUF u) (SUF n gr ds var) ->
     exists r, conv (fun fuel => k fuel u) r /\ stepok r (sk n gr ds var)) ->
  exists r, conv (fun fuel => with_uf st i (k fuel)) r /\ stepok r (swith_uf ss i sk).
Proof.
  intros st ss i k sk S H. unfold with_uf, with_val, swith_uf, swith.
  destruct st as [h env], ss as [vs senv]. pose proof S as [S1 S2 S3]. simpl in *.
  destruct (nth_error env i) eqn:E.
  - destruct (Forall2_nth_error _ _ _ _ _ S3 _ _ E) as (b & Eb & Hb). rewrite Eb.
    destruct v as [a|u], b as [b|n gr ds var]; simpl in Hb; try tauto.
    + eexists; split; [apply conv_const|]. split; simpl; auto.
    + apply H. exact Hb.
  - rewrite (Forall2_nth_error_None _ _ _ _ _ S3 _ E).
    eexists; split; [apply conv_const|]. split; simpl; auto.
Qed.

Lemma observe_conv : forall A st ss (f : A -> out RN) (m : nat -> res A * heap RN) a h' so,
  sim st ss -> conv m (Ok a, h') -> hext (st_heap st) h' -> out_ok (f a) so ->
  exists r, conv (fun fuel => observe st f (m fuel)) r /\ stepok r (ss, so).
Proof.
  intros A [h env] [vs senv] f m a h' so S C X O.
  eexists. split. { eapply conv_map; [exact C|]. reflexivity. }
  split; simpl; auto. eapply sim_hext; eauto.
Qed.

Lemma restrict_out : forall (d : dict RN) ds gr, NoDup (dkeys d) ->
  (forall v, In v (dkeys d) <-> In v ds) -> (forall v, dval d v = gr v) ->
  out_ok (ODict d) (SDict (restrict ds gr)).
Proof. intros. simpl. split; auto. now apply dget_restrict. Qed.

Lemma check_std_R : forall s : pynum RN,
  check_std s = if Rltb (pval s) 0 then Err ENegStd else Ok (pval s).
Proof.
  intros [z|x]; unfold check_std; simpl.
  - destruct (Z.ltb_spec z 0).
    + replace (Rltb (IZR z) 0) with true; auto. symmetry. apply Rltb_true. now apply IZR_lt.
    + replace (Rltb (IZR z) 0) with false; auto. symmetry. apply Rltb_false. now apply IZR_le.
  - reflexivity.
Qed.

Lemma new_rel : forall st ss n s tag, sim st ss ->
  stepok (step 0 st (INew n s tag)) (sstep ss (INew n s tag)).
Proof.
  intros [h env] [vs senv] n s tag S. pose proof S as [W V E]. simpl in *.
  unfold new_var. rewrite pn_float_R, check_std_R.
  destruct (Rltb (pval s) 0) eqn:Es.
  - apply (push_rel (mkState h env) (mkS vs senv) (Err ENegStd, h) (Err ENegStd) S).
    split; simpl; auto. now apply hext_refl.
  - apply Rltb_false in Es. cbn [alloc_lc]. simpl.
    set (nv := length (h_var h)).
    assert (Env : nv = length vs) by now apply varsrel_len.
    set (o := mkVar (N:=RN) (pval n) (length (h_lc h)) (pval s) tag).
    set (h2 := mkHeap (N:=RN) (h_lc h ++ [LDict (N:=RN) [(nv, 1)]]) (h_var h ++ [o])).
    assert (G : forall l, (l < length (h_lc h))%nat -> get_lc h2 l = get_lc h l).
    { intros. unfold get_lc, h2; simpl. now rewrite app_nth1. }
    assert (Gn : get_lc h2 (length (h_lc h)) = LDict (N:=RN) [(nv, 1)]).
    { unfold get_lc, h2; simpl. rewrite app_nth2, Nat.sub_diag; auto. }
    assert (WB : wf_below anyc h (length (h_lc h))) by (apply wf_below_of_wf; auto).
    assert (W2 : wf anyc h2).
    { split.
      - intros l Hl. unfold h2 in Hl |- *; simpl in Hl |- *.
        rewrite !app_length in *; simpl in *.
        destruct (Nat.eq_dec l (length (h_lc h))) as [->|Hn].
        + fold h2. rewrite Gn. simpl. split.
          * constructor; [simpl; tauto|constructor].
          * intros v [<-|[]]. unfold nv. lia.
        + fold h2. rewrite G by lia. eapply lc_ok_mono; [|apply (wf_lc _ _ W); lia]. lia.
      - intros v o' Gv. unfold get_var, h2 in Gv. simpl in Gv.
        destruct (Nat.lt_ge_cases v nv) as [Hv|Hv].
        + rewrite nth_error_app1 in Gv by auto.
          destruct (wf_var anyc h W v o' Gv) as [A B]. split.
          * unfold h2; simpl. rewrite app_length. lia.
          * rewrite G; auto.
        + rewrite nth_error_app2 in Gv by auto. fold nv in Gv.
          destruct (v - nv)%nat eqn:Ev; simpl in Gv; [|destruct n0; discriminate].
          injection Gv; intros; subst o'. replace v with nv by lia. split.
          * unfold h2; simpl. rewrite app_length; simpl; lia.
          * exact Gn. }
    split; simpl; auto. split; simpl.
    + exact W2.
    + unfold varsrel. simpl. apply Forall2_app; auto.
    + apply Forall2_app.
      * eapply Forall2_impl'; [|exact E]. intros a sa R.
        destruct a as [a|u], sa as [a'|n' gr ds var]; simpl in R |- *; auto.
        destruct R as (U & D & Ev & Hv). split; [|split; [auto|split; [auto|]]].
        -- destruct U as [U1 U2 U3 U4]. split; auto.
           ++ unfold h2; simpl. rewrite app_length. lia.
           ++ intros v. rewrite (den_agree h h2 (length (h_lc h)) v WB G) by auto. auto.
           ++ intros v. rewrite (dep_agree anyc h h2 (length (h_lc h)) WB G) by auto. auto.
        -- intros v Hvv. destruct (Hv v Hvv) as (A & B & C). split; auto.
           unfold h2; simpl. rewrite app_length. lia.
      * constructor; [|constructor]. simpl. rewrite <- Env. split; [split; simpl|].
        -- reflexivity.
        -- unfold h2; simpl. rewrite app_length; simpl; lia.
        -- intros v. rewrite (den_dict _ _ _ _ Gn). unfold dval, delta. simpl.
           destruct (Nat.eqb v nv); auto.
        -- intros v. apply (dep_dict_iff _ _ _ v Gn).
        -- split; [congruence|]. split; auto. intros v Ev. injection Ev; intros; subst v.
           split; [|split; auto]. unfold h2; simpl. rewrite app_length; simpl; fold nv; lia.
Qed.

Lemma list_set_Forall2 : forall A B (Q : A -> B -> Prop) l l' i a b, Forall2 Q l l' -> Q a b ->
  Forall2 Q (list_set l i a) (list_set l' i b).
Proof.
  intros A B Q l l' i a b F. revert i. induction F; intros [|i] H'; simpl; constructor; auto.
Qed.

Lemma set_rel : forall st ss v s, sim st ss -> (v < length (h_var (st_heap st)))%nat ->
  stepok (observe st (fun _ => ONone) (set_std v s (st_heap st)))
    (if Rltb (pval s) 0 then (ss, SExn ENegStd)
     else (mkS (list_set (ss_vars ss) v (pval s)) (ss_env ss), SNone)).
Proof.
  intros [h env] [vs senv] v s S Hv. pose proof S as [W V E]. simpl in *.
  unfold set_std. rewrite check_std_R. destruct (Rltb (pval s) 0) eqn:Es; simpl.
  - split; auto. reflexivity.
  - apply Rltb_false in Es.
    destruct (varsrel_get h vs v V Hv) as (o & Go & So & Po). rewrite Go. simpl.
    set (o' := mkVar (v_nom o) (v_lp o) (pval s) (v_tag o)).
    set (h2 := mkHeap (h_lc h) (list_set (h_var h) v o') : heap RN).
    assert (G : forall l, get_lc h2 l = get_lc h l) by reflexivity.
    assert (L : length (h_var h2) = length (h_var h)) by apply list_set_length.
    assert (WB : wf_below anyc h (length (h_lc h))) by (apply wf_below_of_wf; auto).
    split; simpl; auto. split; simpl.
    + split.
      * intros l Hl. rewrite L. apply (wf_lc _ _ W); auto.
      * intros w ow Gw. unfold get_var, h2 in Gw; simpl in Gw.
        destruct (Nat.eq_dec v w) as [->|Hn].
        -- rewrite nth_error_list_set_eq in Gw by auto. injection Gw; intros; subst ow.
           apply (wf_var _ _ W w o Go).
        -- rewrite nth_error_list_set_neq in Gw by auto. apply (wf_var _ _ W w ow Gw).
    + apply list_set_Forall2; auto.
    + eapply Forall2_impl'; [|exact E]. intros a sa R.
      destruct a as [a|u], sa as [a'|n' gr ds var]; simpl in R |- *; auto.
      destruct R as (U & D & Ev & Hvv). rewrite list_set_length. split; [|auto].
      destruct U as [U1 U2 U3 U4]. split; auto.
      * intros w. rewrite (den_agree h h2 (length (h_lc h)) w WB) by auto. auto.
      * intros w. rewrite (dep_agree anyc h h2 (length (h_lc h)) WB) by auto. auto.
Qed.

Theorem step_refines : forall st ss ins, sim st ss ->
  exists r, conv (fun fuel => step fuel st ins) r /\ stepok r (sstep ss ins).
Proof.
  intros st ss ins S. pose proof S as [W V E].
  destruct ins.
  - (* INew *) exists (step 0 st (INew n s tag)). split; [exists 0%nat; intros; reflexivity|]. apply (new_rel st ss n s tag S).
  - (* IConst *) exists (step 0 st (IConst p)). split; [exists 0%nat; intros; reflexivity|].
    apply push_rel; auto. split; simpl; auto using hext_refl.
  - (* IBin *) exists (step 0 st (IBin op i j)). split; [exists 0%nat; intros; reflexivity|]. unfold step, sstep.
    pose proof (get_args_rel _ _ _ [i; j] E) as H.
    destruct (get_args (st_env st) [i; j]) as [l|], (sargs (ss_env ss) [i; j]) as [l'|];
      try tauto.
    + destruct H as [|a sa l l' Ha H]. { apply push_rel; auto. split; simpl; auto using hext_refl. }
      destruct H as [|b sb l l' Hb H]. { apply push_rel; auto. split; simpl; auto using hext_refl. }
      destruct H. 2:{ apply push_rel; auto. split; simpl; auto using hext_refl. }
      apply push_rel; auto. apply py_binop_rel; auto.
    + apply push_rel; auto. split; simpl; auto using hext_refl.
  - (* ICall *) exists (step 0 st (ICall f pos kwd args kw)). split; [exists 0%nat; intros; reflexivity|]. unfold step, sstep.
    pose proof (get_args_rel _ _ _ args E) as HA.
    pose proof (get_kwargs_rel _ _ _ kw E) as HK.
    destruct (get_args (st_env st) args), (sargs (ss_env ss) args); try tauto.
    + destruct (get_kwargs (st_env st) kw), (skwargs (ss_env ss) kw); try tauto.
      * apply push_rel; auto. apply wcall_rel; auto.
      * apply push_rel; auto. split; simpl; auto using hext_refl.
    + apply push_rel; auto. split; simpl; auto using hext_refl.
  - (* IModf *) exists (step 0 st (IModf i)). split; [exists 0%nat; intros; reflexivity|]. unfold step, sstep.
    destruct (nth_error (st_env st) i) eqn:Ei.
    + destruct (Forall2_nth_error _ _ _ _ _ E _ _ Ei) as (b & Eb & Hb). rewrite Eb.
      apply push_rel; auto. apply modf_rel; auto.
    + rewrite (Forall2_nth_error_None _ _ _ _ _ E _ Ei).
      apply push_rel; auto. split; simpl; auto using hext_refl.
  - (* ILdexp *) exists (step 0 st (ILdexp i e)). split; [exists 0%nat; intros; reflexivity|]. unfold step, sstep.
    destruct (nth_error (st_env st) i) eqn:Ei.
    + destruct (Forall2_nth_error _ _ _ _ _ E _ _ Ei) as (b & Eb & Hb). rewrite Eb.
      apply push_rel; auto. apply ldexp_rel; auto.
    + rewrite (Forall2_nth_error_None _ _ _ _ _ E _ Ei).
      apply push_rel; auto. split; simpl; auto using hext_refl.
  - (* IDeriv *) apply step_uf_rel; auto. intros u n gr ds var R. pose proof R as (U & _).
    destruct (derivatives_conv _ _ _ _ _ W U) as (d & h' & C & X & ND & K & D).
    eapply observe_conv; eauto. now apply restrict_out.
  - (* IStd *) apply step_uf_rel; auto. intros u n gr ds var R.
    destruct (std_conv _ _ _ _ _ _ _ W V R) as (h' & C & X).
    eapply observe_conv; eauto. reflexivity.
  - (* IStdS *) apply step_uf_rel; auto. intros u n gr ds var R. pose proof R as (U & _).
    destruct (std_affine_conv _ _ _ _ _ _ W V U) as (h' & C & X).
    eapply observe_conv; eauto. reflexivity.
  - (* IErrs *) apply step_uf_rel; auto. intros u n gr ds var R. pose proof R as (U & _).
    destruct (error_components_conv _ _ _ _ _ _ W V U) as (l & h' & C & X & ND & K & _).
    eapply observe_conv; eauto. simpl. auto.
  - (* ISet *) apply step_uf_rel; auto. intros u n gr ds var R.
    destruct R as (U & D & Ev & Hv). rewrite Ev. destruct var as [v|].
    + destruct (Hv v eq_refl) as (Lv & _). eexists. split; [apply conv_const|].
      apply set_rel; auto.
    + eexists. split; [apply conv_const|]. split; simpl; auto.
  - (* ICmp *) apply step_uf_rel; auto. intros u n gr ds var R. pose proof R as (U & _).
    unfold with_val, swith. destruct (nth_error (st_env st) j) eqn:Ej.
    + destruct (Forall2_nth_error _ _ _ _ _ E _ _ Ej) as (b & Eb & Hb). rewrite Eb.
      destruct (py_cmp_conv _ _ c _ _ _ _ _ _ W V U Hb) as (r & h' & C & X & O).
      destruct (scmp_val (ss_vars ss) c n gr b) as [| | | |t|e], r as [t'|e'];
        simpl in O; try tauto.
      * subst. eapply observe_conv; eauto. reflexivity.
      * subst. destruct st as [h env], ss as [vs senv].
        eexists. split. { eapply conv_map; [exact C|reflexivity]. }
        split; simpl; auto. eapply sim_hext; eauto.
    + rewrite (Forall2_nth_error_None _ _ _ _ _ E _ Ej).
      eexists. split; [apply conv_const|]. split; simpl; auto. destruct st; auto.
  - (* IBool *) apply step_uf_rel; auto. intros u n gr ds var R. pose proof R as (U & _).
    assert (Hb : vrel (g:=g) (lg:=lg) (st_heap st) (VNum (PF (N:=RN) 0)) (SPlain (PNum (PF (N:=RN) 0)))) by reflexivity.
    destruct (to_affine_num (st_heap st) (PF (N:=RN) 0) W) as (y & h1 & E1 & X1 & Y).
    assert (V1 : varsrel h1 (ss_vars ss)) by (unfold varsrel; now rewrite (he_var _ _ X1)).
    destruct (cmp_aff_conv h1 (ss_vars ss) Cne u y n gr ds 0 (fun _ => 0) [] (he_wf _ _ X1) V1)
        as (h2 & C & X2); auto. { eapply urel_hext; eauto. }
    eapply (observe_conv bool st ss OBool _ (scmp (ss_vars ss) Cne n 0 gr (fun _ => 0)) h2); auto.
    + unfold py_bool. eapply conv_bind.
      * unfold method_cmp. change (n_zero RN) with 0. rewrite E1.
        eapply (conv_map _ _ (fun r => match r with (Ok r, h2) => (Ok (Some r), h2)
                                               | (Err e, h2) => (Err e, h2) end));
          [exact C|reflexivity].
      * apply conv_const.
    + eapply hext_trans; eauto.
    + reflexivity.
  - (* IScore *) apply step_uf_rel; auto. intros u n gr ds var R. pose proof R as (U & _).
    destruct (std_conv _ _ _ _ _ _ _ W V R) as (h' & C & X).
    destruct (pn_sub_R p (PF (N:=RN) n)) as (d & Ed & Vd).
    assert (Q : forall s : num RN,
      match rbind (pn_sub p (PF (uf_nom u))) (fun d => rbind (pn_div d (PF (N:=RN) s)) pn_float)
      with Err EZeroDiv => Err EValue | r => r end =
      if Reqb s 0 then Err EValue else Ok (A:=num RN) ((pval p - n) / s)).
    { intros s. rewrite (ur_nom _ _ _ _ _ U). rewrite Ed. simpl.
      unfold pn_div. destruct d as [z|x]; simpl in Vd |- *; unfold Rdiv_py;
        destruct (Reqb s 0); simpl; auto; now rewrite Vd. }
    destruct (Reqb (sstd (ss_vars ss) gr) 0) eqn:Es.
    + destruct st as [h env], ss as [vs senv]. simpl in *.
      exists (mkState h' env, OExn EValue). split.
      * eapply (conv_map _ _ (observe (mkState h env) ONum)).
        -- eapply conv_bind; [exact C|]. simpl. rewrite Q, Es. apply conv_const.
        -- reflexivity.
      * split; simpl; auto. eapply sim_hext; eauto.
    + eapply (observe_conv _ st ss ONum _ ((pval p - n) / sstd (ss_vars ss) gr)); eauto.
      * eapply conv_bind; [exact C|]. simpl. rewrite Q, Es. apply conv_const.
      * reflexivity.
Qed.

Theorem run_refines : forall prog (st : state RN) (ss : sstate g lg), sim st ss ->
  exists r, conv (fun fuel => run fuel st prog) r /\
    sim (fst r) (fst (srun ss prog)) /\ Forall2 (out_ok (g:=g) (lg:=lg)) (snd r) (snd (srun ss prog)).
Proof.
  induction prog as [|ins prog IH]; intros st ss S.
  - exists (st, []). split; [exists 0%nat; intros; reflexivity|]. simpl. auto.
  - destruct (step_refines st ss ins S) as ([st1 o] & [k1 C1] & S1 & O1).
    simpl srun. destruct (sstep ss ins) as [ss1 so]. simpl in S1, O1.
    destruct (IH st1 ss1 S1) as ([st2 os] & [k2 C2] & S2 & O2).
    destruct (srun ss1 prog) as [ss2 sos]. simpl in S2, O2.
    exists (st2, o :: os). split; [|simpl; auto].
    exists (max k1 k2). intros fuel Hf. simpl. rewrite C1, C2 by lia. reflexivity.
Qed.

Lemma sim_init : sim (init (N:=RN)) (sinit (g:=g) (lg:=lg)).
Proof.
  split; simpl.
  - split; simpl; [lia|]. intros v o G. unfold get_var in G. destruct v; discriminate.
  - constructor.
  - constructor.
Qed.

Theorem histories_refine : forall prog : list (instr RN),
  exists r, conv (fun fuel => run fuel init prog) r /\
    sim (fst r) (fst (srun (g:=g) (lg:=lg) sinit prog)) /\ Forall2 (out_ok (g:=g) (lg:=lg)) (snd r) (snd (srun (g:=g) (lg:=lg) sinit prog)).
Proof. intros. apply run_refines. apply sim_init. Qed.

End RefineStep.
