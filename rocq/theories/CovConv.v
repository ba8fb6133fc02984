(** covariance_matrix() over exact numbers. *)
From Coq Require Import ZArith List Bool Reals Lra Lia Arith Permutation.
From Verif Require Import Base Heap Affine Ops UMath NumR HeapSpec HeapProofs DenProofs Machine Spec
  Refine RefineStep Cov.
Import ListNotations.

Lemma conv_bind_err : forall {N : NumOps} A B (m : nat -> M N A) (k : nat -> A -> M N B) h e h',
  conv (fun fuel => m fuel h) (Err e, h') ->
  conv (fun fuel => bind (m fuel) (k fuel) h) (Err e, h').
Proof.
  intros N A B m k h e h' [n H]. exists n. intros fuel Hf. unfold bind. now rewrite H by lia.
Qed.

Section CovConv.
Context {g lg : R -> R}.
Notation RN := (ROps g lg).
Local Open Scope R_scope.
Implicit Types h : heap RN.

Definition scov (vs : svars) (g1 g2 : varid -> R) : R :=
  Rsum (map (fun v => g1 v * g2 v * sigma vs v ^ 2) (seq 0 (length vs))).

Lemma Rsum_Permutation : forall l l', Permutation l l' -> Rsum l = Rsum l'.
Proof. induction 1; cbn; lra. Qed.

Lemma elem_conv : forall h a sa, wf anyc h -> vrel h a sa ->
  exists r h', conv (fun f => elem_derivatives f a h) (r, h') /\ hext h h' /\
    match sa with
    | SUF n gr ds _ => exists d, r = Ok d /\ NoDup (dkeys d) /\
        (forall v, In v (dkeys d) -> (v < length (h_var h))%nat) /\ (forall v, dval d v = gr v)
    | SPlain _ => r = Err EAttr
    end.
Proof.
  intros h [p|u] [q|n gr ds var] W Rl; try contradiction.
  - exists (Err EAttr), h. split; [exists 0%nat; reflexivity|]. split; auto using hext_refl.
  - destruct Rl as (U & _). destruct (derivatives_conv h u n gr ds W U) as (d & h' & C & X & ND & K & D).
    exists (Ok d), h'. split; [exact C|]. split; auto. exists d. repeat split; auto.
    intros v Hv. eapply (urel_bound h u n gr ds); eauto. now apply K.
Qed.

Lemma cov_sum_R : forall h vs d1 d2, varsrel h vs -> forall ks acc,
  (forall v, In v ks -> In v (dkeys d1) /\ In v (dkeys d2) /\ (v < length (h_var h))%nat) ->
  cov_sum (N:=RN) h d1 d2 ks acc =
  Ok (acc + Rsum (map (fun v => dval d1 v * dval d2 v * sigma vs v ^ 2) ks)).
Proof.
  intros h vs d1 d2 V. induction ks as [|v ks IH]; intros acc H.
  - cbn. f_equal. lra.
  - destruct (H v (or_introl eq_refl)) as (H1 & H2 & H3).
    apply dget_In_keys in H1 as [x1 E1]. apply dget_In_keys in H2 as [x2 E2].
    destruct (varsrel_get h vs v V H3) as (o & Go & Gs & _).
    cbn [cov_sum map Rsum]. rewrite E1, E2, Go. change (n_two RN) with 2. rewrite (Rsq_py (g:=g) (lg:=lg)). cbn [rbind].
    rewrite IH by (intros; apply H; cbn; auto). f_equal.
    unfold dval at 3 4. rewrite E1, E2, <- Gs. change (num RN) with R.
    cbn [n_add n_mul ROps]. ring.
Qed.

Lemma common_spec : forall order (d1 d2 : dict RN), (forall l, Permutation (order l) l) ->
  NoDup (dkeys d1) ->
  Permutation (common order d1 d2) (filter (fun v => existsb (Nat.eqb v) (dkeys d2)) (dkeys d1)).
Proof. intros. unfold common. apply H. Qed.

Lemma cov_entry : forall h vs order d1 d2, varsrel h vs -> (forall l, Permutation (order l) l) ->
  NoDup (dkeys d1) -> (forall v, In v (dkeys d1) -> (v < length (h_var h))%nat) ->
  cov_sum (N:=RN) h d1 d2 (common order d1 d2) (n_zero RN) =
  Ok (scov vs (fun v => dval d1 v) (fun v => dval d2 v)).
Proof.
  intros h vs order d1 d2 V P ND B. pose proof (common_spec order d1 d2 P ND) as C.
  rewrite (cov_sum_R h vs d1 d2 V).
  - f_equal. change (n_zero RN) with 0. rewrite Rplus_0_l.
    rewrite (Rsum_Permutation _ _ (Permutation_map _ C)). unfold scov.
    rewrite <- (varsrel_len _ _ V). apply Rsum_perm_seq.
    + apply NoDup_filter; auto.
    + intros v Hv. apply filter_In in Hv as [Hv _]. auto.
    + intros v _ Hn. unfold dval.
      destruct (dget d1 v) as [x1|] eqn:E1; [|ring].
      destruct (dget d2 v) as [x2|] eqn:E2; [|ring].
      exfalso. apply Hn. apply filter_In. split.
      * apply dget_In_keys. eauto.
      * apply existsb_exists. exists v. rewrite Nat.eqb_refl. split; auto. apply dget_In_keys. eauto.
  - intros v Hv. apply (Permutation_in _ C) in Hv. apply filter_In in Hv as [H1 H2].
    apply existsb_exists in H2 as (w & Hw & E). apply Nat.eqb_eq in E. subst w. auto.
Qed.

Lemma Forall2_hext : forall h h' l sl, hext h h' -> Forall2 (vrel (g:=g) (lg:=lg) h) l sl -> Forall2 (vrel h') l sl.
Proof. intros. eapply Forall2_impl'; [|eassumption]. intros; eapply vrel_hext; eauto. Qed.
Lemma varsrel_hext : forall h h' vs, hext h h' -> varsrel h vs -> varsrel h' vs.
Proof. intros h h' vs X V. unfold varsrel. now rewrite (he_var _ _ X). Qed.

Definition all_suf (sl : list (sval g lg)) : Prop := Forall (fun a => is_suf a = true) sl.

Lemma cov_row_conv : forall order d1 l sl h vs, wf anyc h -> varsrel h vs -> Forall2 (vrel h) l sl ->
  exists r h', conv (fun f => cov_row order f d1 l h) (r, h') /\ hext h h' /\
    ((forall l, Permutation (order l) l) -> NoDup (dkeys d1) ->
     (forall v, In v (dkeys d1) -> (v < length (h_var h))%nat) -> all_suf sl ->
     r = Ok (map (fun a => scov vs (fun v => dval d1 v) (sgrad a)) sl)).
Proof.
  intros order d1 l sl h vs W V F. revert h W V F. revert sl.
  induction l as [|a l IH]; intros sl h W V F; inversion F as [|? sa ? sl' Ha F']; subst.
  - exists (Ok []), h. split; [(exists 0%nat; intros; reflexivity)|]. split; auto using hext_refl.
  - destruct (elem_conv h a sa W Ha) as (r & h1 & C & X & E).
    destruct r as [d2|e].
    2:{ exists (Err e), h1. split; [cbn [cov_row]; eapply conv_bind_err; exact C|]. split; auto.
        intros _ _ _ As. inversion As; subst. destruct sa; [discriminate|]. destruct E as (d & E & _). discriminate. }
    destruct (cov_sum (N:=RN) h1 d1 d2 (common order d1 d2) (n_zero RN)) as [c|e] eqn:Es.
    + destruct (IH sl' h1) as (r & h2 & C2 & X2 & E2).
      { apply X. } { eapply varsrel_hext; eauto. } { eapply Forall2_hext; eauto. }
      exists (rbind r (fun t => Ok (c :: t))), h2. split; [|split; [eapply hext_trans; eauto|]].
      * cbn [cov_row]. eapply conv_bind; [exact C|]. cbn beta.
        eapply (conv_bind _ _ (fun _ h => (cov_sum h d1 d2 (common order d1 d2) (n_zero RN), h))).
        { cbn beta. rewrite Es. (exists 0%nat; intros; reflexivity). }
        destruct r as [t|e].
        -- eapply conv_bind; [exact C2|]. (exists 0%nat; intros; reflexivity).
        -- eapply conv_bind_err. exact C2.
      * intros P ND B As. inversion As as [|? ? Hs As']; subst.
        rewrite E2; auto. 2:{ intros v Hv. rewrite (he_var _ _ X). auto. }
        destruct sa as [|n gr ds var]; [discriminate|]. destruct E as (d & Ed & _ & _ & Dg).
        injection Ed; intros <-.
        rewrite (cov_entry h1 vs order d1 d2) in Es; auto.
        2:{ eapply varsrel_hext; eauto. } 2:{ intros v Hv. rewrite (he_var _ _ X). auto. }
        injection Es; intros <-. cbn [rbind map]. f_equal. f_equal. unfold scov. f_equal.
        apply map_ext. intros v. cbn [sgrad]. now rewrite Dg.
    + exists (Err e), h1. split; [|split; auto].
      * cbn [cov_row]. eapply conv_bind; [exact C|]. cbn beta.
        eapply (conv_bind_err _ _ (fun _ h => (cov_sum h d1 d2 (common order d1 d2) (n_zero RN), h))).
        cbn beta. rewrite Es. (exists 0%nat; intros; reflexivity).
      * intros P ND B As. rewrite (cov_entry h1 vs order d1 d2) in Es; auto; [discriminate| |].
        { eapply varsrel_hext; eauto. } { intros v Hv. rewrite (he_var _ _ X). auto. }
Qed.

(** Lower triangle of the matrix of covariances. *)
Fixpoint slower (vs : svars) (sl : list (sval g lg)) (i : nat) (rest : list (sval g lg)) : list (list R) :=
  match rest with
  | [] => []
  | a :: rest' => map (fun b => scov vs (sgrad a) (sgrad b)) (firstn (S i) sl) :: slower vs sl (S i) rest'
  end.

Lemma Forall2_firstn : forall A B (Q : A -> B -> Prop) n l l', Forall2 Q l l' ->
  Forall2 Q (firstn n l) (firstn n l').
Proof. induction n; intros l l' F; cbn; [constructor|]. destruct F; constructor; auto. Qed.
Lemma Forall_firstn : forall A (Q : A -> Prop) n l, Forall Q l -> Forall Q (firstn n l).
Proof. induction n; intros l F; cbn; [constructor|]. destruct F; constructor; auto. Qed.

Lemma cov_rows_conv : forall order rest srest l sl i h vs, wf anyc h -> varsrel h vs ->
  Forall2 (vrel h) l sl -> Forall2 (vrel h) rest srest ->
  exists r h', conv (fun f => cov_rows order f l i rest h) (r, h') /\ hext h h' /\
    ((forall l, Permutation (order l) l) -> all_suf sl -> all_suf srest -> r = Ok (slower vs sl i srest)).
Proof.
  intros order rest. induction rest as [|a rest IH]; intros srest l sl i h vs W V F Fr;
    inversion Fr as [|? sa ? sr Ha Fr']; subst.
  - exists (Ok []), h. split; [(exists 0%nat; intros; reflexivity)|]. split; auto using hext_refl.
  - destruct (elem_conv h a sa W Ha) as (r & h1 & C & X & E).
    destruct r as [d1|e].
    2:{ exists (Err e), h1. split; [cbn [cov_rows]; eapply conv_bind_err; exact C|]. split; auto.
        intros _ _ As. inversion As; subst. destruct sa; [discriminate|]. destruct E as (d & E & _). discriminate. }
    pose proof (varsrel_hext _ _ _ X V) as V1. pose proof (Forall2_hext _ _ _ _ X F) as F1.
    pose proof (Forall2_hext _ _ _ _ X Fr') as Fr1.
    destruct (cov_row_conv order d1 (firstn (S i) l) (firstn (S i) sl) h1 vs (he_wf _ _ X) V1
                (Forall2_firstn _ _ _ _ _ _ F1)) as (r & h2 & C2 & X2 & E2).
    destruct r as [row|e].
    2:{ exists (Err e), h2. split; [cbn [cov_rows]; eapply conv_bind; [exact C|]; eapply conv_bind_err; exact C2|].
        split; [eapply hext_trans; eauto|]. intros P As Ar. inversion Ar; subst.
        destruct sa as [|n gr ds var]; [discriminate|]. destruct E as (d & Ed & ND & B & _). injection Ed; intros <-.
        exfalso. assert (Q : @Err (list R) e = Ok (map (fun a => scov vs (fun v => dval d1 v) (sgrad a)) (firstn (S i) sl))); [|discriminate].
        apply E2; auto. 2:{ apply Forall_firstn. exact As. } intros v Hv. rewrite (he_var _ _ X). auto. }
    destruct (IH sr l sl (S i) h2 vs (he_wf _ _ X2) (varsrel_hext _ _ _ X2 V1)
                (Forall2_hext _ _ _ _ X2 F1) (Forall2_hext _ _ _ _ X2 Fr1)) as (r & h3 & C3 & X3 & E3).
    exists (rbind r (fun t => Ok (row :: t))), h3. split; [|split].
    + cbn [cov_rows]. eapply conv_bind; [exact C|]. eapply conv_bind; [exact C2|].
      destruct r as [t|e]; [eapply conv_bind; [exact C3|(exists 0%nat; intros; reflexivity)]|eapply conv_bind_err; exact C3].
    + eapply hext_trans; [|exact X3]. eapply hext_trans; eauto.
    + intros P As Ar. inversion Ar; subst. rewrite E3 by auto.
      destruct sa as [|n gr ds var]; [discriminate|]. destruct E as (d & Ed & ND & B & Dg). injection Ed; intros <-.
      assert (E4 : Ok row = Ok (map (fun a => scov vs (fun v => dval d1 v) (sgrad a)) (firstn (S i) sl))).
      { apply E2; auto. 2:{ apply Forall_firstn. exact As. } intros v Hv. rewrite (he_var _ _ X). auto. }
      injection E4; intros ->. cbn [rbind slower]. f_equal. f_equal. apply map_ext. intros b. unfold scov. f_equal.
      apply map_ext. intros v. cbn [sgrad]. now rewrite Dg.
Qed.

Lemma cov_conv : forall order l sl h vs, wf anyc h -> varsrel h vs -> Forall2 (vrel h) l sl ->
  exists r h', conv (fun f => covariance_matrix order f l h) (r, h') /\ hext h h' /\
    ((forall l, Permutation (order l) l) -> all_suf sl -> r = Ok (symmetrize (N:=RN) (slower vs sl 0 sl))).
Proof.
  intros order l sl h vs W V F.
  destruct (cov_rows_conv order l sl l sl 0 h vs W V F F) as (r & h' & C & X & E).
  exists (rbind r (fun m => Ok (symmetrize m))), h'. split; [|split; auto].
  - unfold covariance_matrix. destruct r as [m|e].
    + eapply conv_bind; [exact C|(exists 0%nat; intros; reflexivity)].
    + eapply conv_bind_err; exact C.
  - intros P As. rewrite E by auto. reflexivity.
Qed.
Lemma corr_conv : forall order l sl h vs, wf anyc h -> varsrel h vs -> Forall2 (vrel h) l sl ->
  exists r r' h', conv (fun f => covariance_matrix order f l h) (r, h') /\
    conv (fun f => correlation_matrix order f l h) (r', h') /\ hext h h' /\
    r' = rbind r (fun m => rbind (rmapM np_sqrt (diagonal m)) (fun s => normalize m s)).
Proof.
  intros order l sl h vs W V F. destruct (cov_conv order l sl h vs W V F) as (r & h' & C & X & _).
  eexists r, _, h'. split; [exact C|]. split; [|split; [auto|reflexivity]].
  unfold correlation_matrix. destruct r as [m|e].
  - eapply conv_bind; [exact C|]. (exists 0%nat; intros; reflexivity).
  - eapply conv_bind_err; exact C.
Qed.
End CovConv.
