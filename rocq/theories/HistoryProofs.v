(** Proofs about histories over exact numbers, from the refinement of the specification. *)
From Coq Require Import ZArith List Bool Reals Lra Lia.
From Coquelicot Require Import Coquelicot.
From Flocq Require Import Core.
From Verif Require Import Base Heap Affine Ops UMath NumR HeapSpec HeapProofs DenProofs Machine Spec
  Refine RefineStep Calls CallProofs Cov CovConv Plain Regular DiffProofs ADProofs ADRun Unumpy History InvConv UMxConv.
Import ListNotations.
Local Open Scope R_scope.

Section HistoryProofs.
Context {g lg : R -> R}.
Notation RN := (ROps g lg).
Notation state := (state RN).
Notation sstate := (sstate g lg).
Notation out := (out RN).
Implicit Types (st : state) (ss : sstate) (ins : instr RN) (o : out).

Lemma conv_unique : forall A (m : nat -> A) r r', conv m r -> conv m r' -> r = r'.
Proof.
  intros A m r r' [k H] [k' H']. rewrite <- (H (max k k')) by lia. apply H'. lia.
Qed.
Lemma does_conv : forall st ins st' o, does st ins st' o <-> conv (fun f => step f st ins) (st', o).
Proof. intros. reflexivity. Qed.

(** ** Reachable states simulate a state of the specification *)
Lemma runs_sim : forall st ss prog st' os, sim st ss -> runs st prog st' os ->
  sim st' (fst (srun ss prog)) /\ Forall2 (out_ok (g:=g) (lg:=lg)) os (snd (srun ss prog)).
Proof.
  intros st ss prog st' os S H. destruct (run_refines prog st ss S) as (r & C & S' & O).
  assert (r = (st', os)) by (eapply conv_unique; [exact C|exact H]). subst. auto.
Qed.
Lemma does_sim : forall st ss ins st' o, sim st ss -> does st ins st' o ->
  sim st' (fst (sstep ss ins)) /\ out_ok o (snd (sstep ss ins)).
Proof.
  intros st ss ins st' o S H. destruct (step_refines st ss ins S) as (r & C & S' & O).
  assert (r = (st', o)) by (eapply conv_unique; [exact C|exact H]). subst. auto.
Qed.
Lemma cov_sim : forall order st ss is r st', sim st ss -> covariance order st is r st' -> sim st' ss.
Proof.
  intros order [h env] [vs senv] is r [h' env'] S (l & k & Ga & Ee & H). cbn in *. subst env'.
  pose proof S as [W V E]. cbn in W, V, E. pose proof (get_args_rel h env senv is E) as A. rewrite Ga in A.
  destruct (sargs senv is) as [sl|]; [|contradiction].
  destruct (cov_conv order l sl h vs W V A) as (r1 & h1 & C & X & _).
  assert ((r1, h1) = (r, h')) by (eapply conv_unique; [exact C|]; exists k; exact H).
  injection H0; intros -> ->. eapply sim_hext; eauto.
Qed.
Lemma corr_sim : forall order st ss is r st', sim st ss -> correlation order st is r st' -> sim st' ss.
Proof.
  intros order [h env] [vs senv] is r [h' env'] S (l & k & Ga & Ee & H). cbn in *. subst env'.
  pose proof S as [W V E]. cbn in W, V, E. pose proof (get_args_rel h env senv is E) as A. rewrite Ga in A.
  destruct (sargs senv is) as [sl|]; [|contradiction].
  destruct (corr_conv order l sl h vs W V A) as (r0 & r1 & h1 & _ & C & X & _).
  assert ((r1, h1) = (r, h')) by (eapply conv_unique; [exact C|]; exists k; exact H).
  injection H0; intros -> ->. eapply sim_hext; eauto.
Qed.
Lemma reach_sim : forall st, reachable st -> exists ss, sim st ss.
Proof.
  induction 1 as [|st prog st' os _ [ss S] D|st c _ [ss S] Hc|order st is r st' _ [ss S] Hc|order st is r st' _ [ss S] Hc|order fw st ia r st' _ [ss S] P Hc Hd|order f st ia r st' _ [ss S] P Hc Hd|op st ia ja r st' _ [ss S] Hc|st ia ja r st' _ [ss S] Hc].
  - eexists. apply sim_init.
  - eexists. eapply runs_sim; eauto.
  - destruct (call_sim st ss c S Hc) as (ss' & S' & _). eauto.
  - exists ss. eapply cov_sim; eauto.
  - exists ss. eapply corr_sim; eauto.
  - destruct (array_sim _ _ st ss ia r st' S (uncert_conv order fw P) Hc Hd) as (ne & S' & _). eauto.
  - destruct (array_sim _ _ st ss ia r st' S (wrapped_conv order f P) Hc Hd) as (ne & S' & _). eauto.
  - destruct (operator_sim _ _ _ _ _ _ _ S Hc) as (ne & S' & _). eauto.
  - destruct (product_sim _ _ _ _ _ _ S Hc) as (ne & S' & _). eauto.
Qed.
Lemma does_total : forall st ss ins, sim st ss -> exists st' o, does st ins st' o.
Proof.
  intros st ss ins S. destruct (step_refines st ss ins S) as ((st', o) & C & _). exists st', o.
  exact C.
Qed.
Lemma reads_sim : forall st ss ins o, sim st ss -> reads st ins o -> out_ok o (snd (sstep ss ins)).
Proof. intros st ss ins o S (st' & H). eapply does_sim; eauto. Qed.
Lemma reads_total : forall st ss ins, sim st ss -> exists o, reads st ins o.
Proof. intros st ss ins S. destruct (does_total st ss ins S) as (st' & o & H). exists o, st'. auto. Qed.
Lemma reads_unique : forall st ins o o', reads st ins o -> reads st ins o' -> o = o'.
Proof.
  intros st ins o o' (s1 & H1) (s2 & H2).
  assert ((s1, o) = (s2, o')) by (eapply conv_unique; [exact H1|exact H2]). congruence.
Qed.
Theorem runs_total : forall prog, exists st os, runs (init (N:=RN)) prog st os.
Proof.
  intros prog. destruct (histories_refine (g:=g) (lg:=lg) prog) as ((st, os) & C & _).
  exists st, os. exact C.
Qed.

Lemma run_app : forall fuel p q st, run (N:=RN) fuel st (p ++ q) =
  let (s1, o1) := run fuel st p in let (s2, o2) := run fuel s1 q in (s2, o1 ++ o2).
Proof.
  induction p as [|i p IH]; intros q st; simpl.
  - destruct (run fuel st q); reflexivity.
  - destruct (step fuel st i) as [s1 o]. rewrite IH. destruct (run fuel s1 p) as [s2 os].
    destruct (run fuel s2 q). reflexivity.
Qed.
Lemma runs_app : forall st p st1 l1 q st2 l2, runs st p st1 l1 -> runs st1 q st2 l2 ->
  runs (N:=RN) st (p ++ q) st2 (l1 ++ l2).
Proof.
  intros st p st1 l1 q st2 l2 [k H] [k' H']. exists (max k k'). intros fuel Hf.
  rewrite run_app, H by lia. rewrite H' by lia. reflexivity.
Qed.
Lemma does_runs : forall st ins st' o, does st ins st' o -> runs st [ins] st' [o].
Proof. intros st ins st' o [k H]. exists k. intros. simpl. now rewrite H. Qed.
Theorem reachable_step : forall st ins st' o, reachable st -> does st ins st' o -> reachable st'.
Proof. intros. eapply reach_runs; eauto using does_runs. Qed.
Lemma runs_reachable : forall prog st os, runs (init (N:=RN)) prog st os -> reachable st.
Proof. intros. eapply reach_runs; eauto using reach_init. Qed.

(** ** Entries *)
Record num_rel st ss (i : nat) (u : uf RN) (n : R) (gr : varid -> R) (ds : list varid)
  (var : option varid) : Prop := {
  nr_env : nth_error (ss_env ss) i = Some (SUF n gr ds var);
  nr_nom : uf_nom u = n;
  nr_var : uf_var u = var;
  nr_out : forall v, ~ In v ds -> gr v = 0;
  nr_bound : forall v, In v ds -> (v < length (ss_vars ss))%nat;
  nr_isvar : forall v, var = Some v -> (v < length (ss_vars ss))%nat /\ ds = [v] /\
                                       forall w, gr w = delta v w
}.
Lemma number_rel : forall st ss i u, sim st ss -> is_number st i u ->
  exists n gr ds var, num_rel st ss i u n gr ds var.
Proof.
  intros st ss i u [W V E] H. unfold is_number in H.
  destruct (Forall2_nth_error _ _ _ _ _ E _ _ H) as (sa & Es & Rl).
  destruct sa as [p|n gr ds var]; simpl in Rl; [contradiction|].
  destruct Rl as (U & Nd & Ev & Hv). exists n, gr, ds, var. pose proof U as [U1 U2 U3 U4].
  pose proof (varsrel_len _ _ V) as L.
  constructor; auto.
  - intros v Hn. rewrite <- U3. apply den_not_dep; auto. rewrite U4. exact Hn.
  - intros v Hin. rewrite <- L. eapply (urel_bound _ u n gr ds); eauto.
  - intros v Ev'. destruct (Hv v Ev') as (A & B & C). rewrite <- L. auto.
Qed.
Lemma sd_sigma : forall st ss v, sim st ss -> sd st v = sigma (ss_vars ss) v.
Proof.
  intros st ss v [W V E]. unfold sd, sigma, get_var. unfold varsrel in V.
  destruct (nth_error (h_var (st_heap st)) v) as [o|] eqn:H.
  - destruct (Forall2_nth_error _ _ _ _ _ V _ _ H) as (s & Es & Hs & _).
    rewrite (nth_error_nth _ _ _ Es). auto.
  - pose proof (Forall2_nth_error_None _ _ _ _ _ V _ H) as H'.
    apply nth_error_None in H'. now rewrite nth_overflow.
Qed.
Lemma sigma_nonneg : forall st ss v, sim st ss -> 0 <= sigma (ss_vars ss) v.
Proof.
  intros st ss v [W V E]. unfold sigma. unfold varsrel in V.
  clear W E. revert v. induction V as [|o s l l' [A B] V IH]; intros [|v]; simpl; try lra; auto.
Qed.

(** ** Reading derivatives *)
Lemma deriv_read : forall st ss i u n gr ds var o, sim st ss -> num_rel st ss i u n gr ds var ->
  reads st (IDeriv i) o ->
  exists d, o = ODict d /\ NoDup (dkeys d) /\ (forall v, In v (dkeys d) <-> In v ds) /\
            (forall v, dval d v = gr v).
Proof.
  intros st ss i u n gr ds var o S NR H. pose proof (reads_sim _ _ _ _ S H) as O.
  simpl in O. unfold swith_uf, swith in O. rewrite (nr_env _ _ _ _ _ _ _ _ NR) in O. simpl in O.
  destruct o; try contradiction. destruct O as [ND G].
  assert (G' : forall v, dget d v = if existsb (Nat.eqb v) ds then Some (gr v) else None) by exact G.
  exists d. split; auto. split; auto. split.
  - intros v. rewrite dget_In_keys, G'.
    destruct (existsb (Nat.eqb v) ds) eqn:X.
    + apply existsb_exists in X. destruct X as (w & Hw & E). apply Nat.eqb_eq in E. subst.
      split; eauto.
    + split.
      * intros (x & Hx). discriminate.
      * intros Hin. assert (existsb (Nat.eqb v) ds = true); [|congruence].
        apply existsb_exists. exists v. rewrite Nat.eqb_refl. auto.
  - intros v. unfold dval. rewrite G'. destruct (existsb (Nat.eqb v) ds) eqn:X; auto.
    symmetry. apply (nr_out _ _ _ _ _ _ _ _ NR). intros Hin.
    assert (existsb (Nat.eqb v) ds = true); [|congruence].
    apply existsb_exists. exists v. rewrite Nat.eqb_refl. auto.
Qed.
Lemma errs_read : forall st ss i u n gr ds var o, sim st ss -> num_rel st ss i u n gr ds var ->
  reads st (IErrs i) o ->
  exists d, o = OErrs d /\ NoDup (dkeys d) /\ (forall v, In v (dkeys d) <-> In v ds) /\
            (forall v, option_map pval (dget d v) =
                       restrict ds (fun v => Rabs (gr v * sd st v)) v).
Proof.
  intros st ss i u n gr ds var o S NR H. pose proof (reads_sim _ _ _ _ S H) as O.
  simpl in O. unfold swith_uf, swith in O. rewrite (nr_env _ _ _ _ _ _ _ _ NR) in O. simpl in O.
  destruct o; try contradiction. destruct O as [ND G].
  exists l. split; auto. split; auto. split.
  - intros v. rewrite dget_In_keys. specialize (G v). unfold restrict in G.
    destruct (dget l v) as [c|] eqn:Ed; simpl in G;
      destruct (existsb (Nat.eqb v) ds) eqn:X; try discriminate.
    + apply existsb_exists in X. destruct X as (w & Hw & E). apply Nat.eqb_eq in E. subst.
      split; eauto.
    + split.
      * intros (x & Hx). discriminate.
      * intros Hin. assert (existsb (Nat.eqb v) ds = true); [|congruence].
        apply existsb_exists. exists v. rewrite Nat.eqb_refl. auto.
  - intros v. rewrite G. unfold restrict. rewrite (sd_sigma st ss) by auto. reflexivity.
Qed.

Lemma std_read : forall st ss i u n gr ds var o ins, sim st ss -> num_rel st ss i u n gr ds var ->
  (ins = IStd i \/ ins = IStdS i) -> reads st ins o -> o = ONum (N:=RN) (sstd (ss_vars ss) gr).
Proof.
  intros st ss i u n gr ds var o ins S NR K H. pose proof (reads_sim _ _ _ _ S H) as O.
  destruct K; subst ins; simpl in O; unfold swith_uf, swith in O;
    rewrite (nr_env _ _ _ _ _ _ _ _ NR) in O; simpl in O;
    destruct o; try contradiction; congruence.
Qed.

Lemma prop_std_sstd : forall st ss (d : dict RN) gr ds, sim st ss ->
  NoDup (dkeys d) -> (forall v, In v (dkeys d) <-> In v ds) -> (forall v, dval d v = gr v) ->
  (forall v, In v ds -> (v < length (ss_vars ss))%nat) ->
  prop_std st d = sstd (ss_vars ss) gr.
Proof.
  intros st ss d gr ds S ND K V B. unfold prop_std, sstd, svariance. f_equal.
  rewrite <- (Rsum_perm_seq (fun v => (gr v * sigma (ss_vars ss) v) ^ 2) (dkeys d)); auto.
  - unfold dkeys. rewrite map_map. f_equal. apply map_ext_in. intros [v c] Hin. simpl.
    rewrite (sd_sigma st ss v S), <- V. unfold dval.
    now rewrite (In_dget d v c ND Hin).
  - intros v Hv. apply B. now apply K.
  - intros v Hv Hn. rewrite <- V. unfold dval. rewrite (proj2 (dget_None d v) Hn). ring.
Qed.

(** C03 *)
Theorem std_dev_formula : forall st i u d, reachable st -> is_number st i u ->
  reads st (IDeriv i) (ODict d) -> reads st (IStd i) (ONum (N:=RN) (prop_std st d)).
Proof.
  intros st i u d Rc U D. destruct (reach_sim st Rc) as (ss & S).
  destruct (number_rel st ss i u S U) as (n & gr & ds & var & NR).
  destruct (deriv_read _ _ _ _ _ _ _ _ _ S NR D) as (d' & E & ND & K & V).
  injection E; intros; subst d'.
  destruct (reads_total st ss (IStd i) S) as (o & Ho).
  pose proof (std_read _ _ _ _ _ _ _ _ o (IStd i) S NR (or_introl eq_refl) Ho) as ->.
  rewrite (prop_std_sstd st ss d gr ds); auto. apply NR.
Qed.

(** C16 *)
Theorem s_is_std_dev : forall st i u x, reachable st -> is_number st i u ->
  reads st (IStd i) (ONum x) <-> reads st (IStdS i) (ONum x).
Proof.
  intros st i u x Rc U. destruct (reach_sim st Rc) as (ss & S).
  destruct (number_rel st ss i u S U) as (n & gr & ds & var & NR).
  destruct (reads_total st ss (IStd i) S) as (o & Ho).
  destruct (reads_total st ss (IStdS i) S) as (o' & Ho').
  pose proof (std_read _ _ _ _ _ _ _ _ o (IStd i) S NR (or_introl eq_refl) Ho) as E1.
  pose proof (std_read _ _ _ _ _ _ _ _ o' (IStdS i) S NR (or_intror eq_refl) Ho') as E2.
  subst o o'. split; intros H.
  - now rewrite (reads_unique _ _ _ _ H Ho).
  - now rewrite (reads_unique _ _ _ _ H Ho').
Qed.

(** C05 *)
Theorem reads_succeed : forall st i u, reachable st -> is_number st i u ->
  (exists d, reads st (IDeriv i) (ODict d) /\ NoDup (dkeys d)) /\
  (exists x, reads st (IStd i) (ONum x)) /\ (exists x, reads st (IStdS i) (ONum x)) /\
  (exists l, reads st (IErrs i) (OErrs l)) /\ (exists b, reads st (IBool i) (OBool b)) /\
  (forall c j b, nth_error (st_env st) j = Some b ->
     (is_uf b = true \/ exists p, b = VNum p) -> exists t, reads st (ICmp c i j) (OBool t)).
Proof.
  intros st i u Rc U. destruct (reach_sim st Rc) as (ss & S).
  destruct (number_rel st ss i u S U) as (n & gr & ds & var & NR).
  destruct (reads_total st ss (IDeriv i) S) as (o1 & H1).
  destruct (reads_total st ss (IStd i) S) as (o2 & H2).
  destruct (reads_total st ss (IStdS i) S) as (o3 & H3).
  destruct (reads_total st ss (IErrs i) S) as (o4 & H4).
  destruct (reads_total st ss (IBool i) S) as (o5 & H5).
  destruct (deriv_read _ _ _ _ _ _ _ _ _ S NR H1) as (d & -> & ND & K & V).
  pose proof (std_read _ _ _ _ _ _ _ _ o2 (IStd i) S NR (or_introl eq_refl) H2) as ->.
  pose proof (std_read _ _ _ _ _ _ _ _ o3 (IStdS i) S NR (or_intror eq_refl) H3) as ->.
  destruct (errs_read _ _ _ _ _ _ _ _ _ S NR H4) as (l & -> & _).
  pose proof (reads_sim _ _ _ _ S H5) as O5. simpl in O5. unfold swith_uf, swith in O5.
  rewrite (nr_env _ _ _ _ _ _ _ _ NR) in O5. simpl in O5.
  destruct o5 as [| | | |b5|]; try contradiction.
  repeat (split; [solve [eauto]|]).
  intros c j b Hj Hb. destruct (reads_total st ss (ICmp c i j) S) as (o6 & H6).
  pose proof (reads_sim _ _ _ _ S H6) as O6. simpl in O6. unfold swith_uf, swith in O6.
  rewrite (nr_env _ _ _ _ _ _ _ _ NR) in O6.
  destruct (Forall2_nth_error _ _ _ _ _ (si_env _ _ S) _ _ Hj) as (sb & Es & Rl).
  rewrite Es in O6. destruct Hb as [Hb|[p ->]].
  - destruct b as [|w]; [discriminate|]. destruct sb; simpl in Rl; [contradiction|].
    simpl in O6. destruct o6; try contradiction. eauto.
  - destruct sb as [q|]; simpl in Rl; [|contradiction]. subst q.
    simpl in O6. destruct o6; try contradiction. eauto.
Qed.

(** C15 *)
Theorem error_components_spec : forall st i u d, reachable st -> is_number st i u ->
  reads st (IDeriv i) (ODict d) ->
  exists l, reads st (IErrs i) (OErrs l) /\ NoDup (dkeys l) /\
    (forall v, In v (dkeys l) <-> In v (dkeys d)) /\
    (forall v c, dget l v = Some c -> pval c = Rabs (dval d v * sd st v)) /\
    (forall x, reads st (IStd i) (ONum x) -> x ^ 2 = Rsum (map (fun p => pval (snd p) ^ 2) l)).
Proof.
  intros st i u d Rc U D. pose proof (std_dev_formula st i u d Rc U D) as SD.
  destruct (reach_sim st Rc) as (ss & S).
  destruct (number_rel st ss i u S U) as (n & gr & ds & var & NR).
  destruct (deriv_read _ _ _ _ _ _ _ _ _ S NR D) as (d' & E & ND & K & V).
  injection E; intros; subst d'. clear E.
  destruct (reads_total st ss (IErrs i) S) as (o4 & H4).
  destruct (errs_read _ _ _ _ _ _ _ _ _ S NR H4) as (l & -> & NDl & Kl & Vl).
  assert (Vl' : forall v c, dget l v = Some c -> pval c = Rabs (dval d v * sd st v)).
  { intros v c Hc. specialize (Vl v). rewrite Hc in Vl. simpl in Vl. unfold restrict in Vl.
    destruct (existsb (Nat.eqb v) ds); [|discriminate]. injection Vl; intros ->. now rewrite V. }
  exists l. split; auto. split; auto. split; [|split; auto].
  - intros v. rewrite K, Kl. tauto.
  - intros x Hx. pose proof (reads_unique _ _ _ _ Hx SD) as E. injection E; intros ->.
    rewrite (prop_std_sstd st ss d gr ds); auto; [|apply NR].
    unfold sstd. rewrite <- Rsqr_pow2, Rsqr_sqrt by apply svariance_nonneg.
    unfold svariance.
    rewrite <- (Rsum_perm_seq (fun v => (gr v * sigma (ss_vars ss) v) ^ 2) (dkeys l)); auto.
    + unfold dkeys. rewrite map_map. f_equal. apply map_ext_in. intros [v c] Hin. simpl fst. simpl snd.
      rewrite (Vl' v c (In_dget l v c NDl Hin)), pow2_abs, V, (sd_sigma st ss v S). reflexivity.
    + intros v Hv. apply (nr_bound _ _ _ _ _ _ _ _ NR). now apply Kl.
    + intros v Hv Hn. rewrite (nr_out _ _ _ _ _ _ _ _ NR). { ring. } now rewrite <- Kl.
Qed.

(** C53 *)
Theorem std_score_spec : forall st i u x p, reachable st -> is_number st i u ->
  reads st (IStd i) (ONum x) ->
  reads st (IScore i p) (if Req_EM_T x 0 then OExn EValue else ONum (N:=RN) ((pval p - uf_nom u) / x)).
Proof.
  intros st i u x p Rc U H. destruct (reach_sim st Rc) as (ss & S).
  destruct (number_rel st ss i u S U) as (n & gr & ds & var & NR).
  pose proof (std_read _ _ _ _ _ _ _ _ _ (IStd i) S NR (or_introl eq_refl) H) as E.
  injection E; intros ->.
  destruct (reads_total st ss (IScore i p) S) as (o & Ho).
  pose proof (reads_sim _ _ _ _ S Ho) as O. simpl in O. unfold swith_uf, swith in O.
  rewrite (nr_env _ _ _ _ _ _ _ _ NR) in O. cbn in O.
  rewrite (nr_nom _ _ _ _ _ _ _ _ NR). unfold Reqb in O.
  destruct (Req_EM_T (sstd (ss_vars ss) gr) 0); simpl in O; destruct o; try contradiction.
  - rewrite O in Ho; exact Ho.
  - rewrite O in Ho. exact Ho.
Qed.

(** ** Comparisons *)
Lemma cmp_read : forall st ss i u n gr ds var j u' n' gr' ds' var' c o, sim st ss ->
  num_rel st ss i u n gr ds var -> num_rel st ss j u' n' gr' ds' var' ->
  reads st (ICmp c i j) o -> o = OBool (scmp (ss_vars ss) c n n' gr gr').
Proof.
  intros st ss i u n gr ds var j u' n' gr' ds' var' c o S NR NR' H.
  pose proof (reads_sim _ _ _ _ S H) as O. simpl in O. unfold swith_uf, swith in O.
  rewrite (nr_env _ _ _ _ _ _ _ _ NR), (nr_env _ _ _ _ _ _ _ _ NR') in O. simpl in O.
  destruct o; try contradiction; simpl in O; rewrite O; reflexivity.
Qed.
Lemma cmp_does : forall st ss i u n gr ds var j u' n' gr' ds' var' c, sim st ss ->
  num_rel st ss i u n gr ds var -> num_rel st ss j u' n' gr' ds' var' ->
  reads st (ICmp c i j) (OBool (scmp (ss_vars ss) c n n' gr gr')).
Proof.
  intros. destruct (reads_total st ss (ICmp c i j) H) as (o & Ho).
  pose proof (cmp_read _ _ _ _ _ _ _ _ _ _ _ _ _ _ _ _ H H0 H1 Ho) as E. now subst.
Qed.
Lemma seq_uf_iff : forall vs n1 n2 (g1 g2 : varid -> R), seq_uf vs n1 n2 g1 g2 = true <->
  n1 = n2 /\ forall v, (g1 v - g2 v) * sigma vs v = 0.
Proof.
  intros. unfold seq_uf. rewrite andb_true_iff, Reqb_true, forallb_forall. split.
  - intros [A B]. split; auto. intros v. destruct (Nat.lt_ge_cases v (length vs)) as [L|L].
    + apply Reqb_true. apply B. apply in_seq. lia.
    + unfold sigma. rewrite nth_overflow by auto. ring.
  - intros [A B]. split; auto. intros v _. apply Reqb_true. apply B.
Qed.

(** C10: equality. *)
Theorem eq_spec : forall st i u j u' d d' b, reachable st -> is_number st i u -> is_number st j u' ->
  reads st (IDeriv i) (ODict d) -> reads st (IDeriv j) (ODict d') ->
  reads st (ICmp Ceq i j) (OBool b) ->
  (b = true <-> uf_nom u = uf_nom u' /\ forall v, (dval d v - dval d' v) * sd st v = 0).
Proof.
  intros st i u j u' d d' b Rc U U' D D' B. destruct (reach_sim st Rc) as (ss & S).
  destruct (number_rel st ss i u S U) as (n & gr & ds & var & NR).
  destruct (number_rel st ss j u' S U') as (n' & gr' & ds' & var' & NR').
  destruct (deriv_read _ _ _ _ _ _ _ _ _ S NR D) as (x & E & ND & K & V).
  injection E; intros; subst x. clear E.
  destruct (deriv_read _ _ _ _ _ _ _ _ _ S NR' D') as (x & E & ND' & K' & V').
  injection E; intros; subst x. clear E.
  pose proof (cmp_read _ _ _ _ _ _ _ _ _ _ _ _ _ _ _ _ S NR NR' B) as E.
  injection E; intros ->. clear E. simpl scmp.
  rewrite (nr_nom _ _ _ _ _ _ _ _ NR), (nr_nom _ _ _ _ _ _ _ _ NR'), seq_uf_iff.
  split; intros [A C]; split; auto; intros v; specialize (C v).
  - now rewrite V, V', (sd_sigma st ss v S).
  - now rewrite V, V', (sd_sigma st ss v S) in C.
Qed.

(** x - y as a new result: zero nominal value and zero standard deviation iff x == y. *)
Theorem eq_difference : forall st i u j u' st' w, reachable st -> is_number st i u ->
  is_number st j u' -> does st (IBin Bsub i j) st' ONone ->
  is_number st' (length (st_env st)) w ->
  (reads st (ICmp Ceq i j) (OBool true) <->
   uf_nom w = 0 /\ reads st' (IStd (length (st_env st))) (ONum (N:=RN) 0)).
Proof.
  intros st i u j u' st' w Rc U U' D W. destruct (reach_sim st Rc) as (ss & S).
  destruct (number_rel st ss i u S U) as (n & gr & ds & var & NR).
  destruct (number_rel st ss j u' S U') as (n' & gr' & ds' & var' & NR').
  destruct (does_sim _ _ _ _ _ S D) as [S' _].
  assert (L : length (st_env st) = length (ss_env ss)).
  { destruct S as [_ _ E]. clear - E. induction E; simpl; auto. }
  destruct (number_rel st' _ _ w S' W) as (n3 & gr3 & ds3 & var3 & NR3).
  pose proof (nr_env _ _ _ _ _ _ _ _ NR3) as E3. rewrite L in E3.
  simpl sstep in E3. rewrite (nr_env _ _ _ _ _ _ _ _ NR), (nr_env _ _ _ _ _ _ _ _ NR') in E3.
  unfold sbin, scall in E3. cbn in E3.
  rewrite nth_error_app2, Nat.sub_diag in E3 by lia. cbn in E3.
  injection E3; intros Ev Ed Eg En. subst n3 gr3.
  pose proof (cmp_does _ _ _ _ _ _ _ _ _ _ _ _ _ _ Ceq S NR NR') as C.
  assert (EQ : reads st (ICmp Ceq i j) (OBool true) <-> seq_uf (ss_vars ss) n n' gr gr' = true).
  { split; intros H. { pose proof (reads_unique _ _ _ _ H C) as X. injection X. auto. }
    simpl in C. now rewrite H in C. }
  rewrite EQ, seq_uf_iff.
  assert (VS : ss_vars (fst (sstep ss (IBin Bsub i j))) = ss_vars ss).
  { simpl. rewrite (nr_env _ _ _ _ _ _ _ _ NR), (nr_env _ _ _ _ _ _ _ _ NR').
    destruct (sbin _ _ _); reflexivity. }
  destruct (reads_total st' _ (IStd (length (st_env st))) S') as (o & Ho).
  pose proof (std_read _ _ _ _ _ _ _ _ o _ S' NR3 (or_introl eq_refl) Ho) as ->.
  rewrite VS in *. rewrite (nr_nom _ _ _ _ _ _ _ _ NR3).
  match type of Ho with reads _ _ (ONum (sstd _ ?G)) => set (G3 := G) in * end.
  assert (HG : forall v, G3 v = gr v - gr' v) by (intros v; unfold G3, lin_grad; simpl; ring).
  assert (Z : reads st' (IStd (length (st_env st))) (ONum (N:=RN) 0) <-> sstd (ss_vars ss) G3 = 0).
  { split; intros H. { pose proof (reads_unique _ _ _ _ H Ho) as X. injection X. auto. }
    rewrite H in Ho. exact Ho. }
  rewrite Z. pose proof (sstd_zero (ss_vars ss) G3) as SZ. unfold Reqb in SZ.
  split.
  - intros [A B]. split; [lra|].
    destruct (Req_EM_T (sstd (ss_vars ss) G3) 0) as [Q|Q]; auto. exfalso.
    symmetry in SZ. apply Bool.not_true_iff_false in SZ. apply SZ. apply forallb_forall.
    intros v _. destruct (Req_EM_T (G3 v * sigma (ss_vars ss) v) 0) as [|X]; auto.
    exfalso. apply X. rewrite HG. apply B.
  - intros [A B]. split; [lra|]. intros v.
    destruct (Req_EM_T (sstd (ss_vars ss) G3) 0) as [Q|Q]; [|contradiction].
    symmetry in SZ. rewrite forallb_forall in SZ.
    destruct (Nat.lt_ge_cases v (length (ss_vars ss))) as [Lv|Lv].
    + specialize (SZ v). rewrite <- HG.
      destruct (Req_EM_T (G3 v * sigma (ss_vars ss) v) 0) as [|X]; auto.
      assert (false = true); [|discriminate]. apply SZ. apply in_seq. lia.
    + unfold sigma. rewrite nth_overflow by auto. ring.
Qed.

Theorem eq_refl_thm : forall st i u, reachable st -> is_number st i u ->
  reads st (ICmp Ceq i i) (OBool true).
Proof.
  intros st i u Rc U. destruct (reach_sim st Rc) as (ss & S).
  destruct (number_rel st ss i u S U) as (n & gr & ds & var & NR).
  pose proof (cmp_does _ _ _ _ _ _ _ _ _ _ _ _ _ _ Ceq S NR NR) as C.
  simpl in C. rewrite (proj2 (seq_uf_iff _ _ _ _ _)) in C; auto.
  split; auto. intros. ring.
Qed.
Theorem eq_sym_thm : forall st i u j u' b, reachable st -> is_number st i u -> is_number st j u' ->
  reads st (ICmp Ceq i j) (OBool b) -> reads st (ICmp Ceq j i) (OBool b).
Proof.
  intros st i u j u' b Rc U U' H. destruct (reach_sim st Rc) as (ss & S).
  destruct (number_rel st ss i u S U) as (n & gr & ds & var & NR).
  destruct (number_rel st ss j u' S U') as (n' & gr' & ds' & var' & NR').
  pose proof (cmp_read _ _ _ _ _ _ _ _ _ _ _ _ _ _ _ _ S NR NR' H) as E. injection E; intros ->.
  pose proof (cmp_does _ _ _ _ _ _ _ _ _ _ _ _ _ _ Ceq S NR' NR) as C. simpl in C |- *.
  assert (Q : forall a b : bool, (a = true <-> b = true) -> a = b).
  { intros [|] [|] [A B]; auto; symmetry; auto. }
  rewrite (Q (seq_uf (ss_vars ss) n n' gr gr') (seq_uf (ss_vars ss) n' n gr' gr)); auto.
  rewrite !seq_uf_iff. split; intros [A B]; split; auto; intros v; specialize (B v); lra.
Qed.
Theorem eq_trans_thm : forall st i u j u' k u'', reachable st -> is_number st i u ->
  is_number st j u' -> is_number st k u'' ->
  reads st (ICmp Ceq i j) (OBool true) -> reads st (ICmp Ceq j k) (OBool true) ->
  reads st (ICmp Ceq i k) (OBool true).
Proof.
  intros st i u j u' k u'' Rc U U' U'' H H'. destruct (reach_sim st Rc) as (ss & S).
  destruct (number_rel st ss i u S U) as (n & gr & ds & var & NR).
  destruct (number_rel st ss j u' S U') as (n' & gr' & ds' & var' & NR').
  destruct (number_rel st ss k u'' S U'') as (n2 & gr2 & ds2 & var2 & NR2).
  pose proof (cmp_read _ _ _ _ _ _ _ _ _ _ _ _ _ _ _ _ S NR NR' H) as E. injection E; intros E1.
  pose proof (cmp_read _ _ _ _ _ _ _ _ _ _ _ _ _ _ _ _ S NR' NR2 H') as E'. injection E'; intros E2.
  pose proof (cmp_does _ _ _ _ _ _ _ _ _ _ _ _ _ _ Ceq S NR NR2) as C. simpl in C.
  symmetry in E1, E2. rewrite seq_uf_iff in E1, E2. destruct E1 as [A B], E2 as [A' B'].
  rewrite (proj2 (seq_uf_iff _ _ _ _ _)) in C; auto. split; [congruence|].
  intros v. specialize (B v). specialize (B' v). lra.
Qed.
Theorem ne_spec : forall st i u j u' b, reachable st -> is_number st i u -> is_number st j u' ->
  reads st (ICmp Ceq i j) (OBool b) <-> reads st (ICmp Cne i j) (OBool (negb b)).
Proof.
  intros st i u j u' b Rc U U'. destruct (reach_sim st Rc) as (ss & S).
  destruct (number_rel st ss i u S U) as (n & gr & ds & var & NR).
  destruct (number_rel st ss j u' S U') as (n' & gr' & ds' & var' & NR').
  pose proof (cmp_does _ _ _ _ _ _ _ _ _ _ _ _ _ _ Ceq S NR NR') as C.
  pose proof (cmp_does _ _ _ _ _ _ _ _ _ _ _ _ _ _ Cne S NR NR') as C'. simpl in C, C'.
  split; intros H.
  - pose proof (reads_unique _ _ _ _ H C) as E. injection E; intros ->. exact C'.
  - pose proof (reads_unique _ _ _ _ H C') as E. injection E; intros E1.
    assert (b = seq_uf (ss_vars ss) n n' gr gr') as -> by (destruct b, (seq_uf _ _ _ _ _); auto).
    exact C.
Qed.

(** C11: ordering. *)
Theorem order_spec : forall st i u j u' b, reachable st -> is_number st i u -> is_number st j u' ->
  (reads st (ICmp Cgt i j) (OBool b) <-> b = (if Rlt_dec (uf_nom u') (uf_nom u) then true else false)) /\
  (reads st (ICmp Clt i j) (OBool b) <-> b = (if Rlt_dec (uf_nom u) (uf_nom u') then true else false)) /\
  (forall e, reads st (ICmp Ceq i j) (OBool e) ->
     (reads st (ICmp Cge i j) (OBool b) <->
        b = orb (if Rlt_dec (uf_nom u') (uf_nom u) then true else false) e) /\
     (reads st (ICmp Cle i j) (OBool b) <->
        b = orb (if Rlt_dec (uf_nom u) (uf_nom u') then true else false) e)).
Proof.
  intros st i u j u' b Rc U U'. destruct (reach_sim st Rc) as (ss & S).
  destruct (number_rel st ss i u S U) as (n & gr & ds & var & NR).
  destruct (number_rel st ss j u' S U') as (n' & gr' & ds' & var' & NR').
  rewrite (nr_nom _ _ _ _ _ _ _ _ NR), (nr_nom _ _ _ _ _ _ _ _ NR').
  assert (Q : forall c t, reads st (ICmp c i j) (OBool t) <-> t = scmp (ss_vars ss) c n n' gr gr').
  { intros c t. pose proof (cmp_does _ _ _ _ _ _ _ _ _ _ _ _ _ _ c S NR NR') as C.
    split; intros H. { pose proof (reads_unique _ _ _ _ H C) as X. injection X. auto. }
    now subst. }
  rewrite !Q. simpl. unfold Rltb. split; [tauto|]. split; [tauto|].
  intros e He. rewrite Q in He. simpl in He. subst e. rewrite !Q. simpl. unfold Rltb. tauto.
Qed.

(** C12: truth value. *)
Theorem bool_spec : forall st i u s b, reachable st -> is_number st i u ->
  reads st (IStd i) (ONum s) -> reads st (IBool i) (OBool b) ->
  (b = false <-> uf_nom u = 0 /\ s = 0).
Proof.
  intros st i u s b Rc U H B. destruct (reach_sim st Rc) as (ss & S).
  destruct (number_rel st ss i u S U) as (n & gr & ds & var & NR).
  pose proof (std_read _ _ _ _ _ _ _ _ _ (IStd i) S NR (or_introl eq_refl) H) as E.
  injection E; intros ->.
  pose proof (reads_sim _ _ _ _ S B) as O. simpl in O. unfold swith_uf, swith in O.
  rewrite (nr_env _ _ _ _ _ _ _ _ NR) in O. simpl in O. subst b.
  rewrite negb_false_iff, (nr_nom _ _ _ _ _ _ _ _ NR), seq_uf_iff.
  pose proof (sstd_zero (ss_vars ss) gr) as SZ. unfold Reqb in SZ.
  split; intros [A C]; split; auto.
  - destruct (Req_EM_T (sstd (ss_vars ss) gr) 0) as [Q|Q]; auto. exfalso.
    symmetry in SZ. apply Bool.not_true_iff_false in SZ. apply SZ. apply forallb_forall.
    intros v _. destruct (Req_EM_T (gr v * sigma (ss_vars ss) v) 0) as [|X]; auto.
    exfalso. apply X. specialize (C v). lra.
  - intros v. destruct (Req_EM_T (sstd (ss_vars ss) gr) 0) as [Q|Q]; [|contradiction].
    symmetry in SZ. rewrite forallb_forall in SZ.
    destruct (Nat.lt_ge_cases v (length (ss_vars ss))) as [Lv|Lv].
    + specialize (SZ v). replace (gr v - 0) with (gr v) by ring.
      destruct (Req_EM_T (gr v * sigma (ss_vars ss) v) 0) as [|X]; auto.
      assert (false = true); [|discriminate]. apply SZ. apply in_seq. lia.
    + unfold sigma. rewrite nth_overflow by auto. ring.
Qed.

(** C06: same value and same gradient. *)
Theorem same_gradient_equal : forall st i u j u' d d', reachable st -> is_number st i u ->
  is_number st j u' -> reads st (IDeriv i) (ODict d) -> reads st (IDeriv j) (ODict d') ->
  uf_nom u = uf_nom u' -> (forall v, dval d v = dval d' v) ->
  reads st (ICmp Ceq i j) (OBool true).
Proof.
  intros st i u j u' d d' Rc U U' D D' En Ed. 
  destruct (reads_succeed st i u Rc U) as (_ & _ & _ & _ & _ & C).
  destruct (C Ceq j (VUF u') U' (or_introl eq_refl)) as (t & Ht).
  assert (t = true) as ->; auto.
  apply (eq_spec st i u j u' d d' t Rc U U' D D' Ht). split; auto.
  intros v. rewrite Ed. ring.
Qed.

(** ** Laziness *)
Lemma sread_id : forall ss ins, is_read ins = true -> fst (sstep ss ins) = ss.
Proof.
  intros ss ins H. destruct ins; try discriminate; simpl; unfold swith_uf, swith;
    destruct (nth_error (ss_env ss) i) as [[]|]; auto.
  destruct (nth_error (ss_env ss) j); auto.
Qed.
Lemma out_ok_same : forall (o o' : out) so, out_ok o so -> out_ok o' so -> same_out o o'.
Proof.
  intros o o' so A B. destruct o, so; simpl in A; try contradiction;
    destruct o'; simpl in B; try contradiction; simpl; try congruence.
  - destruct A as [_ A], B as [_ B]. intros. now rewrite A, B.
  - destruct A as [_ A], B as [_ B]. intros. now rewrite A, B.
Qed.
Lemma Forall2_same : forall os os' sos, Forall2 (out_ok (g:=g) (lg:=lg)) os sos ->
  Forall2 (out_ok (g:=g) (lg:=lg)) os' sos -> Forall2 same_out os os'.
Proof.
  intros os os' sos A. revert os'. induction A; intros os' B; inversion B; subst; constructor; auto.
  eapply out_ok_same; eauto.
Qed.

(** C04: a read changes nothing that the program can observe later. *)
Theorem laziness_invisible : forall st r st' o prog st1 os1 st2 os2, reachable st ->
  is_read r = true -> does st r st' o -> runs st prog st1 os1 -> runs st' prog st2 os2 ->
  Forall2 same_out os1 os2 /\ map nominal_value (st_env st1) = map nominal_value (st_env st2).
Proof.
  intros st r st' o prog st1 os1 st2 os2 Rc H D R1 R2. destruct (reach_sim st Rc) as (ss & S).
  destruct (does_sim _ _ _ _ _ S D) as [S' _]. rewrite sread_id in S' by auto.
  destruct (runs_sim _ _ _ _ _ S R1) as [A1 B1]. destruct (runs_sim _ _ _ _ _ S' R2) as [A2 B2].
  split; [eapply Forall2_same; eauto|].
  assert (Q : forall st ss, sim st ss -> map nominal_value (st_env st) = map snom (ss_env ss)).
  { intros st0 ss0 [_ _ E]. clear - E. induction E; simpl; auto. f_equal; auto.
    eapply nominal_rel; eauto. }
  now rewrite (Q _ _ A1), (Q _ _ A2).
Qed.

(** C08: updates. *)
Lemma list_set_nth : forall A (l : list A) i j x d, nth j (list_set l i x) d =
  if (Nat.eqb i j && (i <? length l)%nat)%bool then x else nth j l d.
Proof.
  induction l as [|a l IH]; intros i j x d; simpl.
  - rewrite andb_false_r. destruct j; reflexivity.
  - destruct i, j; simpl; auto. rewrite IH.
    destruct (Nat.eqb i j); simpl; auto.
Qed.

Theorem std_update : forall st i u v s st' j w d, reachable st -> is_number st i u ->
  uf_var u = Some v -> 0 <= pval s -> does st (ISet i s) st' ONone -> is_number st j w ->
  reads st (IDeriv j) (ODict d) ->
  is_number st' j w /\
  (exists d', reads st' (IDeriv j) (ODict d') /\ forall k, dget d' k = dget d k) /\
  (forall k, sd st' k = if Nat.eqb k v then pval s else sd st k) /\
  reads st' (IStd j) (ONum (N:=RN) (sqrt (Rsum (map (fun p =>
     (snd p * (if Nat.eqb (fst p) v then pval s else sd st (fst p))) ^ 2) d)))).
Proof.
  intros st i u v s st' j w d Rc U Uv Ps D W Hd.
  assert (Rc' : reachable st') by (eapply reachable_step; eauto).
  destruct (reach_sim st Rc) as (ss & S).
  destruct (does_sim _ _ _ _ _ S D) as [S' _].
  destruct (number_rel st ss i u S U) as (n & gr & ds & var & NR).
  destruct (number_rel st ss j w S W) as (n' & gr' & ds' & var' & NR').
  assert (E : fst (sstep ss (ISet i s)) = mkS (list_set (ss_vars ss) v (pval s)) (ss_env ss)).
  { simpl. unfold swith_uf, swith. rewrite (nr_env _ _ _ _ _ _ _ _ NR).
    rewrite <- (nr_var _ _ _ _ _ _ _ _ NR), Uv.
    destruct (Rltb (pval s) 0) eqn:X; auto. apply Rltb_true in X. lra. }
  rewrite E in S'.
  destruct (nr_isvar _ _ _ _ _ _ _ _ NR v) as (Lv & _ & _).
  { now rewrite <- (nr_var _ _ _ _ _ _ _ _ NR). }
  assert (W' : is_number st' j w).
  { unfold is_number in *. destruct D as [k D]. specialize (D k (le_n _)).
    simpl in D. unfold with_uf, with_val in D. rewrite U, Uv in D.
    unfold observe in D. destruct (set_std v s (st_heap st)) as [[]]; inversion D; subst; auto. }
  assert (SD : forall k, sd st' k = if Nat.eqb k v then pval s else sd st k).
  { intros k. rewrite (sd_sigma _ _ k S'), (sd_sigma _ _ k S). unfold sigma. simpl.
    rewrite list_set_nth, Nat.eqb_sym.
    replace (v <? length (ss_vars ss))%nat with true by (symmetry; now apply Nat.ltb_lt).
    rewrite andb_true_r. reflexivity. }
  destruct (number_rel st' _ j w S' W') as (n2 & gr2 & ds2 & var2 & NR2).
  pose proof (nr_env _ _ _ _ _ _ _ _ NR2) as E2. simpl in E2.
  rewrite (nr_env _ _ _ _ _ _ _ _ NR') in E2. injection E2; intros; subst n2 gr2 ds2 var2.
  destruct (reads_total st' _ (IDeriv j) S') as (o & Ho).
  pose proof (reads_sim _ _ _ _ S' Ho) as O'. pose proof (reads_sim _ _ _ _ S Hd) as O.
  simpl in O, O'. unfold swith_uf, swith in O, O'. simpl in O'.
  rewrite (nr_env _ _ _ _ _ _ _ _ NR') in O, O'. simpl in O, O'.
  destruct o as [|d'| | | |]; try contradiction. destruct O as [ND G], O' as [ND' G'].
  split; auto. split. { exists d'. split; auto. intros k. now rewrite G, G'. }
  split; auto.
  pose proof (std_dev_formula st' j w d' Rc' W' Ho) as F.
  replace (sqrt _) with (prop_std st' d'); auto.
  destruct (deriv_read _ _ _ _ _ _ _ _ _ S NR' Hd) as (d0 & E0 & _ & K & V).
  injection E0; intros; subst d0.
  destruct (deriv_read _ _ _ _ _ _ _ _ _ S' NR2 Ho) as (d0 & E0' & _ & K' & V').
  injection E0'; intros; subst d0.
  rewrite (prop_std_sstd st' _ d' gr' ds' S' ND' K' V' (nr_bound _ _ _ _ _ _ _ _ NR2)).
  unfold sstd, svariance. f_equal.
  rewrite <- (Rsum_perm_seq (fun k => (gr' k * sigma (ss_vars (mkS (g:=g) (lg:=lg) (list_set (ss_vars ss) v (pval s)) (ss_env ss))) k) ^ 2) (dkeys d)); auto.
  - unfold dkeys. rewrite map_map. f_equal. apply map_ext_in. intros [k c] Hin. cbn [fst snd].
    rewrite <- SD, (sd_sigma _ _ k S'), <- V. unfold dval.
    now rewrite (In_dget d k c ND Hin).
  - intros k Hk. apply (nr_bound _ _ _ _ _ _ _ _ NR2). now apply K.
  - intros k Hk Hn. rewrite <- V. unfold dval. rewrite (proj2 (dget_None d k) Hn). ring.
Qed.

(** ** Variables *)
Lemma scall_novar : forall f pos kwd args kw n gr ds v,
  scall f pos kwd args kw <> Ok (SUF (g:=g) (lg:=lg) n gr ds (Some v)).
Proof.
  intros f pos kwd args kw n gr ds v H. unfold scall in H.
  destruct (existsb _ _ || existsb _ _).
  - destruct (f _ _) as [[p| |k|]|]; simpl in H; try discriminate;
    destruct (spos _ _ _ _ _); simpl in H; try discriminate;
    destruct (skws _ _ _ _); simpl in H; discriminate.
  - destruct (f _ _); discriminate.
Qed.
Lemma vars_unique_push : forall ss a, vars_unique ss ->
  (forall n gr ds v, a <> SUF (g:=g) (lg:=lg) n gr ds (Some v)) ->
  vars_unique (mkS (ss_vars ss) (ss_env ss ++ [a])).
Proof.
  intros ss a [U B] H.
  assert (Q : forall i n gr ds v, nth_error (ss_env ss ++ [a]) i = Some (SUF n gr ds (Some v)) ->
     nth_error (ss_env ss) i = Some (SUF n gr ds (Some v))).
  { intros i n gr ds v E. destruct (Nat.lt_ge_cases i (length (ss_env ss))) as [L|L].
    - now rewrite nth_error_app1 in E.
    - rewrite nth_error_app2 in E by auto.
      destruct (i - length (ss_env ss))%nat as [|k]; [|destruct k; discriminate].
      injection E; intros E1. exfalso. eapply H; eauto. }
  split; simpl.
  - intros i j n gr ds n' gr' ds' v E1 E2. eapply U; eauto.
  - intros i n gr ds v E. eapply B; eauto.
Qed.
Lemma vars_unique_spush : forall ss r, vars_unique ss ->
  (forall n gr ds v, r <> Ok (SUF (g:=g) (lg:=lg) n gr ds (Some v))) ->
  vars_unique (fst (spush ss r)).
Proof.
  intros ss [a|e] U H; simpl; apply vars_unique_push; auto; try discriminate.
  intros n gr ds v ->. eapply H; eauto.
Qed.
Lemma vars_unique_step : forall ss ins, vars_unique ss -> vars_unique (fst (sstep ss ins)).
Proof.
  intros ss ins U. destruct (is_read ins) eqn:Rd; [now rewrite sread_id|].
  destruct ins; try discriminate; simpl.
  - destruct (Rltb (pval s) 0); [first [apply vars_unique_spush|apply vars_unique_push]; auto; discriminate|]. simpl.
    destruct U as [U B]. split; simpl.
    + assert (Q : forall i n' gr ds v, nth_error (ss_env ss ++ [SUF (pval n) (delta (length (ss_vars ss))) [length (ss_vars ss)] (Some (length (ss_vars ss)))]) i = Some (SUF n' gr ds (Some v)) ->
        (nth_error (ss_env ss) i = Some (SUF n' gr ds (Some v)) /\ (v < length (ss_vars ss))%nat) \/
        (i = length (ss_env ss) /\ v = length (ss_vars ss))).
      { intros i n' gr ds v E. destruct (Nat.lt_ge_cases i (length (ss_env ss))) as [L|L].
        - rewrite nth_error_app1 in E by auto. left. split; auto. eapply B; eauto.
        - rewrite nth_error_app2 in E by auto.
          destruct (i - length (ss_env ss))%nat as [|k] eqn:X; [|destruct k; discriminate].
          injection E; intros. right. split; [lia|auto]. }
      intros i j n1 gr1 ds1 n2 gr2 ds2 v E1 E2. apply Q in E1. apply Q in E2.
      destruct E1 as [[E1 L1]|[E1 L1]], E2 as [[E2 L2]|[E2 L2]]; try lia. eapply U; eauto.
    + intros i n1 gr ds v E. rewrite app_length. simpl.
      destruct (Nat.lt_ge_cases i (length (ss_env ss))) as [L|L].
      * rewrite nth_error_app1 in E by auto. apply B in E. lia.
      * rewrite nth_error_app2 in E by auto.
        destruct (i - length (ss_env ss))%nat as [|k] eqn:X; [|destruct k; discriminate].
        injection E; intros. lia.
  - apply vars_unique_push; auto. discriminate.
  - destruct (nth_error (ss_env ss) i), (nth_error (ss_env ss) j);
      try (first [apply vars_unique_spush|apply vars_unique_push]; auto; discriminate).
    apply vars_unique_spush; auto. intros n gr ds v H. unfold sbin in H.
    destruct (is_suf s).
    + destruct (scall _ _ _ [s; s0] []) as [r|] eqn:E; simpl in H; [|discriminate].
      destruct r as [[]|n1 g1 d1 v1]; try discriminate. injection H; intros; subst.
      eapply scall_novar; eauto.
    + destruct (is_suf s0); [|discriminate].
      destruct (scall _ _ _ [s0; s] []) as [r|] eqn:E; simpl in H; [|discriminate].
      destruct r as [[]|n1 g1 d1 v1]; try discriminate. injection H; intros; subst.
      eapply scall_novar; eauto.
  - destruct (sargs _ _); [|first [apply vars_unique_spush|apply vars_unique_push]; auto; discriminate].
    destruct (skwargs _ _); [apply vars_unique_spush; auto; intros; apply scall_novar|].
    apply vars_unique_push; auto; discriminate.
  - destruct (nth_error (ss_env ss) i) as [[[]|]|]; simpl; apply vars_unique_push; auto; discriminate.
  - destruct (nth_error (ss_env ss) i) as [[[]|]|]; simpl; apply vars_unique_push; auto; discriminate.
  - unfold swith_uf, swith. destruct (nth_error (ss_env ss) i) as [[|? ? ? [v|]]|]; auto.
    destruct (Rltb (pval s) 0); auto. destruct U as [U B]. split; simpl; auto.
    intros. rewrite list_set_length. eapply B; eauto.
Qed.
Lemma vars_unique_run : forall prog ss, vars_unique ss -> vars_unique (fst (srun ss prog)).
Proof.
  induction prog as [|ins prog IH]; intros ss U; simpl; auto.
  pose proof (vars_unique_step ss ins U) as U'.
  destruct (sstep ss ins) as [s1 o]. specialize (IH s1 U').
  destruct (srun s1 prog). exact IH.
Qed.
Lemma vars_unique_app : forall ss ne, vars_unique ss ->
  (forall i n gr ds v, nth_error ne i <> Some (SUF n gr ds (Some v))) -> vars_unique (mkS (ss_vars ss) (ss_env ss ++ ne)).
Proof.
  intros ss ne U Nn. destruct U as [U1 U2]. split; cbn [ss_vars ss_env].
    + intros i j n gr ds n' gr' ds' v Hi Hj.
      assert (G : forall i n gr ds v, nth_error (ss_env ss ++ ne) i = Some (SUF n gr ds (Some v)) ->
                    nth_error (ss_env ss) i = Some (SUF n gr ds (Some v))).
      { clear -Nn. intros i n gr ds v H. destruct (Nat.lt_ge_cases i (length (ss_env ss))).
        - now rewrite nth_error_app1 in H.
        - rewrite nth_error_app2 in H by auto. exfalso. eapply Nn; eauto. }
      apply G in Hi, Hj. eapply U1; eauto.
    + intros i n gr ds v H. destruct (Nat.lt_ge_cases i (length (ss_env ss))).
      * rewrite nth_error_app1 in H by auto. eapply U2; eauto.
      * rewrite nth_error_app2 in H by auto. exfalso. eapply Nn; eauto.
Qed.
Lemma reach_sim_vars : forall st, reachable st -> exists ss, sim st ss /\ vars_unique ss.
Proof.
  induction 1 as [|st prog st' os _ (ss & S & U) D|st c _ (ss & S & U) Hc|order st is r st' _ (ss & S & U) Hc|order st is r st' _ (ss & S & U) Hc|order fw st ia r st' _ (ss & S & U) P Hc Hd|order f st ia r st' _ (ss & S & U) P Hc Hd|op st ia ja r st' _ (ss & S & U) Hc|st ia ja r st' _ (ss & S & U) Hc].
  - exists sinit. split; [apply sim_init|]. split; intros [|i]; discriminate.
  - eexists. split; [eapply runs_sim; eauto|]. now apply vars_unique_run.
  - destruct (call_sim st ss c S Hc) as (ss' & S' & [(n0 & s0 & t0 & ->)|(nv & ne & -> & Ho)]).
    + eexists. split; [exact S'|]. now apply vars_unique_step.
    + eexists. split; [exact S'|]. eapply vars_unique_grow; eauto.
  - exists ss. split; auto. eapply cov_sim; eauto.
  - exists ss. split; auto. eapply corr_sim; eauto.
  - destruct (array_sim _ _ st ss ia r st' S (uncert_conv order fw P) Hc Hd) as (ne & S' & Nn).
    eexists. split; [exact S'|]. now apply vars_unique_app.
  - destruct (array_sim _ _ st ss ia r st' S (wrapped_conv order f P) Hc Hd) as (ne & S' & Nn).
    eexists. split; [exact S'|]. now apply vars_unique_app.
  - destruct (operator_sim _ _ _ _ _ _ _ S Hc) as (ne & S' & Nn). eexists. split; [exact S'|]. now apply vars_unique_app.
  - destruct (product_sim _ _ _ _ _ _ S Hc) as (ne & S' & Nn). eexists. split; [exact S'|]. now apply vars_unique_app.
Qed.

(** C07 *)
Theorem variables_independent : forall st i u v j u' w, reachable st -> i <> j ->
  is_number st i u -> uf_var u = Some v -> is_number st j u' -> uf_var u' = Some w ->
  v <> w /\ reads st (IDeriv i) (ODict (N:=RN) [(v, 1)]) /\ reads st (IDeriv j) (ODict (N:=RN) [(w, 1)]) /\
  (reads st (ICmp Ceq i j) (OBool true) -> sd st v = 0 /\ sd st w = 0 /\ uf_nom u = uf_nom u').
Proof.
  intros st i u v j u' w Rc Hij U Uv U' Uw. destruct (reach_sim_vars st Rc) as (ss & S & VU).
  destruct (number_rel st ss i u S U) as (n & gr & ds & var & NR).
  destruct (number_rel st ss j u' S U') as (n' & gr' & ds' & var' & NR').
  pose proof (nr_var _ _ _ _ _ _ _ _ NR) as Ev. rewrite Uv in Ev. subst var.
  pose proof (nr_var _ _ _ _ _ _ _ _ NR') as Ew. rewrite Uw in Ew. subst var'.
  assert (Nvw : v <> w).
  { intros ->. apply Hij. destruct VU as [VU _].
    eapply VU; [exact (nr_env _ _ _ _ _ _ _ _ NR)|exact (nr_env _ _ _ _ _ _ _ _ NR')]. }
  assert (Q : forall k x n gr ds v, num_rel st ss k x n gr ds (Some v) ->
             reads st (IDeriv k) (ODict (N:=RN) [(v, 1)])).
  { clear - S. intros k x n gr ds v NR. destruct (reads_total st ss (IDeriv k) S) as (o & Ho).
    destruct (deriv_read _ _ _ _ _ _ _ _ _ S NR Ho) as (d & -> & ND & K & V).
    destruct (nr_isvar _ _ _ _ _ _ _ _ NR v eq_refl) as (_ & -> & Hg).
    assert (d = [(v, 1)]) as ->; auto.
    destruct d as [|[a x1] d].
    - exfalso. assert (In v []) by (apply (K v); simpl; auto). contradiction.
    - assert (a = v). { assert (In a [v]) by (apply K; simpl; auto). simpl in H. intuition. }
      subst a. destruct d as [|[b x2] d].
      + f_equal. f_equal. specialize (V v). unfold dval in V. simpl in V.
        rewrite Nat.eqb_refl in V. rewrite V, Hg. unfold delta. now rewrite Nat.eqb_refl.
      + exfalso. assert (In b [v]) by (apply K; simpl; auto).
        inversion ND; subst. apply H2. simpl in *. intuition. }
  pose proof (Q _ _ _ _ _ _ NR) as D1. pose proof (Q _ _ _ _ _ _ NR') as D2.
  split; auto. split; auto. split; auto. intros H.
  pose proof (proj1 (eq_spec st i u j u' _ _ true Rc U U' D1 D2 H) eq_refl) as [A B].
  split; [|split; auto].
  - specialize (B v). unfold dval in B. simpl in B. rewrite Nat.eqb_refl in B.
    destruct (Nat.eqb_spec v w); [contradiction|]. lra.
  - specialize (B w). unfold dval in B. simpl in B. rewrite Nat.eqb_refl in B.
    destruct (Nat.eqb_spec w v); [congruence|]. lra.
Qed.

Theorem fresh_independent : forall st n s tag st' u v j w d, reachable st ->
  does st (INew n s tag) st' ONone -> is_number st' (length (st_env st)) u -> uf_var u = Some v ->
  is_number st j w -> reads st' (IDeriv j) (ODict d) ->
  is_number st' j w /\ dget d v = None /\ reads st' (IDeriv (length (st_env st))) (ODict (N:=RN) [(v, 1)]).
Proof.
  intros st n s tag st' u v j w d Rc D U Uv W Hd. destruct (reach_sim st Rc) as (ss & S).
  assert (Rc' : reachable st') by (eapply reachable_step; eauto).
  destruct (does_sim _ _ _ _ _ S D) as [S' O].
  assert (L : length (st_env st) = length (ss_env ss)).
  { destruct S as [_ _ E]. clear - E. induction E; simpl; auto. }
  assert (Lj : (j < length (st_env st))%nat) by (apply nth_error_Some; unfold is_number in W; congruence).
  assert (W' : is_number st' j w).
  { unfold is_number in *. destruct D as [k D]. specialize (D k (le_n _)).
    simpl in D. unfold push in D. destruct (new_var n s tag (st_heap st)) as [[x|e] h'];
      inversion D; subst; simpl; rewrite nth_error_app1; auto. }
  split; auto.
  destruct (number_rel st ss j w S W) as (n' & gr' & ds' & var' & NR').
  destruct (number_rel st' _ _ u S' U) as (n1 & gr1 & ds1 & var1 & NR1).
  destruct (number_rel st' _ j w S' W') as (n2 & gr2 & ds2 & var2 & NR2).
  destruct (deriv_read _ _ _ _ _ _ _ _ _ S' NR2 Hd) as (d' & E & ND & K & V).
  injection E; intros; subst d'. clear E.
  simpl in O, S', NR1, NR2.
  destruct (Rltb (pval s) 0). { simpl in O. contradiction. }
  pose proof (nr_env _ _ _ _ _ _ _ _ NR1) as E1. simpl in E1.
  rewrite L, nth_error_app2, Nat.sub_diag in E1 by lia. injection E1; intros; subst.
  pose proof (nr_var _ _ _ _ _ _ _ _ NR1) as Ev. rewrite Uv in Ev. injection Ev; intros; subst v.
  pose proof (nr_env _ _ _ _ _ _ _ _ NR2) as E2. simpl in E2.
  rewrite nth_error_app1 in E2 by lia. rewrite (nr_env _ _ _ _ _ _ _ _ NR') in E2.
  injection E2; intros; subst.
  split.
  - apply dget_None. intros Hin. apply K in Hin. apply (nr_bound _ _ _ _ _ _ _ _ NR') in Hin. lia.
  - destruct (reads_total st' _ (IDeriv (length (st_env st))) S') as (o & Ho).
    destruct (deriv_read _ _ _ _ _ _ _ _ _ S' NR1 Ho) as (d1 & -> & ND1 & K1 & V1).
    assert (d1 = [(length (ss_vars ss), 1)]) as ->; auto.
    destruct d1 as [|[a x1] d1].
    + exfalso. assert (In (length (ss_vars ss)) []) by (apply (K1 (length (ss_vars ss))); simpl; auto). contradiction.
    + assert (a = length (ss_vars ss)). { assert (In a [length (ss_vars ss)]) by (apply K1; simpl; auto). simpl in H. intuition. }
      subst a. destruct d1 as [|[b x2] d1].
      * f_equal. f_equal. specialize (V1 (length (ss_vars ss))). unfold dval in V1. simpl in V1.
        rewrite Nat.eqb_refl in V1. rewrite V1. unfold delta. now rewrite Nat.eqb_refl.
      * exfalso. assert (In b [length (ss_vars ss)]) by (apply K1; simpl; auto).
        inversion ND1; subst. apply H2. simpl in *. intuition.
Qed.

(** ** True derivatives *)
Lemma defined_spec : forall prog st os, runs (init (N:=RN)) prog st os -> defined_ok prog os ->
  sdefined_ok prog (snd (srun (g:=g) (lg:=lg) sinit prog)).
Proof.
  intros prog st os H D. destruct (runs_sim _ _ _ _ _ (sim_init (g:=g) (lg:=lg)) H) as [_ O].
  unfold defined_ok, sdefined_ok in *. revert O. generalize (snd (srun (g:=g) (lg:=lg) sinit prog)).
  clear H. induction D as [|ins o p os Hd D IH]; intros sos O; inversion O; subst; constructor; auto.
  intros Hi. rewrite <- (out_ok_exn o); auto.
Qed.

(** C02 *)
Theorem derivatives_true : forall prog st os i u d, runs (init (N:=RN)) prog st os ->
  defined_ok prog os -> regular (x0_of (N:=RN) prog) pinit prog -> is_number st i u ->
  reads st (IDeriv i) (ODict d) ->
  result prog i (x0_of (N:=RN) prog) = Some (uf_nom u) /\
  (forall v, (v < length (noms (N:=RN) prog))%nat ->
   is_derive (fun t => match result prog i (upd (x0_of (N:=RN) prog) v t) with
                       | Some y => y | None => 0 end) (x0_of (N:=RN) prog v) (dval d v)) /\
  (forall v, In v (dkeys d) -> (v < length (noms (N:=RN) prog))%nat).
Proof.
  intros prog st os i u d H D Rg U Hd.
  destruct (runs_sim _ _ _ _ _ (sim_init (g:=g) (lg:=lg)) H) as [S _].
  destruct (number_rel _ _ _ _ S U) as (n & gr & ds & var & NR).
  destruct (deriv_read _ _ _ _ _ _ _ _ _ S NR Hd) as (d' & E & ND & K & V).
  injection E; intros; subst d'. clear E.
  pose proof (defined_spec _ _ _ H D) as SD.
  destruct (spec_gradient prog i n gr ds var SD Rg (nr_env _ _ _ _ _ _ _ _ NR)) as [F E].
  rewrite (nr_nom _ _ _ _ _ _ _ _ NR). split; auto. split.
  - intros v Hv. rewrite V. exact (fdiff_partial _ _ _ _ v F Hv).
  - intros v Hv. apply K in Hv. apply (nr_bound _ _ _ _ _ _ _ _ NR) in Hv.
    assert (Q : forall p (ss : sstate), sdefined_ok p (snd (srun (g:=g) (lg:=lg) ss p)) ->
       length (ss_vars (fst (srun ss p))) = (length (ss_vars ss) + length (noms (N:=RN) p))%nat).
    { clear. induction p as [|ins p IH]; intros ss Hd; simpl in *; [lia|].
      pose proof (sstep_nv ss ins) as NV. destruct (sstep ss ins) as [s1 o].
      specialize (IH s1). destruct (srun s1 p) as [s2 os]. simpl in *. inversion Hd; subst.
      rewrite IH, NV by auto. destruct ins; simpl; lia. }
    rewrite Q in Hv by auto. exact Hv.
Qed.

(** C06: two results that are the same function of the variables around the nominal point. *)
Theorem same_function_equal : forall prog st os i u j u', runs (init (N:=RN)) prog st os ->
  defined_ok prog os -> regular (x0_of (N:=RN) prog) pinit prog -> is_number st i u ->
  is_number st j u' ->
  (exists e, 0 < e /\ forall x, (forall k, Rabs (x k - x0_of (N:=RN) prog k) < e) ->
     result prog i x = result prog j x) ->
  reads st (ICmp Ceq i j) (OBool true).
Proof.
  intros prog st os i u j u' H D Rg U U' (e & Pe & He).
  assert (Rc : reachable st) by (eapply runs_reachable; exact H).
  destruct (reads_succeed st i u Rc U) as ((d & Hd & _) & _).
  destruct (reads_succeed st j u' Rc U') as ((d' & Hd' & _) & _).
  destruct (derivatives_true _ _ _ _ _ _ H D Rg U Hd) as (E1 & D1 & B1).
  destruct (derivatives_true _ _ _ _ _ _ H D Rg U' Hd') as (E2 & D2 & B2).
  apply (same_gradient_equal st i u j u' d d'); auto.
  - assert (result prog i (x0_of (N:=RN) prog) = result prog j (x0_of (N:=RN) prog)) as E.
    { apply He. intros k. rewrite Rminus_eq_0, Rabs_R0. exact Pe. }
    rewrite E1, E2 in E. congruence.
  - intros v. destruct (Nat.lt_ge_cases v (length (noms (N:=RN) prog))) as [L|L].
    + pose proof (D1 v L) as A. pose proof (D2 v L) as B.
      assert (A' : is_derive (fun t => match result prog j (upd (x0_of (N:=RN) prog) v t) with
                       | Some y => y | None => 0 end) (x0_of (N:=RN) prog v) (dval d v)).
      { eapply is_derive_ext_loc; [|exact A]. exists (mkposreal e Pe). intros t Ht.
        rewrite (He (upd (x0_of (N:=RN) prog) v t)); auto. intros k. unfold upd.
        destruct (Nat.eqb_spec k v) as [->|]; [exact Ht|].
        rewrite Rminus_eq_0, Rabs_R0. exact Pe. }
      rewrite <- (is_derive_unique _ _ _ A'). apply is_derive_unique. exact B.
    + unfold dval. rewrite (proj2 (dget_None d v)), (proj2 (dget_None d' v)); auto.
      * intros X. apply B2 in X. lia.
      * intros X. apply B1 in X. lia.
Qed.
End HistoryProofs.
