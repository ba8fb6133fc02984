(** copy.copy(), copy.deepcopy() and pickling over exact numbers. *)
From Coq Require Import ZArith List Bool Reals Lra Lia Arith Permutation.
From Verif Require Import Base Heap Affine Ops UMath NumR HeapSpec HeapProofs DenProofs Machine Spec
  Refine RefineStep Cov Copy Calls History CallProofs CovConv CovSpec CopySpec HistoryProofs CovProofs CorrProofs.
Import ListNotations.
Local Open Scope R_scope.

Section CopyProofs.
Context {g lg : R -> R}.
Notation RN := (ROps g lg).
Notation state := (state RN).
Implicit Types (st : state).

(** ** A renaming that is injective everywhere *)
Definition total_rename (nv : nat) (us : list nat) (fv : nat -> nat) (v : nat) : nat :=
  if existsb (Nat.eqb v) us then fv v else (nv + S (list_max (map fv us)) + v)%nat.
Lemma total_in : forall nv us fv v, In v us -> total_rename nv us fv v = fv v.
Proof.
  intros. unfold total_rename. replace (existsb (Nat.eqb v) us) with true; auto. symmetry.
  apply existsb_exists. exists v. split; auto. apply Nat.eqb_refl.
Qed.
Lemma total_out : forall nv us fv v, ~ In v us -> total_rename nv us fv v = (nv + S (list_max (map fv us)) + v)%nat.
Proof.
  intros. unfold total_rename. destruct (existsb (Nat.eqb v) us) eqn:E; auto.
  apply existsb_exists in E as (w & Hw & E). apply Nat.eqb_eq in E. congruence.
Qed.
Lemma list_max_In : forall l x, In x l -> (x <= list_max l)%nat.
Proof.
  intros l x H. pose proof (proj1 (list_max_le l (list_max l)) (le_n _)) as F. rewrite Forall_forall in F. auto.
Qed.
Lemma total_inj : forall nv us fv, (forall v w, In v us -> In w us -> fv v = fv w -> v = w) ->
  forall v w, total_rename nv us fv v = total_rename nv us fv w -> v = w.
Proof.
  intros nv us fv Inj v w H.
  assert (M : forall x, In x us -> (fv x <= list_max (map fv us))%nat).
  { intros x Hx. apply list_max_In. now apply in_map. }
  destruct (in_dec Nat.eq_dec v us) as [Hv|Hv], (in_dec Nat.eq_dec w us) as [Hw|Hw].
  - rewrite !total_in in H by auto. auto.
  - rewrite total_in, total_out in H by auto. specialize (M v Hv). lia.
  - rewrite total_out, total_in in H by auto. specialize (M w Hw). lia.
  - rewrite !total_out in H by auto. lia.
Qed.
Lemma total_ge : forall nv us fv v, (forall x, In x us -> (nv <= fv x)%nat) -> (nv <= total_rename nv us fv v)%nat.
Proof.
  intros nv us fv v H. destruct (in_dec Nat.eq_dec v us); [rewrite total_in by auto; auto|rewrite total_out by auto; lia].
Qed.

(** ** Larger specification states *)
Lemma sim_same_env : forall st ss, sim st ss -> length (ss_env ss) = length (st_env st).
Proof. intros st ss S. symmetry. eapply Forall2_len. apply (si_env _ _ S). Qed.
Lemma env_nth : forall st ss j a, sim st ss -> nth_error (st_env st) j = Some a ->
  exists sa, nth_error (ss_env ss) j = Some sa /\ vrel (st_heap st) a sa.
Proof. intros st ss j a S H. exact (Forall2_nth_error _ _ _ _ _ (si_env _ _ S) _ _ H). Qed.
Lemma env_nth' : forall st ss j sa, sim st ss -> nth_error (ss_env ss) j = Some sa ->
  exists a, nth_error (st_env st) j = Some a /\ vrel (st_heap st) a sa.
Proof.
  intros st ss j sa S H. destruct (nth_error (st_env st) j) as [a|] eqn:E.
  - destruct (env_nth _ _ _ _ S E) as (sb & Hb & Rl). exists a. split; auto. congruence.
  - apply nth_error_None in E. pose proof (sim_same_env _ _ S). apply nth_lt in H. lia.
Qed.
Lemma nominal_of : forall st ss j n gr ds var p, sim st ss -> nth_error (ss_env ss) j = Some (SUF n gr ds var) ->
  (has_nominal st j p <-> p = PF (N:=RN) n).
Proof.
  intros st ss j n gr ds var p S H. destruct (env_nth' _ _ _ _ S H) as ([q|u] & Hj & Rl); [contradiction|].
  destruct Rl as ([U1 _ _ _] & _). unfold has_nominal. split.
  - intros (a & Ha & Hn). rewrite Hj in Ha. injection Ha; intros <-. cbn in Hn. injection Hn; intros <-. now rewrite U1.
  - intros ->. exists (VUF u). split; auto. cbn. now rewrite U1.
Qed.

(** The variance only depends on the variables that matter. *)
Lemma svariance_grow : forall vs nv gr, (forall v, (length vs <= v)%nat -> gr v = 0) ->
  svariance (vs ++ nv) gr = svariance vs gr.
Proof.
  intros vs nv gr Z.
  change (Sum (length (vs ++ nv)) (fun v => (gr v * sigma (vs ++ nv) v) ^ 2) = Sum (length vs) (fun v => (gr v * sigma vs v) ^ 2)).
  rewrite app_length, Sum_app, (Sum_zero (length nv)), Rplus_0_r.
  - apply Sum_ext. intros v Hv. unfold sigma. now rewrite app_nth1.
  - intros k _. rewrite Z by lia. ring.
Qed.

Lemma grown_unaffected : forall st ss st' nv ne j, sim st ss ->
  sim st' (mkS (ss_vars ss ++ nv) (ss_env ss ++ ne)) -> (j < length (st_env st))%nat -> unaffected st st' j.
Proof.
  intros st ss st' nv ne j S S' Hj. pose proof (sim_same_env _ _ S) as L.
  destruct (nth_error (st_env st) j) as [a|] eqn:E; [|apply nth_error_None in E; lia].
  destruct (env_nth _ _ _ _ S E) as (sa & Es & Rl).
  assert (Es' : nth_error (ss_env (mkS (ss_vars ss ++ nv) (ss_env ss ++ ne))) j = Some sa).
  { cbn [ss_env]. rewrite nth_error_app1; auto. lia. }
  destruct sa as [p|n gr ds var].
  - assert (X : forall ins o o', (ins = IDeriv j \/ ins = IStd j \/ ins = IErrs j) ->
       reads st ins o -> reads st' ins o' -> same_out o o').
    { intros ins o o' K R R'. pose proof (reads_sim _ _ _ _ S R) as O. pose proof (reads_sim _ _ _ _ S' R') as O'.
      eapply out_ok_same; [exact O|].
      replace (snd (sstep ss ins)) with (snd (sstep (mkS (ss_vars ss ++ nv) (ss_env ss ++ ne)) ins)); [exact O'|].
      destruct K as [->|[->| ->]]; cbn [sstep]; unfold swith_uf, swith; rewrite Es, Es'; reflexivity. }
    split; [|split; [|split]]; [|intros o o'; apply X; auto ..]. intros p'.
    destruct a as [q|u]; [|contradiction]. cbn in Rl. subst q.
    destruct (env_nth' _ _ _ _ S' Es') as ([q'|u'] & E' & Rl'); [|contradiction]. cbn in Rl'. subst q'.
    unfold has_nominal. now rewrite E, E'.
  - destruct a as [q|u]; [contradiction|].
    destruct (number_rel _ _ _ _ S E) as (n1 & gr1 & ds1 & var1 & NR).
    pose proof (nr_env _ _ _ _ _ _ _ _ NR) as E1. rewrite Es in E1. injection E1; intros; subst n1 gr1 ds1 var1.
    assert (Z : forall v, (length (ss_vars ss) <= v)%nat -> gr v = 0).
    { intros v Hv. apply (nr_out _ _ _ _ _ _ _ _ NR). intros I. apply (nr_bound _ _ _ _ _ _ _ _ NR) in I. lia. }
    assert (X : forall ins o o', (ins = IDeriv j \/ ins = IStd j \/ ins = IErrs j) ->
       reads st ins o -> reads st' ins o' -> same_out o o').
    { intros ins o o' K R R'. pose proof (reads_sim _ _ _ _ S R) as O. pose proof (reads_sim _ _ _ _ S' R') as O'.
      destruct K as [->|[->| ->]]; cbn [sstep] in O, O'; unfold swith_uf, swith in O, O'; rewrite Es in O; rewrite Es' in O'.
      - eapply out_ok_same; [exact O|exact O'].
      - eapply out_ok_same; [exact O|]. cbn [ss_vars snd] in O' |- *. unfold sstd in *. now rewrite svariance_grow in O'.
      - eapply out_ok_same; [exact O|]. cbn [ss_vars snd fst] in O' |- *.
        destruct o' as [|?|l|?|?|?]; try contradiction. cbn in O' |- *.
        destruct O' as [ND O']. split; auto. intros v. rewrite O'. unfold restrict.
        destruct (existsb (Nat.eqb v) ds) eqn:Ev; auto. f_equal. f_equal. f_equal. unfold sigma.
        rewrite app_nth1; auto. apply (nr_bound _ _ _ _ _ _ _ _ NR).
        apply existsb_exists in Ev as (w & Hw & Ev). apply Nat.eqb_eq in Ev. now subst. }
    split; [|split; [|split]]; [|intros o o'; apply X; auto ..]. intros p'.
    rewrite (nominal_of _ _ _ _ _ _ _ p' S Es), (nominal_of _ _ _ _ _ _ _ p' S' Es'). reflexivity.
Qed.

(** ** Copies *)
(** The variables [us] of [h] have copies in [h']. *)
Definition copies_of (h h' : heap RN) (fv : varid -> varid) (us : list nat) : Prop :=
  (forall v w, In v us -> In w us -> fv v = fv w -> v = w) /\
  forall v, In v us -> (length (h_var h) <= fv v)%nat /\
    exists o o', get_var h v = Some o /\ get_var h' (fv v) = Some o' /\ v_std o' = v_std o /\ v_tag o' = v_tag o.
Lemma var_copies_of : forall h h' fv us, var_copies (g:=g) (lg:=lg) h h' fv us -> copies_of h h' fv us.
Proof.
  intros h h' fv us [A B]. split; auto. intros v Hv. destruct (B v Hv) as (C & o & o' & D & E & _ & F). eauto 8.
Qed.
Lemma NoDup_map_fst : forall (d : dict RN), NoDup (dkeys d) -> NoDup d.
Proof. intros d H. apply (NoDup_map_inv fst). exact H. Qed.
Lemma dict_permutation : forall (rho : varid -> varid) (d d' : dict RN), (forall v w, rho v = rho w -> v = w) ->
  NoDup (dkeys d) -> NoDup (dkeys d') -> (forall v x, dget d v = Some x -> dget d' (rho v) = Some x) ->
  (forall w, dget d' w <> None -> exists v, w = rho v /\ dget d v <> None) ->
  Permutation d' (map (fun p => (rho (fst p), snd p)) d).
Proof.
  intros rho d d' Inj N N' H H'. apply NoDup_Permutation.
  - now apply NoDup_map_fst.
  - apply (NoDup_map_inv fst). rewrite map_map. cbn.
    unfold dkeys in N. clear - N Inj. induction d as [|[v x] d IH]; cbn in *; [constructor|].
    inversion N; subst. constructor; auto. intros I. apply in_map_iff in I as ([w y] & E & I). cbn in E.
    apply Inj in E. subst w. apply H1. apply in_map_iff. exists (v, y). auto.
  - intros [w x]. split.
    + intros I. pose proof (In_dget d' w x N' I) as D.
      destruct (H' w) as (v & -> & Dv); [congruence|]. destruct (dget d v) as [y|] eqn:E; [|congruence].
      rewrite (H v y E) in D. injection D; intros <-. apply in_map_iff. exists (v, y). split; auto.
      now apply dget_In.
    + intros I. apply in_map_iff in I as ([v y] & E & I). cbn in E. injection E; intros <- <-.
      apply dget_In. apply H. now apply In_dget.
Qed.
Lemma tag_same : forall st v o, get_var (st_heap st) v = Some o -> tag_of st v = v_tag o /\ sd st v = v_std o.
Proof. intros st v o H. unfold tag_of, sd. now rewrite H. Qed.

Lemma restrict_in : forall (ds : list varid) (f : varid -> R) v, In v ds -> restrict ds f v = Some (f v).
Proof.
  intros. unfold restrict. replace (existsb (Nat.eqb v) ds) with true; auto. symmetry.
  apply existsb_exists. exists v. split; auto. apply Nat.eqb_refl.
Qed.
Lemma restrict_some : forall (ds : list varid) (f : varid -> R) v, restrict ds f v <> None -> In v ds.
Proof.
  intros ds f v H. unfold restrict in H. destruct (existsb (Nat.eqb v) ds) eqn:E; [|congruence].
  apply existsb_exists in E as (w & Hw & E). apply Nat.eqb_eq in E. now subst.
Qed.
Lemma copied_dict : forall st ss st' ss' fv us i k n gr ds var sa' d d' rho, sim st ss -> sim st' ss' ->
  rho = total_rename (length (h_var (st_heap st))) us fv ->
  copies_of (st_heap st) (st_heap st') fv us -> nth_error (ss_env ss) i = Some (SUF n gr ds var) ->
  nth_error (ss_env ss') k = Some sa' -> scopied fv us (SUF n gr ds var) sa' ->
  reads st (IDeriv i) (ODict (N:=RN) d) -> reads st' (IDeriv k) (ODict d') ->
  (forall v x, dget d v = Some x -> dget d' (rho v) = Some x /\ sd st' (rho v) = sd st v /\ tag_of st' (rho v) = tag_of st v) /\
  (forall w, dget d' w <> None -> exists v, w = rho v /\ dget d v <> None) /\
  Permutation d' (map (fun p => (rho (fst p), snd p)) d).
Proof.
  intros st ss st' ss' fv us i k n gr ds var sa' d d' rho S S' Er [Inj VC] Es Es' Sc Rd Rd'.
  destruct sa' as [|n' gr' ds' var']; [contradiction|]. destruct Sc as (-> & -> & G & ->).
  pose proof (reads_sim _ _ _ _ S Rd) as O. cbn [sstep] in O. unfold swith_uf, swith in O. rewrite Es in O. destruct O as [ND O].
  pose proof (reads_sim _ _ _ _ S' Rd') as O'. cbn [sstep] in O'. unfold swith_uf, swith in O'. rewrite Es' in O'. destruct O' as [ND' O'].
  assert (A : forall v x, dget d v = Some x -> dget d' (rho v) = Some x /\ sd st' (rho v) = sd st v /\ tag_of st' (rho v) = tag_of st v).
  { intros v x D. rewrite O in D.
    assert (Hw : In v ds) by (apply (restrict_some ds gr); congruence).
    rewrite restrict_in in D by auto. injection D; intros <-.
    destruct (G v Hw) as [Hu Hg]. subst rho. rewrite total_in by auto.
    destruct (VC v Hu) as (_ & o & o' & Go & Go' & Gs & Gt).
    destruct (tag_same st v o Go) as [-> ->]. destruct (tag_same st' (fv v) o' Go') as [-> ->].
    split; auto. rewrite O'. etransitivity; [apply restrict_in; now apply in_map|]. exact (f_equal Some Hg). }
  assert (B : forall w, dget d' w <> None -> exists v, w = rho v /\ dget d v <> None).
  { intros w D. rewrite O' in D. apply restrict_some in D. apply in_map_iff in D as (v & <- & Hv).
    destruct (G v Hv) as [Hu _]. exists v. subst rho. rewrite total_in by auto. split; auto.
    rewrite O, restrict_in by auto. discriminate. }
  split; auto. split; auto. apply dict_permutation; auto.
  - subst rho. now apply total_inj.
  - intros v x D. now apply A.
Qed.
Lemma deriv_total : forall st ss i n gr ds var, sim st ss -> nth_error (ss_env ss) i = Some (SUF n gr ds var) ->
  exists d, reads st (IDeriv i) (ODict (N:=RN) d).
Proof.
  intros st ss i n gr ds var S Es. destruct (env_nth' _ _ _ _ S Es) as ([q|u] & Hi & Rl); [contradiction|].
  destruct (number_rel _ _ _ _ S Hi) as (n1 & gr1 & ds1 & var1 & NR).
  destruct (reads_total st ss (IDeriv i) S) as (o & Ho).
  destruct (deriv_read _ _ _ _ _ _ _ _ _ S NR Ho) as (d & -> & _). eauto.
Qed.
Lemma std_value : forall st ss i n gr ds var d, sim st ss -> nth_error (ss_env ss) i = Some (SUF n gr ds var) ->
  reads st (IDeriv i) (ODict (N:=RN) d) -> forall o, reads st (IStd i) o <-> o = ONum (N:=RN) (prop_std st d).
Proof.
  intros st ss i n gr ds var d S Es Rd o. destruct (env_nth' _ _ _ _ S Es) as ([q|u] & Hi & Rl); [contradiction|].
  destruct (number_rel _ _ _ _ S Hi) as (n1 & gr1 & ds1 & var1 & NR).
  destruct (deriv_read _ _ _ _ _ _ _ _ _ S NR Rd) as (d1 & E & ND & K & V). injection E; intros <-.
  rewrite (prop_std_sstd st ss d gr1 ds1 S ND K V) by apply NR. split.
  - intros Ro. exact (std_read _ _ _ _ _ _ _ _ o (IStd i) S NR (or_introl eq_refl) Ro).
  - intros ->. destruct (reads_total st ss (IStd i) S) as (o & Ho).
    rewrite (std_read _ _ _ _ _ _ _ _ o (IStd i) S NR (or_introl eq_refl) Ho) in Ho. exact Ho.
Qed.
Lemma copied_is : forall st ss st' ss' fv us i k n gr ds var sa', sim st ss -> sim st' ss' ->
  copies_of (st_heap st) (st_heap st') fv us -> nth_error (ss_env ss) i = Some (SUF n gr ds var) ->
  nth_error (ss_env ss') k = Some sa' -> scopied fv us (SUF n gr ds var) sa' ->
  is_copy (total_rename (length (h_var (st_heap st))) us fv) st st' i k.
Proof.
  intros st ss st' ss' fv us i k n gr ds var sa' S S' VC Es Es' Sc.
  set (rho := total_rename (length (h_var (st_heap st))) us fv).
  destruct sa' as [|n' gr' ds' var']; [contradiction|].
  destruct (deriv_total _ _ _ _ _ _ _ S' Es') as (d' & Rd').
  destruct (deriv_total _ _ _ _ _ _ _ S Es) as (d0 & Rd0).
  assert (X : forall d, reads st (IDeriv i) (ODict (N:=RN) d) -> _) by
    (intros d Rd; exact (copied_dict _ _ _ _ _ _ _ _ _ _ _ _ _ d d' rho S S' eq_refl VC Es Es' Sc Rd Rd')).
  split; [|split; [|split]].
  - intros p. rewrite (nominal_of _ _ _ _ _ _ _ p S Es), (nominal_of _ _ _ _ _ _ _ p S' Es').
    destruct Sc as (-> & _). auto.
  - intros s. rewrite (std_value _ _ _ _ _ _ _ d0 S Es Rd0), (std_value _ _ _ _ _ _ _ d' S' Es' Rd').
    intros ->. f_equal. destruct (X d0 Rd0) as (A & B & Pm). unfold prop_std. f_equal.
    rewrite (Rsum_Permutation _ _ (Permutation_map (fun p => (snd p * sd st' (fst p)) ^ 2) Pm)).
    rewrite map_map. f_equal. apply map_ext_in. intros [v x] I. cbn [fst snd].
    destruct (deriv_total _ _ _ _ _ _ _ S Es) as (d1 & Rd1).
    pose proof (reads_sim _ _ _ _ S Rd0) as O. cbn [sstep] in O. unfold swith_uf, swith in O. rewrite Es in O. destruct O as [ND _].
    destruct (A v x (In_dget d0 v x ND I)) as (_ & -> & _). reflexivity.
  - intros d Rd. exists d'. split; auto. destruct (X d Rd) as (A & B & _). auto.
  - intros u v Hu Hv. destruct (env_nth' _ _ _ _ S' Es') as ([q|u'] & Hk & Rl'); [contradiction|].
    exists u'. split; auto. destruct (env_nth _ _ _ _ S Hu) as (sa & Esa & Rl).
    rewrite Es in Esa. injection Esa; intros <-. destruct Rl as (U & _ & Ev & Hvv). destruct Rl' as (_ & _ & Ev' & _).
    destruct Sc as (_ & _ & G & ->). rewrite Ev', <- Ev, Hv. cbn. f_equal.
    rewrite Hv in Ev. destruct (Hvv v (eq_sym Ev)) as (_ & -> & _).
    unfold rho. rewrite total_in; auto. apply G. cbn. auto.
Qed.
Lemma copied_fresh : forall st ss st' nv ne fv us, sim st ss -> sim st' (mkS (ss_vars ss ++ nv) (ss_env ss ++ ne)) ->
  copies_of (st_heap st) (st_heap st') fv us ->
  fresh_renaming (total_rename (length (h_var (st_heap st))) us fv) st st'.
Proof.
  intros st ss st' nv ne fv us S S' [Inj VC]. split; [now apply total_inj|].
  intros j d v Hj Rd. pose proof (sim_same_env _ _ S) as L.
  destruct (nth_error (ss_env ss) j) as [sa|] eqn:Es; [|apply nth_error_None in Es; lia].
  assert (Es' : nth_error (ss_env (mkS (ss_vars ss ++ nv) (ss_env ss ++ ne))) j = Some sa).
  { cbn [ss_env]. rewrite nth_error_app1; auto. lia. }
  pose proof (reads_sim _ _ _ _ S' Rd) as O. cbn [sstep] in O. unfold swith_uf, swith in O. rewrite Es' in O.
  destruct sa as [p|n gr ds var]; [contradiction|]. destruct O as [ND O]. rewrite O. unfold restrict.
  destruct (existsb (Nat.eqb (total_rename (length (h_var (st_heap st))) us fv v)) ds) eqn:Ev; auto. exfalso.
  apply existsb_exists in Ev as (w & Hw & Ev). apply Nat.eqb_eq in Ev. subst w.
  destruct (env_nth' _ _ _ _ S Es) as ([q|u] & Hu & Rl); [contradiction|].
  destruct (number_rel _ _ _ _ S Hu) as (n1 & gr1 & ds1 & var1 & NR).
  pose proof (nr_env _ _ _ _ _ _ _ _ NR) as E1. rewrite Es in E1. injection E1; intros; subst.
  apply (nr_bound _ _ _ _ _ _ _ _ NR) in Hw. rewrite <- (varsrel_len _ _ (si_vars _ _ S)) in Hw.
  pose proof (total_ge (length (h_var (st_heap st))) us fv v) as T.
  assert (forall x, In x us -> (length (h_var (st_heap st)) <= fv x)%nat) by (intros x Hx; apply VC; auto).
  specialize (T H). lia.
Qed.

(** ** The calls *)
Lemma copy_var_rel : forall h env vs senv u n gr ds v, sim (mkState h env) (mkS vs senv) ->
  vrel h (VUF u) (SUF n gr ds (Some v)) ->
  exists u' h' objs sa' fv us, py_copy (VUF u) h = (Ok (VUF u'), h') /\
    h_var h' = h_var h ++ objs /\
    sim (mkState h' (env ++ [VUF u'])) (mkS (vs ++ map v_std objs) (senv ++ [sa'])) /\
    copies_of h h' fv us /\ scopied (g:=g) (lg:=lg) fv us (SUF n gr ds (Some v)) sa'.
Proof.
  intros h env vs senv u n gr ds v S Rl. pose proof S as [W V E]. cbn in W, V, E.
  pose proof Rl as (U & D & Ev & Hv). destruct (Hv v eq_refl) as (Lv & Ed & Eg).
  destruct (varsrel_get h vs v V Lv) as (o & Go & Gs & Gp). rewrite <- Gs in Gp.
  pose proof (new_rel (mkState h env) (mkS vs senv) (PF (N:=RN) (uf_nom u)) (PF (N:=RN) (v_std o)) (v_tag o) S) as Q.
  cbn [py_copy]. rewrite Ev, Go.
  assert (Nn : new_var (N:=RN) (PF (N:=RN) (uf_nom u)) (PF (N:=RN) (v_std o)) (v_tag o) h =
    (Ok (mkUF (N:=RN) (uf_nom u) (length (h_lc h)) (Some (length (h_var h)))),
     mkHeap (N:=RN) (h_lc h ++ [LDict (N:=RN) [(length (h_var h), 1)]])
       (h_var h ++ [mkVar (N:=RN) (uf_nom u) (length (h_lc h)) (v_std o) (v_tag o)]))).
  { unfold new_var. rewrite pn_float_R, check_std_R. cbn [pval].
    rewrite (proj2 (Rltb_false (v_std o) 0)) by exact Gp. reflexivity. }
  cbn [step st_heap] in Q. rewrite Nn in Q |- *. cbn [sstep pval] in Q.
  rewrite (proj2 (Rltb_false (v_std o) 0)) in Q by exact Gp. destruct Q as [Q _]. cbn [push fst] in Q.
  do 3 eexists. exists (SUF n (delta (length vs)) [length vs] (Some (length vs))), (fun _ => length vs), [v].
  pose proof (varsrel_len _ _ V) as L.
  split; [reflexivity|]. split; [reflexivity|]. split; [|split].
  - destruct U as [U1 _ _ _]. rewrite U1 in Q. cbn [map v_std]. rewrite U1. exact Q.
  - split.
    + intros x y [<-|[]] [<-|[]] _. reflexivity.
    + intros x [<-|[]]. split; [lia|]. exists o. eexists. split; [exact Go|]. split.
      { unfold get_var. cbn [h_var]. rewrite nth_error_app2, <- L, Nat.sub_diag by lia. reflexivity. }
      cbn. auto.
  - cbn. subst ds. split; auto. split; auto. split; auto. intros x [<-|[]]. split; [cbn; auto|].
    rewrite Eg. unfold delta. now rewrite !Nat.eqb_refl.
Qed.

(** No call affects existing numbers. *)
Lemma call_grows : forall st ss c, sim st ss -> call_ok c ->
  exists nv ne, sim (fst (call_step st c)) (mkS (ss_vars ss ++ nv) (ss_env ss ++ ne)).
Proof.
  intros st ss c S Hc. destruct (call_sim st ss c S Hc) as (ss' & S' & [(n & s & tag & ->)|(nv & ne & -> & _)]); [|eauto].
  cbn [sstep] in S'. destruct (Rltb (pval s) 0).
  - destruct ss as [vs senv]. cbn in S'. exists []. eexists. rewrite app_nil_r. exact S'.
  - eauto.
Qed.
Theorem call_unaffected : forall (st : state) c j, reachable st -> call_ok c -> (j < length (st_env st))%nat ->
  unaffected st (fst (call_step st c)) j.
Proof.
  intros st c j Rc Hc Hj. destruct (reach_sim st Rc) as (ss & S).
  destruct (call_grows st ss c S Hc) as (nv & ne & S'). eapply grown_unaffected; eauto.
Qed.

(** C32 *)
Theorem deepcopy_spec : forall (st : state) i u st' o, reachable st -> is_number st i u ->
  call_step st (CDeepcopy i) = (st', o) ->
  o = ONone /\ length (st_env st') = S (length (st_env st)) /\
  exists rho, fresh_renaming rho st st' /\ is_copy rho st st' i (length (st_env st)).
Proof.
  intros st i u st' o Rc Hu C. destruct (reach_sim st Rc) as (ss & S). destruct st as [h env], ss as [vs senv].
  destruct (env_nth _ _ _ _ S Hu) as (sa & Es & Rl). destruct sa as [|n gr ds var]; [contradiction|].
  cbn [call_step st_env st_heap] in C. pose proof Hu as Hu'. unfold is_number in Hu'. cbn [st_env] in Hu'. rewrite Hu' in C.
  assert (X : exists u' h' objs sa' fv us, py_deepcopy (VUF u) h = (Ok (VUF u'), h') /\
    h_var h' = h_var h ++ objs /\
    sim (mkState h' (env ++ [VUF u'])) (mkS (vs ++ map v_std objs) (senv ++ [sa'])) /\
    copies_of h h' fv us /\ scopied (g:=g) (lg:=lg) fv us (SUF n gr ds var) sa').
  { destruct var as [v|].
    - destruct (copy_var_rel h env vs senv u n gr ds v S Rl) as (u' & h' & objs & sa' & fv & us & E & H).
      exists u', h', objs, sa', fv, us. split; auto. cbn [py_deepcopy].
      destruct Rl as (_ & _ & Ev & _). rewrite Ev. exact E.
    - destruct (deepcopy_rel h env vs senv u n gr ds S Rl) as (u' & h' & objs & sa' & fv & us & E & H & S' & VC & Sc).
      exists u', h', objs, sa', fv, us. repeat (split; [assumption|]). split; [exact (var_copies_of _ _ _ _ VC)|exact Sc]. }
  destruct X as (u' & h' & objs & sa' & fv & us & E & Ho & S' & VC & Sc).
  rewrite E in C. cbn [push st_env] in C. injection C; intros <- <-.
  split; auto. cbn [st_env]. split; [rewrite app_length; cbn; lia|].
  exists (total_rename (length (h_var h)) us fv). split.
  - exact (copied_fresh _ _ _ _ _ fv us S S' VC).
  - pose proof (sim_same_env _ _ S) as L. cbn in L.
    eapply (copied_is _ _ _ _ fv us i (length env) n gr ds var sa' S S' VC Es); auto.
    cbn [ss_env]. rewrite <- L. rewrite nth_error_app2, Nat.sub_diag by lia. reflexivity.
Qed.
Theorem copy_variable : forall (st : state) i u v, is_number st i u -> uf_var u = Some v ->
  call_step st (CCopy i) = call_step st (CDeepcopy i).
Proof.
  intros st i u v Hu Hv. unfold is_number in Hu. cbn [call_step]. rewrite Hu. cbn [py_deepcopy]. now rewrite Hv.
Qed.
Theorem copy_calculated : forall (st : state) i u st' o, reachable st -> is_number st i u -> uf_var u = None ->
  call_step st (CCopy i) = (st', o) ->
  o = ONone /\ length (st_env st') = S (length (st_env st)) /\
  exists u', is_number st' (length (st_env st)) u' /\ uf_var u' = None /\
    (forall p, has_nominal st' (length (st_env st)) p <-> has_nominal st' i p) /\
    (forall o, reads st' (IDeriv (length (st_env st))) o <-> reads st' (IDeriv i) o) /\
    (forall o, reads st' (IStd (length (st_env st))) o <-> reads st' (IStd i) o) /\
    reads st' (ICmp Ceq (length (st_env st)) i) (OBool true).
Proof.
  intros st i u st' o Rc Hu Hv C.
  assert (Rc' : reachable st').
  { replace st' with (fst (call_step st (CCopy i))) by now rewrite C. apply reach_call; auto. exact I. }
  unfold is_number in Hu. cbn [call_step] in C. rewrite Hu in C. cbn [py_copy] in C. rewrite Hv in C.
  unfold ret in C. cbn [push] in C. injection C; intros <- <-. cbn [st_env] in *.
  assert (Li : (i < length (st_env st))%nat) by (eapply nth_lt; eauto).
  assert (Eu : mkUF (uf_nom u) (uf_lp u) None = u) by (destruct u; cbn in *; congruence).
  rewrite Eu in *. split; auto. split; [rewrite app_length; cbn; lia|]. exists u.
  assert (Hi : nth_error (st_env st ++ [VUF u]) i = Some (VUF u)) by (rewrite nth_error_app1; auto).
  assert (Hk : nth_error (st_env st ++ [VUF u]) (length (st_env st)) = Some (VUF u)).
  { rewrite nth_error_app2, Nat.sub_diag by lia. reflexivity. }
  split; [exact Hk|]. split; auto. split; [|split; [|split]].
  - intros p. unfold has_nominal. cbn [st_env]. rewrite Hi, Hk. reflexivity.
  - intros o. unfold reads, does. cbn [step st_env st_heap]. unfold with_uf, with_val. cbn [st_env]. rewrite Hi, Hk. reflexivity.
  - intros o. unfold reads, does. cbn [step st_env st_heap]. unfold with_uf, with_val. cbn [st_env]. rewrite Hi, Hk. reflexivity.
  - destruct (reach_sim _ Rc') as (ss & S).
    destruct (number_rel _ _ i u S Hi) as (n & gr & ds & var & NR).
    destruct (deriv_total _ _ i _ _ _ _ S (nr_env _ _ _ _ _ _ _ _ NR)) as (d & Rd).
    apply (same_gradient_equal _ _ u i u d d Rc' Hk Hi); auto.
    destruct Rd as (st1 & k & Rd). exists st1, k. intros f Hf. rewrite <- (Rd f Hf). cbn [step]. unfold with_uf, with_val.
    cbn [st_env]. now rewrite Hi, Hk.
Qed.
Theorem deepcopies_independent : forall st i u st1 o1 j u' st2 o2 d1 d2 v, reachable st ->
  is_number st i u -> call_step st (CDeepcopy i) = (st1, o1) ->
  is_number st1 j u' -> call_step st1 (CDeepcopy j) = (st2, o2) ->
  reads st2 (IDeriv (length (st_env st))) (ODict (N:=RN) d1) ->
  reads st2 (IDeriv (length (st_env st1))) (ODict d2) -> dget d1 v = None \/ dget d2 v = None.
Proof.
  intros st i u st1 o1 j u' st2 o2 d1 d2 v Rc Hu C1 Hu' C2 R1 R2.
  assert (Rc1 : reachable st1).
  { replace st1 with (fst (call_step st (CDeepcopy i))) by now rewrite C1. apply reach_call; auto. exact I. }
  destruct (deepcopy_spec _ _ _ _ _ Rc Hu C1) as (_ & L1 & _).
  destruct (deepcopy_spec _ _ _ _ _ Rc1 Hu' C2) as (_ & _ & rho & (_ & Fr) & (_ & _ & Cp & _)).
  destruct (reach_sim st1 Rc1) as (ss1 & S1). destruct (number_rel _ _ _ _ S1 Hu') as (n & gr & ds & var & NR).
  destruct (deriv_total _ _ _ _ _ _ _ S1 (nr_env _ _ _ _ _ _ _ _ NR)) as (d & Rd).
  destruct (Cp d Rd) as (d2' & Rd2 & _ & K). pose proof (reads_unique _ _ _ _ R2 Rd2) as E. injection E; intros <-.
  destruct (dget d2 v) as [x|] eqn:D; auto. left. destruct (K v) as (w & -> & _); [congruence|].
  apply (Fr (length (st_env st)) d1 w); auto. lia.
Qed.

(** C33 *)
Theorem pickle_spec : forall (st : state) is st' o, reachable st -> NoDup is ->
  Forall (fun i => (i < length (st_env st))%nat) is -> call_step st (CPickle is) = (st', o) ->
  o = ONone /\ length (st_env st') = (length (st_env st) + length is)%nat /\
  exists rho, fresh_renaming rho st st' /\
    (forall a i, nth_error is a = Some i -> uncertain st i -> is_copy rho st st' i (length (st_env st) + a)%nat) /\
    (forall a i p, nth_error is a = Some i -> nth_error (st_env st) i = Some (VPlain p) ->
       nth_error (st_env st') (length (st_env st) + a)%nat = Some (VPlain p)).
Proof.
  intros st is st' o Rc ND B C. destruct (reach_sim st Rc) as (ss & S). destruct st as [h env], ss as [vs senv].
  cbn [st_env] in B. cbn [call_step st_env st_heap] in C. pose proof (get_args_rel h env senv is (si_env _ _ S)) as A.
  destruct (get_args env is) as [l|] eqn:Ga.
  2:{ exfalso. clear - Ga B. induction B as [|i is Hi B IH]; [discriminate|]. cbn in Ga.
      destruct (nth_error env i) eqn:E; [|apply nth_error_None in E; lia].
      destruct (get_args env is); [discriminate|auto]. }
  destruct (sargs senv is) as [sl|] eqn:Gs; [|contradiction].
  destruct (pickle_rel h env vs senv l sl S A) as (l' & h' & objs & sl' & fv & us & E & Ho & S' & VC & Sc).
  rewrite E in C. cbn [push_list st_env] in C. injection C; intros <- <-. cbn [st_env].
  assert (Ll : length sl = length is).
  { clear - Gs. revert sl Gs. induction is as [|i is IH]; intros sl Gs; cbn in Gs.
    - injection Gs; intros <-. reflexivity.
    - destruct (nth_error senv i); [|discriminate]. destruct (sargs senv is); [|discriminate].
      injection Gs; intros <-. cbn. f_equal. now apply IH. }
  pose proof (Forall2_len _ _ _ _ _ Sc) as Lsc. pose proof (sim_same_env _ _ S) as Le. cbn in Le.
  pose proof (sim_same_env _ _ S') as Le'. cbn in Le'. rewrite !app_length in Le'.
  split; auto. split; [rewrite app_length; lia|].
  assert (Nt : forall a i, nth_error is a = Some i -> exists sa sa', nth_error senv i = Some sa /\
    nth_error (senv ++ sl') (length env + a) = Some sa' /\ scopied fv us sa sa').
  { intros a i Ha. destruct (nth_error sl a) as [sa|] eqn:Ea.
    2:{ apply nth_error_None in Ea. apply nth_lt in Ha. lia. }
    destruct (sargs_nth senv is sl Gs a sa Ea) as (i' & Hi' & Hs). rewrite Ha in Hi'. injection Hi'; intros <-.
    destruct (Forall2_nth_error _ _ _ _ _ Sc _ _ Ea) as (sa' & Ea' & Hc). exists sa, sa'. split; auto. split; auto.
    rewrite <- Le, nth_error_app_r. exact Ea'. }
  exists (total_rename (length (h_var h)) us fv). split; [|split].
  - exact (copied_fresh _ _ _ _ _ fv us S S' (var_copies_of _ _ _ _ VC)).
  - intros a i Ha (u & Hu). destruct (Nt a i Ha) as (sa & sa' & Es & Es' & Hc).
    destruct (env_nth _ _ _ _ S Hu) as (sa1 & Es1 & Rl). cbn [ss_env] in Es1. rewrite Es in Es1. injection Es1; intros <-.
    destruct sa as [|n gr ds var]; [contradiction|].
    exact (copied_is _ _ _ _ fv us i (length env + a)%nat n gr ds var sa' S S' (var_copies_of _ _ _ _ VC) Es Es' Hc).
  - intros a i p Ha Hi. destruct (Nt a i Ha) as (sa & sa' & Es & Es' & Hc).
    destruct (env_nth _ _ _ _ S Hi) as (sa1 & Es1 & Rl). cbn [ss_env] in Es1. rewrite Es in Es1. injection Es1; intros <-.
    destruct sa as [q|]; [|contradiction]. cbn in Rl. subst q. destruct sa' as [q|]; [|contradiction]. cbn in Hc. subst q.
    destruct (env_nth' _ _ _ _ S' Es') as ([q|u] & Hk & Rl'); [|contradiction]. cbn in Rl'. subst q. exact Hk.
Qed.

(** Mutual covariances are kept. *)
Theorem copies_covariance : forall rho st st' i i' k k' d d' e e', reachable st -> reachable st' ->
  fresh_renaming rho st st' -> is_copy rho st st' i k -> is_copy rho st st' i' k' ->
  reads st (IDeriv i) (ODict (N:=RN) d) -> reads st (IDeriv i') (ODict d') ->
  reads st' (IDeriv k) (ODict e) -> reads st' (IDeriv k') (ODict e') ->
  covsum st' e e' = covsum st d d'.
Proof.
  intros rho st st' i i' k k' d d' e e' Rc Rc' (Inj & _) (_ & _ & C & _) (_ & _ & C' & _) Rd Rd' Re Re'.
  destruct (C d Rd) as (e1 & Re1 & A & B). pose proof (reads_unique _ _ _ _ Re Re1) as X. injection X; intros <-.
  destruct (C' d' Rd') as (e2 & Re2 & A' & B'). pose proof (reads_unique _ _ _ _ Re' Re2) as X'. injection X'; intros <-.
  destruct (reach_sim _ Rc) as (ss & S). destruct (reach_sim _ Rc') as (ss' & S').
  assert (ND : forall t tt ix (x : dict RN), sim t tt -> reads t (IDeriv ix) (ODict x) -> NoDup (dkeys x)).
  { intros t tt ix x T R. pose proof (reads_sim _ _ _ _ T R) as O. cbn [sstep] in O. unfold swith_uf, swith in O.
    destruct (nth_error (ss_env tt) ix) as [[p|n gr ds var]|]; try contradiction. destruct O. auto. }
  pose proof (ND _ _ _ _ S Rd) as N1. pose proof (ND _ _ _ _ S' Re) as N2.
  pose proof (dict_permutation rho d e Inj N1 N2 (fun v x D => proj1 (A v x D)) B) as Pm.
  unfold covsum. rewrite (Rsum_Permutation _ _ (Permutation_map (fun p => snd p * dval e' (fst p) * sd st' (fst p) ^ 2) Pm)).
  rewrite map_map. f_equal. apply map_ext_in. intros [v x] Hin. cbn [fst snd].
  destruct (A v x (In_dget d v x N1 Hin)) as (_ & -> & _). f_equal. f_equal.
  unfold dval. destruct (dget d' v) as [y|] eqn:D'.
  - now rewrite (proj1 (A' v y D')).
  - destruct (dget e' (rho v)) as [y|] eqn:E'; auto. exfalso.
    destruct (B' (rho v)) as (w & Ew & Dw); [congruence|]. apply Inj in Ew. subst w. congruence.
Qed.
Theorem pickle_covariance : forall st is st' o order order' (m m' : matrix RN) st1 st2 a b, reachable st -> NoDup is ->
  Forall (uncertain st) is -> call_step st (CPickle is) = (st', o) ->
  (forall l, Permutation (order l) l) -> (forall l, Permutation (order' l) l) ->
  covariance order st is (Ok m) st1 ->
  covariance order' st' (seq (length (st_env st)) (length is)) (Ok m') st2 ->
  (a < length is)%nat -> (b < length is)%nat -> mat m' a b = mat m a b.
Proof.
  intros st is st' o order order' m m' st1 st2 a b Rc ND U C P P' Cv Cv' Ha Hb.
  assert (Bd : Forall (fun i => (i < length (st_env st))%nat) is).
  { eapply Forall_impl; [|exact U]. intros i (u & Hu). eapply nth_lt; eauto. }
  assert (Rc' : reachable st').
  { replace st' with (fst (call_step st (CPickle is))) by now rewrite C. apply reach_call; auto. }
  destruct (pickle_spec st is st' o Rc ND Bd C) as (_ & L & rho & Fr & Cp & _).
  destruct (nth_error is a) as [i|] eqn:Ea; [|apply nth_error_None in Ea; lia].
  destruct (nth_error is b) as [j|] eqn:Eb; [|apply nth_error_None in Eb; lia].
  pose proof (Forall_nth_error _ _ _ _ _ U Ea) as Ui. pose proof (Forall_nth_error _ _ _ _ _ U Eb) as Uj.
  pose proof (Cp a i Ea Ui) as Ci. pose proof (Cp b j Eb Uj) as Cj.
  destruct (reach_sim _ Rc) as (ss & S). destruct (reach_sim _ Rc') as (ss' & S').
  destruct (uncertain_rel _ _ _ S Ui) as (u & n & gr & ds & var & NR).
  destruct (uncertain_rel _ _ _ S Uj) as (u2 & n2 & gr2 & ds2 & var2 & NR2).
  destruct (deriv_total _ _ _ _ _ _ _ S (nr_env _ _ _ _ _ _ _ _ NR)) as (d & Rd).
  destruct (deriv_total _ _ _ _ _ _ _ S (nr_env _ _ _ _ _ _ _ _ NR2)) as (d2 & Rd2).
  destruct (proj1 (proj2 (proj2 Ci)) d Rd) as (e & Re & _).
  destruct (proj1 (proj2 (proj2 Cj)) d2 Rd2) as (e2 & Re2 & _).
  assert (Q : forall c, (c < length is)%nat -> nth_error (seq (length (st_env st)) (length is)) c = Some (length (st_env st) + c)%nat).
  { intros c Hc. rewrite (nth_error_nth' _ 0%nat) by now rewrite seq_length. now rewrite seq_nth. }
  assert (U' : Forall (uncertain st') (seq (length (st_env st)) (length is))).
  { apply Forall_forall. intros k Hk. apply in_seq in Hk.
    destruct (nth_error is (k - length (st_env st))) as [q|] eqn:Eq; [|apply nth_error_None in Eq; lia].
    pose proof (Forall_nth_error _ _ _ _ _ U Eq) as Uq. pose proof (Cp _ _ Eq Uq) as Cq.
    destruct (uncertain_rel _ _ _ S Uq) as (u3 & n3 & gr3 & ds3 & var3 & NR3).
    destruct (deriv_total _ _ _ _ _ _ _ S (nr_env _ _ _ _ _ _ _ _ NR3)) as (d3 & Rd3).
    destruct (proj1 (proj2 (proj2 Cq)) d3 Rd3) as (e3 & Re3 & _).
    replace (length (st_env st) + (k - length (st_env st)))%nat with k in Re3 by lia.
    destruct (nth_error (st_env st') k) as [[p|w]|] eqn:Ek.
    - exfalso. destruct Re3 as (t & f & H). specialize (H f (le_n _)). cbn [step] in H. unfold with_uf, with_val in H.
      rewrite Ek in H. discriminate.
    - exists w. exact Ek.
    - exfalso. apply nth_error_None in Ek. lia. }
  rewrite (covariance_entries _ _ _ _ _ _ _ _ _ _ _ Rc P U Cv Ea Eb Rd Rd2).
  rewrite (covariance_entries _ _ _ _ _ _ _ _ _ _ _ Rc' P' U' Cv' (Q a Ha) (Q b Hb) Re Re2).
  exact (copies_covariance rho st st' i j _ _ d d2 e e2 Rc Rc' Fr Ci Cj Rd Rd2 Re Re2).
Qed.
End CopyProofs.
