(** Covariance matrices, correlation matrices and correlated values over exact numbers. *)
From Coq Require Import ZArith List Bool Reals Lra Lia Arith Permutation.
From Verif Require Import Base Heap Affine Ops UMath NumR HeapSpec HeapProofs DenProofs Machine Spec
  Refine RefineStep Cov Copy Calls History CallProofs CovConv CovSpec HistoryProofs.
Import ListNotations.
Local Open Scope R_scope.

(** ** Sums *)
Lemma Sum_ext : forall n F G, (forall i, (i < n)%nat -> F i = G i) -> Sum n F = Sum n G.
Proof.
  intros n F G H. unfold Sum. f_equal. apply map_ext_in. intros i Hi. apply in_seq in Hi. apply H. lia.
Qed.
Lemma Sum_S : forall n F, Sum (S n) F = Sum n F + F n.
Proof. intros. unfold Sum. rewrite seq_S, map_app, Rsum_app. cbn. lra. Qed.
Lemma Sum_plus : forall n F G, Sum n (fun i => F i + G i) = Sum n F + Sum n G.
Proof. induction n; intros; [cbn; lra|]. rewrite !Sum_S, IHn. lra. Qed.
Lemma Sum_scal : forall n c F, Sum n (fun i => c * F i) = c * Sum n F.
Proof. induction n; intros; [cbn; lra|]. rewrite !Sum_S, IHn. lra. Qed.
Lemma Sum_zero : forall n F, (forall i, (i < n)%nat -> F i = 0) -> Sum n F = 0.
Proof. induction n; intros; [reflexivity|]. rewrite Sum_S, IHn, H; auto. lra. Qed.
Lemma Sum_swap : forall n m F, Sum n (fun i => Sum m (fun j => F i j)) = Sum m (fun j => Sum n (fun i => F i j)).
Proof.
  induction n; intros m F.
  - cbn. symmetry. apply Sum_zero. reflexivity.
  - rewrite Sum_S, IHn, <- Sum_plus. apply Sum_ext. intros. now rewrite Sum_S.
Qed.
Lemma Sum_nonneg : forall n F, (forall i, (i < n)%nat -> 0 <= F i) -> 0 <= Sum n F.
Proof.
  induction n; intros F H; [cbn; lra|]. rewrite Sum_S. specialize (IHn F). specialize (H n) as Hn.
  assert (0 <= Sum n F) by (apply IHn; auto). specialize (Hn (Nat.lt_succ_diag_r n)). lra.
Qed.
Lemma Sum_one : forall n i F, (i < n)%nat -> (forall j, (j < n)%nat -> j <> i -> F j = 0) -> Sum n F = F i.
Proof.
  induction n; intros i F Hi Z; [lia|]. rewrite Sum_S. destruct (Nat.eq_dec i n) as [->|Hn].
  - rewrite Sum_zero; [lra|]. intros j Hj. apply Z; lia.
  - rewrite (IHn i F), (Z n); try lia; [lra|]. intros j Hj Hji. apply Z; lia.
Qed.
Lemma kron_diff : forall i j, i <> j -> kron i j = 0.
Proof. intros. unfold kron. destruct (Nat.eqb_spec i j); [contradiction|reflexivity]. Qed.
Lemma kron_same : forall i, kron i i = 1.
Proof. intros. unfold kron. now rewrite Nat.eqb_refl. Qed.
Lemma Sum_kron : forall n i F, (i < n)%nat -> Sum n (fun j => kron i j * F j) = F i.
Proof.
  intros n i F Hi. rewrite (Sum_one n i); auto.
  - rewrite kron_same. ring.
  - intros j _ Hj. rewrite kron_diff by auto. ring.
Qed.
Lemma Sum_nth : forall A (l : list A) d (F : A -> R), Rsum (map F l) = Sum (length l) (fun i => F (nth i l d)).
Proof.
  intros A l d F. induction l as [|a l IH]; [reflexivity|]. cbn [map Rsum length].
  unfold Sum. cbn [seq map Rsum nth]. f_equal. rewrite IH, <- seq_shift, map_map. reflexivity.
Qed.

(** Positive semi-definite matrices: the square of an element is at most the product of the
    diagonal ones. *)
Lemma quad_two : forall n M i j s t, (i < n)%nat -> (j < n)%nat -> i <> j ->
  Sum n (fun a => Sum n (fun b => (s * kron i a + t * kron j a) * (s * kron i b + t * kron j b) * M a b)) =
  s * s * M i i + s * t * M i j + t * s * M j i + t * t * M j j.
Proof.
  intros n M i j s t Hi Hj D.
  transitivity (Sum n (fun a => (s * kron i a + t * kron j a) * (s * M a i + t * M a j))).
  - apply Sum_ext. intros a _.
    transitivity ((s * kron i a + t * kron j a) * Sum n (fun b => s * (kron i b * M a b) + t * (kron j b * M a b))).
    + rewrite <- Sum_scal. apply Sum_ext. intros; ring.
    + rewrite Sum_plus, !Sum_scal, !(Sum_kron n _ (fun b => M a b)) by auto. reflexivity.
  - transitivity (Sum n (fun a => s * (kron i a * (s * M a i + t * M a j)) + t * (kron j a * (s * M a i + t * M a j)))).
    + apply Sum_ext. intros; ring.
    + rewrite Sum_plus, !Sum_scal, !(Sum_kron n _ (fun a => s * M a i + t * M a j)) by auto. ring.
Qed.
Lemma psd_diag : forall n M i, psd n M -> (i < n)%nat -> 0 <= M i i.
Proof.
  intros n M i P Hi. specialize (P (fun a => kron i a)). cbv beta in P.
  assert (E : Sum n (fun a => Sum n (fun b => kron i a * kron i b * M a b)) = M i i).
  { transitivity (Sum n (fun a => kron i a * M a i)); [|apply (Sum_kron n i (fun a => M a i)); auto].
    apply Sum_ext. intros a _. transitivity (kron i a * Sum n (fun b => kron i b * M a b)).
    - rewrite <- Sum_scal. apply Sum_ext. intros; ring.
    - now rewrite (Sum_kron n i (fun b => M a b)). }
  now rewrite E in P.
Qed.
Lemma psd_two : forall n M i j s t, psd n M -> (i < n)%nat -> (j < n)%nat -> i <> j ->
  (forall a b, M a b = M b a) -> 0 <= s * s * M i i + 2 * (s * t * M i j) + t * t * M j j.
Proof.
  intros n M i j s t P Hi Hj D Sy. specialize (P (fun a => s * kron i a + t * kron j a)). cbv beta in P.
  rewrite quad_two in P by auto. rewrite (Sy j i) in P. lra.
Qed.
Lemma psd_cauchy : forall n M i j, psd n M -> (i < n)%nat -> (j < n)%nat ->
  (forall a b, M a b = M b a) -> M i j ^ 2 <= M i i * M j j.
Proof.
  intros n M i j P Hi Hj Sy. destruct (Nat.eq_dec i j) as [->|D]; [right; ring|].
  pose proof (psd_diag n M i P Hi) as A. pose proof (psd_diag n M j P Hj) as B.
  assert (Q : forall s t, 0 <= s * s * M i i + 2 * (s * t * M i j) + t * t * M j j).
  { intros. now apply (psd_two n). }
  destruct (Req_dec (M j j) 0) as [Z|Z].
  - destruct (Req_dec (M i j) 0) as [Z'|Z']; [rewrite Z'; nra|]. exfalso.
    pose proof (Q 1 (- (M i i + 1) / (2 * M i j))) as X. rewrite Z in X.
    replace (1 * 1 * M i i + 2 * (1 * (- (M i i + 1) / (2 * M i j)) * M i j) +
      - (M i i + 1) / (2 * M i j) * (- (M i i + 1) / (2 * M i j)) * 0) with (-1) in X by (field; auto).
    lra.
  - pose proof (Q (M j j) (- M i j)) as X. nra.
Qed.
Lemma psd_zero_diag : forall n M i j, psd n M -> (i < n)%nat -> (j < n)%nat ->
  (forall a b, M a b = M b a) -> M i i = 0 -> M i j = 0.
Proof. intros n M i j P Hi Hj Sy Z. pose proof (psd_cauchy n M i j P Hi Hj Sy). rewrite Z in H. nra. Qed.

Section CovProofs.
Context {g lg : R -> R}.
Notation RN := (ROps g lg).
Notation state := (state RN).
Implicit Types (st : state).

Lemma scov_sym : forall vs g1 g2, scov vs g1 g2 = scov vs g2 g1.
Proof. intros. unfold scov. f_equal. apply map_ext. intros; ring. Qed.
Lemma scov_Sum : forall vs g1 g2, scov vs g1 g2 = Sum (length vs) (fun v => g1 v * g2 v * sigma vs v ^ 2).
Proof. reflexivity. Qed.

Lemma slower_length : forall vs (sl : list (sval g lg)) rest i, length (slower vs sl i rest) = length rest.
Proof. intros vs sl. induction rest; intros; cbn; auto. Qed.
Lemma slower_nth : forall vs (sl : list (sval g lg)) d rest i k, (k < length rest)%nat ->
  nth k (slower vs sl i rest) [] =
  map (fun b => scov vs (sgrad (nth k rest d)) (sgrad b)) (firstn (S (i + k)) sl).
Proof.
  intros vs sl d. induction rest as [|a rest IH]; intros i k Hk; cbn in Hk; [lia|].
  cbn [slower]. destruct k as [|k].
  - cbn [nth]. now rewrite Nat.add_0_r.
  - cbn [nth]. rewrite IH by lia. now rewrite Nat.add_succ_r.
Qed.
Lemma nth_map_lt : forall A B (f : A -> B) l k da db, (k < length l)%nat -> nth k (map f l) db = f (nth k l da).
Proof. intros. rewrite (nth_indep _ db (f da)) by now rewrite map_length. apply map_nth. Qed.
Lemma nth_firstn_lt : forall A (l : list A) n k d, (k < n)%nat -> nth k (firstn n l) d = nth k l d.
Proof.
  induction l as [|a l IH]; intros n k d H; destruct n; cbn; try lia; auto.
  destruct k; auto. apply IH. lia.
Qed.

Definition dummy : sval g lg := SPlain (POther 0).
Definition covof (vs : svars) (sl : list (sval g lg)) (a b : nat) : R :=
  scov vs (sgrad (nth a sl dummy)) (sgrad (nth b sl dummy)).
Lemma lower_entry : forall vs (sl : list (sval g lg)) a b, (a < length sl)%nat -> (b <= a)%nat ->
  mat (slower vs sl 0 sl) a b = covof vs sl a b.
Proof.
  intros vs sl a b Ha Hb. unfold mat. rewrite (slower_nth vs sl dummy) by auto. cbn [plus].
  rewrite (nth_map_lt _ _ _ _ _ dummy) by (rewrite firstn_length; lia).
  rewrite nth_firstn_lt by lia. reflexivity.
Qed.
Lemma sym_row : forall vs (sl : list (sval g lg)) a, (a < length sl)%nat ->
  nth a (symmetrize (N:=RN) (slower vs sl 0 sl)) [] =
  nth a (slower vs sl 0 sl) [] ++ map (fun j => entry (N:=RN) (slower vs sl 0 sl) j a) (seq (S a) (length sl - S a)).
Proof.
  intros vs sl a Ha. unfold symmetrize. rewrite slower_length.
  rewrite (nth_map_lt _ _ _ _ _ 0%nat) by now rewrite seq_length.
  now rewrite seq_nth by auto.
Qed.
Lemma sym_row_length : forall vs (sl : list (sval g lg)) a, (a < length sl)%nat ->
  length (nth a (symmetrize (N:=RN) (slower vs sl 0 sl)) []) = length sl.
Proof.
  intros vs sl a Ha. rewrite sym_row by auto. rewrite app_length, map_length, seq_length.
  change (num RN) with R. rewrite (slower_nth vs sl dummy) by auto. rewrite map_length, firstn_length. lia.
Qed.
Lemma sym_entry : forall vs (sl : list (sval g lg)) a b, (a < length sl)%nat -> (b < length sl)%nat ->
  mat (symmetrize (N:=RN) (slower vs sl 0 sl)) a b = covof vs sl a b.
Proof.
  intros vs sl a b Ha Hb. unfold mat. rewrite sym_row by auto.
  assert (L : length (nth a (slower vs sl 0 sl) []) = S a).
  { rewrite (slower_nth vs sl dummy) by auto. rewrite map_length, firstn_length. lia. }
  destruct (Nat.le_gt_cases b a) as [H|H].
  - rewrite app_nth1 by lia. exact (lower_entry vs sl a b Ha H).
  - rewrite app_nth2 by lia. rewrite L.
    rewrite (nth_map_lt _ _ _ _ _ 0%nat) by (rewrite seq_length; lia).
    rewrite seq_nth by lia. replace (S a + (b - S a))%nat with b by lia.
    transitivity (covof vs sl b a); [|unfold covof; apply scov_sym].
    apply lower_entry; auto; lia.
Qed.
Lemma sym_out : forall vs (sl : list (sval g lg)) a b, (length sl <= a)%nat \/ (length sl <= b)%nat ->
  mat (symmetrize (N:=RN) (slower vs sl 0 sl)) a b = 0.
Proof.
  intros vs sl a b H. unfold mat.
  assert (L : length (symmetrize (N:=RN) (slower vs sl 0 sl)) = length sl).
  { unfold symmetrize. rewrite map_length, seq_length. apply slower_length. }
  destruct (Nat.lt_ge_cases a (length sl)) as [Ha|Ha].
  - apply nth_overflow. rewrite sym_row_length by auto. lia.
  - transitivity (nth b (@nil R) 0); [|now destruct b]. f_equal. apply nth_overflow.
    eapply Nat.le_trans; [|exact Ha]. apply Nat.eq_le_incl. exact L.
Qed.
Lemma sym_square : forall vs (sl : list (sval g lg)),
  square (length sl) (symmetrize (N:=RN) (slower vs sl 0 sl)).
Proof.
  intros vs sl.
  assert (L : length (symmetrize (N:=RN) (slower vs sl 0 sl)) = length sl).
  { unfold symmetrize. rewrite map_length, seq_length. apply slower_length. }
  split; auto. apply Forall_forall. intros r Hr. apply (In_nth _ _ []) in Hr as (k & Hk & <-).
  apply sym_row_length. now rewrite <- L.
Qed.
Lemma sym_symmetric : forall vs (sl : list (sval g lg)) a b,
  mat (symmetrize (N:=RN) (slower vs sl 0 sl)) a b = mat (symmetrize (N:=RN) (slower vs sl 0 sl)) b a.
Proof.
  intros vs sl a b.
  destruct (Nat.lt_ge_cases a (length sl)), (Nat.lt_ge_cases b (length sl));
    try (rewrite !sym_out by auto; reflexivity).
  rewrite !sym_entry by auto. unfold covof. apply scov_sym.
Qed.
Lemma covof_psd : forall vs sl n, psd n (covof vs sl).
Proof.
  intros vs sl n x.
  assert (E : Sum n (fun i => Sum n (fun j => x i * x j * covof vs sl i j)) =
    Sum (length vs) (fun v => sigma vs v ^ 2 * (Sum n (fun i => x i * sgrad (nth i sl dummy) v)) ^ 2)).
  { transitivity (Sum n (fun i => Sum n (fun j => Sum (length vs) (fun v =>
      x i * x j * (sgrad (nth i sl dummy) v * sgrad (nth j sl dummy) v * sigma vs v ^ 2))))).
    { apply Sum_ext; intros i _. apply Sum_ext; intros j _. unfold covof. rewrite scov_Sum, <- Sum_scal. reflexivity. }
    transitivity (Sum n (fun i => Sum (length vs) (fun v => Sum n (fun j =>
      x i * x j * (sgrad (nth i sl dummy) v * sgrad (nth j sl dummy) v * sigma vs v ^ 2))))).
    { apply Sum_ext; intros i _. apply Sum_swap. }
    rewrite Sum_swap. apply Sum_ext. intros v _.
    transitivity (Sum n (fun i => (sigma vs v ^ 2 * x i * sgrad (nth i sl dummy) v) *
      Sum n (fun j => x j * sgrad (nth j sl dummy) v))).
    { apply Sum_ext; intros i _. rewrite <- Sum_scal. apply Sum_ext. intros; ring. }
    transitivity (Sum n (fun i => (sigma vs v ^ 2 * Sum n (fun j => x j * sgrad (nth j sl dummy) v)) *
      (x i * sgrad (nth i sl dummy) v))).
    { apply Sum_ext. intros; ring. }
    rewrite Sum_scal. ring. }
  rewrite E. apply Sum_nonneg. intros v _. pose proof (pow2_ge_0 (sigma vs v)).
  pose proof (pow2_ge_0 (Sum n (fun i => x i * sgrad (nth i sl dummy) v))). nra.
Qed.

(** ** Observations of reachable states *)
Lemma observes_unique : forall A (f : nat -> list (value RN) -> M RN A) st is r st1 r' st2,
  observes f st is r st1 -> observes f st is r' st2 -> r = r' /\ st1 = st2.
Proof.
  intros A f st is r [h1 e1] r' [h2 e2] (l & k & G & E & H) (l' & k' & G' & E' & H'). cbn in *. subst e1 e2.
  rewrite G in G'. injection G'; intros <-.
  specialize (H (k + k')%nat ltac:(lia)). specialize (H' (k + k')%nat ltac:(lia)).
  rewrite H in H'. injection H'; intros -> ->. auto.
Qed.
Lemma uncertain_sargs : forall st ss is, sim st ss -> Forall (uncertain st) is ->
  exists l sl, get_args (st_env st) is = Some l /\ sargs (ss_env ss) is = Some sl /\
    Forall2 (vrel (st_heap st)) l sl /\ all_suf sl /\ length sl = length is /\
    (forall a i, nth_error is a = Some i -> nth_error (ss_env ss) i = Some (nth a sl dummy)).
Proof.
  intros st ss is S U. induction U as [|i is (u & Hu) U IH].
  - exists [], []. repeat split; auto; try constructor. intros [|a] i H; discriminate.
  - destruct IH as (l & sl & G & Gs & F & As & L & Nt).
    destruct (number_rel _ _ _ _ S Hu) as (n & gr & ds & var & NR).
    exists (VUF u :: l), (SUF n gr ds var :: sl). cbn [get_args sargs].
    unfold is_number in Hu. rewrite Hu, G, (nr_env _ _ _ _ _ _ _ _ NR), Gs.
    repeat split; auto; try (constructor; auto).
    + destruct S as [_ _ E]. destruct (Forall2_nth_error _ _ _ _ _ E _ _ Hu) as (sa & Es & Rl).
      rewrite (nr_env _ _ _ _ _ _ _ _ NR) in Es. injection Es; intros <-. exact Rl.
    + cbn. now rewrite L.
    + intros [|a] j Hj; cbn in Hj |- *.
      * injection Hj; intros <-. apply NR.
      * auto.
Qed.
Lemma cov_value : forall order st ss is, sim st ss -> (forall l, Permutation (order l) l) ->
  Forall (uncertain st) is ->
  exists sl st', covariance order st is (Ok (symmetrize (N:=RN) (slower (ss_vars ss) sl 0 sl))) st' /\
    length sl = length is /\
    (forall a i, nth_error is a = Some i -> nth_error (ss_env ss) i = Some (nth a sl dummy)).
Proof.
  intros order st ss is S P U. destruct (uncertain_sargs st ss is S U) as (l & sl & G & Gs & F & As & L & Nt).
  pose proof S as [W V E]. destruct (cov_conv order l sl _ _ W V F) as (r & h' & (k & C) & X & Er).
  exists sl, (mkState h' (st_env st)). split; auto.
  exists l, k. split; auto. split; auto. intros f Hf. rewrite C by auto. now rewrite Er by auto.
Qed.

(** C17: the call succeeds. *)
Theorem covariance_total : forall order st is, reachable st -> (forall l, Permutation (order l) l) ->
  Forall (uncertain st) is -> exists (m : matrix RN) st', covariance order st is (Ok m) st'.
Proof.
  intros order st is Rc P U. destruct (reach_sim st Rc) as (ss & S).
  destruct (cov_value order st ss is S P U) as (sl & st' & C & _). eauto.
Qed.
Lemma cov_is : forall order st ss is (m : matrix RN) st', sim st ss -> (forall l, Permutation (order l) l) ->
  Forall (uncertain st) is -> covariance order st is (Ok m) st' ->
  exists sl, m = symmetrize (N:=RN) (slower (ss_vars ss) sl 0 sl) /\ length sl = length is /\
    (forall a i, nth_error is a = Some i -> nth_error (ss_env ss) i = Some (nth a sl dummy)).
Proof.
  intros order st ss is m st' S P U C. destruct (cov_value order st ss is S P U) as (sl & st1 & C1 & L & Nt).
  destruct (observes_unique _ _ _ _ _ _ _ _ C C1) as [E _]. injection E; intros ->. eauto.
Qed.
Theorem covariance_shape : forall order st is (m : matrix RN) st', reachable st ->
  (forall l, Permutation (order l) l) -> Forall (uncertain st) is -> covariance order st is (Ok m) st' ->
  square (length is) m /\ (forall a b, mat m a b = mat m b a) /\ psd (length is) (mat m).
Proof.
  intros order st is m st' Rc P U C. destruct (reach_sim st Rc) as (ss & S).
  destruct (cov_is _ _ _ _ _ _ S P U C) as (sl & -> & L & Nt). rewrite <- L.
  split; [apply sym_square|]. split; [intros; apply sym_symmetric|].
  intros x. erewrite Sum_ext; [apply (covof_psd (ss_vars ss) sl (length sl) x)|].
  intros i Hi. cbv beta. apply Sum_ext. intros j Hj. cbv beta. now rewrite sym_entry.
Qed.
Lemma covsum_scov : forall st ss (d d' : dict RN) gr ds, sim st ss ->
  NoDup (dkeys d) -> (forall v, In v (dkeys d) <-> In v ds) -> (forall v, dval d v = gr v) ->
  (forall v, In v ds -> (v < length (ss_vars ss))%nat) ->
  covsum st d d' = scov (ss_vars ss) gr (fun v => dval d' v).
Proof.
  intros st ss d d' gr ds S ND K V B. unfold covsum, scov.
  rewrite <- (Rsum_perm_seq (fun v => gr v * dval d' v * sigma (ss_vars ss) v ^ 2) (dkeys d)); auto.
  - unfold dkeys. rewrite map_map. f_equal. apply map_ext_in. intros [v c] Hin. simpl fst. simpl snd.
    rewrite (sd_sigma st ss v S), <- V. unfold dval at 2. now rewrite (In_dget d v c ND Hin).
  - intros v Hv. apply B. now apply K.
  - intros v Hv Hn. rewrite <- V. unfold dval at 1. rewrite (proj2 (dget_None d v) Hn). ring.
Qed.
Lemma nth_lt : forall A (l : list A) a i, nth_error l a = Some i -> (a < length l)%nat.
Proof. intros. apply nth_error_Some. congruence. Qed.
Lemma uncertain_rel : forall st ss i, sim st ss -> uncertain st i ->
  exists u n gr ds var, num_rel st ss i u n gr ds var.
Proof. intros st ss i S (u & U). destruct (number_rel _ _ _ _ S U) as (n & gr & ds & var & NR). eauto 6. Qed.
Lemma Forall_nth_error : forall A (P : A -> Prop) l a i, Forall P l -> nth_error l a = Some i -> P i.
Proof. intros. rewrite Forall_forall in H. apply H. eapply nth_error_In; eauto. Qed.

Theorem covariance_entries : forall order st is (m : matrix RN) st' a b i j d d', reachable st ->
  (forall l, Permutation (order l) l) -> Forall (uncertain st) is -> covariance order st is (Ok m) st' ->
  nth_error is a = Some i -> nth_error is b = Some j ->
  reads st (IDeriv i) (ODict d) -> reads st (IDeriv j) (ODict d') -> mat m a b = covsum st d d'.
Proof.
  intros order st is m st' a b i j d d' Rc P U C Ha Hb D D'. destruct (reach_sim st Rc) as (ss & S).
  destruct (cov_is _ _ _ _ _ _ S P U C) as (sl & -> & L & Nt).
  rewrite sym_entry by (rewrite L; eapply nth_lt; eauto). unfold covof.
  destruct (uncertain_rel _ _ _ S (Forall_nth_error _ _ _ _ _ U Ha)) as (u & n & gr & ds & var & NR).
  destruct (uncertain_rel _ _ _ S (Forall_nth_error _ _ _ _ _ U Hb)) as (u' & n' & gr' & ds' & var' & NR').
  pose proof (Nt a i Ha) as Ea. rewrite (nr_env _ _ _ _ _ _ _ _ NR) in Ea. injection Ea; intros <-.
  pose proof (Nt b j Hb) as Eb. rewrite (nr_env _ _ _ _ _ _ _ _ NR') in Eb. injection Eb; intros <-.
  destruct (deriv_read _ _ _ _ _ _ _ _ _ S NR D) as (d1 & E1 & ND1 & K1 & V1). injection E1; intros <-.
  destruct (deriv_read _ _ _ _ _ _ _ _ _ S NR' D') as (d2 & E2 & ND2 & K2 & V2). injection E2; intros <-.
  rewrite (covsum_scov st ss d d' gr ds); auto; [|apply NR].
  cbn [sgrad]. unfold scov. f_equal. apply map_ext. intros v. now rewrite V2.
Qed.

Lemma scov_variance : forall vs gr, scov vs gr gr = svariance vs gr.
Proof. intros. unfold scov, svariance. f_equal. apply map_ext. intros; ring. Qed.
Lemma diag_std : forall st ss i a s sl, sim st ss -> uncertain st i ->
  nth_error (ss_env ss) i = Some (nth a sl dummy) -> reads st (IStd i) (ONum s) ->
  covof (ss_vars ss) sl a a = s ^ 2 /\ 0 <= s.
Proof.
  intros st ss i a s sl S Un Nt Rs.
  destruct (uncertain_rel _ _ _ S Un) as (u & n & gr & ds & var & NR).
  rewrite (nr_env _ _ _ _ _ _ _ _ NR) in Nt. injection Nt; intros E.
  pose proof (std_read _ _ _ _ _ _ _ _ _ (IStd i) S NR (or_introl eq_refl) Rs) as X. injection X; intros ->.
  unfold covof. rewrite <- E. cbn [sgrad]. rewrite scov_variance. unfold sstd.
  split; [|apply sqrt_pos]. change (svariance (ss_vars ss) gr = sqrt (svariance (ss_vars ss) gr) ^ 2).
  rewrite pow2_sqrt; auto using svariance_nonneg.
Qed.

(** C18 *)
Theorem covariance_diagonal : forall order st is (m : matrix RN) st' a i s, reachable st ->
  (forall l, Permutation (order l) l) -> Forall (uncertain st) is -> covariance order st is (Ok m) st' ->
  nth_error is a = Some i -> reads st (IStd i) (ONum s) -> mat m a a = s ^ 2.
Proof.
  intros order st is m st' a i s Rc P U C Ha Rs. destruct (reach_sim st Rc) as (ss & S).
  destruct (cov_is _ _ _ _ _ _ S P U C) as (sl & -> & L & Nt).
  rewrite sym_entry by (rewrite L; eapply nth_lt; eauto).
  apply (diag_std st ss i a s sl S); auto. eapply Forall_nth_error; eauto.
Qed.
Theorem covariance_bound : forall order st is (m : matrix RN) st' a b i j s t, reachable st ->
  (forall l, Permutation (order l) l) -> Forall (uncertain st) is -> covariance order st is (Ok m) st' ->
  nth_error is a = Some i -> nth_error is b = Some j ->
  reads st (IStd i) (ONum s) -> reads st (IStd j) (ONum t) -> Rabs (mat m a b) <= s * t.
Proof.
  intros order st is m st' a b i j s t Rc P U C Ha Hb Rs Rt.
  destruct (covariance_shape _ _ _ _ _ Rc P U C) as (_ & Sy & Ps).
  pose proof (covariance_diagonal _ _ _ _ _ _ _ _ Rc P U C Ha Rs) as Da.
  pose proof (covariance_diagonal _ _ _ _ _ _ _ _ Rc P U C Hb Rt) as Db.
  pose proof (psd_cauchy _ _ a b Ps (nth_lt _ _ _ _ Ha) (nth_lt _ _ _ _ Hb) Sy) as Q. rewrite Da, Db in Q.
  assert (0 <= s /\ 0 <= t) as [Hs Ht].
  { destruct (reach_sim st Rc) as (ss & S). destruct (cov_is _ _ _ _ _ _ S P U C) as (sl & _ & _ & Nt).
    split; [eapply (diag_std st ss i a s sl S); eauto|eapply (diag_std st ss j b t sl S); eauto];
      eapply Forall_nth_error; eauto. }
  rewrite <- (Rabs_pos_eq (s * t)) by nra. apply Rsqr_le_abs_0. unfold Rsqr. nra.
Qed.

(** C17: a later observation cannot tell whether the covariance matrix was calculated. *)
Theorem covariance_invisible : forall order (st : state) is r st' prog st1 os1 st2 os2, reachable st ->
  covariance order st is r st' -> runs st prog st1 os1 -> runs st' prog st2 os2 -> Forall2 same_out os1 os2.
Proof.
  intros order st is r st' prog st1 os1 st2 os2 Rc C R1 R2. destruct (reach_sim st Rc) as (ss & S).
  pose proof (cov_sim _ _ _ _ _ _ S C) as S'.
  destruct (runs_sim _ _ _ _ _ S R1) as [_ O1]. destruct (runs_sim _ _ _ _ _ S' R2) as [_ O2].
  eapply Forall2_same; eauto.
Qed.
Theorem covariance_repeat : forall order order' st is (m m' : matrix RN) st' st'' r js st0, reachable st ->
  (forall l, Permutation (order l) l) -> (forall l, Permutation (order' l) l) -> Forall (uncertain st) is ->
  covariance order st is (Ok m) st' -> covariance order' st js r st0 ->
  covariance order' st0 is (Ok m') st'' -> m = m'.
Proof.
  intros order order' st is m m' st' st'' r js st0 Rc P P' U C C0 C1. destruct (reach_sim st Rc) as (ss & S).
  pose proof (cov_sim _ _ _ _ _ _ S C0) as S0.
  assert (U0 : Forall (uncertain st0) is).
  { destruct C0 as (l & k & _ & Ee & _). eapply Forall_impl; [|exact U]. intros i (u & Hu). exists u.
    unfold is_number in *. congruence. }
  destruct (uncertain_sargs _ _ _ S U) as (l & sl & G & Gs & F & As & L & Nt).
  destruct (uncertain_sargs _ _ _ S0 U0) as (l0 & sl0 & G0 & Gs0 & F0 & As0 & L0 & Nt0).
  rewrite Gs in Gs0. injection Gs0; intros <-.
  pose proof S as [W V E]. pose proof S0 as [W0 V0 E0].
  destruct (cov_conv order l sl _ _ W V F) as (r1 & h1 & (k1 & D1) & _ & Er1).
  destruct (cov_conv order' l0 sl _ _ W0 V0 F0) as (r2 & h2 & (k2 & D2) & _ & Er2).
  assert (X1 : covariance order st is r1 (mkState h1 (st_env st))) by (exists l, k1; auto).
  assert (X2 : covariance order' st0 is r2 (mkState h2 (st_env st0))) by (exists l0, k2; auto).
  destruct (observes_unique _ _ _ _ _ _ _ _ C X1) as [Y1 _].
  destruct (observes_unique _ _ _ _ _ _ _ _ C1 X2) as [Y2 _].
  rewrite Er1 in Y1 by auto. rewrite Er2 in Y2 by auto. congruence.
Qed.

(** ** Correlation matrices *)
Lemma rmapM_Ok : forall A B (f : A -> res B) F l, (forall a, In a l -> f a = Ok (F a)) -> rmapM f l = Ok (map F l).
Proof.
  intros A B f F. induction l as [|a l IH]; intros H; [reflexivity|]. cbn. rewrite H by (cbn; auto). cbn.
  rewrite IH by (intros; apply H; cbn; auto). reflexivity.
Qed.
Lemma np_sqrt_ok : forall x, 0 <= x -> np_sqrt (N:=RN) x = Ok (sqrt x).
Proof.
  intros x H. unfold np_sqrt. cbn. rewrite (proj2 (Rltb_false x 0)) by lra. now rewrite (proj2 (Rleb_true 0 x)).
Qed.
Lemma np_div_ok : forall x y, y <> 0 -> np_div (N:=RN) x y = Ok (x / y).
Proof.
  intros x y H. unfold np_div. cbn.
  destruct (Reqb y 0) eqn:E; [apply Reqb_true in E; contradiction|reflexivity].
Qed.
Definition normal (n : nat) (m : matrix RN) (v : list R) : list (list R) :=
  map (fun i => map (fun j => mat m i j / nth j v 0 / nth i v 0) (seq 0 n)) (seq 0 n).
Lemma normalize_ok : forall n (m : matrix RN) (v : list R), length m = n ->
  (forall i, (i < n)%nat -> nth i v 0 <> 0) -> normalize m v = Ok (normal n m v).
Proof.
  intros n m v L Nz. unfold normalize. rewrite L.
  apply (rmapM_Ok _ _ _ (fun i => map (fun j => mat m i j / nth j v 0 / nth i v 0) (seq 0 n))).
  intros i Hi. apply in_seq in Hi. apply (rmapM_Ok _ _ _ (fun j => mat m i j / nth j v 0 / nth i v 0)).
  intros j Hj. apply in_seq in Hj.
  change (n_zero RN) with 0. rewrite np_div_ok by (apply Nz; lia). cbn [rbind].
  rewrite np_div_ok by (apply Nz; lia). reflexivity.
Qed.
Lemma mat_map : forall n (F : nat -> nat -> R) a b, (a < n)%nat -> (b < n)%nat ->
  mat (map (fun i => map (F i) (seq 0 n)) (seq 0 n)) a b = F a b.
Proof.
  intros n F a b Ha Hb. unfold mat. rewrite (nth_map_lt _ _ _ _ _ 0%nat) by now rewrite seq_length.
  rewrite (nth_map_lt _ _ _ _ _ 0%nat) by now rewrite seq_length. now rewrite !seq_nth by auto.
Qed.
Lemma mat_out : forall n (m : matrix RN) a b, square n m -> (n <= a)%nat \/ (n <= b)%nat -> mat m a b = 0.
Proof.
  intros n m a b [L F] H. unfold mat. destruct (Nat.lt_ge_cases a n) as [Ha|Ha].
  - apply nth_overflow. rewrite Forall_forall in F. rewrite F; [lia|]. apply nth_In. unfold matrix in L. cbn in *. lia.
  - transitivity (nth b (@nil R) 0); [|now destruct b]. f_equal. apply nth_overflow. unfold matrix in L. cbn in *. lia.
Qed.
Lemma normal_square : forall n (m : matrix RN) v, square n (normal n m v : matrix RN).
Proof.
  intros. unfold normal. split.
  - change (length (map (fun i => map (fun j => mat m i j / nth j v 0 / nth i v 0) (seq 0 n)) (seq 0 n)) = n).
    now rewrite map_length, seq_length.
  - apply Forall_forall. intros r Hr. apply in_map_iff in Hr as (i & <- & _).
    change (length (map (fun j => mat m i j / nth j v 0 / nth i v 0) (seq 0 n)) = n). now rewrite map_length, seq_length.
Qed.
Lemma normal_entry : forall n (m : matrix RN) v a b, (a < n)%nat -> (b < n)%nat ->
  mat (normal n m v) a b = mat m a b / nth b v 0 / nth a v 0.
Proof. intros. unfold normal. now rewrite (mat_map n (fun i j => mat m i j / nth j v 0 / nth i v 0)). Qed.
Lemma normal_sym : forall n (m : matrix RN) v, (forall a b, mat m a b = mat m b a) ->
  forall a b, mat (normal n m v) a b = mat (normal n m v) b a.
Proof.
  intros n m v Sy a b.
  destruct (Nat.lt_ge_cases a n), (Nat.lt_ge_cases b n);
    try (rewrite !(mat_out n (normal n m v)) by auto using normal_square; reflexivity).
  rewrite !normal_entry by auto. rewrite Sy. unfold Rdiv. ring.
Qed.
Lemma diagonal_sqrt : forall n (m : matrix RN), length m = n -> (forall i, (i < n)%nat -> 0 <= mat m i i) ->
  rmapM (np_sqrt (N:=RN)) (diagonal m) = Ok (map (fun i => sqrt (mat m i i)) (seq 0 n)).
Proof.
  intros n m L P. unfold diagonal. rewrite L.
  transitivity (Ok (map sqrt (map (fun i => mat m i i) (seq 0 n)))); [|now rewrite map_map].
  apply (rmapM_Ok _ _ (np_sqrt (N:=RN)) sqrt). intros a Ha. apply in_map_iff in Ha as (i & <- & Hi).
  apply in_seq in Hi. apply np_sqrt_ok. apply P. lia.
Qed.
Lemma nth_seq_map : forall n (F : nat -> R) i, (i < n)%nat -> nth i (map F (seq 0 n)) 0 = F i.
Proof. intros. rewrite (nth_map_lt _ _ _ _ _ 0%nat) by now rewrite seq_length. now rewrite seq_nth. Qed.

Lemma corr_value : forall order st is m st', reachable st -> (forall l, Permutation (order l) l) ->
  Forall (uncertain st) is -> covariance order st is (Ok m) st' ->
  (forall a, (a < length is)%nat -> mat m a a <> 0) ->
  correlation order st is
    (Ok (normal (length is) m (map (fun i => sqrt (mat m i i)) (seq 0 (length is))) : matrix RN)) st'.
Proof.
  intros order st is m st' Rc P U C Nz.
  destruct (covariance_shape _ _ _ _ _ Rc P U C) as ([L Fm] & Sy & Ps).
  pose proof C as (l & k & G & Ee & H). exists l, k. split; auto. split; auto. intros f Hf.
  unfold correlation_matrix. unfold bind. rewrite H by auto. unfold lift.
  rewrite (diagonal_sqrt (length is) m L) by (intros; eapply psd_diag; eauto). cbn [rbind].
  rewrite (normalize_ok (length is)); auto.
  intros i Hi. rewrite nth_seq_map by auto. pose proof (psd_diag _ _ i Ps Hi) as D. pose proof (Nz i Hi).
  intros Z. apply H0. apply sqrt_eq_0 in Z; auto.
Qed.

(** C20 *)
Theorem correlation_spec : forall order st is, reachable st -> (forall l, Permutation (order l) l) ->
  Forall (uncertain st) is ->
  (forall i, In i is -> exists s, reads st (IStd i) (ONum (N:=RN) s) /\ s <> 0) ->
  exists (c m : matrix RN) st', correlation order st is (Ok c) st' /\ covariance order st is (Ok m) st' /\
    square (length is) c /\ (forall a b, mat c a b = mat c b a) /\
    (forall a, (a < length is)%nat -> mat c a a = 1) /\
    (forall a b, Rabs (mat c a b) <= 1) /\
    (forall a b i j s t, nth_error is a = Some i -> nth_error is b = Some j ->
       reads st (IStd i) (ONum s) -> reads st (IStd j) (ONum t) -> mat c a b = mat m a b / (s * t)).
Proof.
  intros order st is Rc P U Hs. destruct (covariance_total order st is Rc P U) as (m & st' & C).
  destruct (covariance_shape _ _ _ _ _ Rc P U C) as (Sq & Sy & Ps).
  assert (Hd : forall a, (a < length is)%nat -> exists i s, nth_error is a = Some i /\
    reads st (IStd i) (ONum (N:=RN) s) /\ s <> 0 /\ mat m a a = s ^ 2 /\ 0 <= s).
  { intros a Ha. destruct (nth_error is a) as [i|] eqn:E; [|apply nth_error_None in E; lia].
    destruct (Hs i (nth_error_In _ _ E)) as (s & Rs & Ns). exists i, s. split; auto. split; auto. split; auto.
    split; [eapply covariance_diagonal; eauto|].
    destruct (reach_sim st Rc) as (ss & S). destruct (cov_is _ _ _ _ _ _ S P U C) as (sl & _ & _ & Nt).
    eapply (diag_std st ss i a s sl S); eauto. eapply Forall_nth_error; eauto. }
  exists (normal (length is) m (map (fun i => sqrt (mat m i i)) (seq 0 (length is)))), m, st'.
  assert (En : forall a b, (a < length is)%nat -> (b < length is)%nat ->
     mat (normal (length is) m (map (fun i => sqrt (mat m i i)) (seq 0 (length is)))) a b =
     mat m a b / (sqrt (mat m a a) * sqrt (mat m b b)) /\ 0 < sqrt (mat m a a) /\ 0 < sqrt (mat m b b)).
  { intros a b Ha Hb. rewrite normal_entry, !nth_seq_map by auto.
    destruct (Hd a Ha) as (i & s & _ & _ & Ns & -> & Ps1). destruct (Hd b Hb) as (j & t & _ & _ & Nt & -> & Ps2).
    rewrite !sqrt_pow2 by auto. split; [field; auto|lra]. }
  split; [|split; [exact C|split; [apply normal_square|split; [apply normal_sym; auto|split; [|split]]]]].
  - apply corr_value; auto. intros a Ha. destruct (Hd a Ha) as (i & s & _ & _ & Ns & -> & _). apply pow_nonzero. auto.
  - intros a Ha. destruct (En a a Ha Ha) as (-> & X & _).
    destruct (Hd a Ha) as (i & s & _ & _ & Ns & -> & Ps1). rewrite sqrt_pow2 by auto. field; auto.
  - intros a b. destruct (Nat.lt_ge_cases a (length is)) as [Ha|Ha];
      [destruct (Nat.lt_ge_cases b (length is)) as [Hb|Hb]|];
      try (rewrite (mat_out (length is)) by auto using normal_square; rewrite Rabs_R0; lra).
    destruct (En a b Ha Hb) as (-> & X & Y).
    pose proof (psd_cauchy _ _ a b Ps Ha Hb Sy) as Q.
    destruct (Hd a Ha) as (i & s & _ & _ & Ns & Es & Ps1). destruct (Hd b Hb) as (j & t & _ & _ & Nt & Et & Ps2).
    rewrite Es, Et in Q |- *. rewrite !sqrt_pow2 by auto.
    assert (0 < s * t) by (apply Rmult_lt_0_compat; lra).
    unfold Rdiv. rewrite Rabs_mult, (Rabs_pos_eq (/ (s * t))) by (left; now apply Rinv_0_lt_compat).
    apply (Rmult_le_reg_r (s * t)); auto. rewrite Rmult_assoc, Rinv_l, Rmult_1_r, Rmult_1_l by lra.
    rewrite <- (Rabs_pos_eq (s * t)) by lra. apply Rsqr_le_abs_0. unfold Rsqr. nra.
  - intros a b i j s t Ha Hb Rs Rt. destruct (En a b (nth_lt _ _ _ _ Ha) (nth_lt _ _ _ _ Hb)) as (-> & _ & _).
    destruct (reach_sim st Rc) as (ss & S). destruct (cov_is _ _ _ _ _ _ S P U C) as (sl & _ & _ & Nt).
    rewrite (covariance_diagonal _ _ _ _ _ _ _ _ Rc P U C Ha Rs).
    rewrite (covariance_diagonal _ _ _ _ _ _ _ _ Rc P U C Hb Rt).
    rewrite !sqrt_pow2; auto.
    + eapply (diag_std st ss j b t sl S); eauto. eapply Forall_nth_error; eauto.
    + eapply (diag_std st ss i a s sl S); eauto. eapply Forall_nth_error; eauto.
Qed.
End CovProofs.
