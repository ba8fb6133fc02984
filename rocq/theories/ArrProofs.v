(** Arrays: indices, broadcasting, vectorized functions. *)
From Coq Require Import ZArith List Bool Lia Arith.
From Verif Require Import Base Heap Affine Machine Unumpy History UnumpySpec.
Import ListNotations.

Lemma size_count : forall sh, size sh = count sh.
Proof. induction sh; cbn; auto. Qed.

Lemma valid_length : forall sh idx, valid sh idx -> length idx = length sh.
Proof. induction 1; cbn; auto. Qed.

Lemma indices_valid : forall sh idx, In idx (indices sh) <-> valid sh idx.
Proof.
  induction sh as [|n sh IH]; intros idx; cbn.
  - split. { intros [<-|[]]. constructor. } intros H; inversion H; auto.
  - rewrite in_flat_map. split.
    + intros (i & Hi & H). apply in_map_iff in H as (t & <- & H). apply in_seq in Hi.
      constructor; [lia|]. now apply IH.
    + intros H. inversion H as [|i ? t ? Hi Ht]; subst. exists i. split; [apply in_seq; lia|].
      apply in_map. now apply IH.
Qed.

Lemma map_rank : forall sh, map (rank sh) (indices sh) = seq 0 (count sh).
Proof.
  induction sh as [|n sh IH]; cbn [indices count]; [reflexivity|].
  assert (G : forall k m, map (rank (n :: sh)) (flat_map (fun i => map (cons i) (indices sh)) (seq k m)) =
              seq (k * count sh) (m * count sh)).
  { intros k m. revert k. induction m as [|m IHm]; intros k; cbn [seq flat_map]; [reflexivity|].
    rewrite map_app, IHm, map_map. cbn [rank Nat.mul].
    rewrite (seq_app (count sh)).
    f_equal; [|f_equal; cbn; lia].
    rewrite <- (map_map (rank sh) (fun x => k * count sh + x)), IH.
    generalize (count sh) as c. intros c. generalize (k * c) as b. intros b.
    clear. assert (forall a m, map (fun x => b + x) (seq a m) = seq (b + a) m) as H.
    { intros a m. revert a. induction m; intros a; cbn; auto. rewrite IHm. f_equal. f_equal. lia. }
    rewrite H. f_equal. lia. }
  apply (G 0 n).
Qed.

Lemma indices_length : forall sh, length (indices sh) = count sh.
Proof. intros. rewrite <- (map_length (rank sh)), map_rank. apply seq_length. Qed.

Lemma rank_lt : forall sh idx, valid sh idx -> rank sh idx < count sh.
Proof.
  intros sh idx V. apply indices_valid in V. assert (H : In (rank sh idx) (map (rank sh) (indices sh))) by now apply in_map.
  rewrite map_rank in H. apply in_seq in H. lia.
Qed.

Lemma rank_inj : forall sh idx idx', valid sh idx -> valid sh idx' -> rank sh idx = rank sh idx' -> idx = idx'.
Proof.
  induction sh as [|n sh IH]; intros idx idx' V V' E; inversion V; subst; inversion V'; subst; auto.
  cbn in E. pose proof (rank_lt sh _ H3). pose proof (rank_lt sh _ H5).
  assert (x = x0) by nia. subst. f_equal. apply IH; auto. lia.
Qed.

Lemma nth_indices : forall sh idx, valid sh idx -> nth_error (indices sh) (rank sh idx) = Some idx.
Proof.
  intros sh idx V. pose proof (rank_lt sh idx V) as L.
  destruct (nth_error (indices sh) (rank sh idx)) as [j|] eqn:E.
  - f_equal. assert (Vj : valid sh j) by (apply indices_valid; eapply nth_error_In; eauto).
    apply (map_nth_error (rank sh)) in E. rewrite map_rank in E.
    assert (E' : nth_error (seq 0 (count sh)) (rank sh idx) = Some (rank sh idx)).
    { rewrite (nth_error_nth' _ 0) by now rewrite seq_length. f_equal. now apply seq_nth. }
    rewrite E' in E. injection E; intros E1. symmetry in E1. apply rank_inj with sh; auto.
  - apply nth_error_None in E. rewrite indices_length in E. lia.
Qed.

Lemma map_nth_indices : forall A (l : list A) sh, length l = count sh ->
  map (fun idx => nth_error l (rank sh idx)) (indices sh) = map Some l.
Proof.
  intros A l sh E. rewrite <- (map_map (rank sh) (nth_error l)), map_rank, <- E.
  clear E sh. assert (G : forall pre, map (nth_error (pre ++ l)) (seq (length pre) (length l)) = map Some l).
  { induction l as [|x l IH]; intros pre; cbn [length seq map]; auto.
    rewrite nth_error_app2, Nat.sub_diag by lia. cbn [nth_error]. f_equal.
    specialize (IH (pre ++ [x])). rewrite app_length in IH. cbn [length] in IH.
    replace (length pre + 1) with (S (length pre)) in IH by lia.
    rewrite <- app_assoc in IH. exact IH. }
  apply (G []).
Qed.

(** ** Offsets *)
Lemma roffset_app : forall rsh ridx n i s, length rsh = length ridx ->
  roffset (rsh ++ [n]) (ridx ++ [i]) s =
  roffset rsh ridx s + (if Nat.eqb n 1 then 0 else i) * (s * count (rev rsh)).
Proof.
  induction rsh as [|m rsh IH]; intros [|j ridx] n i s E; try discriminate; cbn [app roffset rev].
  - cbn. lia.
  - rewrite IH by (cbn in E; lia). rewrite <- Nat.add_assoc. f_equal. f_equal.
    assert (C : forall a b, count (a ++ b) = count a * count b).
    { induction a; intros; cbn; [lia|]. rewrite IHa. lia. }
    rewrite C. cbn. rewrite Nat.mul_1_r. f_equal. lia.
Qed.

Lemma count_rev : forall l, count (rev l) = count l.
Proof.
  induction l as [|n l IH]; cbn; auto.
  assert (C : forall a b, count (a ++ b) = count a * count b).
  { induction a; intros; cbn; [lia|]. rewrite IHa. lia. }
  rewrite C, IH. cbn. lia.
Qed.

(** The leading components of an index beyond those of the shape are not used. *)
Lemma roffset_extra : forall rsh ridx e s, length rsh = length ridx ->
  roffset rsh (ridx ++ e) s = roffset rsh ridx s.
Proof.
  induction rsh as [|n rsh IH]; intros [|i ridx] e s E; try discriminate; cbn; auto.
Qed.

Lemma roffset_rank : forall sh idx, length idx = length sh ->
  roffset (rev sh) (rev idx) 1 =
  rank sh (map (fun p => if Nat.eqb (fst p) 1 then 0 else snd p) (combine sh idx)).
Proof.
  induction sh as [|n sh IH]; intros [|i idx] E; try discriminate; cbn [rev combine map rank]; auto.
  rewrite roffset_app by (rewrite !rev_length; cbn in E; lia).
  rewrite IH by (cbn in E; lia). rewrite rev_involutive. cbn [fst snd]. lia.
Qed.

Lemma bget_shown : forall A (a : arr A) idx, (length (a_shape a) <= length idx)%nat ->
  bget idx a = elem a (shown (a_shape a) idx).
Proof.
  intros A a idx L. unfold bget, elem, shown. f_equal.
  set (k := length idx - length (a_shape a)).
  rewrite <- (firstn_skipn k idx) at 1. rewrite rev_app_distr.
  rewrite roffset_extra by (rewrite !rev_length, skipn_length; subst k; lia).
  apply roffset_rank. rewrite skipn_length. subst k. lia.
Qed.

Lemma shown_self : forall sh idx, valid sh idx -> shown sh idx = idx.
Proof.
  intros sh idx V. unfold shown. rewrite (valid_length _ _ V), Nat.sub_diag. cbn [skipn].
  induction V as [|i n idx sh Hi V IH]; cbn; auto. rewrite IH. f_equal.
  destruct (Nat.eqb_spec n 1); auto. subst. lia.
Qed.

Lemma bget_self : forall A (a : arr A) idx, valid (a_shape a) idx -> bget idx a = elem a idx.
Proof.
  intros A a idx V. rewrite bget_shown by (rewrite (valid_length _ _ V); lia).
  now rewrite shown_self.
Qed.

(** ** Broadcasting *)
Lemma bdim_spec : forall a b d, bdim a b = Some d <-> ((a = b \/ a = 1 \/ b = 1) /\ d = if Nat.eqb a 1 then b else a).
Proof.
  intros a b d. unfold bdim. destruct (Nat.eqb_spec a b), (Nat.eqb_spec a 1), (Nat.eqb_spec b 1); subst; split; intros H;
    solve [discriminate | injection H; intros; subst; auto | destruct H as [_ ->]; auto; congruence | destruct H; lia | destruct H; f_equal; lia].
Qed.

Lemma bzip_spec : forall r1 r2 r, bzip r1 r2 = Some r <->
  length r = max (length r1) (length r2) /\
  forall k, (nth k r1 1 = nth k r2 1 \/ nth k r1 1 = 1 \/ nth k r2 1 = 1) /\
            nth k r 1 = if Nat.eqb (nth k r1 1) 1 then nth k r2 1 else nth k r1 1.
Proof.
  induction r1 as [|a r1 IH]; intros r2 r; cbn [bzip].
  - split.
    + intros E; injection E; intros <-. split; [reflexivity|]. intros k. destruct k; cbn; auto.
    + intros [L H]. f_equal. apply (nth_ext _ _ 1 1); [now rewrite L|]. intros n _.
      destruct (H n) as [_ E]. rewrite E. destruct n; reflexivity.
  - destruct r2 as [|b r2].
    + split.
      * intros E; injection E; intros <-. split; [cbn; lia|]. intros k.
        replace (nth k [] 1) with 1 by (destruct k; reflexivity). split; auto.
        destruct (Nat.eqb_spec (nth k (a :: r1) 1) 1); auto.
      * intros [L H]. f_equal. apply (nth_ext _ _ 1 1); [rewrite L; cbn; lia|]. intros n _.
        destruct (H n) as [_ E]. rewrite E.
        replace (nth n [] 1) with 1 by (destruct n; reflexivity).
        destruct (Nat.eqb_spec (nth n (a :: r1) 1) 1); auto.
    + split.
      * intros E. destruct (bdim a b) as [d|] eqn:Ed; [|discriminate].
        destruct (bzip r1 r2) as [t|] eqn:Et; [|discriminate]. injection E; intros <-.
        apply IH in Et as [L H]. apply bdim_spec in Ed as [D ->]. split; [cbn; now rewrite L|].
        intros [|k]; cbn [nth]; auto.
      * intros [L H]. destruct r as [|d t]; [cbn in L; lia|].
        destruct (H 0) as [D E]. cbn in D, E.
        replace (bdim a b) with (Some d) by (symmetry; now apply bdim_spec).
        assert (Et : bzip r1 r2 = Some t).
        { apply IH. split; [cbn in L; lia|]. intros k. apply (H (S k)). }
        now rewrite Et.
Qed.

Theorem broadcast_spec : forall s1 s2 sh, broadcast s1 s2 = Some sh <-> broadcasts s1 s2 sh.
Proof.
  intros s1 s2 sh. unfold broadcast, broadcasts, dim_from_end. split.
  - intros E. destruct (bzip (rev s1) (rev s2)) as [r|] eqn:Er; [|discriminate].
    cbn in E. injection E; intros <-. apply bzip_spec in Er as [L H].
    rewrite !rev_length in L. rewrite rev_length. split; auto. intros k. cbn zeta.
    rewrite rev_involutive. apply H.
  - intros [L H]. assert (E : bzip (rev s1) (rev s2) = Some (rev sh)).
    { apply bzip_spec. rewrite !rev_length. split; auto. }
    rewrite E. cbn. now rewrite rev_involutive.
Qed.

Lemma broadcast_same : forall s, broadcast s s = Some s.
Proof.
  intros s. apply broadcast_spec. split; [lia|]. intros k. cbn. split; auto.
  destruct (Nat.eqb _ 1); auto.
Qed.
Lemma broadcast_nil : forall s, broadcast s [] = Some s.
Proof.
  intros s. apply broadcast_spec. split; [cbn; lia|]. intros k. unfold dim_from_end. cbn [rev].
  replace (nth k [] 1) with 1 by (destruct k; reflexivity). split; auto.
  destruct (Nat.eqb_spec (nth k (rev s) 1) 1); auto.
Qed.

(** Every index of the result shows an element of the arguments. *)
Lemma shown_valid : forall s1 s2 sh idx, broadcasts s1 s2 sh -> valid sh idx ->
  valid s1 (shown s1 idx) /\ valid s2 (shown s2 idx).
Proof.
  assert (G : forall s sh idx, (length s <= length sh)%nat ->
     (forall k, dim_from_end s k = 1 \/ dim_from_end sh k = dim_from_end s k) -> valid sh idx ->
     valid s (shown s idx)).
  { intros s sh idx L H V. unfold shown.
    assert (Li := valid_length _ _ V).
    assert (G : forall t j, length j = length t -> (forall k, (k < length t)%nat -> nth k t 1 = 1 \/ nth k j 0 < nth k t 1) ->
        Forall2 lt (map (fun p => if Nat.eqb (fst p) 1 then 0 else snd p) (combine t j)) t).
    { induction t as [|n t IH]; intros [|i j] E K; try discriminate; cbn; constructor.
      - specialize (K 0). cbn in K. destruct (Nat.eqb_spec n 1); [lia|]. destruct K; lia.
      - apply IH; [cbn in E; lia|]. intros k Hk. apply (K (S k)). cbn; lia. }
    apply G. { rewrite skipn_length. lia. }
    intros k Hk. specialize (H (length s - 1 - k)). unfold dim_from_end in H.
    rewrite !rev_nth in H by lia.
    replace (length s - S (length s - 1 - k)) with k in H by lia.
    replace (length sh - S (length s - 1 - k)) with (length sh - length s + k) in H by lia.
    destruct H as [H|H]; [now left|right]. rewrite <- H.
    rewrite Li.
    assert (N : forall n (l : list nat), nth k (skipn n l) 0 = nth (n + k) l 0).
    { induction n; intros [|x l]; cbn; auto. destruct k; auto. }
    rewrite N.
    assert (P : forall q, (q < length sh)%nat -> nth q idx 0 < nth q sh 1).
    { clear -V. induction V; intros q Hq; cbn in *; [lia|]. destruct q; auto. apply IHV. lia. }
    apply P. lia. }
  intros s1 s2 sh idx [L H] V. split.
  - apply (G s1 sh); auto; [lia|]. intros k. destruct (H k) as [_ E]. cbn zeta in E.
    destruct (Nat.eqb_spec (dim_from_end s1 k) 1); [now left|now right].
  - apply (G s2 sh); auto; [lia|]. intros k. destruct (H k) as [D E]. cbn zeta in D, E.
    destruct (Nat.eqb_spec (dim_from_end s1 k) 1); [now right|]. destruct D as [D|[D|D]]; [right|lia|left]; congruence.
Qed.

(** ** Sequences of calls *)
Section MapM.
Context {N : NumOps}.

(** A sequence of calls that succeed, each one with the heap that the previous one left. *)
Inductive calls {A B} (f : A -> M N B) : list A -> heap N -> list B -> heap N -> Prop :=
| calls_nil : forall h, calls f [] h [] h
| calls_cons : forall a l h b h1 r h2, f a h = (Ok b, h1) -> calls f l h1 r h2 ->
    calls f (a :: l) h (b :: r) h2.

Lemma mapM_calls : forall A B (f : A -> M N B) l h r h', mapM f l h = (Ok r, h') <-> calls f l h r h'.
Proof.
  intros A B f. induction l as [|a l IH]; intros h r h'; cbn [mapM].
  - split. { intros E; injection E; intros; subst. constructor. } intros C; inversion C; reflexivity.
  - unfold bind. split.
    + destruct (f a h) as [[b|e] h1] eqn:E1; [|discriminate].
      destruct (mapM f l h1) as [[r1|e] h2] eqn:E2; [|discriminate].
      intros E; injection E; intros; subst. econstructor; eauto. now apply IH.
    + intros C. inversion C as [|? ? ? b h1 r1 ? E1 C1]; subst. rewrite E1.
      apply IH in C1. rewrite C1. reflexivity.
Qed.

Lemma calls_ext : forall A B (f g : A -> M N B) l h r h',
  (forall a h, In a l -> f a h = g a h) -> calls f l h r h' -> calls g l h r h'.
Proof.
  intros A B f g l h r h' H C. induction C; constructor 1 || econstructor.
  - rewrite <- H by (cbn; auto). eassumption.
  - apply IHC. intros. apply H. cbn. auto.
Qed.
Lemma calls_map : forall A A' B (f : A' -> M N B) (k : A -> A') l h r h',
  calls (fun a => f (k a)) l h r h' <-> calls f (map k l) h r h'.
Proof.
  intros. split; intros C.
  - induction C; cbn; econstructor; eauto.
  - remember (map k l) as t eqn:E. revert l E. induction C; intros [|x l'] E; cbn in E; try discriminate; [constructor|].
    injection E; intros; subst. econstructor; eauto.
Qed.
Lemma calls_length : forall A B (f : A -> M N B) l h r h', calls f l h r h' -> length r = length l.
Proof. induction 1; cbn; auto. Qed.
Lemma calls_pure : forall A B (f : A -> res B) l h r h',
  calls (fun a => lift (f a)) l h r h' <-> (h' = h /\ Forall2 (fun a b => f a = Ok b) l r).
Proof.
  intros A B f l. induction l as [|a l IH]; intros h r h'; split.
  - intros C; inversion C; auto.
  - intros [-> F]; inversion F; constructor.
  - intros C; inversion C as [|? ? ? ? ? ? ? E C']; subst. unfold lift in E. injection E; intros; subst.
    apply IH in C' as [-> F]. split; auto.
  - intros [-> F]. inversion F as [|? b ? r' E F']; subst. econstructor; [unfold lift; now rewrite E|]. now apply IH.
Qed.

Lemma all_some_map : forall A B (k : A -> option B) l, all_some (map k l) = None \/
  exists r, all_some (map k l) = Some r /\ Forall2 (fun a b => k a = Some b) l r.
Proof.
  induction l as [|a l IH]; cbn. { right. exists []. auto. }
  destruct (k a) as [b|] eqn:E; [|now left]. destruct IH as [->|(r & -> & F)]; [now left|].
  right. exists (b :: r). auto.
Qed.

(** A vectorized function of one array. *)
Lemma vectorize1 : forall A B (f : A -> M N B) (a : arr A) h r h', wf_arr a ->
  vectorize (arg1 f) [a] h = (Ok r, h') <->
  a_cls r = a_cls a /\ a_shape r = a_shape a /\ calls f (a_flat a) h (a_flat r) h'.
Proof.
  intros A B f a h r h' W. unfold vectorize. cbn [map bshapes]. rewrite broadcast_nil.
  assert (E : forall l h2, mapM (fun idx => match all_some [bget idx a] with Some l => arg1 f l | None => raise EIndex end)
     (indices (a_shape a)) h = (Ok l, h2) <-> calls f (a_flat a) h l h2).
  { intros l h2. rewrite mapM_calls.
    set (K := fun o : option A => match o with Some x => f x | None => raise EIndex end).
    transitivity (calls (fun idx => K (nth_error (a_flat a) (rank (a_shape a) idx))) (indices (a_shape a)) h l h2).
    { split; apply calls_ext; intros idx h0 Hi; apply indices_valid in Hi;
        (cbn [all_some]; rewrite (bget_self _ _ _ Hi)); unfold elem; destruct (nth_error _ _); reflexivity. }
    rewrite (calls_map _ _ _ K (fun idx => nth_error (a_flat a) (rank (a_shape a) idx))).
    rewrite (map_nth_indices _ _ _ W). rewrite <- (calls_map _ _ _ K Some). reflexivity. }
  cbn [fold_right cls_max]. unfold bind. split.
  - destruct (mapM _ _ h) as [[l|e] h2]; [|discriminate]. pose proof (proj1 (E _ _) eq_refl) as El.
    intros X; injection X; intros; subst. cbn. split; auto. now destruct (a_cls a).
  - intros (C1 & C2 & C3). apply E in C3. rewrite C3. cbn. destruct r as [c s fl]. cbn in *. subst.
    now destruct (a_cls a).
Qed.

(** A vectorized function of two arrays. *)
Lemma vectorize2 : forall A B (f : list A -> M N B) (a b : arr A) sh h r h', wf_arr a -> wf_arr b ->
  broadcasts (a_shape a) (a_shape b) sh ->
  vectorize f [a; b] h = (Ok r, h') <->
  a_cls r = cls_max (a_cls a) (cls_max (a_cls b) ANd) /\ a_shape r = sh /\
  exists l, map Some l = map (fun idx => match elem a (shown (a_shape a) idx), elem b (shown (a_shape b) idx) with
                            | Some x, Some y => Some [x; y] | _, _ => None end) (indices sh) /\
            calls f l h (a_flat r) h'.
Proof.
  intros A B f a b sh h r h' Wa Wb Bs. unfold vectorize. cbn [map bshapes]. rewrite broadcast_nil.
  rewrite (proj2 (broadcast_spec _ _ _) Bs).
  assert (EL : exists l, map Some l = map (fun idx => match elem a (shown (a_shape a) idx), elem b (shown (a_shape b) idx) with
                            | Some x, Some y => Some [x; y] | _, _ => None end) (indices sh)).
  { assert (H : forall idx, In idx (indices sh) -> valid sh idx) by (intros; now apply indices_valid).
    induction (indices sh) as [|idx t IH]; [exists []; reflexivity|].
    destruct IH as [l El]. { intros; apply H; cbn; auto. }
    destruct (shown_valid _ _ _ idx Bs (H idx (or_introl eq_refl))) as [V1 V2].
    cbn [map]. unfold elem at 1 2.
    destruct (nth_error (a_flat a) (rank (a_shape a) (shown (a_shape a) idx))) as [x|] eqn:Ex.
    2:{ apply nth_error_None in Ex. rewrite Wa in Ex. pose proof (rank_lt _ _ V1). lia. }
    destruct (nth_error (a_flat b) (rank (a_shape b) (shown (a_shape b) idx))) as [y|] eqn:Ey.
    2:{ apply nth_error_None in Ey. rewrite Wb in Ey. pose proof (rank_lt _ _ V2). lia. }
    exists ([x; y] :: l). cbn [map]. now rewrite El. }
  destruct EL as [l El].
  assert (E : forall fl h2, mapM (fun idx => match all_some [bget idx a; bget idx b] with Some l => f l | None => raise EIndex end)
     (indices sh) h = (Ok fl, h2) <-> calls f l h fl h2).
  { intros fl h2. rewrite mapM_calls.
    set (K := fun o : option (list A) => match o with Some x => f x | None => raise EIndex end).
    transitivity (calls (fun idx => K (match elem a (shown (a_shape a) idx), elem b (shown (a_shape b) idx) with
                            | Some x, Some y => Some [x; y] | _, _ => None end)) (indices sh) h fl h2).
    { split; apply calls_ext; intros idx h0 Hi; apply indices_valid in Hi;
        pose proof (valid_length _ _ Hi) as Li; destruct Bs as [Ls _];
        (cbn [all_some]; rewrite (bget_shown _ a), (bget_shown _ b) by (rewrite Li, Ls; lia));
        destruct (elem a (shown (a_shape a) idx)), (elem b (shown (a_shape b) idx)); reflexivity. }
    rewrite (calls_map _ _ _ K (fun idx => match elem a (shown (a_shape a) idx), elem b (shown (a_shape b) idx) with
                            | Some x, Some y => Some [x; y] | _, _ => None end)).
    rewrite <- El. rewrite <- (calls_map _ _ _ K Some). reflexivity. }
  cbn [fold_right map]. unfold bind. split.
  - destruct (mapM _ _ h) as [[fl|e] h2]; [|discriminate]. pose proof (proj1 (E _ _) eq_refl) as Em.
    intros X; injection X; intros; subst. cbn. split; auto. split; auto. exists l. auto.
  - intros (C1 & C2 & l' & El' & C3).
    assert (l' = l). { rewrite <- El in El'. clear -El'. revert l El'. induction l'; intros [|y l] E; cbn in E; try discriminate; auto.
      injection E; intros E1 E2; subst. f_equal. auto. }
    subst. apply E in C3. rewrite C3. cbn. destruct r as [c s fl]. cbn in *. now subst.
Qed.

(** Elements of the result. *)
Lemma Forall2_elem : forall A B (P : A -> B -> Prop) (a : arr A) (b : arr B), wf_arr a ->
  a_shape b = a_shape a -> Forall2 P (a_flat a) (a_flat b) -> elementwise P a b.
Proof.
  intros A B P a b W E F. split; auto. intros idx V. unfold elem. rewrite E.
  pose proof (rank_lt _ _ V) as L. rewrite <- W in L.
  assert (G : forall k, (k < length (a_flat a))%nat -> exists x y, nth_error (a_flat a) k = Some x /\ nth_error (a_flat b) k = Some y /\ P x y).
  { clear -F. induction F; intros k Hk; cbn in Hk; [lia|]. destruct k; cbn; eauto. apply IHF. lia. }
  now apply G.
Qed.
End MapM.
