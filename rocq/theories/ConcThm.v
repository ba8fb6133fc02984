(** Concurrent and interrupted reads in the states that programs reach. *)
From Coq Require Import ZArith List Bool Arith Lia.
From Verif Require Import Base Heap Affine HeapSpec HeapProofs Machine Cov Copy Calls History CallProofs
  Fuel Conc ConcSpec ConcProofs Ordered.
Import ListNotations.

Section ConcThm.
Context {N : NumOps}.
Implicit Types h : heap N.

(** Linear combinations that are not read, or were already expanded, stay as they are. *)
Lemma cstep_frame : forall h ls s e l', all_ok h ls s ->
  (~ In l' ls \/ expanded (get_lc h l') = true) ->
  c_list (fst (cstep s e)) l' = c_list (fst s) l' /\ c_bound (fst (cstep s e)) l' = c_bound (fst s) l'.
Proof.
  intros h ls [c ths] e l' [L A] H. destruct e as [k|k].
  - destruct (nth_error ths k) as [[lk pk]|] eqn:E.
    2:{ simpl. rewrite E. auto. }
    rewrite (cstep_run _ _ _ _ _ E). simpl. destruct (A _ _ _ E) as [A1 [A2 A3]]. simpl in *.
    destruct (Nat.eq_dec l' lk) as [->|Hn]; [|now apply tstep_frame].
    destruct H as [H|X]; [elim H; eapply nth_error_In; eauto|].
    destruct (A3 X) as [Q B]. destruct (tstep_quiet lk c pk Q B) as [_ ->]. auto.
  - simpl. destruct (nth_error ths k) as [[lk pk]|] eqn:E; [|auto]. destruct pk; auto.
Qed.
Lemma cexec_frame : forall h ls es s l', all_ok h ls s ->
  (~ In l' ls \/ expanded (get_lc h l') = true) ->
  c_list (fst (cexec s es)) l' = c_list (fst s) l' /\ c_bound (fst (cexec s es)) l' = c_bound (fst s) l'.
Proof.
  intros h ls es. unfold cexec. induction es as [|e es IH]; intros s l' A H; simpl; auto.
  destruct (cstep_frame h ls s e l' A H) as [E1 E2].
  destruct (IH (cstep s e) l' (all_ok_step _ _ _ e A) H) as [E3 E4]. split; congruence.
Qed.

(** Terms still refer to older linear combinations, whatever happens. *)
Definition below_pc (l : loc) (p : pc N) : Prop :=
  match p with
  | PTest _ (OList l0) | PPop _ (OList l0) => l0 = l
  | PCheck _ _ l' | PLoadDict _ _ l' | PLoadIter _ _ l' => (l' < l)%nat
  | PIter _ _ (OList l') _ => (l' < l)%nat
  | PLoadApp _ _ (OList l') _ _ l'' => (l' < l)%nat /\ (l'' < l)%nat
  | PLoadApp _ _ (ODct _) _ _ l'' => (l'' < l)%nat
  | PApp _ _ (OList l') _ _ l'' l1 => l1 = l /\ (l' < l)%nat /\ (l'' < l)%nat
  | PApp _ _ (ODct _) _ _ l'' l1 => l1 = l /\ (l'' < l)%nat
  | _ => True
  end.
Definition below_c (c : cheap N) : Prop := forall l it, In it (c_list c l) -> okt l it.
Lemma below_step : forall l c p, below_c c -> below_pc l p ->
  below_c (fst (tstep l c p)) /\ below_pc l (snd (tstep l c p)).
Proof.
  intros l c p B P.
  assert (Ld : forall l', match load c l' with OList l0 => l0 = l' | ODct _ => True end).
  { intros l'. unfold load. destruct (c_bound c l'); auto. }
  destruct p as [|acc|acc o|acc|acc o|acc f l'|acc f l'|acc f d|acc f l'|acc f o i|acc f o i f' l''|acc f o i f' l'' l1|acc| |r].
  - split; [exact B|]. cbn [tstep snd]. destruct (c_bound c l); exact I.
  - split; [exact B|]. cbn [tstep snd]. specialize (Ld l). destruct (load c l); simpl; auto.
  - split; [exact B|]. cbn [tstep snd]. destruct (obj_truth c o); exact I.
  - split; [exact B|]. cbn [tstep snd]. specialize (Ld l). destruct (load c l); simpl; auto.
  - cbn [tstep below_pc] in *. destruct o as [l0|d]; [|split; [exact B|exact I]]. subst l0.
    destruct (c_list c l) as [|it rest] eqn:E; [split; [exact B|exact I]|].
    cbn [fst snd]. split.
    + intros l1 it1 J. cbn [c_list set_list] in J. unfold upd in J.
      destruct (Nat.eqb_spec l1 l) as [->|]; [|now apply B]. apply B. rewrite E. now right.
    + pose proof (B l it) as X. rewrite E in X. specialize (X (or_introl eq_refl)).
      destruct it; simpl in *; auto.
  - split; [exact B|]. cbn [tstep snd]. destruct (c_bound c l'); exact P.
  - split; [exact B|]. cbn [tstep snd]. destruct (load c l'); exact I.
  - destruct d as [|[v x] d]; (split; [exact B|]); cbn [tstep snd]; [exact I|]. destruct (cmul f x); exact I.
  - split; [exact B|]. cbn [tstep snd]. specialize (Ld l'). destruct (load c l'); simpl; auto. now subst.
  - cbn [tstep below_pc] in *. destruct o as [l0|d]; cbn [fst snd]; (split; [exact B|]).
    + destruct (nth_error (rev (c_list c l0)) i) as [it|] eqn:E; [|exact I].
      assert (X : okt l0 it). { apply B. apply nth_error_In in E. now apply in_rev. }
      destruct it; simpl in X; try exact I. cbn [below_pc]. split; [exact P|]. lia.
    + destruct d; exact I.
  - split; [exact B|]. cbn [tstep snd]. specialize (Ld l). cbn [below_pc] in P.
    destruct (load c l); [|exact I]. destruct o; cbn [below_pc]; tauto.
  - cbn [below_pc] in P. assert (Q : l1 = l /\ (l'' < l)%nat) by (destruct o; tauto). destruct Q as [-> Q].
    cbn [tstep]. destruct (pn_mul f f'); cbn [fst snd]; [|split; [exact B|exact I]]. split.
    + intros l1 it1 J. cbn [c_list set_list] in J. unfold upd in J.
      destruct (Nat.eqb_spec l1 l) as [->|]; [|now apply B]. destruct J as [<-|J]; [exact Q|now apply B].
    + destruct o; cbn [below_pc]; tauto.
  - split; [exact B|exact I].
  - split; [exact B|exact I].
  - split; [exact B|exact I].
Qed.
Definition below_s (s : cheap N * threads N) : Prop :=
  below_c (fst s) /\ forall k lk pk, nth_error (snd s) k = Some (lk, pk) -> below_pc lk pk.
Lemma below_cstep : forall s e, below_s s -> below_s (cstep s e).
Proof.
  intros [c ths] e [B A]. destruct e as [k|k].
  - destruct (nth_error ths k) as [[lk pk]|] eqn:E.
    2:{ simpl. rewrite E. split; auto. }
    rewrite (cstep_run _ _ _ _ _ E). destruct (below_step lk c pk B (A _ _ _ E)) as [B1 P1].
    split; [exact B1|]. intros j l1 p1 E1. cbn [snd] in E1. rewrite nth_error_set in E1.
    destruct (Nat.eqb_spec j k) as [->|]; [|exact (A _ _ _ E1)].
    destruct (Nat.ltb k (length ths)); inversion E1; subst. exact P1.
  - simpl. destruct (nth_error ths k) as [[lk pk]|] eqn:E; [|split; auto].
    assert (Q : below_s (c, list_set ths k (lk, PDone (Err EInterrupt)))).
    { split; [exact B|]. intros j l1 p1 E1. cbn [snd] in E1. rewrite nth_error_set in E1.
      destruct (Nat.eqb_spec j k) as [->|]; [|exact (A _ _ _ E1)].
      destruct (Nat.ltb k (length ths)); inversion E1; subst. exact I. }
    destruct pk; auto. split; auto.
Qed.
Lemma below_cexec : forall es s, below_s s -> below_s (cexec s es).
Proof.
  unfold cexec. intros es. induction es as [|e es IH]; intros s B; simpl; auto.
  apply IH. now apply below_cstep.
Qed.
Lemma below_start : forall h ls, pairs h -> below_s (of_heap h, start ls).
Proof.
  intros h ls O. split.
  - intros l it I. simpl in I. destruct (get_lc h l) as [d|its] eqn:G; [destruct I|]. exact (O _ _ _ G I).
  - intros k lk pk E. destruct (start_nth _ _ _ E) as [l [_ X]]. inversion X; subst. exact I.
Qed.

Lemma settle_length : forall h c, length (h_lc (settle h c)) = length (h_lc h).
Proof. intros. simpl. now rewrite map_length, seq_length. Qed.
Lemma settle_get : forall h c l, (l < length (h_lc h))%nat ->
  get_lc (settle h c) l = match c_bound c l with Some d => LDict d | None => LList (c_list c l) end.
Proof.
  intros h c l L. unfold get_lc. cbn [settle h_lc].
  assert (E : nth_error (seq 0 (length (h_lc h))) l = Some l).
  { rewrite nth_error_nth' with (d:=0%nat) by now rewrite seq_length. now rewrite seq_nth. }
  apply (map_nth_error (fun l => match c_bound c l with Some d => LDict d | None => LList (c_list c l) end)) in E.
  exact (nth_error_nth _ _ _ E).
Qed.
Lemma settle_ordered : forall h c, below_c c -> ordered (settle h c).
Proof.
  intros h c B l its f l' G I. destruct (Nat.lt_ge_cases l (length (h_lc h))) as [L|L].
  - rewrite settle_get in G by auto. destruct (c_bound c l); inversion G; subst. exact (B _ _ I).
  - unfold get_lc in G. rewrite nth_overflow in G by now rewrite settle_length. discriminate.
Qed.

(** The result of an expansion depends only on the linear combinations that are used. *)
Lemma eloop_agree : forall h h' l fuel st acc,
  (forall l', uses h l l' -> get_lc h' l' = get_lc h l') ->
  (forall f l', In (IPair f l') st -> uses h l l') ->
  eloop fuel h' st acc = eloop fuel h st acc.
Proof.
  intros h h' l fuel. induction fuel as [|n IH]; intros st acc G H; auto. cbn [eloop].
  destruct st as [|[f l'|f|l'] rest]; auto.
  assert (U : uses h l l') by (apply (H f); now left). rewrite (G _ U).
  assert (Hr : forall f l', In (IPair f l') rest -> uses h l l') by (intros; eapply H; right; eauto).
  destruct (get_lc h l') as [d|its] eqn:El.
  - destruct (acc_dict f d acc); simpl; auto.
  - assert (P : forall its1 st1, (forall it, In it its1 -> In it its) ->
      (forall f l', In (IPair f l') st1 -> uses h l l') ->
      forall f1 l1, In (IPair f1 l1) (fst (push_items f its1 st1)) -> uses h l l1).
    { intros its1. induction its1 as [|it its1 IHi]; intros st1 Hi Hs f1 l1 I1; [eapply Hs; exact I1|].
      cbn [push_items] in I1. destruct it as [f' l2|f'|l2]; try (eapply Hs; exact I1).
      destruct (pn_mul f f') as [p|e]; [|eapply Hs; exact I1].
      refine (IHi _ _ _ f1 l1 I1).
      - intros it I2. apply Hi. now right.
      - intros f2 l3 [I2|I2]; [|eapply Hs; exact I2]. inversion I2; subst.
        clear - El Hi U. pose proof (Hi _ (or_introl eq_refl)) as Hin. clear Hi.
        induction U; [eapply uses_term; eauto using uses_self|eapply uses_term; eauto]. }
    specialize (P (rev its) rest). destruct (push_items f (rev its) rest) as [st1 [e|]]; auto.
    apply IH; auto. intros f1 l1 I1. apply (P (fun it I2 => proj2 (in_rev its it) I2) Hr f1 l1 I1).
Qed.

Lemma uses_below : forall h l l', ordered h -> uses h l l' -> (l' <= l)%nat.
Proof.
  intros h l l' O U. induction U as [|l its c l1 l' G I U IH]; auto.
  pose proof (O _ _ _ _ G I). lia.
Qed.
Lemma later_agree : forall h ls es l, pairs h -> (l < length (h_lc h))%nat ->
  (forall l', In l' ls -> uses h l l' -> expanded (get_lc h l') = true) ->
  forall fuel, fst (lc_derivatives fuel l (settle h (fst (cexec (of_heap h, start ls) es)))) =
               fst (lc_derivatives fuel l h).
Proof.
  intros h ls es l O L D fuel. set (c := fst (cexec (of_heap h, start ls) es)).
  pose proof (pairs_ordered h O) as Od.
  assert (G : forall l', uses h l l' -> get_lc (settle h c) l' = get_lc h l').
  { intros l' U. pose proof (uses_below h l l' Od U). rewrite settle_get by lia.
    assert (F : ~ In l' ls \/ expanded (get_lc h l') = true).
    { destruct (in_dec Nat.eq_dec l' ls) as [I|I]; [right; now apply D|now left]. }
    destruct (cexec_frame h ls es (of_heap h, start ls) l' (all_ok_start h ls) F) as [E1 E2].
    fold c in E1, E2. rewrite E1, E2. simpl. destruct (get_lc h l'); reflexivity. }
  pose proof (G l (uses_self h l)) as Gl. destruct (get_lc h l) as [d|its] eqn:E.
  - unfold lc_derivatives. now rewrite Gl, E.
  - rewrite (eloop_derivatives fuel h l its Od L E).
    rewrite (eloop_derivatives fuel (settle h c) l its).
    + apply (eloop_agree h _ l); auto. intros f l' I. eapply uses_term; eauto using uses_self.
    + apply settle_ordered. apply (below_cexec es (of_heap h, start ls) (below_start h ls O)).
    + now rewrite settle_length.
    + exact Gl.
Qed.

(** ** In terms of programs *)
Lemma reads_derivatives : forall (st : state N) i u o, is_number st i u -> reads st (IDeriv i) o ->
  exists k, forall fuel, (k <= fuel)%nat -> o = out_of (fst (derivatives fuel u (st_heap st))).
Proof.
  intros st i u o E (st' & k & H). unfold is_number in E. exists k. intros fuel F. specialize (H fuel F). cbn [step] in H.
  unfold with_uf, with_val in H. rewrite E in H. destruct (derivatives fuel u (st_heap st)) as [[d|e] h']; simpl in *; congruence.
Qed.
Lemma derivatives_reads : forall (st : state N) i u fuel, is_number st i u ->
  fst (derivatives fuel u (st_heap st)) <> Err EFuel ->
  reads st (IDeriv i) (out_of (fst (derivatives fuel u (st_heap st)))).
Proof.
  intros st i u fuel E H. unfold is_number in E. apply (reads_step fuel).
  - cbn [step]. unfold with_uf, with_val. rewrite E. destruct (derivatives fuel u (st_heap st)) as [[d|e] h']; reflexivity.
  - destruct (fst (derivatives fuel u (st_heap st))); simpl in *; [discriminate|]. intros X; inversion X; congruence.
Qed.
Lemma out_of_inj : forall r r' : res (dict N), out_of r = out_of r' -> r = r'.
Proof. intros [d|e] [d'|e'] E; inversion E; auto. Qed.

Lemma unrelated_undisturbed : forall (st : state N) us t u, nth_error us t = Some u ->
  (forall t' u', t' <> t -> nth_error us t' = Some u' -> unrelated st u [u']) ->
  undisturbed (st_heap st) (linear_parts us) t.
Proof.
  intros st us t u Eu H l t' l' El El' Hn U. unfold linear_parts in *.
  rewrite (map_nth_error (uf_lp (N:=N)) t us Eu) in El. injection El; intros <-.
  destruct (nth_error us t') as [u'|] eqn:Eu'.
  - rewrite (map_nth_error (uf_lp (N:=N)) t' us Eu') in El'. injection El'; intros <-.
    apply (H t' u' Hn Eu' u'); [now left|exact U].
  - apply nth_error_None in Eu'. assert (X : nth_error (map (uf_lp (N:=N)) us) t' <> None) by congruence.
    apply nth_error_Some in X. rewrite map_length in X. lia.
Qed.

(** A thread reads a number while others read unrelated numbers, and may be interrupted. *)
Theorem concurrent_read : forall (st : state N) us t i u r, reachable st ->
  is_number st i u -> nth_error us t = Some u ->
  (forall t' u', t' <> t -> nth_error us t' = Some u' -> unrelated st u [u']) ->
  reads st (IDeriv i) (out_of r) -> r <> Err EFuel ->
  exists m, forall es, ~ interrupted t es ->
    (forall r', obtains st us es t r' -> r' = r /\
      (forall d, r = Ok d -> reads (afterwards st us es) (IDeriv i) (out_of r))) /\
    ((m <= runs_of t es)%nat -> obtains st us es t r).
Proof.
  intros st us t i u r R E Eu H Rd NF.
  destruct (reads_derivatives st i u _ E Rd) as [k K]. specialize (K k (le_n k)).
  apply out_of_inj in K. subst r.
  pose proof (unrelated_undisturbed st us t u Eu H) as U.
  pose proof (reachable_bound st i u R E) as L.
  destruct (undisturbed_exec (st_heap st) (linear_parts us) t (uf_lp u) k (reachable_ordered st R) L
    (map_nth_error (uf_lp (N:=N)) t us Eu) U NF) as [m Hm].
  exists m. intros es NI. destruct (Hm es NI) as [p [Ep [P1 P2]]].
  unfold obtains, threads_run. rewrite Ep. cbn [option_map snd]. split.
  - intros r' X. injection X; intros ->. destruct (P1 r' eq_refl) as [-> B]. split; [reflexivity|].
    intros d Ed. unfold derivatives in *. rewrite Ed. specialize (B d Ed).
    assert (Rd1 : fst (derivatives 0 u (st_heap (afterwards st us es))) = Ok d).
    { unfold derivatives, lc_derivatives, afterwards. cbn [st_heap].
      rewrite (settle_get (st_heap st) _ (uf_lp u) L). unfold threads_run. now rewrite B. }
    change (Machine.ODict d) with (out_of (Ok d)). rewrite <- Rd1.
    apply derivatives_reads; [exact E|rewrite Rd1; discriminate].
  - intros X. now rewrite (P2 X).
Qed.

(** Whatever threads do, and whenever they are interrupted, numbers that do not use what they
    read are not affected. *)
Theorem unrelated_read : forall (st : state N) us es i u r, reachable st ->
  is_number st i u -> unrelated st u us ->
  reads st (IDeriv i) (out_of r) -> r <> Err EFuel ->
  reads (afterwards st us es) (IDeriv i) (out_of r).
Proof.
  intros st us es i u r R E H Rd NF.
  destruct (reads_derivatives st i u _ E Rd) as [k K]. specialize (K k (le_n k)).
  apply out_of_inj in K. subst r. unfold derivatives in *.
  pose proof (reachable_ok st R) as [[O V] _].
  pose proof (later_agree (st_heap st) (linear_parts us) es (uf_lp u) O (reachable_bound st i u R E)) as A.
  assert (D : forall l', In l' (linear_parts us) -> uses (st_heap st) (uf_lp u) l' ->
    expanded (get_lc (st_heap st) l') = true).
  { intros l' I U. apply in_map_iff in I as (u' & <- & I). now apply (H u'). }
  specialize (A D k). rewrite <- A.
  apply (derivatives_reads (afterwards st us es) i u k E). unfold afterwards, derivatives, threads_run. cbn [st_heap].
  rewrite A. exact NF.
Qed.

(** The numbers that are always safe: variables, and numbers whose derivatives have been read. *)
Theorem read_expands : forall (st : state N) i u st' d, is_number st i u ->
  reachable st -> does st (IDeriv i) st' (Machine.ODict d) ->
  expanded (get_lc (st_heap st') (uf_lp u)) = true.
Proof.
  intros st i u st' d E R (k & H). unfold is_number in E. specialize (H k (le_n k)). cbn [step] in H. unfold with_uf, with_val in H. rewrite E in H.
  unfold derivatives, lc_derivatives in H. destruct (get_lc (st_heap st) (uf_lp u)) as [d0|its] eqn:G.
  - simpl in H. injection H; intros _ <-. simpl. now rewrite G.
  - destruct (expand_loop k (uf_lp u) [] (st_heap st)) as [[a|e] h'] eqn:X; [|discriminate].
    destruct (get_lc h' (uf_lp u)) eqn:G'; [|discriminate]. simpl in H. injection H; intros _ <-. simpl.
    now rewrite G'.
Qed.
End ConcThm.
