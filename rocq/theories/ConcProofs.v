(** Reads that do not interfere are correct, whatever the interleaving and the interruptions of
    the other threads. *)
From Coq Require Import ZArith List Bool Arith Lia.
From Verif Require Import Base Heap HeapSpec HeapProofs Conc ConcSpec.
Import ListNotations.

Ltac spl := repeat match goal with |- _ /\ _ => split end.

Section ConcProofs.
Context {N : NumOps}.

Lemma upd_same : forall A (f : loc -> A) l x, upd f l x l = x.
Proof. intros. unfold upd. now rewrite Nat.eqb_refl. Qed.
Lemma upd_other : forall A (f : loc -> A) l l' x, l' <> l -> upd f l x l' = f l'.
Proof. intros. unfold upd. destruct (Nat.eqb_spec l' l); [congruence|auto]. Qed.

(** Locations that a thread may modify. *)
Definition own_pc (l : loc) (p : pc N) : Prop :=
  match p with
  | PTest _ (OList l0) | PPop _ (OList l0) => l0 = l
  | PApp _ _ _ _ _ _ l1 => l1 = l
  | _ => True
  end.
Definition quiet (p : pc N) : Prop :=
  match p with PStart | PReturn | PDone _ => True | _ => False end.

Lemma load_own : forall (c : cheap N) l l0, load c l = OList l0 -> l0 = l /\ c_bound c l = None.
Proof. intros c l l0. unfold load. destruct (c_bound c l); intros E; inversion E; auto. Qed.

Lemma tstep_own : forall l (c : cheap N) p, own_pc l p -> own_pc l (snd (tstep l c p)).
Proof.
  intros l c p H. destruct p; simpl in *; auto.
  - destruct (c_bound c l); simpl; auto.
  - unfold load. destruct (c_bound c l); simpl; auto.
  - destruct (obj_truth c o); simpl; auto.
  - unfold load. destruct (c_bound c l); simpl; auto.
  - destruct o as [l0|d]; simpl; auto. destruct (c_list c l0) as [|it rest]; simpl; auto.
    destruct it; simpl; auto.
  - destruct (c_bound c l'); simpl; auto.
  - destruct (load c l'); simpl; auto.
  - destruct d as [|[v x] d]; simpl; auto. destruct (cmul c0 x); simpl; auto.
  - destruct o as [l0|d]; simpl; auto.
    + destruct (nth_error _ i) as [[]|]; simpl; auto.
    + destruct d; simpl; auto.
  - unfold load. destruct (c_bound c l); simpl; auto.
  - destruct (pn_mul c0 c'); simpl; auto.
Qed.

Lemma tstep_frame : forall l (c : cheap N) p l', own_pc l p -> l' <> l ->
  c_list (fst (tstep l c p)) l' = c_list c l' /\ c_bound (fst (tstep l c p)) l' = c_bound c l'.
Proof.
  intros l c p l' H Hl.
  assert (U : forall A (f : loc -> A) x, upd f l x l' = f l').
  { intros A f x. unfold upd. destruct (Nat.eqb_spec l' l); [congruence|auto]. }
  destruct p; simpl in *; auto.
  - destruct o as [l0|d]; simpl; auto. destruct (c_list c l0) as [|it rest]; simpl; auto. subst.
    split; auto.
  - destruct d as [|[v x] d]; simpl; auto.
  - destruct o as [l0|d]; simpl; auto.
  - destruct (pn_mul c0 c'); simpl; auto. subst. split; auto.
Qed.

(** Reading an expanded number modifies nothing. *)
Lemma tstep_quiet : forall l (c : cheap N) p, quiet p -> c_bound c l <> None ->
  quiet (snd (tstep l c p)) /\ fst (tstep l c p) = c.
Proof.
  intros l c p Q E. destruct p; simpl in *; try tauto; auto.
  destruct (c_bound c l); simpl; [auto|congruence].
Qed.

(** Bindings are never undone. *)
Lemma tstep_bound : forall l (c : cheap N) p l', c_bound c l' <> None ->
  c_bound (fst (tstep l c p)) l' <> None.
Proof.
  intros l c p l' H. destruct p; simpl in *; auto.
  - destruct o as [l0|d]; simpl; auto. destruct (c_list c l0) as [|it rest]; simpl; auto.
  - destruct d as [|[v x] d]; simpl; auto.
  - destruct o as [l0|d]; simpl; auto.
  - destruct (pn_mul c0 c'); simpl; auto.
  - unfold upd. destruct (Nat.eqb_spec l' l); [discriminate|auto].
Qed.

(** ** The invariant of an undisturbed thread *)
Section Inv.
Variable h : heap N.          (* heap at the beginning *)
Variable l : loc.             (* linear part being read *)
Variable its0 : list (item N).
Hypothesis Hl : get_lc h l = LList its0.
Hypothesis Ord : ordered h.
Variable r : res (dict N).
Hypothesis Hr : r <> Err EFuel.

(** Linear combinations that the read uses, other than [l]. *)
Definition sub (l' : loc) : Prop := uses h l l' /\ (l' < l)%nat.

Lemma sub_term : forall l' its c l'', sub l' -> get_lc h l' = LList its ->
  In (IPair c l'') its -> sub l''.
Proof.
  intros l' its c l'' [U L] G I. pose proof (Ord _ _ _ _ G I). split; [|lia].
  clear Hl L. induction U.
  - eapply uses_term; eauto using uses_self.
  - eapply uses_term; eauto.
Qed.

Lemma sub_first : forall c l', In (IPair c l') its0 -> sub l'.
Proof.
  intros c l' I. split; [|exact (Ord _ _ _ _ Hl I)]. eapply uses_term; eauto using uses_self.
Qed.

Definition refs_sub (st : list (item N)) : Prop := forall c l', In (IPair c l') st -> sub l'.

(** The heap the thread sees outside of its own linear combination. *)
Definition sees (c : cheap N) : Prop :=
  forall l', sub l' ->
    match get_lc h l' with
    | LDict d => c_bound c l' = Some d
    | LList its => c_bound c l' = None /\ c_list c l' = its
    end.

(** What remains to be done, with [n] units of fuel. *)
Definition rem (n : nat) (st : list (item N)) (acc : dict N) : Prop := eloop n h st acc = r.
Definition rem_push (n : nat) (c : pynum N) (its st : list (item N)) (acc : dict N) : Prop :=
  match push_items c its st with
  | (st', None) => rem n st' acc
  | (_, Some e) => r = Err e
  end.

Definition big : nat := 20 + 3 * list_sum (map (fun x => match x with
                                    | LDict d => length d | LList its => length its end) (h_lc h)).

(** Invariant at each point, with the number of accesses left in the current turn. *)
Definition inv (n : nat) (c : cheap N) (p : pc N) : Prop :=
  match p with
  | PStart => c_bound c l = None /\ c_list c l = its0 /\ rem n its0 []
  | PTest acc (OList l0) =>
      l0 = l /\ c_bound c l = None /\ refs_sub (c_list c l) /\ rem n (c_list c l) acc
  | PLoad acc =>
      c_bound c l = None /\ refs_sub (c_list c l) /\ rem n (c_list c l) acc
  | PPop acc (OList l0) =>
      l0 = l /\ c_bound c l = None /\ refs_sub (c_list c l) /\ rem n (c_list c l) acc /\
      c_list c l <> []
  | PLoadPop acc =>
      c_bound c l = None /\ refs_sub (c_list c l) /\ rem n (c_list c l) acc /\ c_list c l <> []
  | PTest _ (ODct _) | PPop _ (ODct _) => False
  | PCheck acc f l' =>
      c_bound c l = None /\ refs_sub (c_list c l) /\ sub l' /\
      rem (S n) (IPair f l' :: c_list c l) acc
  | PLoadDict acc f l' =>
      c_bound c l = None /\ refs_sub (c_list c l) /\ sub l' /\
      rem (S n) (IPair f l' :: c_list c l) acc /\ expanded (get_lc h l') = true
  | PDict acc f d =>
      c_bound c l = None /\ refs_sub (c_list c l) /\ (length d + 10 <= big)%nat /\
      rbind (acc_dict f d acc) (fun acc' => eloop n h (c_list c l) acc') = r
  | PLoadIter acc f l' =>
      c_bound c l = None /\ refs_sub (c_list c l) /\ sub l' /\
      rem (S n) (IPair f l' :: c_list c l) acc /\ expanded (get_lc h l') = false
  | PIter acc f (OList l') i =>
      c_bound c l = None /\ refs_sub (c_list c l) /\ sub l' /\
      exists its, get_lc h l' = LList its /\ (3 * length its + 10 <= big)%nat /\
        (i <= length its)%nat /\ rem_push n f (skipn i (rev its)) (c_list c l) acc
  | PLoadApp acc f (OList l') i f' l'' =>
      c_bound c l = None /\ refs_sub (c_list c l) /\ sub l' /\ sub l'' /\
      exists its, get_lc h l' = LList its /\ (3 * length its + 10 <= big)%nat /\
        (0 < i <= length its)%nat /\
        rem_push n f (IPair f' l'' :: skipn i (rev its)) (c_list c l) acc
  | PApp acc f (OList l') i f' l'' l1 =>
      l1 = l /\ c_bound c l = None /\ refs_sub (c_list c l) /\ sub l' /\ sub l'' /\
      exists its, get_lc h l' = LList its /\ (3 * length its + 10 <= big)%nat /\
        (0 < i <= length its)%nat /\
        rem_push n f (IPair f' l'' :: skipn i (rev its)) (c_list c l) acc
  | PIter _ _ (ODct _) _ | PLoadApp _ _ (ODct _) _ _ _ | PApp _ _ (ODct _) _ _ _ _ => False
  | PPublish acc => r = Ok acc
  | PReturn => exists d, c_bound c l = Some d /\ r = Ok d
  | PDone r' => r' = r /\ (forall d, r = Ok d -> c_bound c l = Some d)
  end.

(** Accesses left in the current turn of the loop. *)
Definition local (p : pc N) : nat :=
  match p with
  | PStart => 6
  | PLoad _ => 5
  | PTest _ _ => 4
  | PLoadPop _ => 3
  | PPop _ _ => 2
  | PCheck _ _ _ => big + 4
  | PLoadDict _ _ _ | PLoadIter _ _ _ => big + 3
  | PDict _ _ d => S (length d + 5)
  | PIter _ _ (OList l') i =>
      3 * (match get_lc h l' with LList its => length its | _ => 0 end - i) + 6
  | PLoadApp _ _ (OList l') i _ _ =>
      3 * (match get_lc h l' with LList its => length its | _ => 0 end - i) + 8
  | PApp _ _ (OList l') i _ _ _ =>
      3 * (match get_lc h l' with LList its => length its | _ => 0 end - i) + 7
  | PIter _ _ _ _ | PLoadApp _ _ _ _ _ _ | PApp _ _ _ _ _ _ _ => 0
  | PPublish _ => 2
  | PReturn => 1
  | PDone _ => 0
  end.
Definition cost (n : nat) (p : pc N) : nat := n * (big + 10) + local p.

Lemma big_spec : forall l' x, get_lc h l' = x ->
  (3 * match x with LDict d => length d | LList its => length its end + 20 <= big)%nat.
Proof.
  intros l' x E. unfold big.
  enough (forall L k, (match nth k L (LDict []) with LDict d => length d | LList its => length its end
    <= list_sum (map (fun x : lc N => match x with
         | LDict d => length d | LList its => length its end) L))%nat) as Q.
  { specialize (Q (h_lc h) l'). unfold get_lc in E. rewrite E in Q. lia. }
  clear. intros L. induction L as [|y L IH]; intros k; simpl.
  - destruct k; simpl; lia.
  - destruct k; simpl; [lia|]. specialize (IH k). 
    etransitivity; [apply IH|lia].
Qed.

Lemma rev_nth : forall (its : list (item N)) i it, nth_error (rev its) i = Some it ->
  skipn i (rev its) = it :: skipn (S i) (rev its) /\ (i < length its)%nat /\ In it its.
Proof.
  intros its i it E. assert (Hi : (i < length (rev its))%nat) by (apply nth_error_Some; congruence).
  rewrite rev_length in Hi. split; [|split; [auto|]].
  - clear Hi. revert i E. induction (rev its) as [|x L IH]; intros [|i] E; simpl in *; try discriminate.
    + now inversion E.
    + rewrite (IH _ E). reflexivity.
  - apply nth_error_In in E. now apply in_rev in E.
Qed.
Lemma rev_nth_none : forall (its : list (item N)) i, nth_error (rev its) i = None ->
  skipn i (rev its) = [].
Proof. intros its i E. apply skipn_all2. now apply nth_error_None. Qed.

Lemma step_inv : forall n c p, inv n c p -> sees c -> (forall r', p <> PDone r') ->
  exists n', inv n' (fst (tstep l c p)) (snd (tstep l c p)) /\
    (cost n' (snd (tstep l c p)) < cost n p)%nat.
Proof.
  intros n c p I S ND. unfold cost. destruct p; simpl in I; cbn [tstep fst snd].
  - destruct I as [B [E R]]. rewrite B. exists n. cbn [fst snd inv local]. split; [|lia].
    rewrite E. split; [auto|]. split; [|auto]. intros f l' H. eapply sub_first; eauto.
  - destruct I as [B [E R]]. unfold load. rewrite B. exists n. cbn [fst snd inv local]. split; [auto|lia].
  - destruct o as [l0|]; [|tauto]. destruct I as [-> [B [E R]]]. cbn [obj_truth].
    destruct (c_list c l) as [|it rest] eqn:El.
    + exists n. cbn [fst snd inv local]. split; [|lia]. unfold rem in R. destruct n; simpl in R; congruence.
    + exists n. cbn [fst snd inv local]. rewrite El. split; [|lia]. spl; auto. discriminate.
  - destruct I as [B [E [R NE]]]. unfold load. rewrite B. exists n. cbn [fst snd inv local].
    split; [spl; auto|lia].
  - destruct o as [l0|]; [|tauto]. destruct I as [-> [B [E [R NE]]]].
    destruct (c_list c l) as [|it rest] eqn:El; [congruence|].
    destruct n as [|n]; [unfold rem in R; simpl in R; congruence|].
    destruct it as [f l'|f|l']; cbn [fst snd].
    + exists n. cbn [fst snd inv local c_bound set_list c_list]. split; [|lia].
      rewrite upd_same. spl; auto.
      * intros f' l2 H. apply (E f' l2). now right.
      * apply (E f l'). now left.
    + exists 0%nat. cbn [fst snd inv local]. unfold rem in R. simpl in R. split; [|lia].
      split; [auto|]. intros d X; congruence.
    + exists 0%nat. cbn [fst snd inv local]. unfold rem in R. simpl in R. split; [|lia].
      split; [auto|]. intros d X; congruence.
  - destruct I as [B [E [Sl R]]]. pose proof (S _ Sl) as V. exists n.
    destruct (get_lc h l') as [d|its] eqn:G.
    + rewrite V. cbn [fst snd inv local]. rewrite G. split; [spl; auto; apply Sl|lia].
    + destruct V as [V1 V2]. rewrite V1. cbn [fst snd inv local]. rewrite G. split; [spl; auto; apply Sl|lia].
  - destruct I as [B [E [Sl [R X]]]]. pose proof (S _ Sl) as V. exists n.
    pose proof (big_spec l' _ eq_refl) as Bg.
    destruct (get_lc h l') as [d|its] eqn:G; [|discriminate].
    unfold load. rewrite V. cbn [fst snd inv local]. split; [|lia].
    unfold rem in R. cbn [eloop] in R. rewrite G in R. spl; auto. lia.
  - destruct I as [B [E [Bd R]]]. destruct d as [|[v x] d].
    + exists n. cbn [fst snd inv local]. split; [spl; auto|simpl; lia].
    + simpl in R. destruct (cmul c0 x) as [y|e] eqn:Ec; cbn [fst snd].
      * exists n. cbn [fst snd inv local]. simpl length in *. split; [|lia].
        spl; auto. lia.
      * exists n. cbn [fst snd inv local]. split; [|simpl; lia]. simpl in R. split; [auto|].
        intros; congruence.
  - destruct I as [B [E [Sl [R X]]]]. pose proof (S _ Sl) as V. exists n.
    pose proof (big_spec l' _ eq_refl) as Bg.
    destruct (get_lc h l') as [d|its] eqn:G; [discriminate|]. destruct V as [V1 V2].
    unfold load. rewrite V1. cbn [fst snd inv local]. rewrite G. split; [|lia].
    unfold rem in R. cbn [eloop] in R. rewrite G in R. spl; auto; try apply Sl.
    exists its. spl; auto; try lia.
    unfold rem_push. simpl skipn. destruct (push_items c0 (rev its) (c_list c l)) as [st [e|]]; auto.
  - destruct o as [l'|]; [|tauto]. destruct I as [B [E [Sl [its [G [Bg [Hi R]]]]]]].
    pose proof (S _ Sl) as V. rewrite G in V. destruct V as [V1 V2]. rewrite V2.
    destruct (nth_error (rev its) i) as [it|] eqn:En.
    + destruct (rev_nth _ _ _ En) as [Ek [Li In_]]. rewrite Ek in R.
      destruct it as [f' l''|f'|l''].
      * exists n. cbn [fst snd inv local]. rewrite G. split; [|lia]. spl; auto; try apply Sl.
        -- eapply sub_term; eauto.
        -- exists its. spl; auto; lia.
      * exists n. cbn [fst snd inv local]. split; [|lia]. unfold rem_push in R. simpl in R.
        split; [auto|congruence].
      * exists n. cbn [fst snd inv local]. split; [|lia]. unfold rem_push in R. simpl in R.
        split; [auto|congruence].
    + rewrite (rev_nth_none _ _ En) in R. unfold rem_push in R. simpl in R.
      exists n. cbn [fst snd inv local]. split; [auto|lia].
  - destruct o as [l'|]; [|tauto]. destruct I as [B [E [Sl [Sl2 [its [G [Bg [Hi R]]]]]]]].
    unfold load. rewrite B. exists n. cbn [fst snd inv local]. split; [|lia].
    spl; auto; try apply Sl; try apply Sl2. exists its. spl; auto; lia.
  - destruct o as [l'|]; [|tauto]. destruct I as [-> [B [E [Sl [Sl2 [its [G [Bg [Hi R]]]]]]]]].
    unfold rem_push in R. cbn [push_items] in R.
    destruct (pn_mul c0 c') as [p|e]; cbn [fst snd].
    + exists n. cbn [fst snd inv local c_bound set_list c_list]. rewrite upd_same. split; [|lia].
      spl; auto; try apply Sl.
      * intros f l3 [H|H]; [inversion H; subst; auto|eauto].
      * exists its. spl; auto; try lia.
    + exists n. cbn [fst snd inv local]. split; [|lia]. split; [auto|congruence].
  - exists n. cbn [fst snd inv local c_bound set_bound]. rewrite upd_same. split; [eauto|lia].
  - destruct I as [d [B E]]. rewrite B. exists n. cbn [fst snd inv local]. split; [|lia].
    split; [auto|]. intros d' X. congruence.
  - exfalso. eapply ND; eauto.
Qed.
Lemma inv_frame : forall n c c' p, c_list c' l = c_list c l -> c_bound c' l = c_bound c l ->
  inv n c p -> inv n c' p.
Proof.
  intros n c c' p E1 E2 I. destruct p; simpl in *; rewrite ?E1, ?E2; auto; destruct o; auto;
    simpl in *; rewrite ?E1, ?E2; auto.
Qed.
Lemma sees_frame : forall c c', sees c ->
  (forall l', sub l' -> c_list c' l' = c_list c l' /\ c_bound c' l' = c_bound c l') -> sees c'.
Proof.
  intros c c' S E l' Hs. specialize (S l' Hs). destruct (E l' Hs) as [E1 E2].
  now rewrite E1, E2.
Qed.
End Inv.

(** ** All threads *)
Lemma nth_error_set : forall A (L : list A) i j x,
  nth_error (list_set L i x) j =
  if Nat.eqb j i then (if Nat.ltb i (length L) then Some x else None) else nth_error L j.
Proof.
  intros A L i j x. destruct (Nat.eqb_spec j i) as [->|H].
  - destruct (Nat.ltb_spec i (length L)).
    + now apply nth_error_list_set_eq.
    + apply nth_error_None. rewrite list_set_length. auto.
  - apply nth_error_list_set_neq. auto.
Qed.

(** What holds of every thread. *)
Definition all_ok (h : heap N) (ls : list loc) (s : cheap N * threads N) : Prop :=
  length (snd s) = length ls /\
  forall k lk pk, nth_error (snd s) k = Some (lk, pk) ->
    nth_error ls k = Some lk /\ own_pc lk pk /\
    (expanded (get_lc h lk) = true -> quiet pk /\ c_bound (fst s) lk <> None).

Lemma start_nth : forall ls k x, nth_error (start (N:=N) ls) k = Some x ->
  exists l, nth_error ls k = Some l /\ x = (l, PStart).
Proof.
  intros ls k x E. unfold start in E. rewrite nth_error_map in E.
  destruct (nth_error ls k) as [l|]; inversion E. eauto.
Qed.

Lemma all_ok_start : forall h ls, all_ok h ls (of_heap h, start ls).
Proof.
  intros h ls. split; [apply map_length|]. intros k lk pk E.
  destruct (start_nth _ _ _ E) as [l [E1 E2]]. inversion E2; subst. split; [auto|].
  split; [exact I|]. intros X. split; [exact I|]. simpl. destruct (get_lc h l); discriminate.
Qed.

Lemma cstep_run : forall (c : cheap N) ths t lk pk, nth_error ths t = Some (lk, pk) ->
  cstep (c, ths) (Run t) = (fst (tstep lk c pk), list_set ths t (lk, snd (tstep lk c pk))).
Proof. intros c ths t lk pk E. simpl. rewrite E. now destruct (tstep lk c pk). Qed.

Lemma all_ok_step : forall h ls s e, all_ok h ls s -> all_ok h ls (cstep s e).
Proof.
  intros h ls [c ths] e [L A]. destruct e as [t|t].
  - destruct (nth_error ths t) as [[lk pk]|] eqn:E.
    2:{ simpl. rewrite E. split; auto. }
    rewrite (cstep_run _ _ _ _ _ E). destruct (A _ _ _ E) as [A1 [A2 A3]]. simpl in *.
    split; [simpl; now rewrite list_set_length|]. intros k l1 p1 E1. simpl in E1.
    rewrite nth_error_set in E1. destruct (Nat.eqb_spec k t) as [->|Hk].
    + destruct (Nat.ltb t (length ths)); inversion E1; subst. split; [auto|].
      split; [now apply tstep_own|]. intros X. destruct (A3 X) as [Q B].
      split; [now apply tstep_quiet|now apply tstep_bound].
    + destruct (A _ _ _ E1) as [B1 [B2 B3]]. split; [auto|]. split; [auto|]. intros X.
      destruct (B3 X). split; [auto|]. now apply tstep_bound.
  - simpl. destruct (nth_error ths t) as [[lk pk]|] eqn:E.
    2:{ split; auto. }
    assert (Q : all_ok h ls (c, list_set ths t (lk, PDone (Err EInterrupt)))).
    { destruct (A _ _ _ E) as [A1 [A2 A3]]. split; [simpl; now rewrite list_set_length|].
      intros k l1 p1 E1. simpl in E1. rewrite nth_error_set in E1.
      destruct (Nat.eqb_spec k t) as [->|Hk].
      - destruct (Nat.ltb t (length ths)); inversion E1; subst. split; [auto|]. split; [exact I|].
        intros X. split; [exact I|]. now apply A3.
      - exact (A _ _ _ E1). }
    destruct pk; auto. split; auto.
Qed.

(** Events of other threads change nothing to what an undisturbed thread sees. *)
Lemma other_frame : forall h ls t l s e, ordered h -> all_ok h ls s -> undisturbed h ls t ->
  nth_error ls t = Some l -> e <> Run t -> e <> Interrupt t ->
  nth_error (snd (cstep s e)) t = nth_error (snd s) t /\
  forall l', uses h l l' -> c_list (fst (cstep s e)) l' = c_list (fst s) l' /\
                            c_bound (fst (cstep s e)) l' = c_bound (fst s) l'.
Proof.
  intros h ls t l [c ths] e O [L A] U El N1 N2. destruct e as [k|k].
  - destruct (nth_error ths k) as [[lk pk]|] eqn:E.
    2:{ simpl. rewrite E. auto. }
    rewrite (cstep_run _ _ _ _ _ E). assert (Hk : k <> t) by congruence. simpl.
    split; [rewrite nth_error_set; destruct (Nat.eqb_spec t k); congruence|].
    destruct (A _ _ _ E) as [A1 [A2 A3]]. simpl in *. intros l' Hu.
    destruct (Nat.eq_dec l' lk) as [->|Hn]; [|now apply tstep_frame].
    assert (X : expanded (get_lc h lk) = true) by exact (U l k lk El A1 Hk Hu).
    destruct (A3 X) as [Q B]. destruct (tstep_quiet lk c pk Q B) as [_ ->]. auto.
  - simpl. destruct (nth_error ths k) as [[lk pk]|] eqn:E; [|auto].
    assert (Hk : t <> k) by congruence.
    assert (Q : nth_error (list_set ths k (lk, PDone (Err EInterrupt))) t = nth_error ths t).
    { rewrite nth_error_set. destruct (Nat.eqb_spec t k); congruence. }
    destruct pk; simpl; auto.
Qed.

(** An undisturbed thread that reads an unexpanded number. *)
Definition good (h : heap N) (l : loc) (its0 : list (item N)) (r : res (dict N)) (t m : nat)
  (s : cheap N * threads N) : Prop :=
  exists n p, nth_error (snd s) t = Some (l, p) /\ inv h l its0 r n (fst s) p /\
    sees h l (fst s) /\ ((exists r', p = PDone r') \/ (cost h n p <= m)%nat).

Lemma good_step : forall h ls l its0 r t m s e, ordered h -> get_lc h l = LList its0 ->
  r <> Err EFuel -> all_ok h ls s -> undisturbed h ls t -> nth_error ls t = Some l ->
  e <> Interrupt t -> good h l its0 r t m s ->
  good h l its0 r t (match e with Run k => if Nat.eqb k t then pred m else m | _ => m end)
    (cstep s e).
Proof.
  intros h ls l its0 r t m [c ths] e O G Hr A U El NI [n [p [E [I [S D]]]]]. simpl in E, I, S.
  assert (Dec : e = Run t \/ e <> Run t).
  { destruct e as [k|k]; [destruct (Nat.eq_dec k t); [left; now subst|right; congruence]|].
    right; discriminate. }
  destruct Dec as [->|NR].
  - rewrite Nat.eqb_refl. rewrite (cstep_run _ _ _ _ _ E).
    destruct A as [L A]. destruct (A _ _ _ E) as [_ [Ow _]]. simpl in Ow.
    assert (S' : sees h l (fst (tstep l c p))).
    { apply sees_frame with (c := c); auto. intros l' [_ Hl']. apply tstep_frame; auto. lia. }
    assert (Et : nth_error (list_set ths t (l, snd (tstep l c p))) t = Some (l, snd (tstep l c p))).
    { apply nth_error_list_set_eq. apply nth_error_Some. congruence. }
    destruct (match p with PDone r' => true | _ => false end) eqn:Ep.
    + destruct p; try discriminate. exists n, (PDone r0). simpl in *. split; [auto|].
      split; [auto|]. split; [auto|]. left; eauto.
    + destruct (step_inv h l its0 G O r Hr n c p I S) as [n' [I' C']].
      { intros r' ->. discriminate. }
      exists n', (snd (tstep l c p)). simpl. split; [auto|]. split; [auto|]. split; [auto|].
      right. destruct D as [[r' ->]|D]; [discriminate|]. lia.
  - destruct (other_frame h ls t l (c, ths) e O A U El NR NI) as [F1 F2]. exists n, p.
    split; [rewrite F1; exact E|]. split; [|split].
    + eapply inv_frame; [| |exact I]; apply F2; apply uses_self.
    + apply sees_frame with (c := c); auto. intros l' [Hu _]. now apply F2.
    + destruct D; [auto|]. right. destruct e as [k|k]; auto.
      destruct (Nat.eqb_spec k t); [subst; congruence|auto].
Qed.

Lemma good_exec : forall h ls l its0 r t es m s, ordered h -> get_lc h l = LList its0 ->
  r <> Err EFuel -> all_ok h ls s -> undisturbed h ls t -> nth_error ls t = Some l ->
  ~ interrupted t es -> good h l its0 r t m s ->
  good h l its0 r t (m - runs_of t es) (cexec s es).
Proof.
  intros h ls l its0 r t es. induction es as [|e es IH]; intros m s O G Hr A U El NI Gd.
  - simpl. now rewrite Nat.sub_0_r.
  - unfold cexec. simpl fold_left. fold (cexec (cstep s e) es).
    assert (NI' : ~ interrupted t es) by (intros X; apply NI; now right).
    assert (Ne : e <> Interrupt t) by (intros ->; apply NI; now left).
    pose proof (good_step _ _ _ _ _ _ _ _ _ O G Hr A U El Ne Gd) as Gs.
    pose proof (all_ok_step _ _ _ e A) as As.
    specialize (IH _ _ O G Hr As U El NI' Gs).
    destruct e as [k|k]; simpl runs_of; [|exact IH].
    destruct (Nat.eqb k t); [|exact IH].
    replace (m - Datatypes.S (runs_of t es))%nat with (pred m - runs_of t es)%nat by lia. exact IH.
Qed.

Lemma eloop_derivatives : forall fuel (h : heap N) l its, ordered h -> (l < length (h_lc h))%nat ->
  get_lc h l = LList its -> fst (lc_derivatives fuel l h) = eloop fuel h its [].
Proof.
  intros fuel h l its O Hl G. unfold lc_derivatives. rewrite G.
  destruct (expand_loop_eloop fuel h l its [] Hl) as [st' E].
  - intros l' its' _ G' it I. destruct it; auto. exact (O _ _ _ _ G' I).
  - intros it I. destruct it; auto. exact (O _ _ _ _ G I).
  - rewrite <- G in E. rewrite set_self in E by auto. rewrite E.
    destruct (eloop fuel h its []); [|reflexivity]. now rewrite get_set_eq by auto.
Qed.

(** An undisturbed thread that reads an expanded number. *)
Definition good_dict (l : loc) (d : dict N) (t m : nat) (s : cheap N * threads N) : Prop :=
  c_bound (fst s) l = Some d /\
  exists p, nth_error (snd s) t = Some (l, p) /\
    match p with
    | PStart => (2 <= m)%nat
    | PReturn => (1 <= m)%nat
    | PDone r => r = Ok d
    | _ => False
    end.

Lemma good_dict_step : forall h ls l d t m s e, ordered h -> get_lc h l = LDict d ->
  all_ok h ls s -> undisturbed h ls t -> nth_error ls t = Some l ->
  e <> Interrupt t -> good_dict l d t m s ->
  good_dict l d t (match e with Run k => if Nat.eqb k t then pred m else m | _ => m end)
    (cstep s e).
Proof.
  intros h ls l d t m [c ths] e O G A U El NI [B [p [E Hp]]]. simpl in E, B.
  assert (Dec : e = Run t \/ e <> Run t).
  { destruct e as [k|k]; [destruct (Nat.eq_dec k t); [left; now subst|right; congruence]|].
    right; discriminate. }
  destruct Dec as [->|NR].
  - rewrite Nat.eqb_refl. rewrite (cstep_run _ _ _ _ _ E).
    assert (Et : forall x, nth_error (list_set ths t x) t = Some x).
    { intros x. apply nth_error_list_set_eq. apply nth_error_Some. congruence. }
    destruct p; try tauto; simpl; rewrite ?B; split; simpl; auto; eexists; (split; [apply Et|]); simpl; auto; lia.
  - destruct (other_frame h ls t l (c, ths) e O A U El NR NI) as [F1 F2].
    split; [rewrite (proj2 (F2 l (uses_self h l))); exact B|]. exists p. split; [rewrite F1; exact E|].
    assert (X : match e with Run k => if Nat.eqb k t then pred m else m | Interrupt _ => m end = m).
    { destruct e as [k|k]; auto. destruct (Nat.eqb_spec k t); [subst; congruence|auto]. }
    rewrite X. exact Hp.
Qed.

Lemma good_dict_exec : forall h ls l d t es m s, ordered h -> get_lc h l = LDict d ->
  all_ok h ls s -> undisturbed h ls t -> nth_error ls t = Some l ->
  ~ interrupted t es -> good_dict l d t m s ->
  good_dict l d t (m - runs_of t es) (cexec s es).
Proof.
  intros h ls l d t es. induction es as [|e es IH]; intros m s O G A U El NI Gd.
  - simpl. now rewrite Nat.sub_0_r.
  - unfold cexec. simpl fold_left. fold (cexec (cstep s e) es).
    assert (NI' : ~ interrupted t es) by (intros X; apply NI; now right).
    assert (Ne : e <> Interrupt t) by (intros ->; apply NI; now left).
    pose proof (good_dict_step _ _ _ _ _ _ _ _ O G A U El Ne Gd) as Gs.
    pose proof (all_ok_step _ _ _ e A) as As.
    specialize (IH _ _ O G As U El NI' Gs).
    destruct e as [k|k]; simpl runs_of; [|exact IH].
    destruct (Nat.eqb k t); [|exact IH].
    replace (m - Datatypes.S (runs_of t es))%nat with (pred m - runs_of t es)%nat by lia. exact IH.
Qed.

(** Both cases. *)
Lemma undisturbed_exec : forall (h : heap N) ls t l fuel, ordered h -> (l < length (h_lc h))%nat ->
  nth_error ls t = Some l -> undisturbed h ls t -> fst (lc_derivatives fuel l h) <> Err EFuel ->
  exists m, forall es, ~ interrupted t es ->
  exists p, nth_error (snd (cexec (of_heap h, start ls) es)) t = Some (l, p) /\
    (forall r, p = PDone r -> r = fst (lc_derivatives fuel l h) /\
       forall d, r = Ok d -> c_bound (fst (cexec (of_heap h, start ls) es)) l = Some d) /\
    ((m <= runs_of t es)%nat -> p = PDone (fst (lc_derivatives fuel l h))).
Proof.
  intros h ls t l fuel O Hl El U F.
  assert (Es : nth_error (start (N:=N) ls) t = Some (l, PStart)).
  { exact (map_nth_error (fun l => (l, PStart (N:=N))) t ls El). }
  destruct (get_lc h l) as [d|its] eqn:G.
  - exists 2%nat. intros es NI.
    assert (Gd : good_dict l d t 2 (of_heap h, start ls)).
    { split; [simpl; now rewrite G|]. exists PStart. split; [exact Es|auto]. }
    destruct (good_dict_exec h ls l d t es 2 _ O G (all_ok_start h ls) U El NI Gd) as [B [p [E Hp]]].
    assert (Ed : fst (lc_derivatives fuel l h) = Ok d) by (unfold lc_derivatives; now rewrite G).
    exists p. split; [exact E|]. split.
    + intros r ->. split; [congruence|]. intros d' X. congruence.
    + intros Hm. destruct p; try tauto; try lia. congruence.
  - pose proof (eloop_derivatives fuel h l its O Hl G) as Ed. rewrite Ed in *.
    set (r := eloop fuel h its []) in *.
    exists (cost h fuel (PStart (N:=N)) + 1)%nat. intros es NI.
    assert (Gd : good h l its r t (cost h fuel PStart) (of_heap h, start ls)).
    { exists fuel, PStart. split; [exact Es|]. split; [|split; [|auto]].
      - simpl. rewrite G. split; [auto|split; [auto|reflexivity]].
      - intros l' _. simpl. destruct (get_lc h l'); auto. }
    destruct (good_exec h ls l its r t es _ _ O G F (all_ok_start h ls) U El NI Gd)
      as [n [p [E [I [_ D]]]]].
    exists p. split; [exact E|]. split.
    + intros r' ->. simpl in I. destruct I as [-> I]. auto.
    + intros Hm. destruct D as [[r' ->]|D].
      * simpl in I. destruct I as [-> _]. reflexivity.
      * assert (C0 : (cost h n p <= 0)%nat) by lia. unfold cost in C0.
        assert (X : local h p = 0%nat) by lia. clear - X I.
        destruct p; simpl in X, I; try lia; try (destruct o; try lia; tauto).
        now destruct I as [-> _].
Qed.
End ConcProofs.
