(** Every read of every reachable state ends, in any arithmetic. *)
From Coq Require Import ZArith List Bool Arith Lia.
From Verif Require Import Base Heap Affine Ops UMath HeapProofs Machine Cov Copy Calls Unumpy UMatrix History Fuel Ordered TermSpec.
Import ListNotations.

Section Term.
Context {N : NumOps} (EN : ends N).
Implicit Types h : heap N.

Lemma nf_bind : forall A B (r : res A) (f : A -> res B), r <> Err EFuel -> (forall a, f a <> Err EFuel) -> rbind r f <> Err EFuel.
Proof. intros A B [a|e] f H H'; cbn; [apply H'|congruence]. Qed.
Lemma nf_float : forall p : pynum N, pn_float p <> Err EFuel.
Proof. intros [z|x]; cbn; [apply EN|discriminate]. Qed.
Ltac nf := repeat first [discriminate | apply nf_float | apply EN | apply nf_bind; intros].
Lemma nf_mul : forall p q : pynum N, pn_mul p q <> Err EFuel.
Proof. intros [z|x] [y|w]; unfold pn_mul; nf. Qed.
Lemma nf_add : forall p q : pynum N, pn_add p q <> Err EFuel.
Proof. intros [z|x] [y|w]; unfold pn_add; nf. Qed.
Lemma nf_sub : forall p q : pynum N, pn_sub p q <> Err EFuel.
Proof. intros [z|x] [y|w]; unfold pn_sub; nf. Qed.
Lemma nf_div : forall p q : pynum N, pn_div p q <> Err EFuel.
Proof. intros [z|x] [y|w]; unfold pn_div; nf. Qed.
Lemma nf_powf : forall x y, n_powf (N:=N) x y <> Err EFuel.
Proof. intros x y. unfold n_powf. apply nf_bind; [apply EN|]. intros [a|]; discriminate. Qed.
Lemma nf_square : forall p : pynum N, pn_square p <> Err EFuel.
Proof. intros [z|x]; unfold pn_square; [discriminate|]. apply nf_bind; [apply nf_powf|discriminate]. Qed.
Lemma nf_acc : forall c d acc, acc_dict (N:=N) c d acc <> Err EFuel.
Proof.
  intros c. induction d as [|[v f] d IH]; intros acc; cbn [acc_dict]; [discriminate|]. unfold cmul. apply nf_bind; [nf|]. intros; apply IH.
Qed.
Lemma nf_push : forall c its st s e, push_items (N:=N) c its st = (s, Some e) -> e <> EFuel.
Proof.
  intros c its. induction its as [|[c' l| |] its IH]; intros st s e H; cbn [push_items] in H; try (injection H as _ <-; discriminate); [discriminate H|].
  destruct (pn_mul c c') as [p|e'] eqn:E; [eauto|]. injection H as _ <-. intros ->. exact (nf_mul _ _ E).
Qed.

(** ** Size of what remains to be expanded *)
Fixpoint cost (n : nat) h (l : loc) : nat :=
  match n with
  | O => 1
  | S n =>
      match get_lc h l with
      | LDict _ => 1
      | LList its => S (list_sum (map (fun it => match it with IPair _ l' => cost n h l' | _ => 0 end) its))
      end
  end.
Definition icost h (it : item N) : nat := match it with IPair _ l' => cost (S l') h l' | _ => 0 end.
Definition size h (its : list (item N)) : nat := list_sum (map (icost h) its).
Lemma cost_stable : forall h, pairs h -> forall l n m, (l < n)%nat -> (l < m)%nat -> cost n h l = cost m h l.
Proof.
  intros h P. induction l as [l IH] using lt_wf_ind. intros [|n] [|m] Hn Hm; try lia. cbn [cost]. destruct (get_lc h l) as [d|its] eqn:G; [reflexivity|].
  do 2 f_equal. apply map_ext_in. intros it Hi. pose proof (P _ _ _ G Hi) as B. destruct it as [c l'| |]; try reflexivity. cbn in B. apply IH; lia.
Qed.
Lemma cost_list : forall h, pairs h -> forall l its, get_lc h l = LList its -> cost (S l) h l = S (size h its).
Proof.
  intros h P l its G. cbn [cost]. rewrite G. unfold size. do 2 f_equal. apply map_ext_in. intros it Hi. pose proof (P _ _ _ G Hi) as B.
  destruct it as [c l'| |]; try reflexivity. cbn in B. unfold icost. apply cost_stable; auto.
Qed.
Lemma size_cons : forall h it its, size h (it :: its) = (icost h it + size h its)%nat.
Proof. reflexivity. Qed.
Lemma size_push : forall h c its st s, push_items c its st = (s, None) -> size h s = (size h its + size h st)%nat.
Proof.
  intros h c. induction its as [|[c' l| |] its IH]; intros st s H; cbn [push_items] in H; try discriminate H; [now injection H as <-|].
  destruct (pn_mul c c') as [p|e]; [|discriminate H]. rewrite (IH _ _ H), !size_cons. change (icost h (IPair p l)) with (icost h (IPair c' l)). lia.
Qed.
Lemma size_rev : forall h its, size h (rev its) = size h its.
Proof.
  intros h. induction its as [|it its IH]; [reflexivity|]. unfold size in *. cbn [rev]. rewrite map_app, list_sum_app, IH. cbn [map list_sum fold_right]. rewrite Nat.add_0_r. apply Nat.add_comm.
Qed.
Lemma icost_pos : forall h c l, (0 < icost h (IPair c l))%nat.
Proof. intros h c l. unfold icost. cbn [cost]. destruct (get_lc h l); lia. Qed.

Lemma loop_ends : forall h l, pairs h -> (l < length (h_lc h))%nat -> forall n st acc, (forall it, In it st -> okt l it) -> (size h st < n)%nat ->
  fst (expand_loop n l acc (set_lc h l (LList st))) <> Err EFuel.
Proof.
  intros h l P B. induction n as [|n IH]; intros st acc K Hs; [lia|]. cbn [expand_loop]. rewrite get_set_eq by exact B.
  destruct st as [|it rest]; [discriminate|]. cbv zeta. rewrite !set_set. assert (Ki := K it (or_introl eq_refl)).
  destruct it as [c l'| |]; try contradiction. cbn [okt] in Ki. rewrite get_set_neq by lia.
  assert (Hr : (size h rest < n)%nat) by (rewrite size_cons in Hs; pose proof (icost_pos h c l'); lia).
  destruct (get_lc h l') as [d|its] eqn:G.
  - destruct (acc_dict c d acc) as [acc'|e] eqn:A.
    + apply IH; [|exact Hr]. intros it Hi. apply K. now right.
    + cbn [fst]. intros [= ->]. exact (nf_acc _ _ _ A).
  - destruct (push_items c (rev its) rest) as [s [e|]] eqn:Q; cbn [fst].
    + pose proof (nf_push _ _ _ _ _ Q). congruence.
    + rewrite set_set. apply IH.
      * intros it Hi. eapply push_items_below; [| |exact Q|exact Hi].
        -- intros y Hy. apply in_rev in Hy. eapply okt_mono; [|exact (P _ _ _ G Hy)]. lia.
        -- intros y Hy. apply K. now right.
      * rewrite (size_push _ _ _ _ _ Q), size_rev. rewrite size_cons in Hs. unfold icost in Hs. rewrite (cost_list h P _ _ G) in Hs. lia.
Qed.

(** ** Reads *)
Definition fin {A} (m : nat -> M N A) h : Prop := exists k, fst (m k h) <> Err EFuel.
Lemma fin_bind : forall A B (m : nat -> M N A) (q : nat -> A -> M N B) h, fmono m -> (forall a, fmono (fun n => q n a)) -> fin m h ->
  (forall k a h', m k h = (Ok a, h') -> fin (fun n => q n a) h') -> fin (fun n => bind (m n) (q n)) h.
Proof.
  intros A B m q h Fm Fq [k Hk] Hq. destruct (m k h) as [[a|e] h'] eqn:E; [|exists k; unfold bind; rewrite E; cbn in *; congruence].
  destruct (Hq _ _ _ E) as [j Hj]. exists (k + j)%nat. unfold bind. rewrite (Fm k j h) by (rewrite E; discriminate). rewrite E.
  rewrite Nat.add_comm. rewrite (Fq a j k h') by exact Hj. exact Hj.
Qed.
Lemma fin_const : forall A (m : M N A) h, fst (m h) <> Err EFuel -> fin (fun _ => m) h.
Proof. intros A m h H. exists 0%nat. exact H. Qed.
Lemma fin_deriv : forall l h, okh h -> fin (fun n => lc_derivatives n l) h.
Proof.
  intros l h [P _]. unfold fin, lc_derivatives. destruct (get_lc h l) as [d|its] eqn:G; [exists 0%nat; discriminate|].
  assert (B : (l < length (h_lc h))%nat).
  { destruct (Nat.lt_ge_cases l (length (h_lc h))) as [B|B]; [exact B|]. unfold get_lc in G. rewrite nth_overflow in G by exact B. discriminate. }
  exists (S (size h its)). assert (X := loop_ends h l P B (S (size h its)) its [] (fun it => P _ _ it G) (le_n _)).
  assert (E : set_lc h l (LList its) = h) by (rewrite <- G; now apply set_self). rewrite E in X.
  destruct (expand_loop (S (size h its)) l [] h) as [[[]|e] h']; [destruct (get_lc h' l); discriminate|cbn in *; congruence].
Qed.
Lemma nf_components : forall h d, components h d <> Err EFuel.
Proof. intros h. induction d as [|[v x] d IH]; cbn [components]; [discriminate|]. destruct (get_var h v); [|discriminate]. cbv zeta. apply nf_bind; [exact IH|discriminate]. Qed.
Lemma nf_squares : forall l acc, sum_squares (N:=N) acc l <> Err EFuel.
Proof. induction l as [|x l IH]; intros acc; cbn [sum_squares]; [discriminate|]. apply nf_bind; [apply nf_square|]. intros s. apply nf_bind; [apply nf_add|]. intros; apply IH. Qed.
Lemma fin_errors : forall u h, okh h -> fin (fun n => error_components n u) h.
Proof.
  intros u h O. unfold error_components. apply (fin_bind _ _ _ (fun _ d h => (components h d, h))); [apply fm_derivatives|intros; apply fm_const|now apply fin_deriv|].
  intros k a h' _. apply fin_const. apply nf_components.
Qed.
Lemma fin_affine : forall u h, okh h -> fin (fun n => std_dev_affine n u) h.
Proof.
  intros u h O. unfold std_dev_affine. apply (fin_bind _ _ _ (fun _ d => _)); [apply fm_errors|intros; apply fm_const|now apply fin_errors|].
  intros k a h' _. apply fin_const. cbn [fst]. apply nf_bind; [apply nf_squares|]. intros s. unfold pn_sqrt. apply nf_bind; [nf|]. intros; apply EN.
Qed.
Lemma fin_std : forall u h, okh h -> fin (fun n => std_dev n u) h.
Proof. intros u h O. unfold std_dev. destruct (uf_var u); [apply fin_const; destruct (get_var h v); discriminate|now apply fin_affine]. Qed.

Lemma nf_sub_method : forall x y h, fst (method_op Bsub x (VUF y) h) <> Err EFuel.
Proof.
  intros x y h. discriminate.
Qed.
Lemma fin_eq : forall x y h, okh h -> oku h x -> oku h y -> fin (fun n => eq_aff n x y) h.
Proof.
  intros x y h O X Y. unfold eq_aff. apply (fin_bind _ _ (fun _ => method_op Bsub x (VUF y)) (fun n (r : value N) => match r with VUF d => _ | _ => _ end)).
  - apply fm_const.
  - intros [[]|d]; try apply fm_const. destruct (n_truth N (uf_nom d)); [apply fm_const|].
    apply (fm_bind _ _ _ (fun _ s => _)); [apply fm_std|intros; apply fm_const].
  - apply fin_const. apply nf_sub_method.
  - intros k a h' E. assert (O' : okh h').
    { pose proof (method_keeps Bsub x (VUF y) h X Y O) as (A & _). rewrite E in A. exact A. }
    destruct a as [p|d]; [apply fin_const; discriminate|]. destruct (n_truth N (uf_nom d)); [apply fin_const; discriminate|].
    apply (fin_bind _ _ _ (fun _ s => _)); [apply fm_std|intros; apply fm_const|now apply fin_std|]. intros; apply fin_const; discriminate.
Qed.
Lemma fin_cmp : forall c x y h, okh h -> oku h x -> oku h y -> fin (fun n => cmp_aff n c x y) h.
Proof.
  intros c x y h O X Y. unfold cmp_aff. destruct c; try (apply fin_const; discriminate); [now apply fin_eq| | |].
  - unfold ne_aff. apply (fin_bind _ _ _ (fun _ b => _)); [apply fm_eq|intros; apply fm_const|now apply fin_eq|]. intros; apply fin_const; discriminate.
  - unfold ge_aff. destruct (gt_aff x y); [apply fin_const; discriminate|now apply fin_eq].
  - unfold le_aff. destruct (lt_aff x y); [apply fin_const; discriminate|now apply fin_eq].
Qed.
Lemma fin_method : forall c x b h, okh h -> oku h x -> okv h b -> fin (fun n => method_cmp n c x b) h.
Proof.
  intros c x b h O X Y. unfold fin, method_cmp. pose proof (to_affine_keeps b h Y O) as (A & G & B).
  destruct (to_affine_scalar b h) as [[y|e] h1] eqn:E; cbn [fst snd] in *.
  - assert (X' : oku h1 x) by (unfold oku, grows in *; lia). destruct (fin_cmp c x y h1 A X' (B y eq_refl)) as [k Hk]. exists k.
    destruct (cmp_aff k c x y h1) as [[r|e] h2]; [discriminate|cbn in *; congruence].
  - exists 0%nat. destruct e; try discriminate. exfalso. clear - E EN. destruct b as [[p| | |]|u]; try discriminate E. cbn in E.
    destruct (pn_float p) as [x|e] eqn:F; [discriminate E|]. injection E as -> _. exact (nf_float _ F).
Qed.
Lemma fin_pycmp : forall c x b h, okh h -> oku h x -> okv h b -> fin (fun n => py_cmp n c x b) h.
Proof.
  intros c x b h O X Y. unfold py_cmp. apply (fin_bind _ _ _ (fun _ r => _)); [apply fm_method|intros; apply fm_const|now apply fin_method|].
  intros k [r|] h' _; apply fin_const; [discriminate|destruct c; discriminate].
Qed.
Lemma fin_bool : forall u h, okh h -> oku h u -> fin (fun n => py_bool n u) h.
Proof.
  intros u h O X. unfold py_bool. apply (fin_bind _ _ _ (fun _ r => _)); [apply fm_method|intros; apply fm_const|apply fin_method; auto; exact I|].
  intros k [r|] h' _; apply fin_const; discriminate.
Qed.
Lemma fin_score : forall u p h, okh h -> fin (fun n => std_score n u p) h.
Proof.
  intros u p h O. unfold std_score. apply (fin_bind _ _ _ (fun _ s => _)); [apply fm_std|intros; apply fm_const|now apply fin_std|].
  intros k s h' _. apply fin_const. cbn [fst].
  assert (X : rbind (pn_sub p (PF (uf_nom u))) (fun d => rbind (pn_div d (PF s)) (fun r => pn_float r)) <> Err EFuel).
  { apply nf_bind; [apply nf_sub|]. intros d. apply nf_bind; [apply nf_div|]. intros; nf. }
  destruct (rbind (pn_sub p (PF (uf_nom u))) (fun d => rbind (pn_div d (PF s)) (fun r => pn_float r))) as [r|[]]; try discriminate. congruence.
Qed.
Lemma observe_fin : forall A (st : state N) (f : A -> out N) (m : nat -> M N A), (forall a, f a <> OExn EFuel) -> fin m (st_heap st) ->
  exists k, snd (observe st f (m k (st_heap st))) <> OExn EFuel.
Proof.
  intros A st f m Hf [k Hk]. exists k. destruct (m k (st_heap st)) as [[a|e] h']; cbn in *; [apply Hf|congruence].
Qed.
Theorem reads_end : forall (st : state N) ins, reachable st -> is_read ins = true -> exists st' o, does st ins st' o /\ o <> OExn EFuel.
Proof.
  intros st ins R I. assert (X : exists k, snd (step k st ins) <> OExn EFuel).
  { destruct (reachable_ok st R) as (O & E). rewrite Forall_forall in E.
    assert (U : forall i u, nth_error (st_env st) i = Some (VUF u) -> oku (st_heap st) u) by (intros i u H; exact (E _ (nth_error_In _ _ H))).
    assert (V : forall i a, nth_error (st_env st) i = Some a -> okv (st_heap st) a) by (intros i a H; exact (E _ (nth_error_In _ _ H))).
    destruct ins; try discriminate I; cbn [step]; unfold with_uf, with_val;
      (destruct (nth_error (st_env st) i) as [[?|u]|] eqn:A; [exists 0%nat; discriminate| |exists 0%nat; discriminate]); specialize (U _ _ A).
    - apply (observe_fin _ st ODict (fun k => derivatives k u)); [discriminate|now apply fin_deriv].
    - apply (observe_fin _ st ONum (fun k => std_dev k u)); [discriminate|now apply fin_std].
    - apply (observe_fin _ st ONum (fun k => std_dev_s k u)); [discriminate|now apply fin_affine].
    - apply (observe_fin _ st OErrs (fun k => error_components k u)); [discriminate|now apply fin_errors].
    - destruct (nth_error (st_env st) j) as [b|] eqn:B; [|exists 0%nat; discriminate].
      apply (observe_fin _ st OBool (fun k => py_cmp k c u b)); [discriminate|]. apply fin_pycmp; eauto.
    - apply (observe_fin _ st OBool (fun k => py_bool k u)); [discriminate|now apply fin_bool].
    - apply (observe_fin _ st ONum (fun k => std_score k u p)); [discriminate|now apply fin_score]. }
  destruct X as [k Hk]. exists (fst (step k st ins)), (snd (step k st ins)). split; [now apply does_step|exact Hk].
Qed.
End Term.

(** ** Covariance and correlation matrices *)
Section Matrices.
Context {N : NumOps} (EN : ends N).
Implicit Types h : heap N.

Lemma okh_after : forall A h h' (m : M N A) r, okh h -> keeps h m any -> m h = (r, h') -> okh h'.
Proof. intros A h h' m r O K E. destruct (K O) as [O' _]. rewrite E in O'. exact O'. Qed.
Lemma nf_cov_sum : forall h d1 d2 vs acc, cov_sum h d1 d2 vs acc <> Err EFuel.
Proof.
  intros h d1 d2. induction vs as [|v vs IH]; intros acc; cbn [cov_sum]; [discriminate|].
  destruct (dget d1 v), (dget d2 v), (get_var h v); try discriminate. apply nf_bind; [now apply nf_powf|]. intros; apply IH.
Qed.
Lemma fin_elem : forall a h, okh h -> fin (fun n => elem_derivatives n a) h.
Proof. intros [p|u] h O; [apply fin_const; discriminate|now apply fin_deriv]. Qed.
Lemma fin_row : forall order d l h, okh h -> fin (fun n => cov_row order n d l) h.
Proof.
  intros order d l. induction l as [|a l IH]; intros h O; cbn [cov_row]; [apply fin_const; discriminate|].
  apply (fin_bind _ _ (fun n => elem_derivatives n a) (fun n d2 => bind (fun h => (cov_sum h d d2 (common order d d2) (n_zero N), h)) (fun c =>
      bind (cov_row order n d l) (fun r => ret (c :: r))))); [apply fm_elem| |now apply fin_elem|].
  { intros d2. apply (fm_bind _ _ (fun _ h => (cov_sum h d d2 (common order d d2) (n_zero N), h)) (fun n c => _)); [apply fm_const|].
    intros c. apply (fm_bind _ _ (fun n => cov_row order n d l) (fun n r => _)); [apply fm_row|intros; apply fm_const]. }
  intros k d2 h1 E1. assert (O1 := okh_after _ _ _ _ _ O (elem_keeps _ _ _) E1).
  apply (fin_bind _ _ (fun _ h => (cov_sum h d d2 (common order d d2) (n_zero N), h)) (fun n c => bind (cov_row order n d l) (fun r => ret (c :: r))));
    [apply fm_const| |apply fin_const; apply nf_cov_sum|].
  { intros c. apply (fm_bind _ _ (fun n => cov_row order n d l) (fun n r => _)); [apply fm_row|intros; apply fm_const]. }
  intros k2 c h2 E2. injection E2 as _ <-.
  apply (fin_bind _ _ (fun n => cov_row order n d l) (fun n r => ret (c :: r))); [apply fm_row|intros; apply fm_const|now apply IH|].
  intros; apply fin_const; discriminate.
Qed.
Lemma fin_rows : forall order l rest i h, okh h -> fin (fun n => cov_rows order n l i rest) h.
Proof.
  intros order l rest. induction rest as [|a rest IH]; intros i h O; cbn [cov_rows]; [apply fin_const; discriminate|].
  apply (fin_bind _ _ (fun n => elem_derivatives n a) (fun n d1 => bind (cov_row order n d1 (firstn (S i) l)) (fun row =>
      bind (cov_rows order n l (S i) rest) (fun rows => ret (row :: rows))))); [apply fm_elem| |now apply fin_elem|].
  { intros d1. apply (fm_bind _ _ (fun n => cov_row order n d1 (firstn (S i) l)) (fun n row => _)); [apply fm_row|].
    intros c. apply (fm_bind _ _ (fun n => cov_rows order n l (S i) rest) (fun n r => _)); [apply fm_rows|intros; apply fm_const]. }
  intros k d1 h1 E1. assert (O1 := okh_after _ _ _ _ _ O (elem_keeps _ _ _) E1).
  apply (fin_bind _ _ (fun n => cov_row order n d1 (firstn (S i) l)) (fun n row => bind (cov_rows order n l (S i) rest) (fun rows => ret (row :: rows))));
    [apply fm_row| |now apply fin_row|].
  { intros c. apply (fm_bind _ _ (fun n => cov_rows order n l (S i) rest) (fun n r => _)); [apply fm_rows|intros; apply fm_const]. }
  intros k2 c h2 E2. assert (O2 := okh_after _ _ _ _ _ O1 (cov_row_keeps _ _ _ _ _) E2).
  apply (fin_bind _ _ (fun n => cov_rows order n l (S i) rest) (fun n r => ret (c :: r))); [apply fm_rows|intros; apply fm_const|now apply IH|].
  intros; apply fin_const; discriminate.
Qed.
Lemma fin_cov : forall order l h, okh h -> fin (fun n => covariance_matrix order n l) h.
Proof.
  intros order l h O. apply (fin_bind _ _ (fun n => cov_rows order n l 0 l) (fun n m => ret (symmetrize m))); [apply fm_rows|intros; apply fm_const|now apply fin_rows|].
  intros; apply fin_const; discriminate.
Qed.
Lemma nf_rmapM : forall A B (f : A -> res B) l, (forall a, f a <> Err EFuel) -> rmapM f l <> Err EFuel.
Proof. intros A B f l H. induction l as [|a l IH]; cbn [rmapM]; [discriminate|]. apply nf_bind; [apply H|]. intros; apply nf_bind; [exact IH|discriminate]. Qed.
Lemma fm_corr : forall order l, fmono (fun n => correlation_matrix (N:=N) order n l).
Proof.
  intros. apply (fm_bind _ _ (fun n => covariance_matrix order n l) (fun n r => _)); [apply fm_cov|intros; apply fm_const].
Qed.
Lemma fin_corr : forall order l h, okh h -> fin (fun n => correlation_matrix order n l) h.
Proof.
  intros order l h O. apply (fin_bind _ _ (fun n => covariance_matrix order n l) (fun n m => lift (rbind (rmapM np_sqrt (diagonal m)) (fun s => normalize m s))));
    [apply fm_cov|intros; apply fm_const|now apply fin_cov|].
  intros k m h1 _. apply fin_const. cbn. apply nf_bind.
  - apply nf_rmapM. intros x. unfold np_sqrt. destruct (n_lt N x (n_zero N)); [apply EN|apply EN].
  - intros s. apply nf_rmapM. intros i. apply nf_rmapM. intros j. apply nf_bind; intros; apply EN.
Qed.
Theorem matrices_end : forall order (st : state N) is, reachable st -> (forall i, In i is -> (i < length (st_env st))%nat) ->
  (exists r st', covariance order st is r st' /\ r <> Err EFuel) /\ (exists r st', correlation order st is r st' /\ r <> Err EFuel).
Proof.
  intros order st is R B. destruct (reachable_ok st R) as (O & _).
  assert (G : exists l, get_args (st_env st) is = Some l).
  { induction is as [|i is IH]; [exists []; reflexivity|]. destruct IH as [l Hl]; [intros; apply B; now right|]. cbn. rewrite Hl.
    destruct (nth_error (st_env st) i) as [a|] eqn:A; [eauto|]. apply nth_error_None in A. specialize (B i (or_introl eq_refl)). lia. }
  destruct G as [l G]. split.
  - destruct (fin_cov order l _ O) as [n Hn]. exists (fst (covariance_matrix order n l (st_heap st))). eexists. split; [|exact Hn].
    eapply covariance_step; eauto.
  - destruct (fin_corr order l _ O) as [n Hn]. exists (fst (correlation_matrix order n l (st_heap st))).
    exists (mkState (snd (correlation_matrix order n l (st_heap st))) (st_env st)). split; [|exact Hn].
    exists l, n. split; [exact G|]. split; [reflexivity|]. intros fuel F. replace fuel with (n + (fuel - n))%nat by lia.
    rewrite (fm_corr order l n (fuel - n)%nat (st_heap st) Hn). apply surjective_pairing.
Qed.
End Matrices.
