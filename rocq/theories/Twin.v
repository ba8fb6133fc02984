(** Copies are exact in any arithmetic: the expansion of a linear combination commutes with a
    renaming of objects. *)
From Coq Require Import ZArith List Bool Arith Lia Sorted.
From Verif Require Import Base Heap HeapProofs Affine Ops UMath Machine Cov Copy Calls Unumpy UMatrix History CallProofs Fuel Ordered DepSpec Deps AnySpec AnyArith TwinSpec.
Import ListNotations.

Section Twin.
Context {N : NumOps}.
Implicit Types h : heap N.

Section Iso.
Variables (fl fv : nat -> nat) (S P E : nat -> Prop).
Hypothesis Pinj : forall v w, P v -> P w -> fv v = fv w -> v = w.
Notation ren := (keys_as fv).

Lemma dget_as : forall A (d : list (varid * A)) v, (forall w, In w (dkeys d) -> P w) -> P v -> dget (ren d) (fv v) = dget d v.
Proof.
  intros A. induction d as [|[w x] d IH]; intros v H Pv; [reflexivity|]. cbn [keys_as map dget fst snd].
  assert (Pw : P w) by (apply H; now left). destruct (Nat.eqb v w) eqn:Q.
  - apply Nat.eqb_eq in Q. subst. now rewrite Nat.eqb_refl.
  - apply Nat.eqb_neq in Q. destruct (Nat.eqb (fv v) (fv w)) eqn:Q'; [apply Nat.eqb_eq in Q'; apply Pinj in Q'; auto; congruence|].
    apply IH; [|exact Pv]. intros y Hy. apply H. now right.
Qed.
Lemma dset_as : forall A (d : list (varid * A)) v x, (forall w, In w (dkeys d) -> P w) -> P v -> dset (ren d) (fv v) x = ren (dset d v x).
Proof.
  intros A. induction d as [|[w y] d IH]; intros v x H Pv; [reflexivity|]. cbn [keys_as map dset fst snd].
  assert (Pw : P w) by (apply H; now left). destruct (Nat.eqb v w) eqn:Q.
  - apply Nat.eqb_eq in Q. subst. rewrite Nat.eqb_refl. reflexivity.
  - apply Nat.eqb_neq in Q. destruct (Nat.eqb (fv v) (fv w)) eqn:Q'; [apply Nat.eqb_eq in Q'; apply Pinj in Q'; auto; congruence|].
    cbn [map fst snd]. f_equal. apply IH; [|exact Pv]. intros z Hz. apply H. now right.
Qed.
Lemma acc_as : forall c (d acc acc' : dict N), (forall w, In w (dkeys d) -> P w) -> (forall w, In w (dkeys acc) -> P w) ->
  acc_dict c d acc = Ok acc' -> acc_dict c (ren d) (ren acc) = Ok (ren acc').
Proof.
  intros c. induction d as [|[v f] d IH]; intros acc acc' Hd Ha H; cbn [acc_dict keys_as map fst snd] in *; [now injection H as <-|].
  destruct (cmul c f) as [x|e]; [|discriminate H]. cbn [rbind] in *. cbv zeta in *. assert (Pv : P v) by (apply Hd; now left).
  rewrite dget_as, dset_as by auto. apply IH; [intros w Hw; apply Hd; now right| |exact H].
  intros w Hw. apply dkeys_dset in Hw as [->|Hw]; auto.
Qed.
Lemma push_as : forall c its stack r e, push_items (N:=N) c its stack = (r, e) ->
  push_items c (map (copy_item fl) its) (map (copy_item fl) stack) = (map (copy_item fl) r, e).
Proof.
  intros c. induction its as [|it its IH]; intros stack r e H; cbn [push_items map] in *; [now injection H as <- <-|].
  destruct it as [c' l| |]; cbn [copy_item]; try (injection H as <- <-; reflexivity).
  destruct (pn_mul c c') as [p|x]; [|injection H as <- <-; reflexivity]. exact (IH _ _ _ H).
Qed.

Record iso (h h' : heap N) : Prop := {
  i_lt : forall l, S l -> (l < length (h_lc h))%nat /\ (fl l < length (h_lc h'))%nat;
  i_inj : forall l l', S l -> S l' -> fl l = fl l' -> l = l';
  i_get : forall l, S l -> get_lc h' (fl l) = copy_lc fl fv (get_lc h l);
  i_closed : forall l its c l', S l -> get_lc h l = LList its -> In (IPair c l') its -> S l';
  i_keys : forall l d v, S l -> get_lc h l = LDict d -> In v (dkeys d) -> E v -> P v
}.
Lemma iso_set : forall h h' l its, iso h h' -> S l -> (forall c l', In (IPair c l') its -> S l') ->
  iso (set_lc h l (LList its)) (set_lc h' (fl l) (LList (map (copy_item fl) its))).
Proof.
  intros h h' l its I Sl C. destruct I as [I1 I2 I3 I4 I5]. assert (B := I1 l Sl). constructor.
  - intros l0 S0. rewrite !set_lc_length. auto.
  - exact I2.
  - intros l0 S0. destruct (Nat.eq_dec l l0) as [<-|Hn].
    + rewrite !get_set_eq by tauto. reflexivity.
    + rewrite (get_set_neq h) by exact Hn. rewrite get_set_neq; [now apply I3|]. intros X. now apply Hn, I2.
  - intros l0 its0 c l' S0 G Hi. destruct (Nat.eq_dec l l0) as [<-|Hn].
    + rewrite get_set_eq in G by tauto. injection G as <-. eauto.
    + rewrite get_set_neq in G by auto. eauto.
  - intros l0 d v S0 G Hi. destruct (Nat.eq_dec l l0) as [<-|Hn].
    + rewrite get_set_eq in G by tauto. discriminate G.
    + rewrite get_set_neq in G by auto. eauto.
Qed.
Lemma push_in : forall c its stack r e, push_items (N:=N) c its stack = (r, e) -> forall p l, In (IPair p l) r ->
  (exists q, In (IPair q l) its) \/ In (IPair p l) stack.
Proof.
  intros c. induction its as [|it its IH]; intros stack r e H p l Hi; cbn [push_items] in H; [injection H as <- _; auto|].
  destruct it as [c' l0| |]; try (injection H as <- _; auto). destruct (pn_mul c c') as [x|]; [|injection H as <- _; auto].
  destruct (IH _ _ _ H p l Hi) as [(q & Q)|[Q|Q]]; [left; exists q; now right| |auto]. injection Q as _ ->. left. exists c'. now left.
Qed.
Lemma loop_grows : forall n l acc h h1 d, (l < length (h_lc h))%nat -> expand_loop n l acc h = (Ok tt, h1) -> get_lc h1 l = LDict d ->
  forall v, In v (dkeys acc) -> In v (dkeys d).
Proof.
  induction n as [|n IH]; intros l acc h h1 d B H G v Hv; cbn [expand_loop] in H; [discriminate H|].
  destruct (get_lc h l) as [[|p d0]|[|it rest]]; try discriminate H.
  - injection H as <-. rewrite get_set_eq in G by exact B. now injection G as <-.
  - injection H as <-. rewrite get_set_eq in G by exact B. now injection G as <-.
  - cbv zeta in H. destruct it as [c l'| |]; try discriminate H.
    destruct (get_lc (set_lc h l (LList rest)) l') as [d0|its].
    + destruct (acc_dict c d0 acc) as [acc'|] eqn:A; [|discriminate H]. refine (IH _ _ _ _ _ _ H G v _); [rewrite set_lc_length; exact B|].
      apply (proj2 (acc_dict_keys _ _ _ _ A)). now left.
    + destruct (push_items c (rev its) rest) as [s [e|]]; [discriminate H|].
      refine (IH _ _ _ _ _ _ H G v Hv). rewrite set_set, set_lc_length. exact B.
Qed.
Lemma iso_loop : forall n l acc h h' h1 d, iso h h' -> S l -> expand_loop n l acc h = (Ok tt, h1) -> get_lc h1 l = LDict d ->
  (forall v, In v (dkeys d) -> E v) -> (forall v, In v (dkeys acc) -> P v) ->
  (forall v, In v (dkeys d) -> P v) /\
  exists h1', expand_loop n (fl l) (ren acc) h' = (Ok tt, h1') /\ get_lc h1' (fl l) = LDict (ren d).
Proof.
  induction n as [|n IH]; intros l acc h h' h1 d I Sl H G HE HP; cbn [expand_loop] in H |- *; [discriminate H|].
  destruct (i_lt _ _ I l Sl) as (B & B'). rewrite (i_get _ _ I l Sl).
  destruct (get_lc h l) as [[|p d0]|[|it rest]] eqn:Gl; try discriminate H; cbn [copy_lc map].
  - injection H as <-. rewrite get_set_eq in G by exact B. injection G as <-. split; [exact HP|]. eexists. split; [reflexivity|]. now apply get_set_eq.
  - injection H as <-. rewrite get_set_eq in G by exact B. injection G as <-. split; [exact HP|]. eexists. split; [reflexivity|]. now apply get_set_eq.
  - cbv zeta in *. destruct it as [c l'| |]; try discriminate H. cbn [copy_item].
    assert (Sr : forall c0 l0, In (IPair c0 l0) rest -> S l0) by (intros c0 l0 Hi; apply (i_closed _ _ I l _ c0 l0 Sl Gl); now right).
    assert (S' : S l') by (apply (i_closed _ _ I l _ c l' Sl Gl); now left).
    assert (I1 := iso_set _ _ l rest I Sl Sr). rewrite (i_get _ _ I1 l' S').
    destruct (get_lc (set_lc h l (LList rest)) l') as [d0|its] eqn:G'; cbn [copy_lc].
    + destruct (acc_dict c d0 acc) as [acc'|] eqn:A; [|discriminate H]. assert (K := proj2 (acc_dict_keys _ _ _ _ A)).
      assert (B1 : (l < length (h_lc (set_lc h l (LList rest))))%nat) by (rewrite set_lc_length; exact B). assert (Gr := loop_grows _ _ _ _ _ _ B1 H G).
      assert (Pd : forall v, In v (dkeys d0) -> P v).
      { intros v Hv. apply (i_keys _ _ I1 l' d0 v S' G' Hv). apply HE, Gr, K. now right. }
      assert (AA := acc_as _ _ _ _ Pd HP A).
      match goal with |- context [acc_dict c ?x ?y] => replace (acc_dict c x y) with (Ok (ren acc')) by (symmetry; exact AA) end.
      apply (IH l acc' _ _ h1 d I1 Sl H G HE). intros v Hv. apply K in Hv as [Hv|Hv]; auto.
    + rewrite <- map_rev. destruct (push_items c (rev its) rest) as [s [e|]] eqn:Q; [discriminate H|]. rewrite (push_as _ _ _ _ _ Q).
      
      assert (Ss : forall c0 l0, In (IPair c0 l0) s -> S l0); [|
        assert (I2 := iso_set _ _ l s I1 Sl Ss); exact (IH l acc _ _ h1 d I2 Sl H G HE HP)].
      intros c0 l0 Hi. destruct (push_in _ _ _ _ _ Q c0 l0 Hi) as [(q & Hq)|Hq]; [|eauto]. apply in_rev in Hq. exact (i_closed _ _ I1 l' _ q l0 S' G' Hq).
Qed.
Lemma iso_deriv : forall k u u' h h' d h1, iso h h' -> S (uf_lp u) -> uf_lp u' = fl (uf_lp u) -> derivatives k u h = (Ok d, h1) ->
  (forall v, In v (dkeys d) -> E v) -> (forall v, In v (dkeys d) -> P v) /\ exists h1', derivatives k u' h' = (Ok (ren d), h1').
Proof.
  intros k u u' h h' d h1 I Su Hu H HE. unfold derivatives, lc_derivatives in *. rewrite Hu, (i_get _ _ I _ Su).
  destruct (get_lc h (uf_lp u)) as [d0|its] eqn:G; cbn [copy_lc].
  - injection H as <- <-. split; [|eexists; reflexivity]. intros v Hv. exact (i_keys _ _ I _ _ v Su G Hv (HE v Hv)).
  - destruct (expand_loop k (uf_lp u) [] h) as [[[]|e] h2] eqn:X; [|discriminate H]. destruct (get_lc h2 (uf_lp u)) as [d1|] eqn:G1; [|discriminate H].
    injection H as <- <-. destruct (iso_loop _ _ _ _ _ _ _ I Su X G1 HE) as (Pk & h1' & L & G'); [intros v []|].
    split; [exact Pk|]. cbn [keys_as map] in L. rewrite L, G'. eauto.
Qed.

(** What is calculated from the derivatives. *)
Lemma components_as : forall (h h' : heap N) d, (forall v, In v (dkeys d) -> exists o o', get_var h v = Some o /\ get_var h' (fv v) = Some o' /\ v_std o' = v_std o) ->
  components h' (ren d) = match components h d with Ok e => Ok (ren e) | Err e => Err e end.
Proof.
  intros h h'. induction d as [|[v x] d IH]; intros H; [reflexivity|]. cbn [keys_as map components fst snd].
  destruct (H v ltac:(now left)) as (o & o' & -> & -> & ->). cbv zeta. change (map (fun p : varid * num N => (fv (fst p), snd p)) d) with (ren d).
  rewrite IH by (intros w Hw; apply H; now right). destruct (components h d); reflexivity.
Qed.
Lemma as_snd : forall A (l : list (varid * A)), map snd (ren l) = map snd l.
Proof. intros. unfold keys_as. rewrite map_map. reflexivity. Qed.
Lemma reads_as : forall (st st' : state N) i k u u' j d h1 h1', is_number st i u -> is_number st' k u' -> uf_nom u' = uf_nom u ->
  uf_var u' = option_map fv (uf_var u) ->
  (forall v, In v (dkeys d) \/ uf_var u = Some v -> exists o o', get_var (st_heap st) v = Some o /\ get_var (st_heap st') (fv v) = Some o' /\ v_std o' = v_std o) ->
  derivatives j u (st_heap st) = (Ok d, h1) -> derivatives j u' (st_heap st') = (Ok (ren d), h1') ->
  forall read o, attribute read -> reads st (read i) o -> reads st' (read k) (out_as fv o).
Proof.
  intros st st' i k u u' j d h1 h1' U U' Hn Hv V D D' read o A (s & m & R).
  assert (Ab : about i (read i)) by (unfold about; destruct A as [->|[->|[->|[->|(p & ->)]]]]; eauto 7).
  assert (Ab' : about k (read k)) by (unfold about; destruct A as [->|[->|[->|[->|(p & ->)]]]]; eauto 7).
  assert (Q : snd (step j st (read i)) = o).
  { specialize (R (m + j)%nat ltac:(lia)). rewrite (about_stable st i u j d h1 (read i) (m + j)%nat U D Ab ltac:(lia)) in R. now rewrite R. }
  exists (fst (step j st' (read k))), j. intros n Hj. rewrite (about_stable st' k u' j (ren d) h1' (read k) n U' D' Ab' Hj).
  rewrite (surjective_pairing (step j st' (read k))). f_equal. rewrite <- Q. clear Q R Ab Ab'.
  destruct (deriv_done _ _ _ _ _ D) as (X & _ & _). destruct (deriv_done _ _ _ _ _ D') as (X' & _ & _).
  assert (C : components h1' (ren d) = match components h1 d with Ok e => Ok (ren e) | Err e => Err e end).
  { apply components_as. intros v Hi. destruct (V v (or_introl Hi)) as (o1 & o2 & ?). exists o1, o2. unfold get_var in *. now rewrite X, X'. }
  unfold is_number in *.
  destruct A as [->|[->|[->|[->|(p & ->)]]]]; cbn [step]; unfold with_uf, with_val, observe; rewrite ?U, ?U'.
  - now rewrite D, D'.
  - unfold error_components, bind. rewrite D, D', C. destruct (components h1 d); reflexivity.
  - unfold std_dev. rewrite Hv. destruct (uf_var u) as [w|]; cbn [option_map].
    + destruct (V w ltac:(auto)) as (o1 & o2 & -> & -> & ->). reflexivity.
    + unfold std_dev_affine, error_components, bind. rewrite D, D', C. destruct (components h1 d) as [e|]; [|reflexivity]. rewrite as_snd.
      destruct (rbind _ _); reflexivity.
  - unfold std_dev_s, std_dev_affine, error_components, bind. rewrite D, D', C. destruct (components h1 d) as [e|]; [|reflexivity]. rewrite as_snd.
    destruct (rbind _ _); reflexivity.
  - unfold std_score, bind, std_dev. rewrite Hv, Hn. destruct (uf_var u) as [w|]; cbn [option_map].
    + destruct (V w ltac:(auto)) as (o1 & o2 & -> & -> & ->). match goal with |- context [match ?r with Ok _ => _ | Err _ => _ end] => destruct r as [|[]]; reflexivity end.
    + unfold std_dev_affine, error_components, bind. rewrite D, D', C. destruct (components h1 d) as [e|]; [|reflexivity]. rewrite as_snd.
      destruct (rbind _ _); [|reflexivity]. match goal with |- context [match ?r with Ok _ => _ | Err _ => _ end] => destruct r as [|[]]; reflexivity end.
Qed.
End Iso.

(** Objects that are copied. *)
Lemma nth_objects : forall (h : heap N) vs v o, (forall w, In w vs -> (w < length (h_var h))%nat) -> In v vs -> get_var h v = Some o ->
  nth_error (var_objects h vs) (rank vs v) = Some o.
Proof.
  intros h. induction vs as [|w vs IH]; intros v o B Hv G; [contradiction|]. cbn [var_objects flat_map rank].
  assert (Bw := B w ltac:(now left)). apply nth_error_Some in Bw. destruct (Nat.eqb v w) eqn:Q.
  - apply Nat.eqb_eq in Q. subst. rewrite G. reflexivity.
  - unfold get_var at 1. destruct (nth_error (h_var h) w); [|contradiction]. cbn [app nth_error].
    apply IH; [intros y Hy; apply B; now right| |exact G]. destruct Hv as [->|Hv]; [now rewrite Nat.eqb_refl in Q|exact Hv].
Qed.
Lemma nth_combine : forall A (l : list A) a k o, nth_error l k = Some o -> nth_error (combine (seq a (length l)) l) k = Some ((a + k)%nat, o).
Proof.
  intros A. induction l as [|x l IH]; intros a [|k] o H; try discriminate H; cbn [length seq combine nth_error] in *.
  - injection H as ->. now rewrite Nat.add_0_r.
  - rewrite (IH (Datatypes.S a) k o H). do 2 f_equal. lia.
Qed.
Lemma get_old : forall (h : heap N) xs objs l, (l < length (h_lc h))%nat -> get_lc (mkHeap (h_lc h ++ xs) objs) l = get_lc h l.
Proof. intros. unfold get_lc. cbn [h_lc]. now rewrite app_nth1. Qed.
Lemma iso_copies : forall (h : heap N) ls vs xs objs (S : nat -> Prop), (forall l, In l ls -> (l < length (h_lc h))%nat) ->
  (forall l, S l -> In l ls) -> (forall l its c l', S l -> get_lc h l = LList its -> In (IPair c l') its -> S l') ->
  (forall l d v, S l -> get_lc h l = LDict d -> In v (dkeys d) -> (v < length (h_var h))%nat -> In v vs) ->
  let fl := renamed (length (h_lc h)) ls in let fv := renamed (length (h_var h)) vs in
  iso fl fv S (fun v => In v vs) (fun v => (v < length (h_var h))%nat) h
    (mkHeap (h_lc h ++ map (fun l => copy_lc fl fv (get_lc h l)) ls ++ xs) objs).
Proof.
  intros h ls vs xs objs S B Sl C K fl fv. constructor.
  - intros l H. split; [auto|]. cbn [h_lc]. rewrite !app_length, map_length. assert (X := rank_lt ls l (Sl l H)). unfold fl, renamed.
    apply Nat.add_lt_mono_l. eapply Nat.lt_le_trans; [exact X|apply Nat.le_add_r].
  - intros l l' H H'. apply renamed_inj; auto.
  - intros l H. unfold get_lc at 1. cbn [h_lc]. unfold fl at 1, renamed at 1. rewrite app_nth2 by lia.
    replace (length (h_lc h) + rank ls l - length (h_lc h))%nat with (rank ls l) by lia.
    rewrite app_nth1 by (rewrite map_length; now apply rank_lt, Sl).
    apply nth_error_nth. exact (map_nth_error (fun l : nat => copy_lc fl fv (get_lc h l)) _ _ (rank_nth ls l (Sl l H))).
  - exact C.
  - exact K.
Qed.
Lemma read_at : forall (st : state N) i u d, is_number st i u -> reads st (IDeriv i) (ODict d) -> exists k h1, derivatives k u (st_heap st) = (Ok d, h1).
Proof.
  intros st i u d U (s & k & R). specialize (R k (le_n k)). cbn [step] in R. unfold with_uf, with_val, is_number in *. rewrite U in R.
  unfold observe in R. destruct (derivatives k u (st_heap st)) as [[d1|e] h1] eqn:D; [|discriminate R]. injection R as _ <-. exists k, h1. exact D.
Qed.

(** The copies of the objects [ls] and [vs], for the numbers whose linear part belongs to [S]. *)
Lemma copied_twin : forall (st st' : state N) ls vs xs objs (S : nat -> Prop) i k u u' d,
  st_heap st' = mkHeap (h_lc (st_heap st) ++ map (fun l => copy_lc (renamed (length (h_lc (st_heap st))) ls) (renamed (length (h_var (st_heap st))) vs) (get_lc (st_heap st) l)) ls ++ xs) (h_var (st_heap st) ++ objs) ->
  (forall l, In l ls -> (l < length (h_lc (st_heap st)))%nat) ->
  (forall l, S l -> In l ls) -> (forall l its c l', S l -> get_lc (st_heap st) l = LList its -> In (IPair c l') its -> S l') ->
  (forall l d v, S l -> get_lc (st_heap st) l = LDict d -> In v (dkeys d) -> (v < length (h_var (st_heap st)))%nat -> In v vs) ->
  (forall v o, In v vs -> get_var (st_heap st) v = Some o -> exists o', nth_error objs (rank vs v) = Some o' /\ v_std o' = v_std o /\ v_tag o' = v_tag o) ->
  is_number st i u -> is_number st' k u' -> readable st i d -> S (uf_lp u) -> (forall v, uf_var u = Some v -> In v vs) ->
  uf_nom u' = uf_nom u -> uf_lp u' = renamed (length (h_lc (st_heap st))) ls (uf_lp u) ->
  uf_var u' = option_map (renamed (length (h_var (st_heap st))) vs) (uf_var u) ->
  twin (renamed (length (h_var (st_heap st))) vs) st st' i k /\ forall v, In v (dkeys d) -> In v vs.
Proof.
  intros st st' ls vs xs objs S i k u u' d Hh B Sl C K O U U' (R & Ex & Ev) Su Iv Hn Hl Hv.
  assert (I := iso_copies (st_heap st) ls vs xs (h_var (st_heap st) ++ objs) S B Sl C K). cbv zeta in I. rewrite <- Hh in I.
  destruct (read_at _ _ _ _ U R) as (j & h1 & D). assert (Pinj : forall v w, In v vs -> In w vs -> renamed (length (h_var (st_heap st))) vs v = renamed (length (h_var (st_heap st))) vs w -> v = w) by (intros v w; apply renamed_inj).
  rewrite Forall_forall in Ex. unfold existing in *.
  destruct (iso_deriv _ _ _ _ _ Pinj j u u' _ _ d h1 I Su Hl D) as (Pk & h1' & D').
  { intros v Hi. apply nth_error_Some. exact (Ex v Hi). }
  split; [|exact Pk]. exists u, u'. repeat split; auto.
  intros read o. refine (reads_as _ st st' i k u u' j d h1 h1' U U' Hn Hv _ D D' read o).
  intros v Hd. assert (Hi : In v vs) by (destruct Hd as [Hd|Hd]; auto).
  assert (X : get_var (st_heap st) v <> None) by (destruct Hd as [Hd|Hd]; [auto|exact (Ev u v U Hd)]).
  destruct (get_var (st_heap st) v) as [o1|] eqn:G; [|contradiction]. destruct (O v o1 Hi G) as (o2 & O1 & O2 & O3). exists o1, o2. split; [reflexivity|]. split; [|exact O2].
  rewrite Hh. unfold get_var, renamed. cbn [h_var]. rewrite nth_error_app2 by lia. now replace (length (h_var (st_heap st)) + rank vs v - length (h_var (st_heap st)))%nat with (rank vs v) by lia.
Qed.
Lemma copied_renews : forall (st st' : state N) vs objs lcs (V : varid -> Prop), st_heap st' = mkHeap lcs (h_var (st_heap st) ++ objs) ->
  (forall v o, In v vs -> get_var (st_heap st) v = Some o -> exists o', nth_error objs (rank vs v) = Some o' /\ v_std o' = v_std o /\ v_tag o' = v_tag o) ->
  (forall v, V v -> In v vs /\ existing st v) -> renews (renamed (length (h_var (st_heap st))) vs) st st' V.
Proof.
  intros st st' vs objs lcs V Hh O HV. split.
  - intros v w Hv Hw. apply renamed_inj; now apply HV.
  - intros v Hv. destruct (HV v Hv) as (Hi & Ex). unfold existing in *. destruct (get_var (st_heap st) v) as [o|] eqn:G; [|contradiction].
    destruct (O v o Hi G) as (o' & O1 & O2 & O3). assert (G' : get_var (st_heap st') (renamed (length (h_var (st_heap st))) vs v) = Some o').
    { rewrite Hh. unfold get_var, renamed. cbn [h_var]. rewrite nth_error_app2 by lia. now replace (length (h_var (st_heap st)) + rank vs v - length (h_var (st_heap st)))%nat with (rank vs v) by lia. }
    unfold sd, vtag. rewrite G', G. repeat split; auto; [|discriminate]. intros X. apply X. apply nth_error_None. unfold renamed. lia.
Qed.

Theorem deepcopy_twin : forall (st : state N) i u d, reachable st -> is_number st i u -> uf_var u = None -> readable st i d ->
  let st' := fst (call_step st (CDeepcopy i)) in
  exists rho, renews rho st st' (fun v => In v (dkeys d)) /\ twin rho st st' i (length (st_env st)).
Proof.
  intros st i u d R U Hv Rd st'. assert (OK := reachable_ok st R). destruct OK as ((O & _) & _). assert (B := reachable_bound st i u R U).
  unfold st', call_step. unfold is_number in U. rewrite U. unfold py_deepcopy, push. rewrite Hv. cbn [fst]. cbv zeta.
  set (h := st_heap st) in *. set (ls := listed (length (h_lc h)) (reach_lcs h (uf_lp u) (uf_lp u))). set (vs := listed (length (h_var h)) (keys_of h ls)).
  set (os := var_objects h vs).
  match goal with |- context [mkHeap ?a (h_var h ++ ?b)] => set (lcs := a); set (objs := b) end.
  match goal with |- context [mkState (mkHeap lcs (h_var h ++ objs)) (st_env st ++ [VUF ?x])] => set (u' := x) end.
  set (s' := mkState (mkHeap lcs (h_var h ++ objs)) (st_env st ++ [VUF u'])).
  assert (Oc : forall v o, In v vs -> get_var h v = Some o -> exists o', nth_error objs (rank vs v) = Some o' /\ v_std o' = v_std o /\ v_tag o' = v_tag o).
  { intros v o Hi G. assert (X := nth_objects h vs v o (fun w Hw => proj1 (proj1 (listed_In _ _ _) Hw)) Hi G). fold os in X. apply (nth_combine _ os 0) in X.
    eexists. split; [exact (map_nth_error _ _ _ X)|]. split; reflexivity. }
  assert (U' : is_number s' (length (st_env st)) u') by (unfold is_number, s'; cbn [st_env]; rewrite nth_error_app2, Nat.sub_diag by lia; reflexivity).
  destruct (copied_twin st s' ls vs (map (fun k : nat => LDict [((length (h_var h) + k)%nat, n_one N)]) (seq 0 (length os))) objs (fun l => In l ls) i (length (st_env st)) u u' d) as (T & Pk); auto.
  - intros l Hl. now apply listed_In in Hl.
  - intros l its c l' Hl G Hi. apply listed_In in Hl as (L1 & L2). apply listed_In. assert (X := O _ _ _ G Hi). cbn in X. split; [fold h; lia|]. eapply reach_step; eauto.
  - intros l d0 v Hl G Hi Hb. apply listed_In. split; [exact Hb|]. apply in_flat_map. exists l. split; [exact Hl|]. fold h in G. rewrite G. exact Hi.
  - apply listed_In. split; [exact B|apply reach_in].
  - intros v X. rewrite Hv in X. discriminate X.
  - unfold u'. cbn [uf_var]. now rewrite Hv.
  - exists (renamed (length (h_var h)) vs). split; [|exact T]. apply (copied_renews st s' vs objs lcs); [reflexivity|exact Oc|].
    intros v Hi. split; [now apply Pk|]. destruct Rd as (_ & E & _). rewrite Forall_forall in E. now apply E.
Qed.

Lemma args_number : forall (env : list (value N)) is l, get_args env is = Some l -> forall n i a, nth_error is n = Some i -> nth_error env i = Some a ->
  nth_error l n = Some a.
Proof.
  intros env. induction is as [|i is IH]; intros l H [|n] j a Hn Ha; try discriminate Hn; cbn [get_args] in H.
  - injection Hn as ->. rewrite Ha in H. destruct (get_args env is); [|discriminate H]. injection H as <-. reflexivity.
  - destruct (nth_error env i); [|discriminate H]. destruct (get_args env is) as [l'|]; [|discriminate H]. injection H as <-. exact (IH l' eq_refl n j a Hn Ha).
Qed.
Theorem pickle_twin : forall (st : state N) is, reachable st -> snd (call_step st (CPickle is)) = ONone ->
  let st' := fst (call_step st (CPickle is)) in
  exists rho,
    renews rho st st' (fun v => exists i u d, In i is /\ is_number st i u /\ readable st i d /\ (In v (dkeys d) \/ uf_var u = Some v)) /\
    forall n i u d, nth_error is n = Some i -> is_number st i u -> readable st i d -> twin rho st st' i (length (st_env st) + n).
Proof.
  intros st is R Q st'. assert (OK := reachable_ok st R). destruct OK as ((O & _) & _).
  unfold st', call_step in *. clear st'. destruct (get_args (st_env st) is) as [l|] eqn:Ga; [|discriminate Q]. clear Q. unfold py_pickle, push_list. cbv zeta. cbn [fst].
  set (h := st_heap st) in *. set (ls0 := flat_map (fun r => reach_lcs h r r) (flat_map lp_of l)).
  set (vs := listed (length (h_var h)) (flat_map var_of l ++ keys_of h ls0)). set (os := var_objects h vs). set (ls := listed (length (h_lc h)) (ls0 ++ map v_lp os)).
  match goal with |- context [mkHeap (h_lc h ++ ?a) (h_var h ++ ?b)] => set (copies := a); set (objs := b) end.
  match goal with |- context [mkState (mkHeap _ (h_var h ++ objs)) (st_env st ++ ?x)] => set (env' := x) end.
  set (s' := mkState (mkHeap (h_lc h ++ copies) (h_var h ++ objs)) (st_env st ++ env')).
  assert (Oc : forall v o, In v vs -> get_var h v = Some o -> exists o', nth_error objs (rank vs v) = Some o' /\ v_std o' = v_std o /\ v_tag o' = v_tag o).
  { intros v o Hi G. assert (X := nth_objects h vs v o (fun w Hw => proj1 (proj1 (listed_In _ _ _) Hw)) Hi G). fold os in X.
    eexists. split; [exact (map_nth_error _ _ _ X)|]. split; reflexivity. }
  assert (Ci : forall i u d, In i is -> is_number st i u -> readable st i d -> forall v, uf_var u = Some v -> In v vs).
  { intros i u d Hi U (_ & _ & Ev) v Hv. destruct (In_nth_error _ _ Hi) as (n & Hn). assert (X := nth_error_In _ _ (args_number _ _ _ Ga n i _ Hn U)).
    apply listed_In. split; [apply nth_error_Some; exact (Ev u v U Hv)|]. apply in_or_app. left. apply in_flat_map. exists (VUF u). split; [exact X|]. cbn [var_of]. rewrite Hv. now left. }
  assert (Tw : forall n i u d, nth_error is n = Some i -> is_number st i u -> readable st i d ->
    twin (renamed (length (h_var h)) vs) st s' i (length (st_env st) + n) /\ forall v, In v (dkeys d) -> In v vs).
  { intros n i u d Hn U Rd. assert (Gn := args_number _ _ _ Ga n i _ Hn U). assert (B := reachable_bound st i u R U).
    assert (Iu : In (uf_lp u) ls0) by (apply in_flat_map; exists (uf_lp u); split; [apply in_flat_map; exists (VUF u); split; [exact (nth_error_In _ _ Gn)|now left]|apply reach_in]).
    refine (copied_twin st s' ls vs [] objs (fun l => In l ls0 /\ (l < length (h_lc h))%nat) i (length (st_env st) + n) u
      (mkUF (uf_nom u) (renamed (length (h_lc h)) ls (uf_lp u)) (option_map (renamed (length (h_var h)) vs) (uf_var u))) d _ _ _ _ _ Oc U _ Rd _ _ eq_refl eq_refl eq_refl).
    - unfold s'. cbn [st_heap]. rewrite app_nil_r. reflexivity.
    - intros x Hx. now apply listed_In in Hx.
    - intros x (X1 & X2). apply listed_In. split; [exact X2|]. apply in_or_app. now left.
    - intros x its c l' (X1 & X2) G Hi. assert (X := O _ _ _ G Hi). cbn in X. split; [|unfold h; fold h in X2; unfold h in X2; lia]. unfold ls0 in *. apply in_flat_map in X1 as (r & Hr & X1).
      apply in_flat_map. exists r. split; [exact Hr|]. eapply reach_step; eauto.
    - intros x d0 v (X1 & X2) G Hi Hb. apply listed_In. split; [exact Hb|]. apply in_or_app. right. apply in_flat_map. exists x. split; [exact X1|]. fold h in G. rewrite G. exact Hi.
    - unfold is_number, s'. cbn [st_env]. rewrite nth_error_app2 by lia. replace (length (st_env st) + n - length (st_env st))%nat with n by lia.
      unfold env'. exact (map_nth_error _ _ _ Gn).
    - split; [exact Iu|exact B].
    - intros v Hv. exact (Ci i u d (nth_error_In _ _ Hn) U Rd v Hv). }
  exists (renamed (length (h_var h)) vs). split.
  - apply (copied_renews st s' vs objs (h_lc h ++ copies)); [reflexivity|exact Oc|]. intros v (i & u & d & Hi & U & Rd & Hv).
    destruct (In_nth_error _ _ Hi) as (n & Hn). destruct (Tw n i u d Hn U Rd) as (_ & Pk). assert (Rd' := Rd). destruct Rd' as (_ & Ex & Ev). rewrite Forall_forall in Ex.
    destruct Hv as [Hv|Hv]; split; auto; [exact (Ci i u d Hi U Rd v Hv)|exact (Ev u v U Hv)].
  - intros n i u d Hn U Rd. exact (proj1 (Tw n i u d Hn U Rd)).
Qed.

(** Copies of variables and of calculated numbers; other numbers. *)
Lemma keys_same : forall A (l : list (varid * A)), keys_as (fun v => v) l = l.
Proof. intros. unfold keys_as. rewrite <- (map_id l) at 2. apply map_ext. intros []. reflexivity. Qed.
Lemma out_same : forall o : out N, out_as (fun v => v) o = o.
Proof. intros []; cbn [out_as]; rewrite ?keys_same; reflexivity. Qed.
Lemma copy_lc_same : forall x : lc N, copy_lc (fun l => l) (fun v => v) x = x.
Proof.
  intros [d|its]; cbn [copy_lc]; f_equal.
  - exact (keys_same _ d).
  - rewrite <- (map_id its) at 2. apply map_ext. intros []; reflexivity.
Qed.
Lemma same_twin : forall (st st' : state N) i k u d xs ys, reachable st -> is_number st i u -> is_number st' k u -> readable st i d ->
  st_heap st' = mkHeap (h_lc (st_heap st) ++ xs) (h_var (st_heap st) ++ ys) -> twin (fun v => v) st st' i k.
Proof.
  intros st st' i k u d xs ys R U U' (Rd & Ex & Ev) Hh. destruct (reachable_ok st R) as ((O & _) & _). assert (B := reachable_bound st i u R U).
  exists u, u. repeat split; auto; [now destruct (uf_var u)|]. destruct (read_at _ _ _ _ U Rd) as (j & h1 & D).
  assert (I : iso (fun l => l) (fun v => v) (fun l => (l < length (h_lc (st_heap st)))%nat) (fun _ => True) (fun _ => True) (st_heap st) (st_heap st')).
  { rewrite Hh. constructor; auto.
    - intros l Hl. cbn [h_lc]. rewrite app_length. lia.
    - intros l Hl. rewrite get_old by exact Hl. now rewrite copy_lc_same.
    - intros l its c l' Hl G Hi. assert (X := O _ _ _ G Hi). cbn in X. lia. }
  destruct (iso_deriv _ _ _ _ _ (fun v w _ _ X => X) j u u _ _ d h1 I B eq_refl D (fun _ _ => Logic.I)) as (_ & h1' & D').
  rewrite Forall_forall in Ex. intros read o. refine (reads_as _ st st' i k u u j d h1 h1' U U' eq_refl _ _ D D' read o); [now destruct (uf_var u)|].
  intros v Hv. assert (X : existing st v) by (destruct Hv as [Hv|Hv]; [now apply Ex|exact (Ev u v U Hv)]). unfold existing in X.
  destruct (get_var (st_heap st) v) as [o1|] eqn:G; [|contradiction]. exists o1, o1. repeat split; auto. rewrite Hh. unfold get_var in *. cbn [h_var].
  rewrite nth_error_app1; [exact G|]. apply nth_error_Some. rewrite G. discriminate.
Qed.
Theorem copy_shares : forall (st : state N) i u d, reachable st -> is_number st i u -> uf_var u = None -> readable st i d ->
  twin (fun v => v) st (fst (call_step st (CCopy i))) i (length (st_env st)).
Proof.
  intros st i u d R U Hv Rd. unfold call_step. assert (U0 := U). unfold is_number in U0. rewrite U0. unfold py_copy. rewrite Hv. cbn [push ret fst].
  apply (same_twin st _ i _ u d [] []); auto.
  - unfold is_number. cbn [st_env]. rewrite nth_error_app2, Nat.sub_diag by lia. cbn [nth_error]. destruct u. cbn in *. now subst.
  - cbn [st_heap]. rewrite !app_nil_r. now destruct (st_heap st).
Qed.
Theorem others_same : forall (st : state N) c i u d, reachable st -> (exists j, c = CCopy j \/ c = CDeepcopy j) \/ (exists js, c = CPickle js) ->
  is_number st i u -> readable st i d ->
  forall read o, attribute read -> reads st (read i) o -> reads (fst (call_step st c)) (read i) o.
Proof.
  intros st c i u d R Hc U Rd read o A Ro.
  assert (X : exists xs ys new, st_heap (fst (call_step st c)) = mkHeap (h_lc (st_heap st) ++ xs) (h_var (st_heap st) ++ ys) /\
    st_env (fst (call_step st c)) = st_env st ++ new).
  { assert (Same : exists xs ys, st_heap st = mkHeap (h_lc (st_heap st) ++ xs) (h_var (st_heap st) ++ ys)).
    { exists [], []. rewrite !app_nil_r. now destruct (st_heap st). }
    assert (Cp : forall a, exists xs ys, snd (py_copy a (st_heap st)) = mkHeap (h_lc (st_heap st) ++ xs) (h_var (st_heap st) ++ ys)).
    { intros [p|w]; cbn [py_copy]; [exact Same|]. destruct (uf_var w) as [v|]; [|exact Same]. destruct (get_var (st_heap st) v) as [o1|]; [|exact Same].
      unfold new_var. cbn [pn_float]. destruct (check_std (PF (v_std o1))); [|exact Same]. cbn [alloc_lc snd h_lc h_var]. eauto. }
    assert (Pu : forall (r : res (value N) * heap N), exists new, st_env (fst (push st r)) = st_env st ++ new /\ st_heap (fst (push st r)) = snd r).
    { intros [[a|e] h1]; cbn; eauto. }
    destruct Hc as [(j & [->| ->])|(js & ->)]; unfold call_step.
    - destruct (nth_error (st_env st) j) as [a|].
      + destruct (Cp a) as (xs & ys & Q). destruct (Pu (py_copy a (st_heap st))) as (new & E1 & E2). exists xs, ys, new. now rewrite E2.
      + destruct Same as (xs & ys & Q). destruct (Pu (Err EUser, st_heap st)) as (new & E1 & E2). exists xs, ys, new. now rewrite E2.
    - destruct (nth_error (st_env st) j) as [a|].
      + destruct (Pu (py_deepcopy a (st_heap st))) as (new & E1 & E2).
        assert (Q : exists xs ys, snd (py_deepcopy a (st_heap st)) = mkHeap (h_lc (st_heap st) ++ xs) (h_var (st_heap st) ++ ys)).
        { destruct a as [p|w]; [exact Same|]. unfold py_deepcopy. destruct (uf_var w) as [v|]; [exact (Cp (VUF w))|]. cbn [snd]. eauto. }
        destruct Q as (xs & ys & Q). exists xs, ys, new. now rewrite E2.
      + destruct Same as (xs & ys & Q). destruct (Pu (Err EUser, st_heap st)) as (new & E1 & E2). exists xs, ys, new. now rewrite E2.
    - destruct (get_args (st_env st) js) as [l|].
      + unfold py_pickle, push_list. cbn [fst st_heap st_env]. eauto.
      + destruct Same as (xs & ys & Q). exists xs, ys, []. cbn. rewrite app_nil_r. split; [exact Q|reflexivity]. }
  destruct X as (xs & ys & new & Hh & He).
  assert (U' : is_number (fst (call_step st c)) i u).
  { unfold is_number in *. rewrite He. now apply nth_app_l. }
  destruct (same_twin st _ i i u d xs ys R U U' Rd Hh) as (u1 & u2 & _ & _ & _ & _ & T). specialize (T read o A Ro). now rewrite out_same in T.
Qed.
Theorem copy_variable_twin : forall (st : state N) c i u v, c = CCopy i \/ c = CDeepcopy i -> is_number st i u -> uf_var u = Some v ->
  readable st i [(v, n_one N)] -> snd (call_step st c) = ONone ->
  exists w, renews (fun _ => w) st (fst (call_step st c)) (fun x => x = v) /\ twin (fun _ => w) st (fst (call_step st c)) i (length (st_env st)).
Proof.
  intros st c i u v Hc U Hv Rd Q.
  assert (X : call_step st c = push st (py_copy (VUF u) (st_heap st))).
  { unfold is_number in U. destruct Hc as [->| ->]; unfold call_step; rewrite U; [reflexivity|]. unfold py_deepcopy. now rewrite Hv. }
  rewrite X in *. clear X Hc. destruct Rd as (R & Ex & Ev). inversion Ex as [|? ? E1 _]; subst. cbn [fst] in E1. unfold existing in E1.
  unfold py_copy in *. rewrite Hv in *. destruct (get_var (st_heap st) v) as [o|] eqn:G; [|contradiction].
  destruct (read_at _ _ _ _ U R) as (j & h1 & D).
  unfold new_var in *. cbn [pn_float] in *.
  assert (Cs : forall x, check_std (PF (v_std o)) = Ok x -> x = v_std o).
  { unfold check_std. intros x. cbn [pn_float]. destruct (pn_lt0 (PF (v_std o))); [|congruence]. destruct (pn_isinfinite (PF (v_std o))) as [[]|]; cbn [rbind]; congruence. }
  destruct (check_std (PF (v_std o))) as [x|e]; [|discriminate Q]. specialize (Cs x eq_refl). subst x. cbn [alloc_lc fst snd h_lc h_var push] in *. clear Q.
  set (h := st_heap st) in *.
  match goal with |- context [mkHeap ?a (h_var h ++ ?b)] => set (lcs := a); set (objs := b) end.
  match goal with |- context [mkState (mkHeap lcs (h_var h ++ objs)) (st_env st ++ [VUF ?x])] => set (u' := x) end.
  set (s' := mkState (mkHeap lcs (h_var h ++ objs)) (st_env st ++ [VUF u'])).
  assert (G' : get_var (st_heap s') (length (h_var h)) = Some (mkVar (uf_nom u) (length (h_lc h)) (v_std o) (v_tag o))).
  { unfold get_var, s'. cbn [st_heap h_var]. rewrite nth_error_app2, Nat.sub_diag by lia. reflexivity. }
  exists (length (h_var h)). split.
  - split; [intros ? ? -> ->; reflexivity|]. intros ? ->. unfold existing, sd, vtag. rewrite G'. fold h. rewrite G. repeat split; [|discriminate].
    intros X. apply X. apply nth_error_None. lia.
  - assert (U' : is_number s' (length (st_env st)) u') by (unfold is_number, s'; cbn [st_env]; rewrite nth_error_app2, Nat.sub_diag by lia; reflexivity).
    exists u, u'. assert (Vu : uf_var u' = option_map (fun _ => length (h_var h)) (uf_var u)) by (rewrite Hv; reflexivity).
    repeat split; auto. intros read o1.
    refine (reads_as _ st s' i (length (st_env st)) u u' j [(v, n_one N)] h1 (st_heap s') U U' eq_refl Vu _ D _ read o1).
    + intros y Hy. assert (y = v) as -> by (destruct Hy as [[Hy|[]]|Hy]; [now symmetry|congruence]). fold h. rewrite G'. eauto.
    + unfold derivatives, lc_derivatives, s', u'. cbn [uf_lp st_heap]. unfold get_lc, lcs. cbn [h_lc].
      rewrite app_nth2, Nat.sub_diag by lia. reflexivity.
Qed.
(** Numbers of which the history is known: their variables exist. *)
Theorem history_readable : forall (st : state N) L i vs d u, history st L -> nth_error L i = Some (Some vs) -> is_number st i u ->
  reads st (IDeriv i) (ODict d) -> readable st i d.
Proof.
  intros st L i vs d u H Hi U R. destruct (dependencies st L i vs u d H Hi U R) as (_ & A & B). split; [exact R|]. split.
  - apply Forall_forall. intros v Hv. now apply B, A.
  - intros u1 v U1 Hv. unfold is_number in *. rewrite U in U1. injection U1 as <-. destruct (history_tracks _ _ H) as (Lm & T).
    apply B. exact (proj2 (known_number _ _ _ _ _ _ T Hi U) v Hv).
Qed.
End Twin.
