(** A calculation gives the same results later, in any arithmetic. *)
From Coq Require Import ZArith List Bool Arith Lia Relation_Operators.
From Verif Require Import Base Heap HeapProofs Affine Ops UMath Machine Cov Copy Calls Unumpy UMatrix History CallProofs Fuel Ordered Evolve DepSpec Deps AnySpec AnyArith TwinSpec Twin StaySpec Stay LaterSpec.
Import ListNotations.

Local Notation "x <- m ;; k" := (rbind m (fun x => k)) (at level 61, m at next level, right associativity).
Lemma shifted_old : forall a b i, (i < a)%nat -> shifted a b i = i.
Proof. intros a b i H. unfold shifted. apply Nat.ltb_lt in H. now rewrite H. Qed.
Lemma shifted_new : forall a b k, shifted a b (a + k) = (b + k)%nat.
Proof. intros a b k. unfold shifted. destruct (Nat.ltb_spec (a + k) a); lia. Qed.
Lemma shifted_inj : forall a b, (a <= b)%nat -> forall i j, shifted a b i = shifted a b j -> i = j.
Proof. intros a b L i j. unfold shifted. destruct (Nat.ltb_spec i a), (Nat.ltb_spec j a); lia. Qed.
Lemma shifted_lt : forall a b k i, (a <= b)%nat -> (i < a + k <-> shifted a b i < b + k)%nat.
Proof. intros a b k i L. unfold shifted. destruct (Nat.ltb_spec i a); lia. Qed.
Lemma list_set_out : forall A (l : list A) k x, (length l <= k)%nat -> list_set l k x = l.
Proof.
  intros A. induction l as [|y l IH]; intros k x H; [now destruct k|]. destruct k as [|k]; cbn [length] in H; [lia|]. cbn [list_set]. f_equal. apply IH. lia.
Qed.

Section Later.
Context {N : NumOps}.
Variables (n n' nv nv' : nat) (S0 V0 : nat -> Prop).
Hypothesis Ln : (n <= n')%nat.
Hypothesis Lv : (nv <= nv')%nat.
Notation fl := (shifted n n').
Notation fv := (shifted nv nv').
Notation ren := (keys_as fv).
Definition Sl (l : nat) : Prop := (l < n)%nat -> S0 l.
Definition Vv (v : nat) : Prop := (v < nv)%nat -> V0 v.
Definition kV {A} (d : list (varid * A)) : Prop := forall v, In v (dkeys d) -> Vv v.
Definition lc_ok (x : lc N) : Prop := match x with LDict d => kV d | LList its => forall c l, In (IPair c l) its -> Sl l end.
Definition var_rel (a b : option (varobj N)) : Prop := match a, b with Some o, Some o' => v_std o' = v_std o | None, None => True | _, _ => False end.
Record rel (h h' : heap N) : Prop := {
  r_lc : exists a, length (h_lc h) = (n + a)%nat /\ length (h_lc h') = (n' + a)%nat;
  r_var : exists a, length (h_var h) = (nv + a)%nat /\ length (h_var h') = (nv' + a)%nat;
  r_get : forall l, Sl l -> get_lc h' (fl l) = copy_lc fl fv (get_lc h l);
  r_ok : forall l, Sl l -> lc_ok (get_lc h l);
  r_v : forall v, Vv v -> var_rel (get_var h v) (get_var h' (fv v))
}.
Lemma fv_inj : forall v w, fv v = fv w -> v = w. Proof. exact (shifted_inj _ _ Lv). Qed.
Lemma fl_inj : forall v w, fl v = fl w -> v = w. Proof. exact (shifted_inj _ _ Ln). Qed.
Lemma rel_set : forall h h' l x, rel h h' -> Sl l -> lc_ok x -> rel (set_lc h l x) (set_lc h' (fl l) (copy_lc fl fv x)).
Proof.
  intros h h' l x [(a & A1 & A2) V G O W] Hl Hx.
  assert (B : (l < length (h_lc h) <-> fl l < length (h_lc h'))%nat) by (rewrite A1, A2; now apply shifted_lt).
  destruct (le_lt_dec (length (h_lc h)) l) as [Hb|Hb].
  - assert (E : set_lc h l x = h) by (unfold set_lc; rewrite list_set_out by exact Hb; now destruct h).
    assert (E' : set_lc h' (fl l) (copy_lc fl fv x) = h') by (unfold set_lc; rewrite list_set_out by lia; now destruct h').
    rewrite E, E'. constructor; eauto.
  - assert (Hb' := proj1 B Hb). constructor.
    + exists a. now rewrite !set_lc_length.
    + exact V.
    + intros l0 H0. destruct (Nat.eq_dec l l0) as [<-|Hn].
      * now rewrite !get_set_eq.
      * rewrite !get_set_neq; auto. intros X. now apply fl_inj in X.
    + intros l0 H0. destruct (Nat.eq_dec l l0) as [<-|Hn]; [rewrite get_set_eq|rewrite get_set_neq]; auto.
    + exact W.
Qed.
Lemma get_app : forall (h : heap N) x l, get_lc (mkHeap (h_lc h ++ [x]) (h_var h)) l = if Nat.eqb l (length (h_lc h)) then x else get_lc h l.
Proof.
  intros h x l. unfold get_lc. cbn [h_lc]. destruct (Nat.eqb_spec l (length (h_lc h))) as [->|Hn].
  - now rewrite app_nth2, Nat.sub_diag by lia.
  - destruct (le_lt_dec (length (h_lc h)) l) as [Hb|Hb]; [|now rewrite app_nth1].
    rewrite !nth_overflow; auto. rewrite app_length. cbn. lia.
Qed.
Lemma rel_len : forall h h', rel h h' -> fl (length (h_lc h)) = length (h_lc h') /\ fv (length (h_var h)) = length (h_var h') /\ Sl (length (h_lc h)) /\ Vv (length (h_var h)).
Proof.
  intros h h' [(a & A1 & A2) (b & B1 & B2) _ _ _]. rewrite A1, A2, B1, B2, !shifted_new. unfold Sl, Vv. repeat split; auto; lia.
Qed.
Lemma rel_alloc : forall h h' x, rel h h' -> lc_ok x ->
  rel (mkHeap (h_lc h ++ [x]) (h_var h)) (mkHeap (h_lc h' ++ [copy_lc fl fv x]) (h_var h')).
Proof.
  intros h h' x R Hx. destruct (rel_len _ _ R) as (E & _ & _ & _). destruct R as [(a & A1 & A2) V G O W]. constructor.
  - exists (a + 1)%nat. cbn [h_lc]. rewrite !app_length, A1, A2. cbn. lia.
  - exact V.
  - intros l Hl. rewrite !get_app. destruct (Nat.eqb_spec l (length (h_lc h))) as [->|Hn].
    + now rewrite E, Nat.eqb_refl.
    + destruct (Nat.eqb_spec (fl l) (length (h_lc h'))) as [X|_]; [|now apply G]. rewrite <- E in X. now apply fl_inj in X.
  - intros l Hl. rewrite get_app. destruct (Nat.eqb l (length (h_lc h))); auto.
  - exact W.
Qed.
(** Two computations with the same outcome. *)
Definition sim {A} (RA : A -> A -> Prop) (r r' : res A * heap N) : Prop :=
  match r, r' with
  | (Ok a, h), (Ok a', h') => RA a a' /\ rel h h'
  | (Err e, h), (Err e', h') => e' = e /\ rel h h'
  | _, _ => False
  end.
Lemma sim_bind : forall A B (RA : A -> A -> Prop) (RB : B -> B -> Prop) m m' k k' h h',
  sim RA (m h) (m' h') -> (forall a a' h1 h1', RA a a' -> rel h1 h1' -> sim RB (k a h1) (k' a' h1')) -> sim RB (bind m k h) (bind m' k' h').
Proof.
  intros A B RA RB m m' k k' h h' H K. unfold bind. destruct (m h) as [[a|e] h1], (m' h') as [[a'|e'] h1']; try contradiction; cbn in H.
  - apply K; tauto.
  - exact H.
Qed.
Lemma dkeys_app_in : forall A (d : list (varid * A)) v x w, In w (dkeys (dset d v x)) -> w = v \/ In w (dkeys d).
Proof. intros. now apply dkeys_dset in H. Qed.
Lemma acc_ren : forall c (d acc : dict N), kV d -> kV acc ->
  acc_dict c (ren d) (ren acc) = match acc_dict c d acc with Ok a => Ok (ren a) | Err e => Err e end /\
  (forall a, acc_dict c d acc = Ok a -> kV a).
Proof.
  intros c. induction d as [|[v f] d IH]; intros acc Hd Ha; cbn [acc_dict keys_as map fst snd].
  - split; [reflexivity|]. intros a E. now injection E as <-.
  - destruct (cmul c f) as [x|e]; cbn [rbind]; [|split; [reflexivity|discriminate]]. cbv zeta.
    rewrite (dget_as fv (fun _ => True)), (dset_as fv (fun _ => True)) by (auto using fv_inj).
    apply IH; [intros w Hw; apply Hd; now right|]. intros w Hw. apply dkeys_dset in Hw as [->|Hw]; [apply Hd; now left|auto].
Qed.
Lemma loop_sim : forall k l acc h h', rel h h' -> Sl l -> kV acc ->
  sim (fun _ _ => True) (expand_loop k l acc h) (expand_loop k (fl l) (ren acc) h').
Proof.
  induction k as [|k IH]; intros l acc h h' R Hl Ha; cbn [expand_loop]; [now split|].
  rewrite (r_get _ _ R l Hl). assert (O := r_ok _ _ R l Hl). destruct (get_lc h l) as [[|p d]|[|it rest]]; cbn [copy_lc map].
  - split; [exact I|]. exact (rel_set _ _ l (LDict acc) R Hl Ha).
  - now split.
  - split; [exact I|]. exact (rel_set _ _ l (LDict acc) R Hl Ha).
  - cbv zeta. assert (R1 : rel (set_lc h l (LList rest)) (set_lc h' (fl l) (LList (map (copy_item fl) rest)))).
    { apply (rel_set _ _ l (LList rest) R Hl). intros c l0 H0. apply (O c l0). now right. }
    destruct it as [c l0|c|l0]; cbn [copy_item]; try (now split).
    assert (H0 : Sl l0) by (apply (O c l0); now left). rewrite (r_get _ _ R1 l0 H0). assert (O1 := r_ok _ _ R1 l0 H0).
    destruct (get_lc (set_lc h l (LList rest)) l0) as [d|its] eqn:G; cbn [copy_lc].
    + change (map (fun p : varid * num N => (fv (fst p), snd p)) d) with (ren d). destruct (acc_ren c d acc O1 Ha) as (E & Ka). rewrite E.
      destruct (acc_dict c d acc) as [a|e]; [|now split]. apply IH; auto.
    + rewrite <- map_rev. destruct (push_items c (rev its) rest) as [stack e] eqn:P. rewrite (push_as fl _ _ _ _ _ P).
      assert (R2 : rel (set_lc (set_lc h l (LList rest)) l (LList stack)) (set_lc (set_lc h' (fl l) (LList (map (copy_item fl) rest))) (fl l) (LList (map (copy_item fl) stack)))).
      { apply (rel_set _ _ l (LList stack) R1 Hl). intros q l1 H1. destruct (push_in _ _ _ _ _ P q l1 H1) as [(q1 & Q)|Q].
        - apply in_rev in Q. exact (O1 q1 l1 Q).
        - apply (O q l1). now right. }
      destruct e as [e|]; [now split|]. apply IH; auto.
Qed.
Definition ufrel (u u' : uf N) : Prop :=
  u' = mkUF (uf_nom u) (fl (uf_lp u)) (option_map fv (uf_var u)) /\ Sl (uf_lp u) /\ forall v, uf_var u = Some v -> Vv v.
Definition vrel (a a' : value N) : Prop :=
  match a, a' with VUF u, VUF u' => ufrel u u' | VPlain p, VPlain p' => p' = p | _, _ => False end.
Lemma deriv_sim : forall k u u' h h', rel h h' -> ufrel u u' -> sim (fun d d' => d' = ren d /\ kV d) (derivatives k u h) (derivatives k u' h').
Proof.
  intros k u u' h h' R (-> & Hu & _). unfold derivatives, lc_derivatives. cbn [uf_lp]. rewrite (r_get _ _ R _ Hu). assert (O := r_ok _ _ R _ Hu).
  destruct (get_lc h (uf_lp u)) as [d|its]; cbn [copy_lc]; [split; [split; [reflexivity|exact O]|exact R]|].
  assert (X := loop_sim k (uf_lp u) [] h h' R Hu (fun v (F : In v []) => match F with end)). change (ren []) with (@nil (varid * num N)) in X.
  destruct (expand_loop k (uf_lp u) [] h) as [[[]|e] h1], (expand_loop k (fl (uf_lp u)) [] h') as [[[]|e'] h1']; try contradiction; cbn in X; [|exact X].
  destruct X as (_ & R1). rewrite (r_get _ _ R1 _ Hu). assert (O1 := r_ok _ _ R1 _ Hu). destruct (get_lc h1 (uf_lp u)) as [d|its1]; cbn [copy_lc].
  - split; [split; [reflexivity|exact O1]|exact R1].
  - now split.
Qed.
Lemma components_ren : forall h h' d, rel h h' -> kV d -> components h' (ren d) = match components h d with Ok e => Ok (ren e) | Err e => Err e end.
Proof.
  intros h h' d R. induction d as [|[v x] d IH]; intros H; [reflexivity|]. cbn [keys_as map components fst snd].
  assert (W := r_v _ _ R v (H v (or_introl eq_refl))). unfold var_rel in W. destruct (get_var h v) as [o|], (get_var h' (fv v)) as [o'|]; try contradiction; [|reflexivity].
  cbv zeta. rewrite W. change (map (fun p : varid * num N => (fv (fst p), snd p)) d) with (ren d). rewrite IH by (intros w Hw; apply H; now right).
  destruct (components h d); reflexivity.
Qed.
Lemma errs_sim : forall k u u' h h', rel h h' -> ufrel u u' -> sim (fun e e' => e' = ren e) (error_components k u h) (error_components k u' h').
Proof.
  intros k u u' h h' R U. unfold error_components. eapply sim_bind; [exact (deriv_sim k u u' h h' R U)|]. intros d d' h1 h1' (-> & K) R1.
  rewrite (components_ren h1 h1' d R1 K). destruct (components h1 d); now split.
Qed.
Lemma stds_sim : forall k u u' h h', rel h h' -> ufrel u u' -> sim eq (std_dev_s k u h) (std_dev_s k u' h').
Proof.
  intros k u u' h h' R U. unfold std_dev_s, std_dev_affine. eapply sim_bind; [exact (errs_sim k u u' h h' R U)|]. intros e e' h1 h1' -> R1. rewrite as_snd.
  destruct (s <- sum_squares (PZ 0) (map snd e);; pn_sqrt s); now split.
Qed.
Lemma std_sim : forall k u u' h h', rel h h' -> ufrel u u' -> sim eq (std_dev k u h) (std_dev k u' h').
Proof.
  intros k u u' h h' R U. destruct U as (-> & U2 & U3). unfold std_dev. cbn [uf_var]. destruct (uf_var u) as [v|] eqn:E; cbn [option_map].
  - assert (W := r_v _ _ R v (U3 v eq_refl)). unfold var_rel in W. destruct (get_var h v), (get_var h' (fv v)); try contradiction; now split.
  - apply (stds_sim k u _ h h' R). split; [now rewrite E|]. split; [exact U2|]. intros w. rewrite E. discriminate.
Qed.
Lemma upcast_sim : forall a a' h h', rel h h' -> vrel a a' -> sim ufrel (to_affine_scalar a h) (to_affine_scalar a' h').
Proof.
  intros [p|u] [p'|u'] h h' R H; cbn in H; try contradiction; [subst p'|now split]. destruct (rel_len _ _ R) as (E & _ & Hs & _).
  destruct p as [q| | |]; cbn [to_affine_scalar]; try (now split). destruct (pn_float q) as [x|e]; [|now split]. cbn [alloc_lc]. split.
  - split; [cbn [uf_nom uf_lp uf_var]; now rewrite E|]. split; [exact Hs|discriminate].
  - exact (rel_alloc h h' (LDict []) R (fun v (F : In v []) => match F with end)).
Qed.
Lemma nominal_rel : forall a a', vrel a a' -> nominal_value a' = nominal_value a /\ is_uf a' = is_uf a.
Proof. intros [p|u] [p'|u'] H; cbn in H; try contradiction; [now subst|]. destruct H as (-> & _). now split. Qed.
Definition krel (q q' : nat * value N) : Prop := fst q' = fst q /\ vrel (snd q) (snd q').
Lemma args_rel : forall l l', Forall2 vrel l l' -> map (@nominal_value N) l' = map (@nominal_value N) l /\ existsb (@is_uf N) l' = existsb (@is_uf N) l.
Proof.
  intros l l' H. induction H as [|a a' l l' Ha H (E1 & E2)]; [now split|]. destruct (nominal_rel _ _ Ha) as (F1 & F2). cbn. now rewrite E1, E2, F1, F2.
Qed.
Lemma kw_rel : forall l l', Forall2 krel l l' -> kw_map (@nominal_value N) l' = kw_map (@nominal_value N) l /\
  existsb (fun p => is_uf (snd p)) l' = existsb (fun p => is_uf (snd p)) l.
Proof.
  intros l l' H. induction H as [|a a' l l' (Hk & Ha) H (E1 & E2)]; [now split|]. destruct (nominal_rel _ _ Ha) as (F1 & F2).
  cbn. unfold kw_map in E1. now rewrite E1, E2, F1, F2, Hk.
Qed.
Definition its_rel (r r' : res (list (item N))) : Prop :=
  match r with Ok t => r' = Ok (map (copy_item fl) t) /\ (forall c l, In (IPair c l) t -> Sl l) | Err e => r' = Err e end.
Lemma pos_rel : forall pos av kv l l', Forall2 vrel l l' -> forall i, its_rel (pos_terms pos i l av kv) (pos_terms pos i l' av kv).
Proof.
  intros pos av kv l l' H. induction H as [|a a' l l' Ha H IH]; intros i; [split; [reflexivity|intros c q []]|].
  destruct a as [p|u], a' as [p'|u']; cbn in Ha; try contradiction; cbn [pos_terms]; [apply IH|]. destruct Ha as (-> & Hu & _).
  destruct (pos i av kv) as [c|e]; [|reflexivity]. cbn [rbind]. specialize (IH (Datatypes.S i)). destruct (pos_terms pos (Datatypes.S i) l av kv) as [t|e]; cbn in IH |- *.
  - destruct IH as (-> & K). split; [reflexivity|]. intros c1 l1 [X|X]; [now injection X as <- <-|exact (K c1 l1 X)].
  - now rewrite IH.
Qed.
Lemma kwt_rel : forall kwd av kv l l', Forall2 krel l l' -> its_rel (kw_terms kwd l av kv) (kw_terms kwd l' av kv).
Proof.
  intros kwd av kv l l' H. induction H as [|[k a] [k' a'] l l' (Hk & Ha) H IH]; [split; [reflexivity|intros c q []]|].
  cbn in Hk. subst k'. destruct a as [p|u], a' as [p'|u']; cbn in Ha; try contradiction; cbn [kw_terms]; [exact IH|]. destruct Ha as (-> & Hu & _).
  destruct (kwd k av kv) as [c|e]; [|reflexivity]. cbn [rbind]. destruct (kw_terms kwd l av kv) as [t|e]; cbn in IH |- *.
  - destruct IH as (-> & K). split; [reflexivity|]. intros c1 l1 [X|X]; [now injection X as <- <-|exact (K c1 l1 X)].
  - now rewrite IH.
Qed.
Lemma wcall_sim : forall f pos kwd l l' kw kw' h h', rel h h' -> Forall2 vrel l l' -> Forall2 krel kw kw' ->
  sim vrel (wcall f pos kwd l kw h) (wcall f pos kwd l' kw' h').
Proof.
  intros f pos kwd l l' kw kw' h h' R Hl Hk. destruct (args_rel _ _ Hl) as (E1 & E2), (kw_rel _ _ Hk) as (K1 & K2). unfold wcall. cbv zeta. rewrite E1, E2, K1, K2.
  set (av := map nominal_value l) in *. set (kv := kw_map nominal_value kw) in *.
  destruct (negb _); [destruct (f av kv); now split|]. destruct (f av kv) as [r|e]; [|now split].
  assert (P := pos_rel pos av kv l l' Hl 0). assert (Q := kwt_rel kwd av kv kw kw' Hk).
  assert (T : its_rel (tp <- pos_terms pos 0 l av kv;; tk <- kw_terms kwd kw av kv;; Ok (tp ++ tk)) (tp <- pos_terms pos 0 l' av kv;; tk <- kw_terms kwd kw' av kv;; Ok (tp ++ tk))).
  { destruct (pos_terms pos 0 l av kv) as [tp|e]; cbn in P |- *; [destruct P as (-> & P)|now rewrite P]. cbn [rbind].
    destruct (kw_terms kwd kw av kv) as [tk|e]; cbn in Q |- *; [destruct Q as (-> & Q)|now rewrite Q]. cbn [rbind].
    split; [now rewrite map_app|]. intros c l0 H0. apply in_app_or in H0 as [H0|H0]; eauto. }
  destruct r as [p| | |]; try (now split).
  - destruct (tp <- pos_terms pos 0 l av kv;; tk <- kw_terms kwd kw av kv;; Ok (tp ++ tk)) as [t|e]; cbn in T; [destruct T as (-> & T)|rewrite T; now split].
    destruct (pn_float p) as [x|e]; [|now split]. destruct (rel_len _ _ R) as (E & _ & Hs & _). cbn [alloc_lc]. split.
    + split; [cbn [uf_nom uf_lp uf_var]; now rewrite E|]. split; [exact Hs|discriminate].
    + rewrite <- map_rev. apply (rel_alloc h h' (LList (rev t)) R). intros c l0 H0. apply in_rev in H0. exact (T c l0 H0).
  - destruct (tp <- pos_terms pos 0 l av kv;; tk <- kw_terms kwd kw av kv;; Ok (tp ++ tk)) as [t|e]; cbn in T; [destruct T as (-> & T)|rewrite T]; now split.
Qed.
Lemma method_sim : forall op u u' b b' h h', rel h h' -> ufrel u u' -> vrel b b' -> sim vrel (method_op op u b h) (method_op op u' b' h').
Proof. intros. unfold method_op. apply wcall_sim; auto. Qed.
Lemma rmethod_sim : forall op u u' b b' h h', rel h h' -> ufrel u u' -> vrel b b' -> sim vrel (method_rop op u b h) (method_rop op u' b' h').
Proof. intros. unfold method_rop. apply wcall_sim; auto. Qed.
Lemma binop_sim : forall op a a' b b' h h', rel h h' -> vrel a a' -> vrel b b' -> sim vrel (py_binop op a b h) (py_binop op a' b' h').
Proof.
  intros op a a' b b' h h' R A B. assert (K : forall r r' h1 h1', vrel r r' -> rel h1 h1' ->
    sim vrel (match r with VNotImpl => raise EType | _ => ret r end h1) (match r' with VNotImpl => raise EType | _ => ret r' end h1')).
  { intros [p|u] [p'|u'] h1 h1' H R1; cbn in H; try contradiction; [subst p'; destruct p; now split|now split]. }
  destruct a as [p|u], a' as [p'|u']; cbn in A; try contradiction; cbn [py_binop].
  - destruct b as [q|w], b' as [q'|w']; cbn in B; try contradiction; [now split|]. eapply sim_bind; [apply rmethod_sim; eauto|exact K].
  - eapply sim_bind; [apply method_sim; eauto|exact K].
Qed.
Lemma eq_sim : forall k x x' y y' h h', rel h h' -> ufrel x x' -> ufrel y y' -> sim eq (eq_aff k x y h) (eq_aff k x' y' h').
Proof.
  intros k x x' y y' h h' R X Y. unfold eq_aff. eapply sim_bind; [apply (method_sim Bsub x x' (VUF y) (VUF y')); eauto|].
  intros [p|d] [p'|d'] h1 h1' H R1; cbn in H; try contradiction; [now split|]. assert (E : uf_nom d' = uf_nom d) by (destruct H as (-> & _); reflexivity). rewrite E.
  destruct (n_truth N (uf_nom d)); [now split|]. eapply sim_bind; [exact (std_sim k d d' h1 h1' R1 H)|]. intros s s' h2 h2' <- R2. now split.
Qed.
Lemma cmp_sim : forall k c x x' y y' h h', rel h h' -> ufrel x x' -> ufrel y y' -> sim eq (cmp_aff k c x y h) (cmp_aff k c x' y' h').
Proof.
  intros k c x x' y y' h h' R X Y. assert (Q := eq_sim k x x' y y' h h' R X Y).
  assert (Ex : uf_nom x' = uf_nom x) by (destruct X as (-> & _); reflexivity). assert (Ey : uf_nom y' = uf_nom y) by (destruct Y as (-> & _); reflexivity).
  destruct c; cbn [cmp_aff]; unfold ge_aff, le_aff, ne_aff, gt_aff, lt_aff; rewrite ?Ex, ?Ey; auto; try (now split).
  - eapply sim_bind; [exact Q|]. intros b b' h1 h1' <- R1. now split.
  - destruct (n_lt N (uf_nom y) (uf_nom x)); [now split|exact Q].
  - destruct (n_lt N (uf_nom x) (uf_nom y)); [now split|exact Q].
Qed.
Lemma mcmp_sim : forall k c x x' b b' h h', rel h h' -> ufrel x x' -> vrel b b' -> sim eq (method_cmp k c x b h) (method_cmp k c x' b' h').
Proof.
  intros k c x x' b b' h h' R X B. unfold method_cmp. assert (U := upcast_sim b b' h h' R B).
  destruct (to_affine_scalar b h) as [[y|e] h1], (to_affine_scalar b' h') as [[y'|e'] h1']; try contradiction; cbn in U; destruct U as (U & R1).
  - assert (Q := cmp_sim k c x x' y y' h1 h1' R1 X U). destruct (cmp_aff k c x y h1) as [[r|e] h2], (cmp_aff k c x' y' h1') as [[r'|e'] h2']; try contradiction; cbn in Q; destruct Q as (-> & R2); now split.
  - subst e'. destruct e; now split.
Qed.
Lemma pycmp_sim : forall k c x x' b b' h h', rel h h' -> ufrel x x' -> vrel b b' -> sim eq (py_cmp k c x b h) (py_cmp k c x' b' h').
Proof.
  intros k c x x' b b' h h' R X B. unfold py_cmp. eapply sim_bind; [exact (mcmp_sim k c x x' b b' h h' R X B)|]. intros r r' h1 h1' <- R1.
  destruct r; [now split|]. destruct c; now split.
Qed.
Lemma bool_sim : forall k u u' h h', rel h h' -> ufrel u u' -> sim eq (py_bool k u h) (py_bool k u' h').
Proof.
  intros k u u' h h' R U. unfold py_bool. eapply sim_bind; [refine (mcmp_sim k Cne u u' _ _ h h' R U _); reflexivity|]. intros r r' h1 h1' <- R1. destruct r; now split.
Qed.
Lemma score_sim : forall k u u' p h h', rel h h' -> ufrel u u' -> sim eq (std_score k u p h) (std_score k u' p h').
Proof.
  intros k u u' p h h' R U. unfold std_score. eapply sim_bind; [exact (std_sim k u u' h h' R U)|]. intros s s' h1 h1' <- R1.
  assert (E : uf_nom u' = uf_nom u) by (destruct U as (-> & _); reflexivity). rewrite E.
  destruct (d <- pn_sub p (PF (uf_nom u));; r <- pn_div d (PF s);; pn_float r) as [x|e]; [now split|]. destruct e; now split.
Qed.
Lemma truth_rel : forall h h' u u', rel h h' -> ufrel u u' -> lc_truth (get_lc h' (uf_lp u')) = lc_truth (get_lc h (uf_lp u)).
Proof. intros h h' u u' R (-> & Hu & _). cbn [uf_lp]. rewrite (r_get _ _ R _ Hu). destruct (get_lc h (uf_lp u)) as [[|]|[|]]; reflexivity. Qed.
Lemma modf_sim : forall a a' h h', rel h h' -> vrel a a' -> sim (fun r r' => vrel (fst r) (fst r') /\ snd r' = snd r) (umath_modf a h) (umath_modf a' h').
Proof.
  intros a a' h h' R A. unfold umath_modf. eapply sim_bind; [exact (upcast_sim a a' h h' R A)|]. intros u u' h1 h1' U R1.
  rewrite (truth_rel _ _ _ _ R1 U). destruct U as (-> & Hu & _). cbn [uf_nom uf_lp]. destruct (n_modf N (uf_nom u)) as [fr ip].
  destruct (lc_truth (get_lc h1 (uf_lp u))); (split; [|exact R1]); split; try reflexivity. cbn. split; [reflexivity|]. split; [exact Hu|discriminate].
Qed.
Lemma ldexp_sim : forall a a' i h h', rel h h' -> vrel a a' -> sim vrel (umath_ldexp a i h) (umath_ldexp a' i h').
Proof.
  intros a a' i h h' R A. unfold umath_ldexp. eapply sim_bind; [exact (upcast_sim a a' h h' R A)|]. intros u u' h1 h1' U R1.
  rewrite (truth_rel _ _ _ _ R1 U). destruct U as (-> & Hu & _). cbn [uf_nom uf_lp]. destruct (lc_truth (get_lc h1 (uf_lp u))).
  - destruct (n_ldexp N (uf_nom u) i) as [x|e]; [|now split]. destruct (two_power i) as [c|e]; [|now split]. destruct (rel_len _ _ R1) as (E & _ & Hs & _). cbn [alloc_lc]. split.
    + cbn. split; [cbn [uf_nom uf_lp uf_var]; now rewrite E|]. split; [exact Hs|discriminate].
    + apply (rel_alloc h1 h1' (LList [IPair c (uf_lp u)]) R1). intros c0 l0 [X|[]]. now injection X as <- <-.
  - destruct a as [p|w], a' as [p'|w']; cbn in A; try contradiction; [subst p'|now split]. destruct p as [q| | |]; try (now split).
    destruct (x <- pn_float q;; r <- n_ldexp N x i;; Ok (VNum (PF r))) eqn:E; split; auto.
    destruct (pn_float q) as [x|]; [|discriminate E]. cbn [rbind] in E. destruct (n_ldexp N x i) as [r|]; [|discriminate E]. cbn [rbind] in E. injection E as <-. reflexivity.
Qed.
Lemma new_sim : forall x s t h h', rel h h' -> sim ufrel (new_var x s t h) (new_var x s t h').
Proof.
  intros x s t h h' R. unfold new_var. destruct (pn_float x) as [y|e]; [|now split]. destruct (check_std s) as [sd|e]; [|now split]. cbn [alloc_lc h_lc h_var].
  destruct (rel_len _ _ R) as (E & F & Hs & Hv). cbv zeta. split.
  - split; [cbn [uf_nom uf_lp uf_var option_map]; now rewrite E, F|]. split; [exact Hs|]. cbn [uf_var]. intros v X. now injection X as <-.
  - assert (R1 := rel_alloc h h' (LDict [(length (h_var h), n_one N)]) R (fun v (Q : In v [length (h_var h)]) => match Q with or_introl X => eq_ind _ Vv Hv _ X | or_intror X => match X with end end)).
    cbn [copy_lc map fst snd] in R1. rewrite F in R1. destruct R1 as [A V G O W]. destruct V as (a & V1 & V2). constructor.
    + exact A.
    + cbn [h_var] in *. exists (a + 1)%nat. rewrite !app_length, V1, V2. cbn. lia.
    + exact G.
    + exact O.
    + intros v Kv. specialize (W v Kv). unfold get_var in *. cbn [h_var] in *. destruct (Nat.eq_dec v (length (h_var h))) as [->|Hn].
      * rewrite F, !nth_error_app2, !Nat.sub_diag by lia. reflexivity.
      * assert (Hn' : fv v <> length (h_var h')) by (rewrite <- F; intros X; now apply fv_inj in X).
        destruct (le_lt_dec (length (h_var h)) v) as [Hb|Hb].
        -- assert (Hb' : (length (h_var h') <= fv v)%nat) by (pose proof (shifted_lt nv nv' a v Lv); lia).
           rewrite (proj2 (nth_error_None _ _)) by (rewrite app_length; cbn; lia). rewrite (proj2 (nth_error_None _ _)) by (rewrite app_length; cbn; lia). exact I.
        -- assert (Hb' : (fv v < length (h_var h'))%nat) by (pose proof (shifted_lt nv nv' a v Lv); lia). now rewrite !nth_error_app1.
Qed.
Lemma set_nth : forall A (l : list A) k x i, nth_error (list_set l k x) i = if Nat.eqb i k then match nth_error l k with Some _ => Some x | None => None end else nth_error l i.
Proof.
  intros A. induction l as [|y l IH]; intros [|k] x [|i]; cbn [list_set nth_error Nat.eqb]; auto; try (now destruct (Nat.eqb i k)); apply IH.
Qed.
Lemma set_len : forall A (l : list A) k x, length (list_set l k x) = length l.
Proof. intros A. induction l as [|y l IH]; intros [|k] x; cbn [list_set length]; auto. Qed.
Lemma set_sim : forall v s h h', rel h h' -> Vv v -> sim (fun _ _ => True) (set_std v s h) (set_std (fv v) s h').
Proof.
  intros v s h h' R Kv. unfold set_std. destruct (check_std s) as [sd|e]; [|now split]. assert (W := r_v _ _ R v Kv). unfold var_rel in W.
  destruct (get_var h v) as [o|] eqn:G1, (get_var h' (fv v)) as [o'|] eqn:G2; try contradiction; [|now split]. split; [exact I|].
  destruct R as [A (a & V1 & V2) G O W0]. constructor; auto.
  - exists a. cbn [h_var]. rewrite !set_len. now split.
  - intros w Kw. specialize (W0 w Kw). unfold get_var in *. cbn [h_var]. rewrite !set_nth. destruct (Nat.eqb_spec w v) as [->|Hn].
    + rewrite Nat.eqb_refl, G1, G2. reflexivity.
    + destruct (Nat.eqb_spec (fv w) (fv v)) as [X|_]; [now apply fv_inj in X|exact W0].
Qed.

(** Programs. *)
Variables (m m' : nat) (Us : nat -> Prop).
Hypothesis Lm : (m <= m')%nat.
Notation fi := (shifted m m').
Definition orel (a b : option (value N)) : Prop := match a, b with Some x, Some y => vrel x y | None, None => True | _, _ => False end.
Definition ok_use (i : nat) : Prop := (i < m)%nat -> Us i.
Record erel (env env' : list (value N)) : Prop := {
  e_len : exists a, length env = (m + a)%nat /\ length env' = (m' + a)%nat;
  e_get : forall i, ok_use i -> orel (nth_error env i) (nth_error env' (fi i))
}.
Definition srel (st st' : state N) : Prop := rel (st_heap st) (st_heap st') /\ erel (st_env st) (st_env st').
Definition same_step (r r' : state N * out N) : Prop := srel (fst r) (fst r') /\ snd r' = out_as fv (snd r).
Lemma erel_push : forall env env' a a', erel env env' -> vrel a a' -> erel (env ++ [a]) (env' ++ [a']).
Proof.
  intros env env' a a' [(b & B1 & B2) G] A. constructor.
  - exists (b + 1)%nat. rewrite !app_length, B1, B2. cbn. lia.
  - intros i Hi. specialize (G i Hi). pose proof (shifted_lt m m' b i Lm) as L. pose proof (shifted_lt m m' (b + 1) i Lm) as L1.
    destruct (lt_eq_lt_dec i (length env)) as [[H|H]|H].
    + rewrite !nth_error_app1 by lia. exact G.
    + assert (E : fi i = length env') by (rewrite H, B1, B2; apply shifted_new). rewrite !nth_error_app2 by lia. rewrite E, H, !Nat.sub_diag. exact A.
    + rewrite (proj2 (nth_error_None _ i)) by (rewrite app_length; cbn; lia). rewrite (proj2 (nth_error_None _ _)) by (rewrite app_length; cbn; lia). exact I.
Qed.
Lemma push_same : forall st st' r r', srel st st' -> sim vrel r r' -> same_step (push st r) (push st' r').
Proof.
  intros st st' [[a|e] h] [[a'|e'] h'] (_ & E) H; cbn in H; try contradiction; destruct H as (H & R); unfold push; split; cbn [fst snd out_as].
  - split; [exact R|]. cbn [st_env]. now apply erel_push.
  - reflexivity.
  - split; [exact R|]. cbn [st_env]. now apply erel_push.
  - now subst.
Qed.
Lemma observe_same : forall A (RA : A -> A -> Prop) st st' f (r r' : res A * heap N), srel st st' -> sim RA r r' -> (forall a a', RA a a' -> f a' = out_as fv (f a)) ->
  same_step (observe st f r) (observe st' f r').
Proof.
  intros A RA st st' f [[a|e] h] [[a'|e'] h'] (_ & E) H F; cbn in H; try contradiction; destruct H as (H & R); unfold observe; split; cbn [fst snd]; auto.
  - now split.
  - now split.
  - now subst.
Qed.
Lemma args_same : forall env env' is, erel env env' -> (forall i, In i is -> ok_use i) ->
  match get_args env is, get_args env' (map fi is) with Some l, Some l' => Forall2 vrel l l' | None, None => True | _, _ => False end.
Proof.
  intros env env' is E. induction is as [|i is IH]; intros H; cbn [get_args map]; [constructor|].
  assert (G := e_get _ _ E i (H i (or_introl eq_refl))). specialize (IH (fun j Hj => H j (or_intror Hj))).
  destruct (nth_error env i), (nth_error env' (fi i)); try contradiction; [|exact I].
  destruct (get_args env is), (get_args env' (map fi is)); try contradiction; [now constructor|exact I].
Qed.
Lemma kwargs_same : forall env env' ks, erel env env' -> (forall i, In i (map snd ks) -> ok_use i) ->
  match get_kwargs env ks, get_kwargs env' (map (fun q => (fst q, fi (snd q))) ks) with Some l, Some l' => Forall2 krel l l' | None, None => True | _, _ => False end.
Proof.
  intros env env' ks E. induction ks as [|[k i] ks IH]; intros H; cbn [get_kwargs map fst snd]; [constructor|].
  assert (G := e_get _ _ E i (H i (or_introl eq_refl))). specialize (IH (fun j Hj => H j (or_intror Hj))).
  destruct (nth_error env i), (nth_error env' (fi i)); try contradiction; [|exact I].
  destruct (get_kwargs env ks), (get_kwargs env' (map (fun q => (fst q, fi (snd q))) ks)); try contradiction; [constructor; [now split|exact IH]|exact I].
Qed.
Lemma val_same : forall st st' i k k', srel st st' -> ok_use i -> (forall a a', vrel a a' -> same_step (k a) (k' a')) ->
  same_step (with_val st i k) (with_val st' (fi i) k').
Proof.
  intros st st' i k k' R U K. unfold with_val. assert (G := e_get _ _ (proj2 R) i U). destruct (nth_error (st_env st) i), (nth_error (st_env st') (fi i)); try contradiction; auto.
  split; [|reflexivity]. exact R.
Qed.
Lemma uf_same : forall st st' i k k', srel st st' -> ok_use i -> (forall u u', ufrel u u' -> same_step (k u) (k' u')) ->
  same_step (with_uf st i k) (with_uf st' (fi i) k').
Proof.
  intros st st' i k k' R U K. unfold with_uf. apply val_same; auto. intros [p|u] [p'|u'] H; cbn in H; try contradiction; auto. now split.
Qed.
Lemma step_same : forall k st st' ins, srel st st' -> (forall i, In i (operands ins) -> ok_use i) -> same_step (step k st ins) (step k st' (rename fi ins)).
Proof.
  intros k st st' ins S U. assert (R := proj1 S). assert (E := proj2 S).
  destruct ins as [x s t|p|op i j|f pos kwd args kw|i|i e|i|i|i|i|i s|c i j|i|i p]; cbn [step rename operands] in *; cbv zeta.
  - assert (X := new_sim x s t _ _ R). apply push_same; [exact S|]. destruct (new_var x s t (st_heap st)) as [[u|e] h], (new_var x s t (st_heap st')) as [[u'|e'] h']; try contradiction; exact X.
  - apply push_same; [exact S|]. now split.
  - assert (G1 := e_get _ _ E i (U i (or_introl eq_refl))). assert (G2 := e_get _ _ E j (U j (or_intror (or_introl eq_refl)))). cbn [get_args].
    destruct (nth_error (st_env st) i) as [a|], (nth_error (st_env st') (fi i)) as [a'|]; try contradiction; [|apply push_same; [exact S|now split]].
    destruct (nth_error (st_env st) j) as [b|], (nth_error (st_env st') (fi j)) as [b'|]; try contradiction; [|apply push_same; [exact S|now split]].
    apply push_same; [exact S|]. apply binop_sim; auto.
  - assert (A := args_same _ _ args E (fun i Hi => U i (in_or_app _ _ _ (or_introl Hi)))). assert (K := kwargs_same _ _ kw E (fun i Hi => U i (in_or_app _ _ _ (or_intror Hi)))).
    destruct (get_args (st_env st) args), (get_args (st_env st') (map fi args)); try contradiction; [|apply push_same; [exact S|now split]].
    destruct (get_kwargs (st_env st) kw), (get_kwargs (st_env st') (map (fun q => (fst q, fi (snd q))) kw)); try contradiction; apply push_same; try exact S; [|now split].
    apply wcall_sim; auto.
  - assert (G := e_get _ _ E i (U i (or_introl eq_refl))). destruct (nth_error (st_env st) i) as [a|], (nth_error (st_env st') (fi i)) as [a'|]; try contradiction; apply push_same; try exact S; [|now split].
    assert (X := modf_sim a a' _ _ R G). destruct (umath_modf a (st_heap st)) as [[[fr ip]|e] h], (umath_modf a' (st_heap st')) as [[[fr' ip']|e'] h']; try contradiction; cbn in X |- *; tauto.
  - assert (G := e_get _ _ E i (U i (or_introl eq_refl))). destruct (nth_error (st_env st) i) as [a|], (nth_error (st_env st') (fi i)) as [a'|]; try contradiction; apply push_same; try exact S; [|now split].
    apply ldexp_sim; auto.
  - apply uf_same; [exact S|apply U; now left|]. intros u u' H. eapply observe_same; [exact S|exact (deriv_sim k u u' _ _ R H)|]. now intros d d' (-> & _).
  - apply uf_same; [exact S|apply U; now left|]. intros u u' H. eapply observe_same; [exact S|exact (std_sim k u u' _ _ R H)|]. now intros d d' <-.
  - apply uf_same; [exact S|apply U; now left|]. intros u u' H. eapply observe_same; [exact S|exact (stds_sim k u u' _ _ R H)|]. now intros d d' <-.
  - apply uf_same; [exact S|apply U; now left|]. intros u u' H. eapply observe_same; [exact S|exact (errs_sim k u u' _ _ R H)|]. now intros d d' ->.
  - apply uf_same; [exact S|apply U; now left|]. intros u u' H. destruct H as (-> & _ & H). cbn [uf_var]. destruct (uf_var u) as [v|]; cbn [option_map]; [|now split].
    eapply observe_same; [exact S|exact (set_sim v s _ _ R (H v eq_refl))|reflexivity].
  - apply uf_same; [exact S|apply U; now left|]. intros u u' H. apply val_same; [exact S|apply U; right; now left|]. intros b b' B. eapply observe_same; [exact S|exact (pycmp_sim k c u u' b b' _ _ R H B)|]. now intros d d' <-.
  - apply uf_same; [exact S|apply U; now left|]. intros u u' H. eapply observe_same; [exact S|exact (bool_sim k u u' _ _ R H)|]. now intros d d' <-.
  - apply uf_same; [exact S|apply U; now left|]. intros u u' H. eapply observe_same; [exact S|exact (score_sim k u u' p _ _ R H)|]. now intros d d' <-.
Qed.
Lemma run_same : forall k prog st st', srel st st' -> (forall ins i, In ins prog -> In i (operands ins) -> ok_use i) ->
  srel (fst (run k st prog)) (fst (run k st' (map (rename fi) prog))) /\ snd (run k st' (map (rename fi) prog)) = map (out_as fv) (snd (run k st prog)).
Proof.
  intros k. induction prog as [|ins prog IH]; intros st st' S U; cbn [run map]; [now split|].
  assert (X := step_same k st st' ins S (fun i => U ins i (or_introl eq_refl))). destruct (step k st ins) as [s1 o], (step k st' (rename fi ins)) as [s1' o']. destruct X as (X & Y). cbn [fst snd] in X, Y.
  specialize (IH s1 s1' X (fun i' j Hi => U i' j (or_intror Hi))). destruct (run k s1 prog) as [s2 os], (run k s1' (map (rename fi) prog)) as [s2' os']. cbn [fst snd map] in *.
  split; [tauto|]. f_equal; [exact Y|tauto].
Qed.
End Later.

Section Top.
Context {N : NumOps}.
Lemma ev_lcs : forall h h' : heap N, ev (fun _ => False) h h' -> (length (h_lc h) <= length (h_lc h'))%nat.
Proof.
  intros h h' E. induction E as [h|h xs objs H|h l0 its fuel r h' G X F|h1 h2 h3 E1 I1 E2 I2]; auto; [cbn [h_lc]; rewrite app_length; lia| |lia].
  destruct (loop_others _ _ _ _ _ _ X) as (-> & _). lia.
Qed.
Lemma settled_dict : forall (st : state N) i u d, reachable st -> is_number st i u -> does st (IDeriv i) st (ODict d) -> get_lc (st_heap st) (uf_lp u) = LDict d.
Proof. intros st i u d R U D. exact (proj2 (proj2 (read_dict _ _ _ _ _ R U D))). Qed.
(** A program that is run later gives the same results. *)
Theorem later_same : forall (st st' : state N) prog k st1 os, reachable st -> afterwards st st' -> uses_settled st st' prog -> run k st prog = (st1, os) ->
  let m := length (st_env st) in let m' := length (st_env st') in
  exists rho st1', (forall v, existing st v -> rho v = v) /\ (forall v w, rho v = rho w -> v = w) /\
    run k st' (map (rename (shifted m m')) prog) = (st1', map (out_as rho) os) /\
    forall j, option_map (@nominal_value N) (nth_error (st_env st1') (m' + j)) = option_map (@nominal_value N) (nth_error (st_env st1) (m + j)).
Proof.
  intros st st' prog k st1 os R A U Run m m'. destruct (afterwards_sev _ _ A) as (E & new & En). assert (L1 := ev_lcs _ _ E). assert (L2 := ev_vars _ _ E).
  set (n := length (h_lc (st_heap st))) in *. set (n' := length (h_lc (st_heap st'))) in *. set (nv := length (h_var (st_heap st))) in *. set (nv' := length (h_var (st_heap st'))) in *.
  assert (Lm : (m <= m')%nat) by (unfold m, m'; rewrite En, app_length; lia).
  set (Us := fun i => (i < m)%nat /\ settled st i /\ same_deviations st st' i).
  set (S0 := fun l => exists i u, Us i /\ is_number st i u /\ l = uf_lp u).
  set (V0 := fun v => exists o, get_var (st_heap st) v = Some o /\ sd st' v = sd st v).
  assert (D0 : forall l, S0 l -> exists d, get_lc (st_heap st) l = LDict d /\ (l < n)%nat /\ forall v, In v (dkeys d) -> V0 v).
  { intros l (i & u & (_ & [(p & Hp)|(u0 & d & U0 & D & Rd)] & Sd) & Hu & ->); [unfold is_number in Hu; congruence|].
    assert (u0 = u) by (unfold is_number in *; congruence). subst u0. exists d. split; [exact (settled_dict _ _ _ _ R Hu D)|]. split; [exact (reachable_bound st i u R Hu)|].
    destruct Rd as (Rd & Ex & _). intros v Hv. rewrite Forall_forall in Ex. specialize (Ex v Hv). unfold existing in Ex. destruct (get_var (st_heap st) v) as [o|] eqn:G; [|contradiction].
    exists o. split; [exact G|]. exact (Sd u d v Hu Rd (or_introl Hv)). }
  assert (Rel : srel n n' nv nv' S0 V0 m m' Us st st').
  { split.
    - constructor.
      + exists 0%nat. unfold n, n'. lia.
      + exists 0%nat. unfold nv, nv'. lia.
      + intros l Hl. destruct (le_lt_dec n l) as [Hb|Hb].
        * pose proof (shifted_lt n n' 0 l L1) as X. unfold get_lc. rewrite !nth_overflow by (fold n n'; lia). reflexivity.
        * destruct (D0 l (Hl Hb)) as (d & G & _ & Kd). rewrite G, (shifted_old n n' l Hb). destruct (ev_dict _ _ E l d Hb G) as (_ & ->). cbn [copy_lc]. f_equal. symmetry. etransitivity; [|apply keys_same].
          apply map_ext_in. intros [v x] Hv. cbn [fst snd]. f_equal. apply shifted_old. destruct (Kd v (in_map fst _ _ Hv)) as (o & Go & _). unfold nv. apply nth_error_Some. unfold get_var in Go. congruence.
      + intros l Hl. destruct (le_lt_dec n l) as [Hb|Hb].
        * unfold get_lc. rewrite nth_overflow by (fold n; lia). intros v [].
        * destruct (D0 l (Hl Hb)) as (d & G & _ & Kd). rewrite G. intros v Hv _. exact (Kd v Hv).
      + intros v Hv. destruct (le_lt_dec nv v) as [Hb|Hb].
        * pose proof (shifted_lt nv nv' 0 v L2) as X. unfold get_var. rewrite (proj2 (nth_error_None _ v)) by (fold nv; lia). rewrite (proj2 (nth_error_None _ _)) by (fold nv'; lia). exact I.
        * destruct (Hv Hb) as (o & G & Sd). rewrite (shifted_old nv nv' v Hb), G. unfold sd in Sd. rewrite G in Sd. assert (B : (v < nv')%nat) by lia. apply nth_error_Some in B. unfold get_var in *. cbn.
          destruct (nth_error (h_var (st_heap st')) v) as [o'|]; [exact Sd|contradiction].
    - constructor.
      + exists 0%nat. unfold m, m'. lia.
      + intros i Hi. destruct (le_lt_dec m i) as [Hb|Hb].
        * pose proof (shifted_lt m m' 0 i Lm) as X. rewrite (proj2 (nth_error_None _ i)) by (fold m; lia). rewrite (proj2 (nth_error_None _ _)) by (fold m'; lia). exact I.
        * rewrite (shifted_old m m' i Hb), En. assert (B : (i < length (st_env st))%nat) by exact Hb. rewrite nth_error_app1 by exact B. destruct (nth_error (st_env st) i) as [[p|u]|] eqn:G; cbn; auto.
          assert (HS : S0 (uf_lp u)) by (exists i, u; auto). destruct (D0 _ HS) as (d & _ & Bl & _).
          destruct (Hi Hb) as (_ & [(p & Hp)|(u0 & d0 & U0 & D & Rd)] & Sd); [congruence|]. assert (u0 = u) by (unfold is_number in U0; congruence). subst u0. destruct Rd as (Rd & _ & Ev).
          assert (Vu : forall v, uf_var u = Some v -> V0 v).
          { intros v Hv. specialize (Ev u v G Hv). unfold existing in Ev. destruct (get_var (st_heap st) v) as [o|] eqn:Go; [|contradiction]. exists o. split; [exact Go|]. exact (Sd u d0 v G Rd (or_intror Hv)). }
          split; [|split; [now intros _|intros v Hv _; exact (Vu v Hv)]]. rewrite (shifted_old n n' _ Bl). destruct u as [x l [v|]]; cbn [uf_nom uf_lp uf_var option_map] in *; [|reflexivity].
          destruct (Vu v eq_refl) as (o & Go & _). rewrite shifted_old; [reflexivity|]. unfold nv. apply nth_error_Some. unfold get_var in Go. congruence. }
  assert (X := run_same n n' nv nv' S0 V0 L1 L2 m m' Us Lm k prog st st' Rel). rewrite Run in X. cbn [fst snd] in X.
  destruct X as ((_ & X) & Y). { intros ins i H1 H2 H3. split; [exact H3|]. exact (U ins i H1 H2 H3). }
  exists (shifted nv nv'). destruct (run k st' (map (rename (shifted m m')) prog)) as [st1' os']. cbn [fst snd] in *. exists st1'. split.
  { intros v Hv. apply shifted_old. unfold nv. now apply nth_error_Some. }
  split; [exact (shifted_inj _ _ L2)|]. split; [now rewrite Y|].
  intros j. assert (G := e_get _ _ _ _ _ _ _ _ _ _ _ X (m + j)%nat). rewrite shifted_new in G. specialize (G ltac:(intros F; lia)).
  destruct (nth_error (st_env st1) (m + j)) as [a|], (nth_error (st_env st1') (m' + j)) as [a'|]; try contradiction; [|reflexivity]. cbn. now rewrite (proj1 (nominal_rel _ _ _ _ _ _ _ _ G)).
Qed.
End Top.
