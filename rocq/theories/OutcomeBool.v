(** What can come out of comparisons with plain numbers and truth values in binary64. *)
From Coq Require Import ZArith List Bool Arith Lia.
From Flocq Require Import Core IEEE754.BinarySingleNaN.
From Verif Require Import Base NumF Heap HeapProofs Affine Ops UMath Machine Cov Copy Calls Unumpy UMatrix History CallProofs Fuel Ordered TermSpec Term TermF DepSpec Deps TwinSpec Twin OutcomeSpec Outcome.
Import ListNotations.

Section B.
Variables (lm : Libm) (SQ : squares_not_negative lm).
Notation FN := (FOps lm).
Definition three {A} (r : res A * heap FN) : Prop := (exists h', r = (Err EFuel, h')) \/ (exists h', r = (Err EOverflow, h')) \/ exists a h', r = (Ok a, h').

Lemma affine_heap : forall (h : heap FN) Lm u a k, okh h -> Inv Lm h -> nth_error Lm (uf_lp u) = Some (Some a) -> three (std_dev_affine k u h).
Proof.
  intros h Lm u a k O I Hl. unfold three, std_dev_affine, error_components, bind. destruct (derivatives k u h) as [[d|e] h'] eqn:D.
  - assert (V : h_var h' = h_var h) by (eapply read_objs; exact D). destruct (read_keys _ _ _ _ _ _ _ I Hl D) as (_ & _ & Kd).
    destruct (nn_components lm h' d) as (c & -> & C).
    { intros v Hv. apply var_exists. rewrite V. apply (proj1 (proj2 I _ _ Hl)). now apply Kd. }
    destruct (nn_sum lm SQ (map snd c) (PZ 0)) as [->|(q & -> & Q)]; [|reflexivity|right; left; cbn; eauto|].
    + apply List.Forall_forall. intros p Hp. apply in_map_iff in Hp as (vc & <- & Hv). rewrite List.Forall_forall in C. now apply C.
    + cbn [rbind]. destruct (nn_root lm q Q) as (s & -> & S). right; right. exists s, h'. auto.
  - destruct (ov_deriv lm _ _ _ _ _ O D) as [->| ->]; [right; left|left]; eauto.
Qed.
Lemma eq_heap : forall (h : heap FN) Lm x y a b k, okh h -> Inv Lm h -> nth_error Lm (uf_lp x) = Some (Some a) -> nth_error Lm (uf_lp y) = Some (Some b) -> three (eq_aff k x y h).
Proof.
  intros h Lm x y a b k O I Hx Hy.
  assert (Bx : (uf_lp x < length (h_lc h))%nat) by (rewrite <- (proj1 I); apply nth_error_Some; congruence).
  assert (By : (uf_lp y < length (h_lc h))%nat) by (rewrite <- (proj1 I); apply nth_error_Some; congruence).
  assert (D : exists c1 c2 n, method_op Bsub x (VUF y) h = (Ok (VUF (mkUF n (length (h_lc h)) None)), mkHeap (h_lc h ++ [LList [IPair c1 (uf_lp y); IPair c2 (uf_lp x)]]) (h_var h)))
    by (eexists; eexists; eexists; reflexivity).
  destruct D as (c1 & c2 & n & D). unfold eq_aff, bind. rewrite D. cbn [uf_nom]. destruct (n_truth FN n); [right; right; unfold ret; eauto|].
  set (h' := mkHeap (h_lc h ++ [LList [IPair c1 (uf_lp y); IPair c2 (uf_lp x)]]) (h_var h)).
  assert (O' : okh h') by (apply okh_alloc; [exact O|]; intros it [<-|[<-|[]]]; assumption).
  assert (I' : Inv (Lm ++ [Some (b ++ a)]) h').
  { apply Inv_more; [exact I|reflexivity|apply le_n|]. intros [|[|j]] g Hg; cbn in Hg; try discriminate. injection Hg as <-. split.
    - intros v Hv. apply in_app_iff in Hv as [Hv|Hv]; [exact (proj1 (proj2 I _ _ Hy) v Hv)|exact (proj1 (proj2 I _ _ Hx) v Hv)].
    - cbn [nth okl]. exists [b; a]. split; [|intros v; cbn [concat]; rewrite app_nil_r; tauto].
      constructor; [|constructor; [|constructor]]; (split; [lia|now apply nth_app_l]). }
  assert (Z : nth_error (Lm ++ [Some (b ++ a)]) (uf_lp (mkUF n (length (h_lc h)) None : uf FN)) = Some (Some (b ++ a))) by (cbn [uf_lp]; rewrite <- (proj1 I), nth_error_app2, Nat.sub_diag by lia; reflexivity).
  unfold std_dev. cbn [uf_var]. destruct (affine_heap h' _ _ _ k O' I' Z) as [(h2 & ->)|[(h2 & ->)|(s & h2 & ->)]]; [left; eauto|right; left; eauto|right; right; unfold ret; eauto].
Qed.
Lemma cmp_heap : forall c (h : heap FN) Lm x y a b k, okh h -> Inv Lm h -> nth_error Lm (uf_lp x) = Some (Some a) -> nth_error Lm (uf_lp y) = Some (Some b) -> three (cmp_aff k c x y h).
Proof.
  intros c h Lm x y a b k O I Hx Hy. assert (E := eq_heap h Lm x y a b k O I Hx Hy). destruct c; cbn [cmp_aff]; try exact E; try (right; right; unfold ret; eauto; fail).
  - unfold ne_aff, bind. destruct E as [(h2 & ->)|[(h2 & ->)|(s & h2 & ->)]]; [left; eauto|right; left; eauto|right; right; unfold ret; eauto].
  - unfold ge_aff. destruct (gt_aff x y); [right; right; unfold ret; eauto|exact E].
  - unfold le_aff. destruct (lt_aff x y); [right; right; unfold ret; eauto|exact E].
Qed.
Definition plain_cmp (r : res (option bool) * heap FN) : Prop := (exists h', r = (Err EFuel, h')) \/ (exists h', r = (Err EOverflow, h')) \/ exists b h', r = (Ok (Some b), h').
Lemma method_heap : forall c (h : heap FN) Lm x p a k, okh h -> Inv Lm h -> nth_error Lm (uf_lp x) = Some (Some a) -> plain_cmp (method_cmp k c x (VNum p) h).
Proof.
  intros c h Lm x p a k O I Hx. unfold plain_cmp, method_cmp, to_affine_scalar. destruct (pn_float p) as [y|e] eqn:E.
  - cbn [alloc_lc]. set (h1 := mkHeap (h_lc h ++ [LDict []]) (h_var h)).
    assert (O1 : okh h1) by (apply okh_alloc; [exact O|exact Logic.I]).
    assert (I1 : Inv (Lm ++ [Some []]) h1).
    { apply Inv_more; [exact I|reflexivity|apply le_n|]. intros [|[|j]] g Hg; cbn in Hg; try discriminate. injection Hg as <-. split; [intros v []|]. split; [constructor|]. intros v. split; intros []. }
    assert (Z : nth_error (Lm ++ [Some []]) (uf_lp (mkUF y (length (h_lc h)) None : uf FN)) = Some (Some [])) by (cbn [uf_lp]; rewrite <- (proj1 I), nth_error_app2, Nat.sub_diag by lia; reflexivity).
    destruct (cmp_heap c h1 _ x _ a [] k O1 I1 (nth_app_l _ _ _ _ _ Hx) Z) as [(h2 & Q)|[(h2 & Q)|(s & h2 & Q)]]; rewrite Q; eauto 6.
  - assert (X := ov_float lm p e E). subst e. right; left. eauto.
Qed.
Variables (st : state FN) (L : list (option (list varid))) (i : nat) (vs : list varid) (x : uf FN).
Hypotheses (R : reachable st) (H : history st L) (Li : nth_error L i = Some (Some vs)) (X : is_number st i x).
Lemma truth_outcome : forall o, reads st (IBool i) o -> o = OExn EOverflow \/ exists b, o = OBool b.
Proof.
  intros o Q. assert (C := not_cut lm st (IBool i) o R eq_refl Q). destruct Q as (st' & k & Q). specialize (Q k (le_n _)).
  cbn [step] in Q. unfold with_uf, with_val in Q. unfold is_number in X. rewrite X in Q. unfold observe, py_bool, bind in Q.
  destruct (history_tracks _ _ H) as (Lm & T). destruct (known_number _ _ _ _ _ _ T Li X) as (Hl & _).
  destruct (method_heap Cne (st_heap st) Lm x (PF (n_zero FN)) vs k (heap_ok lm st R) (proj1 T) Hl) as [(h' & E)|[(h' & E)|(b & h' & E)]]; rewrite E in Q; cbn in Q; injection Q as _ <-; [congruence|now left|right; eauto].
Qed.
Lemma plain_outcome : forall c j p o, nth_error (st_env st) j = Some (VNum p) -> reads st (ICmp c i j) o -> o = OExn EOverflow \/ exists b, o = OBool b.
Proof.
  intros c j p o J Q. assert (C := not_cut lm st (ICmp c i j) o R eq_refl Q). destruct Q as (st' & k & Q). specialize (Q k (le_n _)).
  cbn [step] in Q. unfold with_uf, with_val in Q. unfold is_number in X. rewrite X, J in Q. unfold observe, py_cmp, bind in Q.
  destruct (history_tracks _ _ H) as (Lm & T). destruct (known_number _ _ _ _ _ _ T Li X) as (Hl & _).
  destruct (method_heap c (st_heap st) Lm x p vs k (heap_ok lm st R) (proj1 T) Hl) as [(h' & E)|[(h' & E)|(b & h' & E)]]; rewrite E in Q; cbn in Q; injection Q as _ <-; [congruence|now left|right; eauto].
Qed.
End B.
Theorem truth_or_overflow : forall lm, squares_not_negative lm -> forall (st : state (FOps lm)) L i vs x, reachable st -> history st L -> nth_error L i = Some (Some vs) -> is_number st i x ->
  (exists o, reads st (IBool i) o /\ (o = OExn EOverflow \/ exists b, o = OBool b)) /\
  (forall c j p, nth_error (st_env st) j = Some (VNum p) -> exists o, reads st (ICmp c i j) o /\ (o = OExn EOverflow \/ exists b, o = OBool b)).
Proof.
  intros lm SQ st L i vs x R H I X. split.
  - destruct (reads_end (binary64_ends lm) st (IBool i) R eq_refl) as (st' & o & D & _). exists o.
    assert (Q : reads st (IBool i) o) by (exists st'; exact D). split; [exact Q|]. eapply truth_outcome; eauto.
  - intros c j p J. destruct (reads_end (binary64_ends lm) st (ICmp c i j) R eq_refl) as (st' & o & D & _). exists o.
    assert (Q : reads st (ICmp c i j) o) by (exists st'; exact D). split; [exact Q|]. eapply plain_outcome; eauto.
Qed.
