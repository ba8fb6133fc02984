(** The parsing of format specifications. *)
From Coq Require Import String.
From Coq Require Import ZArith List Bool Lia.
From Verif Require Import Base Str FmtOps Format FmtSpec StrProofs.
Import ListNotations.
Local Open Scope Z_scope.

Section Steps.
Notation cont := (str -> caps -> option caps).
Definition opt_step (p : Z -> bool) (n : nat) (g : cont) : cont := fun s c =>
  match s with
  | x :: s' => if p x then g s' ((n, [x]) :: c) else g s ((n, []) :: c)
  | [] => g s ((n, []) :: c)
  end.
Definition star_step (p : Z -> bool) (n : nat) (g : cont) : cont := fun s c =>
  g (skip p s) ((n, consumed s (skip p s)) :: c).
Definition fails_on (g : cont) (P : Z -> bool) : Prop := forall x s c, P x = true -> g (x :: s) c = None.
Definition okc (g : cont) : Prop := forall s c c', g s c = None -> g s c' = None.
Definition k_end : cont := fun s c => match s with [] | [10] => Some c | _ => None end.

Lemma k_end_cons : forall x s c, k_end (x :: s) c = if (x =? 10) && isnil s then Some c else None.
Proof.
  intros. destruct (Z.eqb_spec x 10) as [->|N]; simpl.
  - destruct s; reflexivity.
  - repeat (match goal with |- context [match ?p with _ => _ end] => is_var p; destruct p; simpl end);
      try reflexivity; exfalso; apply N; reflexivity.
Qed.
Lemma bt_end_k : forall s c, bt REnd s c (fun _ c => Some c) = k_end s c.
Proof. intros. rewrite bt_end. reflexivity. Qed.

Lemma consumed_cons : forall x s, consumed (x :: s) s = [x].
Proof. intros. apply (consumed_app [x] s). Qed.
Lemma consumed_nil : forall s, consumed s s = [].
Proof. intros. apply (consumed_app [] s). Qed.

Lemma opt_bt : forall p n r k g, (forall s c, bt r s c k = g s c) -> fails_on g p ->
  forall s c, bt (RSeq (RGroup n (ROpt (RSet p))) r) s c k = opt_step p n g s c.
Proof.
  intros p n r k g E F s c. rewrite bt_seq, bt_group, bt_opt, bt_set. unfold opt_step.
  destruct s as [|x s]; [rewrite consumed_nil; apply E|].
  destruct (p x) eqn:Ex.
  - rewrite !E, consumed_cons. destruct (g s _) eqn:G; [reflexivity|]. apply F; assumption.
  - rewrite E, consumed_nil. reflexivity.
Qed.
Lemma lazy_bt : forall p n r k g, (forall s c, bt r s c k = g s c) -> fails_on g p ->
  forall s c, bt (RSeq (RGroup n (RLazy (RSet p))) r) s c k = opt_step p n g s c.
Proof.
  intros p n r k g E F s c. rewrite bt_seq, bt_group, bt_lazy, bt_set. unfold opt_step.
  destruct s as [|x s]; [rewrite consumed_nil, E; destruct (g [] _); reflexivity|].
  destruct (p x) eqn:Ex.
  - rewrite !E, consumed_cons. rewrite F by assumption. reflexivity.
  - rewrite E, consumed_nil. destruct (g _ _); reflexivity.
Qed.
Lemma star_bt : forall p n r k g, (forall s c, bt r s c k = g s c) -> fails_on g p ->
  forall s c, bt (RSeq (RGroup n (RStar p)) r) s c k = star_step p n g s c.
Proof.
  intros p n r k g E F s c. rewrite bt_seq, bt_group, bt_star.
  - unfold star_step. apply E.
  - intros. rewrite E. apply F. assumption.
Qed.

Definition disj (p q : Z -> bool) : Prop := forall x, p x = true -> q x = false.
Lemma fails_opt : forall p n g P, fails_on g P -> disj P p -> fails_on (opt_step p n g) P.
Proof. intros p n g P F D x s c H. unfold opt_step. rewrite (D x H). apply F, H. Qed.
Lemma fails_star : forall p n g P, fails_on g P -> disj P p -> fails_on (star_step p n g) P.
Proof. intros p n g P F D x s c H. unfold star_step. simpl. rewrite (D x H). apply F, H. Qed.
Lemma fails_end : forall P, P 10 = false -> fails_on k_end P.
Proof.
  intros P H x s c Hx. rewrite k_end_cons. destruct (Z.eqb_spec x 10); [congruence|reflexivity].
Qed.
Lemma okc_opt : forall p n g, okc g -> okc (opt_step p n g).
Proof.
  intros p n g O s c c'. unfold opt_step. destruct s as [|x s]; [apply O|].
  destruct (p x); apply O.
Qed.
Lemma okc_star : forall p n g, okc g -> okc (star_step p n g).
Proof. intros p n g O s c c'. unfold star_step. apply O. Qed.
Lemma okc_end : okc k_end.
Proof.
  intros s c c'. destruct s as [|x s]; [discriminate|]. rewrite !k_end_cons.
  destruct ((x =? 10) && isnil s); [discriminate|reflexivity].
Qed.

Lemma opt_inv : forall p n g s c r, opt_step p n g s c = Some r ->
  exists u s', s = u ++ s' /\ (u = [] \/ exists x, p x = true /\ u = [x]) /\ g s' ((n, u) :: c) = Some r /\
    (u = [] -> match s' with x :: _ => p x = false | [] => True end).
Proof.
  intros p n g s c r H. unfold opt_step in H. destruct s as [|x s].
  - exists [], []. auto.
  - destruct (p x) eqn:E.
    + exists [x], s. split; [reflexivity|]. split; [right; exists x; auto|]. split; [exact H|]. discriminate.
    + exists [], (x :: s). auto.
Qed.
Lemma star_inv : forall p n g s c r, star_step p n g s c = Some r ->
  exists u s', s = u ++ s' /\ Forall (fun x => p x = true) u /\ g s' ((n, u) :: c) = Some r.
Proof.
  intros p n g s c r H. unfold star_step in H. destruct (skip_app p s) as (u & E & F).
  exists u, (skip p s). split; [exact E|]. split; [exact F|].
  rewrite E in H at 2. rewrite consumed_app in H. exact H.
Qed.

Definition hd_not (p : Z -> bool) (s : str) : Prop := match s with x :: _ => p x = false | [] => True end.
Lemma hd_not_app : forall p u s, Forall (fun x => p x = false) u -> hd_not p s -> hd_not p (u ++ s).
Proof. intros p u s F H. destruct u; simpl; [exact H|]. inversion F; assumption. Qed.
Lemma opt_run : forall p n g u s c, (u = [] \/ exists x, p x = true /\ u = [x]) ->
  (u = [] -> hd_not p s) ->
  opt_step p n g (u ++ s) c = g s ((n, u) :: c).
Proof.
  intros p n g u s c [->|(x & E & ->)] H; unfold opt_step; simpl.
  - specialize (H eq_refl). destruct s; [reflexivity|]. simpl in H. rewrite H. reflexivity.
  - rewrite E. reflexivity.
Qed.
Lemma star_run : forall p n g u s c, Forall (fun x => p x = true) u -> hd_not p s ->
  star_step p n g (u ++ s) c = g s ((n, u) :: c).
Proof.
  intros p n g u s c F H. unfold star_step. rewrite skip_run by assumption.
  rewrite consumed_app. reflexivity.
Qed.
End Steps.

Section Spec.
Variable U : Unicode.
Hypothesis L : UniLaws U.
Notation dig := (is_digit U).

(** Characters that are not digits. *)
Lemma oneof_in : forall l x, oneof l x = true <-> In x (lit l).
Proof.
  intros. unfold oneof. rewrite existsb_exists. split.
  - intros (y & I & E). apply Z.eqb_eq in E. congruence.
  - intros I. exists x. split; [assumption|apply Z.eqb_refl].
Qed.
Lemma ch_in : forall a x, ch a x = true <-> x = a.
Proof. intros. unfold ch. rewrite Z.eqb_eq. split; congruence. Qed.
Lemma is_digit_some : forall x, dig x = true <-> u_dig U x <> None.
Proof. intros. unfold is_digit. destruct (u_dig U x); split; congruence. Qed.
Lemma ascii_nodig : forall x, 0 <= x < 128 -> ~ (48 <= x <= 57) -> dig x = false.
Proof. intros. unfold is_digit. rewrite (ul_ascii U L) by assumption. reflexivity. Qed.
Lemma ascii_dig : forall x, 48 <= x <= 57 -> dig x = true.
Proof. intros. unfold is_digit. rewrite (ul_digit U L) by assumption. reflexivity. Qed.

Definition class (p : Z -> bool) (l : list Z) : Prop := forall x, p x = true -> In x l.
Lemma class_oneof : forall l, class (oneof l) (lit l).
Proof. intros l x H. apply oneof_in. exact H. Qed.
Lemma class_ch : forall a, class (ch a) [a].
Proof. intros a x H. apply ch_in in H. left; congruence. Qed.
Lemma class_disj : forall p l q, class p l -> forallb (fun x => negb (q x)) l = true -> disj p q.
Proof.
  intros p l q C F x H. rewrite forallb_forall in F. specialize (F x (C x H)).
  destruct (q x); [discriminate|reflexivity].
Qed.
Lemma class_disj_dig : forall p l, class p l ->
  forallb (fun x => (0 <=? x) && (x <? 128) && negb ((48 <=? x) && (x <=? 57))) l = true -> disj p dig.
Proof.
  intros p l C F x H. rewrite forallb_forall in F. specialize (F x (C x H)).
  apply ascii_nodig; lia.
Qed.
Lemma disj_sym : forall p q, disj p q -> disj q p.
Proof. intros p q D x H. destruct (p x) eqn:E; [rewrite (D x E) in H; discriminate|reflexivity]. Qed.

Local Ltac cls := first [apply class_oneof | apply class_ch].
Local Ltac dj := first
  [ eapply class_disj; [cls|reflexivity]
  | eapply class_disj_dig; [cls|reflexivity]
  | apply disj_sym; eapply class_disj_dig; [cls|reflexivity] ].

(** The deterministic parser. *)
Definition g10 := star_step (oneof "PSLp") 10 k_end.
Definition g9 := opt_step (oneof "eEfFgG%") 9 g10.
Definition g8 := opt_step (ch 117) 8 g9.
Definition g7 : str -> caps -> option caps := fun s c =>
  match s with
  | x :: s' => if ch 46 x then
                 match s' with
                 | y :: _ => if dig y then star_step dig 7 g8 s' c else None
                 | [] => None
                 end
               else g8 s c
  | [] => g8 s c
  end.
Definition g6 := opt_step (ch 44) 6 g7.
Definition g5 := star_step dig 5 g6.
Definition g4 := opt_step (ch 48) 4 g5.
Definition g3 := opt_step (oneof "-+ ") 3 g4.
Definition g2 := opt_step (oneof "<>=^") 2 g3.

Lemma dig10 : dig 10 = false. Proof. apply ascii_nodig; lia. Qed.
Lemma f_end : forall P, P 10 = false -> fails_on k_end P.
Proof. exact fails_end. Qed.
Lemma f10 : forall P, P 10 = false -> disj P (oneof "PSLp") -> fails_on g10 P.
Proof. intros. apply fails_star; [apply f_end|]; assumption. Qed.
Lemma f9 : forall P, P 10 = false -> disj P (oneof "PSLp") -> disj P (oneof "eEfFgG%") -> fails_on g9 P.
Proof. intros. apply fails_opt; [apply f10|]; assumption. Qed.
Lemma f8 : forall P, P 10 = false -> disj P (oneof "PSLp") -> disj P (oneof "eEfFgG%") -> disj P (ch 117) ->
  fails_on g8 P.
Proof. intros. apply fails_opt; [apply f9|]; assumption. Qed.
Lemma f7 : forall P, P 10 = false -> disj P (oneof "PSLp") -> disj P (oneof "eEfFgG%") -> disj P (ch 117) ->
  disj P (ch 46) -> fails_on g7 P.
Proof. intros P ? ? ? ? D x s c H. unfold g7. rewrite (D x H). apply f8 with (P := P); assumption. Qed.
Lemma f6 : forall P, P 10 = false -> disj P (oneof "PSLp") -> disj P (oneof "eEfFgG%") -> disj P (ch 117) ->
  disj P (ch 46) -> disj P (ch 44) -> fails_on g6 P.
Proof. intros. apply fails_opt; [apply f7|]; assumption. Qed.
Lemma f5 : forall P, P 10 = false -> disj P (oneof "PSLp") -> disj P (oneof "eEfFgG%") -> disj P (ch 117) ->
  disj P (ch 46) -> disj P (ch 44) -> disj P dig -> fails_on g5 P.
Proof. intros. apply fails_star; [apply f6|]; assumption. Qed.
Lemma f4 : forall P, P 10 = false -> disj P (oneof "PSLp") -> disj P (oneof "eEfFgG%") -> disj P (ch 117) ->
  disj P (ch 46) -> disj P (ch 44) -> disj P dig -> disj P (ch 48) -> fails_on g4 P.
Proof. intros. apply fails_opt; [apply f5|]; assumption. Qed.
Lemma f3 : forall P, P 10 = false -> disj P (oneof "PSLp") -> disj P (oneof "eEfFgG%") -> disj P (ch 117) ->
  disj P (ch 46) -> disj P (ch 44) -> disj P dig -> disj P (ch 48) -> disj P (oneof "-+ ") -> fails_on g3 P.
Proof. intros. apply fails_opt; [apply f4|]; assumption. Qed.

Lemma ok7 : okc g7.
Proof.
  intros s c c'. unfold g7. destruct s as [|x s].
  - apply okc_opt, okc_opt, okc_star, okc_end.
  - destruct (ch 46 x); [|apply okc_opt, okc_opt, okc_star, okc_end].
    destruct s as [|y s]; [auto|]. destruct (dig y); [|auto].
    apply okc_star, okc_opt, okc_opt, okc_star, okc_end.
Qed.

Definition spec_tail : re := rseq [
  RGroup 2 (ROpt (RSet (oneof "<>=^")));
  RGroup 3 (ROpt (RSet (oneof "-+ ")));
  RGroup 4 (ROpt (RSet (ch 48)));
  RGroup 5 (RStar dig);
  RGroup 6 (ROpt (RSet (ch 44)));
  ROpt (RSeq (RSet (ch 46)) (RGroup 7 (RSeq (RSet dig) (RStar dig))));
  RGroup 8 (ROpt (RSet (ch 117)));
  RGroup 9 (RLazy (RSet (oneof "eEfFgG%")));
  RGroup 10 (RStar (oneof "PSLp"));
  REnd ].
Lemma spec_re_eq : spec_re U = RSeq (RGroup 1 (RLazy (RSet not_brace))) spec_tail.
Proof. reflexivity. Qed.

Notation K := (fun (_ : str) (c : caps) => Some c).
Lemma tail_det : forall s c, bt spec_tail s c K = g2 s c.
Proof.
  unfold spec_tail. cbn [rseq].
  assert (E10 : forall s c, bt (RSeq (RGroup 10 (RStar (oneof "PSLp"))) REnd) s c K = g10 s c).
  { apply star_bt; [apply bt_end_k|]. apply f_end; reflexivity. }
  assert (E9 : forall s c, bt (RSeq (RGroup 9 (RLazy (RSet (oneof "eEfFgG%"))))
                 (RSeq (RGroup 10 (RStar (oneof "PSLp"))) REnd)) s c K = g9 s c).
  { apply lazy_bt; [exact E10|]. apply f10; [reflexivity|dj]. }
  assert (E8 := opt_bt (ch 117) 8 _ _ _ E9 ltac:(apply f9; first [reflexivity|dj])).
  fold g8 in E8. revert E8.
  match goal with |- (forall _ _, bt ?r _ _ _ = _) -> _ => set (r8 := r) end. intros E8.
  assert (F8 : fails_on g8 dig).
  { apply f8; [exact dig10|dj|dj|dj]. }
  assert (E7 : forall s c, bt (RSeq (ROpt (RSeq (RSet (ch 46)) (RGroup 7 (RSeq (RSet dig) (RStar dig))))) r8)
      s c K = g7 s c).
  { intros s c. rewrite bt_seq, bt_opt, bt_seq, bt_set. unfold g7.
    destruct s as [|x s]; [apply E8|]. destruct (ch 46 x) eqn:Ex; [|apply E8].
    rewrite bt_group, bt_seq, bt_set.
    assert (B : bt r8 (x :: s) c K = None).
    { rewrite E8. apply (f8 (ch 46)); first [reflexivity|dj|assumption]. }
    destruct s as [|y s]; [exact B|]. destruct (dig y) eqn:Ey; [|exact B].
    rewrite bt_star.
    - rewrite E8. unfold star_step.
      assert (S1 : skip dig (y :: s) = skip dig s) by (simpl; rewrite Ey; reflexivity).
      rewrite S1. destruct (g8 _ _); [reflexivity|]. exact B.
    - intros. rewrite E8. apply F8. assumption. }
  assert (E6 := opt_bt (ch 44) 6 _ _ _ E7 ltac:(apply f7; first [reflexivity|dj])).
  fold g6 in E6.
  assert (E5 := star_bt dig 5 _ _ _ E6 ltac:(apply f6; first [exact dig10|dj])).
  fold g5 in E5.
  assert (E4 : forall s c, bt (RSeq (RGroup 4 (ROpt (RSet (ch 48))))
      (RSeq (RGroup 5 (RStar dig)) (RSeq (RGroup 6 (ROpt (RSet (ch 44))))
      (RSeq (ROpt (RSeq (RSet (ch 46)) (RGroup 7 (RSeq (RSet dig) (RStar dig))))) r8)))) s c K = g4 s c).
  { intros s c. rewrite bt_seq, bt_group, bt_opt, bt_set. unfold g4, opt_step.
    destruct s as [|x s]; [rewrite consumed_nil; apply E5|].
    destruct (ch 48 x) eqn:Ex.
    - rewrite !E5, consumed_cons. destruct (g5 s _) eqn:G; [reflexivity|].
      unfold g5, star_step in G |- *. apply ch_in in Ex. subst x. cbn [skip].
      rewrite ascii_dig by lia. eapply (okc_opt _ 6 _ ok7). exact G.
    - rewrite E5, consumed_nil. reflexivity. }
  assert (E3 := opt_bt (oneof "-+ ") 3 _ _ _ E4 ltac:(apply f4; first [reflexivity|dj])).
  fold g3 in E3.
  exact (opt_bt (oneof "<>=^") 2 _ _ _ E3 ltac:(apply f3; first [reflexivity|dj])).
Qed.

Lemma spec_det : forall s, re_match (spec_re U) s =
  match g2 s [(1%nat, [])] with
  | Some c => Some c
  | None => match s with x :: s' => if not_brace x then g2 s' [(1%nat, [x])] else None | [] => None end
  end.
Proof.
  intros s. rewrite re_match_bt, spec_re_eq, bt_seq, bt_group, bt_lazy, bt_set.
  rewrite tail_det, consumed_nil. destruct (g2 s _); [reflexivity|].
  destruct s as [|x s]; [reflexivity|]. destruct (not_brace x); [|reflexivity].
  rewrite tail_det, consumed_cons. reflexivity.
Qed.

(** What a successful match says. *)
Lemma opt_cls : forall l u, (u = [] \/ exists x, oneof l x = true /\ u = [x]) <-> at_most_one l u.
Proof.
  intros. unfold at_most_one. split; (intros [H|(x & E & H)]; [left; exact H|right; exists x; split; [apply oneof_in; exact E|exact H]]).
Qed.
Lemma opt_ch : forall (a : Z) l u, lit l = [a] -> (u = [] \/ exists x, ch a x = true /\ u = [x]) <-> at_most_one l u.
Proof.
  intros a l u E. unfold at_most_one. rewrite E.
  split; (intros [H|(x & Ex & H)]; [left; exact H|right; exists x]).
  - apply ch_in in Ex. split; [left; congruence|exact H].
  - split; [apply ch_in; destruct Ex as [Ex|[]]; congruence|exact H].
Qed.
Lemma star_dig : forall u, Forall (fun x => dig x = true) u <-> Forall (fun c => u_dig U c <> None) u.
Proof. intros. split; apply Forall_impl; intros a; apply is_digit_some. Qed.

Definition chopped (s t : str) : Prop := s = t \/ s = t ++ [10].

Lemma g7_inv : forall s c r, g7 s c = Some r ->
  exists (pr : option str) s', s = match pr with Some d => 46 :: d | None => [] end ++ s' /\
    (forall d, pr = Some d -> d <> [] /\ Forall (fun c => u_dig U c <> None) d) /\
    g8 s' (match pr with Some d => (7%nat, d) :: c | None => c end) = Some r.
Proof.
  intros s c r H. unfold g7 in H. destruct s as [|x s].
  - exists None, []. split; [reflexivity|]. split; [discriminate|exact H].
  - destruct (ch 46 x) eqn:Ex.
    + apply ch_in in Ex. subst x. destruct s as [|y s]; [discriminate|].
      destruct (dig y) eqn:Ey; [|discriminate].
      apply star_inv in H. destruct H as (u & s' & E & F & G).
      exists (Some u), s'. split; [simpl; congruence|]. split; [|exact G].
      intros d D. injection D as <-. split; [|apply star_dig; exact F].
      intros ->. simpl in E. subst s'.
      unfold g8 in G. rewrite (f8 dig) in G; [discriminate|exact dig10|dj|dj|dj|exact Ey].
    + exists None, (x :: s). split; [reflexivity|]. split; [discriminate|exact H].
Qed.

Lemma g2_inv : forall s f r, g2 s [(1%nat, f)] = Some r ->
  exists s', chopped s s' /\ (f = [] \/ (exists c, f = [c] /\ c <> 123 /\ c <> 125) ->
  assembled U (parts_of r) (f ++ s')) /\ zero_apart (parts_of r) /\ p_fill (parts_of r) = f.
Proof.
  intros s f r H.
  apply opt_inv in H. destruct H as (al & s2 & -> & Hal & H & _).
  apply opt_inv in H. destruct H as (sg & s3 & -> & Hsg & H & _).
  apply opt_inv in H. destruct H as (z & s4 & -> & Hz & H & Z0).
  apply star_inv in H. destruct H as (w & s5 & -> & Hw & H).
  apply opt_inv in H. destruct H as (co & s6 & -> & Hco & H & _).
  apply g7_inv in H. destruct H as (pr & s7 & -> & Hpr & H).
  apply opt_inv in H. destruct H as (u & s8 & -> & Hu & H & _).
  apply opt_inv in H. destruct H as (ty & s9 & -> & Hty & H & _).
  apply star_inv in H. destruct H as (op & s10 & -> & Hop & H).
  assert (E : (s10 = [] \/ s10 = [10]) /\ r = (10%nat, op) :: (9%nat, ty) :: (8%nat, u) ::
     match pr with
     | Some d => (7%nat, d) :: (6%nat, co) :: (5%nat, w) :: (4%nat, z) :: (3%nat, sg) :: (2%nat, al) :: [(1%nat, f)]
     | None => (6%nat, co) :: (5%nat, w) :: (4%nat, z) :: (3%nat, sg) :: (2%nat, al) :: [(1%nat, f)]
     end).
  { destruct s10 as [|x s10]; [injection H as <-; split; [left; reflexivity|destruct pr; reflexivity]|].
    rewrite k_end_cons in H. destruct (Z.eqb_spec x 10) as [->|]; [|discriminate].
    destruct s10; [|discriminate]. injection H as <-. split; [right; reflexivity|destruct pr; reflexivity]. }
  destruct E as (Es & ->). clear H.
  exists (al ++ sg ++ z ++ w ++ co ++ match pr with Some d => 46 :: d | None => [] end ++ u ++ ty ++ op).
  assert (P : parts_of ((10%nat, op) :: (9%nat, ty) :: (8%nat, u) ::
     match pr with
     | Some d => (7%nat, d) :: (6%nat, co) :: (5%nat, w) :: (4%nat, z) :: (3%nat, sg) :: (2%nat, al) :: [(1%nat, f)]
     | None => (6%nat, co) :: (5%nat, w) :: (4%nat, z) :: (3%nat, sg) :: (2%nat, al) :: [(1%nat, f)]
     end) = mkParts f al sg z w co pr u ty op) by (destruct pr; reflexivity).
  rewrite P. split; [|split; [|split; [|reflexivity]]].
  - unfold chopped. destruct Es as [->| ->].
    + left. rewrite app_nil_r. reflexivity.
    + right. rewrite <- !app_assoc. reflexivity.
  - intros Hf. constructor; cbn; try assumption; try reflexivity.
    + apply opt_cls, Hal.
    + apply opt_cls, Hsg.
    + apply (opt_ch 48); [reflexivity|exact Hz].
    + apply star_dig, Hw.
    + apply (opt_ch 44); [reflexivity|exact Hco].
    + apply (opt_ch 117); [reflexivity|exact Hu].
    + apply opt_cls, Hty.
    + eapply Forall_impl; [|exact Hop]. intros a; apply oneof_in.
  - intros Ez. cbn in Ez |- *. specialize (Z0 Ez). destruct w as [|x w]; [simpl; lia|].
    simpl in Z0 |- *. intros ->. discriminate.
Qed.

Lemma not_brace_spec : forall x, not_brace x = true <-> x <> 123 /\ x <> 125.
Proof. intros. unfold not_brace. lia. Qed.

(** An accepted specification is made of its parts. *)
Theorem spec_parts : forall s p, parse_spec U s = Ok p ->
  (assembled U p s \/ exists t, s = t ++ [10] /\ assembled U p t) /\ zero_apart p.
Proof.
  intros s p H. unfold parse_spec in H. rewrite spec_det in H.
  destruct (g2 s [(1%nat, [])]) as [c|] eqn:E.
  - injection H as <-. destruct (g2_inv _ _ _ E) as (s' & C & A & Z0 & _).
    split; [|exact Z0]. specialize (A (or_introl eq_refl)). simpl in A.
    destruct C as [->| ->]; [left; exact A|right; exists s'; auto].
  - destruct s as [|x s]; [discriminate|]. destruct (not_brace x) eqn:B; [|discriminate].
    destruct (g2 s [(1%nat, [x])]) as [c|] eqn:E2; [|discriminate].
    injection H as <-. destruct (g2_inv _ _ _ E2) as (s' & C & A & Z0 & _).
    split; [|exact Z0]. apply not_brace_spec in B.
    assert (A' : assembled U (parts_of c) ([x] ++ s')) by (apply A; right; exists x; auto).
    destruct C as [->| ->]; [left; exact A'|right; exists ([x] ++ s'); auto].
Qed.

Lemma amo_forall : forall l u p, at_most_one l u -> forallb (fun x => negb (p x)) (lit l) = true ->
  Forall (fun x => p x = false) u.
Proof.
  intros l u p [->|(c & I & ->)] F; [constructor|]. constructor; [|constructor].
  rewrite forallb_forall in F. specialize (F c I). destruct (p c); [discriminate|reflexivity].
Qed.
Lemma amo_nodig : forall l u, at_most_one l u ->
  forallb (fun x => (0 <=? x) && (x <? 128) && negb ((48 <=? x) && (x <=? 57))) (lit l) = true ->
  Forall (fun x => dig x = false) u.
Proof.
  intros l u [->|(c & I & ->)] F; [constructor|]. constructor; [|constructor].
  rewrite forallb_forall in F. specialize (F c I). apply ascii_nodig; lia.
Qed.
Lemma digs_not : forall w p, Forall (fun c => u_dig U c <> None) w -> disj dig p -> Forall (fun x => p x = false) w.
Proof. intros w p F D. eapply Forall_impl; [|exact F]. intros a H. apply D, is_digit_some, H. Qed.
Lemma opts_not : forall w p, Forall (fun c => In c (lit "PSLp")) w -> forallb (fun x => negb (p x)) (lit "PSLp") = true ->
  Forall (fun x => p x = false) w.
Proof.
  intros w p F B. eapply Forall_impl; [|exact F]. intros a H. cbn beta in H.
  rewrite forallb_forall in B. specialize (B a H). destruct (p a); [discriminate|reflexivity].
Qed.
Lemma opts_nodig : forall w, Forall (fun c => In c (lit "PSLp")) w -> Forall (fun x => dig x = false) w.
Proof.
  intros w F. eapply Forall_impl; [|exact F]. intros a H. cbn in H.
  apply ascii_nodig; lia.
Qed.
Lemma prec_not : forall (pr : option str) p, 
  (forall d, pr = Some d -> d <> [] /\ Forall (fun c => u_dig U c <> None) d) -> p 46 = false ->
  forall s, hd_not p s -> hd_not p (match pr with Some d => 46 :: d | None => [] end ++ s).
Proof. intros pr p H E s Hs. destruct pr; simpl; assumption. Qed.

Local Ltac hn := repeat first
  [ exact I
  | apply hd_not_app; [solve [eapply amo_forall; [eassumption|reflexivity]
                      | eapply amo_nodig; [eassumption|reflexivity]
                      | apply digs_not; [assumption|dj]
                      | eapply opts_not; [assumption|reflexivity]
                      | apply opts_nodig; assumption ]|]
  | eapply prec_not; [eassumption|first [reflexivity|apply ascii_nodig; lia]|] ].

Lemma g2_run : forall f al sg z w co pr u ty op,
  at_most_one "<>=^" al -> at_most_one "-+ " sg -> at_most_one "0" z -> Forall (fun c => u_dig U c <> None) w ->
  at_most_one "," co -> (forall d, pr = Some d -> d <> [] /\ Forall (fun c => u_dig U c <> None) d) ->
  at_most_one "u" u -> at_most_one "eEfFgG%" ty -> Forall (fun c => In c (lit "PSLp")) op ->
  (z = [] -> hd 0 w <> 48) ->
  exists r, g2 (al ++ sg ++ z ++ w ++ co ++ match pr with Some d => 46 :: d | None => [] end ++ u ++ ty ++ op ++ [])
     [(1%nat, f)] = Some r /\ parts_of r = mkParts f al sg z w co pr u ty op.
Proof.
  intros f al sg z w co pr u ty op Hal Hsg Hz Hw Hco Hpr Hu Hty Hop Z0.
  unfold g2. rewrite opt_run by (first [apply opt_cls; assumption | intros _; hn]).
  unfold g3. rewrite opt_run by (first [apply opt_cls; assumption | intros _; hn]).
  unfold g4. rewrite opt_run.
  2: { apply (opt_ch 48 "0" z eq_refl); assumption. }
  2: { intros ->. specialize (Z0 eq_refl). destruct w as [|x w]; cbn [hd app] in Z0 |- *;
         [|apply not_true_is_false; rewrite ch_in; exact Z0].
       hn. }
  unfold g5. rewrite star_run by (first [apply star_dig; assumption | hn]).
  unfold g6. rewrite opt_run.
  2: { apply (opt_ch 44 "," co eq_refl); assumption. }
  2: { intros _; hn. }
  assert (E7 : forall c, g7 (match pr with Some d => 46 :: d | None => [] end ++ u ++ ty ++ op ++ []) c =
     g8 (u ++ ty ++ op ++ []) (match pr with Some d => (7%nat, d) :: c | None => c end)).
  { intros c. destruct pr as [d|].
    - destruct (Hpr d eq_refl) as (Nd & Fd). destruct d as [|y d]; [congruence|].
      inversion Fd as [|? ? Hy Fd']; subst. unfold g7. cbn [app]. replace (ch 46 46) with true by reflexivity. apply is_digit_some in Hy. rewrite Hy.
      change (y :: d ++ u ++ ty ++ op ++ []) with ((y :: d) ++ u ++ ty ++ op ++ []).
      apply star_run; [apply star_dig; assumption|hn].
    - unfold g7. cbn [app]. destruct (u ++ ty ++ op ++ []) as [|x t] eqn:E; [reflexivity|].
      assert (X : hd_not (ch 46) (u ++ ty ++ op ++ [])) by hn. rewrite E in X. unfold hd_not in X.
      rewrite X. reflexivity. }
  rewrite E7. unfold g8. rewrite opt_run.
  2: { apply (opt_ch 117 "u" u eq_refl); assumption. }
  2: { intros _; hn. }
  unfold g9. rewrite opt_run by (first [apply opt_cls; assumption | intros _; hn]).
  unfold g10. rewrite star_run.
  2: { eapply Forall_impl; [|exact Hop]. intros a; apply oneof_in. }
  2: { exact I. }
  simpl. eexists. split; [reflexivity|]. destruct pr; reflexivity.
Qed.

Lemma g2_none_fill : forall f a t c, In a (lit "<>=^") -> g2 (f :: a :: t) c = None.
Proof.
  intros f a t c Ia.
  assert (F3 : fails_on g3 (oneof "<>=^")) by (apply f3; first [reflexivity|dj]).
  assert (Oa : oneof "<>=^" a = true) by (apply oneof_in; exact Ia).
  assert (Dx : forall q, disj (oneof "<>=^") q -> q a = false) by (intros q D; apply D; exact Oa).
  unfold g2, opt_step at 1. destruct (oneof "<>=^" f); [apply F3; exact Oa|].
  (* fill is a sign, a digit... and then a is not accepted *)
  assert (FF : forall g, fails_on g (oneof "<>=^") -> forall s c, g (a :: s) c = None) by (intros g Fg s c'; apply Fg; exact Oa).
  assert (N10 : fails_on g10 (oneof "<>=^")) by (apply f10; first [reflexivity|dj]).
  assert (N9 : fails_on g9 (oneof "<>=^")) by (apply f9; first [reflexivity|dj]).
  assert (N8 : fails_on g8 (oneof "<>=^")) by (apply f8; first [reflexivity|dj]).
  assert (N7 : fails_on g7 (oneof "<>=^")) by (apply f7; first [reflexivity|dj]).
  assert (N6 : fails_on g6 (oneof "<>=^")) by (apply f6; first [reflexivity|dj]).
  assert (N5 : fails_on g5 (oneof "<>=^")) by (apply f5; first [reflexivity|dj]).
  assert (N4 : fails_on g4 (oneof "<>=^")) by (apply f4; first [reflexivity|dj]).
  unfold g3, opt_step at 1. destruct (oneof "-+ " f); [apply FF, N4|].
  unfold g4, opt_step at 1. destruct (ch 48 f); [apply FF, N5|].
  unfold g5, star_step at 1. cbn [skip]. destruct (dig f).
  { rewrite (Dx dig) by dj. apply FF, N6. }
  unfold g6, opt_step at 1. destruct (ch 44 f); [apply FF, N7|].
  unfold g7 at 1. destruct (ch 46 f). { rewrite (Dx dig) by dj. reflexivity. }
  unfold g8, opt_step at 1. destruct (ch 117 f); [apply FF, N9|].
  unfold g9, opt_step at 1. destruct (oneof "eEfFgG%" f); [apply FF, N10|].
  unfold g10, star_step at 1. cbn [skip]. destruct (oneof "PSLp" f).
  { rewrite (Dx (oneof "PSLp")) by dj. apply FF, f_end. reflexivity. }
  rewrite k_end_cons. destruct (f =? 10); reflexivity.
Qed.

(** A specification assembled from parts is decomposed into these parts. *)
Theorem spec_assembled : forall s p, assembled U p s -> zero_apart p -> fill_aligned p ->
  parse_spec U s = Ok p.
Proof.
  intros s [f al sg z w co pr u ty op] A Z0 FA. destruct A as [as_whole0 as_fill0 as_align0 ? ? ? ? ? ? ? ?]. cbn in *. unfold zero_apart, fill_aligned in *. cbn in *.
  destruct (g2_run f al sg z w co pr u ty op) as (r & E & P); try assumption.
  rewrite app_nil_r in E. unfold parse_spec. rewrite spec_det.
  destruct as_fill0 as [->|(x & -> & N1 & N2)].
  - simpl in as_whole0.
    assert (E' : g2 s [(1%nat, [])] = Some r) by (rewrite as_whole0; exact E).
    rewrite E', P. reflexivity.
  - simpl in as_whole0.
    destruct as_align0 as [->|(a & Ia & ->)]; [exfalso; apply FA; [discriminate|reflexivity]|].
    set (t := sg ++ z ++ w ++ co ++ match pr with Some d => 46 :: d | None => [] end ++ u ++ ty ++ op) in *.
    assert (Es : s = x :: a :: t) by exact as_whole0. rewrite Es, g2_none_fill by exact Ia.
    assert (E' : g2 (a :: t) [(1%nat, [x])] = Some r) by exact E.
    assert (B : not_brace x = true) by (apply not_brace_spec; auto). rewrite B, E', P. reflexivity.
Qed.

(** Anything else is refused. *)
Theorem spec_refused : forall s,
  (forall p, ~ assembled U p s /\ forall t, s = t ++ [10] -> ~ assembled U p t) -> parse_spec U s = Err EValue.
Proof.
  intros s H. destruct (parse_spec U s) as [p|e] eqn:E.
  - destruct (spec_parts s p E) as ([A|(t & Et & A)] & _); destruct (H p) as (H1 & H2).
    + contradiction.
    + exfalso. exact (H2 t Et A).
  - unfold parse_spec in E. destruct (re_match _ _); congruence.
Qed.
End Spec.
