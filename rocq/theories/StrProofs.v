(** Facts about digits and about the matching of regular expressions. *)
From Coq Require Import String.
From Coq Require Import ZArith List Bool Lia.
From Verif Require Import Base Str.
Import ListNotations.
Local Open Scope Z_scope.

(** ** Digits *)
Definition digit (d : Z) : Prop := 0 <= d <= 9.

Lemma pow10_pos : forall n, 0 <= n -> 0 < 10 ^ n.
Proof. intros. apply Z.pow_pos_nonneg; lia. Qed.

Lemma val_fold : forall ds a, fold_left (fun a d => 10 * a + d) ds a = a * 10 ^ Z.of_nat (length ds) + val ds.
Proof.
  unfold val. induction ds as [|d ds IH]; intros a; cbn [fold_left].
  - simpl. lia.
  - rewrite IH. rewrite (IH (10 * 0 + d)). simpl length.
    rewrite Nat2Z.inj_succ, Z.pow_succ_r by lia. ring.
Qed.
Lemma val_app : forall a b, val (a ++ b) = val a * 10 ^ Z.of_nat (length b) + val b.
Proof. intros. unfold val at 1. rewrite fold_left_app, val_fold. reflexivity. Qed.
Lemma val_cons : forall d b, val (d :: b) = d * 10 ^ Z.of_nat (length b) + val b.
Proof. intros. change (d :: b) with ([d] ++ b). rewrite val_app. unfold val at 1; simpl. reflexivity. Qed.
Lemma val_nonneg : forall ds, Forall digit ds -> 0 <= val ds.
Proof.
  induction ds as [|d ds IH]; intros F; [unfold val; simpl; lia|].
  inversion F; subst. rewrite val_cons. specialize (IH H2). unfold digit in H1.
  assert (0 < 10 ^ Z.of_nat (length ds)) by (apply pow10_pos; lia). nia.
Qed.
Lemma val_lt : forall ds, Forall digit ds -> val ds < 10 ^ Z.of_nat (length ds).
Proof.
  induction ds as [|d ds IH]; intros F; [unfold val; simpl; lia|].
  inversion F; subst. rewrite val_cons. specialize (IH H2). unfold digit in H1.
  simpl length. rewrite Nat2Z.inj_succ, Z.pow_succ_r by lia.
  assert (0 < 10 ^ Z.of_nat (length ds)) by (apply pow10_pos; lia). nia.
Qed.
Lemma val_zeros : forall n ds, val (repeat 0 n ++ ds) = val ds.
Proof.
  induction n; intros; simpl; [reflexivity|]. rewrite val_cons, IHn. lia.
Qed.

Lemma digs_aux_spec : forall f n, 0 <= n < 2 ^ Z.of_nat f ->
  val (digs_aux f n) = n /\ Forall digit (digs_aux f n) /\
  (0 < n -> exists d r, digs_aux f n = d :: r /\ 1 <= d) /\ (f <> O -> digs_aux f n <> []).
Proof.
  induction f as [|f IH]; intros n Hn.
  - simpl in Hn. assert (n = 0) by lia. subst. simpl. split; [reflexivity|].
    split; [constructor|]. split; [lia|]. congruence.
  - simpl digs_aux. destruct (n <? 10) eqn:E.
    + apply Z.ltb_lt in E. split; [unfold val; simpl; lia|]. split; [repeat constructor; unfold digit; lia|].
      split; [intros; exists n, []; split; [reflexivity|lia]|]. discriminate.
    + apply Z.ltb_ge in E.
      assert (D : 0 <= n / 10 < 2 ^ Z.of_nat f).
      { rewrite Nat2Z.inj_succ, Z.pow_succ_r in Hn by lia. split; [apply Z.div_pos; lia|].
        apply Z.div_lt_upper_bound; lia. }
      destruct (IH _ D) as (V & F & L & _).
      assert (M := Z.mod_pos_bound n 10 ltac:(lia)).
      split. { rewrite val_app, V. unfold val; simpl. rewrite (Z.div_mod n 10) at 3 by lia. lia. }
      split. { apply Forall_app; split; [exact F|]. repeat constructor; unfold digit; lia. }
      split.
      * intros _. destruct L as (d & r & E1 & Hd).
        { apply Z.div_str_pos; lia. }
        exists d, (r ++ [n mod 10]). rewrite E1. split; [reflexivity|exact Hd].
      * intros _ Hx. destruct (digs_aux f (n / 10)); discriminate.
Qed.
Lemma digs_fuel : forall n, 0 <= n -> 0 <= n < 2 ^ Z.of_nat (S (Z.to_nat (Z.log2 n))).
Proof.
  intros n Hn. split; [lia|]. rewrite Nat2Z.inj_succ, Z2Nat.id by apply Z.log2_nonneg.
  destruct (Z.eq_dec n 0) as [->|]; [simpl; lia|]. apply Z.log2_spec; lia.
Qed.
Lemma val_digs : forall n, 0 <= n -> val (digs n) = n.
Proof. intros. apply digs_aux_spec. apply digs_fuel; lia. Qed.
Lemma digs_digit : forall n, 0 <= n -> Forall digit (digs n).
Proof. intros. apply digs_aux_spec. apply digs_fuel; lia. Qed.
Lemma digs_nonnil : forall n, 0 <= n -> digs n <> [].
Proof.
  intros. destruct (digs_aux_spec _ _ (digs_fuel n H)) as (_ & _ & _ & X). apply X. discriminate.
Qed.
Lemma digs_head : forall n, 0 < n -> exists d r, digs n = d :: r /\ 1 <= d.
Proof. intros. apply digs_aux_spec; [apply digs_fuel; lia|lia]. Qed.
Lemma digs_0 : digs 0 = [0]. Proof. reflexivity. Qed.

(** The number of digits of n > 0. *)
Lemma digs_bounds : forall n, 0 < n ->
  10 ^ (Z.of_nat (length (digs n)) - 1) <= n < 10 ^ Z.of_nat (length (digs n)).
Proof.
  intros n Hn. destruct (digs_head n Hn) as (d & r & E & Hd).
  assert (F := digs_digit n ltac:(lia)). assert (V := val_digs n ltac:(lia)).
  split.
  - rewrite <- V at 2. rewrite E, val_cons. rewrite E in F. inversion F; subst.
    assert (N := val_nonneg r H2). simpl length. rewrite Nat2Z.inj_succ.
    replace (Z.succ (Z.of_nat (length r)) - 1) with (Z.of_nat (length r)) by lia.
    assert (0 < 10 ^ Z.of_nat (length r)) by (apply pow10_pos; lia). nia.
  - rewrite <- V at 1. apply val_lt. exact F.
Qed.
Lemma pow10_lt_inv : forall a b, 0 <= b -> 10 ^ a < 10 ^ b -> a < b.
Proof.
  intros a b Hb H. destruct (Z_lt_le_dec a b); [assumption|].
  assert (10 ^ b <= 10 ^ a) by (apply Z.pow_le_mono_r; lia). lia.
Qed.
Lemma digs_len_unique : forall n k, 10 ^ (Z.of_nat k) <= n < 10 ^ (Z.of_nat (S k)) -> length (digs n) = S k.
Proof.
  intros n k [L H]. assert (0 < n) by (assert (0 < 10 ^ Z.of_nat k) by (apply pow10_pos; lia); lia).
  destruct (digs_bounds n H0) as [B1 B2].
  assert (length (digs n) <> O). { intros X. apply length_zero_iff_nil in X. apply (digs_nonnil n); [lia|exact X]. }
  assert (Z.of_nat k < Z.of_nat (length (digs n))) by (apply pow10_lt_inv; lia).
  assert (Z.of_nat (length (digs n)) - 1 < Z.of_nat (S k)) by (apply pow10_lt_inv; lia).
  lia.
Qed.

(** ** Rounding *)
Lemma rhe_spec : forall m d, 0 < d ->
  2 * Z.abs (rhe m d * d - m) < d \/ (2 * Z.abs (rhe m d * d - m) = d /\ Z.even (rhe m d) = true).
Proof.
  intros m d Hd. unfold rhe. assert (M := Z.mod_pos_bound m d Hd). assert (D := Z.div_mod m d ltac:(lia)).
  set (q := m / d) in *. set (r := m mod d) in *.
  destruct (2 * r <? d) eqn:E1; [apply Z.ltb_lt in E1; left; nia|]. apply Z.ltb_ge in E1.
  destruct (d <? 2 * r) eqn:E2; [apply Z.ltb_lt in E2; left; nia|]. apply Z.ltb_ge in E2.
  assert (2 * r = d) by lia. right. destruct (Z.even q) eqn:E3.
  - split; [nia|exact E3].
  - split; [nia|]. rewrite Z.even_add, E3. reflexivity.
Qed.
Lemma rhe_unique : forall m d a b, 0 < d ->
  (2 * Z.abs (a * d - m) < d \/ (2 * Z.abs (a * d - m) = d /\ Z.even a = true)) ->
  (2 * Z.abs (b * d - m) < d \/ (2 * Z.abs (b * d - m) = d /\ Z.even b = true)) -> a = b.
Proof.
  intros m d a b Hd Ha Hb.
  assert (Z.abs (a - b) <= 1) by nia.
  destruct (Z.eq_dec a b); [assumption|exfalso].
  assert (a = b + 1 \/ b = a + 1) as [->| ->] by lia.
  - destruct Ha as [Ha|[Ha Ea]], Hb as [Hb|[Hb Eb]]; try nia.
    rewrite Z.even_add, Eb in Ea. discriminate.
  - destruct Ha as [Ha|[Ha Ea]], Hb as [Hb|[Hb Eb]]; try nia.
    rewrite Z.even_add, Ea in Eb. discriminate.
Qed.
Lemma rhe_exact : forall q d, 0 < d -> rhe (q * d) d = q.
Proof.
  intros. apply (rhe_unique (q * d) d); [assumption|apply rhe_spec; assumption|].
  left. replace (q * d - q * d) with 0 by lia. simpl. lia.
Qed.
Lemma rhe_nonneg : forall m d, 0 < d -> 0 <= m -> 0 <= rhe m d.
Proof. intros. destruct (rhe_spec m d H) as [X|[X _]]; nia. Qed.

(** ** Strings *)
Lemma str_eqb_eq : forall a b, str_eqb a b = true <-> a = b.
Proof. intros. unfold str_eqb. destruct (list_eq_dec Z.eq_dec a b); split; congruence. Qed.
Lemma str_eqb_refl : forall a, str_eqb a a = true.
Proof. intros. apply str_eqb_eq. reflexivity. Qed.
Lemma chars_app : forall a b, chars (a ++ b) = chars a ++ chars b.
Proof. intros. apply map_app. Qed.
Lemma chars_length : forall a, length (chars a) = length a.
Proof. intros. apply map_length. Qed.

(** ** Matching with a continuation *)
Section Bt.
Context {X : Type}.
Fixpoint first_some {A} (k : A -> option X) (l : list A) : option X :=
  match l with
  | [] => None
  | a :: l' => match k a with Some x => Some x | None => first_some k l' end
  end.
Lemma first_some_app : forall A (k : A -> option X) a b,
  first_some k (a ++ b) = match first_some k a with Some x => Some x | None => first_some k b end.
Proof. induction a; intros; simpl; [reflexivity|]. destruct (k a); [reflexivity|]. apply IHa. Qed.
Lemma first_some_flat : forall A B (k : B -> option X) (g : A -> list B) l,
  first_some k (flat_map g l) = first_some (fun a => first_some k (g a)) l.
Proof.
  induction l; simpl; [reflexivity|]. rewrite first_some_app, IHl. reflexivity.
Qed.
Lemma first_some_map : forall A B (k : B -> option X) (g : A -> B) l,
  first_some k (map g l) = first_some (fun a => k (g a)) l.
Proof. induction l; simpl; [reflexivity|]. rewrite IHl. reflexivity. Qed.
Lemma first_some_ext : forall A (k k' : A -> option X) l, (forall a, k a = k' a) -> first_some k l = first_some k' l.
Proof. induction l; intros; simpl; [reflexivity|]. rewrite H, IHl by assumption. reflexivity. Qed.

Definition bt (r : re) (s : str) (c : caps) (k : str -> caps -> option X) : option X :=
  first_some (fun m => k (fst m) (snd m)) (matches r s c).

Lemma bt_ext : forall r s c k k', (forall s c, k s c = k' s c) -> bt r s c k = bt r s c k'.
Proof. intros. apply first_some_ext. intros; apply H. Qed.
Lemma bt_eps : forall s c k, bt REps s c k = k s c.
Proof. intros. unfold bt; simpl. destruct (k s c); reflexivity. Qed.
Lemma bt_seq : forall a b s c k, bt (RSeq a b) s c k = bt a s c (fun s' c' => bt b s' c' k).
Proof. intros. unfold bt. simpl. rewrite first_some_flat. reflexivity. Qed.
Lemma bt_set : forall p s c k,
  bt (RSet p) s c k = match s with x :: s' => if p x then k s' c else None | [] => None end.
Proof.
  intros. unfold bt; simpl. destruct s; [reflexivity|]. destruct (p z); [|reflexivity].
  simpl. destruct (k s c); reflexivity.
Qed.
Lemma bt_alt : forall a b s c k,
  bt (RAlt a b) s c k = match bt a s c k with Some x => Some x | None => bt b s c k end.
Proof. intros. unfold bt; simpl. apply first_some_app. Qed.
Lemma bt_opt : forall a s c k,
  bt (ROpt a) s c k = match bt a s c k with Some x => Some x | None => k s c end.
Proof.
  intros. unfold bt; simpl. rewrite first_some_app. destruct (first_some _ _); [reflexivity|].
  simpl. destruct (k s c); reflexivity.
Qed.
Lemma bt_lazy : forall a s c k,
  bt (RLazy a) s c k = match k s c with Some x => Some x | None => bt a s c k end.
Proof. intros. unfold bt; simpl. reflexivity. Qed.
Lemma bt_group : forall n a s c k,
  bt (RGroup n a) s c k = bt a s c (fun s' c' => k s' ((n, consumed s s') :: c')).
Proof. intros. unfold bt; simpl. rewrite first_some_map. reflexivity. Qed.
Lemma bt_end : forall s c k,
  bt REnd s c k = match s with [] | [10] => k s c | _ => None end.
Proof.
  intros. unfold bt; simpl. destruct s as [|x [|y s]].
  - simpl. destruct (k [] c); reflexivity.
  - destruct (Z.eq_dec x 10) as [->|N].
    + simpl. destruct (k [10] c); reflexivity.
    + repeat (match goal with |- context [match ?p with _ => _ end] => is_var p; destruct p; simpl end);
        try reflexivity; try (exfalso; apply N; reflexivity).
  - repeat (match goal with |- context [match ?p with _ => _ end] => is_var p; destruct p; simpl end);
      reflexivity.
Qed.
(** The part of [s] after the longest run. *)
Fixpoint skip (p : Z -> bool) (s : str) : str :=
  match s with x :: s' => if p x then skip p s' else s | [] => [] end.
Lemma bt_star : forall p s c k, (forall x s c, p x = true -> k (x :: s) c = None) ->
  bt (RStar p) s c k = k (skip p s) c.
Proof.
  intros p s c k H. unfold bt; simpl. rewrite first_some_map. simpl.
  induction s as [|x s IH]; simpl.
  - destruct (k [] c); reflexivity.
  - destruct (p x) eqn:E; simpl.
    + rewrite first_some_app, IH. destruct (k (skip p s) c); [reflexivity|]. simpl. rewrite H; auto.
    + destruct (k (x :: s) c); reflexivity.
Qed.
End Bt.
Lemma re_match_bt : forall r s, re_match r s = bt r s [] (fun _ c => Some c).
Proof. intros. unfold re_match, bt. destruct (matches r s []); reflexivity. Qed.

Lemma skip_app : forall p s, exists u, s = u ++ skip p s /\ Forall (fun x => p x = true) u.
Proof.
  induction s as [|x s IH]; simpl; [exists []; split; [reflexivity|constructor]|].
  destruct (p x) eqn:E.
  - destruct IH as (u & E1 & F). exists (x :: u). split; [simpl; congruence|constructor; assumption].
  - exists []. split; [reflexivity|constructor].
Qed.
Lemma skip_run : forall p u s, Forall (fun x => p x = true) u ->
  match s with x :: _ => p x = false | [] => True end -> skip p (u ++ s) = s.
Proof.
  induction u as [|x u IH]; intros s F H; simpl.
  - destruct s; simpl; [reflexivity|]. rewrite H. reflexivity.
  - inversion F; subst. rewrite H2. apply IH; assumption.
Qed.
Lemma skip_head : forall p s, match skip p s with x :: _ => p x = false | [] => True end.
Proof. induction s as [|x s IH]; simpl; [exact I|]. destruct (p x) eqn:E; [exact IH|exact E]. Qed.
Lemma consumed_app : forall u s, consumed (u ++ s) s = u.
Proof.
  intros. unfold consumed. rewrite app_length.
  replace (length u + length s - length s)%nat with (length u) by lia.
  rewrite firstn_app, firstn_all. replace (length u - length u)%nat with 0%nat by lia.
  simpl. apply app_nil_r.
Qed.
