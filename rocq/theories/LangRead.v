(** All the texts of the grammar are read, with the values that it gives. *)
From Coq Require Import String.
From Coq Require Import ZArith List Bool Lia.
From Verif Require Import Base Str FmtOps Format Parse StrProofs FmtSpec SpecProofs FixedProofs FormatProofs ParseSpec ReadProofs ParseProofs NotationProofs LangSpec LangProofs.
Import ListNotations.
Local Open Scope Z_scope.
Local Open Scope res_scope.

(** A run followed by something that no longer run can match. *)
Lemma bt_star_last : forall X p u v c (k : str -> caps -> option X) x, Forall (fun y => p y = true) u ->
  (forall w t, v = w ++ t -> w <> [] -> Forall (fun y => p y = true) w -> k t c = None) -> k v c = Some x ->
  bt (RStar p) (u ++ v) c k = Some x.
Proof.
  intros X p u v c k x F N E. unfold bt. cbn [matches]. rewrite first_some_map. cbn [fst snd].
  induction u as [|y u IH]; simpl.
  - clear F. destruct v as [|y v]; simpl; [rewrite E; reflexivity|]. destruct (p y) eqn:Py; [|simpl; rewrite E; reflexivity].
    rewrite first_some_app. simpl. rewrite E.
    assert (first_some (fun a => k a c) (star p v) = None) as ->; [|reflexivity].
    assert (N' : forall w t, v = w ++ t -> Forall (fun y => p y = true) w -> k t c = None).
    { intros w t Ev Fw. apply (N (y :: w)); [rewrite Ev; reflexivity|discriminate|constructor; assumption]. }
    clear -N'. induction v as [|z v IH]; simpl.
    + rewrite (N' [] []) by (reflexivity || constructor). reflexivity.
    + destruct (p z) eqn:Pz; simpl.
      * rewrite first_some_app. rewrite IH; [simpl; rewrite (N' [] (z :: v)) by (reflexivity || constructor); reflexivity|].
        intros w t Ev Fw. apply (N' (z :: w)); [rewrite Ev; reflexivity|constructor; assumption].
      * rewrite (N' [] (z :: v)) by (reflexivity || constructor). reflexivity.
  - inversion F; subst. rewrite H1. rewrite first_some_app. rewrite IH by assumption. reflexivity.
Qed.

Section Full.
Context (U : Unicode) (L : UniLaws U).
Notation nospc := (Forall (fun c => u_spc U c = false)).

(** ** Conversions *)
Lemma grouped_hd : forall g ds, grouped U g ds -> exists c t, g = c :: t /\ u_dig U c <> None.
Proof. intros g ds []; eexists _, _; (split; [reflexivity|congruence]). Qed.
Lemma grouped_run : forall g ds, grouped U g ds -> forall us t, stops U t -> digit_run U us (g ++ t) = (ds, t).
Proof.
  intros g ds H. induction H as [c d E|c d s ds E H IH|c d s ds E H IH]; intros us t T; cbn [app digit_run]; rewrite E.
  - rewrite (digit_run_stop U) by exact T. reflexivity.
  - rewrite IH by exact T. reflexivity.
  - rewrite (ascii_none U L) by lia. cbn [andb Z.eqb Pos.eqb].
    destruct (grouped_hd _ _ H) as (c' & t' & -> & D). cbn [app].
    specialize (IH true t T). cbn [app digit_run] in IH. destruct (u_dig U c') as [d'|]; [|congruence].
    rewrite IH. reflexivity.
Qed.
Lemma opt_run : forall g ds t, opt_grouped U g ds -> stops U t -> digit_run U false (g ++ t) = (ds, t).
Proof. intros g ds t [|s ds' H] T; [apply (digit_run_stop U), T|apply grouped_run; assumption]. Qed.
Definition dig_or (c : Z) : Prop := u_dig U c <> None \/ c = 95.
Lemma grouped_chars : forall g ds, grouped U g ds -> Forall dig_or g.
Proof.
  intros g ds H. induction H; (constructor; [left; congruence|]); [constructor|assumption|constructor; [right; reflexivity|assumption]].
Qed.
Lemma opt_chars : forall g ds, opt_grouped U g ds -> Forall dig_or g.
Proof. intros g ds [|]; [constructor|eapply grouped_chars; eassumption]. Qed.
Lemma dig_or_spc : forall c, dig_or c -> u_spc U c = false.
Proof. intros c [H| ->]; [apply (digit_spc U L), H|apply (ascii_spc U L); lia]. Qed.
Lemma run_nospc : forall g, Forall dig_or g -> nospc g.
Proof. intros g F. eapply Forall_impl; [|exact F]. apply dig_or_spc. Qed.
Lemma run_nosign : forall g ds, grouped U g ds -> hd_not (oneof "+-") g.
Proof. intros g ds H. destruct (grouped_hd _ _ H) as (c & t & -> & D). apply (digit_nosign U L), D. Qed.
Lemma grouped_vals : forall g ds, grouped U g ds -> ds <> [].
Proof. intros g ds []; discriminate. Qed.
Lemma py_int_full : forall s n, int_text U s n -> py_int U s = Ok n.
Proof.
  intros s n [sp sg neg g ds sp' F F' Hs Hg]. unfold py_int.
  assert (Hso : solid U (sg ++ g)) by (apply solid_all, Forall_app; split; [apply (sign_nospc U L _ _ Hs)|apply run_nospc, (grouped_chars _ _ Hg)]).
  destruct Hso as (S1 & S2). rewrite strip_spaces by assumption.
  rewrite (take_sign_run _ neg) by (try assumption; apply (run_nosign _ _ Hg)).
  rewrite <- (app_nil_r g), (grouped_run _ _ Hg) by exact I.
  pose proof (grouped_vals _ _ Hg). destruct ds; [congruence|reflexivity].
Qed.
Lemma exponent_full : forall x n, exp_text U x n -> exponent_of U x = Some n.
Proof.
  intros x n [|c sg neg g ds Hc Hs Hg]; [reflexivity|]. cbn [exponent_of].
  assert ((c =? 101) || (c =? 69) = true) as -> by (destruct Hc; subst; reflexivity).
  rewrite (take_sign_run _ neg) by (try assumption; apply (run_nosign _ _ Hg)).
  rewrite <- (app_nil_r g), (grouped_run _ _ Hg) by exact I.
  pose proof (grouped_vals _ _ Hg). destruct ds; [congruence|reflexivity].
Qed.
Lemma exp_nospc : forall x n, exp_text U x n -> nospc x.
Proof.
  intros x n [|c sg neg g ds Hc Hs Hg]; [constructor|]. constructor; [destruct Hc; subst; apply (ascii_spc U L); lia|].
  apply Forall_app; split; [apply (sign_nospc U L _ _ Hs)|apply run_nospc, (grouped_chars _ _ Hg)].
Qed.
Lemma fraction_nospc : forall f df, fraction U f df -> nospc f.
Proof.
  intros f df [|f' df' H]; [constructor|]. constructor; [apply (ascii_spc U L); lia|]. apply run_nospc, (opt_chars _ _ H).
Qed.
Lemma exp_stops : forall x n, exp_text U x n -> stops U x /\ hd_not (ch 46) x.
Proof.
  intros x n [|c sg neg g ds Hc Hs Hg]; [split; exact I|]. split.
  - destruct Hc; subst; (split; [apply (ascii_none U L); lia|lia]).
  - destruct Hc; subst; reflexivity.
Qed.
(** The digits of a float: they start with a digit or with the point. *)
Lemma float_hd : forall i di f df x, opt_grouped U i di -> fraction U f df -> di ++ df <> [] ->
  exists c t, i ++ f ++ x = c :: t /\ dec_char U c.
Proof.
  intros i di f df x Hi Hf N. destruct Hi as [|i di Hi].
  - destruct Hf as [|f df Hf]; [exfalso; apply N; reflexivity|]. eexists _, _. split; [reflexivity|right; reflexivity].
  - destruct (grouped_hd _ _ Hi) as (c & t & -> & D). eexists _, _. split; [reflexivity|left; exact D].
Qed.
Context {K : FmtOps}.
Notation lexf := (lex_fl (K := K)).
Lemma py_float_full : forall s l, float_like U s l -> py_float (K := K) U s = Ok (lexf l).
Proof.
  intros s l [sp sg neg i di f df x n sp' F F' Hs Hi Hf Nd Hx|sp sg neg w sp' F F' Hs Hw|sp sg neg w sp' F F' Hs Hw].
  - unfold py_float.
    assert (Hso : solid U (sg ++ i ++ f ++ x)).
    { apply solid_all. split_app; [apply (sign_nospc U L _ _ Hs)|apply run_nospc, (opt_chars _ _ Hi)|
        apply (fraction_nospc _ _ Hf)|apply (exp_nospc _ _ Hx)]. }
    destruct Hso as (S1 & S2). rewrite strip_spaces by assumption.
    destruct (float_hd i di f df x Hi Hf Nd) as (c & t & Ec & D).
    rewrite (take_sign_run _ neg) by (try assumption; rewrite Ec; simpl; apply (dec_char_class U L c "+-" D); reflexivity).
    rewrite Ec.
    rewrite (dec_no_word U L c _ "nan" 110 (lit "an")), (dec_no_word U L c _ "inf" 105 (lit "nf")),
      (dec_no_word U L c _ "infinity" 105 (lit "nfinity")) by (try reflexivity; try lia; assumption).
    cbn [orb]. rewrite <- Ec. destruct (exp_stops _ _ Hx) as (T1 & T2).
    destruct Hf as [|f df Hf].
    + cbn [app]. rewrite (opt_run _ _ _ Hi T1).
      assert (match x with [] => ([], []) | c0 :: t' => if c0 =? 46 then digit_run U false t' else ([], x) end = ([], x)) as ->.
      { destruct x as [|y x]; [reflexivity|]. change (ch 46 y = false) in T2. unfold ch in T2. rewrite Z.eqb_sym, T2. reflexivity. }
      rewrite (exponent_full _ _ Hx). rewrite app_nil_r in *. destruct di; [congruence|]. reflexivity.
    + rewrite (opt_run _ _ _ Hi) by (split; [apply (ascii_none U L); lia|lia]).
      cbn [app Z.eqb Pos.eqb]. rewrite (opt_run _ _ _ Hf T1), (exponent_full _ _ Hx).
      destruct di, df; try reflexivity. exfalso; apply Nd; reflexivity.
  - unfold py_float. pose proof (nan_letters _ Hw) as Lw.
    assert (Hso : solid U (sg ++ w)) by (apply solid_all, Forall_app; split; [apply (sign_nospc U L _ _ Hs)|apply (letters_nospc U L), Lw]).
    destruct Hso as (S1 & S2).
    rewrite strip_spaces by assumption.
    rewrite (take_sign_run _ neg) by (try assumption; apply letters_nosign, Lw).
    unfold is_word. rewrite Hw, str_eqb_refl. reflexivity.
  - unfold py_float. pose proof (inf_letters _ Hw) as Lw.
    assert (Hso : solid U (sg ++ w)) by (apply solid_all, Forall_app; split; [apply (sign_nospc U L _ _ Hs)|apply (letters_nospc U L), Lw]).
    destruct Hso as (S1 & S2).
    rewrite strip_spaces by assumption.
    rewrite (take_sign_run _ neg) by (try assumption; apply letters_nosign, Lw).
    unfold is_word. destruct Hw as [Hw|Hw]; unfold word_of in Hw; rewrite !Hw; reflexivity.
Qed.
Lemma py_float_err : forall s e, py_float (K := K) U s = Err e -> e = EValue.
Proof.
  intros s e H. unfold py_float in H. destruct (take_sign _) as (neg & t).
  destruct (is_word t "nan"); [discriminate|]. destruct (_ || _); [discriminate|].
  destruct (digit_run U false t) as (i & t1).
  destruct (match t1 with [] => _ | _ :: _ => _ end) as (f & t2). destruct (exponent_of U t2); [|congruence].
  destruct (isnil i && isnil f); congruence.
Qed.

(** ** Characters *)
Definition hush (c : Z) : Prop := ~ In c [40; 41; 47; 177].
Lemma hush_spc : forall c, u_spc U c = true -> hush c.
Proof.
  intros c H Hi. simpl in Hi. destruct Hi as [E|[E|[E|[E|[]]]]]; subst;
    try (rewrite (ascii_spc U L) in H by lia; discriminate).
  destruct (ul_symbol U L 177); [left; reflexivity|congruence].
Qed.
Lemma hush_quiet : forall c, quiet c -> hush c.
Proof. intros c H Hi. apply H. right. exact Hi. Qed.
Lemma quiet_hush : forall c, hush c -> c <> 10 -> quiet c.
Proof. intros c H N [E|Hi]; [congruence|apply H, Hi]. Qed.
Lemma spaces_hush : forall s, spaces U s -> Forall hush s.
Proof. intros s F. eapply Forall_impl; [|exact F]. apply hush_spc. Qed.
Lemma dig_or_quiet : forall c, dig_or c -> quiet c.
Proof. intros c [H| ->]; [apply (quiet_digit U L), H|apply quiet_ascii; lia]. Qed.
Lemma run_quiet : forall g, Forall dig_or g -> Forall quiet g.
Proof. intros g F. eapply Forall_impl; [|exact F]. apply dig_or_quiet. Qed.
Lemma quiets_hush : forall s, Forall quiet s -> Forall hush s.
Proof. intros s F. eapply Forall_impl; [|exact F]. apply hush_quiet. Qed.
Lemma one_line_quiet : forall s, Forall hush s -> one_line s -> Forall quiet s.
Proof.
  intros s F N. rewrite Forall_forall in *. intros c Hc. apply quiet_hush; [apply F, Hc|]. intros ->. apply N, Hc.
Qed.
(** Neither a multiplication sign nor a character of interest. *)
Definition low (c : Z) : Prop := hush c /\ c <> 215.
Lemma low_spc : forall s, spaces U s -> Forall low s.
Proof.
  intros s F. eapply Forall_impl; [|exact F]. intros c H. split; [apply hush_spc, H|]. intros ->.
  rewrite (blank215 U L) in H. discriminate.
Qed.
Lemma low_run : forall g, Forall dig_or g -> Forall low g.
Proof.
  intros g F. eapply Forall_impl; [|exact F]. intros c H. split; [apply hush_quiet, dig_or_quiet, H|]. intros ->.
  destruct H as [H|H]; [apply H, (dig215 U L)|lia].
Qed.
Lemma low_ascii : forall s, Forall (fun c => 0 <= c < 128 /\ hush c) s -> Forall low s.
Proof. intros s F. eapply Forall_impl; [|exact F]. intros c (H & Q). split; [exact Q|]. intros ->. lia. Qed.
Lemma low_sign : forall sg neg, sign_of sg neg -> Forall low sg.
Proof. intros sg neg []; repeat constructor; simpl; try (intros H; simpl in H; lia); lia. Qed.
Lemma low_letters : forall s, Forall (fun c => 65 <= c <= 90 \/ 97 <= c <= 122) s -> Forall low s.
Proof. intros s F. eapply Forall_impl; [|exact F]. intros c H. simpl in H. split; [intros Hi; simpl in Hi; lia|lia]. Qed.
Lemma low_one : forall c, 0 <= c < 128 -> ~ In c [40; 41; 47; 177] -> low c.
Proof. intros c H N. split; [exact N|lia]. Qed.
Lemma exp_low : forall x n, exp_text U x n -> Forall low x.
Proof.
  intros x n [|c sg neg g ds Hc Hs Hg]; [constructor|]. constructor; [destruct Hc; subst; apply low_one; simpl; lia|].
  apply Forall_app; split; [apply (low_sign _ _ Hs)|apply low_run, (grouped_chars _ _ Hg)].
Qed.
Lemma fraction_low : forall f df, fraction U f df -> Forall low f.
Proof. intros f df [|f' df' H]; [constructor|]. constructor; [apply low_one; simpl; lia|apply low_run, (opt_chars _ _ H)]. Qed.
Lemma float_low : forall s l, float_like U s l -> Forall low s.
Proof.
  intros s l [sp sg neg i di f df x n sp' F F' Hs Hi Hf Nd Hx|sp sg neg w sp' F F' Hs Hw|sp sg neg w sp' F F' Hs Hw];
    split_app; try (apply low_spc; assumption); try apply (low_sign _ _ Hs).
  - apply low_run, (opt_chars _ _ Hi).
  - apply (fraction_low _ _ Hf).
  - apply (exp_low _ _ Hx).
  - apply low_letters, nan_letters, Hw.
  - apply low_letters, inf_letters, Hw.
Qed.
(** Superscripts. *)
Lemma int_chars : forall t n, int_text U t n -> Forall (fun c => u_dig U c <> None \/ u_spc U c = true \/ 0 <= c < 128) t.
Proof.
  intros t n [sp sg neg g ds sp' F F' Hs Hg]. split_app.
  - eapply Forall_impl; [|exact F]. simpl; auto.
  - destruct Hs; [constructor| |]; (constructor; [right; right; simpl; lia|constructor]).
  - eapply Forall_impl; [|apply (grouped_chars _ _ Hg)]. intros c [H| ->]; [auto|right; right; lia].
  - eapply Forall_impl; [|exact F']. simpl; auto.
Qed.
Lemma translate_full : forall t s, Forall2 maybe_raised t s -> Forall (fun c => ~ In c sups) t -> translate from_sup s = t.
Proof.
  intros t s H. induction H as [|c d t s Hc H IH]; intros F; [reflexivity|]. inversion F; subst.
  change (d :: s) with ([d] ++ s). rewrite translate_app. rewrite IH by assumption.
  assert (translate from_sup [d] = [c]) as ->; [|reflexivity].
  destruct Hc as [->|(R & ->)]; [apply from_sup_other; repeat constructor; assumption|].
  apply (from_sup_raised [c]). constructor; [exact R|constructor].
Qed.
Lemma sup_full : forall s n, sup_int U s n -> nrmlze_superscript U s = Ok n.
Proof.
  intros s n (t & H & Ht). unfold nrmlze_superscript. rewrite (translate_full t); [apply py_int_full, Ht|exact H|].
  eapply Forall_impl; [|apply (int_chars _ _ Ht)]. intros c Hc. apply (not_sup U L), Hc.
Qed.
Lemma maybe_low : forall t s, Forall2 maybe_raised t s -> Forall low t -> Forall low s.
Proof.
  intros t s H. induction H as [|c d t s Hc H IH]; intros F; [constructor|]. inversion F; subst. constructor; [|apply IH; assumption].
  destruct Hc as [->|(R & ->)]; [assumption|].
  assert (Hs : In (raised c) sups).
  { pose proof (raised_sup [c]) as Q. assert (A : ascii_int [c]) by (constructor; [exact R|constructor]).
    specialize (Q A). inversion Q; assumption. }
  split; [apply hush_quiet, sup_quiet, Hs|]. intros E. rewrite E in Hs. clear -Hs. simpl in Hs. lia.
Qed.
Lemma int_low : forall t n, int_text U t n -> Forall low t.
Proof.
  intros t n [sp sg neg g ds sp' F F' Hs Hg]. split_app; try (apply low_spc; assumption);
    [apply (low_sign _ _ Hs)|apply low_run, (grouped_chars _ _ Hg)].
Qed.
Lemma sup_low : forall s n, sup_int U s n -> Forall low s.
Proof. intros s n (t & H & Ht). apply (maybe_low _ _ H), (int_low _ _ Ht). Qed.
Lemma lows_hush : forall s, Forall low s -> Forall hush s.
Proof. intros s F. eapply Forall_impl; [|exact F]. intros c (H & _). exact H. Qed.
Lemma lit10_low : Forall low (lit "10").
Proof. repeat constructor; try (intros H; simpl in H; lia); simpl; lia. Qed.
Lemma hush215 : hush 215.
Proof. intros H; simpl in H; lia. Qed.
Lemma times_hush : forall sp sp', spaces U sp -> spaces U sp' -> Forall hush (sp ++ 215 :: sp' ++ lit "10").
Proof.
  intros sp sp' F F'. split_app; [apply spaces_hush, F|]. constructor; [apply hush215|].
  split_app; [apply spaces_hush, F'|apply lows_hush, lit10_low].
Qed.
Lemma number_hush : forall s l o, number_like U s l o -> Forall hush s.
Proof.
  intros s l o [s0 l0 H|a l0 sp sp' b n H F F' Hb]; [apply lows_hush, (float_low _ _ H)|].
  apply Forall_app; split; [apply lows_hush, (float_low _ _ H)|].
  apply Forall_app; split; [apply times_hush; assumption|apply lows_hush, (sup_low _ _ Hb)].
Qed.
Lemma intro_hush : forall i, intro U i -> Forall hush i.
Proof.
  intros i [c Hc|sp sp' F F']; [|apply times_hush; assumption].
  constructor; [|constructor]. intros Hi. simpl in Hi. lia.
Qed.

(** ** The pretty-print notation *)
Lemma strip_end : forall s sp, spaces U sp -> strip U (s ++ sp) = strip U s.
Proof.
  intros s sp F. destruct (strip_inv U s) as (q & q' & Q & Q' & E).
  assert (S : solid U (strip U s)).
  { unfold strip. split.
    - destruct (lstrip_inv U (rev (lstrip U s))) as (z & Z1 & Z2).
      assert (H : hd_not (u_spc U) (lstrip U s)).
      { clear. induction s as [|c s IH]; simpl; [exact I|]. destruct (u_spc U c) eqn:E; [exact IH|exact E]. }
      destruct (rev (lstrip U (rev (lstrip U s)))) as [|y t] eqn:Er; [exact I|].
      assert (E2 : lstrip U s = (y :: t) ++ rev z).
      { rewrite <- Er, <- rev_app_distr, <- Z2, rev_involutive. reflexivity. }
      rewrite E2 in H. exact H.
    - rewrite rev_involutive. generalize (rev (lstrip U s)). clear. intros s.
      induction s as [|c s IH]; simpl; [exact I|]. destruct (u_spc U c) eqn:E; [exact IH|exact E]. }
  destruct S as (S1 & S2). rewrite E at 1. rewrite <- !app_assoc.
  apply (strip_spaces U); try assumption. apply Forall_app. split; assumption.
Qed.
Lemma float_end : forall s sp, spaces U sp -> py_float (K := K) U (s ++ sp) = py_float (K := K) U s.
Proof. intros s sp F. unfold py_float. rewrite strip_end by exact F. reflexivity. Qed.
Lemma split_once : forall x (u v u' v' : str), u ++ x :: v = u' ++ x :: v' -> ~ In x u -> ~ In x v -> u = u' /\ v = v'.
Proof.
  intros x u. induction u as [|y u IH]; intros v u' v' E N1 N2.
  - destruct u' as [|z u']; simpl in E; [inversion E; auto|]. inversion E; subst. exfalso. apply N2.
    apply in_or_app. right. left. reflexivity.
  - destruct u' as [|z u']; simpl in E; inversion E; subst; [exfalso; apply N1; left; reflexivity|].
    destruct (IH v u' v' H1) as (-> & ->); [intros H; apply N1; right; exact H|exact N2|auto].
Qed.
Lemma split_class : forall (p : Z -> bool) x (u v u' v' : str), u ++ x :: v = u' ++ x :: v' -> p x = false ->
  Forall (fun y => p y = true) u -> Forall (fun y => p y = true) u' -> u = u' /\ v = v'.
Proof.
  intros p x u. induction u as [|y u IH]; intros v u' v' E N F F'.
  - destruct u' as [|z u']; simpl in E; inversion E; subst; [auto|]. inversion F'; subst. congruence.
  - destruct u' as [|z u']; simpl in E; inversion E; subst; inversion F; subst; [congruence|]. inversion F'; subst.
    destruct (IH v u' v' H1 N) as (-> & ->); auto.
Qed.
Lemma bt_starL_some : forall X p u v c (k : str -> caps -> option X) x, Forall (fun y => p y = true) u ->
  k v c = Some x -> bt (RStarL p) (u ++ v) c k <> None.
Proof.
  intros X p u v c k x F E. unfold bt. cbn [matches]. rewrite first_some_map. cbn [fst snd].
  assert (Hi : In v (rev (star p (u ++ v)))).
  { apply in_rev. rewrite rev_involutive. induction F as [|y u Hy F IH]; simpl.
    - destruct v as [|y v]; simpl; [left; reflexivity|]. destruct (p y); [apply in_or_app; right|]; left; reflexivity.
    - rewrite Hy. apply in_or_app. left. exact IH. }
  revert Hi. generalize (rev (star p (u ++ v))). intros l. induction l as [|y l IH]; simpl; [tauto|].
  intros [->|H]; [rewrite E; discriminate|]. destruct (k y c); [discriminate|apply IH, H].
Qed.
Theorem to_float_full : forall s l o, one_line s -> number_like U s l o -> to_float (K := K) U s = times (K := K) o (lexf l).
Proof.
  intros s l o N H. unfold to_float. destruct H as [s0 l0 H|a l0 sp sp' b n H F F' Hb].
  - rewrite (py_float_full _ _ H). reflexivity.
  - pose proof (float_low _ _ H) as La. pose proof (sup_low _ _ Hb) as Lb.
    set (s := a ++ (sp ++ 215 :: sp' ++ lit "10") ++ b) in *.
    assert (Ef : py_float (K := K) U s = Err EValue).
    { destruct (py_float (K := K) U s) as [x|e] eqn:E; [|rewrite (py_float_err _ _ E); reflexivity].
      apply py_float_inv in E. destruct E as (l' & Hl & _). apply float_low in Hl. exfalso.
      rewrite Forall_forall in Hl. apply (Hl 215); [|reflexivity]. unfold s.
      apply in_or_app; right. apply in_or_app; left. apply in_or_app; right. left; reflexivity. }
    rewrite Ef.
    assert (Nd : forall u v, s = u ++ v -> Forall (fun y => dot y = true) u).
    { intros u v E. apply Forall_forall. intros y Hy. unfold dot. destruct (Z.eqb_spec y 10); [|reflexivity]. subst y. exfalso.
      apply N. rewrite E. apply in_or_app; left; exact Hy. }
    destruct (re_match (pretty_re U) s) as [c|] eqn:Em.
    + apply pretty_inv in Em; [|exact N]. destruct Em as (a' & sp1 & sp1' & b' & E & F1 & F1' & G1 & G2).
      rewrite G1, G2. unfold s in E.
      assert (Es : (a ++ sp) ++ 215 :: (sp' ++ lit "10") ++ b = (a' ++ sp1) ++ 215 :: (sp1' ++ lit "10") ++ b').
      { repeat (rewrite <- app_assoc in E; cbn [app] in E). repeat (rewrite <- app_assoc; cbn [app]). exact E. }
      assert (N215 : forall u, Forall low u -> ~ In 215 u).
      { intros u Fu Hi. rewrite Forall_forall in Fu. apply (Fu _ Hi). reflexivity. }
      apply split_once in Es.
      2:{ apply N215, Forall_app; split; [exact La|apply low_spc, F]. }
      2:{ apply N215. split_app; [apply low_spc, F'|apply lit10_low|exact Lb]. }
      destruct Es as (E1 & E2). rewrite <- !app_assoc in E2.
      change (lit "10" ++ b) with (49 :: [48] ++ b) in E2. change (lit "10" ++ b') with (49 :: [48] ++ b') in E2.
      apply (split_class (u_spc U)) in E2; [|apply (ascii_spc U L); lia|exact F'|exact F1'].
      destruct E2 as (_ & E2). cbn [app] in E2. inversion E2; subst b'.
      rewrite <- (float_end a' sp1), <- E1, float_end by assumption. rewrite (py_float_full _ _ H). cbn [rbind].
      match goal with E : b = grp c 2 |- _ => rewrite <- E end. rewrite (sup_full _ _ Hb). reflexivity.
    + exfalso. rewrite re_match_bt in Em. unfold pretty_re in Em. cbn [rseq] in Em. rewrite bt_seq, bt_group in Em.
      revert Em. unfold s at 1.
      eapply bt_starL_some with (x := [(2%nat, b); (1%nat, consumed s ((sp ++ 215 :: sp' ++ lit "10") ++ b))]).
      * apply (Nd a ((sp ++ 215 :: sp' ++ lit "10") ++ b)). reflexivity.
      * repeat (rewrite <- app_assoc; cbn [app]). apply (bt_times U L); [exact F|exact F'|].
        apply bt_rest; [|reflexivity].
        assert (Fb : Forall (fun y => dot y = true) ((a ++ sp ++ 215 :: sp' ++ lit "10") ++ b)).
        { apply (Nd _ []). rewrite app_nil_r. unfold s. rewrite (app_assoc a). reflexivity. }
        apply Forall_app in Fb. apply Fb.
Qed.

(** ** Two numbers *)
Lemma no_pm_hd : forall X r s c (k : str -> caps -> option X),
  match s with [] => True | y :: s' => y <> 177 /\ (y = 43 -> match s' with [] => True | z :: _ => z <> 47 end) end ->
  bt (RSeq (RAlt (rlit "+/-") (RSet (ch 177))) r) s c k = None.
Proof.
  intros X r s c k C. rewrite bt_seq, bt_alt.
  unfold rlit. cbn [lit map rseq]. rewrite bt_seq, bt_set.
  assert (E2 : forall k' : str -> caps -> option X, bt (RSet (ch 177)) s c k' = None).
  { intros k'. rewrite bt_set. destruct s as [|y s]; [reflexivity|]. unfold ch.
    destruct (Z.eqb_spec 177 y); [destruct C; congruence|reflexivity]. }
  destruct s as [|y s]; [rewrite E2; reflexivity|].
  match goal with |- context [ch ?a y] => change a with 43 end. unfold ch at 1.
  destruct (Z.eqb_spec 43 y); [|rewrite E2; reflexivity]. subst y.
  rewrite bt_seq, bt_set. destruct s as [|z s]; [rewrite E2; reflexivity|].
  unfold ch at 1.
  match goal with |- context [?a =? z] => change a with 47 end.
  destruct (Z.eqb_spec 47 z); [destruct C as (_ & C); specialize (C eq_refl); congruence|]. rewrite E2. reflexivity.
Qed.
Definition ends_line (rest : str) : Prop := rest = [] \/ exists r, rest = 10 :: r.
Lemma no_pm_rest : forall X r q rest c (k : str -> caps -> option X), calm q -> ends_line rest ->
  bt (RSeq (RAlt (rlit "+/-") (RSet (ch 177))) r) (q ++ rest) c k = None.
Proof.
  intros X r q rest c k (C1 & C2) H. apply no_pm_hd. destruct C1 as [|y q Hy C1].
  - destruct H as [->|(t & ->)]; [exact I|]. cbn [app]. split; [lia|discriminate].
  - cbn [app]. split; [exact Hy|]. intros _. destruct q as [|z q].
    + destruct H as [->|(t & ->)]; [exact I|]. cbn [app]. lia.
    + cbn [app]. simpl in C2. inversion C2; assumption.
Qed.

Lemma dots_prefix : forall w x q rest, w ++ x = q ++ rest -> Forall (fun y => dot y = true) w -> ends_line rest ->
  exists q', q = w ++ q' /\ x = q' ++ rest.
Proof.
  induction w as [|y w IH]; intros x q rest E F H; [exists q; auto|]. inversion F; subst.
  destruct q as [|z q].
  - simpl in E. destruct H as [->|(r & ->)]; [discriminate|]. injection E as -> _. discriminate.
  - simpl in E. injection E as -> E. destruct (IH x q rest E) as (q' & -> & ->); try assumption. exists q'. auto.
Qed.
Lemma ends_dot : forall rest, ends_line rest -> hd_not dot rest.
Proof. intros rest [->|(r & ->)]; [exact I|reflexivity]. Qed.
Lemma pm_full : forall s pm t rest, Forall quiet s -> pm_sign pm -> Forall quiet t -> ends_line rest ->
  re_match pm_re (s ++ pm ++ t ++ rest) = Some [(2%nat, t); (1%nat, s)].
Proof.
  intros s pm t rest Fs Hp Ft Hr. rewrite re_match_bt. unfold pm_re. cbn [rseq]. rewrite bt_seq, bt_group.
  apply bt_star_last.
  - apply quiet_all_dot, Fs.
  - intros w u Ew Nw Fw. rewrite app_assoc in Ew. symmetry in Ew.
    destruct (dots_prefix _ _ _ _ Ew Fw Hr) as (q & Eq & ->).
    destruct w as [|y w]; [congruence|].
    assert (Cq : calm (tl (pm ++ t))).
    { destruct Hp; subst; simpl.
      - split; simpl; repeat constructor; try lia; eapply Forall_impl; try exact Ft; intros d Hd ->; apply Hd; simpl; tauto.
      - apply quiet_calm, Ft. }
    rewrite Eq in Cq. simpl in Cq. apply calm_suffix in Cq. apply no_pm_rest; assumption.
  - rewrite bt_seq, bt_alt. rewrite consumed_app.
    assert (R : forall c, bt (RGroup 2 (RStar dot)) (t ++ rest) c (fun _ c => Some c) = Some ((2%nat, t) :: c)).
    { intros. rewrite bt_group. apply bt_star_first; [apply quiet_all_dot, Ft|apply ends_dot, Hr|]. rewrite consumed_app. reflexivity. }
    destruct Hp; subst.
    + rewrite bt_rlit, R. reflexivity.
    + rewrite (bt_rlit_none _ "+/-" 43 (lit "/-")); [|reflexivity|reflexivity].
      cbn [app]. rewrite bt_set. unfold ch. cbn [Z.eqb]. rewrite R. reflexivity.
Qed.

(** ** Exponents *)
Lemma newline_ends : forall nl, opt_newline nl -> ends_line nl.
Proof. intros nl [->| ->]; [left|right; exists []]; reflexivity. Qed.
Lemma newline_hush : forall nl, opt_newline nl -> Forall hush nl.
Proof. intros nl [->| ->]; [constructor|]. constructor; [|constructor]. intros Hi; simpl in Hi; lia. Qed.
Lemma bt_newline : forall nl c, opt_newline nl -> bt REnd nl c (fun _ c => Some c) = Some c.
Proof. intros nl c [->| ->]; rewrite bt_end_k; reflexivity. Qed.
Lemma intro_hd : forall i, intro U i -> exists c t, i = c :: t /\ (c = 101 \/ c = 69 \/ u_spc U c = true \/ c = 215).
Proof.
  intros i [c Hc|sp sp' F F']; [exists c, []; tauto|].
  destruct F as [|c sp Hc F]; eexists _, _; (split; [reflexivity|tauto]).
Qed.
Lemma intro_match : forall i t, intro U i -> forall X r c (k : str -> caps -> option X) x,
  bt r t c k = Some x -> bt (RSeq (exp_intro U) r) (i ++ t) c k = Some x.
Proof.
  intros i t [a Ha|sp sp' F F'] X r c k x E; rewrite bt_seq; unfold exp_intro; rewrite bt_alt, bt_set.
  - cbn [app]. assert (oneof "eE" a = true) as -> by (destruct Ha; subst; reflexivity). rewrite E. reflexivity.
  - assert (H : exists y u, (sp ++ 215 :: sp' ++ lit "10") ++ t = y :: u /\ oneof "eE" y = false).
    { destruct F as [|y sp Hy F]; eexists _, _; (split; [reflexivity|]); [reflexivity|].
      destruct (blank_stops U L y Hy) as (_ & _ & _ & B). unfold oneof; simpl. rewrite orb_false_r. exact B. }
    destruct H as (y & u & Ey & Ny). rewrite Ey, Ny, <- Ey. clear Ey Ny y u.
    repeat (rewrite <- app_assoc; cbn [app]). cbn [rseq].
    rewrite bt_seq. apply bt_star_first; [exact F|apply (blank215 U L)|].
    rewrite bt_seq, bt_set. unfold ch. rewrite Z.eqb_refl. rewrite bt_seq.
    apply bt_star_first; [exact F'|apply (ascii_spc U L 49); lia|].
    rewrite bt_rlit. exact E.
Qed.
Lemma rest_match : forall n b nl c, one_line b -> opt_newline nl ->
  bt (RSeq (RGroup n (RStar dot)) REnd) (b ++ nl) c (fun _ c => Some c) = Some ((n, b) :: c).
Proof.
  intros n b nl c Nb Hn. rewrite bt_seq, bt_group. apply bt_star_first.
  - apply Forall_forall. intros y Hy. unfold dot. destruct (Z.eqb_spec y 10); [|reflexivity]. subst. exfalso. apply Nb, Hy.
  - apply ends_dot, newline_ends, Hn.
  - rewrite consumed_app. apply bt_newline, Hn.
Qed.
Lemma sup_ne : forall s n, sup_int U s n -> s <> [].
Proof.
  intros s n (t & H & Ht) ->. inversion H; subst. inversion Ht as [sp sg neg g ds sp' F F' Hs Hg E]; subst.
  destruct (grouped_hd _ _ Hg) as (c & r & -> & _). destruct sp, sg; discriminate.
Qed.
Lemma factor_full : forall v i e n nl, one_line v -> intro U i -> one_line e -> sup_int U e n -> opt_newline nl ->
  re_match (global_exp_re U) (lit "(" ++ v ++ lit ")" ++ i ++ e ++ nl) = Some [(2%nat, e); (1%nat, v)].
Proof.
  intros v i e n nl Nv Hi Ne He Hn. rewrite re_match_bt. unfold global_exp_re. cbn [rseq].
  rewrite bt_seq, bt_set. cbn [lit app]. change (ch 40 _) with true. cbv iota.
  rewrite bt_seq, bt_group.
  match goal with |- bt _ (v ++ ?z :: _) _ _ = _ => change z with 41 end.
  apply bt_star_last.
  - apply Forall_forall. intros y Hy. unfold dot. destruct (Z.eqb_spec y 10); [|reflexivity]. subst. exfalso. apply Nv, Hy.
  - intros w t Ew Nw _. destruct w as [|y w]; [congruence|]. injection Ew as _ Ew.
    rewrite bt_seq, bt_set. destruct t as [|z t]; [reflexivity|]. unfold ch.
    destruct (Z.eqb_spec 41 z); [|reflexivity]. subst z. exfalso.
    assert (Q : Forall hush (i ++ e ++ nl)).
    { split_app; [apply intro_hush, Hi|apply lows_hush, (sup_low _ _ He)|apply newline_hush, Hn]. }
    rewrite Ew in Q. apply Forall_app in Q. destruct Q as (_ & Q). inversion Q; subst. apply H1. simpl. tauto.
  - rewrite bt_seq, bt_set. unfold ch. cbn [Z.eqb Pos.eqb]. rewrite consumed_app.
    apply intro_match; [exact Hi|]. apply rest_match; assumption.
Qed.
Lemma exp_hush : forall e n, exp_like U e n -> Forall hush e.
Proof.
  intros e n [|i Hi|i b m Hi Nb Hb]; [constructor|apply intro_hush, Hi|].
  apply Forall_app; split; [apply intro_hush, Hi|apply lows_hush, (sup_low _ _ Hb)].
Qed.
Lemma tail_full : forall e n nl, exp_like U e n -> opt_newline nl -> tail_ok U (e ++ nl) n.
Proof.
  intros e n nl He Hn.
  assert (Hh : forall i t, intro U i -> hd_not (is_digit U) (i ++ t) /\ hd_not (ch 46) (i ++ t) /\ hd_not (ch 40) (i ++ t)).
  { intros i t Hi. destruct (intro_hd _ Hi) as (c & u & -> & Hc). cbn [app hd_not]. unfold is_digit.
    destruct Hc as [->|[->|[Hc| ->]]]; try (rewrite (ascii_none U L) by lia; repeat split; reflexivity).
    - destruct (blank_stops U L c Hc) as (B1 & _ & B3 & _). rewrite B1. repeat split; [exact B3|].
      unfold ch. destruct (Z.eqb_spec 40 c); [|reflexivity]. subst. rewrite (ascii_spc U L) in Hc by lia. discriminate.
    - rewrite (dig215 U L). repeat split; reflexivity. }
  destruct He as [|i Hi|i b m Hi Nb Hb].
  - exists None. cbn [app]. split; [|split; [exact I|]].
    + intros c. unfold exp_tail. rewrite bt_seq, bt_opt.
      assert (bt (RSeq (exp_intro U) (RGroup 8 (RStar dot))) nl c
               (fun s' c' => bt REnd s' c' (fun _ c0 => Some c0)) = None) as ->.
      { rewrite bt_seq. unfold exp_intro. rewrite bt_alt, bt_set. destruct Hn as [->| ->].
        - cbn [rseq]. rewrite bt_seq, bt_star_nil by exact I. rewrite bt_seq, bt_set. reflexivity.
        - change (oneof "eE" 10) with false. cbn [rseq]. rewrite bt_seq.
          apply bt_star_none. intros w t E. rewrite bt_seq, bt_set.
          destruct t as [|y t]; [reflexivity|]. destruct w as [|z [|z' w]]; try discriminate. injection E as <- _. reflexivity. }
      rewrite bt_newline by exact Hn. reflexivity.
    + destruct Hn as [->| ->]; [repeat split|]. cbn [hd_not]. unfold is_digit. rewrite (ascii_none U L) by lia. repeat split; reflexivity.
  - exists (Some []). split; [|split; [reflexivity|apply Hh, Hi]].
    intros c. unfold exp_tail. rewrite bt_seq, bt_opt.
    erewrite (intro_match i nl Hi); [reflexivity|]. rewrite bt_group.
    rewrite bt_star_nil by (apply ends_dot, newline_ends, Hn). rewrite consumed_nil. apply bt_newline, Hn.
  - exists (Some b). split; [|split; [split; [apply (sup_ne _ _ Hb)|apply (sup_full _ _ Hb)]|rewrite <- app_assoc; apply Hh, Hi]].
    intros c. unfold exp_tail. rewrite bt_seq, bt_opt. rewrite <- app_assoc.
    erewrite (intro_match i (b ++ nl) Hi); [reflexivity|].
    rewrite <- bt_seq. apply rest_match; assumption.
Qed.

(** ** Without outer parentheses *)
Lemma paren_cc : forall s m, paren_like U s m -> calm s.
Proof.
  intros s m (sg & neg & a & l & k & p & u & e & n & nl & -> & Hg & Ha & Hp & He & Hn & _).
  assert (Hh : forall s, Forall hush s -> Forall (fun c => c <> 177 /\ c <> 47) s).
  { intros s F. eapply Forall_impl; [|exact F]. intros c H. split; intros ->; apply H; simpl; tauto. }
  apply cc_calm. split_app; [apply quiet_cc, (sign_quiet _ _ Hg)|apply quiet_cc, (unsigned_calm U L _ _ _ _ Ha)|
    apply (in_paren_calm U L _ _ Hp)|apply Hh, (exp_hush _ _ He)|apply Hh, newline_hush, Hn].
Qed.
Lemma unsigned_hd : forall neg a l k, unsigned U neg a l k -> exists c t, a = c :: t /\ c <> 40 /\ u_spc U c = false.
Proof.
  intros neg a l k H. destruct (main_nosign U L _ _ _ _ H) as (y & t & E & _ & N). exists y, t. split; [exact E|]. split; [exact N|].
  destruct H as [a0 m0 k0 H|w Hw|w Hw].
  - destruct (decimal_chars U _ _ _ H) as (C & _). rewrite E in C. inversion C; subst. apply (dec_char_spc U L); assumption.
  - inversion Hw as [E1|E1|E1|E1]; rewrite <- E1 in E; injection E as <- _; apply (ascii_spc U L); lia.
  - inversion Hw as [E1|E1|E1|E1]; rewrite <- E1 in E; injection E as <- _; apply (ascii_spc U L); lia.
Qed.
Lemma paren_hd : forall s m, paren_like U s m -> exists c t, s = c :: t /\ c <> 40 /\ u_spc U c = false.
Proof.
  intros s m (sg & neg & a & l & k & p & u & e & n & nl & -> & Hg & Ha & _).
  destruct Hg; try (eexists _, _; split; [reflexivity|]; split; [simpl; lia|apply (ascii_spc U L); simpl; lia]).
  destruct (unsigned_hd _ _ _ _ Ha) as (y & t & -> & N & S). eexists _, _. split; [reflexivity|]. split; assumption.
Qed.
Lemma hd_40 : forall c t, c <> 40 -> hd_not (ch 40) (c :: t).
Proof. intros c t N. change (ch 40 c = false). unfold ch. destruct (Z.eqb_spec 40 c); congruence. Qed.
Lemma pair_hd : forall s pm t, Forall hush s -> pm_sign pm -> hd_not (ch 40) (s ++ pm ++ t).
Proof.
  intros s pm t F Hp. destruct F as [|c s Hc F].
  - destruct Hp; subst; apply hd_40; simpl; lia.
  - apply hd_40. intros ->. apply Hc. simpl. tauto.
Qed.
Notation unwrapped := (unwrapped U (K := K)).
Lemma paren_full : forall s m, paren_like U s m -> parse_error_in_parentheses (K := K) U s = meaning_fl m.
Proof.
  intros s m (sg & neg & a & l & k & p & u & e & n & nl & -> & Hg & Ha & Hp & He & Hn & ->).
  apply (paren_tail_value U L) with (neg := neg); try assumption. apply tail_full; assumption.
Qed.
Theorem text_full : forall s m f, text_like U s m f -> unwrapped s = reading (K := K) m f.
Proof.
  intros s0 m0 f0 [s a x pm t b y rest Hs Hp Ht Ns Nt Hr|s a x pm t b y i e n nl Hs Hp Ht Ns Nt Hi Ne He Hn|
    s m H|s m i e n nl H Ns Hi Ne He Hn]; unfold NotationProofs.unwrapped.
  - rewrite (no_factor_match U) by (apply pair_hd; [apply (number_hush _ _ _ Hs)|exact Hp]). cbn [rbind].
    rewrite (pm_full s pm t rest); try assumption; try (apply one_line_quiet; [eapply number_hush; eassumption|assumption]).
    change (grp [(2%nat, t); (1%nat, s)] 1) with s. change (grp [(2%nat, t); (1%nat, s)] 2) with t.
    rewrite (to_float_full _ _ _ Ns Hs), (to_float_full _ _ _ Nt Ht). unfold reading, meaning_fl. cbn [rbind power times].
    destruct (times x (lexf a)); [|reflexivity]. cbn [rbind]. destruct (times y (lexf b)); reflexivity.
  - assert (Nv : one_line (s ++ pm ++ t)).
    { intros H. apply in_app_or in H. destruct H as [H|H]; [apply Ns, H|]. apply in_app_or in H. destruct H as [H|H]; [|apply Nt, H].
      destruct Hp; subst; simpl in H; lia. }
    rewrite (factor_full _ i e n nl) by assumption.
    change (grp [(2%nat, e); (1%nat, s ++ pm ++ t)] 1) with (s ++ pm ++ t).
    change (grp [(2%nat, e); (1%nat, s ++ pm ++ t)] 2) with e. rewrite (sup_full _ _ He).
    unfold reading, meaning_fl, power, ten_to. cbn [rbind].
    destruct (x_mul10 K (x_nan K) n); [|reflexivity]. cbn [rbind].
    rewrite (pm_match s pm t); try assumption; try (apply one_line_quiet; [eapply number_hush; eassumption|assumption]).
    change (grp [(2%nat, t); (1%nat, s)] 1) with s. change (grp [(2%nat, t); (1%nat, s)] 2) with t.
    rewrite (to_float_full _ _ _ Ns Hs), (to_float_full _ _ _ Nt Ht). reflexivity.
  - destruct (paren_hd _ _ H) as (c & t & E & N & _).
    rewrite (no_factor_match U) by (rewrite E; apply hd_40, N). cbn [rbind].
    rewrite pm_none by (apply (paren_cc _ _ H)). apply paren_full, H.
  - rewrite (factor_full _ i e n nl) by assumption.
    change (grp [(2%nat, e); (1%nat, s)] 1) with s. change (grp [(2%nat, e); (1%nat, s)] 2) with e.
    rewrite (sup_full _ _ He). unfold reading, power, ten_to. cbn [rbind].
    destruct (x_mul10 K (x_nan K) n); [|reflexivity]. cbn [rbind].
    rewrite pm_none by (apply (paren_cc _ _ H)). apply paren_full, H.
Qed.

(** ** White space around the text *)
Definition fore (s : str) : Prop := exists c t, s = c :: t /\ u_spc U c = false.
Definition tight (s : str) : Prop := exists t c, s = t ++ [c] /\ u_spc U c = false.
Lemma fore_app : forall a b, fore a -> fore (a ++ b).
Proof. intros a b (c & t & -> & H). exists c, (t ++ b). auto. Qed.
Lemma tight_app : forall a b, tight b -> tight (a ++ b).
Proof. intros a b (t & c & -> & H). exists (a ++ t), c. rewrite app_assoc. auto. Qed.
Lemma nospc_tight : forall s, nospc s -> s <> [] -> tight s.
Proof.
  intros s F N. destruct (exists_last N) as (t & c & ->). exists t, c. split; [reflexivity|].
  apply Forall_app in F. destruct F as (_ & F). inversion F; assumption.
Qed.
Lemma nospc_fore : forall s, nospc s -> s <> [] -> fore s.
Proof. intros s F N. destruct F as [|c t H F]; [congruence|]. exists c, t. auto. Qed.
Lemma strip_core : forall q s q', spaces U q -> spaces U q' -> fore s -> tight s -> strip U (q ++ s ++ q') = s.
Proof.
  intros q s q' F F' (c & t & E & H) (t' & c' & E' & H'). apply (strip_spaces U); try assumption.
  - rewrite E. exact H.
  - rewrite E', rev_app_distr. exact H'.
Qed.
Lemma rtrim : forall s, exists t q, s = t ++ q /\ spaces U q /\ (t = [] \/ tight t).
Proof.
  induction s as [|c s IH] using rev_ind.
  - exists [], []. repeat split; [constructor|auto].
  - destruct (u_spc U c) eqn:E.
    + destruct IH as (t & q & -> & F & H). exists t, (q ++ [c]). rewrite app_assoc. split; [reflexivity|]. split; [|exact H].
      apply Forall_app; split; [exact F|repeat constructor; exact E].
    + exists (s ++ [c]), []. rewrite app_nil_r. split; [reflexivity|]. split; [constructor|]. right. exists s, c. auto.
Qed.
Lemma sub_line : forall a b : str, one_line (a ++ b) -> one_line a /\ one_line b.
Proof. intros a b H. split; intros Hi; apply H, in_or_app; auto. Qed.
(** The text of a float, without the white space. *)
Lemma float_core : forall s l, float_like U s l -> exists q t q', s = q ++ t ++ q' /\ spaces U q /\ spaces U q' /\
  fore t /\ tight t /\ forall p p', spaces U p -> spaces U p' -> float_like U (p ++ t ++ p') l.
Proof.
  intros s l [sp sg neg i di f df x n sp' F F' Hs Hi Hf Nd Hx|sp sg neg w sp' F F' Hs Hw|sp sg neg w sp' F F' Hs Hw].
  - assert (Fn : nospc (sg ++ i ++ f ++ x)).
    { split_app; [apply (sign_nospc U L _ _ Hs)|apply run_nospc, (opt_chars _ _ Hi)|
        apply (fraction_nospc _ _ Hf)|apply (exp_nospc _ _ Hx)]. }
    assert (Ne : sg ++ i ++ f ++ x <> []).
    { destruct (float_hd i di f df x Hi Hf Nd) as (c & t & -> & _). destruct sg; discriminate. }
    exists sp, (sg ++ i ++ f ++ x), sp'. repeat split; try assumption; [apply nospc_fore; assumption|apply nospc_tight; assumption|].
    intros p p' P P'. apply fl_dec; assumption.
  - assert (Fn : nospc (sg ++ w)) by (split_app; [apply (sign_nospc U L _ _ Hs)|apply (letters_nospc U L), nan_letters, Hw]).
    assert (Ne : sg ++ w <> []) by (destruct w; [discriminate Hw|destruct sg; discriminate]).
    exists sp, (sg ++ w), sp'. repeat split; try assumption; [apply nospc_fore; assumption|apply nospc_tight; assumption|].
    intros p p' P P'. eapply fl_nan; eassumption.
  - assert (Fn : nospc (sg ++ w)) by (split_app; [apply (sign_nospc U L _ _ Hs)|apply (letters_nospc U L), inf_letters, Hw]).
    assert (Ne : sg ++ w <> []) by (destruct w; [destruct Hw; discriminate|destruct sg; discriminate]).
    exists sp, (sg ++ w), sp'. repeat split; try assumption; [apply nospc_fore; assumption|apply nospc_tight; assumption|].
    intros p p' P P'. eapply fl_inf; eassumption.
Qed.
Lemma maybe_spaces : forall q q1, Forall2 maybe_raised q q1 -> spaces U q -> q1 = q.
Proof.
  intros q q1 H. induction H as [|c d q q1 Hc H IH]; intros F; [reflexivity|]. inversion F; subst. rewrite IH by assumption.
  destruct Hc as [->|(R & _)]; [reflexivity|]. exfalso.
  rewrite (ascii_spc U L) in H2 by lia. discriminate.
Qed.
Lemma maybe_nospc : forall q q1, Forall2 maybe_raised q q1 -> nospc q -> nospc q1.
Proof.
  intros q q1 H. induction H as [|c d q q1 Hc H IH]; intros F; [constructor|]. inversion F; subst. constructor; [|apply IH; assumption].
  destruct Hc as [->|(R & ->)]; [assumption|].
  apply (ul_symbol U L). right; right.
  pose proof (raised_sup [c]) as Q. assert (A : ascii_int [c]) by (constructor; [exact R|constructor]).
  specialize (Q A). inversion Q; assumption.
Qed.
Lemma sup_core : forall s n, sup_int U s n -> exists t q, s = t ++ q /\ spaces U q /\ tight t /\ sup_int U t n.
Proof.
  intros s n (r & H & Hr). destruct Hr as [sp sg neg g ds sp' F F' Hs Hg].
  rewrite app_assoc in H. apply Forall2_app_inv_l in H. destruct H as (t & q & Ht & Hq & ->).
  rewrite (maybe_spaces _ _ Hq F') in *. exists t, sp'. split; [reflexivity|]. split; [exact F'|].
  split; [|exists (sp ++ sg ++ g); split; [exact Ht|]].
  - apply Forall2_app_inv_l in Ht. destruct Ht as (t1 & t2 & H1 & H2 & ->). apply tight_app.
    apply nospc_tight.
    + apply (maybe_nospc _ _ H2). split_app; [apply (sign_nospc U L _ _ Hs)|apply run_nospc, (grouped_chars _ _ Hg)].
    + intros ->. inversion H2 as [E|]. destruct (grouped_hd _ _ Hg) as (c & u & Eg & _). destruct sg, g; discriminate.
  - rewrite <- (app_nil_r (sp ++ sg ++ g)), <- app_assoc. apply it_sign; try assumption. constructor.
Qed.
Lemma number_left : forall s l o, number_like U s l o -> exists q t, s = q ++ t /\ spaces U q /\ fore t /\ number_like U t l o.
Proof.
  intros s l o [s0 l0 H|a l0 sp sp' b n H F F' Hb]; destruct (float_core _ _ H) as (q & t & q' & -> & Q & Q' & Ft & Tt & M).
  - exists q, (t ++ q'). split; [reflexivity|]. split; [exact Q|]. split; [apply fore_app, Ft|].
    apply nl_float. apply (M [] q'); [constructor|exact Q'].
  - exists q, ((t ++ q') ++ (sp ++ 215 :: sp' ++ lit "10") ++ b). split; [rewrite <- app_assoc; reflexivity|].
    split; [exact Q|]. split; [apply fore_app, fore_app, Ft|].
    apply nl_pretty; try assumption. apply (M [] q'); [constructor|exact Q'].
Qed.
Lemma number_right : forall s l o, number_like U s l o -> exists t q, s = t ++ q /\ spaces U q /\ tight t /\ number_like U t l o.
Proof.
  intros s l o [s0 l0 H|a l0 sp sp' b n H F F' Hb].
  - destruct (float_core _ _ H) as (q & t & q' & -> & Q & Q' & Ft & Tt & M).
    exists (q ++ t), q'. split; [rewrite app_assoc; reflexivity|]. split; [exact Q'|]. split; [apply tight_app, Tt|].
    apply nl_float. rewrite <- (app_nil_r (q ++ t)), <- app_assoc. apply M; [exact Q|constructor].
  - destruct (sup_core _ _ Hb) as (t & q & -> & Q & Tt & M).
    exists (a ++ (sp ++ 215 :: sp' ++ lit "10") ++ t), q. split; [rewrite <- !app_assoc; reflexivity|].
    split; [exact Q|]. split; [apply tight_app, tight_app, Tt|]. apply nl_pretty; assumption.
Qed.
Lemma newline_spaces : forall nl, opt_newline nl -> spaces U nl.
Proof. intros nl [->| ->]; [constructor|]. constructor; [|constructor]. apply (ul_space U L); lia. Qed.
Lemma intro_tight : forall i, intro U i -> tight i.
Proof.
  intros i [c Hc|sp sp' F F'].
  - exists [], c. split; [reflexivity|]. destruct Hc; subst; apply (ascii_spc U L); lia.
  - apply tight_app. apply (tight_app [215]), tight_app. exists [49], 48. split; [reflexivity|]. apply (ascii_spc U L); lia.
Qed.
Lemma digits_tight : forall s, digits U s -> s <> [] -> tight s.
Proof. intros s H N. apply nospc_tight; [apply (digits_nospc U L), H|exact N]. Qed.
Lemma one_tight : forall c, 33 <= c < 128 -> tight [c].
Proof. intros c H. exists [], c. split; [reflexivity|]. apply (ascii_spc U L), H. Qed.
Lemma nonfinite_tight : forall w l, nonfinite w l -> tight w.
Proof.
  intros w l []; [exists (lit "na"), 110|exists (lit "NA"), 78|exists (lit "in"), 102|exists (lit "IN"), 70];
    (split; [reflexivity|apply (ascii_spc U L); lia]).
Qed.
Lemma unsigned_tight : forall neg a l k, unsigned U neg a l k -> tight a.
Proof.
  intros neg a l k [a0 m k0 [i Hi N|i f Hi Hf N]|w Hw|w Hw]; [apply digits_tight; assumption| |eapply nonfinite_tight; exact Hw ..].
  apply tight_app. destruct f as [|c f]; [apply one_tight; lia|].
  change (46 :: c :: f) with ([46] ++ c :: f). apply tight_app, digits_tight; [exact Hf|discriminate].
Qed.
Lemma in_paren_tight : forall a p u, tight a -> in_paren U p u -> tight (a ++ p).
Proof.
  intros a p u Ha Hp. assert (H41 : forall x, tight (a ++ lit "(" ++ x ++ lit ")")).
  { intros x. apply tight_app, tight_app, tight_app, one_tight. simpl. lia. }
  destruct Hp; try apply H41. rewrite app_nil_r. exact Ha.
Qed.
Lemma paren_core : forall s m, paren_like U s m -> exists t q, s = t ++ q /\ spaces U q /\ tight t /\ paren_like U t m.
Proof.
  intros s m (sg & neg & a & l & k & p & u & e & n & nl & -> & Hg & Ha & Hp & He & Hn & ->).
  assert (Ht : exists e' q, e ++ nl = e' ++ q /\ spaces U q /\ (e' = [] \/ tight e') /\ exp_like U e' n).
  { destruct He as [|i Hi|i b m Hi Nb Hb].
    - exists [], nl. repeat split; [apply newline_spaces, Hn|auto|constructor].
    - exists i, nl. repeat split; [apply newline_spaces, Hn|right; apply intro_tight, Hi|constructor; exact Hi].
    - destruct (sup_core _ _ Hb) as (t & q & -> & Q & Tt & M). exists (i ++ t), (q ++ nl).
      split; [rewrite <- !app_assoc; reflexivity|]. split; [apply Forall_app; split; [exact Q|apply newline_spaces, Hn]|].
      split; [right; apply tight_app, Tt|]. constructor; try assumption. apply (sub_line _ _ Nb). }
  destruct Ht as (e' & q & E & Q & Tt & He'). exists (sg ++ a ++ p ++ e'), q.
  split; [rewrite E, <- !app_assoc; reflexivity|]. split; [exact Q|]. split.
  - apply tight_app. rewrite app_assoc. destruct Tt as [->|Tt]; [rewrite app_nil_r|apply tight_app, Tt].
    apply (in_paren_tight _ _ u); [apply (unsigned_tight _ _ _ _ Ha)|exact Hp].
  - exists sg, neg, a, l, k, p, u, e', n, []. rewrite app_nil_r. repeat split; try assumption. left; reflexivity.
Qed.
Lemma text_core : forall s m f, text_like U s m f -> exists q t q', s = q ++ t ++ q' /\ spaces U q /\ spaces U q' /\
  fore t /\ tight t /\ text_like U t m f /\ unparen t = t.
Proof.
  assert (H40 : fore (lit "(")) by (exists 40, []; split; [reflexivity|apply (ascii_spc U L); lia]).
  assert (Hlast : forall v i e n, intro U i -> sup_int U e n -> unparen (v ++ i ++ e) = v ++ i ++ e).
  { intros v i e n Hi He. apply unparen_none. right. pose proof (sup_low _ _ He) as Q.
    destruct (exists_last (sup_ne _ _ He)) as (e' & y & ->). rewrite !app_assoc, rev_app_distr. cbn [rev app hd_not].
    apply Forall_app in Q. destruct Q as (_ & Q). inversion Q as [|y0 l0 Hy _]; subst. unfold ch.
    destruct (Z.eqb_spec 41 y); [|reflexivity]. subst. exfalso. apply (proj1 Hy). simpl. tauto. }
  intros s0 m0 f0 [s a x pm t b y rest Hs Hp Ht Ns Nt Hr|s a x pm t b y i e n nl Hs Hp Ht Ns Nt Hi Ne He Hn|
    s m H|s m i e n nl H Ns Hi Ne He Hn].
  - destruct (number_left _ _ _ Hs) as (q & s' & -> & Q & Fs & Hs'). apply sub_line in Ns. destruct Ns as (_ & Ns).
    assert (Hr' : exists r q', rest = r ++ q' /\ spaces U q' /\ (r = [] \/ tight r /\ exists r', r = 10 :: r')).
    { destruct (rtrim rest) as (r & q' & -> & Q' & T). exists r, q'. split; [reflexivity|]. split; [exact Q'|].
      destruct r as [|c r]; [auto|]. right. split; [destruct T; [discriminate|assumption]|].
      destruct Hr as [Hr|(r' & Hr)]; [discriminate|]. injection Hr as -> _. exists r. reflexivity. }
    destruct Hr' as (r & q' & -> & Q' & Hr'). clear Hr.
    assert (Hun : forall t r, unparen (s' ++ pm ++ t ++ r) = s' ++ pm ++ t ++ r).
    { intros t' r'. apply unparen_none. left. apply pair_hd; [apply (number_hush _ _ _ Hs')|exact Hp]. }
    destruct Hr' as [->|(Tr & r' & ->)].
    + destruct (number_right _ _ _ Ht) as (t' & p & -> & P & Tt & Ht'). apply sub_line in Nt. destruct Nt as (Nt & _).
      exists q, (s' ++ pm ++ t' ++ []), (p ++ q'). repeat split.
      * rewrite app_nil_r. cbn [app]. rewrite <- !app_assoc. reflexivity.
      * exact Q.
      * apply Forall_app; split; assumption.
      * apply fore_app, Fs.
      * rewrite app_nil_r. apply tight_app, tight_app, Tt.
      * apply tl_pair; auto.
      * apply Hun.
    + exists q, (s' ++ pm ++ t ++ 10 :: r'), q'. repeat split; try assumption.
      * rewrite <- !app_assoc. reflexivity.
      * apply fore_app, Fs.
      * apply tight_app, tight_app, tight_app, Tr.
      * apply tl_pair; eauto.
      * apply Hun.
  - destruct (sup_core _ _ He) as (e' & p & -> & P & Te & He'). apply sub_line in Ne. destruct Ne as (Ne & _).
    exists [], (lit "(" ++ (s ++ pm ++ t) ++ lit ")" ++ i ++ e' ++ []), (p ++ nl). repeat split.
    + rewrite app_nil_r. cbn [app]. repeat (rewrite <- app_assoc; cbn [app]). reflexivity.
    + constructor.
    + apply Forall_app; split; [exact P|apply newline_spaces, Hn].
    + apply fore_app, H40.
    + rewrite app_nil_r. apply tight_app, tight_app, tight_app, tight_app, Te.
    + apply tl_factor; try assumption. left; reflexivity.
    + rewrite app_nil_r. replace (lit "(" ++ (s ++ pm ++ t) ++ lit ")" ++ i ++ e') with ((lit "(" ++ (s ++ pm ++ t) ++ lit ")") ++ i ++ e')
        by (rewrite <- !app_assoc; reflexivity). apply (Hlast _ _ _ n Hi He').
  - destruct (paren_core _ _ H) as (t & q & -> & Q & Tt & Ht). destruct (paren_hd _ _ Ht) as (c & u & E & N & S).
    exists [], t, q. repeat split; try assumption; [constructor|exists c, u; auto|apply tl_paren, Ht|].
    apply unparen_none. left. rewrite E. apply hd_40, N.
  - destruct (sup_core _ _ He) as (e' & p & -> & P & Te & He'). apply sub_line in Ne. destruct Ne as (Ne & _).
    exists [], (lit "(" ++ s ++ lit ")" ++ i ++ e' ++ []), (p ++ nl). repeat split.
    + rewrite app_nil_r. cbn [app]. repeat (rewrite <- app_assoc; cbn [app]). reflexivity.
    + constructor.
    + apply Forall_app; split; [exact P|apply newline_spaces, Hn].
    + apply fore_app, H40.
    + rewrite app_nil_r. apply tight_app, tight_app, tight_app, tight_app, Te.
    + apply tl_ignored; try assumption. left; reflexivity.
    + rewrite app_nil_r. replace (lit "(" ++ s ++ lit ")" ++ i ++ e') with ((lit "(" ++ s ++ lit ")") ++ i ++ e')
        by (rewrite <- !app_assoc; reflexivity). apply (Hlast _ _ _ n Hi He').
Qed.
Theorem accepted_full : forall s m f, accepted U s m f ->
  str_to_number_with_uncert (K := K) U (strip U s) = reading (K := K) m f.
Proof.
  intros s0 m0 f0 [sp s sp' m f F F' H|sp s sp' m f F F' H]; rewrite unwrapped_eq.
  - destruct (text_core _ _ _ H) as (q & t & q' & -> & Q & Q' & Ft & Tt & Ht & Hu).
    replace (sp ++ (q ++ t ++ q') ++ sp') with ((sp ++ q) ++ t ++ (q' ++ sp')) by (rewrite <- !app_assoc; reflexivity).
    rewrite strip_core by (try assumption; apply Forall_app; split; assumption).
    rewrite Hu. apply text_full, Ht.
  - rewrite strip_core; try assumption.
    + rewrite unparen_parens. apply text_full, H.
    + exists 40, (s ++ lit ")"). split; [reflexivity|apply (ascii_spc U L); lia].
    + apply tight_app, tight_app, one_tight. simpl. lia.
Qed.
End Full.

(** ** The variable that is made *)
Theorem read_any : forall (K : FmtOps) (U : Unicode), UniLaws U ->
  forall s m f tag, accepted U s m f ->
  match reading (K := K) m f with
  | Ok (v, u) =>
      ufloat_fromstr (K := K) U s tag = Ok (v, u, tag, 0%nat) \/
      ufloat_fromstr (K := K) U s tag = Err ENegStd /\ x_sign K u = true /\ x_iszero K u = false /\ isinfinite u = false
  | Err e => ufloat_fromstr (K := K) U s tag = Err e
  end.
Proof.
  intros K U L s m f tag H. unfold ufloat_fromstr. rewrite (accepted_full U L _ _ _ H).
  destruct (reading m f) as [(v & u)|e]; [|reflexivity]. cbn [rbind fst snd]. unfold variable. cbn [rbind].
  destruct (x_sign K u), (x_iszero K u), (isinfinite u); cbn [andb negb]; auto.
Qed.
(** No text has two meanings with different values. *)
Theorem read_unique : forall (K : FmtOps) (U : Unicode), UniLaws U ->
  forall s m f m' f', accepted U s m f -> accepted U s m' f' -> reading (K := K) m f = reading (K := K) m' f'.
Proof.
  intros K U L s m f m' f' H H'. rewrite <- (accepted_full U L _ _ _ H), <- (accepted_full U L _ _ _ H'). reflexivity.
Qed.
