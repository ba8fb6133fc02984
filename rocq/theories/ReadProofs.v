(** float() and int() of texts; matching of the regular expressions for parsing. *)
From Coq Require Import String.
From Coq Require Import ZArith List Bool Lia.
From Verif Require Import Base Str FmtOps Format Parse StrProofs FmtSpec SpecProofs FixedProofs FormatProofs ParseSpec.
Import ListNotations.
Local Open Scope Z_scope.

(** ** More on matching *)
Section Bt.
Context {X : Type}.
Notation cont := (str -> caps -> option X).
Lemma bt_star_first : forall p u s c (k : cont) x, Forall (fun y => p y = true) u -> hd_not p s ->
  k s c = Some x -> bt (RStar p) (u ++ s) c k = Some x.
Proof.
  intros p u s c k x F N E. unfold bt. cbn [matches]. rewrite first_some_map. cbn [fst snd].
  induction u as [|y u IH]; simpl.
  - destruct s as [|y s]; simpl; [rewrite E; reflexivity|]. simpl in N. rewrite N. simpl. rewrite E. reflexivity.
  - inversion F; subst. rewrite H1. rewrite first_some_app. rewrite IH by assumption. reflexivity.
Qed.
Lemma bt_star_back : forall p u v c (k : cont) x, Forall (fun y => p y = true) (u ++ v) ->
  (forall w t, v = w ++ t -> w <> [] -> k t c = None) -> k v c = Some x ->
  bt (RStar p) (u ++ v) c k = Some x.
Proof.
  intros p u v c k x F N E. unfold bt. cbn [matches]. rewrite first_some_map. cbn [fst snd].
  induction u as [|y u IH]; simpl.
  - clear -F N E. destruct v as [|y v]; simpl; [rewrite E; reflexivity|].
    simpl in F. inversion F; subst. rewrite H1. rewrite first_some_app. simpl. rewrite E.
    assert (first_some (fun a => k a c) (star p v) = None) as ->; [|reflexivity].
    assert (N' : forall w t, v = w ++ t -> k t c = None).
    { intros w t Ev. apply (N (y :: w)); [rewrite Ev; reflexivity|discriminate]. }
    clear -N'. induction v as [|z v IH]; simpl.
    + rewrite (N' [] []) by reflexivity. reflexivity.
    + destruct (p z); simpl.
      * rewrite first_some_app. rewrite IH; [simpl; rewrite (N' [] (z :: v)) by reflexivity; reflexivity|].
        intros w t Ev. apply (N' (z :: w)). rewrite Ev. reflexivity.
      * rewrite (N' [] (z :: v)) by reflexivity. reflexivity.
  - inversion F; subst. rewrite H1. rewrite first_some_app. rewrite IH by assumption. reflexivity.
Qed.
Lemma bt_star_none : forall p s c (k : cont), (forall w t, s = w ++ t -> k t c = None) -> bt (RStar p) s c k = None.
Proof.
  intros p s c k N. unfold bt. cbn [matches]. rewrite first_some_map. cbn [fst snd].
  induction s as [|z s IH]; simpl.
  - rewrite (N [] []) by reflexivity. reflexivity.
  - destruct (p z); simpl.
    + rewrite first_some_app. rewrite IH; [simpl; rewrite (N [] (z :: s)) by reflexivity; reflexivity|].
      intros w t Ev. apply (N (z :: w)). rewrite Ev. reflexivity.
    + rewrite (N [] (z :: s)) by reflexivity. reflexivity.
Qed.
Lemma bt_starL : forall p u v c (k : cont) x, Forall (fun y => p y = true) u ->
  (forall w t, u = w ++ t -> t <> [] -> k (t ++ v) c = None) -> k v c = Some x ->
  bt (RStarL p) (u ++ v) c k = Some x.
Proof.
  intros p u v c k x F N E. unfold bt. cbn [matches]. rewrite first_some_map. cbn [fst snd].
  induction u as [|y u IH]; simpl.
  - clear -E. destruct v as [|y v]; simpl; [rewrite E; reflexivity|].
    destruct (p y); simpl; [rewrite rev_app_distr; simpl|]; rewrite E; reflexivity.
  - inversion F; subst. rewrite H1. rewrite rev_app_distr. cbn [rev app first_some].
    assert (k (y :: u ++ v) c = None) as -> by (apply (N [] (y :: u) eq_refl); discriminate). apply IH; [assumption|].
    intros w t Ew Nt. apply (N (y :: w)); [rewrite Ew; reflexivity|assumption].
Qed.
Lemma bt_rlit : forall l s c (k : cont), bt (rlit l) (lit l ++ s) c k = k s c.
Proof.
  intros l s c k. unfold rlit. induction (lit l) as [|y u IH]; simpl; [apply bt_eps|].
  destruct u as [|z u]; simpl in *.
  - rewrite bt_set. unfold ch. rewrite Z.eqb_refl. reflexivity.
  - rewrite bt_seq, bt_set. unfold ch at 1. rewrite Z.eqb_refl. apply IH.
Qed.
End Bt.
Lemma bt_rlit_none : forall X l a r s c (k : str -> caps -> option X), lit l = a :: r -> hd_not (ch a) s ->
  bt (rlit l) s c k = None.
Proof.
  intros X l a r s c k E H. unfold rlit. rewrite E. simpl. destruct r; simpl.
  - rewrite bt_set. destruct s; [reflexivity|]. simpl in H. rewrite H. reflexivity.
  - rewrite bt_seq, bt_set. destruct s; [reflexivity|]. simpl in H. rewrite H. reflexivity.
Qed.

(** ** Runs of digits *)
Section Read.
Context (U : Unicode) (L : UniLaws U).
Notation dig := (is_digit U).

Lemma digits_dig : forall s, digits U s -> Forall (fun x => dig x = true) s.
Proof. intros s F. eapply Forall_impl; [|exact F]. intros a H. apply is_digit_some, H. Qed.
(** No digit and no underscore at the beginning. *)
Definition stops (s : str) : Prop := match s with [] => True | c :: _ => u_dig U c = None /\ c <> 95 end.
Lemma digit_run_stop : forall us t, stops t -> digit_run U us t = ([], t).
Proof.
  intros us [|c t]; [reflexivity|]. intros (H & N). simpl. rewrite H.
  destruct (Z.eqb_spec c 95); [congruence|]. rewrite andb_false_r. reflexivity.
Qed.
Lemma digit_run_app : forall u us t, digits U u -> stops t -> digit_run U us (u ++ t) = (digit_vals U u, t).
Proof.
  induction u as [|c u IH]; intros us t F H; [apply digit_run_stop, H|].
  inversion F; subst. simpl. destruct (u_dig U c) as [d|] eqn:E; [|congruence].
  rewrite IH by assumption. reflexivity.
Qed.
Lemma digit_vals_nil : forall u, digits U u -> digit_vals U u = [] -> u = [].
Proof.
  intros [|c u] F H; [reflexivity|]. inversion F; subst. simpl in H.
  destruct (u_dig U c); [discriminate|congruence].
Qed.
Lemma digit_vals_length : forall u, digits U u -> length (digit_vals U u) = length u.
Proof.
  induction u as [|c u IH]; intros F; [reflexivity|]. inversion F; subst. simpl.
  destruct (u_dig U c); [|congruence]. simpl. rewrite IH by assumption. reflexivity.
Qed.
Lemma digit_spc : forall c, u_dig U c <> None -> u_spc U c = false.
Proof. apply (ul_disjoint U L). Qed.
Lemma ascii_spc : forall c, 33 <= c < 128 -> u_spc U c = false.
Proof.
  intros c H. destruct (u_spc U c) eqn:E; [|reflexivity]. apply (ul_space U L) in E; lia.
Qed.
Lemma ascii_none : forall c, 0 <= c < 128 -> ~ (48 <= c <= 57) -> u_dig U c = None.
Proof. apply (ul_ascii U L). Qed.
Lemma digit_ascii : forall c, u_dig U c <> None -> 128 <= c \/ 48 <= c <= 57 \/ c < 0.
Proof.
  intros c H. destruct (Z_lt_dec c 128); [|left; lia]. destruct (Z_lt_dec c 0); [right; right; lia|].
  right; left. destruct (Z_le_dec 48 c), (Z_le_dec c 57); try lia; exfalso; apply H, ascii_none; lia.
Qed.

(** ** Stripping *)
Lemma lstrip_spaces : forall sp t, spaces U sp -> hd_not (u_spc U) t -> lstrip U (sp ++ t) = t.
Proof.
  induction sp as [|c sp IH]; intros t F H; simpl.
  - destruct t as [|c t]; [reflexivity|]. simpl in *. rewrite H. reflexivity.
  - inversion F; subst. rewrite H2. apply IH; assumption.
Qed.
Lemma spaces_rev : forall sp, spaces U sp -> spaces U (rev sp).
Proof. intros. apply Forall_rev. assumption. Qed.
Lemma strip_spaces : forall sp t sp', spaces U sp -> spaces U sp' -> hd_not (u_spc U) t ->
  hd_not (u_spc U) (rev t) -> strip U (sp ++ t ++ sp') = t.
Proof.
  intros sp t sp' F F' H H'. unfold strip. destruct t as [|c t].
  - simpl. rewrite <- (app_nil_r (sp ++ sp')).
    rewrite lstrip_spaces; [reflexivity|apply Forall_app; split; assumption|exact I].
  - rewrite lstrip_spaces; [|assumption|simpl in *; assumption].
    rewrite rev_app_distr. rewrite lstrip_spaces; [apply rev_involutive|apply spaces_rev; assumption|assumption].
Qed.
Lemma blanks_spaces : forall s, blanks U s -> spaces U s.
Proof. intros s F. eapply Forall_impl; [|exact F]. intros a (H & _). exact H. Qed.

(** No white space at either end. *)
Definition solid (s : str) : Prop := hd_not (u_spc U) s /\ hd_not (u_spc U) (rev s).
Lemma solid_all : forall s, Forall (fun c => u_spc U c = false) s -> solid s.
Proof.
  intros s F. split; [|apply Forall_rev in F; revert F; generalize (rev s); clear s; intros s F];
    destruct F; simpl; auto.
Qed.

(** ** int() *)
Lemma sign_nospc : forall sg neg, sign_of sg neg -> Forall (fun c => u_spc U c = false) sg.
Proof. intros sg neg []; simpl; repeat constructor; apply ascii_spc; lia. Qed.
Lemma digits_nospc : forall s, digits U s -> Forall (fun c => u_spc U c = false) s.
Proof. intros s F. eapply Forall_impl; [|exact F]. intros a H. apply digit_spc, H. Qed.
Lemma take_sign_run : forall sg neg t, sign_of sg neg -> hd_not (oneof "+-") t ->
  take_sign (sg ++ t) = (neg, t).
Proof.
  intros sg neg t [] H; simpl; try reflexivity. destruct t as [|c t]; [reflexivity|]. simpl in H.
  unfold oneof in H. simpl in H. simpl.
  destruct (Z.eqb_spec c 45); [subst; discriminate|]. destruct (Z.eqb_spec c 43); [subst; discriminate|]. reflexivity.
Qed.
Lemma digit_nosign : forall c, u_dig U c <> None -> oneof "+-" c = false.
Proof.
  intros c H. destruct (oneof "+-" c) eqn:E; [|reflexivity]. apply oneof_in in E. simpl in E.
  exfalso. apply H. apply ascii_none; lia.
Qed.
Lemma digits_hd : forall s p, (forall c, u_dig U c <> None -> p c = false) -> digits U s -> hd_not p s.
Proof. intros s p H F. destruct F; simpl; auto. Qed.

Lemma integer_nospc : forall t n, integer U t n -> Forall (fun c => u_spc U c = false) t.
Proof.
  intros t n (sg & neg & ds & -> & Hs & Hd & _ & _). apply Forall_app. split;
    [apply (sign_nospc _ _ Hs)|apply digits_nospc, Hd].
Qed.
Lemma integer_run : forall t n, integer U t n -> exists neg ds,
  take_sign t = (neg, ds) /\ digit_run U false ds = (digit_vals U ds, []) /\ digit_vals U ds <> [] /\
  n = (if neg then - val (digit_vals U ds) else val (digit_vals U ds)).
Proof.
  intros t n (sg & neg & ds & -> & Hs & Hd & Hn & ->). exists neg, ds. split; [|split; [|split]].
  - apply take_sign_run; [assumption|]. apply digits_hd; [apply digit_nosign|assumption].
  - rewrite <- (app_nil_r ds) at 1. apply digit_run_app; [assumption|exact I].
  - intros E. apply Hn, digit_vals_nil; assumption.
  - rewrite (uval_val U) by assumption. reflexivity.
Qed.
Lemma py_int_text : forall sp t n sp', spaces U sp -> spaces U sp' -> integer U t n ->
  py_int U (sp ++ t ++ sp') = Ok n.
Proof.
  intros sp t n sp' F F' H. unfold py_int.
  pose proof (solid_all _ (integer_nospc _ _ H)) as (S1 & S2).
  rewrite strip_spaces by assumption.
  destruct (integer_run _ _ H) as (neg & ds & E1 & E2 & E3 & ->). rewrite E1, E2.
  destruct (digit_vals U ds); [congruence|reflexivity].
Qed.

(** ** Superscripts *)
Lemma from_sup_raised : forall t, ascii_int t -> translate from_sup (map raised t) = t.
Proof.
  intros t F. unfold translate. rewrite map_map. rewrite <- (map_id t) at 2. apply map_ext_in.
  intros c Hc. unfold ascii_int in F. rewrite Forall_forall in F. apply F in Hc.
  assert (In c [43;45;48;49;50;51;52;53;54;55;56;57]) as Hi by (simpl; lia).
  clear -Hi. simpl in Hi. repeat (destruct Hi as [<-|Hi]; [reflexivity|]). destruct Hi.
Qed.
Lemma from_sup_other : forall t, Forall (fun c => ~ In c sups) t -> translate from_sup t = t.
Proof.
  intros t F. unfold translate. rewrite <- (map_id t) at 2. apply map_ext_in. intros c Hc.
  rewrite Forall_forall in F. apply F in Hc. clear -Hc.
  destruct (find _ from_sup) eqn:E; [|reflexivity]. exfalso. apply find_some in E. destruct E as (Hi & E).
  apply Z.eqb_eq in E. subst. apply Hc. clear -Hi. simpl in Hi. simpl.
  repeat (destruct Hi as [<-|Hi]; [simpl; tauto|]). destruct Hi.
Qed.
Lemma not_sup : forall c, u_dig U c <> None \/ u_spc U c = true \/ 0 <= c < 128 -> ~ In c sups.
Proof.
  intros c H Hi. destruct (ul_symbol U L c) as (D & S0); [right; right; assumption|].
  destruct H as [H|[H|H]]; [congruence|congruence|]. clear -H Hi. simpl in Hi. lia.
Qed.
Lemma nrmlze_plain : forall sp t n sp', spaces U sp -> spaces U sp' -> integer U t n ->
  nrmlze_superscript U (sp ++ t ++ sp') = Ok n.
Proof.
  intros sp t n sp' F F' H. unfold nrmlze_superscript. rewrite from_sup_other.
  - apply py_int_text; assumption.
  - destruct H as (sg & neg & ds & -> & Hs & Hd & _ & _).
    repeat (match goal with |- Forall _ (_ ++ _) => apply Forall_app; split end).
    + eapply Forall_impl; [|exact F]. intros. apply not_sup. auto.
    + destruct Hs; simpl; repeat constructor; apply not_sup; right; right; lia.
    + eapply Forall_impl; [|exact Hd]. intros. apply not_sup. auto.
    + eapply Forall_impl; [|exact F']. intros. apply not_sup. auto.
Qed.
Lemma translate_app : forall t a b, translate t (a ++ b) = translate t a ++ translate t b.
Proof. intros. apply map_app. Qed.
Lemma nrmlze_raised : forall t n sp', spaces U sp' -> integer U t n -> ascii_int t ->
  nrmlze_superscript U (map raised t ++ sp') = Ok n.
Proof.
  intros t n sp' F H A. unfold nrmlze_superscript. rewrite translate_app, from_sup_raised by assumption.
  rewrite from_sup_other; [apply (py_int_text [] t n sp'); [constructor|assumption|assumption]|].
  eapply Forall_impl; [|exact F]. intros. apply not_sup. auto.
Qed.

(** ** float() *)
Context {K : FmtOps}.
(** The first character of a decimal number. *)
Definition dec_char (c : Z) : Prop := u_dig U c <> None \/ c = 46.
Lemma decimal_chars : forall a m k, decimal U a m k -> Forall dec_char a /\ a <> [].
Proof.
  intros a m k []; (split; [|]).
  - eapply Forall_impl; [|exact H]. intros; left; assumption.
  - assumption.
  - apply Forall_app. split; [eapply Forall_impl; [|exact H]; intros; left; assumption|].
    constructor; [right; reflexivity|]. eapply Forall_impl; [|exact H0]. intros; left; assumption.
  - destruct i; discriminate.
Qed.
Lemma dec_char_class : forall c l, dec_char c -> forallb (fun x => (0 <=? x) && (x <? 128) && negb ((48 <=? x) && (x <=? 57)) && negb (x =? 46)) (lit l) = true ->
  oneof l c = false.
Proof.
  intros c l H F. destruct (oneof l c) eqn:E; [|reflexivity]. exfalso. apply oneof_in in E.
  rewrite forallb_forall in F. apply F in E. rewrite !andb_true_iff, !negb_true_iff, andb_false_iff in E.
  destruct E as (((E1 & E2) & E3) & E4). destruct H as [H| ->]; [|discriminate].
  apply H, ascii_none; lia.
Qed.
Lemma dec_char_spc : forall c, dec_char c -> u_spc U c = false.
Proof. intros c [H| ->]; [apply digit_spc, H|apply ascii_spc; lia]. Qed.
Lemma dec_char_lower : forall c, dec_char c -> lower c = c.
Proof.
  intros c [H| ->]; [|reflexivity]. unfold lower. destruct (Z.leb_spec 65 c), (Z.leb_spec c 90); simpl; try reflexivity.
  exfalso. apply H, ascii_none; lia.
Qed.
Lemma not_word : forall c t w a r, lit w = a :: r -> c <> a -> lower c = c -> is_word (c :: t) w = false.
Proof.
  intros c t w a r E N Lo. unfold is_word. destruct (str_eqb _ _) eqn:Es; [|reflexivity].
  apply str_eqb_eq in Es. rewrite E in Es. simpl in Es. rewrite Lo in Es. congruence.
Qed.
Lemma dec_no_word : forall c t w a r, lit w = a :: r -> 65 <= a < 128 -> dec_char c -> is_word (c :: t) w = false.
Proof.
  intros c t w a r E R H. eapply not_word; [exact E| |apply dec_char_lower, H].
  intros ->. destruct H as [H|H]; [|lia]. apply H, ascii_none; lia.
Qed.

(** A decimal number followed by something that is not a digit. *)
Definition ends_num (t : str) : Prop := stops t /\ hd_not (ch 46) t.
Lemma decimal_run : forall a m k t, decimal U a m k -> ends_num t ->
  exists i t1 f, digit_run U false (a ++ t) = (i, t1) /\
    (match t1 with c :: t' => if c =? 46 then digit_run U false t' else ([], t1) | [] => ([], []) end) = (f, t) /\
    val (i ++ f) = m /\ length f = k /\ isnil i && isnil f = false.
Proof.
  intros a m k t [i Hi Ni|i f Hi Hf Nif] (T1 & T2).
  - exists (digit_vals U i), t, []. split; [apply digit_run_app; assumption|]. split; [|split; [|split]].
    + destruct t as [|c t]; [reflexivity|]. destruct (Z.eqb_spec c 46) as [->|]; [discriminate T2|reflexivity].
    + rewrite app_nil_r. symmetry. apply uval_val; assumption.
    + reflexivity.
    + rewrite andb_true_r. destruct (digit_vals U i) eqn:E; [|reflexivity]. exfalso; apply Ni, digit_vals_nil; assumption.
  - exists (digit_vals U i), (46 :: f ++ t), (digit_vals U f). split; [|split; [|split; [|split]]].
    + rewrite <- app_assoc. apply digit_run_app; [assumption|]. split; [apply ascii_none; lia|lia].
    + simpl. apply digit_run_app; assumption.
    + rewrite <- digit_vals_app. symmetry. apply uval_val. apply Forall_app. split; assumption.
    + apply digit_vals_length, Hf.
    + apply andb_false_iff. destruct (digit_vals U i) eqn:E; [|left; reflexivity]. right.
      destruct (digit_vals U f) eqn:E'; [|reflexivity]. exfalso. apply Nif.
      rewrite (digit_vals_nil i Hi E), (digit_vals_nil f Hf E'). reflexivity.
Qed.
Lemma exponent_of_text : forall x n, float_exp U x n -> exponent_of U x = Some n.
Proof.
  intros x n [|c t n' Hc Ht]; [reflexivity|]. simpl.
  assert ((c =? 101) || (c =? 69) = true) as -> by (destruct Hc; subst; reflexivity).
  destruct (integer_run _ _ Ht) as (neg & ds & E1 & E2 & E3 & ->). rewrite E1, E2.
  destruct (digit_vals U ds); [congruence|reflexivity].
Qed.
Lemma float_exp_ends : forall x n, float_exp U x n -> ends_num x.
Proof.
  intros x n [|c t n' Hc Ht]; split; simpl; try exact I.
  - destruct Hc; subst; (split; [apply ascii_none; lia|lia]).
  - destruct Hc; subst; reflexivity.
Qed.
Lemma float_exp_nospc : forall x n, float_exp U x n -> Forall (fun c => u_spc U c = false) x.
Proof.
  intros x n [|c t n' Hc Ht]; constructor.
  - destruct Hc; subst; apply ascii_spc; lia.
  - apply (integer_nospc _ _ Ht).
Qed.
Lemma word_nospc : forall w s, word_of w s -> forallb (fun c => (97 <=? c) && (c <=? 122)) (lit w) = true ->
  Forall (fun c => 65 <= c <= 90 \/ 97 <= c <= 122) s.
Proof.
  intros w s E F. unfold word_of in E. rewrite <- E in F. clear E. induction s as [|c s IH]; constructor.
  - simpl in F. apply andb_true_iff in F. destruct F as (F & _). unfold lower in F.
    destruct (Z.leb_spec 65 c), (Z.leb_spec c 90); simpl in F; apply andb_true_iff in F; lia.
  - apply IH. simpl in F. apply andb_true_iff in F. apply F.
Qed.
Lemma letters_nospc : forall s, Forall (fun c => 65 <= c <= 90 \/ 97 <= c <= 122) s ->
  Forall (fun c => u_spc U c = false) s.
Proof. intros s F. eapply Forall_impl; [|exact F]. intros a H. apply ascii_spc. simpl in H. lia. Qed.
Lemma letters_nosign : forall s, Forall (fun c => 65 <= c <= 90 \/ 97 <= c <= 122) s -> hd_not (oneof "+-") s.
Proof.
  intros s F. destruct F as [|c s H _]; simpl; [exact I|]. unfold oneof; simpl.
  destruct (Z.eqb_spec c 43), (Z.eqb_spec c 45); simpl; try reflexivity; lia.
Qed.
Lemma nan_letters : forall w, word_of "nan" w -> Forall (fun c => 65 <= c <= 90 \/ 97 <= c <= 122) w.
Proof. intros w H. eapply word_nospc; [exact H|reflexivity]. Qed.
Lemma inf_letters : forall w, word_of "inf" w \/ word_of "infinity" w -> Forall (fun c => 65 <= c <= 90 \/ 97 <= c <= 122) w.
Proof. intros w [H|H]; (eapply word_nospc; [exact H|reflexivity]). Qed.

(** A decimal number, then anything that starts with no digit: float() of the whole. *)
Lemma py_float_dec : forall sp sg neg a m k x sp', spaces U sp -> spaces U sp' -> sign_of sg neg ->
  decimal U a m k -> ends_num x -> hd_not (u_spc U) (rev (sg ++ a ++ x)) ->
  py_float (K := K) U (sp ++ (sg ++ a ++ x) ++ sp') =
  match exponent_of U x with Some n => Ok (x_dec K neg m (n - Z.of_nat k)) | None => Err EValue end.
Proof.
  intros sp sg neg a m k x sp' F F' Hs Ha Hx Hend. unfold py_float.
  destruct (decimal_chars _ _ _ Ha) as (Ca & Na).
  destruct a as [|c a]; [congruence|].
  rewrite strip_spaces; [|assumption|assumption| |assumption].
  2:{ destruct Hs; simpl; try (apply ascii_spc; lia). inversion Ca; subst. apply dec_char_spc; assumption. }
  assert (Hc : dec_char c) by (inversion Ca; assumption).
  rewrite (take_sign_run _ neg) by (try assumption; simpl; apply (dec_char_class c "+-" Hc); reflexivity).
  change ((c :: a) ++ x) with (c :: (a ++ x)).
  rewrite (dec_no_word c _ "nan" 110 (lit "an")), (dec_no_word c _ "inf" 105 (lit "nf")),
    (dec_no_word c _ "infinity" 105 (lit "nfinity")) by (try reflexivity; try lia; assumption).
  change (c :: (a ++ x)) with ((c :: a) ++ x). cbn [orb].
  destruct (decimal_run _ _ _ _ Ha Hx) as (i & t1 & f & E1 & E2 & E3 & E4 & E5).
  rewrite E1, E2, E3, E4, E5. reflexivity.
Qed.
Theorem py_float_text : forall s l, float_text U s l -> py_float (K := K) U s = Ok (lex_fl (K := K) l).
Proof.
  intros s l [sp sg neg a m k x n sp' F F' Hs Ha Hx|sp sg neg w sp' F F' Hs Hw|sp sg neg w sp' F F' Hs Hw].
  - rewrite (py_float_dec sp sg neg a m k x sp');
      try (apply blanks_spaces; assumption); try assumption; try (apply (float_exp_ends _ _ Hx)).
    + rewrite (exponent_of_text _ _ Hx). reflexivity.
    + apply solid_all. repeat (match goal with |- Forall _ (_ ++ _) => apply Forall_app; split end); [apply (sign_nospc _ _ Hs)| |apply (float_exp_nospc _ _ Hx)].
      eapply Forall_impl; [|apply (proj1 (decimal_chars _ _ _ Ha))]. intros; apply dec_char_spc; assumption.
  - unfold py_float. pose proof (nan_letters _ Hw) as Lw.
    assert (Hso : solid (sg ++ w)) by (apply solid_all, Forall_app; split; [apply (sign_nospc _ _ Hs)|apply letters_nospc, Lw]).
    destruct Hso as (S1 & S2).
    rewrite strip_spaces; try (apply blanks_spaces; assumption); try assumption.
    rewrite (take_sign_run _ neg) by (try assumption; apply letters_nosign, Lw).
    unfold is_word. rewrite Hw, str_eqb_refl. reflexivity.
  - unfold py_float. pose proof (inf_letters _ Hw) as Lw.
    assert (Hso : solid (sg ++ w)) by (apply solid_all, Forall_app; split; [apply (sign_nospc _ _ Hs)|apply letters_nospc, Lw]).
    destruct Hso as (S1 & S2).
    rewrite strip_spaces; try (apply blanks_spaces; assumption); try assumption.
    rewrite (take_sign_run _ neg) by (try assumption; apply letters_nosign, Lw).
    unfold is_word. destruct Hw as [Hw|Hw]; unfold word_of in Hw; rewrite !Hw; reflexivity.
Qed.
End Read.
