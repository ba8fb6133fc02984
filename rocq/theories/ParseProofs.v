(** The notations of numbers with uncertainties are read as they should be. *)
From Coq Require Import String.
From Coq Require Import ZArith List Bool Lia.
From Verif Require Import Base Str FmtOps Format Parse StrProofs FmtSpec SpecProofs FixedProofs FormatProofs ParseSpec ReadProofs.
Import ListNotations.
Local Open Scope Z_scope.
Local Open Scope res_scope.

Ltac split_app := repeat (match goal with |- Forall _ (_ ++ _) => apply Forall_app; split end).
Lemma bt_star_nil : forall X p s c (k : str -> caps -> option X), hd_not p s -> bt (RStar p) s c k = k s c.
Proof.
  intros X p s c k H. unfold bt. cbn [matches]. rewrite first_some_map. cbn [fst snd].
  destruct s as [|x s]; simpl; [destruct (k [] c); reflexivity|]. simpl in H. rewrite H. simpl.
  destruct (k (x :: s) c); reflexivity.
Qed.
Lemma consumed_all : forall s, consumed s [] = s.
Proof. intros. rewrite <- (app_nil_r s) at 1. apply consumed_app. Qed.
(** The rest of a line. *)
Lemma bt_rest : forall X n s c (k : str -> caps -> option X) x, Forall (fun y => dot y = true) s ->
  k [] ((n, s) :: c) = Some x -> bt (RGroup n (RStar dot)) s c k = Some x.
Proof.
  intros X n s c k x F E. rewrite bt_group. rewrite <- (app_nil_r s) at 1. apply bt_star_first; [assumption|exact I|].
  rewrite consumed_all. exact E.
Qed.

Section Parse.
Context (U : Unicode) (L : UniLaws U).

(** Characters of numbers: no newline, parentheses, slash or plus-minus sign. *)
Definition quiet (c : Z) : Prop := ~ In c [10; 40; 41; 47; 177].
Lemma quiet_ascii : forall c, 0 <= c < 128 -> c <> 10 -> c <> 40 -> c <> 41 -> c <> 47 -> quiet c.
Proof. intros c H A B C D Hi. simpl in Hi. lia. Qed.
Lemma quiet_blank : forall c, u_spc U c = true /\ c <> 10 -> quiet c.
Proof.
  intros c (H & N) Hi. simpl in Hi.
  destruct Hi as [E|[E|[E|[E|[E|[]]]]]]; subst; try congruence;
    try (rewrite (ascii_spc U L) in H by lia; discriminate).
  destruct (ul_symbol U L 177); [left; reflexivity|congruence].
Qed.
Lemma quiet_digit : forall c, u_dig U c <> None -> quiet c.
Proof.
  intros c H Hi. simpl in Hi. apply H.
  destruct Hi as [E|[E|[E|[E|[E|[]]]]]]; subst; try (apply (ascii_none U L); lia).
  apply (ul_symbol U L 177). left; reflexivity.
Qed.
Lemma quiet_dot : forall c, quiet c -> dot c = true.
Proof. intros c H. unfold dot. destruct (Z.eqb_spec c 10); [|reflexivity]. subst. exfalso. apply H. left; reflexivity. Qed.
Lemma blanks_quiet : forall s, blanks U s -> Forall quiet s.
Proof. intros s F. eapply Forall_impl; [|exact F]. apply quiet_blank. Qed.
Lemma digits_quiet : forall s, digits U s -> Forall quiet s.
Proof. intros s F. eapply Forall_impl; [|exact F]. apply quiet_digit. Qed.
Lemma sign_quiet : forall sg neg, sign_of sg neg -> Forall quiet sg.
Proof. intros sg neg []; simpl; repeat (constructor; [apply quiet_ascii; lia|]); constructor. Qed.
Lemma dec_quiet : forall a m k, decimal U a m k -> Forall quiet a.
Proof.
  intros a m k H. eapply Forall_impl; [|apply (proj1 (decimal_chars U _ _ _ H))].
  intros c [D| ->]; [apply quiet_digit, D|apply quiet_ascii; lia].
Qed.
Lemma integer_quiet : forall t n, integer U t n -> Forall quiet t.
Proof.
  intros t n (sg & neg & ds & -> & Hs & Hd & _). split_app; [apply (sign_quiet _ _ Hs)|apply digits_quiet, Hd].
Qed.
Lemma raised_sup : forall t, ascii_int t -> Forall (fun c => In c sups) (map raised t).
Proof.
  intros t F. apply Forall_map. eapply Forall_impl; [|exact F]. intros c Hc.
  assert (In c [43;45;48;49;50;51;52;53;54;55;56;57]) as Hi by (simpl in *; lia).
  clear -Hi. simpl in Hi. repeat (destruct Hi as [<-|Hi]; [vm_compute; tauto|]). destruct Hi.
Qed.
Lemma sup_quiet : forall c, In c sups -> quiet c.
Proof. intros c H Hi. simpl in H, Hi. lia. Qed.
Lemma raised_quiet : forall t, ascii_int t -> Forall quiet (map raised t).
Proof. intros t F. eapply Forall_impl; [|apply raised_sup, F]. apply sup_quiet. Qed.
Lemma lit10_quiet : Forall quiet (lit "10").
Proof. simpl. repeat (constructor; [apply quiet_ascii; lia|]). constructor. Qed.
Lemma quiet215 : quiet 215.
Proof. intros H; simpl in H; lia. Qed.
Lemma letters_quiet : forall s, Forall (fun c => 65 <= c <= 90 \/ 97 <= c <= 122) s -> Forall quiet s.
Proof. intros s F. eapply Forall_impl; [|exact F]. intros c H. simpl in H. apply quiet_ascii; lia. Qed.
Lemma fexp_quiet : forall x n, float_exp U x n -> Forall quiet x.
Proof.
  intros x n [|c t n' Hc Ht]; constructor; [destruct Hc; subst; apply quiet_ascii; lia|apply (integer_quiet _ _ Ht)].
Qed.
Lemma float_text_quiet : forall s l, float_text U s l -> Forall quiet s.
Proof.
  intros s l [sp sg neg a m k x n sp' F F' Hs Ha Hx|sp sg neg w sp' F F' Hs Hw|sp sg neg w sp' F F' Hs Hw];
    split_app; try (apply blanks_quiet; assumption); try apply (sign_quiet _ _ Hs).
  - apply (dec_quiet _ _ _ Ha).
  - apply (fexp_quiet _ _ Hx).
  - apply letters_quiet, nan_letters, Hw.
  - apply letters_quiet, inf_letters, Hw.
Qed.
Lemma number_quiet : forall s l x, number U s l x -> Forall quiet s.
Proof.
  intros s l x0 [s0 l0 H|sp sg neg a m k x x' t n sp' F1 F2 F3 F4 Hs Ha Ht At]; [apply (float_text_quiet _ _ H)|].
  split_app; try (apply blanks_quiet; assumption); [apply (sign_quiet _ _ Hs)|apply (dec_quiet _ _ _ Ha)|].
  constructor; [apply quiet215|]. split_app; try (apply blanks_quiet; assumption); [apply lit10_quiet|apply raised_quiet, At].
Qed.
Lemma exponent_quiet : forall e n, exponent U e n -> Forall quiet e.
Proof.
  intros e n [c t n' Hc Ht|sp sp' t n' F F' Ht At].
  - constructor; [destruct Hc; subst; apply quiet_ascii; lia|apply (integer_quiet _ _ Ht)].
  - split_app; [apply blanks_quiet, F|]. constructor; [apply quiet215|].
    split_app; [apply blanks_quiet, F'|apply lit10_quiet|apply raised_quiet, At].
Qed.
Lemma quiet_all_dot : forall s, Forall quiet s -> Forall (fun c => dot c = true) s.
Proof. intros s F. eapply Forall_impl; [|exact F]. apply quiet_dot. Qed.

(** ** The pretty-print notation of a number *)
Lemma blank215 : u_spc U 215 = false.
Proof. apply (ul_symbol U L). right; left; reflexivity. Qed.
Lemma dig215 : u_dig U 215 = None.
Proof. apply (ul_symbol U L). right; left; reflexivity. Qed.
Lemma skip_app_ne : forall p t v, skip p t <> [] -> skip p (t ++ v) = skip p t ++ v.
Proof.
  intros p t v. induction t as [|x t IH]; simpl; [congruence|]. destruct (p x); [exact IH|reflexivity].
Qed.
Lemma skip_ne : forall p t x, In x t -> p x = false -> skip p t <> [].
Proof.
  intros p t x. induction t as [|y t IH]; simpl; [tauto|]. intros [->|H] E.
  - rewrite E. discriminate.
  - destruct (p y); [apply IH; assumption|discriminate].
Qed.
Lemma skip_in : forall p t x, In x (skip p t) -> In x t.
Proof.
  intros p t x. induction t as [|y t IH]; simpl; [tauto|]. destruct (p y); [intros; right; apply IH; assumption|tauto].
Qed.
Definition times_re : list re := [RStar (u_spc U); RSet (ch 215); RStar (u_spc U); rlit "10"].
Lemma bt_times : forall X x x' r t c (k : str -> caps -> option X) v, spaces U x -> spaces U x' ->
  bt r t c k = Some v ->
  bt (RSeq (RStar (u_spc U)) (RSeq (RSet (ch 215)) (RSeq (RStar (u_spc U)) (RSeq (rlit "10") r))))
    (x ++ 215 :: x' ++ lit "10" ++ t) c k = Some v.
Proof.
  intros X x x' r t c k v F F' E. rewrite bt_seq. apply bt_star_first; [assumption|apply blank215|].
  rewrite bt_seq, bt_set. unfold ch. rewrite Z.eqb_refl. rewrite bt_seq.
  apply bt_star_first; [assumption|apply (ascii_spc U L 49); lia|].
  rewrite bt_seq, bt_rlit. exact E.
Qed.
Lemma bt_times_none : forall X t v r c (k : str -> caps -> option X) y, In y t -> u_spc U y = false -> ~ In 215 t ->
  bt (RSeq (RStar (u_spc U)) (RSeq (RSet (ch 215)) r)) (t ++ v) c k = None.
Proof.
  intros X t v r c k y Hy Sy N. rewrite bt_seq, bt_star.
  - pose proof (skip_ne _ _ _ Hy Sy) as Ne. rewrite skip_app_ne by assumption.
    destruct (skip (u_spc U) t) as [|z w] eqn:E; [congruence|].
    rewrite bt_seq, bt_set. cbn [app]. unfold ch. destruct (Z.eqb_spec 215 z); [|reflexivity]. subst. exfalso. apply N.
    apply (skip_in (u_spc U)). rewrite E. left; reflexivity.
  - intros z s c' Hz. rewrite bt_seq, bt_set. unfold ch. destruct (Z.eqb_spec 215 z); [|reflexivity].
    subst. rewrite blank215 in Hz. discriminate.
Qed.
Lemma last_suffix : forall A (a u w t : list A), a <> [] -> u ++ a = w ++ t -> t <> [] -> exists y, In y a /\ In y t.
Proof.
  intros A a u w t Na E Nt. destruct (exists_last Na) as (a' & y & ->). destruct (exists_last Nt) as (t' & z & ->).
  rewrite !app_assoc in E. apply app_inj_tail in E. destruct E as (_ & ->).
  exists z. split; apply in_or_app; right; left; reflexivity.
Qed.

Lemma pretty_match : forall sp sg neg a m k x x' t sp', blanks U sp -> blanks U x -> blanks U x' ->
  blanks U sp' -> sign_of sg neg -> decimal U a m k -> ascii_int t ->
  re_match (pretty_re U) ((sp ++ sg ++ a) ++ x ++ 215 :: x' ++ lit "10" ++ map raised t ++ sp') =
  Some [(2%nat, map raised t ++ sp'); (1%nat, sp ++ sg ++ a)].
Proof.
  intros sp sg neg a m k x x' t sp' F1 F2 F3 F4 Hs Ha At. rewrite re_match_bt. unfold pretty_re. cbn [rseq].
  destruct (decimal_chars U _ _ _ Ha) as (Ca & Na).
  rewrite bt_seq, bt_group. apply bt_starL.
  - apply quiet_all_dot. split_app; [apply blanks_quiet, F1|apply (sign_quiet _ _ Hs)|apply (dec_quiet _ _ _ Ha)].
  - intros w u Ew Nu.
    assert (E : (sp ++ sg) ++ a = w ++ u) by (rewrite <- app_assoc; exact Ew).
    destruct (last_suffix _ _ _ _ _ Na E Nu) as (y & Hya & Hyu).
    apply (bt_times_none _ u _ _ _ _ y Hyu).
    + rewrite Forall_forall in Ca. apply (dec_char_spc U L), Ca, Hya.
    + intros H215. assert (Hin : In 215 ((sp ++ sg) ++ a)) by (rewrite E; apply in_or_app; right; exact H215).
      apply in_app_or in Hin. destruct Hin as [Hin|Hin]; [apply in_app_or in Hin; destruct Hin as [Hin|Hin]|].
      * unfold blanks in F1. rewrite Forall_forall in F1. apply F1 in Hin. rewrite blank215 in Hin. destruct Hin; discriminate.
      * destruct Hs; simpl in Hin; lia.
      * rewrite Forall_forall in Ca. apply Ca in Hin. destruct Hin as [Hin|Hin]; [apply Hin, dig215|lia].
  - apply bt_times; [apply blanks_spaces, F2|apply blanks_spaces, F3|].
    rewrite consumed_app. apply bt_rest; [|reflexivity].
    apply quiet_all_dot. split_app; [apply raised_quiet, At|apply blanks_quiet, F4].
Qed.

Context {K : FmtOps}.
Notation lexf := (lex_fl (K := K)).
Lemma blank_stops : forall c, u_spc U c = true -> u_dig U c = None /\ c <> 95 /\ ch 46 c = false /\ (c =? 101) || (c =? 69) = false.
Proof.
  intros c H. split; [|split; [|split]].
  - destruct (u_dig U c) eqn:E; [|reflexivity]. rewrite (ul_disjoint U L) in H by congruence. discriminate.
  - intros ->. rewrite (ascii_spc U L) in H by lia. discriminate.
  - unfold ch. destruct (Z.eqb_spec 46 c); [|reflexivity]. subst. rewrite (ascii_spc U L) in H by lia. discriminate.
  - destruct (Z.eqb_spec c 101); [subst; rewrite (ascii_spc U L) in H by lia; discriminate|].
    destruct (Z.eqb_spec c 69); [subst; rewrite (ascii_spc U L) in H by lia; discriminate|]. reflexivity.
Qed.
Lemma pretty_not_float : forall sp sg neg a m k x x' t n sp', blanks U sp -> blanks U x -> blanks U x' ->
  blanks U sp' -> sign_of sg neg -> decimal U a m k -> integer U t n -> ascii_int t ->
  py_float (K := K) U (sp ++ sg ++ a ++ x ++ 215 :: x' ++ lit "10" ++ map raised t ++ sp') = Err EValue.
Proof.
  intros sp sg neg a m k x x' t n sp' F1 F2 F3 F4 Hs Ha Ht At.
  set (y := x ++ 215 :: x' ++ lit "10" ++ map raised t).
  replace (sp ++ sg ++ a ++ x ++ 215 :: x' ++ lit "10" ++ map raised t ++ sp')
    with (sp ++ (sg ++ a ++ y) ++ sp').
  2:{ unfold y. rewrite <- !app_assoc. cbn [app]. rewrite <- !app_assoc. reflexivity. }
  rewrite (py_float_dec U L sp sg neg a m k y sp').
  - assert (exponent_of U y = None) as ->; [|reflexivity].
    unfold y. destruct F2 as [|c x (Hc & _) F2]; [reflexivity|]. cbn [app exponent_of].
    destruct (blank_stops c Hc) as (_ & _ & _ & E). rewrite E. reflexivity.
  - apply blanks_spaces, F1.
  - apply blanks_spaces, F4.
  - exact Hs.
  - exact Ha.
  - unfold y. destruct F2 as [|c x (Hc & _) F2].
    + split; [split; [apply dig215|lia]|reflexivity].
    + destruct (blank_stops c Hc) as (B1 & B2 & B3 & _). split; [split; assumption|exact B3].
  - assert (Nt : t <> []).
    { destruct Ht as (s1 & ? & ds & -> & _ & _ & Nd & _). destruct s1, ds; simpl; congruence. }
    destruct (exists_last Nt) as (t' & z & ->). unfold y. rewrite map_app. cbn [map].
    replace (sg ++ a ++ x ++ 215 :: x' ++ lit "10" ++ map raised t' ++ [raised z])
      with ((sg ++ a ++ x ++ 215 :: x' ++ lit "10" ++ map raised t') ++ [raised z])
      by (repeat (rewrite <- app_assoc; cbn [app]); reflexivity).
    rewrite rev_app_distr. cbn [rev app hd_not].
    pose proof (raised_sup _ At) as Fs. rewrite map_app in Fs. apply Forall_app in Fs. destruct Fs as (_ & Fs).
    inversion Fs; subst. apply (ul_symbol U L). right; right; assumption.
Qed.
Theorem to_float_text : forall s l x, number U s l x -> to_float (K := K) U s = times (K := K) x (lexf l).
Proof.
  intros s l x0 [s0 l0 H|sp sg neg a m k x x' t n sp' F1 F2 F3 F4 Hs Ha Ht At]; unfold to_float.
  - rewrite (py_float_text U L _ _ H). reflexivity.
  - rewrite (pretty_not_float sp sg neg a m k x x' t n sp') by assumption.
    replace (sp ++ sg ++ a ++ x ++ 215 :: x' ++ lit "10" ++ map raised t ++ sp')
      with ((sp ++ sg ++ a) ++ x ++ 215 :: x' ++ lit "10" ++ map raised t ++ sp') by (rewrite <- !app_assoc; reflexivity).
    rewrite (pretty_match sp sg neg a m k x x' t sp') by assumption.
    change (grp [(2%nat, map raised t ++ sp'); (1%nat, sp ++ sg ++ a)] 1) with (sp ++ sg ++ a).
    change (grp [(2%nat, map raised t ++ sp'); (1%nat, sp ++ sg ++ a)] 2) with (map raised t ++ sp').
    assert (Ef : py_float (K := K) U (sp ++ sg ++ a) = Ok (lexf (LDec neg m (- Z.of_nat k)))).
    { replace (sp ++ sg ++ a) with (sp ++ (sg ++ a ++ []) ++ []) by (rewrite !app_nil_r; reflexivity).
      apply (py_float_text U L). apply (ft_dec U sp sg neg a m k [] 0 []); try assumption; constructor. }
    rewrite Ef. cbn [rbind].
    rewrite (nrmlze_raised U L t n sp') by (try assumption; apply blanks_spaces, F4). reflexivity.
Qed.

(** ** Two numbers *)
Definition calm (s : str) : Prop := Forall (fun c => c <> 177) s /\ Forall (fun c => c <> 47) (tl s).
Lemma no_pm : forall X r s c (k : str -> caps -> option X), calm s ->
  bt (RSeq (RAlt (rlit "+/-") (RSet (ch 177))) r) s c k = None.
Proof.
  intros X r s c k (C1 & C2). rewrite bt_seq, bt_alt.
  unfold rlit. cbn [lit map rseq]. rewrite bt_seq, bt_set.
  assert (E2 : forall k' : str -> caps -> option X, bt (RSet (ch 177)) s c k' = None).
  { intros k'. rewrite bt_set. destruct s as [|y s]; [reflexivity|]. inversion C1; subst. unfold ch.
    destruct (Z.eqb_spec 177 y); [congruence|reflexivity]. }
  destruct s as [|y s]; [rewrite E2; reflexivity|].
  destruct (ch _ y); [|rewrite E2; reflexivity].
  rewrite bt_seq, bt_set. destruct s as [|z s]; [rewrite E2; reflexivity|].
  simpl in C2. inversion C2; subst. unfold ch at 1.
  match goal with |- context [?a =? z] => change a with 47 end.
  destruct (Z.eqb_spec 47 z); [congruence|]. rewrite E2. reflexivity.
Qed.
Lemma quiet_calm : forall s, Forall quiet s -> calm s.
Proof.
  intros s F. split.
  - eapply Forall_impl; [|exact F]. intros c H ->. apply H. simpl. tauto.
  - destruct F as [|c s H F]; [constructor|]. simpl. eapply Forall_impl; [|exact F]. intros d Hd ->. apply Hd. simpl. tauto.
Qed.
Lemma calm_suffix : forall w t, calm (w ++ t) -> calm t.
Proof.
  intros w t (C1 & C2). apply Forall_app in C1. destruct C1 as (_ & C1). split; [exact C1|].
  destruct w as [|y w]; [exact C2|]. simpl in C2. apply Forall_app in C2. destruct C2 as (_ & C2).
  destruct t; [constructor|]. inversion C2; assumption.
Qed.
Lemma pm_match : forall s pm t, Forall quiet s -> pm_sign pm -> Forall quiet t ->
  re_match pm_re (s ++ pm ++ t) = Some [(2%nat, t); (1%nat, s)].
Proof.
  intros s pm t Fs Hp Ft. rewrite re_match_bt. unfold pm_re. cbn [rseq]. rewrite bt_seq, bt_group.
  apply bt_star_back.
  - split_app; [apply quiet_all_dot, Fs| |apply quiet_all_dot, Ft].
    destruct Hp; subst; repeat constructor.
  - intros w u Ew Nw. apply no_pm.
    destruct w as [|y w]; [congruence|].
    assert (Cq : calm (tl (pm ++ t))).
    { destruct Hp; subst; simpl.
      - split; simpl; repeat constructor; try lia; eapply Forall_impl; try exact Ft; intros d Hd ->; apply Hd; simpl; tauto.
      - apply quiet_calm, Ft. }
    rewrite Ew in Cq. simpl in Cq. apply (calm_suffix w), Cq.
  - rewrite bt_seq, bt_alt. rewrite consumed_app.
    assert (R : forall c, bt (RGroup 2 (RStar dot)) t c (fun _ c => Some c) = Some ((2%nat, t) :: c)).
    { intros. apply bt_rest; [apply quiet_all_dot, Ft|reflexivity]. }
    destruct Hp; subst.
    + rewrite bt_rlit, R. reflexivity.
    + rewrite (bt_rlit_none _ "+/-" 43 (lit "/-")); [|reflexivity|reflexivity].
      cbn [app]. rewrite bt_set. unfold ch. cbn [Z.eqb]. rewrite R. reflexivity.
Qed.
Lemma pm_none : forall s, calm s -> re_match pm_re s = None.
Proof.
  intros s C. rewrite re_match_bt. unfold pm_re. cbn [rseq]. rewrite bt_seq, bt_group. apply bt_star_none.
  intros w t ->. apply no_pm, (calm_suffix w), C.
Qed.

(** ** Exponents *)
Lemma exp_intro_match : forall e n, exponent U e n -> exists i b, e = i ++ b /\ b <> [] /\
  Forall quiet b /\ nrmlze_superscript U b = Ok n /\ hd_not (is_digit U) e /\ hd_not (ch 46) e /\ hd_not (ch 40) e /\ e <> [] /\
  forall X r c (k : str -> caps -> option X) x, bt r b c k = Some x -> bt (RSeq (exp_intro U) r) e c k = Some x.
Proof.
  intros e n [c t n' Hc Ht|sp sp' t n' F F' Ht At].
  - exists [c], t. split; [reflexivity|].
    split; [destruct Ht as (s1 & ? & ds & -> & _ & _ & Nd & _); destruct s1, ds; simpl; congruence|].
    split; [apply (integer_quiet _ _ Ht)|].
    split; [pose proof (nrmlze_plain U L [] t n' []) as E; rewrite app_nil_r in E; apply E; (constructor || assumption)|].
    split; [destruct Hc; subst; simpl; unfold is_digit; rewrite (ascii_none U L) by lia; reflexivity|].
    split; [destruct Hc; subst; reflexivity|]. split; [destruct Hc; subst; reflexivity|]. split; [discriminate|].
    intros X r c0 k x E. rewrite bt_seq. unfold exp_intro. rewrite bt_alt, bt_set.
    assert (oneof "eE" c = true) as -> by (destruct Hc; subst; reflexivity). rewrite E. reflexivity.
  - exists (sp ++ 215 :: sp' ++ lit "10"), (map raised t).
    split; [rewrite <- app_assoc; cbn [app]; rewrite <- app_assoc; reflexivity|].
    split; [destruct Ht as (s1 & ? & ds & -> & _ & _ & Nd & _); destruct s1, ds; simpl; congruence|].
    split; [apply raised_quiet, At|].
    split; [pose proof (nrmlze_raised U L t n' []) as E; rewrite app_nil_r in E; apply E; (constructor || assumption)|].
    assert (H1 : forall c, u_spc U c = true \/ c = 215 -> u_dig U c = None /\ ch 46 c = false /\ ch 40 c = false /\ oneof "eE" c = false).
    { intros c [Hc| ->]; [|split; [apply dig215|repeat split; reflexivity]].
      destruct (blank_stops c Hc) as (B1 & B2 & B3 & B4). split; [exact B1|]. split; [exact B3|]. split.
      - unfold ch. destruct (Z.eqb_spec 40 c); [|reflexivity]. subst. rewrite (ascii_spc U L) in Hc by lia. discriminate.
      - unfold oneof; simpl. rewrite orb_false_r. exact B4. }
    assert (H2 : exists c u, sp ++ 215 :: sp' ++ lit "10" ++ map raised t = c :: u /\ (u_spc U c = true \/ c = 215)).
    { destruct F as [|c sp (Hc & _) F]; eexists _, _; split; try reflexivity; tauto. }
    destruct H2 as (c & u & E & Hc). rewrite E. destruct (H1 c Hc) as (A1 & A2 & A3 & A4).
    split; [simpl; unfold is_digit; rewrite A1; reflexivity|]. split; [exact A2|]. split; [exact A3|]. split; [discriminate|].
    intros X r c0 k x Er. rewrite bt_seq. unfold exp_intro. rewrite bt_alt, bt_set, A4. rewrite <- E.
    cbn [rseq]. rewrite bt_seq. apply bt_star_first; [apply blanks_spaces, F|apply blank215|].
    rewrite bt_seq, bt_set. unfold ch. rewrite Z.eqb_refl. rewrite bt_seq.
    apply bt_star_first; [apply blanks_spaces, F'|apply (ascii_spc U L 49); lia|].
    rewrite bt_rlit. exact Er.
Qed.
Lemma factor_match : forall v e n, Forall (fun c => dot c = true) v -> exponent U e n -> exists b,
  re_match (global_exp_re U) (lit "(" ++ v ++ lit ")" ++ e) = Some [(2%nat, b); (1%nat, v)] /\
  nrmlze_superscript U b = Ok n.
Proof.
  intros v e n Fv He. destruct (exp_intro_match _ _ He) as (i & b & Ee & Nb & Qb & En & _ & _ & _ & _ & M).
  exists b. split; [|exact En]. rewrite re_match_bt. unfold global_exp_re. cbn [rseq].
  rewrite bt_seq, bt_set. cbn [lit app]. change (ch 40 _) with true. cbv iota.
  rewrite bt_seq, bt_group.
  match goal with |- bt _ (v ++ ?z :: e) _ _ = _ => change z with 41 end.
  apply bt_star_back.
  - apply Forall_app. split; [exact Fv|]. constructor; [reflexivity|].
    apply quiet_all_dot, (exponent_quiet _ _ He).
  - intros w t Ew Nw. destruct w as [|y w]; [congruence|]. injection Ew as _ Ew.
    rewrite bt_seq, bt_set. destruct t as [|z t]; [reflexivity|]. unfold ch.
    destruct (Z.eqb_spec 41 z); [|reflexivity]. subst z.
    pose proof (exponent_quiet _ _ He) as Q. rewrite Ew in Q. apply Forall_app in Q. destruct Q as (_ & Q).
    inversion Q; subst. exfalso. apply H1. simpl. tauto.
  - rewrite bt_seq, bt_set. unfold ch. cbn [Z.eqb Pos.eqb]. rewrite consumed_app. apply M.
    rewrite bt_seq. apply bt_rest; [apply quiet_all_dot, Qb|]. rewrite bt_end. reflexivity.
Qed.
Lemma no_factor_match : forall s, hd_not (ch 40) s -> re_match (global_exp_re U) s = None.
Proof.
  intros s H. rewrite re_match_bt. unfold global_exp_re. cbn [rseq]. rewrite bt_seq, bt_set.
  destruct s as [|c s]; [reflexivity|]. change (ch 40 c = false) in H. rewrite H. reflexivity.
Qed.
End Parse.
