(** What the parsing of numbers with uncertainties accepts. *)
From Coq Require Import String.
From Coq Require Import ZArith List Bool Lia.
From Verif Require Import Base Str FmtOps Format Parse StrProofs FmtSpec SpecProofs FixedProofs FormatProofs ParseSpec ReadProofs ParseProofs LangSpec.
Import ListNotations.
Local Open Scope Z_scope.
Local Open Scope res_scope.

(** ** Inversion of matches *)
Lemma bt_inv : forall X r s c (k : str -> caps -> option X) x, bt r s c k = Some x ->
  exists s' c', In (s', c') (matches r s c) /\ k s' c' = Some x.
Proof.
  intros X r s c k x. unfold bt. induction (matches r s c) as [|(s1 & c1) l IH]; simpl; [discriminate|].
  destruct (k s1 c1) eqn:E.
  - intros H. inversion H; subst. exists s1, c1. split; [left; reflexivity|exact E].
  - intros H. destruct (IH H) as (s' & c' & Hi & Hk). exists s', c'. split; [right; exact Hi|exact Hk].
Qed.
Lemma star_in : forall p s s', In s' (star p s) -> exists u, s = u ++ s' /\ Forall (fun y => p y = true) u.
Proof.
  intros p. induction s as [|x s IH]; simpl; intros s' H.
  - destruct H as [<-|[]]. exists []. split; [reflexivity|constructor].
  - destruct (p x) eqn:E.
    + apply in_app_or in H. destruct H as [H|[<-|[]]].
      * destruct (IH _ H) as (u & -> & F). exists (x :: u). split; [reflexivity|constructor; assumption].
      * exists []. split; [reflexivity|constructor].
    + destruct H as [<-|[]]. exists []. split; [reflexivity|constructor].
Qed.
Lemma in_star : forall p s c s' c', In (s', c') (matches (RStar p) s c) ->
  exists u, s = u ++ s' /\ Forall (fun y => p y = true) u /\ c' = c.
Proof.
  intros p s c s' c' H. cbn [matches] in H. apply in_map_iff in H. destruct H as (s1 & E & H). inversion E; subst.
  destruct (star_in _ _ _ H) as (u & -> & F). exists u. auto.
Qed.
Lemma in_starL : forall p s c s' c', In (s', c') (matches (RStarL p) s c) ->
  exists u, s = u ++ s' /\ Forall (fun y => p y = true) u /\ c' = c.
Proof.
  intros p s c s' c' H. cbn [matches] in H. apply in_map_iff in H. destruct H as (s1 & E & H). inversion E; subst.
  apply in_rev in H. destruct (star_in _ _ _ H) as (u & -> & F). exists u. auto.
Qed.
Lemma in_set : forall p s c s' c', In (s', c') (matches (RSet p) s c) ->
  exists x, s = x :: s' /\ p x = true /\ c' = c.
Proof.
  intros p s c s' c' H. cbn [matches] in H. destruct s as [|x s]; [destruct H|]. destruct (p x) eqn:E; [|destruct H].
  destruct H as [H|[]]. inversion H; subst. exists x. auto.
Qed.
Lemma in_seq_re : forall a b s c s' c', In (s', c') (matches (RSeq a b) s c) ->
  exists s1 c1, In (s1, c1) (matches a s c) /\ In (s', c') (matches b s1 c1).
Proof.
  intros a b s c s' c' H. cbn [matches] in H. apply in_flat_map in H. destruct H as ((s1 & c1) & H1 & H2).
  exists s1, c1. auto.
Qed.
Lemma in_alt : forall a b s c m, In m (matches (RAlt a b) s c) -> In m (matches a s c) \/ In m (matches b s c).
Proof. intros a b s c m H. cbn [matches] in H. apply in_app_or in H. exact H. Qed.
Lemma in_opt : forall a s c m, In m (matches (ROpt a) s c) -> In m (matches a s c) \/ m = (s, c).
Proof. intros a s c m H. cbn [matches] in H. apply in_app_or in H. destruct H as [H|[H|[]]]; auto. Qed.
Lemma in_group : forall k a s c s' c', In (s', c') (matches (RGroup k a) s c) ->
  exists c1, In (s', c1) (matches a s c) /\ c' = (k, consumed s s') :: c1.
Proof.
  intros k a s c s' c' H. cbn [matches] in H. apply in_map_iff in H. destruct H as ((s1 & c1) & E & H).
  simpl in E. inversion E; subst. exists c1. auto.
Qed.
Lemma in_end : forall s c m, In m (matches REnd s c) -> opt_newline s /\ m = (s, c).
Proof.
  intros s c m H. cbn [matches] in H. destruct s as [|x [|y s]].
  - destruct H as [<-|[]]. split; [left; reflexivity|reflexivity].
  - destruct (Z.eq_dec x 10) as [->|N].
    + destruct H as [<-|[]]. split; [right; reflexivity|reflexivity].
    + exfalso. revert H. repeat (match goal with |- context [match ?p with _ => _ end] => is_var p; destruct p; simpl end); try tauto; exfalso; apply N; reflexivity.
  - exfalso. revert H. repeat (match goal with |- context [match ?p with _ => _ end] => is_var p; destruct p; simpl end); tauto.
Qed.
Lemma in_lit_re : forall l s c s' c', In (s', c') (matches (rseq (map (fun x => RSet (ch x)) l)) s c) -> s = l ++ s' /\ c' = c.
Proof.
  induction l as [|y l IH]; intros s c s' c' H.
  - cbn in H. destruct H as [H|[]]. inversion H. auto.
  - destruct l as [|z l].
    + cbn [map rseq] in H. apply in_set in H. destruct H as (x & -> & E & ->). unfold ch in E. apply Z.eqb_eq in E. subst. auto.
    + change (rseq (map (fun x => RSet (ch x)) (y :: z :: l))) with (RSeq (RSet (ch y)) (rseq (map (fun x => RSet (ch x)) (z :: l)))) in H.
      apply in_seq_re in H. destruct H as (s1 & c1 & H1 & H2). apply in_set in H1. destruct H1 as (x & -> & E & ->).
      unfold ch in E. apply Z.eqb_eq in E. subst. apply IH in H2. destruct H2 as (-> & ->). auto.
Qed.
Lemma in_rlit : forall w s c s' c', In (s', c') (matches (rlit w) s c) -> s = lit w ++ s' /\ c' = c.
Proof. intros w s c s' c' H. apply (in_lit_re (lit w)), H. Qed.
(** A run at the end of the expression takes all it can. *)
Lemma bt_last_star : forall n p s c, bt (RGroup n (RStar p)) s c (fun _ c => Some c) =
  Some ((n, consumed s (skip p s)) :: c).
Proof.
  intros n p s c. rewrite bt_group.
  destruct (skip_app p s) as (u & E & F).
  transitivity (bt (RStar p) (u ++ skip p s) c (fun s' c' => Some ((n, consumed s s') :: c'))); [rewrite <- E; reflexivity|].
  apply bt_star_first.
  - exact F.
  - pose proof (skip_head p s) as H. destruct (skip p s); exact H.
  - reflexivity.
Qed.
Lemma dots_line : forall u, Forall (fun y => dot y = true) u -> one_line u.
Proof. intros u F H. rewrite Forall_forall in F. apply F in H. discriminate. Qed.

Section Lang.
Context (U : Unicode) (L : UniLaws U).

(** ** Conversions *)
Lemma lstrip_inv : forall s, exists sp, spaces U sp /\ s = sp ++ lstrip U s.
Proof.
  induction s as [|c s IH]; simpl; [exists []; split; [constructor|reflexivity]|].
  destruct (u_spc U c) eqn:E.
  - destruct IH as (sp & F & Es). exists (c :: sp). split; [constructor; assumption|simpl; congruence].
  - exists []. split; [constructor|reflexivity].
Qed.
Lemma strip_inv : forall s, exists sp sp', spaces U sp /\ spaces U sp' /\ s = sp ++ strip U s ++ sp'.
Proof.
  intros s. destruct (lstrip_inv s) as (sp & F & E). destruct (lstrip_inv (rev (lstrip U s))) as (q & G & E').
  exists sp, (rev q). split; [exact F|]. split; [apply (spaces_rev U), G|].
  unfold strip. rewrite <- rev_app_distr, <- E', rev_involutive. exact E.
Qed.
Lemma take_sign_inv : forall s neg t, take_sign s = (neg, t) -> exists sg, sign_of sg neg /\ s = sg ++ t.
Proof.
  intros [|c s] neg t H; simpl in H; [inversion H; subst; exists []; split; [constructor|reflexivity]|].
  destruct (Z.eqb_spec c 45); [inversion H; subst; exists (lit "-"); split; [constructor|reflexivity]|].
  destruct (Z.eqb_spec c 43); [inversion H; subst; exists (lit "+"); split; [constructor|reflexivity]|].
  inversion H; subst. exists []. split; [constructor|reflexivity].
Qed.
Lemma digit_run_inv : forall n us s ds t, (length s <= n)%nat -> digit_run U us s = (ds, t) ->
  (ds = [] /\ t = s) \/ exists g, s = g ++ t /\
    (grouped U g ds \/ us = true /\ exists g', g = 95 :: g' /\ grouped U g' ds).
Proof.
  induction n as [|n IH]; intros us s ds t Hl H.
  - destruct s; [|simpl in Hl; lia]. simpl in H. inversion H. left; auto.
  - assert (S1 : forall c d s1, u_dig U c = Some d -> (length s1 <= n)%nat -> forall ds1 t1, digit_run U true s1 = (ds1, t1) ->
                 exists g, c :: s1 = g ++ t1 /\ grouped U g (d :: ds1)).
    { intros c d s1 E Hs ds1 t1 E1. destruct (IH true s1 ds1 t1 Hs E1) as [(-> & ->)|(g & -> & [G|(_ & g' & -> & G)])].
      - exists [c]. split; [reflexivity|constructor; exact E].
      - exists (c :: g). split; [reflexivity|constructor; assumption].
      - exists (c :: 95 :: g'). split; [reflexivity|constructor; assumption]. }
    destruct s as [|c s]; simpl in H; [inversion H; left; auto|]. simpl in Hl.
    destruct (u_dig U c) as [d|] eqn:E.
    + destruct (digit_run U true s) as (ds1 & t1) eqn:E1. inversion H; subst. right.
      destruct (S1 c d s E ltac:(lia) _ _ E1) as (g & Eg & G). exists g. split; [exact Eg|left; exact G].
    + destruct us; simpl in H; [|inversion H; left; auto].
      destruct (Z.eqb_spec c 95) as [->|]; [|inversion H; left; auto].
      destruct s as [|c' s]; [inversion H; left; auto|].
      destruct (u_dig U c') as [d|] eqn:E'; [|inversion H; left; auto].
      destruct (digit_run U true s) as (ds1 & t1) eqn:E1. inversion H; subst. right. simpl in Hl.
      destruct (S1 c' d s E' ltac:(lia) _ _ E1) as (g & Eg & G).
      exists (95 :: g). split; [rewrite Eg; reflexivity|]. right. split; [reflexivity|]. exists g. auto.
Qed.
Lemma run_inv : forall s ds t, digit_run U false s = (ds, t) -> exists g, s = g ++ t /\ opt_grouped U g ds.
Proof.
  intros s ds t H. destruct (digit_run_inv (length s) false s ds t (le_n _) H) as [(-> & ->)|(g & -> & [G|(E & _)])].
  - exists []. split; [reflexivity|constructor].
  - exists g. split; [reflexivity|constructor; exact G].
  - discriminate.
Qed.
Lemma run_all_inv : forall s ds, digit_run U false s = (ds, []) -> ds <> [] -> grouped U s ds.
Proof.
  intros s ds H N. destruct (run_inv _ _ _ H) as (g & -> & G). rewrite app_nil_r. destruct G; [congruence|assumption].
Qed.
Lemma py_int_inv : forall s n, py_int U s = Ok n -> int_text U s n.
Proof.
  intros s n H. unfold py_int in H. destruct (strip_inv s) as (sp & sp' & F & F' & E).
  destruct (take_sign (strip U s)) as (neg & t) eqn:Es. apply take_sign_inv in Es. destruct Es as (sg & Hs & Es).
  destruct (digit_run U false t) as (ds & r) eqn:Er.
  destruct ds as [|d ds]; [discriminate|]. destruct r; [|discriminate].
  apply run_all_inv in Er; [|discriminate]. rewrite E, Es.
  replace n with (signed neg (val (d :: ds))) by (unfold signed; congruence).
  constructor; assumption.
Qed.
Lemma exponent_of_inv : forall s n, exponent_of U s = Some n -> exp_text U s n.
Proof.
  intros [|c s] n H; simpl in H; [inversion H; constructor|].
  destruct ((c =? 101) || (c =? 69)) eqn:Ec; [|discriminate].
  destruct (take_sign s) as (neg & t) eqn:Es. apply take_sign_inv in Es. destruct Es as (sg & Hs & ->).
  destruct (digit_run U false t) as (ds & r) eqn:Er.
  destruct ds as [|d ds]; [discriminate|]. destruct r; [|discriminate].
  apply run_all_inv in Er; [|discriminate].
  replace n with (signed neg (val (d :: ds))) by (unfold signed; congruence).
  constructor; [|assumption|assumption]. apply orb_prop in Ec. destruct Ec as [Ec|Ec]; apply Z.eqb_eq in Ec; auto.
Qed.
Lemma is_word_inv : forall t w, is_word t w = true -> word_of w t.
Proof. intros t w H. unfold is_word in H. apply str_eqb_eq in H. exact H. Qed.

Context {K : FmtOps}.
Notation lexf := (lex_fl (K := K)).
Lemma py_float_inv : forall s (x : fl K), py_float (K := K) U s = Ok x -> exists l, float_like U s l /\ x = lexf l.
Proof.
  intros s x H. unfold py_float in H. destruct (strip_inv s) as (sp & sp' & F & F' & E).
  destruct (take_sign (strip U s)) as (neg & t) eqn:Es. apply take_sign_inv in Es. destruct Es as (sg & Hs & Es).
  rewrite Es in E.
  destruct (is_word t "nan") eqn:Wn.
  { inversion H; subst x. exists LNan. split; [|reflexivity]. rewrite E. econstructor; try eassumption. apply is_word_inv, Wn. }
  destruct (is_word t "inf" || is_word t "infinity") eqn:Wi.
  { inversion H; subst x. exists (LInf neg). split; [|reflexivity]. rewrite E. econstructor; try eassumption.
    apply orb_prop in Wi. destruct Wi as [W|W]; apply is_word_inv in W; auto. }
  destruct (digit_run U false t) as (i & t1) eqn:E1. apply run_inv in E1. destruct E1 as (g & Et & G).
  destruct (match t1 with [] => _ | _ :: _ => _ end) as (f & t2) eqn:E2.
  assert (Hf : exists fs, t1 = fs ++ t2 /\ fraction U fs f).
  { destruct t1 as [|c t'].
    - inversion E2; subst. exists []. split; [reflexivity|constructor].
    - destruct (Z.eqb_spec c 46) as [->|].
      + apply run_inv in E2. destruct E2 as (gf & -> & Gf). exists (46 :: gf). split; [reflexivity|constructor; exact Gf].
      + inversion E2; subst. exists []. split; [reflexivity|constructor]. }
  destruct Hf as (fs & -> & Hf).
  destruct (exponent_of U t2) as [n|] eqn:Ex; [|discriminate]. apply exponent_of_inv in Ex.
  destruct (isnil i && isnil f) eqn:En; [discriminate|]. inversion H; subst x.
  exists (LDec neg (val (i ++ f)) (n - Z.of_nat (length f))). split; [|reflexivity].
  rewrite E, Et. apply fl_dec; try assumption. destruct i, f; try discriminate.
Qed.
Lemma translate_inv : forall s, Forall2 maybe_raised (translate from_sup s) s.
Proof.
  induction s as [|c s IH]; constructor; [|exact IH].
  destruct (find _ from_sup) as [(a & b)|] eqn:E; [|left; reflexivity]. right.
  apply find_some in E. destruct E as (Hi & E). simpl in E. apply Z.eqb_eq in E. subst a.
  simpl in Hi. repeat (destruct Hi as [Hi|Hi]; [inversion Hi; subst; cbn [snd]; split; [lia|reflexivity]|]). destruct Hi.
Qed.
Lemma nrmlze_inv : forall s n, nrmlze_superscript U s = Ok n -> sup_int U s n.
Proof.
  intros s n H. unfold nrmlze_superscript in H. apply py_int_inv in H. exists (translate from_sup s).
  split; [apply translate_inv|exact H].
Qed.

(** ** Matches *)
Lemma intro_inv : forall s c s' c', In (s', c') (matches (exp_intro U) s c) -> exists i, intro U i /\ s = i ++ s' /\ c' = c.
Proof.
  intros s c s' c' H. unfold exp_intro in H. apply in_alt in H. destruct H as [H|H].
  - apply in_set in H. destruct H as (x & -> & E & ->). exists [x]. split; [|auto]. constructor.
    apply oneof_in in E. simpl in E. lia.
  - cbn [rseq] in H. apply in_seq_re in H. destruct H as (s1 & c1 & H1 & H). apply in_star in H1. destruct H1 as (sp & -> & F & ->).
    apply in_seq_re in H. destruct H as (s2 & c2 & H2 & H). apply in_set in H2. destruct H2 as (x & -> & E & ->).
    unfold ch in E. apply Z.eqb_eq in E. subst x.
    apply in_seq_re in H. destruct H as (s3 & c3 & H3 & H). apply in_star in H3. destruct H3 as (sp' & -> & F' & ->).
    apply in_rlit in H. destruct H as (-> & ->).
    exists (sp ++ 215 :: sp' ++ lit "10"). split; [constructor; assumption|]. split; [|reflexivity].
    rewrite <- app_assoc. cbn [app]. rewrite <- app_assoc. reflexivity.
Qed.
Lemma pm_inv : forall s c, re_match pm_re s = Some c -> exists a pm b rest,
  s = a ++ pm ++ b ++ rest /\ pm_sign pm /\ grp c 1 = a /\ grp c 2 = b /\ one_line a /\ one_line b /\
  (rest = [] \/ exists r, rest = 10 :: r).
Proof.
  intros s c H. rewrite re_match_bt in H. unfold pm_re in H. cbn [rseq] in H. rewrite bt_seq in H.
  apply bt_inv in H. destruct H as (s1 & c1 & H1 & H). apply in_group in H1. destruct H1 as (c1' & H1 & ->).
  apply in_star in H1. destruct H1 as (a & -> & Fa & ->). rewrite consumed_app in H.
  rewrite bt_seq in H. apply bt_inv in H. destruct H as (s2 & c2 & H2 & H).
  rewrite bt_last_star in H. inversion H; subst c.
  assert (P : exists pm, pm_sign pm /\ s1 = pm ++ s2 /\ c2 = [(1%nat, a)]).
  { apply in_alt in H2. destruct H2 as [H2|H2].
    - apply in_rlit in H2. destruct H2 as (-> & ->). exists (lit "+/-"). split; [left; reflexivity|auto].
    - apply in_set in H2. destruct H2 as (x & -> & E & ->). unfold ch in E. apply Z.eqb_eq in E. subst.
      exists [177]. split; [right; reflexivity|auto]. }
  destruct P as (pm & Hp & -> & ->). destruct (skip_app dot s2) as (b & Eb & Fb).
  assert (Ec : consumed s2 (skip dot s2) = b) by (rewrite Eb at 1; apply consumed_app). rewrite Ec.
  exists a, pm, b, (skip dot s2). rewrite <- Eb.
  split; [reflexivity|]. split; [exact Hp|]. split; [reflexivity|]. split; [reflexivity|].
  split; [apply dots_line, Fa|]. split; [apply dots_line, Fb|].
  pose proof (skip_head dot s2) as Hh. destruct (skip dot s2) as [|y r]; [left; reflexivity|]. right. exists r.
  unfold dot in Hh. destruct (Z.eqb_spec y 10); [subst; reflexivity|discriminate].
Qed.
Lemma global_inv : forall s c, re_match (global_exp_re U) s = Some c -> exists v i b nl,
  s = lit "(" ++ v ++ lit ")" ++ i ++ b ++ nl /\ intro U i /\ grp c 1 = v /\ grp c 2 = b /\ one_line v /\ one_line b /\ opt_newline nl.
Proof.
  intros s c H. rewrite re_match_bt in H. apply bt_inv in H. destruct H as (s0 & c0 & H & E). inversion E; subst c0; clear E.
  unfold global_exp_re in H. cbn [rseq] in H.
  apply in_seq_re in H. destruct H as (s1 & c1 & H1 & H). apply in_set in H1. destruct H1 as (x & -> & E & ->).
  unfold ch in E. apply Z.eqb_eq in E. subst x.
  apply in_seq_re in H. destruct H as (s2 & c2 & H2 & H). apply in_group in H2. destruct H2 as (c2' & H2 & ->).
  apply in_star in H2. destruct H2 as (v & -> & Fv & ->). rewrite consumed_app in H.
  apply in_seq_re in H. destruct H as (s3 & c3 & H3 & H). apply in_set in H3. destruct H3 as (x & -> & E & ->).
  unfold ch in E. apply Z.eqb_eq in E. subst x.
  apply in_seq_re in H. destruct H as (s4 & c4 & H4 & H). apply intro_inv in H4. destruct H4 as (i & Hi & -> & ->).
  apply in_seq_re in H. destruct H as (s5 & c5 & H5 & H). apply in_group in H5. destruct H5 as (c5' & H5 & ->).
  apply in_star in H5. destruct H5 as (b & -> & Fb & ->). rewrite consumed_app in H.
  apply in_end in H. destruct H as (Hn & E). inversion E; subst.
  exists v, i, b, s5. split; [reflexivity|]. split; [exact Hi|]. split; [reflexivity|]. split; [reflexivity|].
  split; [apply dots_line, Fv|]. split; [apply dots_line, Fb|exact Hn].
Qed.
Lemma pretty_inv : forall s c, one_line s -> re_match (pretty_re U) s = Some c -> exists a sp sp' b,
  s = a ++ (sp ++ 215 :: sp' ++ lit "10") ++ b /\ spaces U sp /\ spaces U sp' /\ grp c 1 = a /\ grp c 2 = b.
Proof.
  intros s c N H. rewrite re_match_bt in H. unfold pretty_re in H. cbn [rseq] in H.
  rewrite bt_seq in H. apply bt_inv in H. destruct H as (s1 & c1 & H1 & H).
  apply in_group in H1. destruct H1 as (c1' & H1 & ->). apply in_starL in H1. destruct H1 as (a & -> & Fa & ->).
  rewrite consumed_app in H.
  rewrite bt_seq in H. apply bt_inv in H. destruct H as (s2 & c2 & H2 & H). apply in_star in H2. destruct H2 as (sp & -> & F & ->).
  rewrite bt_seq in H. apply bt_inv in H. destruct H as (s3 & c3 & H3 & H). apply in_set in H3. destruct H3 as (x & -> & E & ->).
  unfold ch in E. apply Z.eqb_eq in E. subst x.
  rewrite bt_seq in H. apply bt_inv in H. destruct H as (s4 & c4 & H4 & H). apply in_star in H4. destruct H4 as (sp' & -> & F' & ->).
  rewrite bt_seq in H. apply bt_inv in H. destruct H as (s5 & c5 & H5 & H). apply in_rlit in H5. destruct H5 as (-> & ->).
  rewrite bt_last_star in H. inversion H; subst c.
  exists a, sp, sp', s5. split.
  { repeat (rewrite <- app_assoc; cbn [app]). reflexivity. }
  split; [exact F|]. split; [exact F'|]. split; [reflexivity|].
  assert (Es : skip dot s5 = []).
  { assert (Fd : Forall (fun y => dot y = true) s5).
    { apply Forall_forall. intros y Hy. unfold dot. destruct (Z.eqb_spec y 10); [|reflexivity]. subst. exfalso. apply N.
      apply in_or_app; right. apply in_or_app; right. right. apply in_or_app; right. apply in_or_app; right. exact Hy. }
    rewrite <- (app_nil_r s5). apply skip_run; [exact Fd|exact I]. }
  rewrite Es, consumed_all. reflexivity.
Qed.
Lemma to_float_inv : forall s (x : fl K), one_line s -> to_float (K := K) U s = Ok x ->
  exists l o, number_like U s l o /\ times (K := K) o (lexf l) = Ok x.
Proof.
  intros s x N H. unfold to_float in H. destruct (py_float (K := K) U s) as [y|e] eqn:E.
  - inversion H; subst. apply py_float_inv in E. destruct E as (l & Hl & ->). exists l, None.
    split; [constructor; exact Hl|reflexivity].
  - destruct e; try discriminate. destruct (re_match (pretty_re U) s) as [c|] eqn:Em; [|discriminate].
    apply pretty_inv in Em; [|exact N]. destruct Em as (a & sp & sp' & b & -> & F & F' & G1 & G2). rewrite G1, G2 in H.
    destruct (py_float (K := K) U a) as [y|] eqn:Ea; [|discriminate]. cbn [rbind] in H.
    destruct (nrmlze_superscript U b) as [n|] eqn:Eb; [|discriminate]. cbn [rbind] in H.
    apply py_float_inv in Ea. destruct Ea as (l & Hl & ->). apply nrmlze_inv in Eb.
    exists l, (Some n). split; [constructor; assumption|exact H].
Qed.
End Lang.
