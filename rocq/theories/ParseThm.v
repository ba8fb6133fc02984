(** Whole representations: stripping, exact values, errors; the forms of ufloat(). *)
From Coq Require Import String.
From Coq Require Import ZArith List Bool Lia QArith Qpower Lqa.
From Verif Require Import Base Str FmtOps Format Parse StrProofs FmtSpec SpecProofs FixedProofs FormatProofs DecProofs
  ParseSpec ReadProofs ParseProofs NotationProofs.
Import ListNotations.
Local Open Scope Z_scope.
Local Open Scope res_scope.

Section Strip.
Context (U : Unicode) (L : UniLaws U).
Notation spc := (u_spc U).
Definition nospc (s : str) : Prop := Forall (fun c => spc c = false) s.
Lemma last_app : forall a b, b <> [] -> hd_not spc (rev b) -> hd_not spc (rev (a ++ b)).
Proof.
  intros a b N H. rewrite rev_app_distr. destruct (rev b) as [|y r] eqn:E; [|exact H].
  exfalso. apply N. rewrite <- (rev_involutive b), E. reflexivity.
Qed.
Lemma hd_app : forall a b, a <> [] -> hd_not spc a -> hd_not spc (a ++ b).
Proof. intros [|y a] b N H; [congruence|exact H]. Qed.
Lemma nospc_hd : forall s, nospc s -> hd_not spc s.
Proof. intros s F. destruct F; simpl; auto. Qed.
Lemma nospc_last : forall s, nospc s -> hd_not spc (rev s).
Proof. intros s F. apply Forall_rev in F. destruct F; simpl; auto. Qed.
Lemma dec_nospc : forall a m k, decimal U a m k -> nospc a.
Proof.
  intros a m k H. eapply Forall_impl; [|apply (proj1 (decimal_chars U _ _ _ H))]. intros; apply (dec_char_spc U L); assumption.
Qed.
Lemma raised_nospc : forall t, ascii_int t -> nospc (map raised t).
Proof.
  intros t A. eapply Forall_impl; [|apply raised_sup, A]. intros c H. apply (ul_symbol U L). right; right; exact H.
Qed.
Lemma integer_ne : forall t n, integer U t n -> t <> [].
Proof. intros t n (s1 & ? & ds & -> & _ & _ & Nd & _). destruct s1, ds; simpl; congruence. Qed.
Lemma raised_ne : forall t n, integer U t n -> map raised t <> [].
Proof. intros t n H. apply integer_ne in H. destruct t; [congruence|discriminate]. Qed.
Lemma blanks_nil : blanks U [].
Proof. constructor. Qed.
Lemma word_ne : forall w s, word_of w s -> lit w <> [] -> s <> [].
Proof. intros w s H N ->. apply N. symmetry. exact H. Qed.

(** A number without the white space on its left, or on its right. *)
Lemma number_left : forall s l x, number U s l x -> exists sp s', s = sp ++ s' /\ blanks U sp /\ number U s' l x /\
  hd_not spc s' /\ s' <> [].
Proof.
  intros s l x0 [s0 l0 H|sp sg neg a m k x x' t n sp' F1 F2 F3 F4 Hs Ha Ht At].
  - destruct H as [sp sg neg a m k x n sp' F F' Hs Ha Hx|sp sg neg w sp' F F' Hs Hw|sp sg neg w sp' F F' Hs Hw];
      exists sp; eexists; (split; [reflexivity|]); (split; [exact F|]).
    + split; [constructor; apply (ft_dec U [] sg neg a m k x n sp'); try assumption; constructor|].
      assert (N : sg ++ a ++ x <> []) by (destruct (decimal_chars U _ _ _ Ha) as (_ & N); destruct sg, a; simpl; congruence).
      split; [|destruct (sg ++ a ++ x); simpl; congruence].
      apply hd_app; [exact N|]. apply nospc_hd. unfold nospc. split_app; [apply (sign_nospc U L _ _ Hs)|apply (dec_nospc _ _ _ Ha)|apply (float_exp_nospc U L _ _ Hx)].
    + split; [constructor; apply (ft_nan U [] sg neg w sp'); try assumption; constructor|].
      assert (N : w <> []) by (eapply word_ne; [exact Hw|discriminate]).
      split; [|destruct sg, w; simpl; congruence].
      apply hd_app; [destruct sg, w; simpl; congruence|]. apply nospc_hd. unfold nospc. split_app; [apply (sign_nospc U L _ _ Hs)|apply (letters_nospc U L), nan_letters, Hw].
    + split; [constructor; apply (ft_inf U [] sg neg w sp'); try assumption; constructor|].
      assert (N : w <> []) by (destruct Hw as [Hw|Hw]; (eapply word_ne; [exact Hw|discriminate])).
      split; [|destruct sg, w; simpl; congruence].
      apply hd_app; [destruct sg, w; simpl; congruence|]. apply nospc_hd. unfold nospc. split_app; [apply (sign_nospc U L _ _ Hs)|apply (letters_nospc U L), inf_letters, Hw].
  - exists sp. eexists. split; [reflexivity|]. split; [exact F1|].
    split; [apply (nu_pretty U [] sg neg a m k x x' t n sp'); try assumption; constructor|].
    destruct (decimal_chars U _ _ _ Ha) as (_ & N).
    split; [|destruct sg, a; simpl; congruence].
    rewrite app_assoc. apply hd_app; [destruct sg, a; simpl; congruence|].
    apply nospc_hd. unfold nospc. split_app; [apply (sign_nospc U L _ _ Hs)|apply (dec_nospc _ _ _ Ha)].
Qed.
Lemma number_right : forall s l x, number U s l x -> exists s' sp, s = s' ++ sp /\ blanks U sp /\ number U s' l x /\
  hd_not spc (rev s') /\ s' <> [].
Proof.
  intros s l x0 [s0 l0 H|sp sg neg a m k x x' t n sp' F1 F2 F3 F4 Hs Ha Ht At].
  - destruct H as [sp sg neg a m k x n sp' F F' Hs Ha Hx|sp sg neg w sp' F F' Hs Hw|sp sg neg w sp' F F' Hs Hw].
    + exists (sp ++ (sg ++ a ++ x) ++ []), sp'. split; [rewrite app_nil_r, <- !app_assoc; reflexivity|]. split; [exact F'|].
      split; [constructor; apply (ft_dec U sp sg neg a m k x n []); try assumption; constructor|].
      assert (N : sg ++ a ++ x <> []) by (destruct (decimal_chars U _ _ _ Ha) as (_ & N); destruct sg, a; simpl; congruence).
      rewrite app_nil_r. split; [|destruct sp; [exact N|discriminate]].
      apply last_app; [exact N|]. apply nospc_last. unfold nospc. split_app; [apply (sign_nospc U L _ _ Hs)|apply (dec_nospc _ _ _ Ha)|apply (float_exp_nospc U L _ _ Hx)].
    + exists (sp ++ (sg ++ w) ++ []), sp'. split; [rewrite app_nil_r, <- !app_assoc; reflexivity|]. split; [exact F'|].
      split; [constructor; apply (ft_nan U sp sg neg w []); try assumption; constructor|].
      assert (N : w <> []) by (eapply word_ne; [exact Hw|discriminate]).
      rewrite app_nil_r. split; [|destruct sp, sg, w; simpl; congruence].
      apply last_app; [destruct sg, w; simpl; congruence|]. apply nospc_last. unfold nospc. split_app; [apply (sign_nospc U L _ _ Hs)|apply (letters_nospc U L), nan_letters, Hw].
    + exists (sp ++ (sg ++ w) ++ []), sp'. split; [rewrite app_nil_r, <- !app_assoc; reflexivity|]. split; [exact F'|].
      split; [constructor; apply (ft_inf U sp sg neg w []); try assumption; constructor|].
      assert (N : w <> []) by (destruct Hw as [Hw|Hw]; (eapply word_ne; [exact Hw|discriminate])).
      rewrite app_nil_r. split; [|destruct sp, sg, w; simpl; congruence].
      apply last_app; [destruct sg, w; simpl; congruence|]. apply nospc_last. unfold nospc. split_app; [apply (sign_nospc U L _ _ Hs)|apply (letters_nospc U L), inf_letters, Hw].
  - exists (sp ++ sg ++ a ++ x ++ 215 :: x' ++ lit "10" ++ map raised t ++ []), sp'.
    split; [rewrite app_nil_r; repeat (rewrite <- app_assoc; cbn [app]); reflexivity|]. split; [exact F4|].
    split; [apply (nu_pretty U sp sg neg a m k x x' t n []); try assumption; constructor|].
    rewrite app_nil_r. split; [|destruct sp, sg, a, x; discriminate].
    replace (sp ++ sg ++ a ++ x ++ 215 :: x' ++ lit "10" ++ map raised t)
      with ((sp ++ sg ++ a ++ x ++ 215 :: x' ++ lit "10") ++ map raised t)
      by (repeat (rewrite <- app_assoc; cbn [app]); reflexivity).
    apply last_app; [apply (raised_ne _ _ Ht)|apply nospc_last, raised_nospc, At].
Qed.
Lemma exponent_last : forall e n, exponent U e n -> e <> [] /\ hd_not spc (rev e).
Proof.
  intros e n [c t n' Hc Ht|sp sp' t n' F F' Ht At].
  - split; [discriminate|]. apply (last_app [c]); [apply (integer_ne _ _ Ht)|]. apply nospc_last, (integer_nospc U L _ _ Ht).
  - split; [destruct sp; discriminate|].
    replace (sp ++ 215 :: sp' ++ lit "10" ++ map raised t) with ((sp ++ 215 :: sp' ++ lit "10") ++ map raised t)
      by (repeat (rewrite <- app_assoc; cbn [app]); reflexivity).
    apply last_app; [apply (raised_ne _ _ Ht)|apply nospc_last, raised_nospc, At].
Qed.
Lemma paren_last : forall p u, in_paren U p u -> p = [] \/ (p <> [] /\ hd_not spc (rev p)).
Proof.
  assert (H41 : hd_not spc (rev (lit ")"))) by (apply (ascii_spc U L 41); lia).
  intros p u []; [right|right|right|left; reflexivity]; (split; [discriminate|]);
    rewrite app_assoc; (apply last_app; [discriminate|exact H41]).
Qed.
Lemma unsigned_nospc : forall neg s a k, unsigned U neg s a k -> nospc s.
Proof.
  intros neg s a k [a0 m k0 H|w Hw|w Hw]; [apply (dec_nospc _ _ _ H)| |];
    inversion Hw; subst; (apply (letters_nospc U L); simpl; repeat (constructor; [lia|]); constructor).
Qed.
(** Without the white space around it, a notation keeps its meaning. *)
Lemma strip_notation : forall s m sp sp', notation U s m -> spaces U sp -> spaces U sp' ->
  exists s', strip U (sp ++ s ++ sp') = s' /\ notation U s' m.
Proof.
  intros s m sp sp' [s0 m0 H|s0 m0 H] F F'.
  - destruct H as [s1 a x pm t b y Hs Hp Ht|s1 a x pm t b y e n Hs Hp Ht He|sg neg s1 a k p u e n Hg Hs Hp He].
    + destruct (number_left _ _ _ Hs) as (q & s2 & -> & Fq & Hs' & A1 & A2).
      destruct (number_right _ _ _ Ht) as (t2 & q' & -> & Fq' & Ht' & B1 & B2).
      exists (s2 ++ pm ++ t2). split; [|apply no_simple; apply no_pair; assumption].
      replace (sp ++ ((q ++ s2) ++ pm ++ t2 ++ q') ++ sp') with ((sp ++ q) ++ (s2 ++ pm ++ t2) ++ (q' ++ sp'))
        by (rewrite <- !app_assoc; reflexivity).
      apply strip_spaces.
      * apply Forall_app; split; [exact F|apply blanks_spaces, Fq].
      * apply Forall_app; split; [apply blanks_spaces, Fq'|exact F'].
      * apply hd_app; assumption.
      * rewrite app_assoc. apply last_app; assumption.
    + eexists. split; [|apply no_simple; apply no_factor; eassumption].
      apply strip_spaces; try assumption.
      * apply (ascii_spc U L 40); lia.
      * destruct (exponent_last _ _ He). rewrite !app_assoc. apply last_app; assumption.
    + eexists. split; [|apply no_simple; eapply no_paren; eassumption].
      assert (Ns : s1 <> []) by (destruct (main_nosign U L _ _ _ _ Hs) as (y & t & -> & _); discriminate).
      pose proof (unsigned_nospc _ _ _ _ Hs) as Ss.
      apply strip_spaces; try assumption.
      * destruct Hg; [|apply (ascii_spc U L 43); lia|apply (ascii_spc U L 45); lia].
        cbn [app]. apply hd_app; [assumption|]. apply nospc_hd; assumption.
      * destruct He as [|e n He].
        -- rewrite app_nil_r. destruct (paren_last _ _ Hp) as [->|(Np & Lp)].
           ++ rewrite app_nil_r. apply last_app; [assumption|]. apply nospc_last; assumption.
           ++ rewrite app_assoc. apply last_app; assumption.
        -- destruct (exponent_last _ _ He). rewrite !app_assoc. apply last_app; assumption.
  - eexists. split; [|apply no_parens; eassumption].
    apply strip_spaces; try assumption; [apply (ascii_spc U L 40); lia|].
    rewrite app_assoc. apply last_app; [discriminate|]. apply (ascii_spc U L 41); lia.
Qed.
End Strip.

(** ** C46 *)
Section Values.
Context (U : Unicode) (L : UniLaws U).
Theorem float_notation : forall (K : FmtOps) s m sp sp' tag, notation U s m -> spaces U sp -> spaces U sp' ->
  ufloat_fromstr (K := K) U (sp ++ s ++ sp') tag =
  match meaning_fl m with
  | Ok (v, u) =>
      if x_sign K u && negb (x_iszero K u) && negb (x_isinf K u || x_isnan K u) then Err ENegStd
      else Ok (v, u, tag, 0%nat)
  | Err e => Err e
  end.
Proof.
  intros K s m sp sp' tag H F F'. unfold ufloat_fromstr.
  destruct (strip_notation U L _ _ _ _ H F F') as (s' & -> & H'). rewrite (notation_value U L _ _ H').
  destruct (meaning_fl m) as [(v & u)|e]; reflexivity.
Qed.
Lemma lex_value : forall l n (x : dec), match l with LDec _ m _ => 0 <= m | _ => True end ->
  x_mul10 DecOps (lex_fl (K := DecOps) l) n = Ok x -> is_value x l n.
Proof.
  intros l n x Hm E. destruct l as [neg m e|neg|]; simpl in E; injection E as <-; [|reflexivity|reflexivity].
  split; [exists neg, m, (e + n); split; [reflexivity|exact Hm]|]. simpl. destruct neg; simpl; reflexivity.
Qed.
Lemma times_value : forall l n, match l with LDec _ m _ => 0 <= m | _ => True end ->
  exists x, times (K := DecOps) n (lex_fl l) = Ok x /\ is_value x l (oz n).
Proof.
  intros l [n|] Hm; [eexists; split; [reflexivity|]; apply lex_value; [exact Hm|reflexivity]|].
  eexists. split; [reflexivity|]. destruct l as [neg m e|neg|]; [|reflexivity|reflexivity].
  split; [exists neg, m, e; split; [reflexivity|exact Hm]|]. simpl. rewrite Z.add_0_r. destruct neg; reflexivity.
Qed.
Lemma value_times : forall l n k (x : dec), is_value x l n -> exists y, times (K := DecOps) k x = Ok y /\ is_value y l (n + oz k).
Proof.
  intros l n [k|] x H.
  - eexists. split; [reflexivity|]. destruct l as [neg m e|neg|]; simpl in H |- *.
    + destruct H as ((s & m' & e' & -> & Hm) & E). split; [exists s, m', (e' + k); split; [reflexivity|exact Hm]|].
      simpl in *.
      assert (E' : ((if s then - (inject_Z m' * p10 (e' + k)) else inject_Z m' * p10 (e' + k)) ==
                    (if s then - (inject_Z m' * p10 e') else inject_Z m' * p10 e') * p10 k)%Q)
        by (destruct s; rewrite p10_add; ring).
      rewrite E', E. unfold qsigned. rewrite !Z.add_assoc. destruct neg; rewrite (p10_add (e + n) k); ring.
    + subst. reflexivity.
    + subst. reflexivity.
  - exists x. split; [reflexivity|]. simpl. rewrite Z.add_0_r. exact H.
Qed.
Definition lex_ok (l : lexed) : Prop := match l with LDec _ m _ => 0 <= m | _ => True end.
Lemma decimal_ok : forall a m k, decimal U a m k -> 0 <= m.
Proof.
  intros a m k [i Hi _|i f Hi Hf _]; apply (uval_nonneg U L); [assumption|]. apply Forall_app; split; assumption.
Qed.
Lemma number_ok : forall s l x, number U s l x -> lex_ok l.
Proof.
  intros s l x [s0 l0 []|sp sg neg a m k x0 x' t n sp' F1 F2 F3 F4 Hs Ha Ht At]; simpl; try exact I;
    eapply decimal_ok; eassumption.
Qed.
Lemma unsigned_ok : forall neg s a k, unsigned U neg s a k -> lex_ok a.
Proof. intros neg s a k []; simpl; try exact I. eapply decimal_ok; eassumption. Qed.
Lemma exact_meaning : forall s m, notation U s m -> exists v u, meaning_fl (K := DecOps) m = Ok (v, u) /\ denoted m v u.
Proof.
  intros s m H. assert (Hs : exists s', simple_notation U s' m) by (destruct H; eexists; eassumption).
  clear s H. destruct Hs as (s & H).
  assert (Pair : forall a x b y n, lex_ok a -> lex_ok b -> exists v u,
    meaning_fl (K := DecOps) (MPair a x b y n) = Ok (v, u) /\ denoted (MPair a x b y n) v u).
  { intros a x b y n Ha Hb. destruct (times_value a x Ha) as (v0 & E1 & V1). destruct (value_times _ _ n _ V1) as (v & E2 & V2).
    destruct (times_value b y Hb) as (u0 & E3 & V3). destruct (value_times _ _ n _ V3) as (u & E4 & V4).
    exists v, u. split; [|split; assumption]. unfold meaning_fl.
    assert (power (K := DecOps) n = Ok tt) as -> by (destruct n; reflexivity). cbn [rbind].
    rewrite E1. cbn [rbind]. rewrite E2. cbn [rbind]. rewrite E3. cbn [rbind]. rewrite E4. reflexivity. }
  destruct H as [s a x pm t b y Hs Hp Ht|s a x pm t b y e n Hs Hp Ht He|sg neg s a k p u e n Hg Hs Hp He].
  - apply Pair; eapply number_ok; eassumption.
  - apply Pair; eapply number_ok; eassumption.
  - destruct (times_value a n (unsigned_ok _ _ _ _ Hs)) as (v & E1 & V1).
    assert (Units : forall d, 0 <= d -> exists x, times (K := DecOps) n (DNum (d <? 0) (Z.abs d) (0 - Z.of_nat k)) = Ok x /\
      is_value x (LDec false d (- Z.of_nat k)) (oz n)).
    { intros d Hd. destruct (times_value (LDec false d (- Z.of_nat k)) n Hd) as (x & E & V). exists x. split; [|exact V].
      rewrite <- E. assert (d <? 0 = false) as -> by (apply Z.ltb_ge; exact Hd). rewrite Z.abs_eq by exact Hd. reflexivity. }
    unfold meaning_fl. assert (power (K := DecOps) n = Ok tt) as -> by (destruct n; reflexivity). cbn [rbind].
    rewrite E1. cbn [rbind].
    destruct Hp as [ds Hd Nd|i f Hi Hf Nif|w l Hw|].
    + destruct (Units (uval U ds)) as (x & Ex & Vx); [apply (uval_nonneg U L); assumption|].
      exists v, x. split; [|split; assumption]. cbn [x_of_Z x_div10 DecOps rbind].
      rewrite Ex. reflexivity.
    + destruct (times_value (LDec false (uval U (i ++ f)) (- len f)) n) as (x & Ex & Vx).
      { apply (uval_nonneg U L), Forall_app; split; assumption. }
      exists v, x. split; [|split; assumption]. cbn [rbind]. rewrite Ex. reflexivity.
    + destruct (times_value l n) as (x & Ex & Vx); [destruct Hw; exact I|].
      exists v, x. split; [|split; assumption]. cbn [rbind]. rewrite Ex. reflexivity.
    + destruct (Units 1) as (x & Ex & Vx); [lia|].
      exists v, x. split; [|split; assumption]. cbn [x_of_Z x_div10 DecOps rbind]. rewrite Ex. reflexivity.
Qed.
Lemma is_value_wf : forall x l n, is_value x l n -> match x with DNum _ m _ => 0 <= m | _ => True end.
Proof.
  intros x [neg m e|neg|] n H; simpl in H; [|subst; exact I|subst; exact I].
  destruct H as ((s & m' & e' & -> & Hm) & _). exact Hm.
Qed.
Lemma negative_spec : forall x : dec, match x with DNum _ m _ => 0 <= m | _ => True end ->
  (x_sign DecOps x && negb (x_iszero DecOps x) && negb (x_isinf DecOps x || x_isnan DecOps x) = true <-> negative x).
Proof.
  intros [s m e|s|] Hm; simpl; try (rewrite ?andb_false_r; split; [discriminate|]; intros ((s0 & m0 & e0 & E & _) & _); discriminate).
  rewrite andb_true_r. split.
  - intros E. apply andb_true_iff in E. destruct E as (-> & E). apply negb_true_iff, Z.eqb_neq in E.
    split; [exists true, m, e; split; [reflexivity|exact Hm]|]. simpl.
    assert (0 < inject_Z m * p10 e)%Q; [|lra]. apply mq_pos. lia.
  - intros (_ & E). simpl in E. destruct s.
    + simpl. apply negb_true_iff, Z.eqb_neq. intros ->. revert E. setoid_replace (inject_Z 0 * p10 e)%Q with 0%Q by (unfold inject_Z; ring). lra.
    + assert (0 <= inject_Z m * p10 e)%Q; [|lra]. apply mq_nonneg. exact Hm.
Qed.
Theorem exact_notation : forall s m sp sp' tag, notation U s m -> spaces U sp -> spaces U sp' ->
  exists v u, denoted m v u /\
    ((~ negative u /\ ufloat_fromstr (K := DecOps) U (sp ++ s ++ sp') tag = Ok (v, u, tag, 0%nat)) \/
     (negative u /\ ufloat_fromstr (K := DecOps) U (sp ++ s ++ sp') tag = Err ENegStd)).
Proof.
  intros s m sp sp' tag H F F'. destruct (exact_meaning _ _ H) as (v & u & E & D). exists v, u. split; [exact D|].
  rewrite (float_notation DecOps _ _ _ _ tag H F F'), E.
  assert (W : match u with DNum _ m _ => 0 <= m | _ => True end).
  { destruct m as [a x b y n|a k w n]; destruct D as (_ & D); [apply (is_value_wf _ _ _ D)|].
    destruct w; apply (is_value_wf _ _ _ D). }
  pose proof (negative_spec u W) as N.
  destruct (_ && _) eqn:B in N.
  - right. split; [apply N; reflexivity|]. rewrite B. reflexivity.
  - left. split; [intros X; apply N in X; discriminate|]. rewrite B. reflexivity.
Qed.
End Values.
