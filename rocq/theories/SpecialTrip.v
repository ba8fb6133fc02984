(** Formatted numbers can be read back: zero, infinite and NaN uncertainties; infinite and NaN
    nominal values. *)
From Coq Require Import String.
From Coq Require Import ZArith List Bool Lia QArith Qabs Qminmax Qpower Lqa.
From Verif Require Import Base Str FmtOps Format Parse StrProofs FmtSpec SpecProofs FixedProofs FormatProofs DecProofs
  RealFmt RealThm ZeroFmt SpecialFmt GenFmt ParseSpec ReadProofs ParseProofs NotationProofs ParseThm RoundTrip.
Import ListNotations.
Local Open Scope Z_scope.

Section SpecialTrip.
Context (U : Unicode) (L : UniLaws U).

(** ** Texts of numbers in the output *)
Definition item (s : str) (l : lexed) (k : nat) : Prop :=
  exists q sg neg a, s = q ++ sg ++ a /\ blanks U q /\ sign_of sg neg /\ unsigned U neg a l k.
(** Numbers that powers of ten do not change. *)
Definition inert (l : lexed) : Prop := forall x n n', is_value x l n -> is_value x l n'.
Definition is_dec (l : lexed) : Prop := exists neg m k, l = LDec neg m k.

Lemma nonfinite_word : forall a l, nonfinite a l -> (l = LNan /\ word_of "nan" a) \/ (l = LInf false /\ word_of "inf" a).
Proof. intros a l []; [left|left|right|right]; split; reflexivity. Qed.
Lemma number_item : forall s l k sp sp', item s l k -> blanks U sp -> blanks U sp' -> number U (sp ++ s ++ sp') l None.
Proof.
  intros s l k sp sp' (q & sg & neg & a & -> & Fq & Hs & Ha) F F'. constructor.
  replace (sp ++ (q ++ sg ++ a) ++ sp') with ((sp ++ q) ++ (sg ++ a) ++ sp') by (rewrite <- !app_assoc; reflexivity).
  assert (Fb : blanks U (sp ++ q)) by (apply blanks_app; assumption).
  inversion Ha as [a' m k' Hd|a' Hn|a' Hn]; subst.
  - replace (- Z.of_nat k) with (0 - Z.of_nat k) by lia. rewrite <- (app_nil_r a) at 1. apply ft_dec; try assumption. constructor.
  - eapply ft_nan; try eassumption. destruct (nonfinite_word _ _ Hn) as [(_ & W)|(E & _)]; [exact W|discriminate].
  - apply ft_inf; try assumption. left. destruct (nonfinite_word _ _ Hn) as [(E & _)|(_ & W)]; [discriminate|exact W].
Qed.
Lemma number_item_exp : forall o up e x s l k sp sp', opt o 76 = false -> exp_text o up e x -> item s l k -> is_dec l ->
  blanks U sp -> blanks U sp' ->
  exists l' y, number U (sp ++ (s ++ x) ++ sp') l' y /\ forall v, is_value v l' (oz y + 0) -> is_value v l e.
Proof.
  intros o up e x s l k sp sp' HL Ex (q & sg & neg & a & -> & Fq & Hs & Ha) (neg' & m & k' & ->) F F'.
  inversion Ha as [a' m' k'' Hd| |]; subst.
  destruct (number_exp U L o up e x (sp ++ q) sg neg' a m k sp' HL Ex) as (l' & y & N & S); try assumption; [apply blanks_app; assumption|].
  exists l', y. split.
  - replace (sp ++ ((q ++ sg ++ a) ++ x) ++ sp') with ((sp ++ q) ++ (sg ++ a ++ x) ++ sp') by (rewrite <- !app_assoc; reflexivity). exact N.
  - intros v Hv. destruct (scaled_sum _ _ _ _ _ _ S) as (e' & -> & E). cbn [is_value] in *.
    replace (- Z.of_nat k + e) with (e' + (oz y + 0)) by lia. exact Hv.
Qed.

(** ** The output as a notation *)
Definition paren_value (u : uncert) (k : nat) (y : dec) (n : Z) : Prop :=
  match u with
  | UUnits d => is_value y (LDec false d (- Z.of_nat k)) n
  | UNumber l => is_value y l n
  | ULast => is_value y (LDec false 1 (- Z.of_nat k)) n
  end.
Theorem layout_notation : forall p e nx ex x ns es r l k l' k', laid_out U p false e nx ex x ns es r ->
  opt (p_opts p) 76 = false -> (p_width p = [] \/ (u_spc U (fill_of p) = true /\ fill_of p <> 10)) ->
  item ns l k -> (nx = false -> inert l) -> (nx = true -> is_dec l) ->
  (opt (p_opts p) 83 = false -> item es l' k' /\ (ex = false -> inert l') /\ (ex = true -> is_dec l')) ->
  (opt (p_opts p) 83 = true -> exists w, in_paren U (lit "(" ++ es ++ lit ")") w /\ forall y n, paren_value w k y n -> is_value y l' n) ->
  exists mean s sp sp', r = sp ++ s ++ sp' /\ blanks U sp /\ blanks U sp' /\ notation U s mean /\
    forall v u, denoted mean v u -> is_value v l (oz e) /\ is_value u l' (oz e).
Proof.
  intros p e nx ex x ns es r l k l' k' (Ex & Lay) HL Hfill Hn Nx0 Nx1 Hpair Hparen. cbv zeta in Lay.
  unfold percent_text in Lay. rewrite !app_nil_r in Lay.
  assert (Nil : blanks U []) by constructor.
  destruct (opt (p_opts p) 83) eqn:ES.
  - clear Hpair. destruct (Hparen eq_refl) as (w & Hw & Vw). clear Hparen.
    destruct Hn as (q & sg & neg & a & -> & Fq & Hsg & Ha).
    assert (Oe : opt_exp U x e).
    { destruct e as [X|]; [apply oe_some; eapply exp_text_exponent; eassumption|subst x; constructor]. }
    assert (Hnot : notation U (sg ++ a ++ (lit "(" ++ es ++ lit ")") ++ x) (MParen l k w e)).
    { apply no_simple. eapply no_paren; eassumption. }
    assert (Hr : exists sp sp', r = sp ++ ((q ++ sg ++ a) ++ lit "(" ++ es ++ lit ")" ++ x) ++ sp' /\ blanks U sp /\ blanks U sp').
    { destruct (p_width p) as [|w0 w'] eqn:Ew.
      - exists [], []. rewrite app_nil_r. split; [exact Lay|]. split; assumption.
      - destruct Hfill as [Hfill|Hfill]; [discriminate|]. apply (aligned_blank U _ _ _ _ _ Hfill Lay). }
    destruct Hr as (sp & sp' & -> & Fs & Fs').
    eexists _, _, (sp ++ q), sp'. split; [|split; [|split; [|split; [exact Hnot|]]]].
    + rewrite <- !app_assoc. reflexivity.
    + apply blanks_app; assumption.
    + assumption.
    + intros v u (Hv & Hu). split; [exact Hv|]. apply Vw. exact Hu.
  - clear Hparen. destruct (Hpair eq_refl) as (He & Ex0 & Ex1). clear Hpair.
    assert (Epm : pm_sign (pm_text (p_opts p))).
    { unfold pm_text. rewrite HL. destruct (opt (p_opts p) 80); [right; reflexivity|left; reflexivity]. }
    assert (Epar : forall v, in_parens (p_opts p) v = lit "(" ++ v ++ lit ")") by (intros; unfold in_parens; rewrite HL; reflexivity).
    assert (Wrap : forall v mean, simple_notation U v mean -> notation U (if opt (p_opts p) 112 then in_parens (p_opts p) v else v) mean).
    { intros v mean H. destruct (opt (p_opts p) 112); [rewrite Epar; apply no_parens, H|apply no_simple, H]. }
    destruct (p_width p) as [|w0 w] eqn:Ew.
    + assert (N1 := number_item _ _ _ [] [] Hn Nil Nil). assert (N2 := number_item _ _ _ [] [] He Nil Nil).
      rewrite app_nil_r in N1, N2. cbn [app] in N1, N2.
      destruct e as [X|].
      * exists (MPair l None l' None (Some X)), r, [], []. split; [rewrite app_nil_r; reflexivity|]. split; [assumption|]. split; [assumption|]. split.
        -- rewrite Lay, Epar. apply no_simple.
           replace ((lit "(" ++ (ns ++ pm_text (p_opts p) ++ es) ++ lit ")") ++ x)
             with (lit "(" ++ (ns ++ pm_text (p_opts p) ++ es) ++ lit ")" ++ x) by (rewrite <- !app_assoc; reflexivity).
           apply no_factor; try assumption. eapply exp_text_exponent; eassumption.
        -- intros v u (Hv & Hu). split; assumption.
      * exists (MPair l None l' None None), r, [], []. split; [rewrite app_nil_r; reflexivity|]. split; [assumption|]. split; [assumption|]. split.
        -- rewrite Lay. apply Wrap. apply no_pair; assumption.
        -- intros v u (Hv & Hu). split; assumption.
    + destruct Hfill as [Hfill|Hfill]; [discriminate|].
      destruct Lay as (a & b & Aa & Ab & Lay).
      destruct (aligned_blank U _ _ _ _ _ Hfill Aa) as (sp & sp' & -> & F1 & F2).
      destruct (aligned_blank U _ _ _ _ _ Hfill Ab) as (sp2 & sp2' & -> & F3 & F4).
      assert (One : forall t lt kt (b : bool) p1 p2, item t lt kt -> (b = false -> inert lt) -> (b = true -> is_dec lt) -> blanks U p1 -> blanks U p2 ->
        exists l0 y0, number U (p1 ++ (t ++ if b then x else []) ++ p2) l0 y0 /\ forall v, is_value v l0 (oz y0 + 0) -> is_value v lt (oz e)).
      { intros t lt kt bb p1 p2 It B0 B1 G1 G2. destruct bb.
        - destruct e as [X|]; [eapply number_item_exp; try eassumption; auto|].
          subst x. rewrite app_nil_r. exists lt, None. split; [eapply number_item; eassumption|auto].
        - rewrite app_nil_r. exists lt, None. split; [eapply number_item; eassumption|]. intros v Hv. eapply B0; [reflexivity|exact Hv]. }
      destruct (One ns l k nx sp sp' Hn Nx0 Nx1 F1 F2) as (l1 & y1 & N1 & V1).
      destruct (One es l' k' ex sp2 sp2' He Ex0 Ex1 F3 F4) as (l2 & y2 & N2 & V2).
      exists (MPair l1 y1 l2 y2 None), r, [], []. split; [rewrite app_nil_r; reflexivity|]. split; [assumption|]. split; [assumption|]. split.
      * rewrite Lay. apply Wrap. apply no_pair; assumption.
      * intros v u (Hv & Hu). split; [apply V1, Hv|apply V2, Hu].
Qed.

(** ** The two numbers *)
Lemma item_shown : forall flag zero w neg n d s, at_most_one "-+ " flag -> shown flag zero false w neg n d s ->
  item s (LDec neg n (- Z.of_nat d)) d.
Proof.
  intros flag zero w neg n d s Hf (t & -> & Nt & _). destruct (sign_text_of U L flag neg Hf) as (q & sg & -> & Fq & Hs).
  exists q, sg, neg, t. split; [rewrite <- app_assoc; reflexivity|]. split; [exact Fq|]. split; [exact Hs|].
  constructor. apply numeral_decimal; assumption.
Qed.
Definition lex_word (x : dec) : lexed := match x with DInf b => LInf b | _ => LNan end.
Lemma word_nonfinite : forall up x, nonfinite (word up x) (match x with DInf _ => LInf false | _ => LNan end).
Proof. intros [] [| |]; constructor. Qed.
Lemma item_word : forall flag up x, at_most_one "-+ " flag -> nonreal x ->
  item (sign_text flag (neg_word x) ++ word up x) (lex_word x) 0.
Proof.
  intros flag up x Hf Hx. destruct (sign_text_of U L flag (neg_word x) Hf) as (q & sg & -> & Fq & Hs).
  exists q, sg, (neg_word x), (word up x). split; [rewrite <- app_assoc; reflexivity|]. split; [exact Fq|]. split; [exact Hs|].
  assert (W := word_nonfinite up x). destruct Hx as [(b & ->)| ->]; [apply un_inf|apply un_nan]; exact W.
Qed.
Lemma inert_word : forall x, nonreal x -> inert (lex_word x).
Proof. intros x [(b & ->)| ->] v n n' H; exact H. Qed.
Lemma inert_zero : forall neg e, inert (LDec neg 0 e).
Proof.
  intros neg e v n n' (R & E). split; [exact R|]. rewrite E. unfold qsigned, inject_Z. destruct neg; ring.
Qed.
Lemma word_value : forall x v n, nonreal x -> is_value v (lex_word x) n -> v = x.
Proof. intros x v n [(b & ->)| ->] H; exact H. Qed.
Definition lex_special (s : dec) : lexed := match s with DNum _ _ _ => LDec false 0 0 | _ => lex_word s end.
Lemma inert_special : forall s, special_std s -> inert (lex_special s).
Proof. intros s [(e & ->)|[-> | ->]]; [apply inert_zero|apply inert_word; left; eauto|apply inert_word; right; reflexivity]. Qed.
Lemma special_short_text : forall s prec main up es, special_std s -> main = (if up : bool then 70 else 102) ->
  shorthand_uncert (K := DecOps) U s prec main false = Ok es ->
  exists w, in_paren U (lit "(" ++ es ++ lit ")") w /\ forall k y n, paren_value w k y n -> is_value y (lex_special s) n.
Proof.
  intros s prec main up es Hs Hm H. assert (Mo : main = 102 \/ main = 70) by (subst main; destruct up; auto).
  unfold shorthand_uncert in H. destruct Hs as [(e & ->)|Hs].
  - cbn [x_iszero DecOps] in H. rewrite Z.eqb_refl in H. injection H as <-.
    exists (UUnits (uval U (lit "0"))). split.
    + apply ip_units; [|discriminate]. constructor; [rewrite (ul_digit U L) by (simpl; lia); discriminate|constructor].
    + intros k y n Hy. cbn [paren_value] in Hy. assert (E : uval U (lit "0") = 0) by (simpl; rewrite (ul_digit U L) by lia; reflexivity).
      rewrite E in Hy. cbn [lex_special]. destruct Hy as (R & Q). split; [exact R|]. rewrite Q. unfold qsigned, inject_Z. ring.
  - assert (Hn : nonreal s) by (destruct Hs as [-> | ->]; [left; eauto|right; reflexivity]).
    assert (X : py_format (K := DecOps) U s [main] = Ok es).
    { destruct Hs as [-> | ->]; cbn [x_iszero x_isnan x_isinf DecOps] in H; [exact H|]. match type of H with rbind ?q _ = _ => change (rbind q (fun s : str => Ok s) = Ok es) in H; destruct q; [exact H|discriminate] end. }
    unfold py_format in X. rewrite (type_fspec U L _ Mo) in X. cbn [rbind] in X.
    rewrite float_word in X; [|exact Hn|reflexivity..|left; reflexivity]. cbn [fs_sign fs_type] in X.
    assert (E : es = word up s).
    { injection X as <-. subst main. destruct Hs as [-> | ->]; destruct up; reflexivity. }
    exists (UNumber (lex_special s)). split.
    + rewrite E. apply ip_word. assert (W := word_nonfinite up s). destruct Hs as [-> | ->]; exact W.
    + intros k y n Hy. exact Hy.
Qed.

(** ** The parts of the output *)
Definition down (ce : option Z) (x : dec) : res dec := match ce with Some e => x_div10 DecOps x e | None => Ok x end.
Lemma format_parts : forall (nom s : dec) spec p s0 r, (real nom \/ nonreal nom) -> std_like s -> parse_spec U spec = Ok p ->
  assembled U p s0 -> p_type p <> lit "%" -> opt (p_opts p) 76 = false -> format_ufloat (K := DecOps) U nom s spec = Ok r ->
  exists ce nm s2 sm prec x ns es, 0 <= prec /\ down ce nom = Ok nm /\ down ce s2 = Ok sm /\
    (s2 = s \/ (x_iszero DecOps s = false /\ isinfinite (K := DecOps) s = false /\ p_prec p = None)) /\
    laid_out U p false ce (negb (isinfinite (K := DecOps) nm)) (negb (x_iszero DecOps sm || isinfinite (K := DecOps) sm)) x ns es r /\
    (exists w, 0 <= w /\ py_format (K := DecOps) U nm (prefix (p_sign p) p w ++ nom_suffix (K := DecOps) sm p prec (if upper p then 70 else 102)) = Ok ns) /\
    (opt (p_opts p) 83 = true -> shorthand_uncert (K := DecOps) U sm prec (if upper p then 70 else 102) false = Ok es) /\
    (opt (p_opts p) 83 = false -> exists w, 0 <= w /\
       py_format (K := DecOps) U sm (prefix [] p w ++ err_suffix (K := DecOps) nm sm p prec (if upper p then 70 else 102)) = Ok es).
Proof.
  intros nom s spec p s0 r Hn Hs Hp A Nty HL H.
  assert (Ep : str_eqb (p_type p) (lit "%") = false).
  { apply not_true_is_false. rewrite str_eqb_eq. exact Nty. }
  destruct (formats_only U L nom s spec p r Hn Hs Hp H) as (_ & A2 & _).
  assert (H' := H). rewrite (format_eq U L nom s spec p Hp) in H'.
  unfold SpecialFmt.scaled in H'. rewrite Ep in H'.
  destruct (limit_total U L nom s p s0 A) as (lim & s2 & prec0 & El & Pn & Hs2).
  { intros Hu d Hd H0. specialize (A2 Hu d Hd H0). rewrite std_positive in A2 by exact Hs.
    destruct (x_iszero DecOps s); [auto|]. destruct (isinfinite (K := DecOps) s); [auto|]. exfalso. apply A2. auto. }
  rewrite El in H'. cbn [rbind] in H'. destruct (exponent_total (fmt_type p) nom s lim) as (ce & Ece).
  rewrite Ece in H'. cbn [rbind] in H'.
  destruct (div_kind ce nom) as (nm & En & _).
  match type of H' with context[rbind ?q _] => assert (Y : q = Ok nm) by exact En; rewrite Y in H'; clear Y end. cbn [rbind] in H'.
  destruct (div_kind ce s2) as (sm & Es & _).
  match type of H' with context[rbind ?q _] => assert (Y : q = Ok sm) by exact Es; rewrite Y in H'; clear Y end. cbn [rbind] in H'.
  match type of H' with format_num U nm sm ce p ?q _ _ = _ => set (prec := q) in H' end.
  assert (Pp : 0 <= prec).
  { unfold prec. destruct lim as [l|]; [|exact Pn]. match goal with |- context[if ?c then 1 else 0] => destruct c end; lia. }
  destruct (format_num_laid_out (K := DecOps) U L nm sm ce p s0 prec _ false r A eq_refl H') as (x & n0 & es & LO & T).
  rewrite HL in LO, T.
  exists ce, nm, s2, sm, prec, x, n0, es. split; [exact Pp|]. split; [exact En|]. split; [exact Es|].
  split; [destruct Hs2 as [->|(X1 & X2 & X3 & _)]; auto|]. split; [exact LO|].
  destruct (opt (p_opts p) 83).
  - destruct T as (T1 & T2). split; [eexists; split; [|exact T1]; unfold room; lia|]. split; [intros _; exact T2|discriminate].
  - destruct T as (T1 & e0 & -> & T2). split; [eexists; split; [|exact T1]; unfold room; lia|]. split; [discriminate|].
    intros _. eexists. split; [|exact T2]. unfold room. lia.
Qed.
Lemma down_special : forall ce s sm, special_std s -> down ce s = Ok sm -> special_std sm /\ lex_special sm = lex_special s /\ (nonreal s -> sm = s).
Proof.
  intros ce s sm [(e & ->)|[-> | ->]] H; (destruct ce as [c|]; cbn in H; injection H as <-); unfold special_std, dzero, nonreal;
    repeat split; eauto; try (intros [(b & X)|X]; discriminate X).
Qed.
Lemma special_std_special : forall s, special_std s -> special s.
Proof. intros s [H|[-> | ->]]; unfold special; eauto. Qed.
Lemma special_std_like : forall s, special_std s -> std_like s.
Proof.
  intros s [(e & ->)|[-> | ->]]; [left|right; left; reflexivity|right; right; reflexivity].
  split; [exists false, 0, e; split; [reflexivity|lia]|]. unfold dq, inject_Z. lra.
Qed.
(** How the suffix of a number is made. *)
Lemma suffix_of : forall p prec q q', 0 <= prec -> (p_prec p = None \/ ~ gen_type (p_type p)) -> forall suf,
  (suf = nom_suffix (K := DecOps) q p prec (if upper p then 70 else 102) \/ suf = err_suffix (K := DecOps) q q' p prec (if upper p then 70 else 102)) ->
  (exists pr, 0 <= pr /\ suf = fixed_suffix pr (if upper p then 70 else 102)) \/ (gen_type (p_type p) /\ p_prec p = None /\ suf = prec_text p ++ p_type p).
Proof.
  intros p prec q q' Pp Hg suf [->| ->].
  - unfold nom_suffix. fold (prec_text p).
    destruct ((x_iszero DecOps q || isinfinite (K := DecOps) q) && in_g (p_type p)) eqn:E; [right|left; eauto].
    apply andb_true_iff in E. destruct E as (_ & E). apply in_g_gen in E. destruct Hg as [Hg|Hg]; [auto|contradiction].
  - unfold err_suffix. fold (prec_text p).
    destruct (x_iszero DecOps q'); [left; exists 0; split; [lia|reflexivity]|].
    destruct (isinfinite (K := DecOps) q && in_g (p_type p)) eqn:E; [right|left; eauto].
    apply andb_true_iff in E. destruct E as (_ & E). apply in_g_gen in E. destruct Hg as [Hg|Hg]; [auto|contradiction].
Qed.
Lemma special_text : forall sm p s0 w suf es, special_std sm -> assembled U p s0 -> p_comma p = [] -> 0 <= w ->
  (nonreal sm -> pads p = false) ->
  (dzero sm -> suf = fixed_suffix 0 (if upper p then 70 else 102)) ->
  (nonreal sm -> (exists pr, 0 <= pr /\ suf = fixed_suffix pr (if upper p then 70 else 102)) \/ (gen_type (p_type p) /\ p_prec p = None /\ suf = prec_text p ++ p_type p)) ->
  py_format (K := DecOps) U sm (prefix [] p w ++ suf) = Ok es -> item es (lex_special sm) 0.
Proof.
  intros sm p s0 w suf es Hs A Nco Hw Hpad Hz Hg E. destruct Hs as [Hs|Hs].
  - rewrite (Hz Hs) in E. destruct Hs as (e & ->).
    assert (Eco : commas p = false) by (unfold commas; rewrite Nco; reflexivity).
    destruct (py_fixed (K := DecOps) U L (DNum false 0 e) [] p s0 w 0 (if upper p then 70 else 102) A ltac:(left; reflexivity) Hw ltac:(lia)) as (t & Et & Sh).
    + destruct (upper p); auto.
    + reflexivity.
    + reflexivity.
    + apply dfix_half_even. lia.
    + assert (t = es) by congruence. subst t. rewrite Eco in Sh.
      assert (Fz : x_fix DecOps (DNum false 0 e) 0 = 0) by apply dfix_0. rewrite Fz in Sh.
      apply (item_shown _ _ _ _ _ _ _ ltac:(left; reflexivity) Sh).
  - assert (Hn : nonreal sm) by (destruct Hs as [-> | ->]; [left; eauto|right; reflexivity]).
    assert (Q := prefix_word U L sm [] p s0 w suf es Hn A ltac:(left; reflexivity) (Hpad Hn) (Hg Hn) E). rewrite Q.
    assert (I := item_word [] (upper p) sm ltac:(left; reflexivity) Hn).
    destruct Hs as [-> | ->]; exact I.
Qed.
Lemma special_value : forall s u n, special_std s -> is_value u (lex_special s) n -> special_read s u /\ ~ negative u.
Proof.
  intros s u n [(e & ->)|Hs] H.
  - cbn [lex_special is_value] in H. destruct H as (R & E).
    assert (Z : (dq u == 0)%Q) by (rewrite E; unfold qsigned, inject_Z; ring).
    split; [split; [intros [(b & X)|X]; discriminate X|auto]|]. intros (_ & N). lra.
  - assert (Hn : nonreal s) by (destruct Hs as [-> | ->]; [left; eauto|right; reflexivity]).
    assert (E : u = s) by (apply (word_value s u n Hn); destruct Hs as [-> | ->]; exact H). subst u.
    split; [split; [auto|]|].
    + intros (e & ->). destruct Hs; discriminate.
    + intros ((b & m & e & X & _) & _). destruct Hs as [-> | ->]; discriminate X.
Qed.
Lemma down_real : forall ce nom nm, real nom -> down ce nom = Ok nm ->
  exists m e, 0 <= m /\ nm = DNum (signbit nom) m (e - oz ce) /\ (Qabs (dq nom) == inject_Z m * p10 e)%Q.
Proof.
  intros ce nom nm R H. destruct (real_num nom R) as (m & e & En & Hm). exists m, e. split; [exact Hm|]. split.
  - rewrite En in H |- *. destruct ce as [c|]; cbn in H; injection H as <-; cbn [signbit oz]; [reflexivity|]. rewrite Z.sub_0_r. reflexivity.
  - rewrite En. apply dq_abs. exact Hm.
Qed.

(** The types e, E, f and F; words for the nominal value with all types. *)
Theorem special_trip : forall (nom s : dec) spec p r tag, real nom -> special_std s -> parse_spec U spec = Ok p ->
  p_type p <> lit "%" -> p_comma p = [] -> opt (p_opts p) 76 = false -> ~ gen_type (p_type p) ->
  (p_width p = [] \/ (u_spc U (fill_of p) = true /\ fill_of p <> 10)) ->
  (nonreal s -> opt (p_opts p) 83 = false -> pads p = false) ->
  format_ufloat (K := DecOps) U nom s spec = Ok r ->
  exists e d n v u,
    ufloat_fromstr (K := DecOps) U r tag = Ok (v, u, tag, 0%nat) /\
    (exists nx ex x ns es w, laid_out U p false e nx ex x ns es r /\ shown (p_sign p) (pads p) false w (signbit nom) n d ns) /\
    let w := p10 (oz e - Z.of_nat d) in
    half_even (Qabs (dq nom) * p10 (Z.of_nat d - oz e)) n /\
    (real v /\ dq v == qsigned (signbit nom) (inject_Z n * w))%Q /\ special_read s u.
Proof.
  intros nom s spec p r tag Rn Hs Hp Nty Nco HL Ng Hf Hpad H.
  destruct (spec_assembled U L spec p Hp) as (s0 & A).
  destruct (format_parts nom s spec p s0 r (or_introl Rn) (special_std_like s Hs) Hp A Nty HL H) as
    (ce & nm & s2 & sm & prec & x & ns & es & Pp & En & Es & Hs2 & LO & (wn & Hwn & Tn) & Tsh & Tpm).
  assert (S2 : s2 = s).
  { destruct Hs2 as [X|(X1 & X2 & _)]; [exact X|]. assert (Y := special_iff s (special_std_special s Hs)). rewrite X1, X2 in Y. discriminate. }
  subst s2. destruct (down_special ce s sm Hs Es) as (Ssm & Lsm & Nsm). destruct (down_real ce nom nm Rn En) as (m & e1 & Hm & Enm & Qn).
  assert (Ing : in_g (p_type p) = false) by (apply not_true_is_false; intros X; apply Ng, in_g_gen, X).
  assert (NS : nom_suffix (K := DecOps) sm p prec (if upper p then 70 else 102) = fixed_suffix prec (if upper p then 70 else 102)).
  { unfold nom_suffix. rewrite Ing, andb_false_r. reflexivity. }
  assert (Eco : commas p = false) by (unfold commas; rewrite Nco; reflexivity).
  rewrite NS in Tn.
  destruct (py_fixed (K := DecOps) U L nm (p_sign p) p s0 wn prec (if upper p then 70 else 102) A (as_sign _ _ _ A) Hwn Pp) as (t & Et & Sh);
    [destruct (upper p); auto|rewrite Enm; reflexivity..|rewrite Enm; apply dfix_half_even; exact Hm|].
  assert (t = ns) by congruence. subst t. rewrite Eco in Sh.
  assert (Sg : x_sign DecOps nm = signbit nom) by (rewrite Enm; reflexivity). rewrite Sg in Sh.
  set (n := x_fix DecOps nm prec) in *. set (d := Z.to_nat prec) in *.
  assert (In : item ns (LDec (signbit nom) n (- Z.of_nat d)) d) by (eapply item_shown; [exact (as_sign _ _ _ A)|exact Sh]).
  assert (Fnm : isinfinite (K := DecOps) nm = false) by (rewrite Enm; reflexivity).
  assert (Fsm := special_iff sm (special_std_special sm Ssm)).
  assert (LO' := LO). rewrite Fnm, Fsm in LO'. cbn [negb] in LO'.
  destruct (layout_notation p ce true false x ns es r _ d (lex_special s) O LO' HL Hf In) as (mean & t & sp & sp' & Er & F & F' & Hnot & Hden).
  - discriminate.
  - intros _. repeat eexists.
  - intros ES. split; [|split; [intros _; apply inert_special; exact Hs|discriminate]]. rewrite <- Lsm.
    destruct (Tpm ES) as (we & Hwe & Te). eapply special_text; try eassumption.
    + intros X. apply Hpad; [|exact ES]. destruct Hs as [(z & ->)|Hs]; [|destruct Hs as [-> | ->]; [left; eauto|right; reflexivity]].
      exfalso. destruct ce; cbn in Es; injection Es as <-; destruct X as [(b & X)|X]; discriminate X.
    + intros (z & ->). unfold err_suffix. cbn [x_iszero DecOps]. rewrite Z.eqb_refl. reflexivity.
    + intros _. eapply suffix_of; [exact Pp|right; exact Ng|right; reflexivity].
  - intros ES. destruct (special_short_text sm prec _ (upper p) es Ssm eq_refl (Tsh ES)) as (w & Hw & Vw).
    exists w. split; [exact Hw|]. intros y k Hy. rewrite <- Lsm. eapply Vw, Hy.
  - destruct (exact_notation U L t mean sp sp' tag Hnot (spaces_of_blanks U _ F) (spaces_of_blanks U _ F')) as (v & u & D & Hpar).
    destruct (Hden v u D) as (Hv & Hu). destruct (special_value s u _ Hs Hu) as (Hu1 & Hu2).
    exists ce, d, n, v, u. split; [destruct Hpar as [(_ & X)|(X & _)]; [rewrite Er; exact X|contradiction]|].
    split; [do 5 eexists; exists wn; split; [exact LO|exact Sh]|].
    cbv zeta. split.
    { unfold n, d. rewrite Z2Nat.id by exact Pp. eapply half_even_comp; [|rewrite Enm; exact (proj1 (dfix_half_even m (e1 - oz ce + prec) Hm))].
      rewrite Qn, <- Qmult_assoc, <- p10_add. replace (e1 - oz ce + prec) with (e1 + (prec - oz ce)) by lia. reflexivity. }
    split; [|exact Hu1]. cbn [is_value] in Hv. replace (- Z.of_nat d + oz ce) with (oz ce - Z.of_nat d) in Hv by lia. exact Hv.
Qed.

(** Infinite and NaN nominal values. *)
Theorem word_trip : forall (nom s : dec) spec p r tag, nonreal nom -> special_std s -> parse_spec U spec = Ok p ->
  p_type p <> lit "%" -> p_comma p = [] -> opt (p_opts p) 76 = false -> (p_prec p = None \/ ~ gen_type (p_type p)) ->
  (p_width p = [] \/ (u_spc U (fill_of p) = true /\ fill_of p <> 10)) -> pads p = false ->
  format_ufloat (K := DecOps) U nom s spec = Ok r ->
  exists u, ufloat_fromstr (K := DecOps) U r tag = Ok (nom, u, tag, 0%nat) /\ special_read s u.
Proof.
  intros nom s spec p r tag Rn Hs Hp Nty Nco HL Hg Hf Hpad H.
  destruct (spec_assembled U L spec p Hp) as (s0 & A).
  destruct (format_parts nom s spec p s0 r (or_intror Rn) (special_std_like s Hs) Hp A Nty HL H) as
    (ce & nm & s2 & sm & prec & x & ns & es & Pp & En & Es & Hs2 & LO & (wn & Hwn & Tn) & Tsh & Tpm).
  assert (S2 : s2 = s).
  { destruct Hs2 as [X|(X1 & X2 & _)]; [exact X|]. assert (Y := special_iff s (special_std_special s Hs)). rewrite X1, X2 in Y. discriminate. }
  subst s2. destruct (down_special ce s sm Hs Es) as (Ssm & Lsm & Nsm).
  assert (nm = nom). { unfold down in En. pose proof (eq_trans (eq_sym (nonreal_div ce nom Rn)) En) as Y. injection Y as ->. reflexivity. }
  subst nm. clear En.
  assert (Qs := prefix_word U L nom (p_sign p) p s0 wn _ ns Rn A (as_sign _ _ _ A) Hpad (suffix_of p prec sm sm Pp Hg _ (or_introl eq_refl)) Tn).
  assert (In : item ns (lex_word nom) 0) by (rewrite Qs; apply item_word; [exact (as_sign _ _ _ A)|exact Rn]).
  assert (Fnm : isinfinite (K := DecOps) nom = true) by (destruct Rn as [(b & ->)| ->]; reflexivity).
  assert (Fsm := special_iff sm (special_std_special sm Ssm)).
  rewrite Fnm, Fsm in LO. cbn [negb] in LO.
  destruct (layout_notation p ce false false x ns es r _ O (lex_special s) O LO HL Hf In) as (mean & t & sp & sp' & Er & F & F' & Hnot & Hden).
  - intros _. apply inert_word. exact Rn.
  - discriminate.
  - intros ES. split; [|split; [intros _; apply inert_special; exact Hs|discriminate]]. rewrite <- Lsm.
    destruct (Tpm ES) as (we & Hwe & Te). eapply special_text; try eassumption.
    + intros _. exact Hpad.
    + intros (z & ->). unfold err_suffix. cbn [x_iszero DecOps]. rewrite Z.eqb_refl. reflexivity.
    + intros _. eapply suffix_of; [exact Pp|exact Hg|right; reflexivity].
  - intros ES. destruct (special_short_text sm prec _ (upper p) es Ssm eq_refl (Tsh ES)) as (w & Hw & Vw).
    exists w. split; [exact Hw|]. intros y k Hy. rewrite <- Lsm. eapply Vw, Hy.
  - destruct (exact_notation U L t mean sp sp' tag Hnot (spaces_of_blanks U _ F) (spaces_of_blanks U _ F')) as (v & u & D & Hpar).
    destruct (Hden v u D) as (Hv & Hu). destruct (special_value s u _ Hs Hu) as (Hu1 & Hu2).
    apply word_value in Hv; [|exact Rn]. subst v.
    exists u. split; [destruct Hpar as [(_ & X)|(X & _)]; [rewrite Er; exact X|contradiction]|exact Hu1].
Qed.

(** The types g, G and none, without a precision: with the type none, the nominal value is recovered
    exactly. *)
Theorem general_trip : forall (nom s : dec) spec p tag, real nom -> special_std s -> parse_spec U spec = Ok p ->
  (p_align p = lit "=" -> p_width p = []) ->
  p_comma p = [] -> opt (p_opts p) 76 = false -> p_prec p = None -> gen_type (p_type p) ->
  (p_type p = [] -> ~ ((p10 (-4) - 5 * p10 (-16) <= Qabs (dq nom))%Q /\ (Qabs (dq nom) < p10 (-4))%Q)) ->
  (p_width p = [] \/ (u_spc U (fill_of p) = true /\ fill_of p <> 10)) ->
  (nonreal s -> opt (p_opts p) 83 = false -> pads p = false) ->
  exists r v u,
    format_ufloat (K := DecOps) U nom s spec = Ok r /\
    ufloat_fromstr (K := DecOps) U r tag = Ok (v, u, tag, 0%nat) /\
    real v /\ special_read s u /\
    (p_type p = [] -> dq v == dq nom)%Q /\
    (p_type p <> [] -> (dq nom == 0 -> dq v == 0)%Q /\
       (~ dq nom == 0 -> exists k N, sig_limit (Qabs (dq nom)) 6 k /\ half_even (Qabs (dq nom) * p10 (- k)) N /\
          dq v == qsigned (signbit nom) (inject_Z N * p10 k))%Q).
Proof.
  intros nom s spec p tag Rn Hs Hp Hal Nco HL Hpr Ht Hex Hf Hpad.
  destruct (spec_assembled U L spec p Hp) as (s0 & A).
  destruct (general_parts U L nom s spec p Rn (special_std_special s Hs) Hp Hal Hpr Ht Hex) as
    (r & e & n & d & x & ns & es & Er & LO & _ & _ & (w & Sh) & Tnone & Tg & (sm & prec & q & Es & Hq & Hq0 & T)).
  assert (Eco : commas p = false) by (unfold commas; rewrite Nco; reflexivity). rewrite Eco in Sh.
  destruct (down_special e s sm Hs Es) as (Ssm & Lsm & Nsm).
  assert (In : item ns (LDec (signbit nom) n (- Z.of_nat d)) d) by (eapply item_shown; [exact (as_sign _ _ _ A)|exact Sh]).
  rewrite HL in T.
  destruct (layout_notation p e true false x ns es r _ d (lex_special s) O LO HL Hf In) as (mean & t & sp & sp' & Et & F & F' & Hnot & Hden).
  - discriminate.
  - intros _. repeat eexists.
  - intros ES. split; [|split; [intros _; apply inert_special; exact Hs|discriminate]]. rewrite <- Lsm.
    rewrite ES in T. destruct T as (we & e0 & Hwe & -> & Te). eapply special_text; try eassumption.
    + intros X. apply Hpad; [|exact ES]. destruct Hs as [(z & ->)|Hs]; [|destruct Hs as [-> | ->]; [left; eauto|right; reflexivity]].
      exfalso. destruct e; cbn in Es; injection Es as <-; destruct X as [(b & X)|X]; discriminate X.
    + intros (z & ->). rewrite Hq0 by (cbn [x_iszero DecOps]; apply Z.eqb_refl). reflexivity.
    + intros _. left. eauto.
  - intros ES. rewrite ES in T. destruct (special_short_text sm prec _ (upper p) es Ssm eq_refl T) as (w' & Hw & Vw).
    exists w'. split; [exact Hw|]. intros y k Hy. rewrite <- Lsm. eapply Vw, Hy.
  - destruct (exact_notation U L t mean sp sp' tag Hnot (spaces_of_blanks U _ F) (spaces_of_blanks U _ F')) as (v & u & D & Hpar).
    destruct (Hden v u D) as ((Rv & Hv) & Hu). destruct (special_value s u _ Hs Hu) as (Hu1 & Hu2).
    exists r, v, u. split; [exact Er|]. split; [destruct Hpar as [(_ & X)|(X & _)]; [rewrite Et; exact X|contradiction]|].
    split; [exact Rv|]. split; [exact Hu1|].
    cbv zeta in Tnone, Tg. change (match e with Some X => X | None => 0 end) with (oz e) in Tnone, Tg.
    replace (- Z.of_nat d + oz e) with (oz e - Z.of_nat d) in Hv by lia.
    assert (Sv : (dq nom == qsigned (signbit nom) (Qabs (dq nom)))%Q).
    { assert (B := signbit_sign nom Rn). unfold qsigned. destruct (signbit nom); [rewrite Qabs_neg by exact B|rewrite Qabs_pos by exact B]; ring. }
    assert (Qc : forall a b, (a == b)%Q -> (qsigned (signbit nom) a == qsigned (signbit nom) b)%Q).
    { intros a b E. unfold qsigned. destruct (signbit nom); rewrite E; reflexivity. }
    split.
    + intros E. destruct (Tnone E) as (En & _). rewrite Hv, Sv. apply Qc. rewrite En, <- Qmult_assoc, <- p10_add.
      replace (Z.of_nat d - oz e + (oz e - Z.of_nat d)) with 0 by lia. change (p10 0) with 1%Q. ring.
    + intros E. destruct (Tg E) as (_ & Z0 & P0). split.
      * intros V0. rewrite Hv, Z0 by (rewrite V0; reflexivity). unfold qsigned, inject_Z. destruct (signbit nom); ring.
      * intros V1. destruct P0 as (k & N & S & H & En).
        { destruct (Qlt_le_dec 0 (Qabs (dq nom))) as [P|P]; [exact P|]. exfalso. apply V1. apply Qabs_Qle_condition in P. lra. }
        exists k, N. split; [exact S|]. split; [exact H|]. rewrite Hv. apply Qc. exact En.
Qed.

(** Infinite and NaN nominal values with a positive uncertainty, in the types e, E, f and F. *)
Theorem word_real_trip : forall (nom s : dec) spec p r tag, nonreal nom -> real s -> (0 < dq s)%Q -> parse_spec U spec = Ok p ->
  p_type p <> lit "%" -> p_comma p = [] -> opt (p_opts p) 76 = false -> ~ gen_type (p_type p) -> p_prec p <> None ->
  opt (p_opts p) 83 = false ->
  (p_width p = [] \/ (u_spc U (fill_of p) = true /\ fill_of p <> 10)) -> pads p = false ->
  format_ufloat (K := DecOps) U nom s spec = Ok r ->
  exists e d n u,
    ufloat_fromstr (K := DecOps) U r tag = Ok (nom, u, tag, 0%nat) /\
    (exists nx ex x ns es w, laid_out U p false e nx ex x ns es r /\ shown [] (pads p) false w false n d es) /\
    half_even (dq s * p10 (Z.of_nat d - oz e)) n /\
    (real u /\ dq u == inject_Z n * p10 (oz e - Z.of_nat d))%Q.
Proof.
  intros nom s spec p r tag Rn Rs Ps Hp Nty Nco HL Ng Npr ES Hf Hpad H.
  destruct (spec_assembled U L spec p Hp) as (s0 & A).
  destruct (format_parts nom s spec p s0 r (or_intror Rn) (or_introl (conj Rs (Qlt_le_weak _ _ Ps))) Hp A Nty HL H) as
    (ce & nm & s2 & sm & prec & x & ns & es & Pp & En & Es & Hs2 & LO & (wn & Hwn & Tn) & Tsh & Tpm).
  assert (S2 : s2 = s) by (destruct Hs2 as [X|(_ & _ & X)]; [exact X|contradiction]).
  subst s2. destruct (down_real ce s sm Rs Es) as (m & e1 & Hm & Esm & Qs).
  assert (Sb : signbit s = false).
  { assert (B := signbit_sign s Rs). destruct (signbit s); [exfalso; lra|reflexivity]. }
  rewrite Sb in Esm. rewrite Qabs_pos in Qs by lra.
  assert (Pm : 0 < m).
  { destruct (Z.eq_dec m 0) as [->|]; [exfalso|lia]. rewrite Qs in Ps. unfold inject_Z in Ps. lra. }
  assert (nm = nom). { unfold down in En. pose proof (eq_trans (eq_sym (nonreal_div ce nom Rn)) En) as Y. injection Y as ->. reflexivity. }
  subst nm. clear En.
  assert (Qn := prefix_word U L nom (p_sign p) p s0 wn _ ns Rn A (as_sign _ _ _ A) Hpad (suffix_of p prec sm sm Pp (or_intror Ng) _ (or_introl eq_refl)) Tn).
  assert (In : item ns (lex_word nom) 0) by (rewrite Qn; apply item_word; [exact (as_sign _ _ _ A)|exact Rn]).
  assert (Fnm : isinfinite (K := DecOps) nom = true) by (destruct Rn as [(b & ->)| ->]; reflexivity).
  assert (Fz : x_iszero DecOps sm = false) by (rewrite Esm; cbn; apply Z.eqb_neq; lia).
  assert (Fsm : x_iszero DecOps sm || isinfinite (K := DecOps) sm = false) by (rewrite Fz, Esm; reflexivity).
  assert (LO' := LO). rewrite Fnm, Fsm in LO'. cbn [negb] in LO'.
  assert (Eco : commas p = false) by (unfold commas; rewrite Nco; reflexivity).
  destruct (Tpm ES) as (we & Hwe & Te).
  assert (Ing : in_g (p_type p) = false) by (apply not_true_is_false; intros X; apply Ng, in_g_gen, X).
  assert (SS : err_suffix (K := DecOps) nom sm p prec (if upper p then 70 else 102) = fixed_suffix prec (if upper p then 70 else 102)).
  { unfold err_suffix. rewrite Fz, Ing, andb_false_r. reflexivity. }
  rewrite SS in Te.
  destruct (py_fixed (K := DecOps) U L sm [] p s0 we prec (if upper p then 70 else 102) A ltac:(left; reflexivity) Hwe Pp) as (t & Et & Sh);
    [destruct (upper p); auto|rewrite Esm; reflexivity..|rewrite Esm; apply dfix_half_even; exact Hm|].
  assert (t = es) by congruence. subst t. rewrite Eco in Sh.
  assert (Sg : x_sign DecOps sm = false) by (rewrite Esm; reflexivity). rewrite Sg in Sh.
  set (n := x_fix DecOps sm prec) in *. set (d := Z.to_nat prec) in *.
  assert (Ie : item es (LDec false n (- Z.of_nat d)) d) by (eapply item_shown; [left; reflexivity|exact Sh]).
  destruct (layout_notation p ce false true x ns es r _ O (LDec false n (- Z.of_nat d)) d LO' HL Hf In) as (mean & t & sp & sp' & Er & F & F' & Hnot & Hden).
  - intros _. apply inert_word. exact Rn.
  - discriminate.
  - intros _. split; [exact Ie|]. split; [discriminate|]. intros _. repeat eexists.
  - intros X. congruence.
  - destruct (exact_notation U L t mean sp sp' tag Hnot (spaces_of_blanks U _ F) (spaces_of_blanks U _ F')) as (v & u & D & Hpar).
    destruct (Hden v u D) as (Hv & (Ru & Hu)). apply word_value in Hv; [|exact Rn]. subst v.
    replace (- Z.of_nat d + oz ce) with (oz ce - Z.of_nat d) in Hu by lia. cbn [qsigned] in Hu.
    exists ce, d, n, u. split.
    { destruct Hpar as [(_ & X)|((_ & X) & _)]; [rewrite Er; exact X|exfalso]. rewrite Hu in X.
      assert (0 <= n) by (unfold n; rewrite Esm; apply dfix_half_even; exact Hm).
      assert (Y := mq_nonneg n (oz ce - Z.of_nat d) ltac:(assumption)). lra. }
    split; [do 5 eexists; exists we; split; [exact LO|exact Sh]|]. split; [|split; assumption].
    unfold n, d. rewrite Z2Nat.id by exact Pp. eapply half_even_comp; [|rewrite Esm; exact (proj1 (dfix_half_even m (e1 - oz ce + prec) Hm))].
    rewrite Qs, <- Qmult_assoc, <- p10_add. replace (e1 - oz ce + prec) with (e1 + (prec - oz ce)) by lia. reflexivity.
Qed.
End SpecialTrip.
