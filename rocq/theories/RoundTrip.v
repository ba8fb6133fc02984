(** Formatted numbers can be read back. *)
From Coq Require Import String.
From Coq Require Import ZArith List Bool Lia QArith Qabs Qminmax Qpower Lqa.
From Verif Require Import Base Str FmtOps Format Parse StrProofs FmtSpec SpecProofs FixedProofs FormatProofs DecProofs
  RealThm ZeroFmt ParseSpec ReadProofs ParseProofs NotationProofs ParseThm.
Import ListNotations.
Local Open Scope Z_scope.

Section RoundTrip.
Context (U : Unicode) (L : UniLaws U).

Lemma ascii_digits_U : forall s, ascii_digits s -> digits U s /\ uval U s = dval s.
Proof.
  induction s as [|c s IH]; intros F; [split; [constructor|reflexivity]|]. inversion F; subst.
  destruct (IH H2) as (D & E). pose proof (ul_digit U L c H1) as Ec. split.
  - constructor; [congruence|exact D].
  - cbn [uval dval]. rewrite Ec, E. reflexivity.
Qed.
Lemma numeral_decimal : forall n d s, numeral false n d s -> decimal U s n d.
Proof.
  intros n d s (i & f & -> & Lf & Ff & Ni & Gi & Vi). rewrite no_commas_ascii in Vi by exact Gi.
  destruct (ascii_digits_U _ Gi) as (Di & Ei). destruct (ascii_digits_U _ Ff) as (Df & Ef).
  assert (V : n = uval U (i ++ f)).
  { rewrite <- Vi. symmetry. apply ascii_digits_U. apply Forall_app; split; assumption. }
  destruct d.
  - destruct f; [|discriminate]. rewrite app_nil_r in *. rewrite V. apply de_int; assumption.
  - rewrite V, <- Lf. destruct f as [|c f]; [discriminate|]. apply de_point; try assumption. destruct i; discriminate.
Qed.
Lemma blank32 : u_spc U 32 = true /\ 32 <> 10.
Proof. split; [|lia]. apply (ul_space U L); lia. Qed.
Lemma sign_text_of : forall flag neg, at_most_one "-+ " flag -> exists sp sg,
  sign_text flag neg = sp ++ sg /\ blanks U sp /\ sign_of sg neg.
Proof.
  intros flag neg H. unfold sign_text. destruct neg.
  - exists [], (lit "-"). split; [reflexivity|]. split; constructor.
  - destruct H as [->|(c & Hc & ->)]; [exists [], []; split; [reflexivity|split; constructor]|].
    simpl in Hc. destruct Hc as [<-|[<-|[<-|[]]]].
    + exists [], []. split; [reflexivity|split; constructor].
    + exists [], (lit "+"). split; [reflexivity|split; constructor].
    + exists [32], []. split; [reflexivity|]. split; [|constructor]. constructor; [apply blank32|constructor].
Qed.
Lemma numeral_integer : forall n t, numeral false n 0 t -> digits U t /\ t <> [] /\ uval U t = n /\ ascii_digits t.
Proof.
  intros n t (i & f & -> & Lf & Ff & Ni & Gi & Vi). destruct f; [|discriminate]. rewrite !app_nil_r in *.
  rewrite no_commas_ascii in Vi by exact Gi. destruct (ascii_digits_U _ Gi) as (Di & Ei). repeat split; try assumption. congruence.
Qed.
Lemma int_text_integer : forall e t, int_text e t -> integer U t e /\ ascii_int t /\ map sup_char t = map raised t.
Proof.
  intros e t (ds & -> & Hn & _). destruct (numeral_integer _ _ Hn) as (D & N & V & A). split; [|split].
  - exists (if e <? 0 then lit "-" else []), (e <? 0), ds. split; [reflexivity|].
    split; [destruct (e <? 0); constructor|]. split; [exact D|]. split; [exact N|]. rewrite V. unfold signed.
    destruct (Z.ltb_spec e 0); lia.
  - apply Forall_app. split; [destruct (e <? 0); simpl; repeat constructor; lia|].
    eapply Forall_impl; [|exact A]. intros c H. left. exact H.
  - rewrite !map_app. f_equal; [destruct (e <? 0); reflexivity|]. apply map_ext_in. intros c Hc.
    unfold ascii_digits in A. rewrite Forall_forall in A. apply A in Hc. unfold raised. destruct (Z.eqb_spec c 43); [lia|reflexivity].
Qed.
Lemma signed_exp : forall e t, numeral false (Z.abs e) 0 t -> integer U ((if e <? 0 then 45 else 43) :: t) e.
Proof.
  intros e t Hn. destruct (numeral_integer _ _ Hn) as (D & N & V & A).
  exists [if e <? 0 then 45 else 43], (e <? 0), t. split; [reflexivity|].
  split; [destruct (e <? 0); constructor|]. split; [exact D|]. split; [exact N|]. rewrite V. unfold signed.
  destruct (Z.ltb_spec e 0); lia.
Qed.
Lemma exp_text_exponent : forall o up e x, opt o 76 = false -> exp_text o up e x -> exponent U x e.
Proof.
  intros o up e x HL H. unfold exp_text in H. rewrite HL in H. destruct (opt o 80).
  - destruct H as (t & Ht & ->). destruct (int_text_integer _ _ Ht) as (I & A & ->).
    apply (ex_x U [] [] t e); try assumption; constructor.
  - destruct H as (t & -> & Hn & _). apply ex_e; [destruct up; tauto|]. apply signed_exp, Hn.
Qed.
(** A number with its exponent. *)
Definition scaled (l : lexed) (y : option Z) (neg : bool) (m : Z) (k : nat) (e : Z) : Prop :=
  exists e', l = LDec neg m e' /\ ((e' = e - Z.of_nat k /\ y = None) \/ (e' = - Z.of_nat k /\ y = Some e)).
Lemma number_exp : forall o up e x sp sg neg a m k sp', opt o 76 = false -> exp_text o up e x ->
  blanks U sp -> blanks U sp' -> sign_of sg neg -> decimal U a m k ->
  exists l y, number U (sp ++ (sg ++ a ++ x) ++ sp') l y /\ scaled l y neg m k e.
Proof.
  intros o up e x sp sg neg a m k sp' HL H F F' Hs Ha. unfold exp_text in H. rewrite HL in H. destruct (opt o 80).
  - destruct H as (t & Ht & ->). destruct (int_text_integer _ _ Ht) as (I & A & ->).
    eexists _, _. split.
    + replace (sp ++ (sg ++ a ++ 215 :: lit "10" ++ map raised t) ++ sp')
        with (sp ++ sg ++ a ++ [] ++ 215 :: [] ++ lit "10" ++ map raised t ++ sp')
        by (repeat (rewrite <- app_assoc; cbn [app]); reflexivity).
      apply nu_pretty; try eassumption; constructor.
    + exists (- Z.of_nat k). split; [reflexivity|]. right. split; reflexivity.
  - destruct H as (t & -> & Hn & _). eexists _, _. split; [apply nu_float; apply ft_dec; try eassumption|].
    + apply fe_e; [destruct up; tauto|]. apply signed_exp, Hn.
    + exists (e - Z.of_nat k). split; [reflexivity|]. left. split; reflexivity.
Qed.
Lemma number_plain : forall sp sg neg a m k sp', blanks U sp -> blanks U sp' -> sign_of sg neg -> decimal U a m k ->
  exists l y, number U (sp ++ (sg ++ a) ++ sp') l y /\ scaled l y neg m k 0.
Proof.
  intros. eexists _, None. split.
  - constructor. replace (sg ++ a) with (sg ++ a ++ []) by (rewrite app_nil_r; reflexivity).
    apply (ft_dec U sp sg neg a m k [] 0 sp'); try assumption. constructor.
  - exists (- Z.of_nat k). split; [reflexivity|left; split; [lia|reflexivity]].
Qed.
Lemma aligned_blank : forall f al w s t, u_spc U f = true /\ f <> 10 -> aligned f al w s t ->
  exists sp sp', t = sp ++ s ++ sp' /\ blanks U sp /\ blanks U sp'.
Proof.
  intros f al w s t Hf (a & b & -> & _). exists (repeat f a), (repeat f b). split; [reflexivity|].
  split; apply Forall_forall; intros c Hc; apply repeat_spec in Hc; subst; exact Hf.
Qed.
Lemma blanks_app : forall a b, blanks U a -> blanks U b -> blanks U (a ++ b).
Proof. intros. apply Forall_app. split; assumption. Qed.

(** What is read back: the digits that are displayed. *)
Definition reads (mean : meaning) (neg : bool) (n m e : Z) : Prop :=
  forall v u, denoted mean v u ->
    (real v /\ dq v == qsigned neg (inject_Z n * p10 e))%Q /\ (real u /\ dq u == inject_Z m * p10 e)%Q.
(** The parts of the text: the exponent is written once, or with each number. *)
Definition shape (mean : meaning) (neg : bool) (n m : Z) (d : nat) (e : option Z) : Prop :=
  match mean with
  | MPair a x b y z =>
      (z = e /\ scaled a x neg n d 0 /\ scaled b y false m d 0) \/
      (z = None /\ scaled a x neg n d (oz e) /\ scaled b y false m d (oz e))
  | MParen a k w z =>
      a = LDec neg n (- Z.of_nat d) /\ k = d /\ z = e /\
      (w = UUnits m \/ exists k, w = UNumber (LDec false m (- Z.of_nat k)) /\ (k = d \/ m = 0))
  end.
Lemma scaled_sum : forall l y neg m k e, scaled l y neg m k e -> exists e', l = LDec neg m e' /\ e' + oz y = e - Z.of_nat k.
Proof. intros l y neg m k e (e' & -> & H). exists e'. split; [reflexivity|]. destruct H as [(-> & ->)|(-> & ->)]; simpl; lia. Qed.
(** The shorthand notation. *)
Lemma short_in_paren : forall m d es, short_text m d es -> exists u, in_paren U (lit "(" ++ es ++ lit ")") u /\
  (u = UUnits m \/ exists k, u = UNumber (LDec false m (- Z.of_nat k)) /\ (k = d \/ m = 0)).
Proof.
  intros m d es H. unfold short_text in H.
  destruct (_ && _).
  - destruct H as (Hn & _). apply numeral_decimal in Hn. destruct Hn as [i Di Ni|i f Di Df N].
    + eexists. split; [apply ip_units; assumption|]. left; reflexivity.
    + eexists. split; [apply ip_point; assumption|]. right. exists (length f). split; [reflexivity|left; reflexivity].
  - destruct (Z.eqb_spec m 0) as [->|].
    + subst es. assert (D : digits U (lit "0")) by (constructor; [rewrite (ul_digit U L) by (simpl; lia); discriminate|constructor]).
      eexists. split.
      * apply (ip_point U (lit "0") []); [exact D|constructor|discriminate].
      * right. exists 0%nat. simpl. rewrite (ul_digit U L) by lia. split; [reflexivity|right; reflexivity].
    + destruct H as (Hn & _). destruct (numeral_integer _ _ Hn) as (D & N & V & _).
      eexists. split; [apply ip_units; assumption|]. left. congruence.
Qed.
Lemma zero_value : forall x e e', (real x /\ dq x == inject_Z 0 * p10 e)%Q -> (real x /\ dq x == inject_Z 0 * p10 e')%Q.
Proof. intros x e e' (R & E). split; [exact R|]. rewrite E. unfold inject_Z. ring. Qed.
Lemma reads_paren : forall neg n d u m z, (u = UUnits m \/ exists k, u = UNumber (LDec false m (- Z.of_nat k)) /\ (k = d \/ m = 0)) ->
  reads (MParen (LDec neg n (- Z.of_nat d)) d u z) neg n m (oz z - Z.of_nat d).
Proof.
  intros neg n d u m z Hu v w (Hv & Hw). simpl in Hv. replace (- Z.of_nat d + oz z) with (oz z - Z.of_nat d) in Hv by lia.
  split; [exact Hv|]. destruct Hu as [->|(k & -> & Hk)]; simpl in Hw.
  - replace (- Z.of_nat d + oz z) with (oz z - Z.of_nat d) in Hw by lia. exact Hw.
  - destruct Hk as [->| ->].
    + replace (- Z.of_nat d + oz z) with (oz z - Z.of_nat d) in Hw by lia. exact Hw.
    + eapply zero_value, Hw.
Qed.
Lemma shape_reads : forall mean neg n m d e, shape mean neg n m d e -> reads mean neg n m (oz e - Z.of_nat d).
Proof.
  intros [a x b y z|a k w z] neg n m d e H; cbn [shape] in H.
  - intros v u (Hv & Hu).
    assert (X : exists e1 e2, a = LDec neg n e1 /\ b = LDec false m e2 /\ e1 + (oz x + oz z) = oz e - Z.of_nat d /\ e2 + (oz y + oz z) = oz e - Z.of_nat d).
    { destruct H as [(-> & A & B)|(-> & A & B)]; destruct (scaled_sum _ _ _ _ _ _ A) as (e1 & -> & E1); destruct (scaled_sum _ _ _ _ _ _ B) as (e2 & -> & E2);
        exists e1, e2; (split; [reflexivity|]; split; [reflexivity|]; simpl; lia). }
    destruct X as (e1 & e2 & -> & -> & E1 & E2). simpl in Hv, Hu. rewrite E1 in Hv. rewrite E2 in Hu. split; assumption.
  - destruct H as (-> & -> & -> & Hw). apply reads_paren. exact Hw.
Qed.

Theorem output_notation : forall p V S neg k e d n m r, output U p V S neg k e d n m r ->
  at_most_one "-+ " (p_sign p) -> p_type p <> lit "%" -> p_comma p = [] -> opt (p_opts p) 76 = false ->
  (p_width p = [] \/ (u_spc U (fill_of p) = true /\ fill_of p <> 10)) ->
  exists mean s sp sp', r = sp ++ s ++ sp' /\ blanks U sp /\ blanks U sp' /\ notation U s mean /\
    shape mean neg n m d e /\ (opt (p_opts p) 83 = false -> exists a x b y z, mean = MPair a x b y z).
Proof.
  intros p V S neg k e d n m r [_ _ _ (x & ns & es & Lay & Sh)] Asg Nty Nco HL Hfill.
  cbv zeta in Sh. assert (Epc : str_eqb (p_type p) (lit "%") = false).
  { destruct (str_eqb _ _) eqn:E; [|reflexivity]. apply str_eqb_eq in E. congruence. }
  rewrite Epc in Lay, Sh. assert (Eco : commas p = false) by (unfold commas; rewrite Nco; reflexivity). rewrite Eco in Sh.
  unfold laid_out in Lay. cbv zeta in Lay. destruct Lay as (Ex & Lay).
  unfold percent_text in Lay. rewrite !app_nil_r in Lay.
  destruct (sign_text_of (p_sign p) neg Asg) as (q & sg & Eq & Fq & Hsg).
  assert (Nil : blanks U []) by constructor.
  destruct (opt (p_opts p) 83) eqn:ES.
  - (* shorthand *)
    destruct Sh as ((t & -> & Nt & _) & Su). apply numeral_decimal in Nt.
    destruct (short_in_paren _ _ _ Su) as (u & Hp & Hu).
    assert (Oe : opt_exp U x e).
    { destruct e as [X|]; [apply oe_some; eapply exp_text_exponent; eassumption|subst x; constructor]. }
    assert (Hnot : notation U (sg ++ t ++ (lit "(" ++ es ++ lit ")") ++ x) (MParen (LDec neg n (- Z.of_nat d)) d u e)).
    { apply no_simple. eapply no_paren; try eassumption. apply un_dec. exact Nt. }
    assert (Hr : exists sp sp', r = sp ++ ((sign_text (p_sign p) neg ++ t) ++ lit "(" ++ es ++ lit ")" ++ x) ++ sp' /\ blanks U sp /\ blanks U sp').
    { destruct (p_width p) as [|w0 w] eqn:Ew.
      - exists [], []. rewrite app_nil_r. split; [exact Lay|]. split; assumption.
      - destruct Hfill as [Hfill|Hfill]; [discriminate|]. apply (aligned_blank _ _ _ _ _ Hfill Lay). }
    destruct Hr as (sp & sp' & -> & Fs & Fs').
    eexists _, _, (sp ++ q), sp'. split; [|split; [|split; [|split; [exact Hnot|]]]].
    + rewrite Eq. rewrite <- !app_assoc. reflexivity.
    + apply blanks_app; assumption.
    + assumption.
    + split; [|discriminate]. cbn [shape]. split; [reflexivity|]. split; [reflexivity|]. split; [reflexivity|exact Hu].
  - (* two numbers *)
    destruct Sh as ((t & -> & Nt & _) & (t' & -> & Nt' & _)). apply numeral_decimal in Nt. apply numeral_decimal in Nt'.
    assert (Epm : pm_sign (pm_text (p_opts p))).
    { unfold pm_text. rewrite HL. destruct (opt (p_opts p) 80); [right; reflexivity|left; reflexivity]. }
    assert (Epar : forall v, in_parens (p_opts p) v = lit "(" ++ v ++ lit ")") by (intros; unfold in_parens; rewrite HL; reflexivity).
    assert (Wrap : forall v mean, simple_notation U v mean -> notation U (if opt (p_opts p) 112 then in_parens (p_opts p) v else v) mean).
    { intros v mean H. destruct (opt (p_opts p) 112); [rewrite Epar; apply no_parens, H|apply no_simple, H]. }
    assert (Est : forall a, sign_text [] false ++ a = [] ++ ([] ++ a) ++ []) by (intros; simpl; rewrite app_nil_r; reflexivity).
    assert (Esq : forall a, sign_text (p_sign p) neg ++ a = q ++ (sg ++ a) ++ []) by (intros; rewrite Eq, app_nil_r, <- app_assoc; reflexivity).
    destruct (p_width p) as [|w0 w] eqn:Ew.
    + destruct (number_plain q sg neg t n d []) as (l & y & Nl & Sl); try assumption.
      destruct (number_plain [] [] false t' m d []) as (l' & y' & Nl' & Sl'); try assumption; [constructor|].
      rewrite <- Esq in Nl. rewrite <- Est in Nl'.
      destruct e as [X|].
      * exists (MPair l y l' y' (Some X)), r, [], []. split; [rewrite app_nil_r; reflexivity|]. split; [assumption|]. split; [assumption|].
        split.
        -- rewrite Lay, Epar. apply no_simple.
           replace ((lit "(" ++ ((sign_text (p_sign p) neg ++ t) ++ pm_text (p_opts p) ++ sign_text [] false ++ t') ++ lit ")") ++ x)
             with (lit "(" ++ ((sign_text (p_sign p) neg ++ t) ++ pm_text (p_opts p) ++ (sign_text [] false ++ t')) ++ lit ")" ++ x)
             by (rewrite <- !app_assoc; reflexivity).
           apply no_factor; try assumption. eapply exp_text_exponent; eassumption.
        -- split; [left; split; [reflexivity|]; split; assumption|]. intros _. repeat eexists.
      * exists (MPair l y l' y' None), r, [], []. split; [rewrite app_nil_r; reflexivity|]. split; [assumption|]. split; [assumption|].
        split.
        -- rewrite Lay. apply Wrap. apply no_pair; assumption.
        -- split; [right; split; [reflexivity|]; split; assumption|]. intros _. repeat eexists.
    + destruct Hfill as [Hfill|Hfill]; [discriminate|].
      destruct Lay as (a & b & Aa & Ab & Lay).
      destruct (aligned_blank _ _ _ _ _ Hfill Aa) as (sp & sp' & -> & F1 & F2).
      destruct (aligned_blank _ _ _ _ _ Hfill Ab) as (sp2 & sp2' & -> & F3 & F4).
      assert (Hn : exists l y l' y', number U (sp ++ ((sign_text (p_sign p) neg ++ t) ++ x) ++ sp') l y /\
                number U (sp2 ++ ((sign_text [] false ++ t') ++ x) ++ sp2') l' y' /\
                scaled l y neg n d (oz e) /\ scaled l' y' false m d (oz e)).
      { rewrite Eq. replace (sp ++ (((q ++ sg) ++ t) ++ x) ++ sp') with ((sp ++ q) ++ (sg ++ t ++ x) ++ sp') by (rewrite <- !app_assoc; reflexivity).
        replace (sp2 ++ ((sign_text [] false ++ t') ++ x) ++ sp2') with (sp2 ++ ([] ++ t' ++ x) ++ sp2') by (rewrite <- !app_assoc; reflexivity).
        destruct e as [X|].
        - destruct (number_exp _ _ _ _ (sp ++ q) sg neg t n d sp' HL Ex) as (l & y & N1 & S1); try assumption; [apply blanks_app; assumption|].
          destruct (number_exp _ _ _ _ sp2 [] false t' m d sp2' HL Ex) as (l' & y' & N2 & S2); try assumption; [constructor|].
          exists l, y, l', y'. repeat split; assumption.
        - subst x. rewrite !app_nil_r.
          destruct (number_plain (sp ++ q) sg neg t n d sp') as (l & y & N1 & S1); try assumption; [apply blanks_app; assumption|].
          destruct (number_plain sp2 [] false t' m d sp2') as (l' & y' & N2 & S2); try assumption; [constructor|].
          exists l, y, l', y'. repeat split; assumption. }
      destruct Hn as (l & y & l' & y' & N1 & N2 & S1 & S2).
      exists (MPair l y l' y' None), r, [], []. split; [rewrite app_nil_r; reflexivity|]. split; [assumption|]. split; [assumption|].
      split.
      * rewrite Lay. apply Wrap. apply no_pair; assumption.
      * split; [right; split; [reflexivity|]; split; assumption|]. intros _. repeat eexists.
Qed.

Lemma dval_nonneg : forall s, ascii_digits s -> 0 <= dval s.
Proof. intros s H. destruct (ascii_digits_U s H) as (_ & <-). apply (uval_nonneg U L). apply ascii_digits_U, H. Qed.
Lemma numeral_nonneg : forall n d s, numeral false n d s -> 0 <= n.
Proof.
  intros n d s (i & f & -> & Lf & Ff & Ni & Gi & Vi). rewrite no_commas_ascii in Vi by exact Gi. rewrite <- Vi.
  apply dval_nonneg, Forall_app; split; assumption.
Qed.
Lemma output_nonneg : forall p V S neg k e d n m r, output U p V S neg k e d n m r -> p_comma p = [] -> 0 <= m.
Proof.
  intros p V S neg k e d n m r [_ _ _ (x & ns & es & _ & Sh)] Nco. cbv zeta in Sh.
  assert (Eco : commas p = false) by (unfold commas; rewrite Nco; reflexivity). rewrite Eco in Sh.
  destruct (opt _ _).
  - destruct Sh as (_ & Su). unfold short_text in Su. destruct (_ && _).
    + destruct Su as (H & _). apply (numeral_nonneg _ _ _ H).
    + destruct (Z.eqb_spec m 0); [lia|]. destruct Su as (H & _). apply (numeral_nonneg _ _ _ H).
  - destruct Sh as (_ & (t & _ & H & _)). apply (numeral_nonneg _ _ _ H).
Qed.
Lemma spaces_of_blanks : forall s, blanks U s -> spaces U s.
Proof. intros s. apply Forall_impl. tauto. Qed.

Lemma half_even_near : forall V X n, half_even (Qabs V * p10 (- X)) n -> forall neg : bool,
  ((if neg then V <= 0 else 0 <= V) -> Qabs (V - qsigned neg (inject_Z n * p10 X)) <= (1 # 2) * p10 X)%Q.
Proof.
  intros V X n H neg Hn. apply half_even_bounds in H. assert (P := p10_pos X). assert (P' := p10_pos (- X)).
  assert (E : (p10 (- X) * p10 X == 1)%Q) by (rewrite <- p10_add; replace (- X + X) with 0 by lia; reflexivity).
  assert (B : (Qabs V == Qabs V * p10 (- X) * p10 X)%Q) by (rewrite <- Qmult_assoc, E; ring).
  assert (Qabs (Qabs V - inject_Z n * p10 X) <= (1 # 2) * p10 X)%Q.
  { apply Qabs_Qle_condition. rewrite B. split; nra. }
  destruct neg; unfold qsigned.
  - rewrite (Qabs_neg V) in H0 by exact Hn. rewrite <- Qabs_opp in H0.
    replace (V - - (inject_Z n * p10 X))%Q with (V - - (inject_Z n * p10 X))%Q by reflexivity.
    assert (E' : (- (- V - inject_Z n * p10 X) == V - - (inject_Z n * p10 X))%Q) by ring. rewrite E' in H0. exact H0.
  - rewrite (Qabs_pos V) in H0 by exact Hn. exact H0.
Qed.
Lemma signbit_sign : forall x, real x -> (if signbit x then dq x <= 0 else 0 <= dq x)%Q.
Proof.
  intros x H. destruct (real_num x H) as (m & e & -> & Hm). simpl. assert (G := mq_nonneg m e Hm).
  destruct (signbit x); simpl; unfold dq; simpl; lra.
Qed.

Theorem round_trip : forall (nom s : dec) (spec : str) (p : parts) tag,
  real nom -> real s -> (0 < dq s)%Q -> parse_spec U spec = Ok p ->
  (p_align p = lit "=" -> p_width p = []) ->
  (p_uncert p <> [] -> forall d, p_prec p = Some d -> uval U d <> 0) ->
  p_type p <> lit "%" -> p_comma p = [] -> opt (p_opts p) 76 = false ->
  (p_width p = [] \/ (u_spc U (fill_of p) = true /\ fill_of p <> 10)) ->
  let V := (unit_of p * dq nom)%Q in
  let S0 := (unit_of p * dq s)%Q in
  exists r S k e d n m v u,
    format_ufloat (K := DecOps) U nom s spec = Ok r /\
    last_place U p V S0 S k /\
    output U p V S (signbit nom) k e d n m r /\
    ufloat_fromstr (K := DecOps) U r tag = Ok (v, u, tag, 0%nat) /\
    let w := p10 (match e with Some X => X | None => 0 end - Z.of_nat d) in
    (real v /\ dq v == qsigned (signbit nom) (inject_Z n * w))%Q /\ (real u /\ dq u == inject_Z m * w)%Q /\
    (Qabs (dq v - dq nom) <= (1 # 2) * w)%Q.
Proof.
  intros nom s spec p tag Rn Rs Ps Hp Hal Hu Nty Nco HL Hf V S0.
  destruct (real_display U L nom s spec p Rn Rs Ps Hp Hal Hu) as (r & S & k & e & d & n & m & Er & Lp & _ & O).
  assert (Eu : unit_of p = 1%Q).
  { unfold unit_of. destruct (str_eqb _ _) eqn:E; [|reflexivity]. apply str_eqb_eq in E. congruence. }
  assert (Asg : at_most_one "-+ " (p_sign p)).
  { destruct (spec_parts U L _ _ Hp) as ([As|(t & _ & As)] & _); apply (as_sign _ _ _ As). }
  destruct (output_notation _ _ _ _ _ _ _ _ _ _ O Asg Nty Nco HL Hf) as (mean & t & sp & sp' & Et & F & F' & Hnot & Sh & _). assert (Rd := shape_reads _ _ _ _ _ _ Sh).
  destruct (exact_notation U L t mean sp sp' tag Hnot (spaces_of_blanks _ F) (spaces_of_blanks _ F')) as (v & u & D & Hpar).
  destruct (Rd _ _ D) as (Hv & Hu').
  pose proof (output_nonneg _ _ _ _ _ _ _ _ _ _ O Nco) as Np.
  exists r, S, k, e, d, n, m, v, u. split; [exact Er|]. split; [exact Lp|split; [exact O|split]].
  - destruct Hpar as [(_ & H)|((R & N) & _)]; [rewrite Et; exact H|exfalso].
    assert (G := mq_nonneg m (oz e - Z.of_nat d) Np). destruct Hu' as (_ & Hu'). lra.
  - cbv zeta. split; [exact Hv|]. split; [exact Hu'|]. destruct Hv as (_ & Ev). 
    rewrite Ev, Qabs_Qminus. apply half_even_near; [|apply signbit_sign, Rn].
    eapply half_even_comp; [|apply (out_nominal _ _ _ _ _ _ _ _ _ _ _ O)]. rewrite Eu, Qmult_1_l. 
    change (Qabs (dq nom) * p10 (Z.of_nat d - oz e) == Qabs (dq nom) * p10 (- (oz e - Z.of_nat d)))%Q.
    replace (- (oz e - Z.of_nat d)) with (Z.of_nat d - oz e) by lia. reflexivity.
Qed.
End RoundTrip.
