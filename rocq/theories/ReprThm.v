(** repr() can be read back. *)
From Coq Require Import String.
From Coq Require Import ZArith List Bool Lia QArith Qabs Qminmax Qpower Lqa.
From Verif Require Import Base Str FmtOps Format Parse StrProofs FmtSpec FixedProofs FormatProofs DecProofs
  ParseSpec ReadProofs ParseProofs NotationProofs ParseThm RoundTrip ErrThm.
Import ListNotations.
Local Open Scope Z_scope.

(** Laws of the conversions between floats and decimal numbers, up to an equality of floats:
    decimal texts are converted according to their value, and the shortest digits that repr() writes
    are those of a number that converts to the float. *)
Record ReprLaws (K : FmtOps) (good : fl K -> Prop) (eqv : fl K -> fl K -> Prop) : Prop := mkReprLaws {
  rl_trans : forall x y z, eqv x y -> eqv y z -> eqv x z;
  rl_refl : forall x, eqv x x;
  rl_nan : forall x, x_isnan K x = true -> eqv (x_nan K) x;
  rl_inf : forall x, x_isnan K x = false -> x_isinf K x = true -> eqv (x_inf K (x_sign K x)) x;
  rl_scale : forall s m e k, 0 <= m -> 0 <= k -> eqv (x_dec K s (m * 10 ^ k) e) (x_dec K s m (e + k));
  rl_short : forall x m e, good x -> x_isnan K x = false -> x_isinf K x = false -> x_short K x = (m, e) ->
    0 <= m /\ eqv (x_dec K (x_sign K x) m e) x;
  rl_refused : forall x y, eqv x y -> refused K x = refused K y;
  rl_zero : x_iszero K (x_dec K false 0 0) = true }.

Section Repr.
Context (U : Unicode) (L : UniLaws U).

Lemma span_join : forall A (p : A -> bool) s, let (a, b) := span p s in a ++ b = s.
Proof.
  induction s as [|c s IH]; [reflexivity|]. simpl. destruct (p c); [|reflexivity]. destruct (span p s) as (a & b).
  simpl. rewrite IH. reflexivity.
Qed.
Lemma repr_body : forall (K : FmtOps) (x : fl K),
  py_repr (K := K) x = (if x_sign K x && negb (x_isnan K x) then lit "-" else []) ++
    body (K := K) (mkFspec [] false 0 false None []) x.
Proof.
  intros K x. unfold py_repr, format_float. cbv zeta. cbn [fs_sign fs_zero fs_width fs_comma].
  set (b := body _ x). pose proof (span_join _ (fun c => (48 <=? c) && (c <=? 57)) b) as J.
  destruct (span _ b) as (i & f). rewrite J. cbn [fs_zero fs_width fs_comma fs_sign].
  assert (E : forall t : str, repeat 32 (Z.to_nat (0 - len t)) = []).
  { intros t. unfold len. replace (Z.to_nat (0 - Z.of_nat (length t))) with O by lia. reflexivity. }
  rewrite E. unfold sign_str. destruct (_ && _); reflexivity.
Qed.
Lemma digits_chars : forall ds, Forall digit ds -> digits U (chars ds) /\ uval U (chars ds) = val ds.
Proof.
  intros ds F. destruct (ascii_digits_U U L _ (chars_ascii _ F)) as (D & E). split; [exact D|]. rewrite E. apply dval_chars.
Qed.
Lemma fixed_decimal : forall n p, 0 <= n -> decimal U (fixed_str n p) n p.
Proof.
  intros n p H. destruct (fixed_parts n p H) as (i & f & -> & Lf & Fi & Ff & Ni & V & _).
  destruct (digits_chars i Fi) as (Di & Ei). destruct (digits_chars f Ff) as (Df & Ef).
  assert (Ev : uval U (chars i ++ chars f) = n).
  { rewrite <- V, <- chars_app. apply digits_chars, Forall_app; split; assumption. }
  assert (Nc : chars i <> []) by (intros X; apply map_eq_nil in X; auto).
  destruct p.
  - destruct f; [|discriminate]. cbn [chars map] in *. rewrite app_nil_r in *. rewrite <- Ev. apply de_int; assumption.
  - rewrite <- Ev. replace (S p) with (length (chars f)) by (rewrite chars_length; exact Lf).
    apply de_point; try assumption. intros X. apply app_eq_nil in X. tauto.
Qed.
Lemma sci_decimal : forall m X, 0 <= m -> exists a k, sci_str (digs m) X 101 = a ++ 101 :: show_exp X /\
  decimal U a m k /\ S k = length (digs m).
Proof.
  intros m X H. unfold sci_str. assert (F := digs_digit m H). assert (V := val_digs m H).
  assert (N := digs_nonnil m H). destruct (digs m) as [|d ds]; [contradiction|]. simpl firstn. simpl skipn.
  inversion F; subst. assert (Nd : chars [d] <> []) by discriminate.
  destruct (digits_chars [d]) as (Dd & Ed); [constructor; [assumption|constructor]|].
  destruct ds as [|d' ds].
  - exists (chars [d]), O. split; [reflexivity|]. split; [|reflexivity].
    rewrite <- Ed. apply de_int; assumption.
  - exists (chars [d] ++ 46 :: chars (d' :: ds)), (length (d' :: ds)).
    split; [rewrite <- app_assoc; reflexivity|]. split; [|reflexivity].
    destruct (digits_chars (d' :: ds)) as (Dt & Et); [assumption|].
    destruct (digits_chars (d :: d' :: ds)) as (_ & Ew); [assumption|]. rewrite <- Ew.
    change (chars (d :: d' :: ds)) with (chars [d] ++ chars (d' :: ds)). rewrite <- (chars_length (d' :: ds)).
    apply de_point; try assumption. discriminate.
Qed.
Lemma digits_one : forall m, 0 <= m -> (1 <= length (digs m))%nat.
Proof. intros m H. assert (N := digs_nonnil m H). destruct (digs m); [contradiction|simpl; lia]. Qed.

Section Generic.
Context (K : FmtOps) (good : fl K -> Prop) (eqv : fl K -> fl K -> Prop) (R : ReprLaws K good eqv).
Lemma body_text : forall sg neg x m e, sign_of sg neg -> x_isnan K x = false -> x_isinf K x = false ->
  x_short K x = (m, e) -> 0 <= m ->
  exists m' e' k, float_text U (sg ++ body (K := K) (mkFspec [] false 0 false None []) x) (LDec neg m' e') /\
    m' = m * 10 ^ k /\ 0 <= k /\ e = e' + k.
Proof.
  intros sg neg x m e Hs Hn Hi Es Hm. unfold body. rewrite Hn, Hi. simpl fs_type. simpl fs_prec.
  cbv beta iota. change (str_eqb [] (lit "f")) with false. change (str_eqb [] (lit "F")) with false. cbn [orb].
  rewrite Es. set (X := e + Z.of_nat (length (digs m)) - 1).
  assert (W : forall a k x n, decimal U a m k \/ True -> decimal U a m k -> float_exp U x n -> float_text U (sg ++ a ++ x) (LDec neg m (n - Z.of_nat k))).
  { intros a k y n _ Ha Hx. pose proof (ft_dec U [] sg neg a m k y n []) as G. cbn [app] in G. rewrite app_nil_r in G.
    apply G; try assumption; constructor. }
  destruct (_ && _).
  - destruct (Z.leb_spec 0 e).
    + exists (m * 10 ^ e * 10), (-1), (e + 1). split; [|split; [rewrite Z.pow_add_r by lia; lia|lia]].
      assert (P : 0 <= m * 10 ^ e * 10) by (apply Z.mul_nonneg_nonneg; [apply Z.mul_nonneg_nonneg; [exact Hm|apply Z.pow_nonneg; lia]|lia]).
      assert (D := fixed_decimal (m * 10 ^ e * 10) 1 P).
      pose proof (ft_dec U [] sg neg _ _ _ [] 0 [] ltac:(constructor) ltac:(constructor) Hs D ltac:(constructor)) as G.
      cbn [app] in G. rewrite !app_nil_r in G. exact G.
    + exists m, e, 0. split; [|split; [rewrite Z.mul_1_r; reflexivity|lia]].
      assert (D := fixed_decimal m (Z.to_nat (- e)) Hm).
      pose proof (ft_dec U [] sg neg _ _ _ [] 0 [] ltac:(constructor) ltac:(constructor) Hs D ltac:(constructor)) as G.
      cbn [app] in G. rewrite !app_nil_r in G. replace (0 - Z.of_nat (Z.to_nat (- e))) with e in G by lia. exact G.
  - exists m, e, 0. split; [|split; [rewrite Z.mul_1_r; reflexivity|lia]].
    destruct (sci_decimal m X Hm) as (a & k & -> & D & Lk).
    destruct (show_exp_text X) as (t & -> & Ht & _).
    replace e with (X - Z.of_nat k) by (unfold X; lia). apply W; [right; exact I|exact D|].
    apply fe_e; [left; reflexivity|]. apply (signed_exp U L). exact Ht.
Qed.
Lemma repr_text : forall x, good x -> exists l, float_text U (py_repr (K := K) x) l /\ eqv (lex_fl l) x.
Proof.
  intros x Gx. rewrite repr_body. destruct (x_isnan K x) eqn:En.
  - exists LNan. rewrite andb_false_r. unfold body. rewrite En. split; [|apply (rl_nan _ _ _ R), En].
    apply (ft_nan U [] [] false (lit "nan") []); constructor.
  - rewrite andb_true_r. destruct (x_isinf K x) eqn:Ei.
    + exists (LInf (x_sign K x)). unfold body. rewrite En, Ei. split; [|apply (rl_inf _ _ _ R); assumption].
      replace (_ ++ _) with ([] ++ ((if x_sign K x then lit "-" else []) ++ lit "inf") ++ []) by (rewrite app_nil_r; reflexivity).
      apply ft_inf; try constructor; [destruct (x_sign K x); constructor|reflexivity].
    + destruct (x_short K x) as (m & e) eqn:Es. destruct (rl_short _ _ _ R _ _ _ Gx En Ei Es) as (Hm & Hx).
      destruct (body_text (if x_sign K x then lit "-" else []) (x_sign K x) x m e) as (m' & e' & k & T & -> & Hk & ->); try assumption.
      { destruct (x_sign K x); constructor. }
      exists (LDec (x_sign K x) (m * 10 ^ k) e'). split; [exact T|]. simpl.
      eapply (rl_trans _ _ _ R); [apply (rl_scale _ _ _ R); assumption|exact Hx].
Qed.

Theorem repr_back : forall nom s tag, good nom -> good s -> refused K s = false -> exists v u,
  ufloat_fromstr (K := K) U (repr_ufloat nom s) tag = Ok (v, u, tag, 0%nat) /\
  eqv v nom /\ (if x_iszero K s then u = x_dec K false 0 0 else eqv u s).
Proof.
  intros nom s tag Gn Gs Hs. destruct (repr_text nom Gn) as (l & T & E).
  assert (T' : exists l', float_text U (if x_iszero K s then lit "0" else py_repr (K := K) s) l' /\
    if x_iszero K s then lex_fl l' = x_dec K false 0 0 else eqv (lex_fl l') s).
  { destruct (x_iszero K s) eqn:Ez.
    - exists (LDec false 0 0). split; [|reflexivity].
      pose proof (ft_dec U [] [] false (fixed_str 0 0) 0 0 [] 0 [] ltac:(constructor) ltac:(constructor) ltac:(constructor)
        (fixed_decimal 0 0 ltac:(lia)) ltac:(constructor)) as G. exact G.
    - destruct (repr_text s Gs) as (l' & T' & E'). exists l'. split; assumption. }
  destruct T' as (l' & T' & E').
  unfold repr_ufloat. pose proof (no_pair U _ l None (lit "+/-") _ l' None (nu_float _ _ _ T) (or_introl eq_refl) (nu_float _ _ _ T')) as Hn.
  pose proof (float_notation U L K _ _ [] [] tag (no_simple _ _ _ Hn)) as G.
  cbn [app] in G. rewrite app_nil_r in G. specialize (G ltac:(constructor) ltac:(constructor)).
  exists (lex_fl l), (lex_fl l'). cbn [meaning_fl power times oz rbind] in G.
  assert (N : refused K (lex_fl l') = false).
  { destruct (x_iszero K s) eqn:Ez.
    - unfold refused. rewrite E', (rl_zero _ _ _ R). cbn [negb]. rewrite andb_false_r. reflexivity.
    - rewrite (rl_refused _ _ _ R _ _ E'). exact Hs. }
  unfold refused in N. rewrite N in G. split; [exact G|]. split; [exact E|].
  destruct (x_iszero K s); exact E'.
Qed.
End Generic.
End Repr.

(** ** Exact decimal numbers *)
(** The same number, or the same infinity, with the same sign; or no number. *)
Definition dsame (x y : dec) : Prop :=
  match x, y with
  | DNum s _ _, DNum s' _ _ => s = s' /\ (dq x == dq y)%Q
  | DInf s, DInf s' => s = s'
  | DNan, DNan => True
  | _, _ => False
  end.
Definition dgood (x : dec) : Prop := match x with DNum _ m _ => 0 <= m | _ => True end.
Lemma dnorm_value : forall f m e m' e', 0 <= m -> dnorm f m e = (m', e') ->
  0 <= m' /\ (inject_Z m' * p10 e' == inject_Z m * p10 e)%Q.
Proof.
  induction f as [|f IH]; intros m e m' e' Hm H; simpl in H; [inversion H; subst; split; [exact Hm|reflexivity]|].
  destruct (_ && _) eqn:B; [|inversion H; subst; split; [exact Hm|reflexivity]].
  apply andb_prop in B. destruct B as (B & _). apply Z.eqb_eq in B.
  apply IH in H; [|apply Z.div_pos; lia]. destruct H as (P & E). split; [exact P|]. rewrite E.
  assert (Em : m = 10 * (m / 10)) by (pose proof (Z.div_mod m 10 ltac:(lia)); lia).
  rewrite Em at 2. rewrite p10_add, inject_Z_mult. change (p10 1) with (10 # 1)%Q. change (inject_Z 10) with (10 # 1)%Q. ring.
Qed.
Lemma exact_repr : ReprLaws DecOps dgood dsame.
Proof.
  split.
  - intros [s m e|s|] [s' m' e'|s'|] [s'' m'' e''|s''|]; simpl; try tauto; try congruence.
    intros (-> & E) (-> & E'). split; [reflexivity|]. etransitivity; eassumption.
  - intros [s m e|s|]; simpl; try reflexivity. split; reflexivity.
  - intros [s m e|s|]; simpl; try discriminate. tauto.
  - intros [s m e|s|]; simpl; try discriminate. reflexivity.
  - intros s m e k Hm Hk. simpl. split; [reflexivity|]. unfold dq. 
    assert (E : (inject_Z (m * 10 ^ k) * p10 e == inject_Z m * p10 (e + k))%Q).
    { rewrite inject_Z_mult, p10_add, <- (p10_Z k Hk). ring. }
    destruct s; rewrite E; reflexivity.
  - intros [s m e|s|] m' e' G; simpl; try discriminate. intros _ _. simpl in G. destruct (Z.eqb_spec m 0) as [->|].
    + intros H. inversion H; subst. split; [lia|]. split; [reflexivity|]. unfold dq. destruct s; unfold inject_Z; ring.
    + intros H. apply dnorm_value in H; [|exact G]. destruct H as (P & E). split; [exact P|]. split; [reflexivity|].
      unfold dq. destruct s; rewrite E; reflexivity.
  - intros [s m e|s|] [s' m' e'|s'|]; simpl; try tauto; try congruence. intros (-> & E). unfold refused. simpl. 
    f_equal. f_equal. f_equal. unfold dq in E.
    assert (Em : (inject_Z m * p10 e == inject_Z m' * p10 e')%Q) by (destruct s'; lra).
    assert (Z0 : forall n k, (inject_Z n * p10 k == 0)%Q -> n = 0).
    { intros n k H. assert (P := p10_pos k). apply Qmult_integral in H. destruct H as [H|H]; [|rewrite H in P; discriminate].
      apply (eq_trans (y := Qnum (inject_Z n))); [reflexivity|]. unfold Qeq in H. simpl in H. simpl. lia. }
    destruct (Z.eqb_spec m 0) as [->|N]; destruct (Z.eqb_spec m' 0) as [->|N']; try reflexivity; exfalso.
    + apply N', (Z0 m' e'). rewrite <- Em. unfold inject_Z. ring.
    + apply N, (Z0 m e). rewrite Em. unfold inject_Z. ring.
  - reflexivity.
Qed.
Theorem exact_repr_back : forall (U : Unicode), UniLaws U -> forall (nom s : dec) tag, dgood nom -> dgood s ->
  ~ negative s -> exists v u,
  ufloat_fromstr (K := DecOps) U (repr_ufloat (K := DecOps) nom s) tag = Ok (v, u, tag, 0%nat) /\
  dsame v nom /\ (dsame u s \/ (real s /\ real u /\ dq s == 0 /\ dq u == 0)%Q).
Proof.
  intros U L nom s tag Gn Gs N.
  assert (Hr : refused DecOps s = false).
  { destruct (refused DecOps s) eqn:E; [|reflexivity]. exfalso. apply N. destruct s as [g m e|g|]; [|destruct g; discriminate|discriminate].
    simpl in Gs. unfold refused in E. simpl in E. destruct g; [|discriminate]. destruct (Z.eqb_spec m 0); [discriminate|].
    split; [exists true, m, e; auto|]. simpl. assert (P := mq_pos m e ltac:(lia)). lra. }
  destruct (repr_back U L DecOps dgood dsame exact_repr nom s tag Gn Gs Hr) as (v & u & E & Hv & Hu).
  exists v, u. split; [exact E|]. split; [exact Hv|].
  destruct (x_iszero DecOps s) eqn:Ez; [right|left; exact Hu].
  destruct s as [g m e|g|]; try discriminate. simpl in Ez. apply Z.eqb_eq in Ez. subst m.
  rewrite Hu.
  split; [exists g, 0, e; split; [reflexivity|lia]|]. split; [exists false, 0, 0; split; [reflexivity|lia]|].
  split; [destruct g|]; simpl; unfold inject_Z; ring.
Qed.

(** The same in any arithmetic. *)
Theorem repr_reads : forall (U : Unicode), UniLaws U ->
  forall (K : FmtOps) (good : fl K -> Prop) (eqv : fl K -> fl K -> Prop), ReprLaws K good eqv ->
  forall nom s tag, good nom -> good s -> refused K s = false -> exists v u,
  ufloat_fromstr (K := K) U (repr_ufloat nom s) tag = Ok (v, u, tag, 0%nat) /\
  eqv v nom /\ (if x_iszero K s then u = x_dec K false 0 0 else eqv u s).
Proof. intros U L K good eqv R. exact (repr_back U L K good eqv R). Qed.
