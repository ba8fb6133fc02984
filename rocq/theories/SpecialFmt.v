(** Formatting: when it is possible; infinite numbers and NaN; the exponent when the uncertainty is
    zero, infinite or NaN. *)
From Coq Require Import String.
From Coq Require Import ZArith List Bool Lia QArith Qpower Qabs Qminmax Lqa.
From Verif Require Import Base Str FmtOps Format FmtSpec StrProofs SpecProofs FixedProofs FormatProofs DecProofs RealFmt RealThm ZeroFmt.
Import ListNotations.
Local Open Scope Z_scope.
Local Open Scope res_scope.

Section Special.
Context (U : Unicode) (L : UniLaws U).

(** ** The specifications given to Python for the types g, G and none *)
Lemma gen_hd : forall ty, gen_type ty -> hd_not (is_digit U) ty /\ hd_not (ch 48) ty /\ hd_not (ch 44) ty /\ hd_not (ch 46) ty /\
  hd_not (oneof "+- ") ty /\ take_opt (oneof "fFgG") ty = (ty, []).
Proof.
  intros ty [-> | [-> | ->]]; (split; [|repeat split]); cbn; auto; apply (ascii_nodig U L); lia.
Qed.
Lemma sign_opt : forall sg, at_most_one "-+ " sg -> sg = [] \/ exists x, oneof "+- " x = true /\ sg = [x].
Proof.
  intros sg [->|(x & I & ->)]; [left; reflexivity|right]. exists x. split; [|reflexivity].
  cbn in I. destruct I as [<-|[<-|[<-|[]]]]; reflexivity.
Qed.
Lemma digit_nosign : forall c, is_digit U c = true -> oneof "+- " c = false /\ ch 44 c = false /\ ch 46 c = false /\ oneof "fFgG" c = false.
Proof.
  intros c H. assert (K : forall x, In x (lit "+- ,.fFgG") -> c <> x).
  { intros x I ->. assert (is_digit U x = false) by (apply (ascii_nodig U L); cbn in I; lia). congruence. }
  assert (M : forall s, (forall x, In x (lit s) -> c <> x) -> oneof s c = false).
  { intros s Hs. apply not_true_is_false. intros X. unfold oneof in X. apply existsb_exists in X. destruct X as (y & I & E).
    apply Z.eqb_eq in E. subst y. exact (Hs _ I eq_refl). }
  repeat split.
  - apply M. intros x I. apply K. cbn in I |- *. tauto.
  - apply Z.eqb_neq. apply not_eq_sym, K. cbn. tauto.
  - apply Z.eqb_neq. apply not_eq_sym, K. cbn. tauto.
  - apply M. intros x I. apply K. cbn in I |- *. tauto.
Qed.
Lemma take_opt_none : forall p s, hd_not p s -> take_opt p s = ([], s).
Proof. intros p s H. exact (take_opt_run p [] s (or_introl eq_refl) (fun _ => H)). Qed.
(** Digits and a type. *)
Lemma gen_fspec_digits : forall sg D ty, at_most_one "-+ " sg -> Forall (fun c => is_digit U c = true) D -> gen_type ty ->
  exists fs, parse_fspec U (sg ++ D ++ ty) = Ok fs.
Proof.
  intros sg D ty Hsg HD Ht. destruct (gen_hd ty Ht) as (G1 & G2 & G3 & G4 & G5 & G6). unfold parse_fspec.
  rewrite take_opt_run; [|apply sign_opt; exact Hsg|].
  2: { intros _. destruct D as [|c D]; [exact G5|]. inversion HD; subst. cbn. apply digit_nosign. assumption. }
  assert (Z1 : exists z D', take_opt (ch 48) (D ++ ty) = (z, D' ++ ty) /\ Forall (fun c => is_digit U c = true) D').
  { destruct D as [|c D]; cbn [app].
    - exists [], []. split; [|constructor]. exact (take_opt_none (ch 48) ty G2).
    - inversion HD; subst. cbn [take_opt]. destruct (ch 48 c); [exists [c], D|exists [], (c :: D)]; auto. }
  destruct Z1 as (z & D' & -> & HD').
  rewrite span_run; [|exact HD'|exact G1].
  rewrite (take_opt_none (ch 44) ty G3).
  rewrite (take_opt_none (ch 46) ty G4).
  rewrite G6. cbn [isnil negb andb]. eauto.
Qed.
(** No precision. *)
Lemma gen_fspec_run : forall sg z w co ty, at_most_one "-+ " sg -> at_most_one "0" z ->
  Forall (fun c => is_digit U c = true) w -> (z = [] -> w = []) -> at_most_one "," co -> gen_type ty ->
  parse_fspec U (sg ++ z ++ w ++ co ++ ty) =
    Ok (mkFspec sg (negb (isnil z)) (val (digit_vals U w)) (negb (isnil co)) None ty).
Proof.
  intros sg z w co ty Hsg Hz Hw Hzw Hco Ht. destruct (gen_hd ty Ht) as (G1 & G2 & G3 & G4 & G5 & G6). unfold parse_fspec.
  assert (Cz : z = [] \/ exists x, ch 48 x = true /\ z = [x]) by (apply (opt_ch 48 "0" z eq_refl); exact Hz).
  assert (Cc : co = [] \/ exists x, ch 44 x = true /\ co = [x]) by (apply (opt_ch 44 "," co eq_refl); exact Hco).
  assert (N44 : is_digit U 44 = false) by (apply (ascii_nodig U L); lia).
  rewrite take_opt_run; [|apply sign_opt; exact Hsg|].
  2: { intros _. destruct Cz as [->|(x & Ex & ->)].
       - rewrite (Hzw eq_refl). cbn [app]. destruct Cc as [->|(y & Ey & ->)]; [exact G5|].
         apply ch_in in Ey. subst y. reflexivity.
       - apply ch_in in Ex. subst x. reflexivity. }
  rewrite take_opt_run; [|exact Cz|].
  2: { intros ->. rewrite (Hzw eq_refl). cbn [app]. destruct Cc as [->|(y & Ey & ->)]; [exact G2|].
       apply ch_in in Ey. subst y. reflexivity. }
  rewrite span_run; [|exact Hw|].
  2: { destruct Cc as [->|(y & Ey & ->)]; [exact G1|]. apply ch_in in Ey. subst y. exact N44. }
  rewrite take_opt_run; [|exact Cc|intros _; exact G3].
  rewrite (take_opt_none (ch 46) ty G4).
  rewrite G6. cbn [isnil negb andb]. reflexivity.
Qed.
(** A comma before a precision. *)
Lemma gen_fspec_err : forall sg z w c D ty, at_most_one "-+ " sg -> at_most_one "0" z ->
  Forall (fun c => is_digit U c = true) w -> (z = [] -> w = []) -> is_digit U c = true ->
  parse_fspec U (sg ++ z ++ w ++ 44 :: c :: D ++ ty) = Err EValue.
Proof.
  intros sg z w c D ty Hsg Hz Hw Hzw Hc. destruct (digit_nosign c Hc) as (H1 & H2 & H3 & H4). unfold parse_fspec.
  assert (Cz : z = [] \/ exists x, ch 48 x = true /\ z = [x]) by (apply (opt_ch 48 "0" z eq_refl); exact Hz).
  assert (N44 : is_digit U 44 = false) by (apply (ascii_nodig U L); lia).
  rewrite take_opt_run; [|apply sign_opt; exact Hsg|].
  2: { intros _. destruct Cz as [->|(x & Ex & ->)]; [rewrite (Hzw eq_refl)|apply ch_in in Ex; subst x]; reflexivity. }
  rewrite take_opt_run; [|exact Cz|].
  2: { intros ->. rewrite (Hzw eq_refl). reflexivity. }
  rewrite span_run; [|exact Hw|exact N44].
  assert (T44 : take_opt (ch 44) (44 :: c :: D ++ ty) = ([44], c :: D ++ ty)) by reflexivity. rewrite T44.
  rewrite take_opt_none by exact H3. rewrite take_opt_none by exact H4. reflexivity.
Qed.

Definition prec_text (p : parts) : str := match p_prec p with Some s => s | None => [] end.
Lemma prec_digits : forall p s0, assembled U p s0 -> Forall (fun c => is_digit U c = true) (prec_text p).
Proof.
  intros p s0 A. unfold prec_text. destruct (p_prec p) as [d|] eqn:E; [|constructor]. destruct (as_prec _ _ _ A d E) as (_ & F).
  eapply Forall_impl; [|exact F]. intros c H. unfold is_digit. destruct (u_dig U c) eqn:Ec; [reflexivity|exfalso; apply H; exact Ec].
Qed.
Lemma split_prefix : forall sg p s0 w, assembled U p s0 -> 0 <= w -> exists z ws,
  (forall t, prefix sg p w ++ t = sg ++ z ++ ws ++ p_comma p ++ t) /\ at_most_one "0" z /\ Forall (fun c => is_digit U c = true) ws /\
  (z = [] -> ws = []) /\ (pads p = false -> z = [] /\ ws = []).
Proof.
  intros sg p s0 w A Hw. exists (if pads p then p_zero p else []), (if pads p then show_Z w else []).
  split. { intros t. unfold prefix. destruct (pads p); rewrite <- ?app_assoc; reflexivity. }
  split. { destruct (pads p); [exact (as_zero _ _ _ A)|left; reflexivity]. }
  split. { destruct (pads p); [apply (show_Z_digits U L); exact Hw|constructor]. }
  split. { unfold pads. destruct (p_zero p); cbn [isnil negb andb]; [reflexivity|].
    destruct (p_width p); cbn [isnil negb]; [reflexivity|discriminate]. }
  intros ->. auto.
Qed.
Lemma gen_total : forall (x : dec) sg p s0 w, assembled U p s0 -> at_most_one "-+ " sg -> 0 <= w -> gen_type (p_type p) ->
  (p_comma p = [] \/ p_prec p = None) -> exists t, py_format (K := DecOps) U x (prefix sg p w ++ prec_text p ++ p_type p) = Ok t.
Proof.
  intros x sg p s0 w A Hsg Hw Ht Hc. destruct (split_prefix sg p s0 w A Hw) as (z & ws & E & Hz & Hws & Hzw & _).
  unfold py_format. rewrite E. destruct Hc as [Hc|Hc].
  - rewrite Hc. cbn [app]. rewrite !app_assoc, <- (app_assoc sg), <- (app_assoc sg).
    destruct (gen_fspec_digits sg ((z ++ ws) ++ prec_text p) (p_type p) Hsg) as (fs & Ef); [|exact Ht|].
    + apply Forall_app. split; [apply Forall_app; split; [|exact Hws]|exact (prec_digits p s0 A)].
      destruct Hz as [->|(c & I & ->)]; [constructor|]. constructor; [|constructor]. cbn in I. destruct I as [<-|[]]. apply (ascii_dig U L). lia.
    + match goal with |- context[parse_fspec U ?t] => replace t with (sg ++ ((z ++ ws) ++ prec_text p) ++ p_type p) end.
      * rewrite Ef. cbn [rbind]. eauto.
      * rewrite <- !app_assoc. reflexivity.
  - unfold prec_text. rewrite Hc. cbn [app]. rewrite gen_fspec_run; try assumption; [cbn [rbind]; eauto|exact (as_comma _ _ _ A)].
Qed.
Lemma gen_fails : forall (x : dec) sg p s0 w, assembled U p s0 -> at_most_one "-+ " sg -> 0 <= w ->
  p_comma p <> [] -> p_prec p <> None -> py_format (K := DecOps) U x (prefix sg p w ++ prec_text p ++ p_type p) = Err EValue.
Proof.
  intros x sg p s0 w A Hsg Hw Hc Hp. destruct (split_prefix sg p s0 w A Hw) as (z & ws & E & Hz & Hws & Hzw & _).
  unfold py_format. rewrite E. assert (Pd := prec_digits p s0 A). unfold prec_text in *.
  destruct (p_prec p) as [d|] eqn:Ed; [|congruence]. destruct (as_prec _ _ _ A d Ed) as (Nd & _).
  destruct (as_comma _ _ _ A) as [Ec|(c & I & Ec)]; [contradiction|]. cbn in I. destruct I as [<-|[]]. rewrite Ec.
  destruct d as [|c d]; [congruence|]. inversion Pd; subst. cbn [app].
  assert (Er := gen_fspec_err sg z ws c d (p_type p) Hsg Hz Hws Hzw H1). cbn [app] in Er. match goal with |- rbind ?q _ = _ => assert (Y : q = Err EValue) by exact Er; rewrite Y end. reflexivity.
Qed.

(** ** Totality *)
Definition num_like (x : dec) : Prop := (exists s m e, x = DNum s m e) \/ nonreal x.
Lemma num_dec : forall x, num_like x.
Proof. intros [s m e|b|]; [left; eauto|right; left; eauto|right; right; reflexivity]. Qed.
Lemma first_digit_total : forall s m e, exists z, first_digit (K := DecOps) (DNum s m e) = Ok z.
Proof. intros s m e. unfold first_digit. cbn [x_iszero x_log x_abs DecOps]. destruct (m =? 0) eqn:E; cbn [orb]; rewrite ?E; eauto. Qed.
Lemma signif_total : forall s m e n, exists l, signif_dgt_to_limit (K := DecOps) (DNum s m e) n = Ok l.
Proof.
  intros s m e n. unfold signif_dgt_to_limit. destruct (first_digit_total s m e) as (f & ->). cbn [rbind]. rewrite round_dec.
  match goal with |- context[first_digit ?x] => destruct (first_digit_total s (dfix m (e + - (f - n + 1))) (- - (f - n + 1))) as (g & Eg) end.
  match goal with |- context[first_digit ?x] => assert (Y : first_digit (K := DecOps) x = Ok g) by exact Eg; rewrite Y end. cbn [rbind]. eauto.
Qed.
Lemma pdg_total : forall s m e, exists n s' m' e', PDG_precision (K := DecOps) (DNum s m e) = Ok (n, DNum s' m' e').
Proof.
  intros s m e. unfold PDG_precision. destruct (first_digit_total s m e) as (f & ->). cbn [rbind].
  destruct (0 <=? f); cbn [rbind x_div10 x_of_Z x_trunc x_mul DecOps x_mul10];
    match goal with |- context[if ?d <=? 354 then _ else _] => destruct (d <=? 354); [do 4 eexists; reflexivity|destruct (d <=? 949)] end;
    cbn [rbind]; do 4 eexists; reflexivity.
Qed.
Lemma real_values_num : forall (nom s : dec) x, max_value (K := DecOps) (real_values (K := DecOps) nom s) = Some x ->
  exists t m e, x = DNum t m e.
Proof.
  intros nom s x H. unfold real_values in H. cbn [filter] in H. unfold isinfinite in H.
  destruct nom as [b1 m1 e1|b1|]; destruct s as [b2 m2 e2|b2|]; cbn [x_abs x_isinf x_isnan DecOps orb negb max_value x_lt] in H;
    try discriminate H; try (injection H as <-; do 3 eexists; reflexivity).
  destruct (dlt _ _); injection H as <-; do 3 eexists; reflexivity.
Qed.
(** Which digits. *)
Lemma limit_total : forall (nom s : dec) p s0, assembled U p s0 ->
  (p_uncert p <> [] -> forall d, p_prec p = Some d -> uval U d = 0 -> x_iszero DecOps s = true \/ isinfinite (K := DecOps) s = true) ->
  exists lim s2 prec0, digits_limit (K := DecOps) U nom s p (fmt_type p) = Ok (lim, s2, prec0) /\ 0 <= prec0 /\
    (s2 = s \/ x_iszero DecOps s = false /\ isinfinite (K := DecOps) s = false /\ p_prec p = None /\ exists t m e, s2 = DNum t m e).
Proof.
  intros nom s p s0 A H. unfold digits_limit.
  destruct (((match p_prec p with None => true | Some _ => false end && Nat.eqb (length (real_values (K := DecOps) nom s)) 2) || negb (isnil (p_uncert p)))
     && negb (x_iszero DecOps s) && negb (isinfinite (K := DecOps) s)) eqn:C.
  - apply andb_true_iff in C. destruct C as (C & Ci). apply andb_true_iff in C. destruct C as (C & Cz).
    apply negb_true_iff in Ci, Cz.
    assert (N : exists t m e, s = DNum t m e).
    { destruct s as [t m e|b|]; [eauto|discriminate Ci|discriminate Ci]. }
    destruct N as (t & m & e & ->). destruct (p_prec p) as [d|] eqn:Ed.
    + cbn [andb orb] in C. destruct (as_prec _ _ _ A d Ed) as (_ & Fd). rewrite <- (uval_val U d Fd).
      destruct (Z.eqb_spec (uval U d) 0) as [E0|_].
      * exfalso. assert (Nu : p_uncert p <> []) by (intros X; rewrite X in C; discriminate). destruct (H Nu d eq_refl E0); congruence.
      * destruct (signif_total t m e (uval U d)) as (l & ->). cbn [rbind]. do 3 eexists. split; [reflexivity|]. split; [lia|left; reflexivity].
    + destruct (pdg_total t m e) as (n & t' & m' & e' & ->). cbn [rbind fst snd].
      destruct (signif_total t' m' e' n) as (l & ->). cbn [rbind]. do 3 eexists. split; [reflexivity|]. split; [lia|].
      right. split; [exact Cz|]. split; [exact Ci|]. split; [reflexivity|eauto].
  - clear C. match goal with |- context[if is_f _ then Ok (Some (- ?q), _, _) else _] => set (prec := q) end.
    assert (Pn : 0 <= prec).
    { unfold prec. destruct (p_prec p) as [d|] eqn:Ed; [|destruct (isnil _); lia]. destruct (as_prec _ _ _ A d Ed) as (_ & Fd).
      rewrite <- (uval_val U d Fd). apply (uval_nonneg U L). exact Fd. }
    destruct (is_f _); [do 3 eexists; split; [reflexivity|]; auto|].
    destruct (max_value _) as [x|] eqn:Em; [|do 3 eexists; split; [reflexivity|]; auto].
    apply real_values_num in Em. destruct Em as (t & m & e & ->).
    match goal with |- context[signif_dgt_to_limit _ ?n] => destruct (signif_total t m e n) as (l & El) end.
    match goal with |- context[rbind ?q _] => assert (Y : q = Ok l) by exact El; rewrite Y end. cbn [rbind].
    do 3 eexists. split; [reflexivity|]. auto.
Qed.
Lemma exponent_total : forall ty (nom s : dec) lim, exists ce,
  use_exponent (K := DecOps) ty (max_value (K := DecOps) (real_values (K := DecOps) nom s)) lim = Ok ce.
Proof.
  intros ty nom s lim. unfold use_exponent. destruct (is_f ty); [eauto|].
  destruct (max_value _) as [x|] eqn:Em; [|eauto]. apply real_values_num in Em. destruct Em as (t & m & e & ->).
  destruct lim as [l|]; [|eauto]. rewrite round_dec. destruct (first_digit_total t (dfix m (e + - l)) (- - l)) as (f & Ef).
  match goal with |- context[rbind ?q _] => assert (Y : q = Ok f) by exact Ef; rewrite Y end. cbn [rbind]. eauto.
Qed.
Lemma short_total : forall (s : dec) prec main latex, (main = 102 \/ main = 70) ->
  exists u, shorthand_uncert (K := DecOps) U s prec main latex = Ok u.
Proof.
  intros s prec main latex Hm. destruct (num_dec s) as [(t & m & e & ->)|N].
  - unfold shorthand_uncert. cbn [x_iszero x_isnan x_isinf DecOps]. destruct (m =? 0); [eauto|]. rewrite round_dec.
    destruct (first_digit_total t (dfix m (e + prec)) (- prec)) as (f & Ef).
    match goal with |- context[rbind ?q _] => assert (Y : q = Ok f) by exact Ef; rewrite Y end. cbn [rbind].
    destruct (_ && _); [eauto|]. destruct (negb _); cbn [rbind x_mul10 DecOps]; eauto.
  - apply (special_short U L); [|exact Hm]. unfold special. destruct N as [N|N]; auto.
Qed.

(** Multiplication by 100 and division by powers of ten keep zeros, infinities and NaN. *)
Definition scaled (p : parts) (x : dec) : dec := if str_eqb (p_type p) (lit "%") then x_mul DecOps x (DNum false 100 0) else x.
Definition same_kind (x y : dec) : Prop :=
  x_iszero DecOps x = x_iszero DecOps y /\ isinfinite (K := DecOps) x = isinfinite (K := DecOps) y.
Lemma scaled_kind : forall p x, same_kind (scaled p x) x.
Proof.
  intros p x. unfold scaled. destruct (str_eqb _ _); [|split; reflexivity].
  destruct x as [s m e|b|]; split; cbn; try reflexivity. destruct (Z.eqb_spec m 0), (Z.eqb_spec (m * 100) 0); lia.
Qed.
Lemma div_kind : forall (ce : option Z) (x : dec), exists y, match ce with Some e => x_div10 DecOps x e | None => Ok x end = Ok y /\ same_kind y x.
Proof. intros [e|] x; eexists; (split; [reflexivity|]); destruct x; split; reflexivity. Qed.
Lemma std_positive : forall s, std_like s -> (real s /\ (0 < dq s)%Q) <-> x_iszero DecOps s = false /\ isinfinite (K := DecOps) s = false.
Proof.
  intros s H. split.
  - intros (R & P). destruct (real_pos s R P) as (m & e & -> & Hm & _). split; [|reflexivity]. cbn. apply Z.eqb_neq. lia.
  - intros (Z1 & I1). destruct H as [(R & P)|[-> | ->]]; [|discriminate I1|discriminate I1]. split; [exact R|].
    destruct (real_num s R) as (m & e & E & Hm). rewrite E in *. cbn in Z1. apply Z.eqb_neq in Z1. cbn in P |- *.
    assert (0 < inject_Z m * p10 e)%Q by (apply mq_pos; lia). destruct (signbit s); lra.
Qed.
Lemma format_eq : forall (nom s : dec) spec p, parse_spec U spec = Ok p ->
  format_ufloat (K := DecOps) U nom s spec =
  (dl <- digits_limit (K := DecOps) U (scaled p nom) (scaled p s) p (fmt_type p) ;;
    (let '(limit, s2, prec0) := dl in
     ce <- use_exponent (K := DecOps) (fmt_type p) (max_value (K := DecOps) (real_values (K := DecOps) (scaled p nom) (scaled p s))) limit ;;
     (nm <- match ce with Some e => x_div10 DecOps (scaled p nom) e | None => Ok (scaled p nom) end ;;
      (sm <- match ce with Some e => x_div10 DecOps s2 e | None => Ok s2 end ;;
        format_num (K := DecOps) U nm sm ce p 
          (match limit with
          | Some l => Z.max (- match ce with Some e => l - e | None => l end) (if isnil (fmt_type p) && x_iszero DecOps s2 then 1 else 0)
          | None => prec0
          end)
          (if upper p then 70 else 102) (if str_eqb (p_type p) (lit "%") then 37 :: p_opts p else p_opts p))))).
Proof.
  intros nom s spec p Hp. rewrite <- (main_eq p (parsed_type U L spec p Hp)).
  unfold format_ufloat. rewrite Hp. cbn [rbind x_of_Z DecOps]. reflexivity.
Qed.
Lemma spec_assembled : forall spec p, parse_spec U spec = Ok p -> exists s0, assembled U p s0.
Proof. intros spec p H. destruct (spec_parts U L spec p H) as ([A|(t & _ & A)] & _); eauto. Qed.
Lemma in_g_gen : forall ty, in_g ty = true <-> gen_type ty.
Proof.
  intros ty. unfold in_g, gen_type. rewrite !orb_true_iff, !str_eqb_eq. destruct ty; cbn [isnil]; intuition (try congruence; try discriminate).
Qed.
Lemma main_ok : forall p, (if upper p then 70 else 102) = 102 \/ (if upper p then 70 else 102) = 70.
Proof. intros p. destruct (upper p); auto. Qed.

Theorem formats : forall (nom s : dec) spec p, (real nom \/ nonreal nom) -> std_like s -> parse_spec U spec = Ok p ->
  acceptable U p nom s -> exists r, format_ufloat (K := DecOps) U nom s spec = Ok r.
Proof.
  intros nom s spec p Hn Hs Hp (A1 & A2 & A3). destruct (spec_assembled spec p Hp) as (s0 & A). rewrite (format_eq nom s spec p Hp).
  destruct (scaled_kind p s) as (K1 & K2). destruct (scaled_kind p nom) as (_ & N2).
  destruct (limit_total (scaled p nom) (scaled p s) p s0 A) as (lim & s2 & prec0 & El & Pn & Hs2).
  { intros Hu d Hd H0. specialize (A2 Hu d Hd H0). rewrite K1, K2. rewrite std_positive in A2 by exact Hs.
    destruct (x_iszero DecOps s); [auto|]. destruct (isinfinite (K := DecOps) s); [auto|]. exfalso. apply A2. auto. }
  rewrite El. cbn [rbind]. destruct (exponent_total (fmt_type p) (scaled p nom) (scaled p s) lim) as (ce & ->). cbn [rbind].
  destruct (div_kind ce (scaled p nom)) as (nm & En & _ & Knm).
  match goal with |- context[rbind ?q _] => assert (Y : q = Ok nm) by exact En; rewrite Y; clear Y end. cbn [rbind].
  destruct (div_kind ce s2) as (sm & Es & Ksm1 & Ksm2).
  match goal with |- context[rbind ?q _] => assert (Y : q = Ok sm) by exact Es; rewrite Y; clear Y end. cbn [rbind].
  match goal with |- context[format_num U nm sm ce p ?q _ _] => set (prec := q) end.
  assert (Pp : 0 <= prec).
  { unfold prec. destruct lim as [l|]; [|exact Pn]. match goal with |- context[if ?c then 1 else 0] => destruct c end; lia. }
  assert (Bad : p_comma p = [] \/ p_prec p = None \/ ~ gen_type (p_type p) \/
    (x_iszero DecOps sm || isinfinite (K := DecOps) sm = false /\ (isinfinite (K := DecOps) nm = false \/ opt (p_opts p) 83 = true))).
  { destruct (p_comma p) eqn:Ec; [auto|]. destruct (p_prec p) eqn:Ep; [|auto]. right. right.
    destruct (in_g (p_type p)) eqn:Eg; [right|left; rewrite <- in_g_gen, Eg; discriminate].
    destruct (A3 ltac:(discriminate) ltac:(discriminate) (proj1 (in_g_gen _) Eg)) as (B1 & B2 & B3).
    destruct (proj1 (std_positive s Hs) (conj B1 B2)) as (B4 & B5).
    destruct Hs2 as [->|(_ & _ & X & _)]; [|discriminate X]. rewrite Ksm1, Ksm2, K1, K2, B4, B5. split; [reflexivity|].
    destruct B3 as [B3|B3]; [left|right; exact B3]. rewrite Knm, N2. destruct B3 as (? & ? & ? & -> & _). reflexivity. }
  apply format_num_total; [exact A1|intros _; apply short_total; apply main_ok| | |].
  - intros w Hw. unfold nom_suffix. fold (prec_text p).
    destruct ((x_iszero DecOps sm || isinfinite (K := DecOps) sm) && in_g (p_type p)) eqn:E.
    + apply andb_true_iff in E. destruct E as (E1 & E2).
      eapply (gen_total nm); eauto; [exact (as_sign _ _ _ A)|apply in_g_gen; exact E2|].
      destruct Bad as [B|[B|[B|(B & _)]]]; auto; [exfalso; apply B, in_g_gen, E2|]. exfalso. congruence.
    + eapply (py_total U L nm); eauto; [exact (as_sign _ _ _ A)|apply main_ok].
  - intros HS w Hw. rewrite has_pct in HS by lia. unfold err_suffix. fold (prec_text p).
    destruct (x_iszero DecOps sm) eqn:Ez.
    + change (lit ".0" ++ [if upper p then 70 else 102]) with (fixed_suffix 0 (if upper p then 70 else 102)).
      eapply (py_total U L sm); eauto; [left; reflexivity|lia|apply main_ok].
    + destruct (isinfinite (K := DecOps) nm && in_g (p_type p)) eqn:E.
      * apply andb_true_iff in E. destruct E as (E1 & E2).
        eapply (gen_total sm); eauto; [left; reflexivity|apply in_g_gen; exact E2|].
        destruct Bad as [B|[B|[B|(_ & [B|B])]]]; auto; [exfalso; apply B, in_g_gen, E2| |]; exfalso; congruence.
      * eapply (py_total U L sm); eauto; [left; reflexivity|apply main_ok].
  - rewrite <- (uval_val U _ (as_width _ _ _ A)). apply (uval_nonneg U L). exact (as_width _ _ _ A).
Qed.

(** Only ValueError is raised. *)
Definition ok_or_value {A} (r : res A) : Prop := (exists a, r = Ok a) \/ r = Err EValue.
Lemma ve_bind : forall A B (m : res A) (k : A -> res B), ok_or_value m -> (forall a, ok_or_value (k a)) -> ok_or_value (rbind m k).
Proof. intros A B m k [(a & ->)| ->] H; [apply H|right; reflexivity]. Qed.
Lemma ve_ok : forall A (a : A), ok_or_value (Ok a).
Proof. left. eauto. Qed.
Lemma py_format_ve : forall (x : dec) spec, ok_or_value (py_format (K := DecOps) U x spec).
Proof.
  intros x spec. apply ve_bind; [|intros; apply ve_ok]. unfold parse_fspec.
  repeat match goal with |- context[let (_, _) := ?q in _] => destruct q end.
  match goal with |- context[match ?q with [] => if _ then _ else _ | _ => _ end] => destruct q end; [|right; reflexivity].
  destruct (_ && _); [right; reflexivity|apply ve_ok].
Qed.
Lemma align_ve : forall s f a w, ok_or_value (robust_align U s f a w).
Proof. intros. unfold robust_align. destruct (str_eqb a (lit "=")); [right; reflexivity|apply ve_ok]. Qed.
Lemma format_num_ve : forall (nm sm : dec) ce p prec main opts, (main = 102 \/ main = 70) ->
  ok_or_value (format_num (K := DecOps) U nm sm ce p prec main opts).
Proof.
  intros nm sm ce p prec main opts Hm. unfold format_num. cbv zeta. destruct (has opts 83).
  - apply ve_bind; [left; apply short_total; exact Hm|]. intros u. apply ve_bind; [apply py_format_ve|]. intros n.
    destruct (negb (isnil (p_width p))); [apply align_ve|apply ve_ok].
  - apply ve_bind; [apply py_format_ve|]. intros n. apply ve_bind; [apply py_format_ve|]. intros e.
    apply ve_bind; [destruct (negb (isnil (p_width p))); [apply align_ve|apply ve_ok]|]. intros n'.
    apply ve_bind; [destruct (negb (isnil (p_width p))); [apply align_ve|apply ve_ok]|]. intros e'.
    destruct (group_symbols _). apply ve_ok.
Qed.
Lemma limit_zero : forall (nom s : dec) p s0 d, assembled U p s0 -> p_uncert p <> [] -> p_prec p = Some d -> uval U d = 0 ->
  x_iszero DecOps s = false -> isinfinite (K := DecOps) s = false -> digits_limit (K := DecOps) U nom s p (fmt_type p) = Err EValue.
Proof.
  intros nom s p s0 d A Hu Hd H0 Hz Hi. unfold digits_limit. rewrite Hd, Hz, Hi. cbn [andb orb negb].
  destruct (as_prec _ _ _ A d Hd) as (_ & Fd). rewrite <- (uval_val U d Fd), H0.
  destruct (p_uncert p); [congruence|]. reflexivity.
Qed.
Lemma limit_ve : forall (nom s : dec) p s0, assembled U p s0 -> ok_or_value (digits_limit (K := DecOps) U nom s p (fmt_type p)).
Proof.
  intros nom s p s0 A. destruct (x_iszero DecOps s || isinfinite (K := DecOps) s) eqn:E.
  - destruct (limit_total nom s p s0 A) as (lim & s2 & prec0 & El & _); [|left; eauto]. intros _ _ _ _. apply orb_true_iff in E. exact E.
  - apply orb_false_iff in E. destruct E as (E1 & E2). destruct (p_uncert p) as [|c u] eqn:Eu.
    { destruct (limit_total nom s p s0 A) as (lim & s2 & prec0 & El & _); [|left; eauto]. intros X. congruence. }
    destruct (p_prec p) as [d|] eqn:Ed.
    2: { destruct (limit_total nom s p s0 A) as (lim & s2 & prec0 & El & _); [|left; eauto]. intros _ d X. congruence. }
    destruct (Z.eq_dec (uval U d) 0) as [E0|N0].
    + right. eapply limit_zero; eauto. rewrite Eu. discriminate.
    + destruct (limit_total nom s p s0 A) as (lim & s2 & prec0 & El & _); [|left; eauto]. intros _ d' X Y. congruence.
Qed.
Theorem value_error_only : forall (nom s : dec) spec,
  (exists r, format_ufloat (K := DecOps) U nom s spec = Ok r) \/ format_ufloat (K := DecOps) U nom s spec = Err EValue.
Proof.
  intros nom s spec. change (ok_or_value (format_ufloat (K := DecOps) U nom s spec)).
  destruct (parse_spec U spec) as [p|e] eqn:Hp.
  - destruct (spec_assembled spec p Hp) as (s0 & A). rewrite (format_eq nom s spec p Hp).
    apply ve_bind; [eapply limit_ve; eauto|]. intros ((lim & s2) & prec0).
    destruct (exponent_total (fmt_type p) (scaled p nom) (scaled p s) lim) as (ce & ->). cbn [rbind].
    destruct (div_kind ce (scaled p nom)) as (nm & En & _).
    match goal with |- context[rbind ?q _] => assert (Y : q = Ok nm) by exact En; rewrite Y; clear Y end. cbn [rbind].
    destruct (div_kind ce s2) as (sm & Es & _).
    match goal with |- context[rbind ?q _] => assert (Y : q = Ok sm) by exact Es; rewrite Y; clear Y end. cbn [rbind].
    apply format_num_ve, main_ok.
  - unfold format_ufloat. rewrite Hp. unfold parse_spec in Hp. destruct (re_match _ _); [discriminate|]. injection Hp as <-. right. reflexivity.
Qed.
Theorem formats_only : forall (nom s : dec) spec p r, (real nom \/ nonreal nom) -> std_like s -> parse_spec U spec = Ok p ->
  format_ufloat (K := DecOps) U nom s spec = Ok r -> acceptable U p nom s.
Proof.
  intros nom s spec p r Hn Hs Hp H. destruct (spec_assembled spec p Hp) as (s0 & A).
  assert (H' := H). rewrite (format_eq nom s spec p Hp) in H'.
  destruct (scaled_kind p s) as (K1 & K2). destruct (scaled_kind p nom) as (_ & N2).
  assert (A2 : p_uncert p <> [] -> forall d, p_prec p = Some d -> uval U d = 0 -> ~ (real s /\ (0 < dq s)%Q)).
  { intros Hu d Hd H0 P. apply (std_positive s Hs) in P. destruct P as (P1 & P2).
    rewrite (limit_zero _ (scaled p s) p s0 d A Hu Hd H0) in H' by congruence. discriminate H'. }
  split; [|split; [exact A2|]].
  - intros Ha. destruct (p_width p) eqn:Ew; [reflexivity|]. exfalso.
    eapply (sign_align (K := DecOps) U L nom s spec p Hp Ha); [rewrite Ew; discriminate|exact H].
  - intros Hc Hpr Hg.
    destruct (limit_total (scaled p nom) (scaled p s) p s0 A) as (lim & s2 & prec0 & El & Pn & Hs2).
    { intros Hu d Hd H0. specialize (A2 Hu d Hd H0). rewrite K1, K2. rewrite std_positive in A2 by exact Hs.
      destruct (x_iszero DecOps s); [auto|]. destruct (isinfinite (K := DecOps) s); [auto|]. exfalso. apply A2. auto. }
    rewrite El in H'. cbn [rbind] in H'. destruct (exponent_total (fmt_type p) (scaled p nom) (scaled p s) lim) as (ce & Ece).
    rewrite Ece in H'. cbn [rbind] in H'.
    destruct (div_kind ce (scaled p nom)) as (nm & En & _ & Knm).
    match type of H' with context[rbind ?q _] => assert (Y : q = Ok nm) by exact En; rewrite Y in H'; clear Y end. cbn [rbind] in H'.
    destruct (div_kind ce s2) as (sm & Es & Ksm1 & Ksm2).
    match type of H' with context[rbind ?q _] => assert (Y : q = Ok sm) by exact Es; rewrite Y in H'; clear Y end. cbn [rbind] in H'.
    destruct Hs2 as [->|(_ & _ & X & _)]; [|contradiction].
    destruct (format_num_laid_out (K := DecOps) U L nm sm ce p s0 _ _ _ r A eq_refl H') as (x & n0 & es & _ & T).
    assert (Ig : in_g (p_type p) = true) by (apply in_g_gen; exact Hg).
    assert (F1 : forall w q, 0 <= w -> py_format (K := DecOps) U nm (prefix (p_sign p) p w ++ nom_suffix (K := DecOps) sm p q (if upper p then 70 else 102)) = Ok n0 ->
      x_iszero DecOps sm || isinfinite (K := DecOps) sm = false).
    { intros w q Hw E. destruct (x_iszero DecOps sm || isinfinite (K := DecOps) sm) eqn:Z1; [|reflexivity]. exfalso. unfold nom_suffix in E.
      rewrite Z1, Ig in E. cbn [andb] in E. fold (prec_text p) in E.
      assert (Y := gen_fails nm (p_sign p) p s0 w A (as_sign _ _ _ A) Hw Hc Hpr).
      pose proof (eq_trans (eq_sym Y) E) as X. discriminate X. }
    assert (F2 : x_iszero DecOps sm || isinfinite (K := DecOps) sm = false).
    { destruct (opt (p_opts p) 83); destruct T as (T & _); (eapply F1; [|exact T]); unfold room; lia. }
    assert (P : real s /\ (0 < dq s)%Q).
    { apply (std_positive s Hs). rewrite Ksm1, Ksm2, K1, K2 in F2. apply orb_false_iff in F2. exact F2. }
    destruct P as (P1 & P2). split; [exact P1|]. split; [exact P2|].
    destruct (opt (p_opts p) 83); [right; reflexivity|left]. destruct T as (_ & e0 & _ & T).
    destruct Hn as [Hn|Hn]; [exact Hn|exfalso].
    assert (I1 : isinfinite (K := DecOps) nm = true) by (rewrite Knm, N2; destruct Hn as [(b & ->)| ->]; reflexivity).
    unfold err_suffix in T. apply orb_false_iff in F2. destruct F2 as (F2 & F3).
    rewrite F2, I1, Ig in T. cbn [andb] in T. fold (prec_text p) in T.
    match type of T with py_format U sm (prefix [] p ?w ++ _) = _ => 
      assert (Y := gen_fails sm [] p s0 w A ltac:(left; reflexivity) ltac:(unfold room; lia) Hc Hpr) end.
    pose proof (eq_trans (eq_sym Y) T) as X. discriminate X.
Qed.

(** ** Infinite numbers and NaN are shown as words *)
Lemma nonreal_scaled : forall p x, nonreal x -> scaled p x = x.
Proof. intros p x [(b & ->)| ->]; unfold scaled; destruct (str_eqb _ _); reflexivity || (destruct b; reflexivity). Qed.
Lemma nonreal_div : forall (ce : option Z) x, nonreal x -> match ce with Some e => x_div10 DecOps x e | None => Ok x end = Ok x.
Proof. intros [e|] x [(b & ->)| ->]; reflexivity. Qed.
Definition neg_word (x : dec) : bool := match x with DInf b => b | _ => false end.
Definition word (up : bool) (x : dec) : str :=
  match x with DInf _ => lit (if up then "INF" else "inf") | _ => lit (if up then "NAN" else "nan") end.
Lemma sign_str_text : forall fs neg, at_most_one "-+ " (fs_sign fs) -> sign_str fs neg = sign_text (fs_sign fs) neg.
Proof.
  intros fs neg H. unfold sign_str, sign_text. destruct neg; [reflexivity|].
  destruct H as [->|(c & I & ->)]; [reflexivity|]. cbn in I. destruct I as [<-|[<-|[<-|[]]]]; reflexivity.
Qed.
Lemma float_word : forall fs x, nonreal x -> fs_zero fs = false -> fs_width fs = 0 -> at_most_one "-+ " (fs_sign fs) ->
  format_float (K := DecOps) fs x =
  sign_text (fs_sign fs) (neg_word x) ++ word (str_eqb (fs_type fs) (lit "F") || str_eqb (fs_type fs) (lit "G")) x.
Proof.
  intros fs x Hx Hz Hw Hs. unfold format_float. rewrite Hz, Hw, sign_str_text by exact Hs.
  assert (B : span (fun c => (48 <=? c) && (c <=? 57)) (body (K := DecOps) fs x) = ([], word (str_eqb (fs_type fs) (lit "F") || str_eqb (fs_type fs) (lit "G")) x)).
  { unfold body, word. destruct Hx as [(b & ->)| ->]; cbn [x_isnan x_isinf DecOps]; destruct (_ || _); reflexivity. }
  assert (N : x_sign DecOps x && negb (x_isnan DecOps x) = neg_word x).
  { destruct Hx as [(b & ->)| ->]; [destruct b; reflexivity|]. cbn [x_isnan DecOps negb neg_word]. apply andb_false_r. }
  rewrite B, N. assert (Z0 : forall t : str, Z.to_nat (0 - len t) = O) by (intros t; unfold len; lia).
  destruct (fs_comma fs); cbn [group3 app]; rewrite Z0; reflexivity.
Qed.
Lemma prefix_word : forall x sg p s0 w suf t, nonreal x -> assembled U p s0 -> at_most_one "-+ " sg -> pads p = false ->
  (exists prec, 0 <= prec /\ suf = fixed_suffix prec (if upper p then 70 else 102)) \/ (gen_type (p_type p) /\ p_prec p = None /\ suf = prec_text p ++ p_type p) ->
  py_format (K := DecOps) U x (prefix sg p w ++ suf) = Ok t -> t = sign_text sg (neg_word x) ++ word (upper p) x.
Proof.
  intros x sg p s0 w suf t Hx A Hsg Hpad Hsuf E. unfold prefix in E. rewrite Hpad in E. rewrite <- app_assoc in E.
  destruct Hsuf as [(prec & Pp & ->)|(G & Hp & ->)].
  - assert (F := fspec_run U L sg [] [] (p_comma p) prec _ Hsg (or_introl eq_refl) (Forall_nil _) (fun _ => eq_refl) (as_comma _ _ _ A) Pp (main_ok p)).
    cbn [app] in F. unfold py_format in E.
    match type of E with context[rbind ?q _] => assert (Y : q = _) by exact F; rewrite Y in E; clear Y end. cbn [rbind] in E.
    injection E as <-. rewrite float_word by (reflexivity || assumption). cbn [fs_sign fs_type]. destruct (upper p); reflexivity.
  - assert (F := gen_fspec_run sg [] [] (p_comma p) (p_type p) Hsg (or_introl eq_refl) (Forall_nil _) (fun _ => eq_refl) (as_comma _ _ _ A) G).
    cbn [app] in F. unfold py_format, prec_text in E. rewrite Hp in E.
    match type of E with context[rbind ?q _] => assert (Y : q = _) by exact F; rewrite Y in E; clear Y end. cbn [rbind] in E.
    injection E as <-. rewrite float_word by (reflexivity || assumption). cbn [fs_sign fs_type]. unfold upper.
    destruct G as [-> | [-> | ->]]; reflexivity.
Qed.
Theorem words : forall (nom s : dec) spec p r, (real nom \/ nonreal nom) -> std_like s -> parse_spec U spec = Ok p ->
  pads p = false -> (p_prec p = None \/ ~ gen_type (p_type p)) ->
  format_ufloat (K := DecOps) U nom s spec = Ok r ->
  exists e nx ex x ns es,
    laid_out U p (str_eqb (p_type p) (lit "%")) e nx ex x ns es r /\
    (nonreal nom -> nx = false /\ ns = word_text p (p_sign p) nom) /\
    (nonreal s -> ex = false /\ es = word_text p [] s) /\
    (nonreal nom -> nonreal s -> e = None).
Proof.
  intros nom s spec p r Hn Hs Hp Hpad Hg H. destruct (spec_assembled spec p Hp) as (s0 & A).
  destruct (formats_only nom s spec p r Hn Hs Hp H) as (_ & A2 & _).
  assert (H' := H). rewrite (format_eq nom s spec p Hp) in H'.
  destruct (scaled_kind p s) as (K1 & K2).
  destruct (limit_total (scaled p nom) (scaled p s) p s0 A) as (lim & s2 & prec0 & El & Pn & Hs2).
  { intros Hu d Hd H0. specialize (A2 Hu d Hd H0). rewrite K1, K2. rewrite std_positive in A2 by exact Hs.
    destruct (x_iszero DecOps s); [auto|]. destruct (isinfinite (K := DecOps) s); [auto|]. exfalso. apply A2. auto. }
  rewrite El in H'. cbn [rbind] in H'. destruct (exponent_total (fmt_type p) (scaled p nom) (scaled p s) lim) as (ce & Ece).
  rewrite Ece in H'. cbn [rbind] in H'.
  destruct (div_kind ce (scaled p nom)) as (nm & En & _ & Knm).
  match type of H' with context[rbind ?q _] => assert (Y : q = Ok nm) by exact En; rewrite Y in H'; clear Y end. cbn [rbind] in H'.
  destruct (div_kind ce s2) as (sm & Es & Ksm1 & Ksm2).
  match type of H' with context[rbind ?q _] => assert (Y : q = Ok sm) by exact Es; rewrite Y in H'; clear Y end. cbn [rbind] in H'.
  match type of H' with format_num U nm sm ce p ?q _ _ = _ => set (prec := q) in H' end.
  assert (Pp : 0 <= prec).
  { unfold prec. destruct lim as [l|]; [|exact Pn]. match goal with |- context[if ?c then 1 else 0] => destruct c end; lia. }
  assert (Nn : nonreal nom -> nm = nom).
  { intros X. rewrite (nonreal_scaled p nom X) in En. pose proof (eq_trans (eq_sym (nonreal_div ce nom X)) En) as Y. injection Y as ->. reflexivity. }
  assert (Ns : nonreal s -> sm = s).
  { intros X. assert (I : isinfinite (K := DecOps) s = true) by (destruct X as [(b & ->)| ->]; reflexivity).
    destruct Hs2 as [->|(_ & X2 & _)]; [|rewrite K2 in X2; congruence].
    rewrite (nonreal_scaled p s X) in Es. pose proof (eq_trans (eq_sym (nonreal_div ce s X)) Es) as Y. injection Y as ->. reflexivity. }
  assert (Sn : forall q, exists suf, suf = nom_suffix (K := DecOps) q p prec (if upper p then 70 else 102) /\
    ((exists pr, 0 <= pr /\ suf = fixed_suffix pr (if upper p then 70 else 102)) \/ (gen_type (p_type p) /\ p_prec p = None /\ suf = prec_text p ++ p_type p))).
  { intros q. eexists. split; [reflexivity|]. unfold nom_suffix. fold (prec_text p).
    destruct ((x_iszero DecOps q || isinfinite (K := DecOps) q) && in_g (p_type p)) eqn:E; [right|left; eauto].
    apply andb_true_iff in E. destruct E as (_ & E). apply in_g_gen in E. destruct Hg as [Hg|Hg]; [auto|contradiction]. }
  assert (Se : forall q q', exists suf, suf = err_suffix (K := DecOps) q q' p prec (if upper p then 70 else 102) /\
    ((exists pr, 0 <= pr /\ suf = fixed_suffix pr (if upper p then 70 else 102)) \/ (gen_type (p_type p) /\ p_prec p = None /\ suf = prec_text p ++ p_type p))).
  { intros q q'. eexists. split; [reflexivity|]. unfold err_suffix. fold (prec_text p).
    destruct (x_iszero DecOps q'); [left; exists 0; split; [lia|reflexivity]|].
    destruct (isinfinite (K := DecOps) q && in_g (p_type p)) eqn:E; [right|left; eauto].
    apply andb_true_iff in E. destruct E as (_ & E). apply in_g_gen in E. destruct Hg as [Hg|Hg]; [auto|contradiction]. }
  destruct (format_num_laid_out (K := DecOps) U L nm sm ce p s0 prec _ _ r A eq_refl H') as (x & n0 & es & LO & T).
  exists ce. do 3 eexists. do 2 eexists. split; [exact LO|]. clear LO.
  assert (T1 : exists w, py_format (K := DecOps) U nm (prefix (p_sign p) p w ++ nom_suffix (K := DecOps) sm p prec (if upper p then 70 else 102)) = Ok n0).
  { destruct (opt (p_opts p) 83); destruct T as (T & _); eexists; exact T. }
  split; [|split].
  - intros X. rewrite (Nn X) in *. split; [destruct X as [(b & ->)| ->]; reflexivity|].
    destruct T1 as (w & T1). destruct (Sn sm) as (suf & Esuf & Hsuf). rewrite <- Esuf in T1.
    assert (Q := prefix_word nom (p_sign p) p s0 w suf n0 X A (as_sign _ _ _ A) Hpad Hsuf T1).
    unfold word_text. fold (upper p). destruct X as [(b & ->)| ->]; destruct (opt (p_opts p) 76); cbn [latex_nom]; rewrite ?Q; try reflexivity.
    unfold latex_nom. cbn [x_isnan x_isinf x_sign DecOps]. destruct b; reflexivity.
  - intros X. rewrite (Ns X) in *. split; [destruct X as [(b & ->)| ->]; reflexivity|].
    assert (Xs : s = DInf false \/ s = DNan).
    { destruct Hs as [(R & _)|Hs]; [|exact Hs]. exfalso. destruct X as [(b & ->)| ->]; destruct R as (? & ? & ? & R & _); discriminate R. }
    unfold word_text. fold (upper p).
    destruct (opt (p_opts p) 83).
    + destruct T as (_ & T). unfold shorthand_uncert in T. unfold py_format in T. rewrite (type_fspec U L _ (main_ok p)) in T. cbn [rbind] in T.
      rewrite float_word in T; [|exact X|reflexivity..|left; reflexivity]. cbn [fs_sign fs_type] in T.
      destruct Xs as [-> | ->]; cbn [x_iszero x_isnan x_isinf DecOps] in T; destruct (opt (p_opts p) 76); injection T as <-; destruct (upper p); reflexivity.
    + destruct T as (_ & e0 & -> & T). destruct (Se nm s) as (suf & Esuf & Hsuf). rewrite <- Esuf in T.
      assert (Q := prefix_word s [] p s0 _ suf e0 X A ltac:(left; reflexivity) Hpad Hsuf T).
      destruct Xs as [-> | ->]; destruct (opt (p_opts p) 76); rewrite Q; destruct (upper p); reflexivity.
  - intros X Y. rewrite (nonreal_scaled p nom X), (nonreal_scaled p s Y) in Ece.
    assert (RV : max_value (K := DecOps) (real_values (K := DecOps) nom s) = None).
    { destruct X as [(b & ->)| ->]; destruct Y as [(b' & ->)| ->]; reflexivity. }
    rewrite RV in Ece. unfold use_exponent in Ece. destruct (is_f _); congruence.
Qed.

(** ** The common exponent when only one number is a positive real number *)
Lemma ref_limit : forall (nom s : dec) p s0 m e, assembled U p s0 -> ~ fixed_type (p_type p) ->
  max_value (K := DecOps) (real_values (K := DecOps) nom s) = Some (DNum false m e) -> 0 <= m ->
  (x_iszero DecOps s || isinfinite (K := DecOps) s = true) \/ (isinfinite (K := DecOps) nom = true /\ p_uncert p = []) ->
  exists k prec0 ce, digits_limit (K := DecOps) U nom s p (fmt_type p) = Ok (Some k, s, prec0) /\
    use_exponent (K := DecOps) (fmt_type p) (Some (DNum false m e)) (Some k) = Ok ce /\
    (m = 0 -> (gen_type (p_type p) -> ce = None) /\ (exp_type (p_type p) -> ce = Some 0)) /\
    (0 < m -> sig_limit (inject_Z m * p10 e) (ref_digits U p) k /\ common_exponent (p_type p) (inject_Z m * p10 e) k ce).
Proof.
  intros nom s p s0 m e A NF MV Hm C. unfold digits_limit.
  assert (Cf : ((match p_prec p with None => true | Some _ => false end && Nat.eqb (length (real_values (K := DecOps) nom s)) 2) || negb (isnil (p_uncert p)))
     && negb (x_iszero DecOps s) && negb (isinfinite (K := DecOps) s) = false).
  { destruct C as [C|(Ci & Cu)].
    - rewrite <- andb_assoc, <- negb_orb, C. apply andb_false_r.
    - rewrite Cu. cbn [isnil negb]. rewrite orb_false_r.
      assert (Ln : Nat.eqb (length (real_values (K := DecOps) nom s)) 2 = false).
      { destruct nom as [? ? ?|b|]; [discriminate Ci| |]; destruct s; reflexivity. }
      rewrite Ln, andb_false_r. reflexivity. }
  rewrite Cf, MV. clear Cf C.
  set (n := ref_digits U p).
  match goal with |- context[if is_f _ then Ok (Some (- ?q), _, _) else _] => set (prec := q) end.
  assert (Pn : match p_prec p with Some d => uval U d = prec /\ 0 <= prec | None => prec = if isnil (p_type p) then 12 else 6 end).
  { unfold prec. destruct (p_prec p) as [d|] eqn:Ed.
    - destruct (as_prec _ _ _ A d Ed) as (_ & Fd). rewrite <- (uval_val U d Fd). split; [reflexivity|]. apply (uval_nonneg U L). exact Fd.
    - assert (Ep : str_eqb (p_type p) (lit "%") = false).
      { apply not_true_is_false. rewrite str_eqb_eq. intros X. apply NF. right. right. exact X. }
      unfold fmt_type. rewrite Ep. reflexivity. }
  assert (En : exists q, (if is_e (fmt_type p) then prec + 1 else if prec =? 0 then 1 else prec) = q /\ q = n /\ 1 <= n /\ is_f (fmt_type p) = false /\
     (gen_type (p_type p) -> is_e (fmt_type p) = false) /\ (exp_type (p_type p) -> is_e (fmt_type p) = true)).
  { eexists. split; [reflexivity|]. unfold n, ref_digits. change (str_eqb (p_type p) (lit "e") || str_eqb (p_type p) (lit "E")) with (is_e (p_type p)).
    assert (Et : fmt_type p = p_type p).
    { unfold fmt_type. destruct (str_eqb (p_type p) (lit "%")) eqn:X; [|reflexivity]. apply str_eqb_eq in X. exfalso. apply NF. right. right. exact X. }
    destruct (type_cases p (as_type _ _ _ A)) as [(T1 & _)|[(T1 & T2 & T3 & Ef & Ee)|(T1 & T2 & T3 & Ef & Ee)]]; [contradiction| |]; rewrite Et in *.
    - rewrite Ee. split; [|split; [|split; [exact Ef|split; [intros X; contradiction|reflexivity]]]].
      + destruct (p_prec p); [destruct Pn as (-> & _); reflexivity|]. rewrite Pn. destruct T1 as [-> | ->]; reflexivity.
      + destruct (p_prec p); [destruct Pn as (-> & ?); lia|]. lia.
    - rewrite Ee. split; [|split; [|split; [exact Ef|split; [reflexivity|intros X; contradiction]]]].
      + destruct (p_prec p); [destruct Pn as (-> & ?); destruct (Z.eqb_spec prec 0); lia|]. rewrite Pn. destruct T1 as [-> | [-> | ->]]; reflexivity.
      + destruct (p_prec p); [destruct Pn as (-> & ?); lia|]. destruct (p_type p); lia. }
  destruct En as (q & -> & -> & N1 & Ef & Eg & Ee). rewrite Ef.
  destruct (Z.eq_dec m 0) as [E0|N0].
  - rewrite E0. rewrite signif_zero. cbn [rbind]. exists (- n + 1), prec. eexists. split; [reflexivity|].
    unfold use_exponent. rewrite Ef, round_dec, dfix_0, first_digit_dec0. cbn [rbind]. split; [reflexivity|].
    split; [|lia]. intros _. split; intros X; [rewrite (Eg X)|rewrite (Ee X); reflexivity].
    assert (Q : (-4 <=? 0) && (0 <? 0 - (- n + 1) + 1) = true) by (apply andb_true_iff; split; [reflexivity|apply Z.ltb_lt; lia]). rewrite Q. reflexivity.
  - destruct (signif_num m e n ltac:(lia) N1) as (k & Ek & Sk).
    match goal with |- context[rbind ?q _] => assert (Y : q = Ok k) by exact Ek; rewrite Y; clear Y end. cbn [rbind].
    destruct (exponent_dec U m e p s0 k ltac:(lia) A) as (ce & Ec & Hc & _).
    { intros _ R HR. eapply (sig_limit_rounds); [exact N1|exact Sk|apply Qle_refl|exact HR]. }
    exists k, prec, ce. split; [reflexivity|]. split; [exact Ec|]. split; [lia|]. auto.
Qed.
Lemma ref_value : forall (nom s : dec) (M : Q),
  (real nom /\ special s /\ M = Qabs (dq nom)) \/ (nonreal nom /\ real s /\ (0 < dq s)%Q /\ M = dq s) ->
  exists m e, max_value (K := DecOps) (real_values (K := DecOps) nom s) = Some (DNum false m e) /\ 0 <= m /\ (M == inject_Z m * p10 e)%Q.
Proof.
  intros nom s M [(Rn & Sp & ->)|(Nn & Rs & Ps & ->)].
  - destruct (real_num nom Rn) as (m & e & En & Hm). exists m, e. split; [|split; [exact Hm|rewrite En; apply dq_abs; exact Hm]].
    rewrite En. destruct Sp as [(z & ->)|[(b & ->)| ->]]; [|reflexivity|reflexivity].
    unfold real_values, isinfinite. cbn [filter x_abs x_isinf x_isnan DecOps orb negb max_value x_lt].
    destruct (dlt (DNum false m e) (DNum false 0 z)) eqn:Ed; [|reflexivity].
    apply dlt_spec in Ed; [|lia..]. assert (X := mq_nonneg m e Hm). change (inject_Z 0) with 0%Q in Ed. lra.
  - destruct (real_pos s Rs Ps) as (m & e & -> & Hm & _). exists m, e. split; [|split; [lia|reflexivity]].
    destruct Nn as [(b & ->)| ->]; reflexivity.
Qed.
Theorem ref_exponent : forall (nom s : dec) spec p r (M : Q), parse_spec U spec = Ok p -> ~ fixed_type (p_type p) ->
  (real nom /\ special s /\ M = Qabs (dq nom)) \/ (nonreal nom /\ real s /\ (0 < dq s)%Q /\ M = dq s) ->
  (nonreal nom -> p_uncert p = []) ->
  format_ufloat (K := DecOps) U nom s spec = Ok r ->
  exists e nx ex x ns es,
    laid_out U p false e nx ex x ns es r /\
    ((M == 0)%Q -> (gen_type (p_type p) -> e = None) /\ (exp_type (p_type p) -> e = Some 0)) /\
    ((0 < M)%Q -> exists k, sig_limit M (ref_digits U p) k /\ common_exponent (p_type p) M k e).
Proof.
  intros nom s spec p r M Hp NF Hr Hu H. destruct (spec_assembled spec p Hp) as (s0 & A).
  assert (Ep : str_eqb (p_type p) (lit "%") = false).
  { apply not_true_is_false. rewrite str_eqb_eq. intros X. apply NF. right. right. exact X. }
  destruct (ref_value nom s M Hr) as (m & e & MV & Hm & EM).
  destruct (ref_limit nom s p s0 m e A NF MV Hm) as (k & prec0 & ce & El & Ec & C0 & C1).
  { destruct Hr as [(Rn & Sp & _)|(Nn & _)]; [left; exact (special_iff s Sp)|right]. split; [|exact (Hu Nn)].
    destruct Nn as [(b & ->)| ->]; reflexivity. }
  rewrite (format_eq nom s spec p Hp) in H. unfold scaled in H. rewrite Ep in H.
  match type of H with context[rbind ?q _] => assert (Y : q = Ok (Some k, s, prec0)) by exact El; rewrite Y in H; clear Y end. cbn [rbind] in H.
  match type of H with context[rbind ?q _] => assert (Y : q = Ok ce) by (rewrite <- Ec; exact (f_equal (fun z => use_exponent (K := DecOps) (fmt_type p) z (Some k)) MV)); rewrite Y in H; clear Y end. cbn [rbind] in H.
  apply rbind_ok in H. destruct H as (nm & _ & H). apply rbind_ok in H. destruct H as (sm & _ & H).
  destruct (format_num_laid_out (K := DecOps) U L nm sm ce p s0 _ _ false r A eq_refl H) as (x & n0 & es & LO & _).
  exists ce. do 5 eexists. split; [exact LO|]. split.
  - intros Z0. apply C0. destruct (Z.eq_dec m 0); [assumption|]. exfalso. assert (0 < inject_Z m * p10 e)%Q by (apply mq_pos; lia). lra.
  - intros P. destruct (Z.eq_dec m 0) as [E0|N0]; [exfalso; rewrite E0 in EM; change (inject_Z 0) with 0%Q in EM; lra|].
    destruct (C1 ltac:(lia)) as (S1 & S2). exists k. split; [eapply sig_limit_comp; [|exact S1]|eapply common_exponent_comp; [|exact S2]]; symmetry; exact EM.
Qed.
End Special.
