(** Formatting of exact decimal numbers with a non-zero real uncertainty. *)
From Coq Require Import String.
From Coq Require Import ZArith List Bool Lia QArith Qpower Qabs Qminmax Lqa.
From Verif Require Import Base Str FmtOps Format FmtSpec StrProofs SpecProofs FixedProofs FormatProofs DecProofs.
Import ListNotations.
Local Open Scope Z_scope.
Local Open Scope res_scope.

(** ** Numbers in fixed notation, in any arithmetic *)
Section Fixed.
Context {K : FmtOps} (U : Unicode) (L : UniLaws U).

Lemma py_fixed : forall (x : fl K) sg (p : parts) s0 w prec main,
  assembled U p s0 -> at_most_one "-+ " sg -> 0 <= w -> 0 <= prec -> (main = 102 \/ main = 70) ->
  x_isnan K x = false -> x_isinf K x = false -> 0 <= x_fix K x prec ->
  exists t, py_format U x (prefix sg p w ++ fixed_suffix prec main) = Ok t /\
    shown sg (pads p) (commas p) w (x_sign K x) (x_fix K x prec) (Z.to_nat prec) t.
Proof.
  intros x sg p s0 w prec main A Hsg Hw Hp Hm Hn Hi Hf. unfold py_format.
  set (z := if pads p then p_zero p else []). set (ws := if pads p then show_Z w else []).
  assert (Nz : negb (isnil z) = pads p).
  { unfold z, pads. destruct (p_zero p); cbn [isnil negb andb]; [reflexivity|].
    destruct (p_width p); reflexivity. }
  assert (E : prefix sg p w ++ fixed_suffix prec main = sg ++ z ++ ws ++ p_comma p ++ fixed_suffix prec main).
  { unfold prefix, z, ws. destruct (pads p); rewrite <- ?app_assoc; reflexivity. }
  rewrite E, fspec_run; try assumption.
  - cbn [rbind]. eexists. split; [reflexivity|]. rewrite Nz.
    assert (V : val (digit_vals U ws) = if pads p then w else 0).
    { unfold ws. destruct (pads p); [apply (show_Z_val U L); exact Hw|reflexivity]. }
    rewrite V. fold (commas p).
    assert (S := fixed_shown x sg (pads p) (if pads p then w else 0) (commas p) prec main Hn Hi Hf Hm Hsg).
    destruct (pads p); [apply S; discriminate|].
    destruct (S ltac:(reflexivity)) as (t & E1 & E2 & E3 & _). exists t. split; [exact E1|].
    split; [exact E2|]. split; [exact E3|discriminate].
  - unfold z. destruct (pads p); [exact (as_zero _ _ _ A)|left; reflexivity].
  - unfold ws. destruct (pads p); [apply (show_Z_digits U L); exact Hw|constructor].
  - unfold z, ws, pads. destruct (p_zero p); cbn [isnil negb andb]; [reflexivity|].
    destruct (p_width p); cbn [isnil negb]; [reflexivity|discriminate].
  - exact (as_comma _ _ _ A).
Qed.

Lemma align_total : forall s p, (p_align p = lit "=" -> p_width p = []) -> p_width p <> [] ->
  exists t, robust_align U s (p_fill p) (match p_align p with [] => lit ">" | a => a end) (p_width p) = Ok t.
Proof.
  intros s p H N. unfold robust_align. destruct (str_eqb _ (lit "=")) eqn:E; [|eexists; reflexivity].
  apply str_eqb_eq in E. exfalso. apply N, H. destruct (p_align p); [discriminate E|exact E].
Qed.

(** format_num() succeeds if the numbers can be shown and the alignment is not '='. *)
Lemma format_num_total : forall (nm sm : fl K) ce p prec main opts,
  (p_align p = lit "=" -> p_width p = []) ->
  (has opts 83 = true -> exists u, shorthand_uncert U sm prec main (has opts 76) = Ok u) ->
  (forall w, 0 <= w -> exists t, py_format U nm (prefix (p_sign p) p w ++ nom_suffix sm p prec main) = Ok t) ->
  (has opts 83 = false -> forall w, 0 <= w -> exists t, py_format U sm (prefix [] p w ++ err_suffix nm sm p prec main) = Ok t) ->
  (0 <= val (digit_vals U (p_width p))) ->
  exists r, format_num U nm sm ce p prec main opts = Ok r.
Proof.
  intros nm sm ce p prec main opts Ha Hu Hn He Hw. unfold format_num. cbv zeta.
  match goal with |- context[val (digit_vals U (p_width p))] => set (w := val (digit_vals U (p_width p))) in * end.
  destruct (has opts 83).
  - destruct (Hu eq_refl) as (u & Eu). rewrite Eu. cbn [rbind]. rewrite (andb_comm (negb (isnil (p_zero p)))), prefix_eq.
    match goal with |- context[prefix (p_sign p) p ?w0] => destruct (Hn w0 ltac:(lia)) as (t & Et) end.
    match goal with |- context[rbind (py_format U nm ?s0)] => assert (EE : py_format U nm s0 = Ok t) by exact Et; rewrite EE end. cbn [rbind].
    destruct (p_width p) as [|c ww] eqn:Ew; cbn [isnil negb]; [eexists; reflexivity|].
    assert (N : p_width p <> []) by (rewrite Ew; discriminate). rewrite <- Ew in Ha |- *. exact (align_total _ p Ha N).
  - rewrite !prefix_eq.
    match goal with |- context[prefix (p_sign p) p ?w0] => destruct (Hn w0) as (t & Et) end.
    { match goal with |- _ <= (if ?b then _ else _) => destruct b end; [lia|exact Hw]. }
    match goal with |- context[rbind (py_format U nm ?s0)] => assert (EE : py_format U nm s0 = Ok t) by exact Et; rewrite EE end. cbn [rbind].
    assert (Es : (if negb (x_iszero K sm)
                  then if isinfinite nm && in_g (p_type p)
                       then (match p_prec p with Some s => s | None => [] end) ++ p_type p else fixed_suffix prec main
                  else lit ".0" ++ [main]) = err_suffix nm sm p prec main).
    { unfold err_suffix. destruct (x_iszero K sm); reflexivity. }
    match goal with |- context[if negb (isnil (p_width p)) && negb (isnil (p_zero p)) then p_zero p ++ show_Z ?w0 ++ p_comma p else p_comma p] =>
      change (if negb (isnil (p_width p)) && negb (isnil (p_zero p)) then p_zero p ++ show_Z w0 ++ p_comma p else p_comma p)
        with (if negb (isnil (p_width p)) && negb (isnil (p_zero p)) then [] ++ p_zero p ++ show_Z w0 ++ p_comma p else [] ++ p_comma p);
      rewrite (prefix_eq [] p w0); destruct (He eq_refl w0) as (t2 & Et2) end.
    { match goal with |- _ <= (if ?b then _ else _) => destruct b end; [lia|exact Hw]. }
    match goal with |- context[rbind (py_format U sm ?s0)] => assert (EE2 : py_format U sm s0 = Ok t2) by (etransitivity; [|exact Et2]; f_equal; f_equal; exact Es); rewrite EE2 end. cbn [rbind].
    destruct (p_width p) as [|c ww] eqn:Ew; cbn [isnil negb rbind].
    + destruct (group_symbols _). eexists; reflexivity.
    + assert (N : p_width p <> []) by (rewrite Ew; discriminate). rewrite <- Ew in Ha |- *.
      match goal with |- context[rbind (robust_align U ?s _ _ _)] => destruct (align_total s p Ha N) as (a & Ea); rewrite Ea end.
      cbn [rbind].
      match goal with |- context[rbind (robust_align U ?s _ _ _)] => destruct (align_total s p Ha N) as (b & Eb); rewrite Eb end.
      cbn [rbind]. destruct (group_symbols _). eexists; reflexivity.
Qed.
End Fixed.

(** ** Exact decimal numbers *)
Lemma dec_trunc : forall m e, 0 <= m -> exists D, x_trunc DecOps (DNum false m e) = Ok D /\
  (inject_Z D <= inject_Z m * p10 e)%Q /\ (inject_Z m * p10 e < inject_Z (D + 1))%Q.
Proof.
  intros m e Hm. cbn [x_trunc DecOps]. eexists. split; [reflexivity|]. destruct (Z.leb_spec 0 e) as [H|H].
  - rewrite p10_Z, <- inject_Z_mult by exact H. rewrite <- Zle_Qle, <- Zlt_Qlt. lia.
  - assert (P : 0 < 10 ^ (- e)) by (apply pow10_pos; lia).
    set (q := m / 10 ^ (- e)). assert (A := Z.div_mod m (10 ^ (- e)) ltac:(lia)). fold q in A.
    assert (B := Z.mod_pos_bound m (10 ^ (- e)) P). set (r := m mod 10 ^ (- e)) in *.
    assert (PQ : (0 < p10 (- e))%Q) by apply p10_pos. assert (PE : (0 < p10 e)%Q) by apply p10_pos.
    assert (E1 := p10_opp e).
    assert (Lo : (inject_Z q * p10 (- e) <= inject_Z m)%Q).
    { rewrite p10_Z, <- inject_Z_mult by lia. rewrite <- Zle_Qle. lia. }
    assert (Hi : (inject_Z m < inject_Z (q + 1) * p10 (- e))%Q).
    { rewrite p10_Z, <- inject_Z_mult by lia. rewrite <- Zlt_Qlt. lia. }
    assert (Lo2 : (inject_Z q * p10 (- e) * p10 e <= inject_Z m * p10 e)%Q) by (apply Qmult_le_compat_r; lra).
    assert (Hi2 : (inject_Z m * p10 e < inject_Z (q + 1) * p10 (- e) * p10 e)%Q) by (apply Qmult_lt_compat_r; lra).
    split.
    + setoid_replace (inject_Z q) with (inject_Z q * p10 (- e) * p10 e)%Q; [exact Lo2|].
      rewrite <- Qmult_assoc, (Qmult_comm (p10 (- e))), E1. ring.
    + setoid_replace (inject_Z (q + 1)) with (inject_Z (q + 1) * p10 (- e) * p10 e)%Q; [exact Hi2|].
      rewrite <- Qmult_assoc, (Qmult_comm (p10 (- e))), E1. ring.
Qed.
Lemma inject_lt : forall a b, (inject_Z a < inject_Z b)%Q -> a < b.
Proof. intros. rewrite Zlt_Qlt. exact H. Qed.
Lemma inject_le : forall a b, (inject_Z a <= inject_Z b)%Q -> a <= b.
Proof. intros. rewrite Zle_Qle. exact H. Qed.

Lemma sig_limit_comp : forall v w n l, (v == w)%Q -> sig_limit v n l -> sig_limit w n l.
Proof.
  intros v w n l E (M & M' & H & B & H' & B'). exists M, M'. split; [|split; [exact B|split; [|exact B']]];
    (eapply half_even_comp; [|eassumption]); rewrite E; reflexivity.
Qed.

Lemma pdg_dec : forall m e, 0 < m -> exists n m' e',
  PDG_precision (K := DecOps) (DNum false m e) = Ok (n, DNum false m' e') /\ 0 < m' /\ 1 <= n /\
  forall k, sig_limit (inject_Z m' * p10 e') n k -> pdg_rule (inject_Z m * p10 e) (inject_Z m' * p10 e') k.
Proof.
  intros m e Hm. unfold PDG_precision. rewrite first_digit_dec by exact Hm. cbn [rbind].
  destruct (dexp_bounds m e Hm) as (B1 & B2). set (f := dexp m e) in *. set (v := (inject_Z m * p10 e)%Q) in *.
  set (big := 0 <=? f).
  assert (Epair : (if big then (f - 2, true) else (f + 1, false)) = ((if big then f - 2 else f + 1), big)) by (destruct big; reflexivity).
  rewrite Epair. set (e1 := if big then f - 2 else f + 1). cbn [x_div10 DecOps rbind x_of_Z].
  assert (T : exists m1 e2, (if big then DNum false m (e - e1) else x_mul DecOps (DNum false m (e - e1)) (DNum (1000 <? 0) (Z.abs 1000) 0)) = DNum false m1 e2 /\ 0 <= m1 /\
     (inject_Z m1 * p10 e2 == v * p10 (2 - f))%Q).
  { unfold e1. destruct big.
    - exists m, (e - (f - 2)). split; [reflexivity|]. split; [lia|]. unfold v. rewrite <- Qmult_assoc, <- p10_add.
      replace (e + (2 - f)) with (e - (f - 2)) by lia. reflexivity.
    - exists (m * 1000), (e - (f + 1) + 0). split; [reflexivity|]. split; [lia|]. unfold v.
      rewrite inject_Z_mult. change (inject_Z 1000) with (p10 3). rewrite <- !Qmult_assoc, <- !p10_add.
      replace (3 + (e - (f + 1) + 0)) with (e + (2 - f)) by lia. reflexivity. }
  destruct T as (m1 & e2 & ET & Hm1 & Ev). destruct (dec_trunc m1 e2 Hm1) as (D & ED & D1 & D2).
  match goal with |- context[rbind (x_trunc DecOps ?t) _] =>
    assert (ED2 : x_trunc DecOps t = Ok D) by (etransitivity; [|exact ED]; f_equal; exact ET); rewrite ED2 end. cbn [rbind].
  rewrite Ev in D1, D2.
  assert (P2 := p10_pos (2 - f)).
  assert (R1 : 100 <= D).
  { assert (X : (p10 2 <= v * p10 (2 - f))%Q).
    { replace 2 with (f + (2 - f)) at 1 by lia. rewrite p10_add. nra. }
    assert (Y : (inject_Z 100 < inject_Z (D + 1))%Q) by (change (inject_Z 100) with (p10 2); lra).
    apply inject_lt in Y. lia. }
  assert (R2 : D <= 999).
  { assert (X : (v * p10 (2 - f) < p10 3)%Q).
    { replace 3 with (f + 1 + (2 - f)) by lia. rewrite (p10_add (f + 1)). nra. }
    assert (Y : (inject_Z D < inject_Z 1000)%Q) by (change (inject_Z 1000) with (p10 3); lra).
    apply inject_lt in Y. lia. }
  destruct (Z.leb_spec D 354); [|destruct (Z.leb_spec D 949)].
  - exists 2, m, e. split; [reflexivity|]. split; [exact Hm|]. split; [lia|]. intros k Hk. fold v in Hk |- *.
    exists f, D. repeat (split; [assumption|]). left. split; [lia|]. split; [reflexivity|exact Hk].
  - exists 1, m, e. split; [reflexivity|]. split; [exact Hm|]. split; [lia|]. intros k Hk. fold v in Hk |- *.
    exists f, D. repeat (split; [assumption|]). right. left. split; [lia|]. split; [reflexivity|exact Hk].
  - exists 2, (if big then 1000 else 1), (0 + e1). split; [destruct big; reflexivity|]. split; [destruct big; lia|]. split; [lia|]. intros k Hk.
    exists f, D. repeat (split; [assumption|]). right. right. split; [lia|].
    split; [|exact Hk]. unfold e1. destruct big.
    + change (inject_Z 1000) with (p10 3). rewrite <- p10_add. replace (3 + (0 + (f - 2))) with (f + 1) by lia. reflexivity.
    + change (inject_Z 1) with 1%Q. rewrite Qmult_1_l. replace (0 + (f + 1)) with (f + 1) by lia. reflexivity.
Qed.

(** The larger number. *)
Lemma dlt_spec : forall m e m' e', 0 <= m -> 0 <= m' ->
  dlt (DNum false m e) (DNum false m' e') = true <-> (inject_Z m * p10 e < inject_Z m' * p10 e')%Q.
Proof.
  intros m e m' e' H H'. cbn [dlt]. rewrite Z.ltb_lt. set (k := Z.min e e').
  assert (P := p10_pos k).
  assert (E : forall a b, k <= b -> (inject_Z a * p10 b == inject_Z (a * 10 ^ (b - k)) * p10 k)%Q).
  { intros a b Hb. rewrite inject_Z_mult, <- p10_Z by lia. rewrite <- Qmult_assoc, <- p10_add.
    replace (b - k + k) with b by lia. reflexivity. }
  rewrite (E m e), (E m' e') by (unfold k; lia). split; intros X.
  - apply Qmult_lt_compat_r; [exact P|]. rewrite <- Zlt_Qlt. exact X.
  - apply Qmult_lt_r in X; [|exact P]. apply inject_lt in X. exact X.
Qed.
Lemma larger_dec : forall s m e m' e', 0 <= m -> 0 < m' ->
  exists M E, max_value (K := DecOps) (real_values (K := DecOps) (DNum s m e) (DNum false m' e')) = Some (DNum false M E) /\
    0 < M /\ (inject_Z M * p10 E == Qmax (inject_Z m * p10 e) (inject_Z m' * p10 e'))%Q.
Proof.
  intros s m e m' e' H H'. unfold real_values, isinfinite. cbn [filter x_abs x_isinf x_isnan DecOps orb negb max_value x_lt].
  assert (P' := mq_pos m' e' H').
  destruct (dlt (DNum false m e) (DNum false m' e')) eqn:E.
  - apply dlt_spec in E; [|lia..]. exists m', e'. split; [reflexivity|]. split; [exact H'|].
    symmetry. apply Q.max_r. lra.
  - assert (G : (inject_Z m' * p10 e' <= inject_Z m * p10 e)%Q).
    { destruct (Qlt_le_dec (inject_Z m * p10 e) (inject_Z m' * p10 e')) as [X|X]; [|exact X].
      apply dlt_spec in X; [congruence|lia..]. }
    exists m, e. split; [reflexivity|]. split.
    + destruct (Z.eq_dec m 0) as [->|]; [|lia]. exfalso. change (inject_Z 0) with 0%Q in G. lra.
    + symmetry. apply Q.max_l. exact G.
Qed.

(** The shorthand notation. *)
Lemma fixed_numeral : forall n d, 0 <= n -> numeral false n d (fixed_str n d) /\ no_padding d (fixed_str n d).
Proof.
  intros n d H. destruct (fixed_parts n d H) as (i & f & E & Lf & Fi & Ff & Ni & V & c & r & Ei & Hd).
  change (match d with O => [] | _ => 46 :: chars f end) with (dotted d (chars f)) in E. rewrite E.
  assert (Ai := chars_ascii i Fi). assert (Af := chars_ascii f Ff).
  split.
  - assert (X := numeral_gr false (chars i) (chars f) d Ai ltac:(rewrite Ei; discriminate) Af ltac:(rewrite chars_length; exact Lf)).
    rewrite <- chars_app, dval_chars, V in X. exact X.
  - apply (no_padding_gr false (chars i) (chars f) d (48 + c) (chars r)); [rewrite Ei; reflexivity|].
    intros X. rewrite Hd by lia. reflexivity.
Qed.
Lemma short_dec : forall U m e prec main latex, 0 < m -> 0 <= prec -> exists es,
  shorthand_uncert (K := DecOps) U (DNum false m e) prec main latex = Ok es /\
  short_text (dfix m (e + prec)) (Z.to_nat prec) es.
Proof.
  intros U m e prec main latex Hm Hp. unfold shorthand_uncert.
  cbn [x_iszero x_isnan x_isinf DecOps]. destruct (Z.eqb_spec m 0); [lia|]. rewrite round_dec.
  set (M := dfix m (e + prec)). assert (HM : 0 <= M) by (apply dfix_half_even; lia).
  assert (Efix : x_fix DecOps (DNum false M (- prec)) prec = M).
  { cbn [x_fix DecOps]. replace (- prec + prec) with 0 by lia. unfold dfix. simpl. lia. }
  unfold short_text. rewrite Z2Nat.id by exact Hp.
  destruct (Z.eqb_spec M 0) as [E0|N0].
  - rewrite E0. cbn [first_digit x_iszero DecOps rbind orb]. rewrite andb_true_r.
    replace (first_digit (K := DecOps) (DNum false 0 (- prec))) with (@Ok Z 0) by reflexivity. cbn [rbind].
    change (0 <=? 0) with true. cbn [andb]. destruct (0 <? prec).
    + eexists. split; [reflexivity|]. rewrite E0 in Efix. rewrite Efix. apply fixed_numeral. lia.
    + eexists. split; reflexivity.
  - rewrite first_digit_dec by lia. cbn [rbind orb].
    assert (Ed : (0 <=? dexp M (- prec)) = (10 ^ prec <=? M)).
    { destruct (dexp_bounds M (- prec) ltac:(lia)) as (A & B). set (f := dexp M (- prec)) in *.
      assert (P := p10_pos prec). assert (O := p10_opp (- prec)). replace (- - prec) with prec in O by lia.
      apply eq_iff_eq_true. rewrite !Z.leb_le. rewrite <- inject_le_pow by exact Hp. split; intros X.
      - assert (Y := p10_ge1 f X).
        assert (Z1 : (1 * p10 prec <= inject_Z M * p10 (- prec) * p10 prec)%Q) by (apply Qmult_le_compat_r; lra).
        rewrite <- Qmult_assoc, O in Z1. lra.
      - destruct (Z_lt_le_dec f 0) as [Y|Y]; [exfalso|exact Y].
        assert (Y2 : (p10 (f + 1) <= p10 0)%Q) by (apply p10_le; lia). rewrite p10_0 in Y2.
        assert (Z1 : (inject_Z M * p10 (- prec) * p10 prec < 1 * p10 prec)%Q) by (apply Qmult_lt_compat_r; lra).
        rewrite <- Qmult_assoc, O in Z1. lra. }
    rewrite Ed, andb_comm. destruct ((0 <? prec) && (10 ^ prec <=? M)).
    + eexists. split; [reflexivity|]. rewrite Efix. apply fixed_numeral. exact HM.
    + cbn [x_iszero DecOps]. destruct (Z.eqb_spec M 0); [lia|]. cbn [negb x_mul10 DecOps rbind x_sign x_fix].
      eexists. split; [reflexivity|]. replace (- prec + prec + 0) with 0 by lia.
      replace (dfix M 0) with M by (unfold dfix; simpl; lia). rewrite show_Z_nonneg by lia. apply numeral_digs. lia.
Qed.
