(** Types g, G and none for a number whose uncertainty is zero, infinite or NaN: the nominal value is
    shown like a float of Python, without trailing zeros. *)
From Coq Require Import String.
From Coq Require Import ZArith List Bool Lia QArith Qpower Qabs Qminmax Lqa.
From Verif Require Import Base Str FmtOps Format FmtSpec StrProofs SpecProofs FixedProofs FormatProofs DecProofs RealFmt RealThm ZeroFmt SpecialFmt.
Import ListNotations.
Local Open Scope Z_scope.
Local Open Scope res_scope.

(** ** Trailing zeros *)
Lemma digs_aux_fuel : forall f g n, 0 <= n < 2 ^ Z.of_nat f -> 0 <= n < 2 ^ Z.of_nat g -> f <> O -> g <> O -> digs_aux f n = digs_aux g n.
Proof.
  induction f as [|f IH]; intros g n Hf Hg Nf Ng; [congruence|]. destruct g as [|g]; [congruence|]. cbn [digs_aux].
  destruct (Z.ltb_spec n 10) as [|G]; [reflexivity|].
  assert (S : forall k, 0 <= n < 2 ^ Z.of_nat (S k) -> 0 <= n / 10 < 2 ^ Z.of_nat k /\ k <> O).
  { intros k H. rewrite Nat2Z.inj_succ, Z.pow_succ_r in H by lia. split; [split; [apply Z.div_pos; lia|apply Z.div_lt_upper_bound; lia]|].
    intros ->. cbn in H. lia. }
  destruct (S f Hf) as (F1 & F2). destruct (S g Hg) as (G1 & G2). rewrite (IH g) by assumption. reflexivity.
Qed.
Lemma digs_step : forall n c, 1 <= n -> 0 <= c <= 9 -> digs (10 * n + c) = digs n ++ [c].
Proof.
  intros n c Hn Hc. unfold digs at 1. cbn [digs_aux]. destruct (Z.ltb_spec (10 * n + c) 10) as [|_]; [lia|].
  assert (D : (10 * n + c) / 10 = n) by (symmetry; apply (Z.div_unique _ 10 n c); lia).
  assert (M : (10 * n + c) mod 10 = c) by (symmetry; apply (Z.mod_unique _ 10 n c); lia).
  rewrite D, M. f_equal. apply digs_aux_fuel; [|apply digs_fuel; lia| |discriminate].
  - assert (X := digs_fuel (10 * n + c) ltac:(lia)). rewrite Nat2Z.inj_succ, Z.pow_succ_r in X by lia. lia.
  - assert (1 <= Z.log2 (10 * n + c)) by (apply Z.log2_le_pow2; lia). lia.
Qed.
Definition padded (n : Z) (p : nat) : list Z := repeat 0 (S p - length (digs n)) ++ digs n.
Lemma padded_step : forall n p, 0 <= n -> padded (10 * n) (S p) = padded n p ++ [0].
Proof.
  intros n p Hn. unfold padded. destruct (Z.eq_dec n 0) as [->|N].
  - change (10 * 0) with 0. rewrite digs_0. change (length [0]) with 1%nat.
    replace (S (S p) - 1)%nat with (S (S p - 1))%nat by lia. cbn [repeat]. rewrite repeat_cons. reflexivity.
  - replace (10 * n) with (10 * n + 0) by lia. rewrite digs_step by lia. rewrite app_length. change (length [0]) with 1%nat.
    replace (S (S p) - (length (digs n) + 1))%nat with (S p - length (digs n))%nat by lia. rewrite app_assoc. reflexivity.
Qed.
Lemma padded_length : forall n p, (S p <= length (padded n p))%nat.
Proof. intros n p. unfold padded. rewrite app_length, repeat_length. lia. Qed.
Lemma fixed_step : forall n p, 0 <= n -> exists i f,
  fixed_str (10 * n) (S p) = chars i ++ 46 :: chars f ++ [48] /\ fixed_str n p = chars i ++ match p with O => [] | _ => 46 :: chars f end /\
  length f = p /\ List.Forall digit i /\ List.Forall digit f.
Proof.
  intros n p Hn. exists (firstn (length (padded n p) - p) (padded n p)), (skipn (length (padded n p) - p) (padded n p)).
  assert (Lp := padded_length n p).
  assert (Fd : List.Forall digit (padded n p)).
  { apply Forall_app; split; [|apply digs_digit; lia]. apply Forall_forall. intros x Hx. apply repeat_spec in Hx. subst. unfold digit; lia. }
  split.
  - unfold fixed_str. change (repeat 0 (S (S p) - length (digs (10 * n))) ++ digs (10 * n)) with (padded (10 * n) (S p)). cbv zeta.
    rewrite padded_step by exact Hn. rewrite app_length. change (length [0]) with 1%nat.
    replace (length (padded n p) + 1 - S p)%nat with (length (padded n p) - p)%nat by lia.
    rewrite firstn_app, skipn_app. replace (length (padded n p) - p - length (padded n p))%nat with O by lia. cbn [firstn skipn].
    rewrite app_nil_r, chars_app. reflexivity.
  - split; [reflexivity|]. split; [rewrite skipn_length; lia|].
    rewrite <- (firstn_skipn (length (padded n p) - p) (padded n p)) in Fd. apply Forall_app in Fd. exact Fd.
Qed.
Lemma strip_zeros_app0 : forall s, strip_zeros (s ++ [48]) = strip_zeros s.
Proof. induction s as [|c s IH]; [reflexivity|]. cbn [app strip_zeros]. rewrite IH. reflexivity. Qed.
Lemma strip_zeros_last : forall s c, c <> 48 -> strip_zeros (s ++ [c]) = s ++ [c].
Proof.
  induction s as [|a s IH]; intros c H; cbn [app strip_zeros].
  - destruct (Z.eqb_spec c 48); [contradiction|reflexivity].
  - rewrite IH by exact H. destruct s; reflexivity.
Qed.
Lemma span_point : forall i f, List.Forall digit i -> span (fun c => negb (c =? 46)) (chars i ++ 46 :: f) = (chars i, 46 :: f).
Proof.
  induction i as [|d i IH]; intros f H; [reflexivity|]. inversion H; subst. unfold digit in *. cbn [chars map app span].
  destruct (Z.eqb_spec (48 + d) 46); [lia|]. cbn [negb]. change (map (fun d0 : Z => 48 + d0) i) with (chars i). rewrite IH by assumption. reflexivity.
Qed.
Lemma strip_frac_int : forall i, List.Forall digit i -> strip_frac (chars i) = chars i.
Proof.
  intros i H. unfold strip_frac. assert (E : span (fun c => negb (c =? 46)) (chars i) = (chars i, [])).
  { induction i as [|d i IH]; [reflexivity|]. inversion H; subst. unfold digit in *. cbn [chars map span].
    destruct (Z.eqb_spec (48 + d) 46); [lia|]. cbn [negb]. change (map (fun d0 : Z => 48 + d0) i) with (chars i). rewrite IH by assumption. reflexivity. }
  rewrite E. reflexivity.
Qed.
Lemma strip_fixed : forall d n, 0 <= n -> exists n' d', strip_frac (fixed_str n d) = fixed_str n' d' /\ (d' <= d)%nat /\
  n = n' * 10 ^ Z.of_nat (d - d') /\ 0 <= n' /\ (d' = O \/ n' mod 10 <> 0).
Proof.
  induction d as [|d IH]; intros n Hn.
  - exists n, O. destruct (fixed_parts n 0 Hn) as (i & f & E & _ & Fi & _). rewrite E, app_nil_r. split; [apply strip_frac_int; exact Fi|].
    split; [lia|]. cbn [Nat.sub]. change (10 ^ Z.of_nat 0) with 1. split; [lia|]. auto.
  - destruct (Z.eq_dec (n mod 10) 0) as [M|M].
    + assert (En : n = 10 * (n / 10)) by (pose proof (Z.div_mod n 10 ltac:(lia)); lia).
      assert (H0 : 0 <= n / 10) by (apply Z.div_pos; lia). set (q := n / 10) in *. clearbody q. subst n.
      destruct (fixed_step q d H0) as (i & f & E1 & E2 & Lf & Fi & Ff).
      destruct (IH q H0) as (n' & d' & E & L1 & V & P & C). exists n', d'.
      split; [|split; [lia|split; [|auto]]].
      * rewrite <- E, E1, E2. unfold strip_frac at 1. rewrite span_point by exact Fi. rewrite strip_zeros_app0.
        destruct d.
        { destruct f; [|discriminate]. cbn [chars map strip_zeros]. rewrite app_nil_r. symmetry. apply strip_frac_int. exact Fi. }
        unfold strip_frac. rewrite span_point by exact Fi. reflexivity.
      * rewrite V. replace (Z.of_nat (S d - d')) with (Z.of_nat (d - d') + 1) by lia. rewrite Z.pow_add_r by lia. ring.
    + exists n, (S d). split; [|split; [lia|split; [rewrite Nat.sub_diag; change (10 ^ Z.of_nat 0) with 1; lia|auto]]].
      destruct (fixed_parts n (S d) Hn) as (i & f & E & Lf & Fi & Ff & Ni & V & _). rewrite E.
      unfold strip_frac. rewrite span_point by exact Fi.
      destruct (exists_last (l := f)) as (g & c & Eg); [intros ->; discriminate|]. rewrite Eg in *.
      assert (Hc : c = n mod 10).
      { rewrite app_assoc, val_app in V. change (10 ^ Z.of_nat (length [c])) with 10 in V. unfold val at 2 in V. cbn [fold_left] in V.
        apply Forall_app in Ff. destruct Ff as (_ & Fc). inversion Fc; subst. unfold digit in *.
        apply (Z.mod_unique _ 10 (val (i ++ g)) c); lia. }
      rewrite chars_app. change (chars [c]) with [48 + c]. rewrite strip_zeros_last by lia. destruct (chars g); reflexivity.
Qed.

(** ** Digits *)
Lemma sig_limit_unique : forall v n a b, (0 < v)%Q -> sig_limit v n a -> sig_limit v n b -> a = b.
Proof.
  assert (W : forall v n a b, (0 < v)%Q -> sig_limit v n a -> sig_limit v n b -> a < b -> False).
  { intros v n a b Hv (M & M' & HM & BM & HM' & BM') (N & N' & HN & BN & HN' & BN') Hab.
    assert (P : (v * p10 (1 - b) <= v * p10 (- a))%Q).
    { assert (X := p10_le (1 - b) (- a) ltac:(lia)). nra. }
    assert (N' <= M) by (eapply half_even_mono; eassumption). lia. }
  intros v n a b Hv A B. destruct (Z.lt_total a b) as [H|[H|H]]; [exfalso; eapply (W v n a b); eassumption|exact H|exfalso; eapply (W v n b a); eassumption].
Qed.
(** The digits of scientific notation. *)
Lemma dsci_limit : forall m e n d X, 0 < m -> (1 <= n)%nat -> dsci m e n = (d, X) ->
  sig_limit (inject_Z m * p10 e) (Z.of_nat n) (X - Z.of_nat n + 1) /\ dfix m (e + Z.of_nat n - 1 - X) = d /\
  10 ^ (Z.of_nat n - 1) <= d < 10 ^ Z.of_nat n.
Proof.
  intros m e n d X Hm Hn H. unfold dsci in H. destruct (Z.eqb_spec m 0) as [|_]; [lia|].
  set (X0 := dexp m e) in *. set (N := Z.of_nat n) in *. destruct (dexp_bounds m e Hm) as (B1 & B2). fold X0 in B1, B2.
  set (v := (inject_Z m * p10 e)%Q) in *.
  assert (FX : forall k, half_even (v * p10 k) (dfix m (e + k))).
  { intros k. eapply half_even_comp; [|apply dfix_half_even; lia]. unfold v. rewrite p10_add. ring. }
  assert (P := p10_pos (N - 1 - X0)).
  assert (B3 : (p10 (N - 1) <= v * p10 (N - 1 - X0))%Q).
  { replace (N - 1) with (X0 + (N - 1 - X0)) at 1 by lia. rewrite p10_add. nra. }
  assert (B4 : (v * p10 (N - 1 - X0) < p10 N)%Q).
  { replace (p10 N) with (p10 ((X0 + 1) + (N - 1 - X0))) by (f_equal; lia). rewrite p10_add. nra. }
  assert (F0 := FX (N - 1 - X0)). replace (e + (N - 1 - X0)) with (e + N - 1 - X0) in F0 by lia.
  set (d0 := dfix m (e + N - 1 - X0)) in *.
  assert (L0 : 10 ^ (N - 1) <= d0).
  { apply (half_even_ge _ _ _ F0). rewrite <- p10_Z by lia. lra. }
  assert (U0 : d0 <= 10 ^ N).
  { apply (half_even_le _ _ _ F0). rewrite <- p10_Z by lia. lra. }
  assert (T : 10 ^ N = 10 * 10 ^ (N - 1)) by (replace N with (N - 1 + 1) at 1 by lia; rewrite Z.pow_add_r by lia; lia).
  assert (P1 : 0 < 10 ^ (N - 1)) by (apply pow10_pos; lia).
  destruct (Z.eqb_spec d0 (10 ^ N)) as [E|NE]; inversion H; subst d X; clear H.
  - assert (Ed : d0 / 10 = 10 ^ (N - 1)) by (rewrite E, T; rewrite Z.mul_comm; apply Z.div_mul; lia). rewrite Ed.
    assert (F1 := FX (N - 1 - (X0 + 1))). replace (e + (N - 1 - (X0 + 1))) with (e + N - 1 - (X0 + 1)) in F1 by lia.
    assert (E1 : dfix m (e + N - 1 - (X0 + 1)) = 10 ^ (N - 1)).
    { assert (F0' := half_even_bounds _ _ F0). rewrite E in F0'.
      assert (Y : (v * p10 (N - 1 - X0) == 10 * (v * p10 (N - 1 - (X0 + 1))))%Q).
      { replace (N - 1 - X0) with (N - 1 - (X0 + 1) + 1) by lia. rewrite p10_succ. ring. }
      rewrite T, inject_Z_mult in F0'. change (inject_Z 10) with 10%Q in F0'. rewrite Y in F0', B4. rewrite (p10_Z N) in B4 by lia. rewrite T, inject_Z_mult in B4. change (inject_Z 10) with 10%Q in B4.
      apply Z.le_antisymm; [apply (half_even_le _ _ _ F1)|apply (half_even_ge _ _ _ F1)]; lra. }
    split; [|split; [exact E1|lia]]. exists (10 ^ (N - 1)), (10 ^ N).
    split. { rewrite <- E1. eapply half_even_comp; [|exact F1]. replace (- (X0 + 1 - N + 1)) with (N - 1 - (X0 + 1)) by lia. reflexivity. }
    split; [lia|]. split; [|lia]. rewrite <- E. eapply half_even_comp; [|exact F0]. replace (1 - (X0 + 1 - N + 1)) with (N - 1 - X0) by lia. reflexivity.
  - split; [|split; [reflexivity|lia]]. exists d0, (dfix m (e + (N - X0))).
    split. { eapply half_even_comp; [|exact F0]. replace (- (X0 - N + 1)) with (N - 1 - X0) by lia. reflexivity. }
    split; [lia|]. assert (F1 := FX (N - X0)). replace (1 - (X0 - N + 1)) with (N - X0) by lia. split; [exact F1|].
    apply (half_even_ge _ _ _ F1). rewrite <- p10_Z by lia.
    replace (N - X0) with (N - 1 - X0 + 1) by lia. rewrite p10_succ. assert (Y : (p10 N == 10 * p10 (N - 1))%Q) by (replace N with (N - 1 + 1) at 1 by lia; apply p10_succ).
    rewrite Y. lra.
Qed.
(** The shortest digits of a decimal number: no trailing zero. *)
Lemma dnorm_last : forall f m e, 0 < m -> m < 10 ^ Z.of_nat f -> let (m', e') := dnorm f m e in
  0 < m' /\ (inject_Z m' * p10 e' == inject_Z m * p10 e)%Q /\ m' mod 10 <> 0.
Proof.
  induction f as [|f IH]; intros m e Hm Hf; [change (10 ^ Z.of_nat 0) with 1 in Hf; lia|]. cbn [dnorm].
  destruct (Z.eqb_spec (m mod 10) 0) as [M|M].
  - destruct (Z.eqb_spec m 0) as [|_]; [lia|]. cbn [negb andb].
    assert (En : m = 10 * (m / 10)) by (pose proof (Z.div_mod m 10 ltac:(lia)); lia).
    rewrite Nat2Z.inj_succ, Z.pow_succ_r in Hf by lia.
    assert (X := IH (m / 10) (e + 1) ltac:(lia) ltac:(lia)). destruct (dnorm f (m / 10) (e + 1)) as (m' & e').
    destruct X as (A & B & C). split; [exact A|]. split; [|exact C]. rewrite B, p10_succ. rewrite En at 2. rewrite inject_Z_mult.
    change (inject_Z 10) with 10%Q. ring.
  - split; [exact Hm|]. split; [reflexivity|exact M].
Qed.

(** ** The digits that Python writes *)
Lemma none_body : forall s m e fs, 0 <= m -> (0 < m -> -4 <= dexp m e < 16) -> fs_type fs = [] -> fs_prec fs = None ->
  exists n d, body (K := DecOps) fs (DNum s m e) = fixed_str n d /\ 0 <= n /\ (inject_Z n == inject_Z m * p10 e * p10 (Z.of_nat d))%Q /\
    (1 <= d)%nat /\ (d = 1%nat \/ n mod 10 <> 0).
Proof.
  intros s m e fs Hm HX Et Ep. unfold body. rewrite Et, Ep. cbn [x_isnan x_isinf x_short DecOps str_eqb orb lit].
  change (str_eqb [] (lit "f")) with false. change (str_eqb [] (lit "F")) with false. cbn [orb].
  destruct (Z.eqb_spec m 0) as [->|N].
  - exists 0, 1%nat. split; [reflexivity|]. split; [lia|]. split; [change (inject_Z 0) with 0%Q; ring|]. auto.
  - assert (D := dnorm_last (length (digs m)) m e ltac:(lia) (proj2 (digs_bounds m ltac:(lia)))).
    destruct (dnorm (length (digs m)) m e) as (m' & e'). destruct D as (P & V & M).
    change (e' + Z.of_nat (length (digs m')) - 1) with (dexp m' e').
    assert (E : dexp m' e' = dexp m e).
    { destruct (dexp_bounds m e ltac:(lia)) as (B1 & B2). apply dexp_unique; [exact P| |]; rewrite V; assumption. }
    specialize (HX ltac:(lia)). rewrite E.
    assert (C : (-4 <=? dexp m e) && (dexp m e <? 16) = true) by (apply andb_true_iff; split; [apply Z.leb_le|apply Z.ltb_lt]; lia). rewrite C.
    destruct (Z.leb_spec 0 e') as [G|G].
    + exists (m' * 10 ^ e' * 10), 1%nat. split; [reflexivity|]. assert (0 < 10 ^ e') by (apply pow10_pos; exact G). split; [nia|].
      split; [|auto]. rewrite <- V, !inject_Z_mult, <- p10_Z by exact G. change (inject_Z 10) with (p10 (Z.of_nat 1)). ring.
    + exists m', (Z.to_nat (- e')). split; [reflexivity|]. split; [lia|]. split; [|split; [lia|auto]].
      rewrite <- V, Z2Nat.id by lia. rewrite <- Qmult_assoc, p10_opp. ring.
Qed.
Lemma g_body : forall s m e fs, 0 <= m -> (fs_type fs = lit "g" \/ fs_type fs = lit "G") -> fs_prec fs = None ->
  (m = 0 -> body (K := DecOps) fs (DNum s m e) = fixed_str 0 0) /\
  (forall D X, 0 < m -> dsci m e 6 = (D, X) -> -4 <= X < 6 -> exists n d,
     body (K := DecOps) fs (DNum s m e) = fixed_str n d /\ 0 <= n /\ (inject_Z n == inject_Z D * p10 (X - 5 + Z.of_nat d))%Q /\ (d = 0%nat \/ n mod 10 <> 0)).
Proof.
  intros s m e fs Hm Et Ep.
  assert (B : body (K := DecOps) fs (DNum s m e) = 
     let (d, X) := dsci m e 6 in
     if (-4 <=? X) && (X <? 6) then strip_frac (fixed_str (dfix m (e + (6 - 1 - X))) (Z.to_nat (6 - 1 - X)))
     else chars (firstn 1 (digs d)) ++ match strip_zeros (chars (skipn 1 (digs d))) with [] => [] | _ => 46 :: strip_zeros (chars (skipn 1 (digs d))) end ++
          (if str_eqb (fs_type fs) (lit "G") then 69 else 101) :: show_exp X).
  { unfold body. cbn [x_isnan x_isinf DecOps]. rewrite Ep. destruct Et as [E|E]; rewrite E; reflexivity. }
  split.
  - intros ->. rewrite B. change (dsci 0 e 6) with (0, 0). cbn iota beta. rewrite dfix_0. reflexivity.
  - intros D X Hm2 Ed HX. rewrite B, Ed.
    assert (C : (-4 <=? X) && (X <? 6) = true) by (apply andb_true_iff; split; [apply Z.leb_le|apply Z.ltb_lt]; lia). rewrite C.
    destruct (dsci_limit m e 6 D X Hm2 ltac:(lia) Ed) as (_ & F & BD). change (Z.of_nat 6) with 6 in *.
    replace (e + 6 - 1 - X) with (e + (6 - 1 - X)) in F by lia. rewrite F.
    destruct (strip_fixed (Z.to_nat (6 - 1 - X)) D) as (n & d & E & Ld & V & P & M); [assert (0 < 10 ^ (6 - 1)) by (apply pow10_pos; lia); lia|].
    exists n, d. split; [exact E|]. split; [exact P|]. split; [|exact M].
    assert (Y : (inject_Z D == inject_Z n * p10 (5 - X - Z.of_nat d))%Q).
    { rewrite V at 1. rewrite inject_Z_mult, <- p10_Z by lia. replace (Z.of_nat (Z.to_nat (6 - 1 - X) - d)) with (5 - X - Z.of_nat d) by lia. reflexivity. }
    rewrite Y, <- Qmult_assoc, <- p10_add. replace (5 - X - Z.of_nat d + (X - 5 + Z.of_nat d)) with 0 by lia. rewrite p10_0. ring.
Qed.

Section General.
Context (U : Unicode) (L : UniLaws U).

Lemma py_general : forall (x : dec) sg p s0 w n d, assembled U p s0 -> at_most_one "-+ " sg -> 0 <= w -> gen_type (p_type p) ->
  x_isnan DecOps x = false -> 0 <= n ->
  (forall fs, fs_type fs = p_type p -> fs_prec fs = None -> body (K := DecOps) fs x = fixed_str n d) ->
  exists t, py_format (K := DecOps) U x (prefix sg p w ++ p_type p) = Ok t /\
    shown sg (pads p) (commas p) w (x_sign DecOps x) n d t.
Proof.
  intros x sg p s0 w n d A Hsg Hw Ht Hx Hn Hb. unfold py_format.
  set (z := if pads p then p_zero p else []). set (ws := if pads p then show_Z w else []).
  assert (Nz : negb (isnil z) = pads p).
  { unfold z, pads. destruct (p_zero p); cbn [isnil negb andb]; [reflexivity|]. destruct (p_width p); reflexivity. }
  assert (E : prefix sg p w ++ p_type p = sg ++ z ++ ws ++ p_comma p ++ p_type p).
  { unfold prefix, z, ws. destruct (pads p); rewrite <- ?app_assoc; reflexivity. }
  rewrite E, (gen_fspec_run U L); try assumption.
  - cbn [rbind]. eexists. split; [reflexivity|]. rewrite Nz.
    assert (V : val (digit_vals U ws) = if pads p then w else 0).
    { unfold ws. destruct (pads p); [apply (show_Z_val U L); exact Hw|reflexivity]. }
    rewrite V. fold (commas p).
    assert (S := body_shown (K := DecOps) x sg (pads p) (if pads p then w else 0) (commas p) None (p_type p) n d Hx (Hb (mkFspec sg (pads p) (if pads p then w else 0) (commas p) None (p_type p)) eq_refl eq_refl) Hn Hsg).
    destruct (pads p); [apply S; discriminate|].
    destruct (S ltac:(reflexivity)) as (t & E1 & E2 & E3 & _). exists t. split; [exact E1|].
    split; [exact E2|]. split; [exact E3|discriminate].
  - unfold z. destruct (pads p); [exact (as_zero _ _ _ A)|left; reflexivity].
  - unfold ws. destruct (pads p); [apply (show_Z_digits U L); exact Hw|constructor].
  - unfold z, ws, pads. destruct (p_zero p); cbn [isnil negb andb]; [reflexivity|]. destruct (p_width p); cbn [isnil negb]; [reflexivity|discriminate].
  - exact (as_comma _ _ _ A).
Qed.

Lemma general_parts : forall (nom s : dec) (spec : str) (p : parts),
  real nom -> special s -> parse_spec U spec = Ok p -> (p_align p = lit "=" -> p_width p = []) ->
  p_prec p = None -> gen_type (p_type p) ->
  (p_type p = [] -> ~ ((p10 (-4) - 5 * p10 (-16) <= Qabs (dq nom))%Q /\ (Qabs (dq nom) < p10 (-4))%Q)) ->
  let V := Qabs (dq nom) in
  exists r e n d x ns es,
    format_ufloat (K := DecOps) U nom s spec = Ok r /\
    laid_out U p false e true false x ns es r /\
    ((V == 0)%Q -> e = None) /\
    ((0 < V)%Q -> exists k, sig_limit V (if isnil (p_type p) then 12 else 6) k /\ common_exponent (p_type p) V k e) /\
    (exists w, shown (p_sign p) (pads p) (commas p) w (signbit nom) n d ns) /\
    let X := match e with Some X => X | None => 0 end in
    (p_type p = [] -> (inject_Z n == V * p10 (Z.of_nat d - X))%Q /\ (1 <= d)%nat /\ (d = 1%nat \/ n mod 10 <> 0)) /\
    (p_type p <> [] -> (d = 0%nat \/ n mod 10 <> 0) /\ ((V == 0)%Q -> n = 0) /\
       ((0 < V)%Q -> exists k N, sig_limit V 6 k /\ half_even (V * p10 (- k)) N /\
          (inject_Z n * p10 (X - Z.of_nat d) == inject_Z N * p10 k)%Q)) /\
    (exists sm prec q, match e with Some X => x_div10 DecOps s X | None => Ok s end = Ok sm /\ 0 <= q /\ (x_iszero DecOps sm = true -> q = 0) /\
      if opt (p_opts p) 83 then shorthand_uncert (K := DecOps) U sm prec (if upper p then 70 else 102) (opt (p_opts p) 76) = Ok es
      else exists w e0, 0 <= w /\ es = (if opt (p_opts p) 76 then latex_err (K := DecOps) sm e0 else e0) /\
        py_format (K := DecOps) U sm (prefix [] p w ++ fixed_suffix q (if upper p then 70 else 102)) = Ok e0).
Proof.
  intros nom s spec p Rn Sp Hp Hal Hpr Ht Hex V. destruct (spec_assembled U L spec p Hp) as (s0 & A).
  assert (NF : ~ fixed_type (p_type p)).
  { destruct (type_cases p (as_type _ _ _ A)) as [(T1 & T2 & T3 & _)|[(T1 & T2 & T3 & _)|(T1 & T2 & T3 & _)]]; tauto. }
  assert (Ep : str_eqb (p_type p) (lit "%") = false).
  { apply not_true_is_false. rewrite str_eqb_eq. intros X. apply NF. right. right. exact X. }
  destruct (real_num nom Rn) as (m & e1 & En & Hm). set (sg := signbit nom) in *.
  assert (EV : (V == inject_Z m * p10 e1)%Q) by (unfold V; rewrite En; apply dq_abs; exact Hm).
  assert (MV : max_value (K := DecOps) (real_values (K := DecOps) nom s) = Some (DNum false m e1)).
  { rewrite En. destruct Sp as [(z & ->)|[(b & ->)| ->]]; [|reflexivity|reflexivity].
    unfold real_values, isinfinite. cbn [filter x_abs x_isinf x_isnan DecOps orb negb max_value x_lt].
    destruct (dlt (DNum false m e1) (DNum false 0 z)) eqn:Ed; [|reflexivity].
    apply dlt_spec in Ed; [|lia..]. assert (X := mq_nonneg m e1 Hm). change (inject_Z 0) with 0%Q in Ed. lra. }
  destruct (ref_limit U L nom s p s0 m e1 A NF MV Hm ltac:(left; exact (special_iff s Sp))) as (k & prec0 & ce & El & Ec & C0 & C1).
  set (e0 := match ce with Some X => X | None => 0 end).
  set (nm := DNum sg m (e1 - e0)). set (main := if upper p then 70 else 102).
  assert (Hmain : main = 102 \/ main = 70) by (unfold main; destruct (upper p); auto).
  assert (SM : exists sm, match ce with Some e => x_div10 DecOps s e | None => Ok s end = Ok sm /\ special sm).
  { destruct ce; [apply special_div; exact Sp|eauto]. }
  destruct SM as (sm & Esm & Ssm).
  assert (EF : exists prec, 0 <= prec /\ format_ufloat (K := DecOps) U nom s spec = format_num (K := DecOps) U nm sm ce p prec main (p_opts p)).
  { eexists (Z.max (- match ce with Some e => k - e | None => k end) (if isnil (fmt_type p) && x_iszero DecOps s then 1 else 0)).
    split; [destruct (isnil (fmt_type p) && x_iszero DecOps s); lia|].
    rewrite (format_eq U L nom s spec p Hp). unfold scaled. rewrite Ep.
    match goal with |- context[rbind ?q _] => assert (Y : q = Ok (Some k, s, prec0)) by exact El; rewrite Y; clear Y end. cbn [rbind].
    match goal with |- context[rbind ?q _] => assert (Y : q = Ok ce) by (rewrite <- Ec; exact (f_equal (fun z => use_exponent (K := DecOps) (fmt_type p) z (Some k)) MV)); rewrite Y; clear Y end. cbn [rbind].
    assert (X1 : match ce with Some e => x_div10 DecOps nom e | None => Ok nom end = Ok nm).
    { unfold nm, e0. rewrite En. destruct ce; [reflexivity|]. replace (e1 - 0) with e1 by lia. reflexivity. }
    match goal with |- rbind ?t _ = _ => assert (Y1 : t = Ok nm) by exact X1; rewrite Y1 end. cbn [rbind].
    match goal with |- rbind ?t _ = _ => assert (Y2 : t = Ok sm) by exact Esm; rewrite Y2 end. cbn [rbind]. reflexivity. }
  destruct EF as (prec & Hprec & EF).
  (* the digits of the nominal value *)
  assert (RD : ref_digits U p = if isnil (p_type p) then 12 else 6).
  { unfold ref_digits. rewrite Hpr. destruct Ht as [-> | [-> | ->]]; reflexivity. }
  rewrite RD in C1.
  assert (Vnm : forall j, (inject_Z m * p10 (e1 - e0) * p10 j == V * p10 (j - e0))%Q).
  { intros j. rewrite EV, <- !Qmult_assoc, <- !p10_add. replace (e1 - e0 + j) with (e1 + (j - e0)) by lia. reflexivity. }
  assert (BODY : exists n d, 0 <= n /\
     (forall fs, fs_type fs = p_type p -> fs_prec fs = None -> body (K := DecOps) fs nm = fixed_str n d) /\
     (p_type p = [] -> (inject_Z n == V * p10 (Z.of_nat d - e0))%Q /\ (1 <= d)%nat /\ (d = 1%nat \/ n mod 10 <> 0)) /\
     (p_type p <> [] -> (d = 0%nat \/ n mod 10 <> 0) /\ ((V == 0)%Q -> n = 0) /\
       ((0 < V)%Q -> exists k N, sig_limit V 6 k /\ half_even (V * p10 (- k)) N /\
          (inject_Z n * p10 (e0 - Z.of_nat d) == inject_Z N * p10 k)%Q))).
  { destruct (p_type p) as [|c ty] eqn:Ety.
    - (* none *)
      assert (HX : 0 < m -> -4 <= dexp m (e1 - e0) < 16).
      { intros P. destruct (C1 P) as ((M & M' & HM & BM & _) & (_ & CE)). cbn [isnil] in BM. change (10 ^ (12 - 1)) with 100000000000 in BM. change (10 ^ 12) with 1000000000000 in BM.
        destruct (CE NF) as (R & X & HR & R1 & R2 & _ & G). specialize (G Ht).
        assert (R = M) by (eapply half_even_unique; eassumption). subst R. assert (Pk := p10_pos k).
        assert (EX : X = 11 + k).
        { assert (Q1 : (p10 (11 + k) <= inject_Z M * p10 k)%Q).
          { rewrite p10_add. apply Qmult_le_compat_r; [|lra]. apply inject_le_pow; [lia|]. change (10 ^ 11) with 100000000000. lia. }
          assert (Q2 : (inject_Z M * p10 k < p10 (12 + k))%Q).
          { rewrite p10_add. apply Qmult_lt_compat_r; [exact Pk|]. apply inject_lt_pow; [lia|]. change (10 ^ 12) with 1000000000000. lia. }
          assert (11 + k < X + 1) by (apply p10_lt_inv; lra). assert (X < 12 + k) by (apply p10_lt_inv; lra). lia. }
        assert (HB := half_even_bounds _ _ HM). set (v := (inject_Z m * p10 e1)%Q) in *.
        assert (Ev : (v * p10 (- k) * p10 k == v)%Q) by (rewrite <- Qmult_assoc, (Qmult_comm (p10 (- k))), p10_opp; ring).
        assert (Lo : (p10 X - (1 # 2) * p10 k <= v)%Q).
        { assert (Y : (100000000000 <= inject_Z M)%Q) by (change 100000000000%Q with (inject_Z 100000000000); rewrite <- Zle_Qle; lia).
          rewrite EX, p10_add. change (p10 11) with 100000000000%Q. nra. }
        assert (Hi : (v < p10 (X + 1))%Q).
        { assert (Y : (inject_Z M <= 999999999999)%Q) by (change 999999999999%Q with (inject_Z 999999999999); rewrite <- Zle_Qle; lia).
          replace (X + 1) with (12 + k) by lia. rewrite p10_add. change (p10 12) with 1000000000000%Q. nra. }
        assert (Low : (p10 (X - 1) <= v)%Q).
        { eapply Qle_trans; [|exact Lo]. assert (Y : (p10 X == 10 * p10 (X - 1))%Q) by (replace X with (X - 1 + 1) at 1 by lia; apply p10_succ).
          assert (p10 k <= p10 (X - 1))%Q by (apply p10_le; lia). lra. }
        unfold e0. rewrite G in *. clear e0 nm EF Vnm G.
        destruct ((-4 <=? X) && (X <? X - k + 1)) eqn:B.
        - apply andb_true_iff in B. destruct B as (B1 & B2). apply Z.leb_le in B1. apply Z.ltb_lt in B2.
          replace (e1 - 0) with e1 by lia. destruct (dexp_bounds m e1 P) as (D1 & D2). fold v in D1, D2.
          assert (dexp m e1 < X + 1) by (apply p10_lt_inv; lra). split; [|lia].
          destruct (Z_lt_le_dec (dexp m e1) (-4)) as [Bad|]; [|assumption]. exfalso.
          assert (p10 (dexp m e1 + 1) <= p10 (-4))%Q by (apply p10_le; lia).
          assert (X - 1 < dexp m e1 + 1) by (apply p10_lt_inv; lra). assert (X = -4) by lia. subst X.
          apply (Hex eq_refl). fold V. rewrite EV. fold v. assert (k = -15) by lia. subst k. split; [|lra].
          eapply Qle_trans; [|exact Lo]. unfold Qle; vm_compute; discriminate.
        - destruct (dexp_bounds m e1 P) as (D1 & D2). fold v in D1, D2.
          assert (dexp m e1 < X + 1) by (apply p10_lt_inv; lra). assert (X - 1 < dexp m e1 + 1) by (apply p10_lt_inv; lra).
          unfold dexp in *. lia. }
      assert (NB := fun fs F1 F2 => none_body sg m (e1 - e0) fs Hm HX F1 F2).
      destruct (NB (mkFspec [] false 0 false None []) eq_refl eq_refl) as (n & d & EB & N0 & Val & D1 & D2).
      exists n, d. split; [exact N0|]. split.
      { intros fs F1 F2. rewrite <- EB. unfold body. rewrite F1, F2. reflexivity. }
      split; [|congruence]. intros _. split; [|auto]. rewrite Val. apply Vnm.
    - (* g, G *)
      assert (GT : c :: ty = lit "g" \/ c :: ty = lit "G") by (destruct Ht as [X|X]; [discriminate|exact X]).
      assert (GB := fun fs (F1 : fs_type fs = c :: ty) F2 => g_body sg m (e1 - e0) fs Hm ltac:(rewrite F1; exact GT) F2).
      assert (BE : forall fs fs', fs_type fs = c :: ty -> fs_prec fs = None -> fs_type fs' = c :: ty -> fs_prec fs' = None -> body (K := DecOps) fs nm = body (K := DecOps) fs' nm).
      { intros fs fs' F1 F2 F3 F4. unfold body. rewrite F1, F2, F3, F4. reflexivity. }
      destruct (Z.eq_dec m 0) as [E0|N0].
      + exists 0, O. split; [lia|]. split; [intros fs F1 F2; exact (proj1 (GB fs F1 F2) E0)|]. split; [discriminate|]. intros _.
        split; [auto|]. split; [reflexivity|]. intros P. exfalso. rewrite EV, E0 in P. change (inject_Z 0) with 0%Q in P. lra.
      + assert (P : 0 < m) by lia. destruct (C1 P) as (S6 & (_ & CE)). cbn [isnil] in S6.
        destruct (CE NF) as (R & X & HR & R1 & R2 & _ & G). specialize (G Ht).
        destruct (dsci m e1 6) as (D & Y) eqn:ED. destruct (dsci_limit m e1 6 D Y P ltac:(lia) ED) as (SD & FD & BD).
        change (Z.of_nat 6) with 6 in *. change (6 - 1) with 5 in *.
        assert (Ek : k = Y - 5) by (replace (Y - 5) with (Y - 6 + 1) by lia; eapply sig_limit_unique; [apply mq_pos; exact P|exact S6|exact SD]).
        assert (HD : half_even (inject_Z m * p10 e1 * p10 (- k)) D).
        { rewrite <- FD. eapply half_even_comp; [|apply dfix_half_even; exact Hm]. rewrite <- Qmult_assoc, <- p10_add. replace (e1 + 6 - 1 - Y) with (e1 + - k) by lia. reflexivity. }
        assert (R = D) by (eapply half_even_unique; eassumption). subst R. assert (Pk := p10_pos k).
        assert (EX : X = Y).
        { assert (Q1 : (p10 (5 + k) <= inject_Z D * p10 k)%Q).
          { rewrite p10_add. apply Qmult_le_compat_r; [|lra]. apply inject_le_pow; lia. }
          assert (Q2 : (inject_Z D * p10 k < p10 (6 + k))%Q).
          { rewrite p10_add. apply Qmult_lt_compat_r; [exact Pk|]. apply inject_lt_pow; lia. }
          assert (5 + k < X + 1) by (apply p10_lt_inv; lra). assert (X < 6 + k) by (apply p10_lt_inv; lra). lia. }
        assert (Sc : forall j, dsci m (e1 - j) 6 = (D, Y - j)).
        { intros j. assert (Dx : dexp m (e1 - j) = dexp m e1 - j) by (unfold dexp; lia).
          unfold dsci in *. destruct (Z.eqb_spec m 0) as [|_]; [contradiction|]. rewrite Dx. replace (e1 - j + Z.of_nat 6 - 1 - (dexp m e1 - j)) with (e1 + Z.of_nat 6 - 1 - dexp m e1) by lia.
          destruct (dfix m (e1 + Z.of_nat 6 - 1 - dexp m e1) =? 10 ^ Z.of_nat 6); injection ED as <- <-; f_equal; lia. }
        assert (RX : -4 <= Y - e0 < 6).
        { unfold e0. rewrite G. destruct ((-4 <=? X) && (X <? X - k + 1)) eqn:B; [|lia].
          apply andb_true_iff in B. destruct B as (B1 & B2). apply Z.leb_le in B1. apply Z.ltb_lt in B2. lia. }
        destruct (proj2 (GB (mkFspec [] false 0 false None (c :: ty)) eq_refl eq_refl) D (Y - e0) P (Sc e0) RX) as (n & d & EB & Nn & Val & Dz).
        exists n, d. split; [exact Nn|]. split; [intros fs F1 F2; rewrite <- EB; apply BE; auto|]. split; [discriminate|]. intros _.
        split; [exact Dz|]. split.
        { intros Z0. exfalso. assert (Y1 := mq_pos m e1 P). lra. }
        intros _. exists k, D. split; [eapply sig_limit_comp; [|exact S6]; symmetry; exact EV|].
        split; [eapply half_even_comp; [|exact HD]; rewrite EV; reflexivity|].
        rewrite Val, <- Qmult_assoc, <- p10_add. replace (Y - e0 - 5 + Z.of_nat d + (e0 - Z.of_nat d)) with k by lia. reflexivity. }
  destruct BODY as (n & d & Hn & HB & BN & BG).
  assert (Ing : in_g (p_type p) = true) by (apply in_g_gen; exact Ht).
  assert (NS : nom_suffix (K := DecOps) sm p prec main = p_type p).
  { unfold nom_suffix. rewrite (special_iff sm Ssm), Ing, Hpr. reflexivity. }
  assert (EFx : exists q, 0 <= q /\ (x_iszero DecOps sm = true -> q = 0) /\ err_suffix (K := DecOps) nm sm p prec main = fixed_suffix q main).
  { unfold err_suffix. destruct (x_iszero DecOps sm); [exists 0; split; [lia|split; reflexivity]|]. exists prec. split; [exact Hprec|]. split; [discriminate|reflexivity]. }
  destruct EFx as (q & Hq & Hq0 & EFx).
  assert (PN : forall w, 0 <= w -> exists t, py_format (K := DecOps) U nm (prefix (p_sign p) p w ++ p_type p) = Ok t /\
     shown (p_sign p) (pads p) (commas p) w sg n d t).
  { intros w Hw. apply (py_general nm (p_sign p) p s0 w n d); try assumption; try reflexivity. exact (as_sign _ _ _ A). }
  rewrite EF.
  assert (TOT : exists r, format_num (K := DecOps) U nm sm ce p prec main (p_opts p) = Ok r).
  { apply format_num_total; [exact Hal| | | |].
    - intros _. apply (special_short U L); assumption.
    - intros w Hw. rewrite NS. destruct (PN w Hw) as (t & Et & _). eauto.
    - intros _ w Hw. rewrite EFx. eapply (py_total U L); try eassumption. left. reflexivity.
    - rewrite <- (uval_val U _ (as_width _ _ _ A)). apply (uval_nonneg U L). exact (as_width _ _ _ A). }
  destruct TOT as (r & Er). rewrite Er.
  destruct (format_num_laid_out (K := DecOps) U L nm sm ce p s0 prec main false r A eq_refl Er) as (x & n0 & es & LO & Htxt).
  assert (LN : (if opt (p_opts p) 76 then latex_nom (K := DecOps) nm n0 else n0) = n0) by (destruct (opt (p_opts p) 76); reflexivity).
  rewrite LN in LO. rewrite (special_iff sm Ssm) in LO. rewrite NS in Htxt.
  exists r, ce, n, d, x, n0, es. split; [reflexivity|]. split; [exact LO|]. split.
  { intros Z0. apply C0; [|exact Ht]. destruct (Z.eq_dec m 0); [assumption|]. exfalso. assert (Y1 := mq_pos m e1 ltac:(lia)). lra. }
  split.
  { intros P. destruct (Z.eq_dec m 0) as [E0|N0]; [exfalso; rewrite E0 in EV; change (inject_Z 0) with 0%Q in EV; lra|].
    destruct (C1 ltac:(lia)) as (S1 & S2). exists k. split; [eapply sig_limit_comp; [|exact S1]|eapply common_exponent_comp; [|exact S2]]; symmetry; exact EV. }
  split; [|split; [exact BN|split; [exact BG|]]].
  2: { exists sm, prec, q. split; [exact Esm|]. split; [exact Hq|]. split; [exact Hq0|].
       destruct (opt (p_opts p) 83); [exact (proj2 Htxt)|]. destruct Htxt as (_ & e2 & E2 & T2). rewrite EFx in T2.
       eexists _, e2. split; [|split; [exact E2|exact T2]]. unfold room. lia. }
  destruct (opt (p_opts p) 83).
  - destruct Htxt as (T1 & _). eexists. destruct (PN (room U p (len (lit "(" ++ es ++ lit ")" ++ x ++ percent_text (p_opts p) false))) ltac:(unfold room; lia)) as (t & Et & Sh).
    assert (t = n0) by congruence. subst t. exact Sh.
  - destruct Htxt as (T1 & _). eexists. destruct (PN (room U p (len x)) ltac:(unfold room; lia)) as (t & Et & Sh).
    assert (t = n0) by (change (isinfinite (K := DecOps) nm) with false in T1; congruence). subst t. exact Sh.
Qed.
(** The nominal value is shown like a float: exactly with the type none, with six digits with g. *)
Theorem general_display : forall (nom s : dec) (spec : str) (p : parts),
  real nom -> special s -> parse_spec U spec = Ok p -> (p_align p = lit "=" -> p_width p = []) ->
  p_prec p = None -> gen_type (p_type p) ->
  (p_type p = [] -> ~ ((p10 (-4) - 5 * p10 (-16) <= Qabs (dq nom))%Q /\ (Qabs (dq nom) < p10 (-4))%Q)) ->
  let V := Qabs (dq nom) in
  exists r e n d x ns es,
    format_ufloat (K := DecOps) U nom s spec = Ok r /\
    laid_out U p false e true false x ns es r /\
    ((V == 0)%Q -> e = None) /\
    ((0 < V)%Q -> exists k, sig_limit V (if isnil (p_type p) then 12 else 6) k /\ common_exponent (p_type p) V k e) /\
    (exists w, shown (p_sign p) (pads p) (commas p) w (signbit nom) n d ns) /\
    let X := match e with Some X => X | None => 0 end in
    (p_type p = [] -> (inject_Z n == V * p10 (Z.of_nat d - X))%Q /\ (1 <= d)%nat /\ (d = 1%nat \/ n mod 10 <> 0)) /\
    (p_type p <> [] -> (d = 0%nat \/ n mod 10 <> 0) /\ ((V == 0)%Q -> n = 0) /\
       ((0 < V)%Q -> exists k N, sig_limit V 6 k /\ half_even (V * p10 (- k)) N /\
          (inject_Z n * p10 (X - Z.of_nat d) == inject_Z N * p10 k)%Q)).
Proof.
  intros nom s spec p Rn Sp Hp Hal Hpr Ht Hex V.
  destruct (general_parts nom s spec p Rn Sp Hp Hal Hpr Ht Hex) as (r & e & n & d & x & ns & es & H1 & H2 & H3 & H4 & H5 & H6 & H7 & _).
  exists r, e, n, d, x, ns, es. split; [exact H1|]. split; [exact H2|]. split; [exact H3|]. split; [exact H4|]. split; [exact H5|]. split; [exact H6|exact H7].
Qed.
End General.
