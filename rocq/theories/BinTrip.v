(** Formatting a number and reading the result again, in binary64. *)
From Coq Require Import String.
From Coq Require Import ZArith List Bool Lia QArith Qpower Qabs Qminmax Lqa.
From Flocq Require Import BinarySingleNaN.
From Verif Require Import Base Str NumF FmtOps FmtF Format Parse FmtSpec ParseSpec BinSpec StrProofs SpecProofs FixedProofs FormatProofs
  DecProofs ParseProofs ParseThm RealFmt RealThm RoundTrip BinProofs BinRepr BinQ BinFmt BinThm ExFmt ExParse ExBin ParseBin.
Import ListNotations.
Local Open Scope Z_scope.

(** ** Bounds on the positions of the digits *)
Lemma p10_lt_inv : forall a b, (p10 a < p10 b)%Q -> a < b.
Proof. intros a b H. destruct (Z_lt_le_dec a b) as [L|L]; [exact L|]. exfalso. apply p10_le in L. lra. Qed.
Lemma near_bounds : forall a b, (0 <= a)%Q -> near a b -> ((1 # 2) * a <= b)%Q /\ (b <= 2 * a)%Q.
Proof. intros a b P N. unfold near in N. rewrite (Qabs_pos a P) in N. apply Qabs_Qle_condition in N. lra. Qed.
Lemma sig_bounds : forall v n l, 1 <= n -> (0 < v)%Q -> sig_limit v n l -> (p10 l <= 2 * v)%Q /\ (v <= 2 * p10 (n + l))%Q.
Proof.
  intros v n l Hn P (M & M' & H1 & (A & B) & H2 & C). apply half_even_bounds in H1. assert (Pl := p10_pos l). assert (O := p10_opp l). assert (Pm := p10_pos (- l)).
  assert (E : (v == v * p10 (- l) * p10 l)%Q) by (rewrite <- Qmult_assoc, (Qmult_comm (p10 (- l))), O; ring).
  set (y := (v * p10 (- l))%Q) in *. assert (M1 : 1 <= M) by (assert (0 < 10 ^ (n - 1)) by (apply Z.pow_pos_nonneg; lia); lia).
  assert (Q1 : (1 <= inject_Z M)%Q) by (change 1%Q with (inject_Z 1); apply inject_le'; lia).
  assert (Q2 : (inject_Z M <= p10 n)%Q). { rewrite (p10_Z n) by lia. apply inject_le'. lia. }
  assert (Pn : (1 <= p10 n)%Q). { change 1%Q with (p10 0). apply p10_le. lia. }
  rewrite E. split.
  - assert ((1 # 2) * p10 l <= y * p10 l)%Q by (apply Qmult_le_compat_r; lra). lra.
  - rewrite p10_add. assert (y * p10 l <= 2 * p10 n * p10 l)%Q by (apply Qmult_le_compat_r; lra). lra.
Qed.
Lemma sig_place : forall v n l lo hi, 1 <= n <= 101 -> (p10 lo <= v)%Q -> (v <= p10 hi)%Q -> sig_limit v n l -> lo - 102 <= l <= hi.
Proof.
  intros v n l lo hi Hn A B H. assert (P0 := p10_pos lo). destruct (sig_bounds v n l ltac:(lia) ltac:(lra) H) as (X & Y).
  assert (T : forall a, (2 * p10 a < p10 (a + 1))%Q). { intro a. rewrite p10_add. change (p10 1) with 10%Q. assert (P := p10_pos a). lra. }
  assert (X1 : l < hi + 1). { apply p10_lt_inv. eapply Qle_lt_trans; [exact X|]. eapply Qle_lt_trans; [|apply T]. lra. }
  assert (Y1 : lo < n + l + 1). { apply p10_lt_inv. eapply Qle_lt_trans; [exact A|]. eapply Qle_lt_trans; [exact Y|apply T]. }
  lia.
Qed.
Lemma near_power : forall v v' lo hi, (p10 lo <= v)%Q -> (v <= p10 hi)%Q -> near v v' -> (p10 (lo - 1) <= v')%Q /\ (v' <= p10 (hi + 1))%Q.
Proof.
  intros v v' lo hi A B N. assert (P0 := p10_pos lo). destruct (near_bounds v v' ltac:(lra) N) as (X & Y).
  replace (p10 lo) with (p10 (lo - 1 + 1)) in A by (f_equal; lia). rewrite p10_add in A. rewrite p10_add. change (p10 1) with 10%Q in *. assert (P1 := p10_pos (lo - 1)). assert (P2 := p10_pos hi). lra.
Qed.
Lemma sig_near_place : forall v n l lo hi, (p10 lo <= v)%Q -> (v <= p10 hi)%Q -> sig_limit_near v n l -> 1 <= n <= 101 -> lo - 103 <= l <= hi + 1.
Proof.
  intros v n l lo hi A B (v' & N & H) Hn. destruct (near_power v v' lo hi A B N) as (X & Y). pose proof (sig_place v' n l _ _ Hn X Y H). lia.
Qed.

Section Trip.
Context (lm : Libm10) (LL : LibmLaws lm) (U : Unicode) (L : UniLaws U).
Notation K := (BinOps lm).

Lemma prec_nonneg : forall spec p, parse_spec U spec = Ok p -> forall d, p_prec p = Some d -> 0 <= uval U d.
Proof.
  intros spec p H d Hd. apply (uval_nonneg U L).
  destruct (spec_parts U L _ _ H) as ([As|(t & _ & As)] & _); apply (as_prec _ _ _ As d Hd).
Qed.
Lemma place_bounds : forall p V S0 S k, (forall d, p_prec p = Some d -> 0 <= uval U d <= 100) ->
  (p_uncert p <> [] -> forall d, p_prec p = Some d -> uval U d <> 0) -> p_type p <> lit "%" ->
  (fixed_type (p_type p) \/ exp_type (p_type p) \/ gen_type (p_type p)) ->
  medium S0 -> (Qabs V <= p10 90)%Q ->
  last_place_near U p V S0 S k -> -195 <= k <= 93 /\ (Qabs S <= p10 93)%Q.
Proof.
  intros p V S0 S k Hd Hu Nty Ty (A & B) BV H. unfold last_place_near in H.
  assert (P0 := p10_pos (-90)). assert (PS : (0 <= S0)%Q) by lra.
  assert (NS : near S0 S -> (Qabs S <= p10 93)%Q).
  { intro N. destruct (near_power S0 S (-90) 90 A B N) as (X & Y). assert (P1 := p10_pos (-90 - 1)). rewrite Qabs_pos by lra. eapply Qle_trans; [exact Y|]. apply p10_le. lia. }
  destruct (p_prec p) as [d|] eqn:Ed.
  - destruct H as (N & H1 & H2). split; [|exact (NS N)]. specialize (Hd d eq_refl).
    destruct (list_eq_dec Z.eq_dec (p_uncert p) []) as [E|E].
    + destruct (H2 E) as (F1 & F2 & F3). assert (AM : (p10 (-90) <= Qmax (Qabs V) S0)%Q) by (eapply Qle_trans; [exact A|apply Q.le_max_r]).
      assert (BM : (Qmax (Qabs V) S0 <= p10 90)%Q) by (apply Q.max_lub; assumption).
      destruct Ty as [T|[T|T]].
      * rewrite (F1 T). lia.
      * pose proof (sig_near_place _ _ _ (-90) 90 AM BM (F2 T) ltac:(lia)). lia.
      * pose proof (sig_near_place _ _ _ (-90) 90 AM BM (F3 T) ltac:(lia)). lia.
    + specialize (H1 E). specialize (Hu E d eq_refl). pose proof (sig_near_place _ _ _ (-90) 90 A B H1 ltac:(lia)). lia.
  - destruct H as (S1 & f & D & N1 & X1 & X2 & _ & _ & H).
    destruct (near_power S0 S1 (-90) 90 A B N1) as (Y1 & Y2).
    assert (Ff : -92 <= f <= 91). { assert (G1 : -90 - 1 < f + 1) by (apply p10_lt_inv; lra).
      assert (G2 : f < 90 + 2). { apply p10_lt_inv. eapply Qle_lt_trans; [exact X1|]. eapply Qle_lt_trans; [exact Y2|]. vm_compute. reflexivity. } lia. }
    destruct H as [(_ & N & H)|[(_ & N & H)|(_ & N & H)]].
    + split; [|exact (NS N)]. pose proof (sig_near_place _ _ _ (-90) 90 A B H ltac:(lia)). lia.
    + split; [|exact (NS N)]. pose proof (sig_near_place _ _ _ (-90) 90 A B H ltac:(lia)). lia.
    + split.
      * pose proof (sig_near_place _ _ _ (f + 1) (f + 1) (Qle_refl _) (Qle_refl _) H ltac:(lia)). lia.
      * destruct (near_power _ S (f + 1) (f + 1) (Qle_refl _) (Qle_refl _) N) as (X & Y). assert (P1 := p10_pos (f + 1 - 1)). rewrite Qabs_pos by lra.
        eapply Qle_trans; [exact Y|]. apply p10_le. lia.
Qed.
Lemma exponent_bounds : forall ty M k e, common_exponent_near ty M k e -> (fixed_type ty \/ (exp_type ty /\ ~ fixed_type ty) \/ (gen_type ty /\ ~ fixed_type ty)) ->
  medium M -> -195 <= k <= 93 -> forall X, e = Some X -> -95 <= X <= 94.
Proof.
  intros ty M k e (M' & N & H1 & H2) Ty (A & B) Hk X0 EX.
  destruct Ty as [T|T]; [rewrite (H1 T) in EX; discriminate|].
  assert (NF : ~ fixed_type ty) by tauto. destruct (H2 NF) as (R & X & HR & X1 & X2 & E1 & E2).
  assert (X0 = X). { destruct T as [(T & _)|(T & _)]; [rewrite (E1 T) in EX; congruence|]. rewrite (E2 T) in EX. destruct (_ && _); congruence. }
  subst X0. destruct (near_power M M' (-90) 90 A B N) as (Y1 & Y2). apply half_even_bounds in HR.
  assert (Pk := p10_pos k). assert (O := p10_opp k). assert (PX := p10_pos X).
  assert (EM : (M' == M' * p10 (- k) * p10 k)%Q) by (rewrite <- Qmult_assoc, (Qmult_comm (p10 (- k))), O; ring).
  set (y := (M' * p10 (- k))%Q) in *. 
  assert (R1 : 1 <= R). { destruct (Z_lt_le_dec 0 R) as [G|G]; [lia|]. exfalso. assert (inject_Z R <= 0)%Q by (change 0%Q with (inject_Z 0); apply inject_le'; lia). nra. }
  assert (Q1 : (1 <= inject_Z R)%Q) by (change 1%Q with (inject_Z 1); apply inject_le'; lia).
  assert (Kk : (p10 k <= p10 93)%Q) by (apply p10_le; lia).
  assert (U1 : (inject_Z R * p10 k <= (y + (1 # 2)) * p10 k)%Q) by (apply Qmult_le_compat_r; lra).
  assert (U2 : (y * p10 k <= 2 * inject_Z R * p10 k)%Q) by (apply Qmult_le_compat_r; lra).
  split.
  - assert (G : -95 < X + 1); [|lia]. apply p10_lt_inv. assert (p10 (-95) * 2 < p10 (-90 - 1))%Q by (vm_compute; reflexivity). lra.
  - assert (G : X < 95); [|lia]. apply p10_lt_inv. assert (p10 (90 + 1) + p10 93 < p10 95)%Q by (vm_compute; reflexivity). lra.
Qed.
(** A number of units of 10^j that comes from a number of moderate size. *)
Lemma digits_size : forall V j n, half_even (Qabs V * p10 (- j)) n -> (Qabs V <= p10 93)%Q -> -195 <= j <= 93 -> n = 0 \/ (1 <= n /\ (inject_Z n * p10 j <= p10 94)%Q).
Proof.
  intros V j n H B Hj. apply half_even_bounds in H. assert (A := Qabs_nonneg V). assert (Pj := p10_pos j). assert (Pm := p10_pos (- j)).
  assert (N0 : 0 <= n). { assert (T : (inject_Z (-1) < inject_Z n)%Q) by (change (inject_Z (-1)) with (-1)%Q; nra). rewrite <- Zlt_Qlt in T. lia. }
  destruct (Z.eq_dec n 0) as [Z|Z]; [left; exact Z|right]. split; [lia|].
  assert (O := p10_opp j). assert (E : (Qabs V == Qabs V * p10 (- j) * p10 j)%Q) by (rewrite <- Qmult_assoc, (Qmult_comm (p10 (- j))), O; ring).
  set (y := (Qabs V * p10 (- j))%Q) in *.
  assert (U1 : (inject_Z n * p10 j <= (y + (1 # 2)) * p10 j)%Q) by (apply Qmult_le_compat_r; lra).
  assert (Kk : (p10 j <= p10 93)%Q) by (apply p10_le; lia). assert (p10 93 + p10 93 <= p10 94)%Q by (vm_compute; discriminate). lra.
Qed.
Lemma size_fits : forall neg n j e' t, (n = 0 \/ (1 <= n /\ (inject_Z n * p10 j <= p10 94)%Q)) -> -290 <= e' + t <= j + 196 -> fits (LDec neg n e') t.
Proof.
  intros neg n j e' t [->|(N & B)] H; [left; reflexivity|right].
  assert (Q1 : (1 <= inject_Z n)%Q) by (change 1%Q with (inject_Z 1); apply inject_le'; lia). assert (P := p10_pos (e' + t)). split.
  - assert (X : (p10 (-290) <= p10 (e' + t))%Q) by (apply p10_le; lia). nra.
  - assert (X : (p10 (e' + t) <= p10 (j + 196))%Q) by (apply p10_le; lia). rewrite (p10_add j 196) in X.
    assert (Y : (p10 (e' + t) * inject_Z n <= p10 j * p10 196 * inject_Z n)%Q) by (apply Qmult_le_compat_r; lra).
    assert (Z : (inject_Z n * p10 j * p10 196 <= p10 94 * p10 196)%Q) by (apply Qmult_le_compat_r; [exact B|vm_compute; discriminate]).
    assert (W : (p10 94 * p10 196 == p10 290)%Q) by (rewrite <- p10_add; reflexivity). lra.
Qed.
Lemma shape_moderate : forall mean neg n m d e j, shape mean neg n m d e -> j = oz e - Z.of_nat d ->
  (n = 0 \/ (1 <= n /\ (inject_Z n * p10 j <= p10 94)%Q)) -> (m = 0 \/ (1 <= m /\ (inject_Z m * p10 j <= p10 94)%Q)) ->
  -95 <= oz e <= 94 -> -195 <= j -> ((exists a x b y z, mean = MPair a x b y z) \/ (d <= 14)%nat) -> moderate mean.
Proof.
  intros mean neg n m d e j Sh Ej Hn Hm He Hj Hd. assert (D : Z.of_nat d <= 290) by lia.
  destruct mean as [a x b y z|a k w z]; cbn [shape moderate] in *.
  - assert (X : exists e1 e2, a = LDec neg n e1 /\ b = LDec false m e2 /\ small x /\ small y /\ small z /\
       (-290 <= e1 <= j + 196) /\ (-290 <= e1 + oz x <= j + 196) /\ (-290 <= e1 + (oz x + oz z) <= j + 196) /\
       (-290 <= e2 <= j + 196) /\ (-290 <= e2 + oz y <= j + 196) /\ (-290 <= e2 + (oz y + oz z) <= j + 196)).
    { unfold small. destruct Sh as [(-> & (e1 & -> & A) & (e2 & -> & B))|(-> & (e1 & -> & A) & (e2 & -> & B))]; exists e1, e2; (split; [reflexivity|]); (split; [reflexivity|]);
        destruct A as [(A & ->)|(A & ->)]; destruct B as [(B & ->)|(B & ->)]; cbn [oz]; lia. }
    destruct X as (e1 & e2 & -> & -> & Sx & Sy & Sz & R1 & R2 & R3 & R4 & R5 & R6).
    split; [exact Sx|]. split; [exact Sy|]. split; [exact Sz|].
    split; [apply (size_fits _ _ j _ _ Hn); lia|]. split; [apply (size_fits _ _ j _ _ Hn); lia|]. split; [apply (size_fits _ _ j _ _ Hn); lia|].
    split; [apply (size_fits _ _ j _ _ Hm); lia|]. split; [apply (size_fits _ _ j _ _ Hm); lia|]. apply (size_fits _ _ j _ _ Hm); lia.
  - destruct Hd as [(? & ? & ? & ? & ? & X)|Hd]; [discriminate X|]. destruct Sh as (-> & -> & -> & Hw).
    split; [unfold small; lia|]. split; [apply (size_fits _ _ j _ _ Hn); lia|]. split; [apply (size_fits _ _ j _ _ Hn); lia|].
    destruct Hw as [->|(k & -> & Hk)].
    + split; [exact D|]. split; [apply (size_fits _ _ j _ _ Hm); lia|]. split; apply (size_fits _ _ j _ _ Hm); lia.
    + destruct Hk as [->| ->]; [|split; left; reflexivity]. split; apply (size_fits _ _ j _ _ Hm); lia.
Qed.
(** What is read. *)
Lemma shape_denoted : forall mean neg n m d e v u, shape mean neg n m d e -> denoted_near mean v u ->
  reads_as (1 # 100000000000000) v (LDec neg n 0) (oz e - Z.of_nat d) /\ reads_as (1 # 100000000000000) u (LDec false m 0) (oz e - Z.of_nat d).
Proof.
  assert (T : forall c x neg n e1 t j, e1 + t = j -> reads_as c x (LDec neg n e1) t -> reads_as c x (LDec neg n 0) j).
  { intros c x neg n e1 t j E H. unfold reads_as, lex_q in *. rewrite Z.add_0_l, <- E. exact H. }
  assert (Z0 : forall c x e1 t j, reads_as c x (LDec false 0 e1) t -> reads_as c x (LDec false 0 0) j).
  { intros c x e1 t j H. unfold reads_as, lex_q, qsigned in *. destruct H as (F & H). split; [exact F|].
    assert (E : forall z, (inject_Z 0 * p10 z == 0)%Q) by (intros; unfold inject_Z; ring). rewrite E in H |- *. exact H. }
  intros [a x b y z|a k w z] neg n m d e v u Sh D; cbn [shape denoted_near] in *.
  - destruct D as (A & B). destruct Sh as [(-> & HA & HB)|(-> & HA & HB)]; destruct (scaled_sum _ _ _ _ _ _ HA) as (e1 & -> & E1); destruct (scaled_sum _ _ _ _ _ _ HB) as (e2 & -> & E2); cbn [oz] in *.
    + split; [apply (T _ _ _ _ _ _ _) with (2 := A); lia|apply (T _ _ _ _ _ _ _) with (2 := B); lia].
    + split; [apply (T _ _ _ _ _ _ _) with (2 := A); lia|apply (T _ _ _ _ _ _ _) with (2 := B); lia].
  - destruct D as (A & B). destruct Sh as (-> & -> & -> & Hw). split; [apply (T _ _ _ _ _ _ _) with (2 := A); lia|].
    destruct Hw as [->|(k & -> & Hk)].
    + apply (T _ _ _ _ _ _ _) with (2 := B); lia.
    + destruct Hk as [->| ->]; [apply (T _ _ _ _ _ _ _) with (2 := B); lia|apply (Z0 _ _ _ _ _ B)].
Qed.

Theorem bin_round_trip : forall (nom s : f64) (spec : str) (p : parts) tag,
  is_finite nom = true -> ((fval nom == 0)%Q \/ medium (Qabs (fval nom))) ->
  is_finite s = true -> medium (fval s) -> parse_spec U spec = Ok p ->
  (p_align p = lit "=" -> p_width p = []) ->
  (p_uncert p <> [] -> forall d, p_prec p = Some d -> uval U d <> 0) ->
  (forall d, p_prec p = Some d -> uval U d <= 100) ->
  p_type p <> lit "%" -> p_comma p = [] -> opt (p_opts p) 76 = false ->
  (p_width p = [] \/ (u_spc U (fill_of p) = true /\ fill_of p <> 10)) ->
  let V0 := (unit_of p * fval nom)%Q in
  let S0 := (unit_of p * fval s)%Q in
  exists r V S k e d n m,
    format_ufloat (K := K) U nom s spec = Ok r /\
    near V0 V /\ last_place_near U p V0 S0 S k /\
    (opt (p_opts p) 83 = false \/ (d <= 14)%nat ->
     output U p V S (Bsign nom) k e d n m r /\
     exists v u, ufloat_fromstr (K := K) U r tag = Ok (v, u, tag, 0%nat) /\
       let w := p10 (match e with Some X => X | None => 0 end - Z.of_nat d) in
       (is_finite v = true /\ Qabs (fval v - qsigned (Bsign nom) (inject_Z n * w)) <= (1 # 100000000000000) * (inject_Z n * w))%Q /\
       (is_finite u = true /\ Qabs (fval u - inject_Z m * w) <= (1 # 100000000000000) * (inject_Z m * w))%Q /\
       (Qabs (fval v - fval nom) <= (1 # 2) * w + (2 # 100000000000) * (Qabs (fval nom) + w))%Q).
Proof.
  intros nom s spec p tag Fn Rn Fs Ms Hp Hal Hu Hmax Nty Nco HL Hf V0 S0.
  destruct (bin_display lm LL U L nom s spec p Fn Rn Fs Ms Hp Hal Hu Hmax) as (r & V & S & k & e & d & n & m & Er & NV & Lp & Ce & O).
  fold V0 in NV, Lp, Ce. fold S0 in Lp, Ce.
  assert (Eu : unit_of p = 1%Q).
  { unfold unit_of. destruct (str_eqb _ _) eqn:E; [|reflexivity]. apply str_eqb_eq in E. congruence. }
  assert (EV : (V0 == fval nom)%Q) by (unfold V0; rewrite Eu; ring). assert (ES : (S0 == fval s)%Q) by (unfold S0; rewrite Eu; ring).
  assert (MS0 : medium S0) by (unfold medium in *; rewrite ES; exact Ms).
  assert (BV : (Qabs V0 <= p10 90)%Q). { rewrite EV. destruct Rn as [Z|(_ & B)]; [rewrite Z; vm_compute; discriminate|exact B]. }
  assert (Asg : at_most_one "-+ " (p_sign p)).
  { destruct (spec_parts U L _ _ Hp) as ([As|(t & _ & As)] & _); apply (as_sign _ _ _ As). }
  assert (Hty := type_cases p (parsed_type U L _ _ Hp)).
  assert (P90 := p10_pos (-90)).
  destruct (place_bounds p V0 S0 S k) as (Hk & BS); try assumption.
  { intros d0 Hd0. split; [exact (prec_nonneg _ _ Hp _ Hd0)|exact (Hmax _ Hd0)]. } { tauto. }
  assert (MM : medium (Qmax (Qabs V0) S0)).
  { destruct MS0 as (A & B). split; [eapply Qle_trans; [exact A|apply Q.le_max_r]|apply Q.max_lub; assumption]. }
  assert (HX := exponent_bounds _ _ _ _ Ce ltac:(tauto) MM Hk).
  assert (He : -95 <= oz e <= 94) by (destruct e as [X|]; [apply (HX X eq_refl)|cbn [oz]; lia]).
  assert (BVn : (Qabs (V - V0) <= (1 # 100000000000) * Qabs V0)%Q) by exact NV.
  assert (BV1 : (Qabs V <= Qabs V0 + (1 # 100000000000) * Qabs V0)%Q).
  { assert (T := Qabs_triangle_reverse V V0). lra. }
  assert (BV2 : (Qabs V <= p10 93)%Q). { assert (p10 90 + p10 90 <= p10 93)%Q by (vm_compute; discriminate). assert (A := Qabs_nonneg V0). lra. }
  exists r, V, S, k, e, d, n, m. split; [exact Er|]. split; [exact NV|]. split; [exact Lp|]. intro G. specialize (O G). split; [exact O|].
  set (j := oz e - Z.of_nat d). assert (Hj : -195 <= j <= 93).
  { pose proof (out_decimals _ _ _ _ _ _ _ _ _ _ _ O) as Dd. unfold j. destruct e as [X|]; cbn [oz] in *; [specialize (HX X eq_refl)|]; lia. }
  assert (H1 : half_even (Qabs V * p10 (- j)) n). { pose proof (out_nominal _ _ _ _ _ _ _ _ _ _ _ O) as X. change (match e with Some X => X | None => 0 end) with (oz e) in X. replace (- j) with (Z.of_nat d - oz e) by (unfold j; lia). exact X. }
  assert (PS : (0 <= S)%Q).
  { clear - Lp MS0 P90. destruct MS0 as (A & B). assert (Q0 : (0 <= S0)%Q) by lra. unfold last_place_near in Lp. destruct (p_prec p).
    - destruct Lp as (N & _). destruct (near_bounds _ _ Q0 N). lra.
    - destruct Lp as (S1 & f & D & _ & _ & _ & _ & _ & [(_ & N & _)|[(_ & N & _)|(_ & N & _)]]); [destruct (near_bounds _ _ Q0 N); lra|destruct (near_bounds _ _ Q0 N); lra|].
      assert (Pf := p10_pos (f + 1)). destruct (near_bounds _ S (Qlt_le_weak _ _ Pf) N). lra. }
  assert (H2 : half_even (Qabs S * p10 (- j)) m).
  { pose proof (out_uncert _ _ _ _ _ _ _ _ _ _ _ O) as X. change (match e with Some X => X | None => 0 end) with (oz e) in X. replace (Z.of_nat d - oz e) with (- j) in X by (unfold j; lia).
    eapply half_even_comp; [|exact X]. rewrite (Qabs_pos S PS). reflexivity. }
  assert (Sn := digits_size V j n H1 BV2 Hj). assert (Sm := digits_size S j m H2 BS Hj).
  destruct (output_notation U L _ _ _ _ _ _ _ _ _ _ O Asg Nty Nco HL Hf) as (mean & t & sp & sp' & Et & F & F' & Hnot & Sh & Mp).
  assert (Mo : moderate mean).
  { apply (shape_moderate mean _ _ _ _ _ j Sh eq_refl Sn Sm He (proj1 Hj)). destruct G as [G|G]; [left; exact (Mp G)|right; exact G]. }
  destruct (bin_notation U L lm LL t mean sp sp' tag Hnot (spaces_of_blanks _ _ F) (spaces_of_blanks _ _ F') Mo) as (v & u & D & Hpar).
  destruct (shape_denoted _ _ _ _ _ _ v u Sh D) as ((Fv & Rv) & (Fu & Ru)). fold j in Rv, Ru. unfold lex_q in Rv, Ru. rewrite Z.add_0_l in Rv, Ru.
  assert (Pj := p10_pos j).
  assert (Gn : (0 <= inject_Z n * p10 j)%Q). { assert (0 <= n) by lia. assert (0 <= inject_Z n)%Q by (change 0%Q with (inject_Z 0); apply inject_le'; lia). nra. }
  assert (Gm : (0 <= inject_Z m * p10 j)%Q). { assert (0 <= m) by lia. assert (0 <= inject_Z m)%Q by (change 0%Q with (inject_Z 0); apply inject_le'; lia). nra. }
  rewrite qsigned_abs in Rv. rewrite (Qabs_pos (inject_Z n * p10 j) Gn) in Rv. cbn [qsigned] in Ru. rewrite (Qabs_pos (inject_Z m * p10 j) Gm) in Ru.
  exists v, u. split.
  - destruct Hpar as [(_ & H)|((R & N) & _)]; [rewrite Et; exact H|exfalso]. apply Qabs_Qle_condition in Ru. lra.
  - cbv zeta. change (match e with Some X => X | None => 0 end) with (oz e). fold j. split; [split; [exact Fv|exact Rv]|]. split; [split; [exact Fu|exact Ru]|].
    assert (Sg : (if Bsign nom then V <= 0 else 0 <= V)%Q).
    { assert (Sn0 := bq_sign nom Fn). change (bq nom) with (fval nom) in Sn0. apply Qabs_Qle_condition in BVn. rewrite EV in BVn. destruct (Bsign nom).
      - rewrite (Qabs_neg (fval nom) Sn0) in BVn. lra.
      - rewrite (Qabs_pos (fval nom) Sn0) in BVn. lra. }
    assert (Hn := half_even_near V j n H1 (Bsign nom) Sg).
    assert (T : (Qabs (fval v - fval nom) <= Qabs (fval v - qsigned (Bsign nom) (inject_Z n * p10 j)) + Qabs (V - qsigned (Bsign nom) (inject_Z n * p10 j)) + Qabs (V - V0))%Q).
    { set (q := qsigned _ _). clearbody q. rewrite EV. setoid_replace (fval v - fval nom)%Q with ((fval v - q) + (- (V - q) + (V - fval nom)))%Q by ring.
      eapply Qle_trans; [apply Qabs_triangle|]. assert (T := Qabs_triangle (- (V - q)) (V - fval nom)). rewrite Qabs_opp in T. lra. }
    assert (Bn : (inject_Z n * p10 j <= Qabs V + (1 # 2) * p10 j)%Q).
    { assert (T2 := Qabs_triangle_reverse (qsigned (Bsign nom) (inject_Z n * p10 j)) V). rewrite qsigned_abs, (Qabs_pos _ Gn) in T2. rewrite Qabs_Qminus in T2. lra. }
    assert (A := Qabs_nonneg V0). rewrite EV in BVn, BV1, A. rewrite EV in T. 
    set (a := Qabs (fval nom)) in *. set (b := Qabs V) in *. set (w := p10 j) in *. set (nw := (inject_Z n * w)%Q) in *. clearbody a b nw. lra.
Qed.
End Trip.

(** Examples: the displays of -3.14159 +/- 0.012 and 3.14159e25 +/- 1.2e23 are read again. *)
Definition trips (nom s : f64) (spec : String.string) (v u : f64) : bool :=
  match shown_x nom s spec with Ok r => read_x r v u | Err _ => false end.
Lemma ex_bin_trip :
  (LibmLaws lmx /\ is_finite (fl_of (-314159) (-5)) = true /\ medium (Qabs (fval (fl_of (-314159) (-5)))) /\
   is_finite (fl_of 12 (-3)) = true /\ medium (fval (fl_of 12 (-3)))) /\
  (exists p, parse_spec uni (lit "20.1u") = Ok p /\ fill_of p = 32 /\ p_width p <> [] /\ p_comma p = [] /\ opt (p_opts p) 76 = false /\ p_type p <> lit "%") /\
  trips (fl_of (-314159) (-5)) (fl_of 12 (-3)) "" (fl_of (-3142) (-3)) (fl_of 12 (-3)) = true /\
  trips (fl_of (-314159) (-5)) (fl_of 12 (-3)) "20.1u" (fl_of (-314) (-2)) (fl_of 1 (-2)) = true /\
  trips (fl_of (-314159) (-5)) (fl_of 12 (-3)) ".1uS" (fl_of (-314) (-2)) (fl_of 1 (-2)) = true /\
  trips (fl_of 314159 20) (fl_of 12 22) "P" (fmul (fl_of 3142 (-3)) (pw10 lmx 25)) (fmul (fl_of 12 (-3)) (pw10 lmx 25)) = true.
Proof.
  split; [split; [exact lmx_laws|]; repeat split; vm_compute; reflexivity || discriminate|].
  split; [eexists; split; [vm_compute; reflexivity|]; repeat split; discriminate|].
  repeat split; vm_compute; reflexivity.
Qed.
