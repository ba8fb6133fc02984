(** Comparisons, truth values, scores and variances in binary64 (C11, C12, C53, C18). *)
From Coq Require Import ZArith List Bool Lia Reals Lra Permutation.
From Flocq Require Import Core BinarySingleNaN.
From Verif Require Import Base Heap HeapSpec HeapProofs NumR NumF Affine Ops UMath Machine Cov Calls Unumpy UMatrix History Ordered Fuel FFacts FRefute FmtF
  BinProofs BinQ BinStd NumFacts GradSpec BinGrad BinGradThm GradStd BinCov BinEq ExGrad ExBinCov.
Import ListNotations.
Local Open Scope R_scope.

(** ** > >= < <= in any arithmetic *)
Section Any.
Context {N : NumOps}.
Lemma reads_all : forall (st st' : state N) ins (o : out N), (forall f, step f st ins = (st', o)) -> forall o', reads st ins o' <-> o' = o.
Proof.
  intros st st' ins o H o'. split.
  - intros (st1 & k & E). specialize (E k (Nat.le_refl _)). rewrite H in E. congruence.
  - intros ->. exists st', 0%nat. intros f _. apply H.
Qed.
Lemma reads_ext : forall (st : state N) i1 i2, (forall f, step f st i1 = step f st i2) -> forall o, reads st i1 o <-> reads st i2 o.
Proof. intros st i1 i2 H o. split; intros (st' & k & E); exists st', k; intros f Hf; [rewrite <- H|rewrite H]; auto. Qed.
Theorem order_any : forall (st : state N) i j u w, is_number st i u -> is_number st j w ->
  (forall o, reads st (ICmp Cgt i j) o <-> o = OBool (n_lt N (uf_nom w) (uf_nom u))) /\
  (forall o, reads st (ICmp Clt i j) o <-> o = OBool (n_lt N (uf_nom u) (uf_nom w))) /\
  (forall o, reads st (ICmp Cge i j) o <-> if n_lt N (uf_nom w) (uf_nom u) then o = OBool true else reads st (ICmp Ceq i j) o) /\
  (forall o, reads st (ICmp Cle i j) o <-> if n_lt N (uf_nom u) (uf_nom w) then o = OBool true else reads st (ICmp Ceq i j) o).
Proof.
  intros st i j u w Hu Hw. unfold is_number in Hu, Hw.
  assert (T : forall c, forall f, step f st (ICmp c i j) = observe st OBool (py_cmp f c u (VUF w) (st_heap st))).
  { intros c f. cbn [step]. unfold with_uf, with_val. now rewrite Hu, Hw. }
  split; [|split; [|split]].
  - apply (reads_all st (mkState (st_heap st) (st_env st))). intros f. rewrite T. reflexivity.
  - apply (reads_all st (mkState (st_heap st) (st_env st))). intros f. rewrite T. reflexivity.
  - destruct (n_lt N (uf_nom w) (uf_nom u)) eqn:L.
    + apply (reads_all st (mkState (st_heap st) (st_env st))). intros f. rewrite T. unfold py_cmp, bind, method_cmp. cbn [to_affine_scalar ret cmp_aff].
      unfold ge_aff, gt_aff. rewrite L. reflexivity.
    + apply reads_ext. intros f. rewrite !T. unfold py_cmp, bind, method_cmp. cbn [to_affine_scalar ret cmp_aff]. unfold ge_aff, gt_aff. rewrite L.
      destruct (eq_aff f u w (st_heap st)) as [[b|e] h]; reflexivity.
  - destruct (n_lt N (uf_nom u) (uf_nom w)) eqn:L.
    + apply (reads_all st (mkState (st_heap st) (st_env st))). intros f. rewrite T. unfold py_cmp, bind, method_cmp. cbn [to_affine_scalar ret cmp_aff].
      unfold le_aff, lt_aff. rewrite L. reflexivity.
    + apply reads_ext. intros f. rewrite !T. unfold py_cmp, bind, method_cmp. cbn [to_affine_scalar ret cmp_aff]. unfold le_aff, lt_aff. rewrite L.
      destruct (eq_aff f u w (st_heap st)) as [[b|e] h]; reflexivity.
Qed.
End Any.

(** ** The order of floats, infinities and NaN included *)
Definition rank (x : f64) : Z := match x with B754_infinity true => -1 | B754_infinity false => 1 | _ => 0 end%Z.
Definition isnan (x : f64) : Prop := is_nan x = true.
(** Infinities are beyond all numbers; NaN is not comparable. *)
Definition below (x y : f64) : Prop := ~ isnan x /\ ~ isnan y /\ ((rank x < rank y)%Z \/ (rank x = 0 /\ rank y = 0)%Z /\ B2R x < B2R y).
Lemma below_spec : forall x y : f64, Bltb x y = true <-> below x y.
Proof.
  intros x y. unfold below, isnan.
  destruct (is_finite x) eqn:Fx, (is_finite y) eqn:Fy.
  - rewrite Bltb_correct by assumption.
    assert (Rx : rank x = 0%Z) by (destruct x as [| [] | | ]; try discriminate Fx; reflexivity).
    assert (Ry : rank y = 0%Z) by (destruct y as [| [] | | ]; try discriminate Fy; reflexivity).
    assert (Nx : is_nan x = false) by (destruct x; try discriminate Fx; reflexivity).
    assert (Ny : is_nan y = false) by (destruct y; try discriminate Fy; reflexivity).
    rewrite Rx, Ry, Nx, Ny. destruct (Rlt_bool_spec (B2R x) (B2R y)) as [L|L].
    + split; [intros _|reflexivity]. split; [discriminate|]. split; [discriminate|]. right. auto.
    + split; [discriminate|]. intros (_ & _ & [H|(_ & H)]); [lia|lra].
  - destruct x as [s|s| |s m e B]; try discriminate Fx; destruct y as [s'|s'| |s' m' e' B']; try discriminate Fy; try destruct s; try destruct s'; cbn; (split; [intros E; try discriminate E|intros E; try reflexivity]);
      try (split; [discriminate|]; split; [discriminate|]; left; lia); exfalso; destruct E as (E1 & E2 & E3); try (now apply E2); destruct E3 as [E3|((E3 & E4) & _)]; lia.
  - destruct x as [s|s| |s m e B]; try discriminate Fx; destruct y as [s'|s'| |s' m' e' B']; try discriminate Fy; try destruct s; try destruct s'; cbn; (split; [intros E; try discriminate E|intros E; try reflexivity]);
      try (split; [discriminate|]; split; [discriminate|]; left; lia); exfalso; destruct E as (E1 & E2 & E3); try (now apply E1); destruct E3 as [E3|((E3 & E4) & _)]; lia.
  - destruct x as [s|s| |s m e B]; try discriminate Fx; destruct y as [s'|s'| |s' m' e' B']; try discriminate Fy; try destruct s; try destruct s'; cbn; (split; [intros E; try discriminate E|intros E; try reflexivity]);
      try (split; [discriminate|]; split; [discriminate|]; left; lia); exfalso; destruct E as (E1 & E2 & E3); try (now apply E1); try (now apply E2); destruct E3 as [E3|((E3 & E4) & _)]; lia.
Qed.
Lemma below_irrefl : forall x, ~ below x x.
Proof. intros x (_ & _ & [H|(_ & H)]); [lia|lra]. Qed.
Lemma below_trans : forall x y z, below x y -> below y z -> below x z.
Proof.
  intros x y z (N1 & N2 & H1) (N3 & N4 & H2). split; [exact N1|]. split; [exact N4|].
  destruct H1 as [H1|((R1 & R2) & H1)], H2 as [H2|((R3 & R4) & H2)]; [left; lia|left; lia|left; lia|right]. split; [lia|lra].
Qed.

Theorem order_binary64 : forall (lm : Libm) (st : state (FOps lm)) i j k u w x, is_number st i u -> is_number st j w -> is_number st k x ->
  (reads st (ICmp Cgt i j) (OBool true) <-> below (uf_nom w) (uf_nom u)) /\
  (forall o, reads st (ICmp Cgt i j) o <-> reads st (ICmp Clt j i) o) /\
  (forall o, reads st (ICmp Cge i j) o <-> reads st (ICmp Cgt i j) (OBool true) /\ o = OBool true \/ reads st (ICmp Cgt i j) (OBool false) /\ reads st (ICmp Ceq i j) o) /\
  (forall o, reads st (ICmp Cle i j) o <-> reads st (ICmp Clt i j) (OBool true) /\ o = OBool true \/ reads st (ICmp Clt i j) (OBool false) /\ reads st (ICmp Ceq i j) o) /\
  reads st (ICmp Cgt i i) (OBool false) /\
  (reads st (ICmp Cgt i j) (OBool true) -> reads st (ICmp Cgt j k) (OBool true) -> reads st (ICmp Cgt i k) (OBool true)).
Proof.
  intros lm st i j k u w x Hu Hw Hx.
  destruct (order_any st i j u w Hu Hw) as (A1 & A2 & A3 & A4). destruct (order_any st j i w u Hw Hu) as (B1 & B2 & B3 & B4).
  destruct (order_any st j k w x Hw Hx) as (C1 & _). destruct (order_any st i k u x Hu Hx) as (D1 & _). destruct (order_any st i i u u Hu Hu) as (E1 & _).
  change (n_lt (FOps lm)) with (fun x y : f64 => Bltb x y) in *. cbv beta in *.
  assert (OB : forall a b : bool, @OBool (FOps lm) a = OBool b <-> a = b) by (intros a b; split; [intros E; injection E; auto|intros ->; reflexivity]).
  assert (S : forall b c : bool, true = b <-> b = true) by (intros; split; auto).
  split; [|split; [|split; [|split; [|split]]]].
  - rewrite A1, OB, S by exact true. apply below_spec.
  - intros o. rewrite A1, B2. reflexivity.
  - intros o. rewrite A3. rewrite (A1 (OBool true)), (A1 (OBool false)), !OB. destruct (Bltb (uf_nom w : f64) (uf_nom u)).
    + split; [left; auto|intros [(_ & H)|(H & _)]; [exact H|discriminate H]].
    + split; [right; auto|intros [(H & _)|(_ & H)]; [discriminate H|exact H]].
  - intros o. rewrite A4. rewrite (A2 (OBool true)), (A2 (OBool false)), !OB. destruct (Bltb (uf_nom u : f64) (uf_nom w)).
    + split; [left; auto|intros [(_ & H)|(H & _)]; [exact H|discriminate H]].
    + split; [right; auto|intros [(H & _)|(_ & H)]; [discriminate H|exact H]].
  - apply E1. f_equal. destruct (Bltb (uf_nom u : f64) (uf_nom u)) eqn:B; [|reflexivity]. apply below_spec in B. exfalso. exact (below_irrefl _ B).
  - rewrite A1, C1, D1, !OB, !S by exact true. rewrite !below_spec. intros P Q. exact (below_trans _ _ _ Q P).
Qed.

(** ** std_score() *)
Lemma fdiv_ok : forall x y : f64, is_finite x = true -> is_finite y = true -> B2R y <> 0 -> let v := B2R x / B2R y in
  v = 0 \/ lo <= Rabs v <= hi -> f_div x y = Ok (fdiv x y) /\ is_finite (fdiv x y) = true /\ Rabs (B2R (fdiv x y) - v) <= u53 * Rabs v.
Proof.
  intros x y F G NZ v H. destruct (rnd_ok v H) as (A & B).
  pose proof (Bdiv_correct 53 1024 prec_gt_0_64 prec_lt_emax_64 mode_NE x y NZ) as C. fold (fdiv x y) in C. fold v in C.
  change (round_mode mode_NE) with ZnearestE in C. rewrite Rlt_bool_true in C by exact A. destruct C as (C1 & C2 & _). rewrite F in C2.
  split; [|split; [exact C2|rewrite C1; exact B]].
  unfold f_div. rewrite (Beqb_correct _ _ y f0 G eq_refl). change (B2R f0) with 0. rewrite Req_bool_false by exact NZ. reflexivity.
Qed.
Theorem score_binary64 : forall (lm : Libm) (st : state (FOps lm)) i u (s x : f64), is_number st i u -> reads st (IStd i) (ONum (N:=FOps lm) s) ->
  is_finite s = true -> is_finite (uf_nom u : f64) = true -> is_finite x = true ->
  (B2R s = 0 -> reads st (IScore i (PF (N:=FOps lm) x)) (OExn EValue)) /\
  (let d := B2R x - B2R (uf_nom u : f64) in Rabs d <= r10 300 -> B2R s <> 0 -> d = 0 \/ r10 (-299) <= Rabs (d / B2R s) <= r10 299 ->
    exists r : f64, reads st (IScore i (PF (N:=FOps lm) x)) (ONum (N:=FOps lm) r) /\ is_finite r = true /\
      Rabs (B2R r - d / B2R s) <= 3 / 2 ^ 53 * Rabs (d / B2R s)).
Proof.
  intros lm st i u s x Hu (st' & k & R) Fs Fu Fx. unfold is_number in Hu.
  assert (SD : forall f, (k <= f)%nat -> exists h, std_dev f u (st_heap st) = (Ok s, h) /\ st' = mkState h (st_env st)).
  { intros f Hf. specialize (R f Hf). cbn [step] in R. unfold with_uf, with_val in R. rewrite Hu in R.
    destruct (std_dev f u (st_heap st)) as [[a|e] h]; cbn [observe] in R; [|discriminate R]. injection R as <- E. exists h. split; [|reflexivity]. f_equal. f_equal. exact E. }
  assert (ST : forall f, (k <= f)%nat -> step f st (IScore i (PF (N:=FOps lm) x)) =
     (st', match (match f_div (fsub x (uf_nom u)) s with Err EZeroDiv => Err EValue | r => r end) with Ok r => ONum (N:=FOps lm) r | Err e => OExn e end)).
  { intros f Hf. destruct (SD f Hf) as (h & E & ->). cbn [step]. unfold with_uf, with_val. rewrite Hu. unfold std_score, bind. rewrite E.
    cbn [pn_sub pn_float rbind pn_div]. change (n_div (FOps lm)) with f_div. change (n_sub (FOps lm)) with fsub.
    destruct (f_div (fsub x (uf_nom u)) s) as [r|e]; [reflexivity|]. destruct e; reflexivity. }
  split.
  - intros Z. exists st', k. intros f Hf. rewrite (ST f Hf). unfold f_div. rewrite (Beqb_correct _ _ s f0 Fs eq_refl), Z. change (B2R f0) with 0.
    rewrite Req_bool_true by reflexivity. reflexivity.
  - intros d Hd NZ Hv. assert (U := u53_val). assert (U2 := u53_pow).
    assert (Rl : Rabs (rnd64 d - d) <= u53 * Rabs d).
    { assert (X := plus_rel x (Bopp (uf_nom u))). rewrite B2R_Bopp in X. exact X. }
    assert (Big : 2 * r10 300 < bpow radix2 1024).
    { replace (bpow radix2 1024) with (IZR (2 ^ 1024)) by reflexivity. rewrite r10_Z by lia. rewrite <- mult_IZR. apply IZR_lt. vm_compute. reflexivity. }
    assert (Ad : Rabs (rnd64 d) < bpow radix2 1024).
    { apply Rle_lt_trans with (2 * Rabs d); [|lra]. replace (rnd64 d) with (d + (rnd64 d - d)) by ring. apply Rle_trans with (1 := Rabs_triang _ _). assert (P := Rabs_pos d). nra. }
    pose proof (Bminus_correct 53 1024 prec_gt_0_64 prec_lt_emax_64 mode_NE x (uf_nom u) Fx Fu) as C. fold (fsub x (uf_nom u)) in C. fold d in C.
    change (round_mode mode_NE) with ZnearestE in C. rewrite Rlt_bool_true in C by exact Ad. destruct C as (C1 & C2 & _).
    set (D := fsub x (uf_nom u)) in *. set (v := d / B2R s) in *.
    assert (Dv : B2R D / B2R s = v + (B2R D - d) / B2R s) by (unfold v; field; exact NZ).
    assert (De : Rabs ((B2R D - d) / B2R s) <= u53 * Rabs v).
    { unfold v, Rdiv. rewrite !Rabs_mult. rewrite <- Rmult_assoc. apply Rmult_le_compat_r; [apply Rabs_pos|]. rewrite C1. exact Rl. }
    set (w := B2R D / B2R s) in *.
    assert (W1 : Rabs (w - v) <= u53 * Rabs v) by (rewrite Dv; replace (v + (B2R D - d) / B2R s - v) with ((B2R D - d) / B2R s) by ring; exact De).
    assert (W2 : Rabs w <= (1 + u53) * Rabs v).
    { replace w with (v + (w - v)) by ring. apply Rle_trans with (1 := Rabs_triang _ _). lra. }
    assert (W3 : (1 - u53) * Rabs v <= Rabs w).
    { assert (T := Rabs_triang w (v - w)). replace (w + (v - w)) with v in T by ring. rewrite Rabs_minus_sym in W1. lra. }
    assert (T1 : r10 300 = 10 * r10 299) by (change 300%Z with (1 + 299)%Z; rewrite r10_add; rewrite (r10_Z 1) by lia; reflexivity).
    assert (T2 : r10 (-299) = 10 * r10 (-300)) by (change (-299)%Z with (1 + -300)%Z; rewrite r10_add; rewrite (r10_Z 1) by lia; reflexivity).
    assert (P1 := r10_pos 299). assert (P2 := r10_pos (-300)).
    assert (W : w = 0 \/ lo <= Rabs w <= hi).
    { destruct Hv as [Hv|Hv].
      - left. assert (V0 : v = 0) by (unfold v; rewrite Hv; unfold Rdiv; ring). rewrite V0, Rabs_R0, Rmult_0_r in W2. destruct (Req_dec w 0) as [E|E]; [exact E|]. apply Rabs_pos_lt in E. lra.
      - right. assert (PV := Rabs_pos v). split; nra. }
    destruct (fdiv_ok D s C2 Fs NZ W) as (E1 & E2 & E3). exists (fdiv D s). split.
    + exists st', k. intros f Hf. rewrite (ST f Hf), E1. reflexivity.
    + split; [exact E2|]. fold w in E3. replace (3 / 2 ^ 53) with (3 * u53) by (rewrite U2; field; apply pow_nonzero; lra).
      replace (B2R (fdiv D s) - v) with ((B2R (fdiv D s) - w) + (w - v)) by ring. apply Rle_trans with (1 := Rabs_triang _ _).
      assert (PV := Rabs_pos v). assert (u53 * Rabs w <= u53 * ((1 + u53) * Rabs v)) by (apply Rmult_le_compat_l; lra). nra.
Qed.

(** ** bool() *)
Theorem bool_binary64 : forall lm, squares_ok lm -> forall (st : state (FOps lm)) i u d e, reachable st -> is_number st i u ->
  known_dict lm st i d -> reads st (IErrs i) (OErrs e) -> NoDup (dkeys d) -> List.Forall (entry_ok lm st) d -> INR (length d) <= 1000000 ->
  is_finite (uf_nom u : f64) = true ->
  exists b, reads st (IBool i) (OBool b) /\ (b = false <-> B2R (uf_nom u : f64) = 0 /\ List.Forall (fun p => prod lm st p = 0) d).
Proof.
  intros lm SQ st i u d e RE Hu K Er Nd En Ln Fu.
  assert (G := known_get lm st i u d RE Hu K). assert (B := reachable_bound st i u RE Hu). assert (V := errs_keys lm st i u d e Hu G Er).
  set (h := st_heap st) in *. set (l := length (h_lc h)). set (w := mkUF (N:=FOps lm) f0 l None).
  set (h1 := mkHeap (h_lc h ++ [LDict []]) (h_var h)). set (n := length (st_env st)). set (st1 := mkState h1 (st_env st ++ [VUF w])).
  assert (Hu1 : is_number st1 i u).
  { unfold is_number, st1 in *. cbn [st_env]. rewrite nth_error_app1; [exact Hu|]. apply nth_error_Some. congruence. }
  assert (Hw1 : is_number st1 n w) by (unfold is_number, st1, n; cbn [st_env]; rewrite nth_error_app2 by lia; rewrite Nat.sub_diag; reflexivity).
  assert (SDE : forall v, sd st1 v = sd st v) by reflexivity.
  assert (FE : forall v, rnd64 (fval lm d v - fval lm [] v) = fval lm d v).
  { intros v. unfold fval at 2. cbn [dget]. rewrite Rminus_0_r. unfold fval. destruct (dget d v) as [x|]; [apply rnd_B2R|apply rnd_zero]. }
  assert (Fd : all_finite lm d).
  { intros v x Gx. apply dget_In in Gx. rewrite Forall_forall in En. destruct (En _ Gx) as (F & _). exact F. }
  assert (In' : forall v, In v (dkeys d) -> exists x, dget d v = Some x /\ entry_ok lm st (v, x)).
  { intros v I. apply dget_In_keys in I. destruct I as (x & Gx). exists x. split; [exact Gx|]. rewrite Forall_forall in En. apply En. apply dget_In. exact Gx. }
  destruct (equal_core lm SQ st1 i n u w d [] Hu1 Hw1) as (b & R & Q).
  - cbn [st_heap st1]. unfold h1. rewrite get_alloc_old by exact B. exact G.
  - cbn [st_heap st1 uf_lp w]. apply get_alloc_new.
  - cbn [st_heap st1 h1 h_lc]. rewrite app_length. lia.
  - cbn [st_heap st1 h1 h_lc uf_lp w]. rewrite app_length. unfold l. cbn. lia.
  - exact V.
  - intros v [].
  - exact Nd.
  - constructor.
  - exact Fd.
  - intros v x Gx. discriminate Gx.
  - rewrite Nat.add_0_r. exact Ln.
  - intros v [I|[]]. rewrite SDE. destruct (In' v I) as (x & _ & _ & F & _). exact F.
  - intros v. rewrite FE. unfold fval. destruct (dget d v) as [x|]; [apply abs_B2R_lt_emax|rewrite Rabs_R0; apply bpow_gt_0].
  - intros v. rewrite FE, SDE. unfold fval. destruct (dget d v) as [x|] eqn:Gx; [|left; ring].
    apply dget_In in Gx. rewrite Forall_forall in En. destruct (En _ Gx) as (_ & _ & O). exact O.
  - exact Fu.
  - reflexivity.
  - exists (negb b). split.
    + destruct R as (st2 & k & R). exists (mkState (st_heap st2) (st_env st)), k. intros f Hf. specialize (R f Hf). cbn [step] in *. unfold with_uf, with_val in *.
      unfold is_number in *. rewrite Hu1, Hw1 in R. rewrite Hu. unfold py_bool, py_cmp, bind, method_cmp in *.
      cbn [to_affine_scalar pn_float ret cmp_aff] in *. change (alloc_lc (st_heap st) (LDict [])) with (l, h1). fold w. cbn [st_heap st1] in R. unfold ne_aff, bind.
      change (n_zero (FOps lm)) with f0. fold h. cbn beta iota zeta. fold w.
      destruct (eq_aff f u w h1) as [[b'|er] hh]; cbn [observe ret] in *; [|discriminate R]. injection R as <- ->. reflexivity.
    + rewrite negb_false_iff, Q. cbn [uf_nom w]. change (B2R f0) with 0. split; intros (X & Y); (split; [exact X|]).
      * apply Forall_forall. intros (v, x) I. unfold prod. cbn [fst snd]. destruct (Y v) as [Z|Z].
        -- unfold fval in Z. cbn [dget] in Z. rewrite (In_dget d v x Nd I) in Z. rewrite Z. ring.
        -- rewrite SDE in Z. rewrite Z. ring.
      * intros v. rewrite SDE. unfold fval. cbn [dget]. destruct (dget d v) as [x|] eqn:Gx; [|left; reflexivity].
        apply dget_In in Gx. rewrite Forall_forall in Y. specialize (Y _ Gx). unfold prod in Y. cbn [fst snd] in Y. apply Rmult_integral in Y. tauto.
Qed.

(** ** Variances *)
Theorem diagonal_binary64 : forall lm, squares_ok lm -> forall order (st : state (FOps lm)) L is m st' p i a u d ec ins vs,
  (forall l, Permutation (order l) l) -> traced lm st L -> covariance order st is (Ok m) st' ->
  nth_error is p = Some i -> nth_error L i = Some (Some a) -> small_lin a -> (forall v, usual (sd st v)) ->
  is_number st i u -> reads st (IDeriv i) (ODict d) -> reads st (IErrs i) (OErrs ec) -> List.Forall (entry_ok lm st) d -> (length d <= 1000)%nat ->
  ins = IStdS i \/ (ins = IStd i /\ uf_var u = None) ->
  let sigma := fun v => B2R (sd st v : f64) in
  NoDup vs -> incl (dkeys d) vs -> (forall v, paths a v <> 0 -> sigma v <> 0 -> In v vs) -> (length vs <= 1000)%nat ->
  let x := entry (N:=FOps lm) m p p : f64 in
  exists s : f64, reads st ins (ONum (N:=FOps lm) s) /\ is_finite s = true /\ is_finite x = true /\
    Rabs (B2R x - B2R s ^ 2) <= INR (5 * roundings a + 4 * length vs + 18) / 2 ^ 52 * Rsum (map (fun v => (paths a v * sigma v) ^ 2) vs).
Proof.
  intros lm SQ order st L is m st' p i a u d ec ins vs Po T Hc Hp Hi Sa Us Hu Hd He En Ld Hins sigma Nv Iv Pv Lv x.
  assert (Lv' : (Z.of_nat (length vs) <= 1000000)%Z) by (clear - Lv; lia).
  destruct (covariance_accurate lm SQ order st L is m st' p p i i a a vs Po T Hc Hp Hp Hi Hi Sa Sa Us Nv
    (fun v A _ B => Pv v A B) Lv') as (Fx & Ax). fold x in Fx, Ax.
  destruct (std_exact lm SQ st L i a u d ec ins vs T Hi (proj1 Sa) Hu Hd He En Ld Nv Iv Hins) as (s & Rs & Fs & As).
  exists s. split; [exact Rs|]. split; [exact Fs|]. split; [exact Fx|].
  destruct (traced_tracks lm _ _ T) as (Lm & I & K). destruct (proj2 K _ _ Hi) as (u' & U1 & U2). destruct (proj2 I _ _ U2) as ((_ & Wa) & _).
  change (Rabs (B2R x - Rsum (map (fun v => grad a v * grad a v * sigma v ^ 2) vs))
    <= INR (roundings a + roundings a + 2 * length vs + 6) / 2 ^ 52 * Rsum (map (fun v => paths a v * paths a v * sigma v ^ 2) vs)) in Ax.
  change (Rabs (B2R s - sqrt (Rsum (map (fun v => (grad a v * sigma v) ^ 2) vs)))
      <= INR (length d + 8 + 2 * roundings a) / 2 ^ 53 * sqrt (Rsum (map (fun v => (paths a v * sigma v) ^ 2) vs))) in As.
  set (Q := Rsum (map (fun v => (paths a v * sigma v) ^ 2) vs)) in *. set (G := Rsum (map (fun v => (grad a v * sigma v) ^ 2) vs)) in *.
  assert (E1 : Rsum (map (fun v => grad a v * grad a v * sigma v ^ 2) vs) = G) by (unfold G; f_equal; apply map_ext; intros; ring).
  assert (E2 : Rsum (map (fun v => paths a v * paths a v * sigma v ^ 2) vs) = Q) by (unfold Q; f_equal; apply map_ext; intros; ring).
  rewrite E1, E2 in Ax.
  assert (PG : 0 <= G) by apply (Rsum_sq_pos (fun v => grad a v * sigma v)). assert (PQ : 0 <= Q) by apply (Rsum_sq_pos (fun v => paths a v * sigma v)).
  assert (GQ : G <= Q).
  { apply Rsum_le. intros v. rewrite !Rpow_mult_distr. apply Rmult_le_compat_r; [apply pow2_ge_0|]. destruct (Wa v) as (X & _).
    rewrite <- (pow2_abs (grad a v)). assert (P := Rabs_pos (grad a v)). apply pow_incr. lra. }
  assert (SG := sqrt_sqrt G PG). assert (SQ' := sqrt_sqrt Q PQ). assert (GP := sqrt_pos G). assert (QP := sqrt_pos Q). assert (GQ2 := sqrt_le_1_alt G Q GQ).
  set (g := sqrt G) in *. set (q := sqrt Q) in *. set (k := (length d + 8 + 2 * roundings a)%nat) in *.
  assert (Ld2 : (length d <= length vs)%nat).
  { replace (length d) with (length (dkeys d)) by (unfold dkeys; apply map_length). apply NoDup_incl_length; [|exact Iv].
    destruct (derivatives_accurate lm st L i a T Hi (proj1 Sa)) as (d' & Rd & Nd & _). assert (Ed : d' = d).
    { destruct Rd as (s1 & k1 & R1). destruct Hd as (s2 & k2 & R2). specialize (R1 (Nat.max k1 k2) ltac:(lia)). specialize (R2 (Nat.max k1 k2) ltac:(lia)). congruence. }
    rewrite <- Ed. exact Nd. }
  assert (Kr : INR k <= 2000001008).
  { assert (Z : (Z.of_nat (roundings a) <= 1000000000)%Z) by apply (proj1 Sa). rewrite INR_IZR_INZ. apply IZR_le. unfold k. lia. }
  set (eps := INR k / 2 ^ 53) in *. assert (P53 : 0 < 2 ^ 53) by (apply pow_lt; lra).
  assert (E0 : 0 <= eps) by (unfold eps; apply Rmult_le_pos; [apply pos_INR|left; apply Rinv_0_lt_compat; exact P53]).
  assert (Ee : eps <= 1).
  { unfold eps. apply Rmult_le_reg_r with (2 ^ 53); [exact P53|]. unfold Rdiv. rewrite Rmult_assoc, Rinv_l, Rmult_1_r, Rmult_1_l by lra.
    apply Rle_trans with (1 := Kr). assert (V : 2 ^ 53 = 9007199254740992) by ring. rewrite V. lra. }
  assert (S2 : Rabs (B2R s ^ 2 - G) <= 3 * eps * Q).
  { replace (B2R s ^ 2 - G) with ((B2R s - g) * (B2R s + g)) by (rewrite <- SG; ring). rewrite Rabs_mult.
    assert (S3 : Rabs (B2R s + g) <= 3 * q).
    { replace (B2R s + g) with ((B2R s - g) + 2 * g) by ring. apply Rle_trans with (1 := Rabs_triang _ _). rewrite (Rabs_pos_eq (2 * g)) by lra. nra. }
    apply Rle_trans with (eps * q * (3 * q)); [|rewrite <- SQ'; right; ring].
    apply Rmult_le_compat; [apply Rabs_pos|apply Rabs_pos|exact As|exact S3]. }
  assert (Tot : Rabs (B2R x - B2R s ^ 2) <= INR (roundings a + roundings a + 2 * length vs + 6) / 2 ^ 52 * Q + 3 * eps * Q).
  { replace (B2R x - B2R s ^ 2) with ((B2R x - G) - (B2R s ^ 2 - G)) by ring. unfold Rminus at 1. apply Rle_trans with (1 := Rabs_triang _ _). rewrite Rabs_Ropp. lra. }
  apply Rle_trans with (1 := Tot). rewrite <- Rmult_plus_distr_r. apply Rmult_le_compat_r; [exact PQ|].
  unfold eps. replace (INR (roundings a + roundings a + 2 * length vs + 6) / 2 ^ 52 + 3 * (INR k / 2 ^ 53)) with
    ((INR (roundings a + roundings a + 2 * length vs + 6) + 3 / 2 * INR k) / 2 ^ 52).
  2:{ replace (2 ^ 53) with (2 * 2 ^ 52) by (cbn [pow]; ring). field. }
  apply Rmult_le_compat_r; [left; apply Rinv_0_lt_compat, pow_lt; lra|].
  apply le_INR in Ld2. unfold k. rewrite !plus_INR, !mult_INR. cbn [INR]. assert (P0 := pos_INR (length vs)). lra.
Qed.
