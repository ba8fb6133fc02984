(** Standard deviations in binary64, against the exact propagation of uncertainties. *)
From Coq Require Import ZArith List Bool Lia Reals Lra.
From Flocq Require Import Core BinarySingleNaN.
From Verif Require Import Base Heap HeapSpec HeapProofs NumR NumF Affine Ops UMath Machine Cov Calls Unumpy UMatrix History Fuel FFacts FRefute FmtF
  BinProofs BinQ BinStd GradSpec Evolve BinGrad BinGradThm.
Import ListNotations.
Local Open Scope R_scope.

Definition norm (f : varid -> R) (vs : list varid) : R := sqrt (Rsum (map (fun v => f v ^ 2) vs)).
Lemma Rsum_sq_pos : forall (f : varid -> R) vs, 0 <= Rsum (map (fun v => f v ^ 2) vs).
Proof. intros f. induction vs as [|v vs IH]; cbn [map Rsum]; [lra|]. assert (X := pow2_ge_0 (f v)). lra. Qed.
Lemma cauchy : forall (f g : varid -> R) vs,
  Rsum (map (fun v => f v * g v) vs) ^ 2 <= Rsum (map (fun v => f v ^ 2) vs) * Rsum (map (fun v => g v ^ 2) vs).
Proof.
  intros f g. induction vs as [|v vs IH]; cbn [map Rsum]; [lra|].
  assert (PA := Rsum_sq_pos f vs). assert (PB := Rsum_sq_pos g vs).
  set (A := Rsum (map (fun v => f v ^ 2) vs)) in *. set (B := Rsum (map (fun v => g v ^ 2) vs)) in *.
  set (C := Rsum (map (fun v => f v * g v) vs)) in *. set (x := f v). set (y := g v). clearbody A B C x y.
  assert (D0 : 0 <= x ^ 2 * B + y ^ 2 * A).
  { assert (X1 := Rmult_le_pos _ _ (pow2_ge_0 x) PB). assert (X2 := Rmult_le_pos _ _ (pow2_ge_0 y) PA). lra. }
  assert (D : 2 * x * y * C <= x ^ 2 * B + y ^ 2 * A).
  { apply Rle_trans with (1 := Rle_abs _). rewrite <- (Rabs_pos_eq _ D0). apply Rsqr_le_abs_0. unfold Rsqr.
    assert (S := pow2_ge_0 (x ^ 2 * B - y ^ 2 * A)). assert (T := Rmult_le_compat_l (4 * (x * y) ^ 2) _ _ ltac:(assert (X := pow2_ge_0 (x * y)); lra) IH).
    replace (2 * x * y * C * (2 * x * y * C)) with (4 * (x * y) ^ 2 * C ^ 2) by ring.
    replace ((x ^ 2 * B + y ^ 2 * A) * (x ^ 2 * B + y ^ 2 * A)) with ((x ^ 2 * B - y ^ 2 * A) ^ 2 + 4 * (x * y) ^ 2 * (A * B)) by ring. lra. }
  replace ((x * y + C) ^ 2) with ((x * y) ^ 2 + 2 * x * y * C + C ^ 2) by ring.
  replace ((x ^ 2 + A) * (y ^ 2 + B)) with ((x * y) ^ 2 + (x ^ 2 * B + y ^ 2 * A) + A * B) by ring. lra.
Qed.
Lemma norm_add : forall f g vs, norm (fun v => f v + g v) vs <= norm f vs + norm g vs.
Proof.
  intros f g vs. unfold norm. assert (PA := Rsum_sq_pos f vs). assert (PB := Rsum_sq_pos g vs). assert (CS := cauchy f g vs).
  assert (S : Rsum (map (fun v => (f v + g v) ^ 2) vs) = Rsum (map (fun v => f v ^ 2) vs) + 2 * Rsum (map (fun v => f v * g v) vs) + Rsum (map (fun v => g v ^ 2) vs)).
  { clear. induction vs as [|v vs IH]; cbn [map Rsum]; [ring|]. rewrite IH. ring. }
  rewrite S. set (A := Rsum (map (fun v => f v ^ 2) vs)) in *. set (B := Rsum (map (fun v => g v ^ 2) vs)) in *.
  set (C := Rsum (map (fun v => f v * g v) vs)) in *. clearbody A B C.
  assert (SA := sqrt_pos A). assert (SB := sqrt_pos B). apply Rsqr_incr_0_var; [|lra].
  assert (N : 0 <= A + 2 * C + B).
  { assert (X : - C <= sqrt A * sqrt B).
    { rewrite <- sqrt_mult by assumption. apply Rle_trans with (1 := Rle_abs _). rewrite Rabs_Ropp. rewrite <- (sqrt_Rsqr_abs C). apply sqrt_le_1_alt. unfold Rsqr. lra. }
    assert (Y := pow2_ge_0 (sqrt A - sqrt B)). assert (A2 := sqrt_sqrt A PA). assert (B2 := sqrt_sqrt B PB).
    replace ((sqrt A - sqrt B) ^ 2) with (sqrt A * sqrt A - 2 * (sqrt A * sqrt B) + sqrt B * sqrt B) in Y by ring. lra. }
  unfold Rsqr. rewrite sqrt_sqrt by exact N.
  assert (X : C <= sqrt A * sqrt B).
  { rewrite <- sqrt_mult by assumption. apply Rle_trans with (1 := Rle_abs _). rewrite <- (sqrt_Rsqr_abs C). apply sqrt_le_1_alt. unfold Rsqr. lra. }
  assert (A2 := sqrt_sqrt A PA). assert (B2 := sqrt_sqrt B PB).
  replace ((sqrt A + sqrt B) * (sqrt A + sqrt B)) with (sqrt A * sqrt A + 2 * (sqrt A * sqrt B) + sqrt B * sqrt B) by ring. lra.
Qed.
Lemma Rsum_le : forall (f g : varid -> R) vs, (forall v, f v <= g v) -> Rsum (map f vs) <= Rsum (map g vs).
Proof. intros f g vs H. induction vs as [|v vs IH]; cbn [map Rsum]; [lra|]. specialize (H v). lra. Qed.
Lemma norm_le : forall f g vs, (forall v, Rabs (f v) <= g v) -> norm f vs <= norm g vs.
Proof.
  intros f g vs H. unfold norm. apply sqrt_le_1_alt. apply Rsum_le. intros v. specialize (H v). rewrite <- (pow2_abs (f v)).
  assert (P := Rabs_pos (f v)). apply pow_incr. lra.
Qed.
Lemma norm_scale : forall c f vs, 0 <= c -> norm (fun v => c * f v) vs = c * norm f vs.
Proof.
  intros c f vs H. unfold norm. replace (Rsum (map (fun v => (c * f v) ^ 2) vs)) with (c * c * Rsum (map (fun v => f v ^ 2) vs)).
  - rewrite sqrt_mult; [|nra|apply Rsum_sq_pos]. rewrite sqrt_square by exact H. reflexivity.
  - induction vs as [|v vs IH]; cbn [map Rsum]; [ring|]. rewrite <- IH. ring.
Qed.
Lemma norm_ext : forall f g vs, (forall v, f v = g v) -> norm f vs = norm g vs.
Proof. intros f g vs H. unfold norm. f_equal. f_equal. apply map_ext. intros v. now rewrite H. Qed.
Lemma norm_pos : forall f vs, 0 <= norm f vs. Proof. intros. apply sqrt_pos. Qed.
(** Exact and approximate gradients, times standard deviations. *)
Lemma norm_close : forall (x g p s : varid -> R) eps vs, 0 <= eps -> (forall v, Rabs (g v) <= p v) -> (forall v, Rabs (x v - g v) <= eps * p v) ->
  norm (fun v => x v * s v) vs <= (1 + eps) * norm (fun v => p v * s v) vs /\
  Rabs (norm (fun v => x v * s v) vs - norm (fun v => g v * s v) vs) <= eps * norm (fun v => p v * s v) vs.
Proof.
  intros x g p s eps vs He Hg Hx.
  assert (PN : norm (fun v => p v * Rabs (s v)) vs = norm (fun v => p v * s v) vs).
  { unfold norm. f_equal. f_equal. apply map_ext. intros v. rewrite !Rpow_mult_distr, pow2_abs. reflexivity. }
  assert (D1 : norm (fun v => (x v - g v) * s v) vs <= eps * norm (fun v => p v * s v) vs).
  { rewrite <- PN, <- norm_scale by exact He. apply norm_le. intros v. rewrite Rabs_mult, <- Rmult_assoc. apply Rmult_le_compat_r; [apply Rabs_pos|apply Hx]. }
  assert (D2 : norm (fun v => (g v - x v) * s v) vs <= eps * norm (fun v => p v * s v) vs).
  { rewrite <- PN, <- norm_scale by exact He. apply norm_le. intros v. rewrite Rabs_mult, <- Rmult_assoc, Rabs_minus_sym. apply Rmult_le_compat_r; [apply Rabs_pos|apply Hx]. }
  assert (G : norm (fun v => g v * s v) vs <= norm (fun v => p v * s v) vs).
  { rewrite <- PN. apply norm_le. intros v. rewrite Rabs_mult. apply Rmult_le_compat_r; [apply Rabs_pos|apply Hg]. }
  assert (T1 := norm_add (fun v => g v * s v) (fun v => (x v - g v) * s v) vs).
  rewrite (norm_ext _ (fun v => x v * s v)) in T1 by (intros v; ring).
  assert (T2 := norm_add (fun v => x v * s v) (fun v => (g v - x v) * s v) vs).
  rewrite (norm_ext _ (fun v => g v * s v)) in T2 by (intros v; ring).
  split; [lra|]. apply Rabs_le. lra.
Qed.

Section Std.
Variable lm : Libm.
Notation FN := (FOps lm).
Lemma fval_sum : forall (s : varid -> R) (d : dict FN), NoDup (dkeys d) -> forall vs, NoDup vs -> incl (dkeys d) vs ->
  Rsum (map (fun p => (B2R (snd p : f64) * s (fst p)) ^ 2) d) = Rsum (map (fun v => (fval lm d v * s v) ^ 2) vs).
Proof.
  intros s d. induction d as [|[k x] d IH]; intros N vs V I.
  - cbn [map Rsum]. clear. induction vs as [|v vs IH]; cbn [map Rsum]; [reflexivity|]. rewrite <- IH. unfold fval. cbn [dget]. ring.
  - cbn [dkeys map fst] in N, I. inversion N as [|? ? N1 N2]; subst.
    destruct (in_split k vs (I k (or_introl eq_refl))) as (l1 & l2 & ->). apply NoDup_remove in V as (V1 & V2).
    cbn [map Rsum fst snd]. rewrite (IH N2 (l1 ++ l2) V1).
    + rewrite !map_app, !Rsum_app. cbn [map Rsum].
      assert (E : forall v, v <> k -> fval lm ((k, x) :: d) v = fval lm d v).
      { intros v Nv. unfold fval. cbn [dget]. apply Nat.eqb_neq in Nv. now rewrite Nv. }
      assert (Ek : fval lm ((k, x) :: d) k = B2R (x : f64)) by (unfold fval; cbn [dget]; now rewrite Nat.eqb_refl).
      assert (M : forall l, ~ In k l -> map (fun v => (fval lm ((k, x) :: d) v * s v) ^ 2) l = map (fun v => (fval lm d v * s v) ^ 2) l).
      { intros l Nl. apply map_ext_in. intros v Hv. rewrite E; [reflexivity|]. intros ->. now apply Nl. }
      rewrite (M l1), (M l2), Ek by (intros X; apply V2, in_or_app; auto). ring.
    + intros v Hv. assert (X := I v (or_intror Hv)). apply in_app_or in X. apply in_or_app. destruct X as [X|[X|X]]; auto.
      subst v. now contradiction N1.
Qed.
Theorem std_exact : squares_ok lm -> forall (st : state FN) L i a u d ec ins vs, traced lm st L -> nth_error L i = Some (Some a) -> in_range a ->
  is_number st i u -> reads st (IDeriv i) (ODict d) -> reads st (IErrs i) (OErrs ec) ->
  List.Forall (entry_ok lm st) d -> (length d <= 1000)%nat -> NoDup vs -> incl (dkeys d) vs ->
  ins = IStdS i \/ (ins = IStd i /\ uf_var u = None) ->
  let sigma := fun v => B2R (sd st v : f64) in
  exists s : f64, reads st ins (ONum (N:=FN) s) /\ is_finite s = true /\
    Rabs (B2R s - sqrt (Rsum (map (fun v => (grad a v * sigma v) ^ 2) vs)))
      <= INR (length d + 8 + 2 * roundings a) / 2 ^ 53 * sqrt (Rsum (map (fun v => (paths a v * sigma v) ^ 2) vs)).
Proof.
  intros SQ st L i a u d ec ins vs T Hi R U D Ec Eo Ld V I Hins sigma.
  destruct (derivatives_accurate lm st L i a T Hi R) as (d' & D' & N & F & A). assert (X := reads_one lm _ _ _ _ D' D). injection X as ->.
  destruct (traced_tracks lm _ _ T) as (Lm & Iv & K). destruct (proj2 K _ _ Hi) as (u' & U1 & U2).
  destruct (proj2 Iv _ _ U2) as (W & _).
  assert (Ln : INR (length d) <= 1000000).
  { apply Rle_trans with (INR 1000); [now apply le_INR|]. rewrite INR_IZR_INZ. apply IZR_le. vm_compute. discriminate. }
  destruct (std_accurate lm SQ st i u d ec ins U D Ec Eo Ln Hins) as (_ & s & S1 & S2 & S3). exists s. split; [exact S1|]. split; [exact S2|].
  set (k := INR (roundings a)) in *. assert (Pk : 0 <= k) by apply pos_INR.
  assert (Sd : Rsum (map (fun p => prod lm st p ^ 2) d) = Rsum (map (fun v => (fval lm d v * sigma v) ^ 2) vs)) by exact (fval_sum sigma d N vs V I).
  rewrite Sd in S3. fold (norm (fun v => fval lm d v * sigma v) vs) in S3.
  fold (norm (fun v => grad a v * sigma v) vs). fold (norm (fun v => paths a v * sigma v) vs).
  assert (P52 : 0 < 2 ^ 52) by (apply pow_lt; lra).
  destruct (norm_close (fval lm d) (grad a) (paths a) sigma (k / 2 ^ 52) vs) as (C1 & C2).
  - apply Rmult_le_pos; [exact Pk|]. apply Rlt_le, Rinv_0_lt_compat, P52.
  - intros v. apply (proj2 W v).
  - exact A.
  - assert (NP := norm_pos (fun v => paths a v * sigma v) vs). assert (NX := norm_pos (fun v => fval lm d v * sigma v) vs).
    set (P := norm (fun v => paths a v * sigma v) vs) in *. set (X := norm (fun v => fval lm d v * sigma v) vs) in *.
    set (G := norm (fun v => grad a v * sigma v) vs) in *. clearbody P X G.
    replace (B2R s - G) with ((B2R s - X) + (X - G)) by ring. apply Rle_trans with (1 := Rabs_triang _ _).
    rewrite !plus_INR, mult_INR. rewrite plus_INR in S3. change (INR 7) with (1 + 1 + 1 + 1 + 1 + 1 + 1) in S3. change (INR 8) with (1 + 1 + 1 + 1 + 1 + 1 + 1 + 1). change (INR 2) with (1 + 1). fold k.
    assert (n0 := pos_INR (length d)). set (n := INR (length d)) in *.
    assert (Kb : k <= 1000000000). { unfold k. rewrite INR_IZR_INZ. apply IZR_le. exact (proj1 R). }
    assert (nb : n <= 1000). { unfold n. rewrite INR_IZR_INZ. apply IZR_le. lia. }
    assert (E53 : / 2 ^ 53 = / 9007199254740992) by (rewrite pow_IZR; reflexivity).
    assert (E52 : k / 2 ^ 52 = 2 * k * / 9007199254740992) by (rewrite pow_IZR; change (2 ^ Z.of_nat 52)%Z with 4503599627370496%Z; field).
    unfold Rdiv in S3 |- *. rewrite E53 in *. unfold Rdiv in E52. unfold Rdiv in C1, C2. rewrite E52 in *.
    assert (Q : (n + 7) * / 9007199254740992 * X <= (n + 7) * / 9007199254740992 * ((1 + 2 * k * / 9007199254740992) * P)).
    { apply Rmult_le_compat_l; [|exact C1]. apply Rmult_le_pos; lra. }
    assert (Z : (n + 7) * (2 * k * / 9007199254740992) <= 1).
    { apply Rle_trans with (1007 * (2 * k * / 9007199254740992)); [apply Rmult_le_compat_r; lra|lra]. }
    assert (Z2 := Rmult_le_compat_r (/ 9007199254740992 * P) _ _ ltac:(apply Rmult_le_pos; lra) Z).
    replace ((n + 7) * / 9007199254740992 * ((1 + 2 * k * / 9007199254740992) * P)) with ((n + 7) * / 9007199254740992 * P + (n + 7) * (2 * k * / 9007199254740992) * (/ 9007199254740992 * P)) in Q by ring.
    replace ((n + (1 + 1 + 1 + 1 + 1 + 1 + 1 + 1) + (1 + 1) * k) * / 9007199254740992 * P) with ((n + 7) * / 9007199254740992 * P + 1 * (/ 9007199254740992 * P) + 2 * k * / 9007199254740992 * P) by ring.
    replace (n + (1 + 1 + 1 + 1 + 1 + 1 + 1)) with (n + 7) in S3 by ring. lra.
Qed.
End Std.
