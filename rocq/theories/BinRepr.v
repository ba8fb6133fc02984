(** repr() in binary64: every pair of floats is read back exactly. *)
From Coq Require Import ZArith List Bool Lia QArith Qabs Qreals Reals Lra.
From Flocq Require Import Core BinarySingleNaN.
From Verif Require Import Base Str NumF FmtOps FmtF Format Parse FmtSpec DecProofs ParseSpec ErrThm ReprThm BinProofs.
Import ListNotations.
Local Open Scope Z_scope.

Section Bin.
Context (lm : Libm10).
Lemma fdecimal_sign : forall s m e, 0 <= m -> Bsign (fdecimal s m e) = s.
Proof.
  intros s m e H. destruct (Z.eq_dec m 0) as [->|N]; [destruct s; reflexivity|].
  pose proof (fdecimal_R s m e ltac:(lia)) as G. cbv zeta in G. destruct (Rlt_bool _ _); [apply G|rewrite G; reflexivity].
Qed.
Lemma fdecimal_opp : forall s m e, 0 <= m -> fdecimal s m e = (if s then Bopp (fdecimal false m e) else fdecimal false m e).
Proof.
  intros [|] m e H; [|reflexivity]. destruct (Z.eq_dec m 0) as [->|N]; [reflexivity|].
  pose proof (fdecimal_R true m e ltac:(lia)) as G. pose proof (fdecimal_R false m e ltac:(lia)) as G'. cbv zeta in G, G'. 
  unfold sgn in G, G'. rewrite round_NE_opp, Rabs_Ropp in G. destruct (Rlt_bool _ _).
  - destruct G as (G1 & G2 & G3). destruct G' as (G1' & G2' & G3').
    apply B2R_Bsign_inj; [exact G2|rewrite is_finite_Bopp; exact G2'| |].
    + rewrite G1, B2R_Bopp, G1'. reflexivity.
    + rewrite G3. rewrite Bsign_Bopp; [rewrite G3'; reflexivity|]. destruct (fdecimal false m e); try reflexivity. discriminate.
  - rewrite G, G'. reflexivity.
Qed.
Lemma bin_short : forall (x : f64) m e, is_nan x = false -> is_inf x = false -> x_short (BinOps lm) x = (m, e) ->
  0 <= m /\ fdecimal (Bsign x) m e = x.
Proof.
  intros x m e Hn Hi H. assert (F : is_finite x = true) by (destruct x; try discriminate; reflexivity).
  destruct (fdec_finite x F) as (m0 & e0 & E & Hm & Ea & _). unfold x_short, BinOps in H. rewrite E in H.
  destruct (Z.eqb_spec m0 0) as [Z0|N0].
  - inversion H; subst. split; [lia|]. destruct x; try discriminate; [reflexivity|]. exfalso.
    rewrite Q2R_mult, Q2R_Z in Ea. rewrite Rmult_0_l in Ea. symmetry in Ea. 
    revert Ea. apply Rabs_no_R0. simpl. unfold F2R, Fnum, Fexp. apply Rmult_integral_contrapositive_currified;
    [apply IZR_neq; destruct s; discriminate|]. apply Rgt_not_eq, bpow_gt_0.
  - assert (Fa : is_finite (fabs x) = true) by (destruct x; try discriminate; reflexivity).
    assert (Sa : Bsign (fabs x) = false) by (destruct x; try discriminate; reflexivity).
    assert (Ra : B2R (fabs x) = (IZR m0 * r10 e0)%R).
    { change (fabs x) with (Babs x). rewrite B2R_Babs, <- Ea, Q2R_mult, Q2R_Z. reflexivity. }
    destruct (fshort_value 16 1 (fabs x) m0 e0 m e Fa ltac:(lia) ltac:(lia) ltac:(lia) Ra Sa H) as (P & V).
    split; [exact P|]. rewrite fdecimal_opp, V by exact P. clear. destruct x as [[]|[]| |[]]; reflexivity.
Qed.
Lemma bin_repr : ReprLaws (BinOps lm) (fun _ => True) eq.
Proof.
  split.
  - intros x y z -> ->. reflexivity.
  - reflexivity.
  - intros x H. destruct x; try discriminate. reflexivity.
  - intros x _ H. destruct x; try discriminate. reflexivity.
  - intros s m e k Hm Hk. apply fdecimal_value; try assumption.
    + apply Z.mul_nonneg_nonneg; [exact Hm|apply Z.pow_nonneg; lia].
    + rewrite inject_Z_mult, p10_add, <- (p10_Z k Hk). ring.
  - intros x m e _ Hn Hi H. apply (bin_short x m e Hn Hi H).
  - intros x y ->. reflexivity.
  - reflexivity.
Qed.
End Bin.

(** The numbers that are read are the floats themselves; a zero uncertainty is written 0. *)
Theorem bin_repr_back : forall (U : Unicode), UniLaws U -> forall (lm : Libm10) (nom s : f64) tag,
  (is_finite s = true -> (0 <= B2R s)%R) ->
  ufloat_fromstr (K := BinOps lm) U (repr_ufloat (K := BinOps lm) nom s) tag =
    Ok (nom, (match s with B754_zero _ => B754_zero false | _ => s end), tag, 0%nat).
Proof.
  intros U L lm nom s tag N.
  assert (Ez : x_iszero (BinOps lm) s = match s with B754_zero _ => true | _ => false end).
  { destruct s as [[]|[]| |[] m e B]; reflexivity. }
  assert (Hr : refused (BinOps lm) s = false).
  { unfold refused. rewrite Ez. destruct s as [[]|[]| |[] m e B]; try reflexivity. exfalso. specialize (N eq_refl). simpl in N. apply Rle_not_lt in N. apply N. 
    unfold F2R, Fnum, Fexp. assert (P := bpow_gt_0 radix2 e). assert (IZR (Zneg m) < 0)%R by (apply IZR_lt; reflexivity). nra. }
  destruct (repr_reads U L (BinOps lm) (fun _ => True) eq (bin_repr lm) nom s tag I I Hr) as (v & u & E & Hv & Hu).
  rewrite E, Hv. rewrite Ez in Hu. destruct s as [g|g| |g m e B]; rewrite Hu; reflexivity.
Qed.
