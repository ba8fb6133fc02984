(** Derivatives in binary64 against those of differential calculus. *)
From Coq Require Import ZArith List Bool Lia Reals Lra.
From Coquelicot Require Import Coquelicot.
From Flocq Require Import Core BinarySingleNaN.
From Verif Require Import Base Heap HeapSpec HeapProofs NumR NumF Affine Ops UMath Machine Cov Calls Unumpy UMatrix History Fuel FFacts FRefute FmtF
  BinProofs BinQ BinStd GradSpec Evolve BinGrad BinGradThm GradStd BinCov CalcSpec.
Import ListNotations.
Local Open Scope R_scope.

Definition wide (a : lin) : Prop := 1 <= range a /\ forall v, Rabs (grad a v) <= paths a v.
(** [a] is made of computed local derivatives, [a'] of exact ones. *)
Definition close (a a' : lin) : Prop := exists k, (roundings a + k <= roundings a')%nat /\ range a <= (1 + E k) * range a' /\
  (forall v, paths a v <= (1 + E k) * paths a' v) /\ (forall v, Rabs (grad a v - grad a' v) <= E k * paths a' v).
Definition oclose (a a' : option lin) : Prop := match a, a' with Some a, Some a' => close a a' /\ wide a' /\ wide a | None, None => True | _, _ => False end.

Lemma var_close : forall v, close (var_lin v) (var_lin v).
Proof.
  intros v. exists 0%nat. rewrite E_0. split; [lia|]. split; [lra|]. split; [intros w; lra|]. intros w. unfold Rminus. rewrite Rplus_opp_r, Rabs_R0. lra.
Qed.
Lemma var_wide : forall v, wide (var_lin v).
Proof. intros v. split; [cbn [var_lin range]; lra|]. intros w. cbn [var_lin grad paths]. destruct (Nat.eqb w v); rewrite ?Rabs_R1, ?Rabs_R0; lra. Qed.

Lemma E_ge : forall k, INR k * u53 <= E k.
Proof.
  induction k as [|k IH]; [rewrite E_0; cbn; lra|]. rewrite S_INR. assert (A := E_add k 1). assert (E1 : E 1 = u53) by (unfold E; simpl; ring). rewrite E1 in A.
  replace (k + 1)%nat with (Datatypes.S k) in A by lia. assert (U := u53_val). assert (P := E_pos k). nra.
Qed.
Lemma u48 : / 2 ^ 48 = 32 * u53.
Proof. unfold u53. change (bpow radix2 (-53)) with (/ IZR 9007199254740992). simpl. lra. Qed.
Lemma about_E : forall c c', about c c' -> Rabs (c - c') <= E 33 * Rabs c' /\ size c <= (1 + E 33) * size c'.
Proof.
  intros c c' H. unfold about in H. rewrite u48 in H. assert (E32 := E_ge 33). assert (X : INR 33 = 33) by (rewrite INR_IZR_INZ; reflexivity). rewrite X in E32.
  assert (U := u53_val). assert (P := Rabs_pos c').
  assert (A : Rabs (c - c') <= E 33 * Rabs c').
  { apply Rle_trans with (1 := H). apply Rmult_le_compat_r; [exact P|lra]. }
  split; [exact A|]. unfold size. destruct (Req_EM_T c' 0) as [->|N'].
  - rewrite Rabs_R0, Rmult_0_r in H. assert (c - 0 = 0) by (apply Rabs_le0; exact H). destruct (Req_EM_T c 0) as [_|N]; [lra|exfalso; lra].
  - assert (P' : 0 < Rabs c') by now apply Rabs_pos_lt.
    assert (T := Rabs_triang (c - c') c'). replace (c - c' + c') with c in T by ring.
    assert (T' := Rabs_triang (c' - c) c). replace (c' - c + c) with c' in T' by ring. rewrite (Rabs_minus_sym c' c) in T'.
    assert (L : (1 - 32 * u53) * Rabs c' <= Rabs c) by lra.
    assert (Pc : 0 < Rabs c). { apply Rlt_le_trans with (2 := L). apply Rmult_lt_0_compat; lra. }
    destruct (Req_EM_T c 0) as [->|N]; [rewrite Rabs_R0 in Pc; lra|].
    assert (M1 := Rmax_l (Rabs c') (/ Rabs c')). assert (M2 := Rmax_r (Rabs c') (/ Rabs c')). set (m := Rmax (Rabs c') (/ Rabs c')) in *.
    assert (EP := E_pos 33). apply Rmax_lub.
    + apply Rle_trans with ((1 + E 33) * Rabs c'); [lra|apply Rmult_le_compat_l; lra].
    + apply Rle_trans with ((1 + E 33) * / Rabs c'); [|apply Rmult_le_compat_l; lra].
      apply Rmult_le_reg_r with (Rabs c * Rabs c'); [nra|].
      replace (/ Rabs c * (Rabs c * Rabs c')) with (Rabs c') by (field; lra).
      replace ((1 + E 33) * / Rabs c' * (Rabs c * Rabs c')) with ((1 + E 33) * Rabs c) by (field; lra).
      apply Rle_trans with ((1 + 33 * u53) * ((1 - 32 * u53) * Rabs c')).
      * replace ((1 + 33 * u53) * ((1 - 32 * u53) * Rabs c')) with (Rabs c' + (u53 - 1056 * (u53 * u53)) * Rabs c') by ring.
        assert (0 <= (u53 - 1056 * (u53 * u53)) * Rabs c'); [|lra]. apply Rmult_le_pos; [nra|exact P].
      * apply Rmult_le_compat; try lra. apply Rmult_le_pos; lra.
Qed.
Lemma size_1 : forall c, 1 <= size c.
Proof. exact size_ge1. Qed.

Definition tclose (p p' : R * lin) : Prop := about (fst p) (fst p') /\ close (snd p) (snd p') /\ wide (snd p') /\ wide (snd p).
Lemma wide_call : forall l, List.Forall (fun p => wide (snd p)) l -> wide (call_lin l).
Proof.
  intros l H. induction l as [|[c a] l IH]; [split; cbn; [lra|intros; rewrite Rabs_R0; lra]|]. inversion H as [|? ? [W1 W2] H']; subst. destruct (IH H') as (I1 & I2).
  split.
  - cbn [call_lin range fold_right]. apply Rle_trans with (1 := I1). apply Rmax_r.
  - intros v. cbn [call_lin grad paths map Rsum fst snd]. apply Rle_trans with (1 := Rabs_triang _ _). apply Rplus_le_compat; [|exact (I2 v)].
    rewrite Rabs_mult. apply Rmult_le_compat_l; [apply Rabs_pos|apply W2].
Qed.
Lemma exact_call : forall l, grad (exact_lin l) = grad (call_lin l) /\ paths (exact_lin l) = paths (call_lin l) /\ range (exact_lin l) = range (call_lin l).
Proof. intros l. repeat split. Qed.
Lemma close_call : forall l l', Forall2 tclose l l' -> close (call_lin l) (exact_lin l').
Proof.
  intros l l' H. induction H as [|[c a] [c' a'] l l' (Hn & (k & K1 & K2 & K3 & K4) & W & Wa) H (k0 & I1 & I2 & I3 & I4)].
  - exists 0%nat. rewrite E_0. cbn. split; [lia|]. split; [lra|]. split; intros v; [lra|]. unfold Rminus. rewrite Rplus_opp_r, Rabs_R0. lra.
  - cbn [fst snd] in *. destruct (about_E _ _ Hn) as (N1 & N2). exists (33 + k + k0)%nat.
    assert (A1 := E_add 33 k). assert (Ek := E_pos k). assert (E3 := E_pos 33). assert (Ek0 := E_pos k0).
    assert (M1 : E (33 + k) <= E (33 + k + k0)) by (apply E_mono; lia). assert (M2 : E k0 <= E (33 + k + k0)) by (apply E_mono; lia).
    assert (Pa' : forall v, 0 <= paths a' v) by (intros v; apply Rle_trans with (2 := proj2 W v); apply Rabs_pos).
    assert (Pa : forall v, 0 <= paths a v) by (intros v; apply Rle_trans with (2 := proj2 Wa v); apply Rabs_pos).
    assert (Ab : Rabs c <= (1 + E 33) * Rabs c').
    { replace c with (c - c' + c') at 1 by ring. apply Rle_trans with (1 := Rabs_triang _ _). lra. }
    assert (Pl : forall v, 0 <= paths (exact_lin l') v).
    { clear - H. intros v. induction H as [|[c a] [c' a'] l l' (_ & _ & W & _) H IH]; [cbn; lra|]. cbn [exact_lin paths map Rsum fst snd].
      assert (0 <= Rabs c' * paths a' v); [|cbn [exact_lin paths] in IH; lra]. apply Rmult_le_pos; [apply Rabs_pos|apply Rle_trans with (2 := proj2 W v); apply Rabs_pos]. }
    split; [|split; [|split]].
    + unfold call_lin, exact_lin, list_sum in *. cbn [roundings map fst snd fold_right] in *. lia.
    + cbn [call_lin exact_lin range fold_right fst snd] in *.
      set (r := fold_right (fun (p : R * lin) (r : R) => Rmax (size (fst p) * range (snd p)) r) 1 l) in *.
      set (r' := fold_right (fun (p : R * lin) (r : R) => Rmax (size (fst p) * range (snd p)) r) 1 l') in *.
      assert (R' : 1 <= r'). { clear. unfold r'. induction l' as [|p l' IH]; cbn [fold_right]; [lra|]. apply Rle_trans with (1 := IH). apply Rmax_r. }
      assert (S1 := size_1 c'). assert (S0 := size_1 c). destruct W as (W & _). destruct Wa as (Wa & _).
      assert (X1 := Rmax_l (size c' * range a') r'). assert (X2 := Rmax_r (size c' * range a') r'). set (m := Rmax (size c' * range a') r') in *.
      assert (Pm : 1 <= m) by lra. apply Rmax_lub.
      * apply Rle_trans with ((1 + E 33) * size c' * ((1 + E k) * range a')).
        -- apply Rmult_le_compat; lra.
        -- replace ((1 + E 33) * size c' * ((1 + E k) * range a')) with ((1 + E 33) * (1 + E k) * (size c' * range a')) by ring. rewrite A1.
           assert (0 <= size c' * range a') by (apply Rmult_le_pos; lra). assert (E3k := E_pos (33 + k)). apply Rmult_le_compat; lra.
      * apply Rle_trans with (1 := I2). apply Rmult_le_compat; lra.
    + intros v. specialize (I3 v). specialize (K3 v). specialize (Pa' v). specialize (Pl v). specialize (Pa v).
      cbn [call_lin exact_lin paths map Rsum fst snd] in *. set (s := Rsum _) in I3 |- *. set (s' := Rsum _) in I3, Pl |- *.
      assert (X : Rabs c * paths a v <= (1 + E (33 + k)) * (Rabs c' * paths a' v)).
      { rewrite <- A1. replace ((1 + E 33) * (1 + E k) * (Rabs c' * paths a' v)) with ((1 + E 33) * Rabs c' * ((1 + E k) * paths a' v)) by ring.
        apply Rmult_le_compat; try lra. apply Rabs_pos. }
      assert (Q : 0 <= Rabs c' * paths a' v) by (apply Rmult_le_pos; [apply Rabs_pos|exact Pa']).
      assert (Y : (1 + E (33 + k)) * (Rabs c' * paths a' v) <= (1 + E (33 + k + k0)) * (Rabs c' * paths a' v)) by (apply Rmult_le_compat_r; lra).
      assert (Z : (1 + E k0) * s' <= (1 + E (33 + k + k0)) * s') by (apply Rmult_le_compat_r; lra). lra.
    + intros v. specialize (I4 v). specialize (K4 v). specialize (Pa' v). specialize (Pl v).
      cbn [call_lin exact_lin grad paths map Rsum fst snd] in *. set (s := Rsum _) in I4 |- *. set (s' := Rsum _) in I4 |- *. set (p' := Rsum _) in I4, Pl |- *.
      destruct (prod_apx2 33 k c (grad a v) c' (Rabs c') (grad a' v) (paths a' v) N1 K4 (Rle_refl _) (proj2 W v)) as (X & _).
      assert (Q : 0 <= Rabs c' * paths a' v) by (apply Rmult_le_pos; [apply Rabs_pos|exact Pa']).
      assert (Y : E (33 + k) * (Rabs c' * paths a' v) <= E (33 + k + k0) * (Rabs c' * paths a' v)) by (apply Rmult_le_compat_r; lra).
      assert (Z : E k0 * p' <= E (33 + k + k0) * p') by (apply Rmult_le_compat_r; lra).
      replace (c * grad a v + s - (c' * grad a' v + s')) with ((c * grad a v - c' * grad a' v) + (s - s')) by ring.
      apply Rle_trans with (1 := Rabs_triang _ _). lra.
Qed.

Section Thm.
Variable lm : Libm.
Notation FN := (FOps lm).
Lemma about_terms_terms : forall st L' ds l', about_terms lm st L' ds l' -> forall L, Forall2 oclose L L' ->
  exists l, terms lm st L ds l /\ Forall2 tclose l l'.
Proof.
  intros st L' ds l' H L F. induction H as [|r j a ds l' P H (l & I1 & I2)|c c' j u a' ds l' U Fc Nc Nj H (l & I1 & I2)].
  - exists []. split; constructor.
  - exists l. split; [econstructor 2; eauto|exact I2].
  - assert (X : exists a, nth_error L j = Some (Some a) /\ oclose (Some a) (Some a')).
    { clear - F Nj. revert j Nj. induction F as [|x y L L' Hx F IH]; intros j Nj; [destruct j; discriminate Nj|]. destruct j as [|j]; [|exact (IH j Nj)].
      cbn in Nj. injection Nj as ->. destruct x as [a|]; [|contradiction Hx]. exists a. split; [reflexivity|exact Hx]. }
    destruct X as (a & Ha & C1 & C2 & C3). exists ((cval lm c, a) :: l). split; [econstructor 3; eauto|]. constructor; [|exact I2]. repeat split; try assumption; apply C2 || apply C3.
Qed.
Lemma oclose_call : forall l l', Forall2 tclose l l' -> oclose (Some (call_lin l)) (Some (exact_lin l')).
Proof.
  intros l l' H. split; [now apply close_call|]. split.
  - destruct (wide_call l') as (A & B). { induction H; constructor; auto. apply H. } split; assumption.
  - apply wide_call. induction H; constructor; auto. apply H.
Qed.
Theorem calculated_traced : forall st L', calculated lm st L' -> exists L, traced lm st L /\ Forall2 oclose L L'.
Proof.
  intros st L' H. induction H as [|st L n s tag st' u v H (L0 & T & F) D U V|st L op i j st' a b p q u l H (L0 & T & F) D U A B P Q N
    |st L f pos kwd args kw st' a k u l H (L0 & T & F) D U A B av kv N|st L st' H (L0 & T & F) A].
  - exists []. split; constructor.
  - exists (L0 ++ [Some (var_lin v)]). split; [eapply traced_new; eauto|]. apply Forall2_app; [exact F|]. constructor; [|constructor].
    split; [apply var_close|]. split; apply var_wide.
  - destruct (about_terms_terms _ _ _ _ N _ F) as (l0 & T0 & F0). exists (L0 ++ [Some (call_lin l0)]). split; [eapply traced_operator; eauto|].
    apply Forall2_app; [exact F|]. constructor; [|constructor]. now apply oclose_call.
  - destruct (about_terms_terms _ _ _ _ N _ F) as (l0 & T0 & F0). exists (L0 ++ [Some (call_lin l0)]). split; [eapply traced_function; eauto|].
    apply Forall2_app; [exact F|]. constructor; [|constructor]. now apply oclose_call.
  - exists (L0 ++ repeat None (length (st_env st') - length (st_env st))). split; [now apply traced_other|]. apply Forall2_app; [exact F|].
    generalize (length (st_env st') - length (st_env st))%nat. intros n. induction n as [|n IH]; constructor; [exact I|exact IH].
Qed.
Lemma oclose_nth : forall L L' i a', Forall2 oclose L L' -> nth_error L' i = Some (Some a') -> exists a, nth_error L i = Some (Some a) /\ oclose (Some a) (Some a').
Proof.
  intros L L' i a' F. revert i. induction F as [|x y L L' Hx F IH]; intros i Nj; [destruct i; discriminate Nj|]. destruct i as [|i]; [|exact (IH i Nj)].
  cbn in Nj. injection Nj as ->. destruct x as [a|]; [|contradiction Hx]. exists a. split; [reflexivity|exact Hx].
Qed.
Lemma close_range : forall a a', close a a' -> wide a' -> well_in_range a' -> in_range a.
Proof.
  intros a a' (k & K1 & K2 & _) (W & _) (R1 & R2). split; [lia|]. assert (Ek : E k <= 1) by (apply E_small; lia). assert (P := E_pos k).
  apply Rle_trans with (1 := K2). apply Rle_trans with (2 * 2 ^ 899); [apply Rmult_le_compat; lra|]. right. change (2 ^ 900) with (2 ^ (Datatypes.S 899)). reflexivity.
Qed.
Lemma derivatives_E : forall st L i a, traced lm st L -> nth_error L i = Some (Some a) -> in_range a ->
  exists d, reads st (IDeriv i) (ODict d) /\ NoDup (dkeys d) /\ (forall v x, dget d v = Some x -> is_finite (x : f64) = true) /\
    forall v, Rabs (fval lm d v - grad a v) <= E (roundings a) * paths a v.
Proof.
  intros st L i a T Hi R. destruct (traced_tracks lm _ _ T) as (Lm & I & K). destruct (proj2 K _ _ Hi) as (u & U1 & U2).
  destruct (proj2 I _ _ U2) as (W & O). specialize (O R).
  assert (X : exists k d, good lm (roundings a) (grad a) (paths a) d /\ forall fuel, (k <= fuel)%nat -> fst (derivatives fuel u (st_heap st)) = Ok d).
  { unfold derivatives, lc_derivatives. destruct (get_lc (st_heap st) (uf_lp u)) as [d|its] eqn:G.
    - exists 0%nat, d. split; [exact O|]. reflexivity.
    - destruct (expand_known lm _ _ _ _ _ I U2 R G) as (k & d & Gd & Ex). exists k, d. split; [exact Gd|]. intros fuel F.
      rewrite (Ex fuel F). rewrite get_set_eq by exact (lc_bound lm _ _ _ G). reflexivity. }
  destruct X as (k & d & (N & F & Gd) & Ex). exists d. split; [|split; [exact N|split; [exact F|exact Gd]]].
  specialize (Ex k (le_n k)). apply (reads_step k); [|discriminate]. cbn [step]. unfold with_uf, with_val. rewrite U1. unfold observe.
  destruct (derivatives k u (st_heap st)) as [r h']. cbn in Ex. subst r. reflexivity.
Qed.
Theorem calculus_accurate : forall st L i a, calculated lm st L -> nth_error L i = Some (Some a) -> well_in_range a ->
  exists d, reads st (IDeriv i) (ODict d) /\ NoDup (dkeys d) /\ (forall v x, dget d v = Some x -> is_finite (x : f64) = true) /\
    forall v, Rabs (fval lm d v - grad a v) <= INR (roundings a) / 2 ^ 52 * paths a v.
Proof.
  intros st L i a C Hi R. destruct (calculated_traced _ _ C) as (L0 & T & F). destruct (oclose_nth _ _ _ _ F Hi) as (a0 & Ha & Cl & W & W0).
  assert (R0 := close_range _ _ Cl W R). destruct (derivatives_E _ _ _ _ T Ha R0) as (d & D1 & D2 & D3 & D4).
  exists d. split; [exact D1|]. split; [exact D2|]. split; [exact D3|]. intros v. destruct Cl as (k & K1 & K2 & K3 & K4).
  specialize (D4 v). specialize (K3 v). specialize (K4 v). assert (Pa : 0 <= paths a v) by (apply Rle_trans with (2 := proj2 W v); apply Rabs_pos).
  replace (fval lm d v - grad a v) with ((fval lm d v - grad a0 v) + (grad a0 v - grad a v)) by ring. apply Rle_trans with (1 := Rabs_triang _ _).
  apply Rle_trans with (E (roundings a) * paths a v).
  - assert (X := E_add (roundings a0) k). assert (P := E_pos (roundings a0)).
    assert (Y : E (roundings a0) * paths a0 v <= E (roundings a0) * ((1 + E k) * paths a v)) by (apply Rmult_le_compat_l; assumption).
    assert (Z : E (roundings a0 + k) * paths a v <= E (roundings a) * paths a v) by (apply Rmult_le_compat_r; [exact Pa|apply E_mono; exact K1]).
    replace (E (roundings a0 + k)) with ((1 + E (roundings a0)) * (1 + E k) - 1) in Z by lra. lra.
  - apply Rmult_le_compat_r; [exact Pa|]. apply Rle_trans with (2 * INR (roundings a) * u53).
    + apply E_le, small_k. destruct R as [R _]. lia.
    + right. rewrite u53_pow. field.
Qed.
End Thm.
