(** Further facts over exact arithmetic: exceptions of operators, undefined derivatives of
    powers, hashing, non-negative standard deviations. *)
From Coq Require Import ZArith List Bool Reals Lra Lia.
From Flocq Require Zaux Raux.
From Verif Require Import Base Heap Affine Ops UMath NumR HeapSpec DenProofs Machine Spec Refine
  RefineStep Plain Regular DiffProofs ADProofs History HistoryProofs Prim PrimProofs PrimReg
  ChainProofs GenProofs.
Import ListNotations.
Local Open Scope R_scope.

Section RealFacts.
Context {g lg : R -> R}.
Notation RN := (ROps g lg).
Notation state := (state RN).
Implicit Types p q : pynum RN.

Lemma nan_no_arith : forall (r : res (pynum RN)) e, nan_if_exception r = Err e -> arith e = false.
Proof.
  intros [c|e0] e H; [discriminate|]. destruct e0; simpl in H; injection H; intros <-; reflexivity.
Qed.

Lemma op_der_no_arith : forall op p q r e, float_op (N:=RN) op (pval p) (pval q) = Ok r ->
  (op_der_x op p q = Err e -> arith e = false) /\ (op_der_y op p q = Err e -> arith e = false).
Proof.
  intros op p q r e F. destruct op; simpl in F.
  - split; discriminate.
  - split; discriminate.
  - split; discriminate.
  - unfold Rdiv_py in F. destruct (Reqb (pval q) 0) eqn:Z; [discriminate|].
    apply Reqb_false in Z. split.
    + intros H. unfold op_der_x in H. destruct (pn_div_R (PZ 1) q Z) as (c & E & _). congruence.
    + intros H. unfold op_der_y in H. destruct (pn_square_R q) as (s & Es & Ws).
      rewrite Es in H. cbn [rbind] in H.
      assert (Ns : pval s <> 0) by (rewrite Ws; now apply pow_nonzero).
      destruct (pn_div_R (pn_neg p) s Ns) as (c & E & _). congruence.
  - split; discriminate.
  - destruct (Reqb (pval q) 0) eqn:Z; [discriminate|]. apply Reqb_false in Z.
    split; [discriminate|]. intros H. destruct p as [z|x].
    + unfold op_der_y, partial_derivative in H. cbn [arg_get nth_error as_num rbind] in H.
      destruct (pn_mul (PF (n_step RN)) (pn_abs q)) as [s|e'] eqn:E1.
      2:{ destruct q; discriminate E1. }
      cbn [rbind] in H.
      destruct (pn_add q (if pn_is0 s then PF (n_step RN) else s)) as [s'|e'] eqn:E2.
      2:{ destruct q, s; simpl in E2; try destruct (Z.eqb z1 0); try destruct (Z.eqb z0 0); try destruct (Reqb _ _) in E2; discriminate E2. }
      cbn in H. injection H; intros <-. reflexivity.
    + unfold op_der_y in H.
      set (h := step_of (pval q)).
      assert (Hh : 0 < h < Rabs (pval q)).
      { unfold h, step_of. destruct (Req_EM_T (pval q) 0); [contradiction|].
        pose proof (Raux.bpow_gt_0 Zaux.radix2 (-26)).
        assert (Raux.bpow Zaux.radix2 (-26) < 1) by (apply (Raux.bpow_lt Zaux.radix2 (-26) 0); lia).
        assert (0 < Rabs (pval q)) by now apply Rabs_pos_lt.
        split; [now apply Rmult_lt_0_compat|].
        rewrite <- (Rmult_1_l (Rabs (pval q))) at 2. now apply Rmult_lt_compat_r. }
      assert (Z1 : pval q + h <> 0).
      { intros Q. assert (E : pval q = - h) by lra. rewrite E, Rabs_Ropp, Rabs_pos_eq in Hh; lra. }
      assert (Z2 : pval q - h <> 0).
      { intros Q. assert (E : pval q = h) by lra. rewrite E, Rabs_pos_eq in Hh; lra. }
      destruct (partial_derivative_R (float_method Bmod) (APos 1) [PNum (PF (N:=RN) x); PNum q] [] q
        (PF (N:=RN) (x - (pval q + h) * IZR (Raux.Zfloor (x / (pval q + h)))))
        (PF (N:=RN) (x - (pval q - h) * IZR (Raux.Zfloor (x / (pval q - h))))) eq_refl) as (c & Ec & _).
      * fold h. unfold call_with. simpl. rewrite (proj2 (Reqb_false _ _) Z1). reflexivity.
      * fold h. unfold call_with. simpl. rewrite (proj2 (Reqb_false _ _) Z2). reflexivity.
      * congruence.
  - split; apply nan_no_arith.
Qed.

Lemma spos2_err : forall pos (a b : sval g lg) av kv e, spos pos 0 [a; b] av kv = Err e ->
  (is_suf a = true /\ pos 0%nat av kv = Err e) \/ (is_suf b = true /\ pos 1%nat av kv = Err e).
Proof.
  intros pos a b av kv e H. simpl in H. destruct (is_suf a).
  - destruct (pos 0%nat av kv) as [c|]; [|left; split; auto; simpl in H; congruence].
    cbn [rbind] in H. destruct (is_suf b).
    + destruct (pos 1%nat av kv) as [c'|]; [discriminate|]. right. split; auto. simpl in H. congruence.
    + discriminate.
  - destruct (is_suf b); [|discriminate].
    destruct (pos 1%nat av kv) as [c'|]; [discriminate|]. right. split; auto. simpl in H. congruence.
Qed.

(** C54 over exact arithmetic. *)
Theorem operator_raises : forall (st : state) op i j p q st' e,
  reachable st -> has_nominal st i p -> has_nominal st j q -> uncertain st i \/ uncertain st j ->
  does st (IBin op i j) st' (OExn e) -> arith e = true ->
  float_op (N:=RN) op (pval p) (pval q) = Err e.
Proof.
  intros st op i j p q st' e Rc Hp Hq Hu Dn Ar.
  destruct (reach_sim st Rc) as (ss & S).
  destruct (has_nominal_snom st ss i p S Hp) as (a & Ea & Na).
  destruct (has_nominal_snom st ss j q S Hq) as (b & Eb & Nb).
  destruct (does_sim _ _ _ _ _ S Dn) as [_ O].
  cbn [sstep sargs] in O. rewrite Ea, Eb in O.
  assert (Er : sbin op a b = Err e).
  { destruct (sbin op a b); simpl in O; [contradiction|congruence]. }
  clear O. unfold sbin in Er.
  destruct (is_suf a) eqn:Sa; [|destruct (is_suf b) eqn:Sb].
  - destruct (scall (float_method op) (op_pos op) no_kw [a; b] []) as [r|e'] eqn:Es; cbn [rbind] in Er.
    { destruct r as [[]|]; try discriminate Er. injection Er; intros <-; discriminate. }
    injection Er; intros ->. unfold scall in Es. cbn [existsb] in Es. rewrite Sa in Es. cbn [orb map] in Es.
    rewrite Na, Nb in Es. destruct a as [|x ? ? ?]; [discriminate|]. simpl in Na. injection Na; intros <-.
    unfold float_method in Es at 1. rewrite pn_float_R in Es. cbn [rbind] in Es.
    destruct (float_op (N:=RN) op x (pval q)) as [r|e'] eqn:F; cbn [rbind] in Es; [|simpl; congruence].
    exfalso. assert (X : forall e', spos (op_pos op) 0 [SUF x gr deps var; b] [PNum (PF (N:=RN) x); PNum q] [] = Err e' -> arith e' = false).
    { intros e' H. destruct (op_der_no_arith op (PF (N:=RN) x) q r e' F) as [A B].
      destruct (spos2_err _ _ _ _ _ _ H) as [[_ H']|[_ H']]; [exact (A H')|exact (B H')]. }
    destruct r; try discriminate Es.
    + destruct (spos _ _ _ _ _) as [t|e'] eqn:Et; cbn [rbind skws] in Es; [discriminate|].
      injection Es; intros ->. rewrite (X _ eq_refl) in Ar. discriminate.
    + destruct (spos _ _ _ _ _) as [t|e'] eqn:Et; cbn [rbind skws] in Es; injection Es; intros <-; [discriminate|].
      rewrite (X _ eq_refl) in Ar. discriminate.
  - destruct (scall (float_rmethod op) (rop_pos op) no_kw [b; a] []) as [r|e'] eqn:Es; cbn [rbind] in Er.
    { destruct r as [[]|]; try discriminate Er. injection Er; intros <-; discriminate. }
    injection Er; intros ->. unfold scall in Es. cbn [existsb] in Es. rewrite Sb in Es. cbn [orb map] in Es.
    rewrite Na, Nb in Es. destruct b as [|y ? ? ?]; [discriminate|]. simpl in Nb. injection Nb; intros <-.
    unfold float_rmethod in Es at 1. rewrite pn_float_R in Es. cbn [rbind] in Es.
    destruct (float_op (N:=RN) op (pval p) y) as [r|e'] eqn:F; cbn [rbind] in Es; [|simpl; congruence].
    exfalso. assert (X : forall e', spos (rop_pos op) 0 [SUF y gr deps var; a] [PNum (PF (N:=RN) y); PNum p] [] = Err e' -> arith e' = false).
    { intros e' H. destruct (op_der_no_arith op p (PF (N:=RN) y) r e' F) as [A B].
      destruct (spos2_err _ _ _ _ _ _ H) as [[_ H']|[_ H']]; [exact (B H')|exact (A H')]. }
    destruct r; try discriminate Es.
    + destruct (spos _ _ _ _ _) as [t|e'] eqn:Et; cbn [rbind skws] in Es; [discriminate|].
      injection Es; intros ->. rewrite (X _ eq_refl) in Ar. discriminate.
    + destruct (spos _ _ _ _ _) as [t|e'] eqn:Et; cbn [rbind skws] in Es; injection Es; intros <-; [discriminate|].
      rewrite (X _ eq_refl) in Ar. discriminate.
  - exfalso. destruct Hu as [H|H]; apply (uncertain_suf st ss _ S) in H; destruct H as (c & C1 & C2); congruence.
Qed.

(** C22: value defined, derivative undefined: NaN (ENaN marks it over exact arithmetic). *)
Theorem pow_nan_x : forall (x : R) q r, Rpow_py x (pval q) = Ok (Some r) ->
  ~ pow_dom true false x (pval q) -> op_der_x Bpow (PF (N:=RN) x) q = Err ENaN.
Proof.
  intros x q r V D. unfold pow_dom in D. unfold Rpow_py in V.
  assert (X : x <= 0). { apply Rnot_lt_le. intros H. apply D. now left. }
  assert (Y : pval q <> 0).
  { intros Y. apply D. right; left. split; auto. split; [exists 0%Z; simpl; auto|right; lra]. }
  rewrite (proj2 (Reqb_false _ _) Y) in V. rewrite (proj2 (Rltb_false 0 x) X) in V.
  unfold op_der_x, pow_deriv_0. rewrite !pn_is0_R, (proj2 (Reqb_false _ _) Y). cbn [pval].
  destruct (Reqb x 0) eqn:X0.
  - apply Reqb_true in X0. destruct (Rltb 0 (pval q)) eqn:Y0; [|discriminate].
    apply Rltb_true in Y0. destruct (pn_integral q) eqn:I; [|reflexivity].
    exfalso. apply D. right; left. split; auto. split; [|right; lra].
    destruct q as [z|y]; [now exists z|]. simpl in *.
    rewrite (proj2 (Reqb_false 1 0)) in I by lra. simpl in I. apply Reqb_true in I.
    exists (Raux.Zfloor (y / 1)). lra.
  - destruct (Ris_int (pval q)) eqn:I; [|discriminate]. unfold Ris_int in I. apply Reqb_true in I.
    exfalso. apply D. right; left. split; auto. split; [exists (Raux.Zfloor (pval q)); auto|].
    left. now apply Reqb_false in X0.
Qed.
Theorem pow_nan_y : forall p (y r : R), Rpow_py (pval p) y = Ok (Some r) ->
  ~ pow_dom false true (pval p) y -> op_der_y Bpow p (PF (N:=RN) y) = Err ENaN.
Proof.
  intros p y r V D. unfold pow_dom in D.
  assert (X : pval p <= 0). { apply Rnot_lt_le. intros H. apply D. now left. }
  unfold op_der_y, pow_deriv_1. rewrite pn_is0_R, pn_gt0_R. cbn [pval].
  assert (B : Reqb (pval p) 0 && Rltb 0 y = false).
  { apply andb_false_iff. destruct (Reqb (pval p) 0) eqn:X0; auto. right. apply Rltb_false.
    apply Reqb_true in X0. apply Rnot_lt_le. intros H. apply D. right; right. auto. }
  rewrite B, pn_float_R. cbn [rbind]. simpl n_fun1. rewrite (proj2 (Rltb_false 0 (pval p)) X). reflexivity.
Qed.

(** C13: variables with a non-zero standard deviation. *)
Theorem equal_same_hash : forall (st : state) i u v j u' w, reachable st ->
  is_number st i u -> uf_var u = Some v -> is_number st j u' -> uf_var u' = Some w ->
  sd st v <> 0 \/ sd st w <> 0 ->
  reads st (ICmp Ceq i j) (OBool true) -> py_hash u = py_hash u'.
Proof.
  intros st i u v j u' w Rc U V U' V' Hs H.
  assert (E : v = w); [|unfold py_hash; rewrite V, V'; now subst].
  destruct (Nat.eq_dec v w) as [|Nvw]; auto. exfalso.
  destruct (reach_sim st Rc) as (ss & S).
  destruct (number_rel st ss i u S U) as (n & gr & ds & var & NR).
  destruct (number_rel st ss j u' S U') as (n' & gr' & ds' & var' & NR').
  pose proof (cmp_read _ _ _ _ _ _ _ _ _ _ _ _ _ _ _ _ S NR NR' H) as E. injection E; intros E1.
  symmetry in E1. apply seq_uf_iff in E1. destruct E1 as [_ B].
  rewrite (nr_var _ _ _ _ _ _ _ _ NR) in V. rewrite (nr_var _ _ _ _ _ _ _ _ NR') in V'.
  destruct (nr_isvar _ _ _ _ _ _ _ _ NR v V) as (_ & _ & G).
  destruct (nr_isvar _ _ _ _ _ _ _ _ NR' w V') as (_ & _ & G').
  rewrite !(sd_sigma st ss _ S) in Hs. destruct Hs as [Hs|Hs].
  - specialize (B v). rewrite G, G' in B. unfold delta in B. rewrite Nat.eqb_refl in B.
    apply Nat.eqb_neq in Nvw. rewrite Nvw in B. lra.
  - specialize (B w). rewrite G, G' in B. unfold delta in B. rewrite Nat.eqb_refl in B.
    apply not_eq_sym, Nat.eqb_neq in Nvw. rewrite Nvw in B. lra.
Qed.
Theorem sd_nonneg : forall (st : state) v, reachable st -> 0 <= sd st v.
Proof.
  intros st v Rc. destruct (reach_sim st Rc) as (ss & S). rewrite (sd_sigma st ss v S).
  eapply sigma_nonneg; eauto.
Qed.
End RealFacts.
