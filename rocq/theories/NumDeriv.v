(** Accuracy of the numerical derivatives over exact arithmetic (C29). *)
From Coq Require Import ZArith List Bool Reals Lra Lia.
From Coquelicot Require Import Coquelicot.
From Flocq Require Zaux Raux.
From Verif Require Import Base Heap Affine Ops UMath NumR HeapSpec PrimReg.
Import ListNotations.
Local Open Scope R_scope.

Lemma nonneg_of_derive : forall (f f' : R -> R) h,
  (forall s, 0 <= s <= h -> is_derive f s (f' s)) -> (forall s, 0 <= s <= h -> 0 <= f' s) ->
  f 0 = 0 -> forall s, 0 <= s <= h -> 0 <= f s.
Proof.
  intros f f' h D P Z s Hs.
  destruct (MVT_gen f 0 s f') as (c & Hc & E).
  - intros c Hc. rewrite Rmin_left, Rmax_right in Hc by lra. apply D; lra.
  - intros c Hc. rewrite Rmin_left, Rmax_right in Hc by lra.
    apply continuity_pt_filterlim, (ex_derive_continuous f). exists (f' c). apply D; lra.
  - rewrite Rmin_left, Rmax_right in Hc by lra.
    assert (H : 0 <= f' c * (s - 0)) by (apply Rmult_le_pos; [apply P|]; lra). lra.
Qed.
Lemma bound_of_derive : forall (f f' b b' : R -> R) h,
  (forall s, 0 <= s <= h -> is_derive f s (f' s)) -> (forall s, 0 <= s <= h -> is_derive b s (b' s)) ->
  (forall s, 0 <= s <= h -> Rabs (f' s) <= b' s) -> f 0 = 0 -> b 0 = 0 ->
  forall s, 0 <= s <= h -> Rabs (f s) <= b s.
Proof.
  intros f f' b b' h Df Db H Zf Zb s Hs. apply Rabs_le. split.
  - cut (0 <= b s + f s); [lra|].
    apply (nonneg_of_derive (fun s => b s + f s) (fun s => b' s + f' s) h); auto; [| |lra].
    + intros t Ht. apply (is_derive_plus b f); auto.
    + intros t Ht. specialize (H t Ht). apply Rabs_le_between in H. lra.
  - cut (0 <= b s - f s); [lra|].
    apply (nonneg_of_derive (fun s => b s - f s) (fun s => b' s - f' s) h); auto; [| |lra].
    + intros t Ht. apply (is_derive_minus b f); auto.
    + intros t Ht. specialize (H t Ht). apply Rabs_le_between in H. lra.
Qed.

Section Central.
Variables (F F1 F2 F3 : R -> R) (x h M : R).
Hypothesis Hh : 0 < h.
Hypothesis D1 : forall t, Rabs (t - x) <= h -> is_derive F t (F1 t).
Hypothesis D2 : forall t, Rabs (t - x) <= h -> is_derive F1 t (F2 t).
Hypothesis D3 : forall t, Rabs (t - x) <= h -> is_derive F2 t (F3 t).
Hypothesis B3 : forall t, Rabs (t - x) <= h -> Rabs (F3 t) <= M.

Lemma near_r : forall s, 0 <= s <= h -> Rabs (x + s - x) <= h.
Proof. intros s Hs. apply Rabs_le. lra. Qed.
Lemma near_l : forall s, 0 <= s <= h -> Rabs (x - s - x) <= h.
Proof. intros s Hs. apply Rabs_le. lra. Qed.
Lemma shift_r : forall (f f' : R -> R), (forall t, Rabs (t - x) <= h -> is_derive f t (f' t)) ->
  forall s, 0 <= s <= h -> is_derive (fun s => f (x + s)) s (f' (x + s)).
Proof.
  intros f f' D s Hs. evar_last.
  - apply (is_derive_comp f (fun s => x + s)); [apply D, near_r, Hs|auto_derive; auto].
  - cbn. unfold scal; cbn; unfold mult; cbn. ring.
Qed.
Lemma shift_l : forall (f f' : R -> R), (forall t, Rabs (t - x) <= h -> is_derive f t (f' t)) ->
  forall s, 0 <= s <= h -> is_derive (fun s => f (x - s)) s (- f' (x - s)).
Proof.
  intros f f' D s Hs. evar_last.
  - apply (is_derive_comp f (fun s => x - s)); [apply D, near_l, Hs|auto_derive; auto].
  - cbn. unfold scal; cbn; unfold mult; cbn. ring.
Qed.
Lemma central_difference : Rabs ((F (x + h) - F (x - h)) / 2 / h - F1 x) <= h ^ 2 / 6 * M.
Proof.
  assert (M0 : 0 <= M).
  { eapply Rle_trans; [apply Rabs_pos|apply (B3 x)]. rewrite Rminus_eq_0, Rabs_R0. lra. }
  assert (E2 : forall s, 0 <= s <= h -> Rabs (F2 (x + s) - F2 (x - s)) <= 2 * M * s).
  { apply (bound_of_derive (fun s => F2 (x + s) - F2 (x - s)) (fun s => F3 (x + s) - - F3 (x - s))
             (fun s => 2 * M * s) (fun _ => 2 * M)).
    - intros s Hs. apply (is_derive_minus (fun s => F2 (x + s)) (fun s => F2 (x - s))); [now apply shift_r|now apply shift_l].
    - intros s Hs. auto_derive; auto. ring.
    - intros s Hs. pose proof (B3 _ (near_r s Hs)) as A. pose proof (B3 _ (near_l s Hs)) as B.
      apply Rabs_le_between in A. apply Rabs_le_between in B. apply Rabs_le. lra.
    - rewrite Rplus_0_r, Rminus_0_r. ring.
    - ring. }
  assert (E1 : forall s, 0 <= s <= h -> Rabs (F1 (x + s) + F1 (x - s) - 2 * F1 x) <= M * s ^ 2).
  { apply (bound_of_derive (fun s => F1 (x + s) + F1 (x - s) - 2 * F1 x) (fun s => F2 (x + s) + - F2 (x - s))
             (fun s => M * s ^ 2) (fun s => 2 * M * s)).
    - intros s Hs. evar_last.
      + apply (is_derive_minus (fun s => F1 (x + s) + F1 (x - s)) (fun s => 2 * F1 x)).
        * apply (is_derive_plus (fun s => F1 (x + s)) (fun s => F1 (x - s))); [now apply (shift_r F1 F2)|now apply (shift_l F1 F2)].
        * apply (is_derive_const (K:=R_AbsRing) (V:=R_NormedModule)).
      + cbn. unfold minus, plus, opp, zero; cbn. ring.
    - intros s Hs. auto_derive; auto. ring.
    - intros s Hs. apply (E2 s Hs).
    - rewrite Rplus_0_r, Rminus_0_r. ring.
    - ring. }
  assert (E0 : forall s, 0 <= s <= h -> Rabs (F (x + s) - F (x - s) - 2 * F1 x * s) <= M / 3 * s ^ 3).
  { apply (bound_of_derive (fun s => F (x + s) - F (x - s) - 2 * F1 x * s)
             (fun s => F1 (x + s) - - F1 (x - s) - 2 * F1 x) (fun s => M / 3 * s ^ 3) (fun s => M * s ^ 2)).
    - intros s Hs.
      apply (is_derive_minus (fun s => F (x + s) - F (x - s)) (fun s => 2 * F1 x * s)).
      + apply (is_derive_minus (fun s => F (x + s)) (fun s => F (x - s))); [now apply (shift_r F F1)|now apply (shift_l F F1)].
      + auto_derive; auto. ring.
    - intros s Hs. auto_derive; auto. field.
    - intros s Hs. replace (F1 (x + s) - - F1 (x - s) - 2 * F1 x) with (F1 (x + s) + F1 (x - s) - 2 * F1 x) by ring.
      now apply E1.
    - rewrite Rplus_0_r, Rminus_0_r. ring.
    - field. }
  specialize (E0 h (conj (Rlt_le _ _ Hh) (Rle_refl h))).
  replace ((F (x + h) - F (x - h)) / 2 / h - F1 x) with ((F (x + h) - F (x - h) - 2 * F1 x * h) * / (2 * h)) by (field; lra).
  assert (I : 0 < / (2 * h)) by (apply Rinv_0_lt_compat; lra).
  rewrite Rabs_mult, (Rabs_pos_eq (/ (2 * h))) by lra.
  eapply Rle_trans; [apply Rmult_le_compat_r; [lra|exact E0]|]. right. field. lra.
Qed.
End Central.

Section NumDeriv.
Context {g lg : R -> R}.
Notation RN := (ROps g lg).

(** C29. [F t] is the value of f when its argument [r] is replaced by [t], the others being
    unchanged. *)
Theorem numerical_derivative : forall (f : pyfun RN) r args kw p (F : R -> R),
  arg_get r args kw = Some (PNum p) ->
  let x := pval p in
  let h := (if Reqb x 0 then 1 else Rabs x) / 2 ^ 26 in
  (forall t, Rabs (t - x) <= h ->
     exists y, (let (a, k) := arg_set r args kw (PNum (PF (N:=RN) t)) in f a k) = Ok (PNum y) /\ pval y = F t) ->
  exists c, partial_derivative f r args kw = Ok c /\ 0 < h /\
    pval c = (F (x + h) - F (x - h)) / (2 * h) /\
    (forall a b k, (forall t, F t = a + b * t + k * t ^ 2) -> is_derive F x (pval c)) /\
    (forall F1 F2 F3 M,
       (forall t, Rabs (t - x) <= h -> is_derive F t (F1 t) /\ is_derive F1 t (F2 t) /\
                                       is_derive F2 t (F3 t) /\ Rabs (F3 t) <= M) ->
       Rabs (pval c - F1 x) <= h ^ 2 / 6 * M).
Proof.
  intros f r args kw p F G x h Hf.
  assert (Es : step_of x = h).
  { unfold step_of, h, Reqb. replace (Raux.bpow Zaux.radix2 (-26)) with (/ 2 ^ 26).
    2:{ change (-26)%Z with (- (26))%Z. rewrite Raux.bpow_opp. f_equal. simpl. lra. }
    destruct (Req_EM_T x 0); field. }
  assert (Hh : 0 < h) by (rewrite <- Es; apply step_pos).
  destruct (Hf (x + h)) as (y1 & C1 & V1). { apply Rabs_le. lra. }
  destruct (Hf (x - h)) as (y2 & C2 & V2). { apply Rabs_le. lra. }
  destruct (partial_derivative_R f r args kw p y1 y2 G) as (c & Ec & Wc).
  - fold x. rewrite Es. exact C1.
  - fold x. rewrite Es. exact C2.
  - fold x in Wc. rewrite Es, V1, V2 in Wc. exists c. split; [exact Ec|]. split; [exact Hh|]. split; [|split].
    + rewrite Wc. field. lra.
    + intros a b k Q. rewrite Wc, !Q.
      replace ((a + b * (x + h) + k * (x + h) ^ 2 - (a + b * (x - h) + k * (x - h) ^ 2)) / 2 / h)
        with (b + 2 * k * x) by (field; lra).
      apply (is_derive_ext (fun t => a + b * t + k * t ^ 2)); [intros t; now rewrite Q|].
      auto_derive; auto. ring.
    + intros F1 F2 F3 M H. rewrite Wc.
      apply (central_difference F F1 F2 F3 x h M Hh); intros t Ht; apply (H t Ht).
Qed.
(** Only the argument [r] is changed. *)
Theorem only_argument : forall (N : NumOps) r args kw (a : plain N),
  let (args', kw') := arg_set r args kw a in
  (forall p, arg_get r args kw = Some p -> arg_get r args' kw' = Some a) /\
  forall r', r' <> r -> arg_get r' args' kw' = arg_get r' args kw.
Proof.
  intros N r args kw a. destruct r as [i|k]; cbn [arg_set arg_get].
  - split.
    + intros p. revert i. induction args as [|b args IH]; intros [|i]; cbn; try discriminate; auto.
    + intros [j|k] Hr; cbn [arg_get]; auto. assert (Hij : i <> j) by congruence. clear Hr. revert i j Hij.
      induction args as [|b args IH]; intros [|i] [|j] Hij; cbn; try congruence; auto.
  - split.
    + intros p. induction kw as [|[m b] kw IH]; cbn; try discriminate.
      destruct (Nat.eqb k m) eqn:E; cbn; rewrite E; auto.
    + intros [j|m] Hr; cbn [arg_get]; auto. assert (Hkm : m <> k) by congruence. clear Hr.
      induction kw as [|[n b] kw IH]; cbn; auto. destruct (Nat.eqb k n) eqn:E; cbn.
      * apply Nat.eqb_eq in E. subst n. now rewrite (proj2 (Nat.eqb_neq m k) Hkm).
      * destruct (Nat.eqb m n); auto.
Qed.
End NumDeriv.
