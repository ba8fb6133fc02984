(** Variances in binary64. *)
From Coq Require Import ZArith List Bool Arith Lia Reals Lra.
From Flocq Require Import Core IEEE754.BinarySingleNaN.
From Verif Require Import Base NumF Heap HeapProofs Affine Ops UMath Machine Cov Copy Calls Unumpy UMatrix History CallProofs Fuel Deps AnySpec AnyArith OutcomeSpec Outcome.
Import ListNotations.

Lemma nn_sign : forall x : f64, Bsign x = false -> ~ negative x.
Proof. intros x S. rewrite negative_iff. destruct x as [s|s| |s m e b]; cbn in S; subst; try discriminate; intros []. Qed.
Lemma sign_nn : forall x : f64, is_finite x = true -> B2R x <> 0%R -> ~ negative x -> Bsign x = false.
Proof. intros x F Z. rewrite negative_iff. destruct x as [s| | |[] m e b]; try discriminate F; cbn; [now elim Z|intros H; now elim H|reflexivity]. Qed.
Lemma nn_self : forall x : f64, ~ negative (fmul x x).
Proof.
  intros x. pose proof (Bmult_correct 53 1024 prec_gt_0_64 prec_lt_emax_64 mode_NE x x) as C. fold (fmul x x) in C.
  destruct (is_nanf (fmul x x)) eqn:Na; [destruct (fmul x x); try discriminate Na; discriminate|]. apply nn_sign. revert C. case Rlt_bool; intros C.
  - destruct C as (_ & _ & C). rewrite C; [now rewrite Bool.xorb_nilpotent|]. destruct (fmul x x); try reflexivity. discriminate Na.
  - rewrite Bool.xorb_nilpotent in C. destruct (fmul x x); try discriminate C; now injection C as ->.
Qed.
Lemma nn_mul : forall x y : f64, ~ negative x -> ~ negative y -> ~ negative (fmul x y).
Proof.
  intros x y X Y. destruct (is_finite x) eqn:Fx; [destruct (is_finite y) eqn:Fy|].
  - pose proof (Bmult_correct 53 1024 prec_gt_0_64 prec_lt_emax_64 mode_NE x y) as C. fold (fmul x y) in C.
    assert (X' := proj1 (nn_real x Fx) X). assert (Y' := proj1 (nn_real y Fy) Y). revert C. case Rlt_bool_spec; intros L C.
    + destruct C as (C1 & C2 & _). rewrite Fx, Fy in C2. apply nn_real; [exact C2|]. rewrite C1. apply round_nn. now apply Rmult_le_pos.
    + assert (Z : (B2R x * B2R y <> 0)%R).
      { intros E. rewrite E, round_0 in L by apply valid_rnd_N. rewrite Rabs_R0 in L. apply (Rlt_not_le _ _ (bpow_gt_0 radix2 1024)). exact L. }
      rewrite (sign_nn x Fx) in C; [|intros E; apply Z; rewrite E; ring|exact X]. rewrite (sign_nn y Fy) in C; [|intros E; apply Z; rewrite E; ring|exact Y].
      apply nn_sign. destruct (fmul x y); try discriminate C; now injection C as ->.
  - rewrite negative_iff in *. destruct x as [s|[]| |[] m e b], y as [t|[]| |[] n f c]; try discriminate Fx; try discriminate Fy; cbn; try (now elim X); try (now elim Y); try discriminate; auto.
  - rewrite negative_iff in *. destruct x as [s|[]| |[] m e b], y as [t|[]| |[] n f c]; try discriminate Fx; cbn; try (now elim X); try (now elim Y); try discriminate; auto.
Qed.
Lemma nn_covariance : forall lm, squares_not_negative lm -> forall (sd : varid -> f64) (d : dict (FOps lm)) vs r, covariance_sum (N:=FOps lm) sd d d vs = Ok r -> ~ negative r.
Proof.
  intros lm SQ sd d vs r. unfold covariance_sum. change (n_zero (FOps lm)) with f0. assert (Z : ~ negative f0) by discriminate. revert Z. generalize f0 as acc.
  induction vs as [|v vs IH]; intros acc A H; cbn [fold_left] in H; [injection H as <-; exact A|]. cbn [rbind] in H.
  assert (E : forall e, fold_left (fun acc v => rbind acc (fun c => rbind (n_powf (N:=FOps lm) (sd v) (n_two (FOps lm))) (fun s2 =>
    match dget d v, dget d v with Some x, Some y => Ok (n_add (FOps lm) c (n_mul (FOps lm) (n_mul (FOps lm) x y) s2)) | _, _ => Err EKey end))) vs (Err e) <> Ok r).
  { intros e. clear. induction vs as [|v vs IH]; cbn [fold_left]; [discriminate|exact IH]. }
  assert (P : n_powf (N:=FOps lm) (sd v) (n_two (FOps lm)) = Err EOverflow \/ exists s : f64, n_powf (N:=FOps lm) (sd v) (n_two (FOps lm)) = Ok s /\ ~ negative s).
  { unfold n_powf. change (n_pow (FOps lm) (sd v) (n_two (FOps lm))) with (f_pow lm (sd v) ftwo).
    destruct (nn_pow lm SQ (sd v)) as [Q|(s & Q & S)]; rewrite Q; [now left|right; exists s; auto]. }
  destruct P as [Q|(s & Q & S)]; rewrite Q in H; cbn [rbind] in H; [now apply E in H|].
  destruct (dget d v) as [x|]; [|now apply E in H]. apply IH in H; [exact H|].
  change (~ negative (fadd acc (fmul (fmul x x) s))). apply nn_add; [exact A|]. apply nn_mul; [apply nn_self|exact S].
Qed.
Lemma covariance_reads : forall (N : NumOps) order (st : state N) is m st' a i, covariance order st is (Ok m) st' -> nth_error is a = Some i -> exists d, reads st' (IDeriv i) (ODict d).
Proof.
  intros N order st is m st' a i (l & k & G & En & H) Ha. specialize (H k (le_n k)). unfold covariance_matrix in H.
  apply bind_ok in H as (m0 & h1 & H & E). injection E as <- E. subst h1.
  assert (Gl : exists w, nth_error (st_env st) i = Some w /\ nth_error l a = Some w).
  { clear - G Ha. revert l a G Ha. induction is as [|y is IH]; intros l c G Hc; [destruct c; discriminate Hc|]. cbn in G.
    destruct (nth_error (st_env st) y) as [w|] eqn:Y; [|discriminate G]. destruct (get_args (st_env st) is) as [l'|] eqn:L; [|discriminate G]. injection G as <-.
    destruct c as [|c]; cbn in Hc; [injection Hc as <-; eauto|]. exact (IH l' c eq_refl Hc). }
  destruct Gl as (w & Ew & Lw). destruct (rows_entries _ _ _ _ _ _ _ _ H) as (_ & Q). destruct (Q a w Lw) as (u & d1 & -> & G1 & _). exists d1.
  apply (reads_step 0); [|discriminate]. cbn [step]. unfold with_uf, with_val. rewrite En, Ew. unfold observe, derivatives, lc_derivatives. now rewrite G1.
Qed.
Theorem variances_not_negative : forall lm, squares_not_negative lm -> forall order (st : state (FOps lm)) is m st' a i, covariance order st is (Ok m) st' ->
  nth_error is a = Some i -> ~ negative (entry (N:=FOps lm) m a a).
Proof.
  intros lm SQ order st is m st' a i C A. destruct (covariance_reads _ _ _ _ _ _ _ _ C A) as (d & D).
  assert (E := entries_any (N:=FOps lm) order st is m st' a a i i d d C A A (le_n _) D D). exact (nn_covariance lm SQ _ _ _ _ E).
Qed.
