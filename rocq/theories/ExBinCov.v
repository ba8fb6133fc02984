(** Concrete covariances in binary64: x = ufloat(3, 1), z = x*x - x. *)
From Coq Require Import ZArith List Bool Lia Reals Lra Permutation.
From Flocq Require Import Core BinarySingleNaN.
From Verif Require Import Base Heap HeapSpec NumR NumF Affine Ops UMath Machine Cov Calls Unumpy UMatrix History Fuel FFacts FRefute ExGen FmtF
  BinProofs BinQ BinStd GradSpec Evolve BinGrad BinGradThm GradStd BinSqrt ExGrad BinCov.
Import ListNotations.
Local Open Scope R_scope.

Lemma lin_z_range : range lin_z <= 3.
Proof.
  assert (S3 : size 3 <= 3) by (apply size_bound; rewrite ?Rabs_pos_eq by lra; lra).
  assert (S1 : size 1 <= 1) by (apply size_bound; rewrite ?Rabs_R1; lra).
  assert (Sm : size (-1) <= 1) by (apply size_bound; rewrite ?Rabs_left by lra; lra).
  unfold lin_z, call_lin, var_lin. cbn [range fold_right fst snd]. assert (Q := size_ge1 3). assert (Q1 := size_ge1 1). assert (Q2 := size_ge1 (-1)).
  assert (M : Rmax (size 3 * 1) (Rmax (size 3 * 1) 1) <= 3) by (repeat apply Rmax_lub; lra).
  assert (M0 : 0 <= Rmax (size 3 * 1) (Rmax (size 3 * 1) 1)) by (apply Rle_trans with (size 3 * 1); [lra|apply Rmax_l]).
  apply Rmax_lub; [|apply Rmax_lub; lra]. apply Rle_trans with (1 * 3); [apply Rmult_le_compat; lra|lra].
Qed.
Lemma three_big : 3 <= 2 ^ 200.
Proof. apply Rle_trans with (2 ^ 2); [lra|]. apply Rle_pow; [lra|]. apply Nat.leb_le. reflexivity. Qed.
Definition cov_check : bool :=
  match get_args (st_env g3) [2; 0]%nat with
  | Some l =>
      match covariance_matrix (fun l => l) 40 l (st_heap g3) with
      | (Ok m, _) => let e := fun i j z => is_finite (entry m i j : f64) && Beqb (entry m i j : f64) (fnorm z 0) in
          Nat.eqb (length m) 2 && (e 0%nat 0%nat 25%Z && e 0%nat 1%nat 5%Z && e 1%nat 1%nat 1%Z)
      | _ => false
      end
  | None => false
  end.
Lemma g3_covariance : exists m st', covariance (fun l => l) g3 [2; 0]%nat (Ok m) st' /\ length m = 2%nat /\
  forall i j z, In (i, j, z) [(0%nat, 0%nat, 25%Z); (0%nat, 1%nat, 5%Z); (1%nat, 1%nat, 1%Z)] ->
    is_finite (entry (N:=FN) m i j : f64) = true /\ B2R (entry (N:=FN) m i j : f64) = IZR z.
Proof.
  assert (C : cov_check = true) by (vm_compute; reflexivity). unfold cov_check in C. destruct (get_args (st_env g3) [2; 0]%nat) as [l|] eqn:G; [|discriminate C].
  destruct (covariance_matrix (fun l => l) 40 l (st_heap g3)) as [[m|e] h'] eqn:E; [|discriminate C]. cbv zeta beta in C. rewrite !andb_true_iff in C.
  destruct C as (C1 & (((C2 & C3) & (C4 & C5)) & (C6 & C7))). apply Nat.eqb_eq in C1.
  exists m, (mkState h' (st_env g3)). split.
  { exists l, 40%nat. split; [exact G|]. split; [reflexivity|]. intros fuel Hf.
    replace fuel with (40 + (fuel - 40))%nat by lia. rewrite (fm_cov (N:=FN) (fun l => l) l 40%nat (fuel - 40)%nat (st_heap g3)); [exact E|]. rewrite E. discriminate. }
  split; [exact C1|].
  assert (V : forall (x y : f64) r, is_finite x = true -> is_finite y = true -> Beqb x y = true -> B2R y = r -> B2R x = r).
  { intros x y r Fx Fy H Hr. rewrite (Beqb_correct _ _ x y Fx Fy) in H. destruct (Req_bool_spec (B2R x) (B2R y)) as [Q|]; [congruence|discriminate H]. }
  intros i j z [H|[H|[H|[]]]]; injection H as <- <- <-.
  - split; [exact C2|]. apply (V _ (fnorm 25 0) _ C2 eq_refl C3). change (B2R (fnorm 25 0)) with (IZR 7036874417766400 * / IZR 281474976710656). lra.
  - split; [exact C4|]. apply (V _ (fnorm 5 0) _ C4 eq_refl C5). change (B2R (fnorm 5 0)) with (IZR 5629499534213120 * / IZR 1125899906842624). lra.
  - split; [exact C6|]. apply (V _ (fnorm 1 0) _ C6 eq_refl C7). change (B2R (fnorm 1 0)) with (B2R fone). exact one_R.
Qed.
Lemma ex_covariance : exists L m st', squares_ok lm0 /\ traced lm0 g3 L /\ covariance (fun l => l) g3 [2; 0]%nat (Ok m) st' /\
  nth_error L 2%nat = Some (Some lin_z) /\ nth_error L 0%nat = Some (Some (var_lin 0%nat)) /\ small_lin lin_z /\ small_lin (var_lin 0%nat) /\
  (forall v, usual (sd g3 v : f64)) /\ (forall v, paths lin_z v <> 0 -> paths (var_lin 0%nat) v <> 0 -> In v [0%nat]) /\
  Rsum (map (fun v => grad lin_z v * grad (var_lin 0%nat) v * B2R (sd g3 v : f64) ^ 2) [0%nat]) = 5 /\ B2R (entry (N:=FN) m 0 1 : f64) = 5.
Proof.
  destruct g3_covariance as (m & st' & C & Ln & En). eexists _, m, st'. split; [apply exact_squares_ok, lm0_squares|]. split; [exact traced_g3|]. split; [exact C|].
  split; [reflexivity|]. split; [reflexivity|]. destruct lin_z_ok as (A & B & _). assert (Z := lin_z_range). assert (T := three_big).
  split; [split; [exact A|lra]|]. split. { split; [split|]; cbn [var_lin range roundings]; [vm_compute; discriminate| |lra]. apply pow_R1_Rle. lra. }
  assert (S : is_finite (sd g3 0%nat : f64) && Beqb (sd g3 0%nat : f64) fone = true) by evals. apply andb_true_iff in S as (S1 & S2).
  assert (S3 : B2R (sd g3 0%nat : f64) = 1).
  { assert (Y := Beqb_correct _ _ (sd g3 0%nat : f64) fone S1 eq_refl). rewrite one_R in Y. assert (Y2 := eq_trans (eq_sym Y) S2).
    destruct (Req_bool_spec (B2R (sd g3 0%nat : f64)) 1) as [E|]; [exact E|discriminate Y2]. }
  split.
  { intros [|v].
    - split; [exact S1|right]. rewrite S3. split; [|lra]. rewrite <- Rinv_1. apply Rinv_le_contravar; lra.
    - assert (X : sd g3 (Datatypes.S v) = n_zero FN) by (destruct v; reflexivity). rewrite X. split; [reflexivity|left; reflexivity]. }
  split. { intros v _ H. destruct v; [now left|]. exfalso. apply H. reflexivity. }
  split; [|exact (proj2 (En 0%nat 1%nat 5%Z ltac:(cbn; auto)))]. cbn [map Rsum]. rewrite S3, B. cbn [var_lin grad Nat.eqb]. lra.
Qed.
Lemma ex_correlation : exists m st', covariance (fun l => l) g3 [2; 0]%nat (Ok m) st' /\ length m = 2%nat /\
  let cov := fun i j => entry (N:=FN) m i j : f64 in
  is_finite (cov 0%nat 1%nat) = true /\ is_finite (cov 0%nat 0%nat) = true /\ is_finite (cov 1%nat 1%nat) = true /\
  moderate (B2R (cov 0%nat 0%nat)) /\ moderate (B2R (cov 1%nat 1%nat)) /\ moderate (Rabs (B2R (cov 0%nat 1%nat))) /\
  B2R (cov 0%nat 1%nat) / sqrt (B2R (cov 0%nat 0%nat) * B2R (cov 1%nat 1%nat)) = 1.
Proof.
  destruct g3_covariance as (m & st' & C & Ln & En). exists m, st'. split; [exact C|]. split; [exact Ln|]. cbv zeta.
  destruct (En 0%nat 0%nat 25%Z ltac:(cbn; auto)) as (F0 & E0). destruct (En 0%nat 1%nat 5%Z ltac:(cbn; auto)) as (F1 & E1). destruct (En 1%nat 1%nat 1%Z ltac:(cbn; auto)) as (F2 & E2).
  split; [exact F1|]. split; [exact F0|]. split; [exact F2|]. rewrite E0, E1, E2.
  assert (M : forall x, 1 <= x <= 100 -> moderate x).
  { intros x Hx. assert (B : 10 ^ 2 <= 10 ^ 100) by (apply Rle_pow; [lra|apply Nat.leb_le; reflexivity]). split; [|lra].
    apply Rle_trans with 1; [|lra]. rewrite <- Rinv_1. apply Rinv_le_contravar; lra. }
  split; [apply M; lra|]. split; [apply M; lra|]. split; [rewrite Rabs_pos_eq by lra; apply M; lra|].
  replace (25 * 1) with (5 * 5) by ring. rewrite sqrt_square by lra. field.
Qed.
