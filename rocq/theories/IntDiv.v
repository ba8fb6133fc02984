(** Quotients of Python ints in binary64. *)
From Coq Require Import ZArith List Bool Lia Reals Lra.
From Flocq Require Import Core BinarySingleNaN.
From Verif Require Import Base NumF Heap Affine Ops UMath Machine History FRefute BinProofs.
Import ListNotations.
Local Open Scope R_scope.

Lemma fratio_cases : forall a b, (0 < b)%Z ->
  (is_inf (fratio a b) = true /\ bpow radix2 1024 <= Rabs (rnd64 (IZR a / IZR b))) \/
  (is_inf (fratio a b) = false /\ is_finite (fratio a b) = true /\ B2R (fratio a b) = rnd64 (IZR a / IZR b)).
Proof.
  intros a b P. destruct (Z.eq_dec a 0) as [->|N].
  - right. assert (E : fratio 0 b = f0). { unfold fratio. cbv zeta. cbn [Z.abs]. rewrite Z.mul_0_l, Z.mod_0_l, Z.div_0_l by lia. reflexivity. }
    rewrite E. unfold Rdiv. rewrite Rmult_0_l. rewrite round_0 by apply valid_rnd_N. repeat split.
  - pose proof (fratio_R a b N P) as X. cbv zeta in X. destruct (Rlt_bool_spec (Rabs (rnd64 (IZR a / IZR b))) (bpow radix2 1024)) as [L|L].
    + right. destruct X as (X1 & X2 & _). split; [|split; [exact X2|exact X1]]. destruct (fratio a b); try discriminate X2; reflexivity.
    + left. split; [rewrite X; reflexivity|exact L].
Qed.
Theorem int_quotient : forall (lm : Libm) (a b : Z),
  (b = 0%Z /\ pn_div (N:=FOps lm) (PZ a) (PZ b) = Err EZeroDiv) \/
  (b <> 0%Z /\ bpow radix2 1024 <= Rabs (rnd64 (IZR a / IZR b)) /\ pn_div (N:=FOps lm) (PZ a) (PZ b) = Err EOverflow) \/
  (b <> 0%Z /\ exists r : f64, pn_div (N:=FOps lm) (PZ a) (PZ b) = Ok (PF (N:=FOps lm) r) /\ is_finite r = true /\ B2R r = rnd64 (IZR a / IZR b)).
Proof.
  intros lm a b. cbn [pn_div]. change (n_divZ (FOps lm) a b) with (f_divZ a b). unfold f_divZ. destruct (Z.eqb_spec b 0) as [->|N]; [left; split; reflexivity|right].
  cbv zeta. assert (X : exists a' b', (0 < b')%Z /\ IZR a / IZR b = IZR a' / IZR b' /\ (if (b <? 0)%Z then fratio (- a) (- b) else fratio a b) = fratio a' b').
  { destruct (Z.ltb_spec b 0) as [L|L]; [exists (- a)%Z, (- b)%Z|exists a, b]; (split; [lia|]; split; [|reflexivity]).
    - rewrite !opp_IZR. field. apply IZR_neq. exact N.
    - reflexivity. }
  destruct X as (a' & b' & P & E & ->). rewrite E. destruct (fratio_cases a' b' P) as [(I & L)|(I & F & V)]; rewrite I; cbn [rbind].
  - left. auto.
  - right. split; [exact N|]. eexists. split; [reflexivity|]. auto.
Qed.
(** (2**53 + 1) / 3 is an exact float; the quotient of the floats nearest to the two ints is another float. *)
Lemma ex_int_quotient : pn_div (N:=FOps lm0) (PZ (2 ^ 53 + 1)) (PZ 3) = Ok (PF (N:=FOps lm0) (fnorm ((2 ^ 53 + 1) / 3) 0)) /\
  Beqb (fdiv (fnorm (2 ^ 53 + 1) 0) (fnorm 3 0)) (fnorm ((2 ^ 53 + 1) / 3) 0) = false.
Proof.
  split; [|vm_compute; reflexivity]. cbn [pn_div]. change (n_divZ (FOps lm0) (2 ^ 53 + 1) 3) with (f_divZ (2 ^ 53 + 1) 3).
  assert (E : f_divZ (2 ^ 53 + 1) 3 = Ok (fnorm ((2 ^ 53 + 1) / 3) 0)).
  { unfold f_divZ. cbn [Z.eqb Z.ltb Z.compare]. cbv zeta.
    assert (X : fratio (2 ^ 53 + 1) 3 = fnorm ((2 ^ 53 + 1) / 3) 0) by (apply B2SF_inj; vm_compute; reflexivity).
    rewrite X. assert (Y : is_inf (fnorm ((2 ^ 53 + 1) / 3) 0) = false) by (vm_compute; reflexivity). rewrite Y. reflexivity. }
  rewrite E. reflexivity.
Qed.
