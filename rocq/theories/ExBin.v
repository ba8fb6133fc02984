(** A C library that satisfies the laws, and concrete cases for the theorems about binary64. *)
From Coq Require Import String.
From Coq Require Import ZArith List Bool Lia QArith Qabs Qminmax Lqa.
From Flocq Require Import BinarySingleNaN.
From Verif Require Import Base Str NumF FmtOps FmtF Format Parse FmtSpec BinSpec StrProofs DecProofs BinProofs BinRepr BinQ BinFmt ExFmt.
Import ListNotations.
Local Open Scope Z_scope.

(** ** A C library: exact logarithms, except that the floats nearest to powers of ten count as such *)
Definition log_x (x : f64) : Z :=
  match fdec x with
  | DNum false m e =>
      let f := dexp m e in
      if (-300 <=? f + 1) && (f + 1 <=? 300) && Beqb x (fdecimal false 1 (f + 1)) then f + 1 else f
  | _ => 0
  end.
Definition lmx : Libm10 := mkLibm10 log_x (fun n => fdecimal false 1 n).

Lemma pow_x : forall j, -300 <= j <= 300 -> fin (fdecimal false 1 j) /\ (0 < bq (fdecimal false 1 j))%Q /\
  (p10 j * (1 - hulp) <= bq (fdecimal false 1 j))%Q /\ (bq (fdecimal false 1 j) <= p10 j * (1 + hulp))%Q.
Proof.
  intros j H. assert (P := p10_pos j). assert (E : (inject_Z 1 * p10 j == p10 j)%Q) by (change (inject_Z 1) with 1%Q; ring).
  destruct (q_dec false 1 j ltac:(lia)) as (F & Sg & W).
  { rewrite E. apply p10_le. lia. } { rewrite E. apply p10_le. lia. }
  assert (X := bq_sign _ F). rewrite Sg in X. rewrite E, (Qabs_pos (bq _)) in W by exact X. apply Qabs_Qle_condition in W.
  assert (HU : (0 <= hulp)%Q /\ (hulp <= 1 # 10)%Q) by (split; vm_compute; discriminate).
  split; [exact F|]. split; [nra|]. split; lra.
Qed.
Lemma beqb_bq : forall x y, fin x -> fin y -> Beqb x y = true -> (bq x == bq y)%Q.
Proof.
  intros x y F G E. rewrite (Beqb_correct _ _ x y F G) in E. apply R_eq. rewrite !bq_B2R by assumption.
  revert E. case Raux.Req_bool_spec; [auto|discriminate].
Qed.
Lemma log_x_cases : forall x : f64, fin x -> (0 < bq x)%Q -> exists f, (p10 f <= bq x)%Q /\ (bq x < p10 (f + 1))%Q /\
  (log_x x = f \/ (log_x x = f + 1 /\ -300 <= f + 1 <= 300 /\ (bq x == bq (fdecimal false 1 (f + 1)))%Q)) /\
  (-300 <= f + 1 <= 300 -> x = fdecimal false 1 (f + 1) -> log_x x = f + 1).
Proof.
  intros x F P. assert (Sg := bq_sign x F). destruct (fdec_finite x F) as (m & e & E & Hm & _ & _). unfold log_x. unfold bq in *. rewrite E in *.
  destruct (Bsign x); [exfalso; lra|]. simpl dq in *.
  assert (Pm : 0 < m). { destruct (Z.eq_dec m 0) as [-> |]; [exfalso; change (inject_Z 0) with 0%Q in P; lra|lia]. }
  destruct (dexp_bounds m e Pm) as (A & B). exists (dexp m e). set (f := dexp m e) in *. split; [exact A|]. split; [exact B|]. split.
  - destruct ((-300 <=? f + 1) && (f + 1 <=? 300) && Beqb x (fdecimal false 1 (f + 1))) eqn:T; [right|left; reflexivity].
    apply andb_true_iff in T. destruct T as (T & T3). apply andb_true_iff in T. destruct T as (T1 & T2).
    split; [reflexivity|]. split; [lia|]. assert (X := beqb_bq x _ F (proj1 (pow_x (f + 1) ltac:(lia))) T3). unfold bq in X. rewrite E in X. exact X.
  - intros R Ex. replace (-300 <=? f + 1) with true by (symmetry; apply Z.leb_le; lia). replace (f + 1 <=? 300) with true by (symmetry; apply Z.leb_le; lia).
    cbn [andb]. rewrite <- Ex. replace (Beqb x x) with true; [reflexivity|]. symmetry. rewrite (Beqb_correct _ _ x x F F). apply Raux.Req_bool_true. reflexivity.
Qed.
Lemma lmx_laws : LibmLaws lmx.
Proof.
  assert (HU : (0 <= hulp)%Q /\ (hulp <= 1 # 9000000000000000)%Q) by (split; vm_compute; discriminate).
  split; cbn [lg10 pw10 lmx].
  - intros x F P. change (fval x) with (bq x) in *. destruct (log_x_cases x F P) as (f & A & B & C & _).
    assert (Pf := p10_pos f). assert (Pf1 := p10_pos (f + 1)).
    destruct C as [-> | (-> & R & E)].
    + split; nra.
    + destruct (pow_x (f + 1) R) as (_ & _ & C1 & C2). rewrite <- E in C1, C2.
      assert (Pf2 : (p10 (f + 1 + 1) == 10 * p10 (f + 1))%Q) by (rewrite p10_succ; ring). rewrite Pf2. split; nra.
  - intros j H. destruct (pow_x j H) as (F & P & A & B). destruct (log_x_cases _ F P) as (f & C1 & C2 & C3 & C4).
    assert (Pj := p10_pos j).
    assert (J : f = j \/ f + 1 = j).
    { assert (X1 : (p10 f < p10 (j + 1))%Q) by (rewrite p10_succ; nra).
      assert (X2 : (p10 (j - 1) < p10 (f + 1))%Q) by (assert (E : (p10 j == 10 * p10 (j - 1))%Q) by (rewrite <- p10_succ; replace (j - 1 + 1) with j by lia; reflexivity); nra).
      apply p10_lt_inv in X1. apply p10_lt_inv in X2. lia. }
    destruct J as [-> | <-]; [|apply C4; [exact H|reflexivity]].
    destruct C3 as [C3|(_ & R & E)]; [exact C3|exfalso]. destruct (pow_x (j + 1) R) as (_ & _ & D & _). rewrite <- E in D.
    assert (E10 : (p10 (j + 1) == 10 * p10 j)%Q) by (rewrite p10_succ; ring). rewrite E10 in D. nra.
  - intros x F P. change (fval x) with (bq x) in *. destruct (log_x_cases x F P) as (f & A & B & C & _).
    assert (T : 0 <= f <-> (1 <= bq x)%Q).
    { split; intros X.
      - assert (Y := p10_ge1 f X). lra.
      - assert (Y : (p10 0 < p10 (f + 1))%Q) by (rewrite p10_0; lra). apply p10_lt_inv in Y. lia. }
    destruct C as [-> | (-> & R & E)]; [exact T|]. rewrite <- T. split; [|lia]. intros X.
    destruct (Z.eq_dec (f + 1) 0) as [Y|Y]; [|lia]. rewrite Y in E. exfalso.
    assert (E1 : (bq (fdecimal false 1 0) == 1)%Q) by (vm_compute; reflexivity). rewrite E1 in E.
    assert (f < 0) by lia. assert (~ 0 <= f) by lia. apply H0. apply T. lra.
  - intros n H. destruct (pow_x n H) as (F & P & A & B). split; [exact F|]. change (fval (fdecimal false 1 n)) with (bq (fdecimal false 1 n)).
    apply Qabs_Qle_condition. assert (Pn := p10_pos n). nra.
Qed.

(** ** Concrete cases *)
Definition fl_of (m e : Z) : f64 := fdecimal (m <? 0) (Z.abs m) e.
Definition shown_x (nom s : f64) (spec : string) : res str := format_ufloat (K := BinOps lmx) uni nom s (lit spec).
(** 0.1 is written with its shortest digits and read again. *)
Lemma ex_bin_repr :
  (fval (fl_of (-1) (-1)) == -3602879701896397 # 36028797018963968)%Q /\
  repr_ufloat (K := BinOps lmx) (fl_of (-1) (-1)) (fl_of 3 (-2)) = lit "-0.1+/-0.03".
Proof. split; vm_compute; reflexivity. Qed.

(** The hypotheses hold, and the displays, for common numbers. *)
Lemma ex_bin_display :
  LibmLaws lmx /\
  (is_finite (fl_of (-314159) (-5)) = true /\ medium (Qabs (fval (fl_of (-314159) (-5)))) /\
   is_finite (fl_of 12 (-3)) = true /\ medium (fval (fl_of 12 (-3)))) /\
  shown_x (fl_of (-314159) (-5)) (fl_of 12 (-3)) "" = Ok (lit "-3.142+/-0.012") /\
  shown_x (fl_of (-314159) (-5)) (fl_of 12 (-3)) ".1uS" = Ok (lit "-3.14(1)") /\
  shown_x (fl_of 314159 20) (fl_of 12 22) "L" = Ok (lit "\left(3.142 \pm 0.012\right) \times 10^{25}") /\
  shown_x (fl_of 314159 (-5)) (fl_of 12 (-3)) "%" = Ok (lit "(314.2+/-1.2)%").
Proof.
  split; [exact lmx_laws|]. split; [repeat split; vm_compute; reflexivity || discriminate|].
  repeat split; vm_compute; reflexivity.
Qed.
(** The digits of the exact value of the float 0.1. *)
Lemma ex_bin_fixed :
  (is_finite (fl_of 1 (-1)) = true /\ is_finite (fl_of 3 (-2)) = true /\ (0 < fval (fl_of 3 (-2)))%Q /\
   exists p, parse_spec uni (lit ".25f") = Ok p /\ p_type p = lit "f" /\ p_uncert p = [] /\ p_prec p = Some (lit "25") /\ opt (p_opts p) 83 = false) /\
  shown_x (fl_of 1 (-1)) (fl_of 3 (-2)) ".25f" = Ok (lit "0.1000000000000000055511151+/-0.0299999999999999988897770").
Proof.
  split; [|vm_compute; reflexivity]. repeat (split; [reflexivity|]). eexists. split; [vm_compute; reflexivity|]. repeat split.
Qed.

(** ** What fails *)
(** The rule of the Particle Data Group is decided by a rounded quotient: 0.355 is below 0.355, and two
    digits are asked for; one is shown. *)
Lemma pdg_rounded :
  pdg_rule (fval (fl_of 355 (-3))) (fval (fl_of 355 (-3))) (-2) /\
  shown_x (fl_of 1 0) (fl_of 355 (-3)) "" = Ok (lit "1.0+/-0.4").
Proof.
  split; [|vm_compute; reflexivity]. exists (-1), 354. split; [vm_compute; discriminate|]. split; [reflexivity|].
  split; [vm_compute; discriminate|]. split; [reflexivity|]. left. split; [lia|]. split; [reflexivity|].
  apply has_digits_limit. exists 35, 355. 
  unfold half_even. repeat split; try lia; try (left; reflexivity).
Qed.
(** The smallest float cannot be displayed, since 10.**-324 is zero. *)
Lemma subnormal_fails : shown_x (fl_of 5 (-324)) (fl_of 5 (-324)) "" = Err EZeroDiv.
Proof. vm_compute. reflexivity. Qed.
(** Many digits in the shorthand notation are not those of the float. *)
Lemma short_inexact :
  shown_x (fl_of 1 (-1)) (fl_of 1 (-1)) ".25f" = Ok (lit "0.1000000000000000055511151+/-0.1000000000000000055511151") /\
  shown_x (fl_of 1 (-1)) (fl_of 1 (-1)) ".25fS" = Ok (lit "0.1000000000000000055511151(1000000000000000117440512)").
Proof. split; vm_compute; reflexivity. Qed.
