(** An uncertainty is at least as large as each of its components, in binary64. *)
From Coq Require Import ZArith List Bool Arith Lia Reals Lra.
From Flocq Require Import Core IEEE754.BinarySingleNaN.
From Verif Require Import Base NumF Heap HeapProofs Affine Ops UMath Machine Cov Copy Calls Unumpy UMatrix History CallProofs Fuel FRefute Deps AnySpec AnyArith OutcomeSpec Outcome OutcomeCov BinSqrt BiggerSpec Bigger.
Import ListNotations.

Lemma le_tr : forall u v w : f64, pos u -> le u v -> le v w -> le u w.
Proof.
  intros u v w Pu Lu Lv. destruct (le_nan _ _ Lu) as (Nu & Nv). destruct (le_nan _ _ Lv) as (_ & Nw).
  assert (Pv : pos v) by (apply pos_nn; [exact Nv|]; rewrite negative_iff; clear - Pu Lu; destruct u as [[]|[]| |[] m e c], v as [[]|[]| |[] m' e' c']; try discriminate Pu; try discriminate Lu; try discriminate; intros []).
  assert (Pw : pos w) by (apply pos_nn; [exact Nw|]; rewrite negative_iff; clear - Pv Lv; destruct v as [[]|[]| |[] m e c], w as [[]|[]| |[] m' e' c']; try discriminate Pv; try discriminate Lv; try discriminate; intros []).
  destruct (pos_cases w Pw) as [->|(Fw & _)]; [now apply top|]. assert (Fv := le_finite _ _ Pv Lv Fw). assert (Fu := le_finite _ _ Pu Lu Fv).
  apply le_fin in Lu; [|assumption|assumption]. apply le_fin in Lv; [|assumption|assumption]. apply le_fin; [assumption|assumption|lra].
Qed.
Lemma add_zero : forall x : f64, pos x -> le x (fadd f0 x) /\ le x (fadd x f0).
Proof.
  intros x P. assert (N := proj2 (le_nan _ _ P)). destruct x as [[]|[]| |[] m e b]; try discriminate P; try (split; reflexivity). split; apply le_refl_f; exact N.
Qed.
Lemma add_left : forall x y : f64, pos x -> pos y -> le x (fadd x y).
Proof.
  intros x y X Y. apply (le_tr _ (fadd x f0)); [exact X|apply add_zero; exact X|]. apply grow_add; [exact X|reflexivity| |exact Y]. apply le_refl_f. exact (proj2 (le_nan _ _ X)).
Qed.
Lemma add_right : forall x y : f64, pos x -> pos y -> le y (fadd x y).
Proof.
  intros x y X Y. apply (le_tr _ (fadd f0 y)); [exact Y|apply add_zero; exact Y|]. apply grow_add; [reflexivity|exact Y|exact X|]. apply le_refl_f. exact (proj2 (le_nan _ _ Y)).
Qed.

Section Parts.
Variables (lm : Libm) (SG : squares_grow lm).
Notation FN := (FOps lm).
Lemma square_pos : forall p q : pynum FN, okp lm p -> pos (pv lm p) -> pn_square p = Ok q -> okp lm q /\ pos (pv lm q).
Proof.
  intros p q O P H. destruct (square_value lm p q O H) as (Oq & E). split; [exact Oq|]. exact (SG f0 (pv lm p) f0 (pv lm q) eq_refl P (square_zero lm) E).
Qed.
Lemma sum_parts : forall l acc r, Forall (fun p => okp lm p /\ pos (pv lm p)) l -> okp lm acc -> pos (pv lm acc) -> sum_squares acc l = Ok r ->
  pos (pv lm r) /\ le (pv lm acc) (pv lm r) /\ forall p q, In p l -> pn_square p = Ok q -> le (pv lm q) (pv lm r).
Proof.
  induction l as [|p l IH]; intros acc r F O P H; cbn [sum_squares] in H.
  - injection H as <-. split; [exact P|]. split; [apply le_refl_f; exact (proj2 (le_nan _ _ P))|intros ? ? []].
  - apply List.Forall_cons_iff in F as ((Op & Pp) & F). destruct (pn_square p) as [s|] eqn:S; [|discriminate H]. cbn [rbind] in H. destruct (pn_add acc s) as [a|] eqn:Q; [|discriminate H]. cbn [rbind] in H.
    destruct (square_pos p s Op Pp S) as (Os & Ps). destruct (add_value lm acc s a O Os Q) as (Oa & Ea).
    assert (L1 := add_left _ _ P Ps). assert (L2 := add_right _ _ P Ps). rewrite <- Ea in L1, L2. assert (Pa := le_tr _ _ _ (eq_refl : pos f0) P L1). destruct (IH a r F Oa Pa H) as (Pr & La & K).
    split; [exact Pr|]. split; [exact (le_tr _ _ _ P L1 La)|]. intros p' q [<-|Hp] Hq; [|now apply (K p')]. rewrite S in Hq. injection Hq as <-. exact (le_tr _ _ _ Ps L2 La).
Qed.
End Parts.

Theorem parts_below : forall lm, exact_squares lm -> forall (st : state (FOps lm)) i u ins e s v c, is_number st i u -> ins = IStdS i \/ (ins = IStd i /\ uf_var u = None) ->
  reads st (IErrs i) (OErrs e) -> reads st ins (ONum (N:=FOps lm) s) -> is_nanf s = false -> In (v, PF c) e -> (B2R (c : f64) = 0 \/ / 2 ^ 500 <= B2R (c : f64) <= 2 ^ 500)%R -> Bleb c s = true.
Proof.
  intros lm ES st i u ins e s v c U A Re Rs Ns Hc Rg. assert (SG := exact_squares_grow lm ES).
  destruct (deviation_formula lm st i u ins s U A Rs) as (d & Rd & F). rewrite (components_any st i u d e U Rd Re) in Hc.
  unfold root_of_squares in F. rewrite sum_fold in F. cbn [rbind] in F. set (l := map (fun p => component (N:=FOps lm) (sd st (fst p)) (snd p)) d) in *.
  destruct (sum_squares (N:=FOps lm) (PZ 0) l) as [r|] eqn:Q; [|discriminate F]. cbn [rbind] in F.
  assert (Ol : Forall (okp lm) l) by (apply List.Forall_forall; intros p Hp; apply in_map_iff in Hp as (x & <- & _); apply okp_component).
  destruct (sum_fine lm l (PZ 0) r Ol eq_refl Q) as (Or & K). assert (Fs := sqrt_value lm r s Or F). destruct (K (sqrt_nan _ _ Fs Ns)) as (_ & Nl).
  assert (Pl : Forall (fun p => okp lm p /\ pos (pv lm p)) l).
  { apply List.Forall_forall. intros p Hp. rewrite List.Forall_forall in Ol, Nl. split; [now apply Ol|]. apply pos_nn; [now apply Nl|].
    apply in_map_iff in Hp as (x & <- & _). unfold component. destruct (n_eq (FOps lm) (sd st (fst x)) (n_zero (FOps lm))); [discriminate|apply nn_abs]. }
  assert (Hl : In (PF c) l) by (apply in_map_iff in Hc as (x & Ex & Hx); injection Ex as _ Ex; apply in_map_iff; exists x; auto).
  destruct (sum_parts lm SG l (PZ 0) r Pl eq_refl eq_refl Q) as (Pr & _ & Kp). rewrite List.Forall_forall in Pl. destruct (Pl _ Hl) as (_ & Pc). cbn [pv] in Pc.
  assert (Pos_s : pos s).
  { apply pos_nn; [exact Ns|]. destruct (nn_sqrt (pv lm r) (nn_pos _ Pr)) as (s' & E & Q'). rewrite Fs in E. injection E as ->. exact Q'. }
  destruct Rg as [Z|Rg].
  - destruct (pos_cases _ Pc) as [E|(Fc & _)].
    + rewrite E in *. assert (L := Kp (PF (B754_infinity false : num (FOps lm))) (PF (B754_infinity false : num (FOps lm))) Hl eq_refl). cbn [pv] in L.
      destruct (pos_cases _ Pr) as [Er|(Fr & _)]; [|destruct (pv lm r) as [t|[]| |[] m e' b]; try discriminate Fr; discriminate L]. rewrite Er in Fs. injection Fs as <-. reflexivity.
    + apply (le_tr _ f0 _ Pc); [|exact Pos_s]. apply le_fin; [exact Fc|reflexivity|rewrite Z; apply Rle_refl].
  - assert (Fc : is_finite (c : f64) = true).
    { destruct (pos_cases _ Pc) as [E|(Fc & _)]; [|exact Fc]. exfalso. rewrite E in Rg. cbn [B2R] in Rg. assert (0 < / 2 ^ 500)%R by (apply Rinv_0_lt_compat, pow_lt; lra). lra. }
    destruct (sqrt_square_f lm ES c Fc Rg) as (q & Q1 & Q2).
    assert (Sq : pn_square (N:=FOps lm) (PF c) = Ok (PF (q : num (FOps lm)))).
    { cbn [pn_square]. unfold n_powf. change (n_pow (FOps lm) c (n_two (FOps lm))) with (f_pow lm c ftwo). now rewrite Q1. }
    assert (L := Kp _ _ Hl Sq). cbn [pv] in L.
    assert (Pq : pos q) by exact (SG f0 (c : f64) f0 q eq_refl Pc (square_zero lm) Q1).
    assert (Lq : le (fadd f0 q) (pv lm r)) by (destruct q as [[]|[]| |[] m e' b]; try discriminate Pq; exact L).
    assert (P0 : pos (fadd f0 q)) by (apply (le_tr _ q); [reflexivity|exact Pq|apply add_zero; exact Pq]).
    exact (grow_sqrt _ _ _ _ P0 Lq Q2 Fs).
Qed.
