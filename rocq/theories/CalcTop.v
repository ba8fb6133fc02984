(** Histories of analytic operations: computed derivatives against exact gradients. *)
From Coq Require Import ZArith List Bool Lia Reals Lra.
From Coquelicot Require Import Coquelicot.
From Flocq Require Import Core BinarySingleNaN.
From Verif Require Import Base Heap HeapSpec HeapProofs NumR NumF Affine Ops UMath Machine Cov Calls Unumpy UMatrix History Fuel FFacts FRefute FmtF
  BinProofs BinQ NumFacts BinStd BinArith GradSpec Evolve BinGrad BinGradThm GradStd BinCov DerivR Prim Refine PrimReg CalcSpec CalcThm CalcAlg CalcFun CalcOp CalcPow CalcMore CalcTwo.
Import ListNotations.
Local Open Scope R_scope.
Section Top.
Variable lm : Libm.
Notation FN := (FOps lm).
Hypothesis OK : libm_ok lm.
Hypothesis OK2 : libm2_ok lm.

Lemma same_derive : forall (f : R -> R) (x a b : R), is_derive f x a -> is_derive f x b -> a = b.
Proof. intros f x a b A B. apply is_derive_unique in A. apply is_derive_unique in B. congruence. Qed.
Lemma ea_cons : forall (st : state FN) L c j cs l, exact_args lm st L ((c, j) :: cs) l ->
  (exists a, nth_error (st_env st) j = Some (VPlain a) /\ exact_args lm st L cs l) \/
  (exists u a l', is_number st j u /\ nth_error L j = Some (Some a) /\ l = (c, a) :: l' /\ exact_args lm st L cs l').
Proof. intros st L c j cs l H. inversion H; subst; [left; eauto|right; eauto 8]. Qed.
Lemma at_cons : forall (st : state FN) L r c j cs l, exact_args lm st L ((c, j) :: cs) l ->
  (exists c', r = Ok c' /\ cfinite lm c' = true /\ about (cval lm c') c) ->
  forall ds, (forall l', exact_args lm st L cs l' -> about_terms lm st L ds l') -> about_terms lm st L ((r, j) :: ds) l.
Proof.
  intros st L r c j cs l H (c' & -> & F & A) ds K. destruct (ea_cons _ _ _ _ _ _ H) as [(a & P & Q)|(u & a & l' & P & Q & -> & R)].
  - eapply about_plain; [exact P|]. now apply K.
  - eapply about_number; [exact P|exact F|exact A|exact Q|]. now apply K.
Qed.
Lemma at_nil : forall (st : state FN) L l, exact_args lm st L [] l -> about_terms lm st L [] l.
Proof. intros st L l H. inversion H. constructor. Qed.

Lemma analytic_calculated : forall st L, analytic lm st L -> calculated lm st L.
Proof.
  intros st L H. induction H.
  - constructor.
  - eapply calc_new; eassumption.
  - eapply calc_operator; try eassumption. destruct (operator_derivatives lm OK op p q) as (c1 & c2 & D1 & D2 & A1 & A2); try assumption.
    assert (E1 : c1 = cx). { eapply same_derive; [exact D1|assumption]. }
    assert (E2 : c2 = cy). { eapply same_derive; [exact D2|assumption]. }
    subst c1 c2. eapply at_cons; [eassumption|apply A1; assumption|]. intros l' H'. eapply at_cons; [exact H'|apply A2; assumption|].
    intros l'' H''. now apply at_nil.
  - assert (Ha : nominal_value (VUF w) = PNum (PF (N:=FN) (uf_nom w))) by reflexivity.
    eapply (calc_operator lm st L Bpow i j st' (VUF w) (VPlain (PNum q)) (PF (N:=FN) (uf_nom w)) q u l); try eassumption; try reflexivity.
    destruct (integer_power lm OK (uf_nom w : f64) q n) as (c1 & D1 & A1); try assumption; try (subst x; assumption).
    assert (E1 : c1 = c). { subst x. eapply same_derive; [exact D1|assumption]. }
    subst c1. eapply at_cons; [eassumption|apply A1; assumption|]. intros l' H'. inversion H'. subst. eapply about_plain; [eassumption|constructor].
  - eapply (calc_function lm st L (m1_fun f) (m1_pos f) (m1_kw f) [i] [] st' [VUF w] [] u l); try eassumption.
    + unfold get_args. cbn [map]. cbn. match goal with X : is_number st i w |- _ => unfold is_number in X; rewrite X end. reflexivity.
    + reflexivity.
    + cbn [map app seq length combine nominal_value fst snd].
      destruct (settled_derivative lm OK f (uf_nom w : f64)) as (c1 & D1 & A1); try (subst x; assumption).
      assert (E1 : c1 = c). { subst x. eapply same_derive; [exact D1|assumption]. }
      subst c1. eapply at_cons; [eassumption|apply A1; assumption|]. intros l' H'. now apply at_nil.
  - eapply (calc_function lm st L (m2_fun f) (m2_pos f) (m2_kw f) [i; j] [] st' [a; b] [] u l); try eassumption.
    + unfold get_args. cbn [map]. cbn. repeat match goal with X : nth_error (st_env st) _ = Some _ |- _ => rewrite X; clear X end. reflexivity.
    + reflexivity.
    + cbn [map app seq length combine fst snd]. repeat match goal with X : nominal_value _ = PNum _ |- _ => rewrite X; clear X end.
      destruct (function2_derivatives lm OK OK2 f p q) as (c1 & c2 & D1 & D2 & A1 & A2); try assumption.
      assert (E1 : c1 = cx). { eapply same_derive; [exact D1|assumption]. }
      assert (E2 : c2 = cy). { eapply same_derive; [exact D2|assumption]. }
      subst c1 c2. eapply at_cons; [eassumption|apply A1; assumption|]. intros l' H'. eapply at_cons; [exact H'|apply A2; assumption|].
      intros l'' H''. now apply at_nil.
  - eapply calc_other; eassumption.
Qed.
Theorem analytic_accurate : forall st L i a, analytic lm st L -> nth_error L i = Some (Some a) -> well_in_range a ->
  exists d, reads st (IDeriv i) (ODict d) /\ NoDup (dkeys d) /\ (forall v x, dget d v = Some x -> is_finite (x : f64) = true) /\
    forall v, Rabs (fval lm d v - grad a v) <= INR (roundings a) / 2 ^ 52 * paths a v.
Proof. intros st L i a H. now apply calculus_accurate, analytic_calculated. Qed.
End Top.

(** The statements, for any C library. *)
Theorem calculus_functions : forall lm f (x : f64), libm_ok lm -> settled f (B2R x) -> is_finite x = true -> m1_dom f (B2R x) -> tame (B2R x) ->
  exists c, is_derive (real_fun f) (B2R x) c /\
    (tame c -> exists c', m1_pos (N:=FOps lm) f 0 [PNum (PF (N:=FOps lm) x)] [] = Ok c' /\ cfinite lm c' = true /\ about (cval lm c') c).
Proof. intros lm f x OK. now apply settled_derivative. Qed.
Theorem calculus_functions2 : forall lm f (p q : pynum (FOps lm)), libm_ok lm -> libm2_ok lm -> cfinite lm p = true -> cfinite lm q = true ->
  representable (cval lm p) -> representable (cval lm q) -> m2_dom f true true (cval lm p) (cval lm q) -> tame (cval lm p) -> tame (cval lm q) -> settled2 f (cval lm p) (cval lm q) ->
  exists cx cy, is_derive (fun t => real_fun2 f t (cval lm q)) (cval lm p) cx /\ is_derive (fun t => real_fun2 f (cval lm p) t) (cval lm q) cy /\
    (tame cx -> exists c, m2_pos (N:=FOps lm) f 0 [PNum p; PNum q] [] = Ok c /\ cfinite lm c = true /\ about (cval lm c) cx) /\
    (tame cy -> exists c, m2_pos (N:=FOps lm) f 1 [PNum p; PNum q] [] = Ok c /\ cfinite lm c = true /\ about (cval lm c) cy).
Proof. intros lm f p q OK OK2. now apply function2_derivatives. Qed.
Theorem calculus_operators : forall lm op (p q : pynum (FOps lm)), libm_ok lm -> cfinite lm p = true -> cfinite lm q = true -> op_dom op (cval lm p) (cval lm q) ->
  exists cx cy, is_derive (fun t => real_op op t (cval lm q)) (cval lm p) cx /\ is_derive (fun t => real_op op (cval lm p) t) (cval lm q) cy /\
    (tame cx -> exists c, op_der_x op p q = Ok c /\ cfinite lm c = true /\ about (cval lm c) cx) /\
    (tame cy -> exists c, op_der_y op p q = Ok c /\ cfinite lm c = true /\ about (cval lm c) cy).
Proof. intros lm op p q OK. now apply operator_derivatives. Qed.
Theorem calculus_powers : forall lm (x : f64) (q : pynum (FOps lm)) n, libm_ok lm -> is_finite x = true -> B2R x <> 0 -> tame (B2R x) ->
  cfinite lm q = true -> cval lm q = IZR n -> tame (IZR n) -> representable (IZR n) -> representable (IZR n - 1) ->
  exists c, is_derive (fun t => powerRZ t n) (B2R x) c /\
    (tame c -> exists c', op_der_x Bpow (PF (N:=FOps lm) x) q = Ok c' /\ cfinite lm c' = true /\ about (cval lm c') c).
Proof. intros lm x q n OK. now apply integer_power. Qed.
Theorem calculus_histories : forall lm st L i a, libm_ok lm -> libm2_ok lm -> analytic lm st L -> nth_error L i = Some (Some a) -> well_in_range a ->
  exists d, reads st (IDeriv i) (ODict d) /\ NoDup (dkeys d) /\ (forall v x, dget d v = Some x -> is_finite (x : f64) = true) /\
    forall v, Rabs (fval lm d v - grad a v) <= INR (roundings a) / 2 ^ 52 * paths a v.
Proof. intros lm st L i a OK OK2. now apply analytic_accurate. Qed.
