(** Larger standard deviations, whatever happens in between. *)
From Coq Require Import ZArith List Bool Arith Lia Relations.
From Flocq Require Import Core IEEE754.BinarySingleNaN.
From Verif Require Import Base NumF Heap HeapProofs Affine Ops UMath Machine Cov Copy Calls Unumpy UMatrix History CallProofs Fuel AnySpec AnyArith TwinSpec StaySpec Stay BiggerSpec Bigger.
Import ListNotations.

Theorem larger_deviations : forall lm, squares_grow lm -> forall (st0 st st' : state (FOps lm)) i u d ins s t, reachable st0 -> is_number st0 i u -> does st0 (IDeriv i) st (ODict d) -> afterwards st st' ->
  (forall v, In v (dkeys d) -> sd st' v = sd st v \/ (Bleb f0 (sd st v) = true /\ Bleb (sd st v) (sd st' v) = true)) ->
  ins = IStdS i \/ (ins = IStd i /\ uf_var u = None) -> reads st ins (ONum (N:=FOps lm) s) -> reads st' ins (ONum (N:=FOps lm) t) ->
  is_nanf s = false -> is_nanf t = false -> Bleb s t = true.
Proof.
  intros lm SG st0 st st' i u d ins s t R U D A H Q Rs Rt Ns Nt.
  destruct (derivatives_stay st0 st st' i u d R U D A) as (U' & D'). destruct (derivatives_stay st0 st st i u d R U D (rt1n_refl _ _ _)) as (U1 & D1).
  destruct (deviation_formula lm st i u ins s U1 Q Rs) as (d1 & Rd & Fs). destruct (deviation_formula lm st' i u ins t U' Q Rt) as (d2 & Rd' & Ft).
  assert (X := reads_one lm st (IDeriv i) _ _ (ex_intro _ st D1) Rd). injection X as <-. assert (X := reads_one lm st' (IDeriv i) _ _ (ex_intro _ st' D') Rd'). injection X as <-.
  refine (roots_below lm SG d (sd st) (sd st') s t _ Fs Ft Ns Nt). intros v Hv. destruct (H v Hv) as [E|E]; [left; now symmetry|right; exact E].
Qed.
