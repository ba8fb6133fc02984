(** umath.fmod() in binary64: examples. *)
From Coq Require Import ZArith List Bool Lia Reals Lra.
From Flocq Require Import Core BinarySingleNaN.
From Verif Require Import Base Heap HeapSpec NumF Affine Ops UMath Plain Machine History GenProofs FFacts FRefute BinProofs BinLibm BinStd NumFacts NumState FmodState.
Import ListNotations.
Local Open Scope R_scope.

Lemma ex_fmod_value : (exists x, nominal_f sv 0 x /\ is_finite x = true /\ B2R x = - 15 / 2) /\ (exists x, nominal_f sv 1 x /\ is_finite x = true /\ B2R x = 2) /\ ~ certain sv 0 /\
  exists st' (r : f64), does sv (ICall (m2_fun G_fmod) (m2_pos G_fmod) (m2_kw G_fmod) [0; 1]%nat []) st' ONone /\ nominal_f st' 4 r /\ B2R r = - 3 / 2.
Proof.
  destruct ex_nominal_values as (A & B & C & _). split; [exact A|]. split; [exact B|]. split; [exact C|].
  destruct (fnorm_exact (-3) (-1)) as (P1 & P2 & _); try lia.
  destruct (gives_does (ICall (m2_fun G_fmod) (m2_pos G_fmod) (m2_kw G_fmod) [0; 1]%nat []) (fnorm (-3) (-1))) as (st' & r & D & Q & E); [vm_cast_no_check (eq_refl true)|intros; reflexivity|exact P2|].
  exists st', r. split; [exact D|]. split; [exact Q|]. rewrite E, P1. simpl. lra.
Qed.
(** x = ufloat(inf, 1); y = ufloat(0, 1); z = ufloat(nan, 1): fmod(x, y) raises ValueError; fmod(x, z) and fmod(z, y) do not. *)
Definition odd : state FN := after [INew (PF (N:=FN) (B754_infinity false : f64)) (fl 1 0) None; INew (fl 0 0) (fl 1 0) None; INew (PF (N:=FN) (fnan : f64)) (fl 1 0) None].
Lemma ex_fmod_odd : exists x y z : f64, nominal_f odd 0 x /\ nominal_f odd 1 y /\ nominal_f odd 2 z /\
  is_nanf x = false /\ is_inf x = true /\ is_nanf y = false /\ (B2R y = 0 /\ is_finite y = true) /\ is_nanf z = true.
Proof.
  assert (G : forall i, match nth_error (st_env odd) i with Some (VUF u) => true | _ => false end = true -> nominal_f odd i (uf_nom (uf_at odd i))).
  { intros i H. exists (VUF (uf_at odd i)), (PF (N:=FN) (uf_nom (uf_at odd i))). split; [|split; reflexivity]. unfold uf_at in *. destruct (nth_error (st_env odd) i) as [[]|]; try discriminate H. reflexivity. }
  exists (uf_nom (uf_at odd 0)), (uf_nom (uf_at odd 1)), (uf_nom (uf_at odd 2)).
  split; [apply G; vm_cast_no_check (eq_refl true)|]. split; [apply G; vm_cast_no_check (eq_refl true)|]. split; [apply G; vm_cast_no_check (eq_refl true)|].
  assert (Y : uf_nom (uf_at odd 1) = f0) by (vm_compute; reflexivity).
  split; [vm_cast_no_check (eq_refl false)|]. split; [vm_cast_no_check (eq_refl true)|]. rewrite Y. split; [reflexivity|]. split; [split; reflexivity|]. vm_cast_no_check (eq_refl true).
Qed.
