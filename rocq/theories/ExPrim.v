(** Concrete instances for the local chain-rule theorems. *)
From Coq Require Import ZArith List Bool Reals Lra Lia.
From Coquelicot Require Import Coquelicot.
From Flocq Require Raux.
From Verif Require Import Base Heap Affine Ops UMath NumR HeapSpec Machine Spec Plain Regular
  History HistoryProofs Prim PrimReg Refine ChainProofs Examples.
Import ListNotations.
Local Open Scope R_scope.

Ltac big fuel H := match type of H with (?k <= _)%nat =>
  replace fuel with (k + (fuel - k))%nat by lia; cbn [Nat.add] end.
Section Ex.
Context {g lg : R -> R}.
Notation RN := (ROps g lg).

(** A user function f(a, b, k=c) = a*b + c with its derivatives. *)
Definition user_f : pyfun RN := fun args kw =>
  match args, kw with
  | [PNum (PF a); PNum (PF b)], [(0%nat, PNum (PF c))] => Ok (PNum (PF (N:=RN) (a * b + c)))
  | _, _ => Err EType
  end.
Definition user_pos (i : nat) : pyder RN := fun args kw =>
  match args with [PNum a; PNum b] => Ok (match i with O => b | _ => a end) | _ => Err EType end.
Definition user_kwd (k : nat) : pyder RN := fun _ _ => Ok (PZ 1).

(** x = ufloat(1, 3); y = ufloat(2, 4) *)
Definition xy_st : state RN := fst (run 0 init (firstn 2 ex_prog)).
Lemma xy_reach : reachable xy_st.
Proof. exact (reach_runs _ _ _ _ reach_init (runs_nofuel (firstn 2 ex_prog) eq_refl)). Qed.
Lemma xy_x : is_number xy_st 0 (mkUF (N:=RN) 1 0%nat (Some 0%nat)).
Proof. reflexivity. Qed.
Lemma xy_y : is_number xy_st 1 (mkUF (N:=RN) 2 1%nat (Some 1%nat)).
Proof. reflexivity. Qed.
Lemma xy_dx : deriv_is xy_st 0 0%nat 1 /\ deriv_is xy_st 1 0%nat 0.
Proof.
  split; simpl; eexists; (split; [eexists; exists 0%nat; intros; reflexivity|reflexivity]).
Qed.

(** f(x, x, k=y) *)
Definition user_ins : instr RN := ICall user_f user_pos user_kwd [0%nat; 0%nat] [(0%nat, 1%nat)].
Lemma ex_C27 : reachable xy_st /\ deriv_is xy_st 0 0%nat 1 /\ deriv_is xy_st 1 0%nat 0 /\
  exists st' w d, does xy_st user_ins st' ONone /\
  is_number st' (length (st_env xy_st)) w /\ reads st' (IDeriv (length (st_env xy_st))) (ODict d) /\
  uf_nom w = 3 /\ dval d 0%nat = 2 /\ dval d 1%nat = 1.
Proof.
  split; [exact xy_reach|]. split; [apply xy_dx|]. split; [apply xy_dx|].
  eexists _, _, _. split; [exists 0%nat; intros; reflexivity|]. split; [reflexivity|].
  split; [eexists; exists 9%nat; intros fuel H; big fuel H; reflexivity|].
  cbn; repeat split; lra.
Qed.

(** x*y; x/y and x//y are in the domain as well. *)
Lemma ex_C21 : reachable xy_st /\ has_nominal xy_st 0 (PF (N:=RN) 1) /\ has_nominal xy_st 1 (PF (N:=RN) 2) /\
  uncertain xy_st 0 /\ uncertain xy_st 1 /\
  op_dom Btruediv true false 1 2 /\ op_dom Btruediv false true 1 2 /\ op_dom Bfloordiv true false 1 2 /\
  exists st' w d, does xy_st (IBin Bmul 0 1) st' ONone /\
  is_number st' (length (st_env xy_st)) w /\ reads st' (IDeriv (length (st_env xy_st))) (ODict d) /\
  uf_nom w = 2 /\ dval d 0%nat = 2 /\ dval d 1%nat = 1.
Proof.
  split; [exact xy_reach|]. split; [eexists; split; reflexivity|]. split; [eexists; split; reflexivity|].
  split; [eexists; reflexivity|]. split; [eexists; reflexivity|].
  split; [simpl; lra|]. split; [simpl; lra|]. split.
  { simpl. split; [lra|]. intros [z Hz]. apply (f_equal (Rmult 2)) in Hz.
    replace (2 * (1 / 2)) with (IZR 1) in Hz by (simpl; lra).
    rewrite <- mult_IZR in Hz. apply eq_IZR in Hz. lia. }
  eexists _, _, _. split; [exists 0%nat; intros; reflexivity|]. split; [reflexivity|].
  split; [eexists; exists 9%nat; intros fuel H; big fuel H; reflexivity|].
  cbn; repeat split; lra.
Qed.

Lemma ex_C22 : pow_dom true false (-2) 3 /\ pow_dom false true 2 (-3) /\ pow_dom true false 0 0 /\
  ~ pow_dom true false 0 (/ 2) /\ Rpow_py 0 (/ 2) = Ok (Some 0) /\
  ~ pow_dom false true (-2) 3 /\ Rpow_py (-2) 3 = Ok (Some (-8)).
Proof.
  assert (NI : ~ integral (/ 2)).
  { intros [z Hz]. apply (f_equal (Rmult 2)) in Hz. replace (2 * / 2) with (IZR 1) in Hz by (simpl; lra).
    rewrite <- mult_IZR in Hz. apply eq_IZR in Hz. lia. }
  repeat split.
  - right; left. split; [reflexivity|]. split; [exists 3%Z; reflexivity|left; lra].
  - left; lra.
  - right; left. split; [reflexivity|]. split; [exists 0%Z; reflexivity|right; lra].
  - intros [H|[(_ & H & _)|(H & _)]]; [lra|exact (NI H)|discriminate].
  - unfold Rpow_py. rewrite (proj2 (Reqb_false _ _)) by lra.
    rewrite (proj2 (Rltb_false _ _)) by lra. rewrite (proj2 (Reqb_true _ _)) by lra.
    rewrite (proj2 (Rltb_true _ _)) by lra. reflexivity.
  - intros [H|[(H & _ & _)|(_ & H & _)]]; [lra|discriminate|lra].
  - unfold Rpow_py. rewrite (proj2 (Reqb_false 3 0)) by lra.
    rewrite (proj2 (Rltb_false _ _)) by lra. rewrite (proj2 (Reqb_false (-2) 0)) by lra.
    unfold Ris_int. change 3 with (IZR 3). rewrite Raux.Zfloor_IZR.
    rewrite (proj2 (Reqb_true _ _)) by reflexivity. do 2 f_equal. simpl. ring.
Qed.

(** umath.hypot(x, y); umath.sin(x) *)
Lemma ex_C23 : reachable xy_st /\ m1_dom F_sin 1 /\ m1_dom F_log 1 /\ m2_dom G_hypot true false 1 2 /\
  exists st' w d, does xy_st (ICall (m1_fun F_sin) (m1_pos F_sin) (m1_kw F_sin) [0%nat] []) st' ONone /\
  is_number st' (length (st_env xy_st)) w /\ reads st' (IDeriv (length (st_env xy_st))) (ODict d) /\
  uf_nom w = sin 1 /\ dval d 0%nat = cos 1.
Proof.
  split; [exact xy_reach|]. split; [exact I|]. split; [simpl; lra|]. split; [simpl; lra|].
  eexists _, _, _. split; [exists 0%nat; intros; reflexivity|]. split; [reflexivity|].
  split; [eexists; exists 9%nat; intros fuel H; big fuel H; reflexivity|].
  split; [reflexivity|]. cbn. ring.
Qed.
(** umath.fsum([x, y, x]) *)
Lemma ex_C30 : reachable xy_st /\
  exists st' w d, does xy_st (ICall flat_fsum fsum_pos fsum_kw [0; 1; 0]%nat []) st' ONone /\
  is_number st' (length (st_env xy_st)) w /\ reads st' (IDeriv (length (st_env xy_st))) (ODict d) /\
  uf_nom w = 4 /\ dval d 0%nat = 2 /\ dval d 1%nat = 1.
Proof.
  split; [exact xy_reach|].
  eexists _, _, _. split; [exists 0%nat; intros; reflexivity|]. split; [reflexivity|].
  split; [eexists; exists 9%nat; intros fuel H; big fuel H; reflexivity|].
  cbn; repeat split; lra.
Qed.
Lemma ex_C30_modf : reachable xy_st /\
  exists st' w d, does xy_st (IModf 0) st' ONone /\
  is_number st' (length (st_env xy_st)) w /\ reads st' (IDeriv (length (st_env xy_st))) (ODict d) /\
  dval d 0%nat = 1.
Proof.
  split; [exact xy_reach|].
  eexists _, _, _. split; [exists 0%nat; intros; reflexivity|]. split; [reflexivity|].
  split; [eexists; exists 9%nat; intros fuel H; big fuel H; reflexivity|]. reflexivity.
Qed.
Lemma ex_C30_ldexp : reachable xy_st /\
  exists st' w d, does xy_st (ILdexp 0 3) st' ONone /\
  is_number st' (length (st_env xy_st)) w /\ reads st' (IDeriv (length (st_env xy_st))) (ODict d) /\
  uf_nom w = 8 /\ dval d 0%nat = 8.
Proof.
  split; [exact xy_reach|].
  eexists _, _, _. split; [exists 0%nat; intros; reflexivity|]. split; [reflexivity|].
  split; [eexists; exists 9%nat; intros fuel H; big fuel H; reflexivity|]. cbn. split; ring.
Qed.
End Ex.
