(** Differences of numbers that are the same function of the variables, in binary64. *)
From Coq Require Import ZArith List Bool Lia Reals Lra.
From Flocq Require Import Core BinarySingleNaN.
From Verif Require Import Base Heap HeapSpec NumR NumF Affine Ops UMath Machine Cov Calls Unumpy UMatrix History Fuel FFacts FRefute ExGen FmtF
  BinProofs BinQ BinStd GradSpec Evolve BinGrad BinGradThm GradStd BinSqrt ExGrad.
Import ListNotations.
Local Open Scope R_scope.

Theorem differences_cancel : forall lm (st : state (FOps lm)) L i j u w a b st' r, traced lm st L ->
  is_number st i u -> is_number st j w -> nth_error L i = Some (Some a) -> nth_error L j = Some (Some b) ->
  is_finite (uf_nom u : f64) = true -> is_finite (uf_nom w : f64) = true ->
  (forall v, grad a v = grad b v) -> in_range (call_lin [(1, a); (-1, b)]) ->
  does st (IBin Bsub i j) st' ONone -> is_number st' (length (st_env st)) r ->
  uf_nom r = fsub (uf_nom u) (uf_nom w) /\
  exists d, reads st' (IDeriv (length (st_env st))) (ODict d) /\
    forall v, Rabs (fval lm d v) <= INR (roundings a + roundings b + 12) / 2 ^ 52 * (paths a v + paths b v).
Proof.
  intros lm st L i j u w a b st' r T U W A B Fu Fw G R D N. split.
  { destruct D as (k & D). specialize (D k (le_n k)). cbn [step get_args] in D. unfold is_number in U, W. rewrite U, W in D.
    destruct (push_number lm _ _ _ _ D N) as (h' & E & _).
    destruct (binop_result lm _ _ _ _ _ _ E) as [(u1 & E1 & Q)|(x & u2 & E1 & _)]; [|discriminate E1]. injection E1 as <-.
    unfold wcall in Q. cbn in Q. injection Q as <- _. reflexivity. }
  assert (X := arithmetic_traced lm st L Bsub i j u w a b st' r T U W A B Fu Fw D N). cbv beta zeta iota in X.
  assert (Len : length L = length (st_env st)) by (destruct (traced_tracks lm _ _ T) as (Lm & _ & K & _); exact K).
  assert (Hn : nth_error (L ++ [Some (call_lin [(1, a); (-1, b)])]) (length (st_env st)) = Some (Some (call_lin [(1, a); (-1, b)]))).
  { rewrite <- Len, nth_error_app2, Nat.sub_diag by lia. reflexivity. }
  destruct (derivatives_accurate lm _ _ _ _ X Hn R) as (d & Dd & _ & _ & Q). exists d. split; [exact Dd|]. intros v. specialize (Q v).
  cbn [grad paths roundings call_lin map fst snd Rsum fold_right] in Q. unfold Rsum in Q. cbn [fold_right list_sum] in Q. rewrite G in Q.
  replace (roundings a + 6 + (roundings b + 6 + 0))%nat with (roundings a + roundings b + 12)%nat in Q by lia.
  replace (fval lm d v - (1 * grad b v + (-1 * grad b v + 0))) with (fval lm d v) in Q by ring.
  rewrite Rabs_R1, (Rabs_left (-1)) in Q by lra. replace (1 * paths a v + (- -1 * paths b v + 0)) with (paths a v + paths b v) in Q by ring. exact Q.
Qed.

(** (x + x) - x and x, for x = ufloat(3, 1). *)
Definition c2 := go g1 (IBin Badd 0 0).
Definition c3 := go c2 (IBin Bsub 1 0).
Definition c4 := go c3 (IBin Bsub 2 0).
Definition lin_twice : lin := call_lin [(1, var_lin 0%nat); (1, var_lin 0%nat)].
Definition lin_back : lin := call_lin [(1, lin_twice); (-1, var_lin 0%nat)].
Lemma ex_cancel : exists L u w r, traced lm0 c3 L /\ is_number c3 2 u /\ is_number c3 0 w /\ nth_error L 2%nat = Some (Some lin_back) /\
  nth_error L 0%nat = Some (Some (var_lin 0%nat)) /\ is_finite (uf_nom u : f64) = true /\ is_finite (uf_nom w : f64) = true /\
  (forall v, grad lin_back v = grad (var_lin 0%nat) v) /\ in_range (call_lin [(1, lin_back); (-1, var_lin 0%nat)]) /\
  does c3 (IBin Bsub 2 0) c4 ONone /\ length (st_env c3) = 3%nat /\ is_number c4 3 r.
Proof.
  assert (T1 : traced lm0 g1 [Some (var_lin 0%nat)]).
  { eapply (traced_new lm0 init [] (fl 3 0) (fl 1 0) None g1 (uf_at g1 0%nat)); [constructor|unfold g1, go; run_is|numb|reflexivity]. }
  assert (T2 := arithmetic_traced lm0 g1 _ Badd 0%nat 0%nat (uf_at g1 0%nat) (uf_at g1 0%nat) _ _ c2 (uf_at c2 1%nat) T1 ltac:(numb) ltac:(numb) eq_refl eq_refl
    ltac:(evals) ltac:(evals) ltac:(unfold c2, go; run_is) ltac:(numb)). cbv beta zeta iota in T2. cbn [app] in T2. change (call_lin [(1, var_lin 0%nat); (1, var_lin 0%nat)]) with lin_twice in T2.
  assert (T3 := arithmetic_traced lm0 c2 _ Bsub 1%nat 0%nat (uf_at c2 1%nat) (uf_at c2 0%nat) _ _ c3 (uf_at c3 2%nat) T2 ltac:(numb) ltac:(numb) eq_refl eq_refl
    ltac:(evals) ltac:(evals) ltac:(unfold c3, go; run_is) ltac:(numb)). cbv beta zeta iota in T3. cbn [app] in T3. change (call_lin [(1, lin_twice); (-1, var_lin 0%nat)]) with lin_back in T3.
  exists [Some (var_lin 0%nat); Some lin_twice; Some lin_back], (uf_at c3 2%nat), (uf_at c3 0%nat), (uf_at c4 3%nat).
  split; [exact T3|]. split; [numb|]. split; [numb|]. split; [reflexivity|]. split; [reflexivity|]. split; [evals|]. split; [evals|].
  split; [|split; [split|split; [unfold c4, go; run_is|split; [vm_compute; reflexivity|numb]]]].
  - intros v. unfold lin_back, lin_twice, call_lin. cbn [grad map fst snd]. unfold Rsum. cbn [fold_right]. ring.
  - vm_compute. discriminate.
  - assert (S1 : size 1 = 1).
    { unfold size. destruct (Req_EM_T 1 0); [lra|]. rewrite Rabs_R1, Rinv_1. apply Rmax_left. lra. }
    assert (Sm : size (-1) = 1).
    { unfold size. destruct (Req_EM_T (-1) 0); [lra|]. rewrite Rabs_left by lra. replace (- -1) with 1 by ring. rewrite Rinv_1. apply Rmax_left. lra. }
    unfold lin_back, lin_twice, call_lin, var_lin. cbn [range fold_right fst snd]. rewrite S1, Sm, !Rmult_1_l, !(Rmax_left 1 1) by lra.
    apply pow_R1_Rle. lra.
Qed.

(** Two sums of the same three variables 0.1+/-1, 0.2+/-1 and 0.3+/-1 are different. *)
Definition sums3 : list (instr FN) :=
  [INew (fl 3602879701896397 (-55)) (fl 1 0) None; INew (fl 3602879701896397 (-54)) (fl 1 0) None;
   INew (fl 5404319552844595 (-54)) (fl 1 0) None; IBin Badd 0 1; IBin Badd 3 2; IBin Badd 1 2; IBin Badd 0 5; IBin Bsub 4 6].
Lemma f_sums : exists u u', reachable (after sums3) /\ is_number (after sums3) 4 u /\ is_number (after sums3) 6 u' /\
  reads (after sums3) (ICmp Ceq 4 6) (OBool false) /\ reads (after sums3) (IStd 7) (ONum (N:=FN) f0).
Proof. eexists _, _. split; [reach|]. repeat (split; [numb|]). split; run_big. Qed.
(** ... and the difference of 0.1*v + 0.2*v + 0.3*v with itself has an uncertainty. *)
Definition self_difference : list (instr FN) := tenths ++ [IBin Bsub 8 8].
Lemma f_self : exists u u' x, reachable (after self_difference) /\ is_number (after self_difference) 8 u /\ is_number (after self_difference) 9 u' /\
  uf_nom u' = f0 /\ reads (after self_difference) (IStd 9) (ONum (N:=FN) x) /\ Bltb f0 x = true.
Proof.
  assert (Y : match snd (step 40 (after self_difference) (IStd 9)) with ONum x => Bltb f0 x | _ => false end = true) by (vm_cast_no_check (eq_refl true)).
  destruct (snd (step 40 (after self_difference) (IStd 9))) as [| | |x| |] eqn:S; try discriminate Y.
  exists (uf_at (after self_difference) 8), (uf_at (after self_difference) 9), x. split; [reach|]. split; [numb|]. split; [numb|].
  split; [|split; [apply (reads_step 40); [exact S|discriminate]|exact Y]].
  assert (X : match uf_nom (uf_at (after self_difference) 9) : f64 with B754_zero false => true | _ => false end = true) by (vm_cast_no_check (eq_refl true)).
  destruct (uf_nom (uf_at (after self_difference) 9)) as [[|]| | |]; try discriminate X. reflexivity.
Qed.
