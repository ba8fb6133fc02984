(** Concrete instances for the theorems about single operations. *)
From Coq Require Import ZArith List Bool Reals Lra Lia.
From Flocq Require Import Core BinarySingleNaN.
From Verif Require Import Base Heap Affine Ops UMath NumR NumF HeapSpec Machine Plain Regular
  History HistoryProofs Prim DenProofs Refine Fuel Examples ExPrim GenProofs FRefute.
Import ListNotations.
Local Open Scope Z_scope.

Ltac run_is := apply (does_step 40); [apply out_is_eq; vm_cast_no_check (eq_refl true)|discriminate].
Lemma ex_C09 :
  pn_lt0 (fl (-1) 0) = true /\ pn_isinfinite (fl (-1) 0) = Ok false /\
  reads (init (N:=FN)) (INew (fl 1 0) (fl (-1) 0) None) (OExn ENegStd) /\
  pn_lt0 (PF (N:=FN) fnan) = false /\
  exists st', does (init (N:=FN)) (INew (fl 1 0) (PF (N:=FN) fnan) None) st' ONone /\
    reads st' (IStd 0) (ONum (N:=FN) fnan) /\ reads st' (ISet 0 (fl (-1) 0)) (OExn ENegStd).
Proof.
  split; [reflexivity|]. split; [reflexivity|]. split; [run_big|]. split; [reflexivity|].
  eexists. split; [run_is|]. split; run_big.
Qed.

(** sqrt(0+/-1): the hypotheses of umath_nan. *)
Definition zero_one : list (instr FN) := [INew (fl 0 0) (fl 1 0) None].
Lemma ex_C24 : exists u dd d,
  is_number (after zero_one) 0 u /\ (uf_lp u < length (h_lc (st_heap (after zero_one))))%nat /\
  get_lc (st_heap (after zero_one)) (uf_lp u) = LDict dd /\ NoDup (dkeys dd) /\ dkeys dd = [0%nat] /\
  (forall v, In v (dkeys dd) -> get_var (st_heap (after zero_one)) v <> None) /\
  m1_der (N:=FN) F_sqrt = Some d /\ n_fun1 FN F_sqrt (uf_nom u) = Ok f0 /\
  d (uf_nom u) = Err EZeroDiv /\ arith EZeroDiv = true.
Proof.
  eexists _, _, _. split; [reflexivity|]. split; [repeat constructor|]. split; [reflexivity|].
  split; [repeat constructor; intros []|]. split; [reflexivity|].
  split; [intros v [<-|[]]; discriminate|]. repeat split; reflexivity.
Qed.

(** A function of one argument; with x = ufloat(1, 1) and 2: a number, NotImplemented for a
    string result, an exception, a plain result. *)
Definition one_two : list (instr FN) := [INew (fl 1 0) (fl 1 0) None; IConst (fl 2 0)].
Definition f_num : pyfun FN := fun _ _ => Ok (PNum (PZ 5)).
Definition f_str : pyfun FN := fun _ _ => Ok (POther 3).
Definition f_raise : pyfun FN := fun _ _ => Err EUser.
Definition d_one : nat -> pyder FN := fun _ _ _ => Ok (PZ 1).
Lemma ex_C25 : exists a b, get_args (st_env (after one_two)) [0%nat] = Some a /\
  get_args (st_env (after one_two)) [1%nat] = Some b /\
  any_uncertain a [] = true /\ any_uncertain b [] = false /\
  reads (after one_two) (ICall f_num d_one d_one [0%nat] []) ONone /\
  reads (after one_two) (ICall f_str d_one d_one [0%nat] []) ONone /\
  reads (after one_two) (ICall f_raise d_one d_one [0%nat] []) (OExn EUser) /\
  reads (after one_two) (ICall f_str d_one d_one [1%nat] []) ONone.
Proof.
  eexists _, _. split; [reflexivity|]. split; [reflexivity|]. split; [reflexivity|]. split; [reflexivity|].
  repeat split; run_big.
Qed.

(** frexp(ufloat(3, 1)) *)
Definition three : list (instr FN) := [INew (fl 3 0) (fl 1 0) None].
Lemma ex_frexp : exists u w h, is_number (after three) 0 u /\
  umath_frexp (VUF u) (st_heap (after three)) = (Ok (w, 2%Z), h).
Proof.
  exists (uf_at (after three) 0). unfold umath_frexp, bind, to_affine_scalar, ret.
  destruct (n_frexp FN (uf_nom (uf_at (after three) 0))) as [m e] eqn:E.
  assert (E2 : e = 2).
  { change e with (snd (m, e)). rewrite <- E. vm_cast_no_check (eq_refl 2). }
  subst e. eexists _, _. split; [numb|].
  assert (T : lc_truth (get_lc (st_heap (after three)) (uf_lp (uf_at (after three) 0))) = true) by (vm_cast_no_check (eq_refl true)).
  rewrite T. reflexivity.
Qed.

Lemma ex_C31 : f_floor (fnorm (-5) (-1)) = Ok (-3)%Z /\ f_ceil (fnorm (-5) (-1)) = Ok (-2)%Z /\
  f_trunc (fnorm (-5) (-1)) = Ok (-2)%Z.
Proof. repeat split; vm_compute; reflexivity. Qed.

(** x + None, x < None *)
Definition with_none : list (instr FN) := [INew (fl 1 0) (fl 1 0) None; INew (fl 1 0) (fl (-1) 0) None].
Lemma ex_C57 : exists u, reachable (after with_none) /\ is_number (after with_none) 0 u /\
  nth_error (st_env (after with_none)) 1 = Some (VPlain (POther 0)) /\
  reads (after with_none) (IBin Badd 0 1) (OExn EType) /\
  reads (after with_none) (ICmp Ceq 0 1) (OBool false).
Proof.
  eexists. split; [reach|]. split; [numb|]. split; [reflexivity|]. split; run_big.
Qed.

Section ExR.
Context {g lg : R -> R}.
Notation RN := (ROps g lg).
Local Open Scope R_scope.
Lemma ex_C13 : exists u, reachable (N:=RN) xy_st /\ is_number (N:=RN) xy_st 0 u /\ uf_var u = Some 0%nat /\
  sd (N:=RN) xy_st 0%nat <> 0 /\ reads (N:=RN) xy_st (ICmp Ceq 0 0) (OBool true).
Proof.
  eexists. split; [exact xy_reach|]. split; [apply xy_x|]. split; [reflexivity|].
  split; [cbn; lra|]. eapply eq_refl_thm; [exact xy_reach|apply xy_x].
Qed.
Lemma ex_C29 : arg_get (APos 1) [PNum (PF (N:=RN) 3); PNum (PF (N:=RN) 2)] [] = Some (PNum (PF (N:=RN) 2)) /\
  forall t, (let (a, k) := arg_set (APos 1) [PNum (PF (N:=RN) 3); PNum (PF (N:=RN) 2)] [] (PNum (PF (N:=RN) t))
             in float_method Bmul a k) = Ok (PNum (PF (N:=RN) (3 * t))) /\ 3 * t = 0 + 3 * t + 0 * t ^ 2.
Proof. split; [reflexivity|]. intros t. split; [reflexivity|ring]. Qed.
Definition x_zero : list (instr RN) := [INew (PZ 1) (PZ 1) None; IConst (PZ 0)].
Definition st_x0 : state RN := fst (run 0 init x_zero).
Lemma ex_C54 : reachable st_x0 /\ has_nominal st_x0 0 (PF (N:=RN) 1) /\ has_nominal st_x0 1 (PZ (N:=RN) 0) /\
  uncertain st_x0 0 /\ reads st_x0 (IBin Btruediv 0 1) (OExn EZeroDiv) /\ arith EZeroDiv = true.
Proof.
  split; [exact (reach_runs _ _ _ _ reach_init (runs_nofuel x_zero eq_refl))|].
  split; [eexists; split; reflexivity|]. split; [eexists; split; reflexivity|].
  split; [eexists; reflexivity|]. split; [|reflexivity].
  assert (D : Rdiv_py 1 0 = Err EZeroDiv).
  { unfold Rdiv_py, Reqb. destruct (Req_EM_T 0 0) as [_|X]; [reflexivity|now elim X]. }
  assert (F : float_method (N:=RN) Btruediv [PNum (PF (N:=RN) 1); PNum (PZ 0)] [] = Err EZeroDiv).
  { cbn. now rewrite D. }
  eexists. exists 0%nat. intros fuel _.
  change (step fuel st_x0 (IBin Btruediv 0 1)) with
    (push st_x0 (py_binop Btruediv (VUF (mkUF (N:=RN) 1 0%nat (Some 0%nat))) (VNum (PZ 0)) (st_heap st_x0))).
  unfold py_binop, bind, method_op, wcall. cbn [existsb is_uf orb negb map nominal_value kw_map uf_nom].
  rewrite F. reflexivity.
Qed.
End ExR.
