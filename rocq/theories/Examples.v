(** Concrete instances of the hypotheses of the history theorems: a program over the real
    numbers with shared variables, and the states it leads to. *)
From Coq Require Import ZArith List Bool Reals Lra Lia.
From Coquelicot Require Import Coquelicot.
From Verif Require Import Base Heap Affine Ops UMath NumR HeapSpec Machine Spec Plain Regular
  History HistoryProofs Prim PrimReg Refine.
Import ListNotations.
Local Open Scope R_scope.

Section Ex.
Context {g lg : R -> R}.
Notation RN := (ROps g lg).

(** x = ufloat(1, 3); y = ufloat(2, 4); z = x + y; p = z*x; k = 2; q = x**k; w = umath.sin(p) *)
Definition ex_prog : list (instr RN) :=
  [ INew (PZ 1) (PZ 3) None; INew (PZ 2) (PZ 4) None; IBin Badd 0 1; IBin Bmul 2 0;
    IConst (PZ 2); IBin Bpow 0 4; ICall (m1_fun F_sin) (m1_pos F_sin) (m1_kw F_sin) [3%nat] [] ].
(** The part without calls to libm. *)
Definition ex_prog0 : list (instr RN) := firstn 4 ex_prog.
Definition ex_st : state RN := fst (run 0 init ex_prog0).
Definition ex_os : list (out RN) := snd (run 0 init ex_prog0).

(** Statements that define results do not need fuel. *)
Lemma run_nofuel : forall (prog : list (instr RN)) st fuel, forallb defines prog = true ->
  run fuel st prog = run 0 st prog.
Proof.
  induction prog as [|ins prog IH]; intros st fuel H; auto.
  apply andb_true_iff in H; destruct H as [H1 H2].
  assert (E : step fuel st ins = step 0 st ins) by (destruct ins; try discriminate H1; reflexivity).
  cbn [run]. rewrite E. destruct (step 0 st ins) as [s o]. rewrite (IH s fuel H2). reflexivity.
Qed.
Lemma runs_nofuel : forall (prog : list (instr RN)), forallb defines prog = true ->
  runs init prog (fst (run 0 init prog)) (snd (run 0 init prog)).
Proof.
  intros prog H; exists 0%nat; intros fuel _. rewrite run_nofuel by exact H.
  destruct (run 0 init prog); reflexivity.
Qed.

Lemma ex_runs : runs init ex_prog0 ex_st ex_os.
Proof. exact (runs_nofuel ex_prog0 eq_refl). Qed.
Lemma ex_reach : reachable ex_st.
Proof. exact (reach_runs _ _ _ _ reach_init ex_runs). Qed.
Lemma ex_defined : defined_ok ex_prog0 ex_os.
Proof. repeat constructor. Qed.

Lemma ex_number0 : is_number ex_st 0 (mkUF (N:=RN) 1 0%nat (Some 0%nat)).
Proof. reflexivity. Qed.
Lemma ex_number1 : is_number ex_st 1 (mkUF (N:=RN) 2 1%nat (Some 1%nat)).
Proof. reflexivity. Qed.
Lemma ex_number2 : is_number ex_st 2 (mkUF (N:=RN) (1 + 2) 2%nat None).
Proof. reflexivity. Qed.
Lemma ex_number3 : is_number ex_st 3 (mkUF (N:=RN) ((1 + 2) * 1) 3%nat None).
Proof. reflexivity. Qed.

Ltac big fuel H := match type of H with (?k <= _)%nat =>
  replace fuel with (k + (fuel - k))%nat by lia; cbn [Nat.add] end.

Lemma ex_deriv2 : reads ex_st (IDeriv 2) (ODict (N:=RN) [(1%nat, 0 + 1 * 1); (0%nat, 0 + 1 * 1)]).
Proof. eexists; exists 5%nat; intros fuel H; big fuel H; reflexivity. Qed.
Lemma ex_deriv3 : exists d, reads ex_st (IDeriv 3) (ODict (N:=RN) d) /\
  dval d 0%nat = 4 /\ dval d 1%nat = 1 /\ dkeys d = [0; 1]%nat.
Proof.
  eexists; split; [eexists; exists 9%nat; intros fuel H; big fuel H; reflexivity|].
  cbn; repeat split; lra.
Qed.
Lemma ex_std2 : reads ex_st (IStd 2) (ONum (N:=RN) 5).
Proof.
  pose proof (std_dev_formula _ _ _ _ ex_reach ex_number2 ex_deriv2) as H.
  enough (E : prop_std ex_st [(1%nat, 0 + 1 * 1); (0%nat, 0 + 1 * 1)] = 5)
    by (rewrite E in H; exact H).
  unfold prop_std; cbn.
  replace ((0 + 1 * 1) * 4 * ((0 + 1 * 1) * 4 * 1) + ((0 + 1 * 1) * 3 * ((0 + 1 * 1) * 3 * 1) + 0))
    with (5 * 5) by ring.
  apply sqrt_square; lra.
Qed.
Lemma ex_std3 : reads ex_st (IStd 3) (ONum (N:=RN) (sqrt 160)).
Proof.
  destruct ex_deriv3 as (d & D & D0 & D1 & K).
  pose proof (std_dev_formula _ _ _ _ ex_reach ex_number3 D) as H.
  enough (E : prop_std ex_st d = sqrt 160) by (rewrite E in H; exact H).
  unfold prop_std; f_equal.
  destruct d as [|[a x] [|[b y] [|]]]; try discriminate K.
  injection K; intros -> ->.
  unfold dval in D0, D1; cbn in D0, D1; subst x y. cbn; ring.
Qed.

(** Setting x.std_dev = 0 *)
Definition ex_set : state RN := fst (step 0 ex_st (ISet 0 (PZ 0))).
Lemma ex_does_set : does ex_st (ISet 0 (PZ 0)) ex_set ONone.
Proof. exists 0%nat; intros fuel _; reflexivity. Qed.

(** The whole program is in the domain of its functions. *)
Lemma ex_in_domain0 : in_domain (x0_of (N:=RN) ex_prog0) pinit ex_prog0.
Proof.
  unfold ex_prog0, ex_prog; cbn [firstn in_domain in_domain_ins]; repeat split; auto.
  - eexists _, _, _, _; split; [reflexivity|].
    repeat split; try (intro; eexists; reflexivity); try discriminate.
  - eexists _, _, _, _; split; [reflexivity|].
    repeat split; try (intro; eexists; reflexivity); try discriminate.
Qed.
Lemma ex_in_domain : in_domain (x0_of (N:=RN) ex_prog) pinit ex_prog.
Proof.
  unfold ex_prog; cbn [in_domain in_domain_ins]; repeat split; auto.
  - eexists _, _, _, _; split; [reflexivity|].
    repeat split; try (intro; eexists; reflexivity); try discriminate.
  - eexists _, _, _, _; split; [reflexivity|].
    repeat split; try (intro; eexists; reflexivity); try discriminate.
  - eexists _, _, _, _; split; [reflexivity|].
    repeat split; try (intro; eexists; reflexivity); try discriminate.
    left; cbn; lra.
  - eexists; split; [|split; [reflexivity|]].
    2: { apply bc_umath1 with (x := (1 + 2) * 1); exact I. }
    reflexivity.
Qed.
(** Two ways to compute the same function: x*y and y*x, and x - y. *)
Definition ex_prog2 : list (instr RN) :=
  [ INew (PZ 1) (PZ 3) None; INew (PZ 2) (PZ 4) None; IBin Bmul 0 1; IBin Bmul 1 0;
    INew (PZ 1) (PZ 3) None; INew (PZ 1) (PZ 0) None; INew (PZ 1) (PZ 0) None; IConst (PZ 0);
    IBin Bmul 0 7 ].
Definition ex_st2 : state RN := fst (run 0 init ex_prog2).
Lemma ex_runs2 : runs init ex_prog2 ex_st2 (snd (run 0 init ex_prog2)).
Proof. exact (runs_nofuel ex_prog2 eq_refl). Qed.
Lemma ex_reach2 : reachable ex_st2.
Proof. exact (reach_runs _ _ _ _ reach_init ex_runs2). Qed.
Lemma ex_defined2 : defined_ok ex_prog2 (snd (run 0 init ex_prog2)).
Proof. repeat constructor. Qed.
Lemma ex_in_domain2 : in_domain (x0_of (N:=RN) ex_prog2) pinit ex_prog2.
Proof.
  unfold ex_prog2; cbn [in_domain in_domain_ins]; repeat split; auto.
  all: eexists _, _, _, _; split; [reflexivity|];
    repeat split; try (intro; eexists; reflexivity); try discriminate.
Qed.
(** x = ufloat(1, 3); z = 0*x *)
Definition ex_prog3 : list (instr RN) :=
  [ INew (PZ 1) (PZ 3) None; IConst (PZ 0); IBin Bmul 1 0 ].
Definition ex_st3 : state RN := fst (run 0 init ex_prog3).
Lemma ex_reach3 : reachable ex_st3.
Proof. exact (reach_runs _ _ _ _ reach_init (runs_nofuel ex_prog3 eq_refl)). Qed.
Lemma ex_number3_2 : is_number ex_st3 2 (mkUF (N:=RN) (0 * 1) 1%nat None).
Proof. reflexivity. Qed.
Lemma ex_number3_0 : is_number ex_st3 0 (mkUF (N:=RN) 1 0%nat (Some 0%nat)).
Proof. reflexivity. Qed.
Lemma ex_deriv3_2 : reads ex_st3 (IDeriv 2) (ODict (N:=RN) [(0%nat, 0 + 0 * 1)]).
Proof. eexists; exists 5%nat; intros fuel H; big fuel H; reflexivity. Qed.
Lemma ex_env2 : st_env ex_st2 =
  [ VUF (mkUF (N:=RN) 1 0%nat (Some 0%nat)); VUF (mkUF (N:=RN) 2 1%nat (Some 1%nat));
    VUF (mkUF (N:=RN) (1 * 2) 2%nat None); VUF (mkUF (N:=RN) (2 * 1) 3%nat None);
    VUF (mkUF (N:=RN) 1 4%nat (Some 2%nat)); VUF (mkUF (N:=RN) 1 5%nat (Some 3%nat));
    VUF (mkUF (N:=RN) 1 6%nat (Some 4%nat)); VNum (PZ 0);
    VUF (mkUF (N:=RN) (1 * 0) 7%nat None) ].
Proof. cbv -[Rplus Rmult Rminus Ropp Rdiv IZR Rfun1 Rfun2 Rpow_py Rdiv_py Flocq.Core.Raux.bpow Rltb Reqb Rleb PI Rfrexp Flocq.Core.Raux.Zfloor Flocq.Core.Raux.Ztrunc Flocq.Core.Raux.Zceil Rabs fold_right Rinv]. reflexivity. Qed.
Lemma ex_vars2 : h_var (st_heap ex_st2) =
  [ mkVar (N:=RN) 1 0%nat 3 None; mkVar (N:=RN) 2 1%nat 4 None; mkVar (N:=RN) 1 4%nat 3 None;
    mkVar (N:=RN) 1 5%nat 0 None; mkVar (N:=RN) 1 6%nat 0 None ].
Proof. cbv -[Rplus Rmult Rminus Ropp Rdiv IZR Rfun1 Rfun2 Rpow_py Rdiv_py Flocq.Core.Raux.bpow Rltb Reqb Rleb PI Rfrexp Flocq.Core.Raux.Zfloor Flocq.Core.Raux.Ztrunc Flocq.Core.Raux.Zceil Rabs fold_right Rinv]. reflexivity. Qed.
End Ex.
