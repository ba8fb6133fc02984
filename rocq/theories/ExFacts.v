(** Instances used beside the property theorems, and corollaries stated there. *)
From Coq Require Import ZArith List Bool Reals Lra Lia.
From Coquelicot Require Import Coquelicot.
From Verif Require Import Base Heap Affine Ops UMath NumR HeapSpec Machine Spec Plain Regular
  Refine RefineStep History HistoryProofs Prim PrimReg Examples.
Import ListNotations.
Local Open Scope R_scope.

Section ExFacts.
Context {g lg : R -> R}.
Notation RN := (ROps g lg).
Notation state := (state RN).

Theorem builtin_derivatives : forall (prog : list (instr RN)) st os i u d,
  runs init prog st os -> defined_ok prog os ->
  in_domain (x0_of (N:=RN) prog) pinit prog -> is_number st i u ->
  reads st (IDeriv i) (ODict d) ->
  result prog i (x0_of (N:=RN) prog) = Some (uf_nom u) /\
  (forall v, (v < length (noms (N:=RN) prog))%nat ->
   is_derive (fun t => match result prog i (upd (x0_of (N:=RN) prog) v t) with
                       | Some y => y | None => 0 end) (x0_of (N:=RN) prog v) (dval d v)) /\
  (forall v, In v (dkeys d) -> (v < length (noms (N:=RN) prog))%nat).
Proof.
  intros prog st os i u d Hr Hd Hi Hn Hg.
  exact (derivatives_true prog st os i u d Hr Hd (in_domain_regular _ _ _ Hi) Hn Hg).
Qed.

Lemma eq_total : forall (st : state) i u j u', reachable st -> is_number st i u ->
  is_number st j u' -> exists b, reads st (ICmp Ceq i j) (OBool b).
Proof.
  intros st i u j u' Hr Hi Hj.
  destruct (reads_succeed st i u Hr Hi) as (_ & _ & _ & _ & _ & H).
  apply (H Ceq j (VUF u')); auto.
Qed.

Theorem order_partial : forall (st : state) i u j u' k u'',
  reachable st -> is_number st i u -> is_number st j u' -> is_number st k u'' ->
  reads st (ICmp Cge i i) (OBool true) /\
  (reads st (ICmp Cge i j) (OBool true) -> reads st (ICmp Cge j i) (OBool true) ->
   reads st (ICmp Ceq i j) (OBool true)) /\
  (reads st (ICmp Cge i j) (OBool true) -> reads st (ICmp Cge j k) (OBool true) ->
   reads st (ICmp Cge i k) (OBool true)) /\
  (forall b, reads st (ICmp Cge i j) (OBool b) <-> reads st (ICmp Cle j i) (OBool b)).
Proof.
  intros st i u j u' k u'' Hr Hi Hj Hk.
  destruct (eq_total st i u j u' Hr Hi Hj) as [e E].
  destruct (eq_total st j u' k u'' Hr Hj Hk) as [e2 E2].
  destruct (eq_total st i u k u'' Hr Hi Hk) as [e3 E3].
  pose proof (eq_sym_thm st i u j u' e Hr Hi Hj E) as E'.
  assert (EN : forall a x b y t, is_number st a x -> is_number st b y ->
     reads st (ICmp Ceq a b) (OBool t) -> t = true -> uf_nom x = uf_nom y).
  { intros a x b y t Ha Hb T ->.
    destruct (reads_succeed st a x Hr Ha) as ((d & D & _) & _).
    destruct (reads_succeed st b y Hr Hb) as ((d' & D' & _) & _).
    apply (proj1 (eq_spec st a x b y d d' true Hr Ha Hb D D' T) eq_refl). }
  assert (GE : forall a x b y t r, is_number st a x -> is_number st b y ->
     reads st (ICmp Ceq a b) (OBool t) ->
     (reads st (ICmp Cge a b) (OBool r) <-> r = orb (if Rlt_dec (uf_nom y) (uf_nom x) then true else false) t)).
  { intros a x b y t r Ha Hb T.
    destruct (order_spec st a x b y r Hr Ha Hb) as (_ & _ & O). apply (O t T). }
  repeat split.
  - apply (GE i u i u true true Hi Hi (eq_refl_thm st i u Hr Hi)).
    destruct (Rlt_dec _ _); reflexivity.
  - intros A B.
    apply (GE i u j u' e true Hi Hj E) in A. apply (GE j u' i u e true Hj Hi E') in B.
    destruct e; [exact E|].
    rewrite orb_false_r in A, B.
    destruct (Rlt_dec (uf_nom u') (uf_nom u)) as [L|]; [|discriminate].
    destruct (Rlt_dec (uf_nom u) (uf_nom u')) as [L'|]; [|discriminate]. simpl in *. lra.
  - intros A B. apply (GE i u k u'' e3 true Hi Hk E3).
    apply (GE i u j u' e true Hi Hj E) in A. apply (GE j u' k u'' e2 true Hj Hk E2) in B.
    pose proof (EN i u j u' e Hi Hj E) as N1. pose proof (EN j u' k u'' e2 Hj Hk E2) as N2.
    assert (T : e = true -> e2 = true -> e3 = true).
    { intros -> ->. pose proof (eq_trans_thm st i u j u' k u'' Hr Hi Hj Hk E E2) as E4.
      pose proof (reads_unique _ _ _ _ E3 E4) as Q. congruence. }
    simpl in *.
    destruct (Rlt_dec (uf_nom u') (uf_nom u)) as [L|], (Rlt_dec (uf_nom u'') (uf_nom u')) as [L'|],
      (Rlt_dec (uf_nom u'') (uf_nom u)) as [L''|]; simpl in *; auto.
    + exfalso; lra.
    + exfalso; specialize (N2 (eq_sym B)). lra.
    + exfalso; specialize (N1 (eq_sym A)). lra.
    + symmetry; auto.
  - intros H. destruct (order_spec st j u' i u b Hr Hj Hi) as (_ & _ & O).
    apply (proj2 (O e E')). apply (GE i u j u' e b Hi Hj E) in H. exact H.
  - intros H. destruct (order_spec st j u' i u b Hr Hj Hi) as (_ & _ & O).
    apply (GE i u j u' e b Hi Hj E). apply (proj2 (O e E')) in H. exact H.
Qed.

Theorem order_incomparable : forall (st : state) i u v j u' w,
  reachable st -> i <> j -> is_number st i u -> uf_var u = Some v ->
  is_number st j u' -> uf_var u' = Some w -> uf_nom u = uf_nom u' -> sd st v <> 0 ->
  forall c, c <> Cne -> reads st (ICmp c i j) (OBool false).
Proof.
  intros st i u v j u' w Hr Hij Hi Hv Hj Hw Hn Hs c Hc.
  destruct (variables_independent st i u v j u' w Hr Hij Hi Hv Hj Hw) as (_ & _ & _ & V).
  destruct (eq_total st i u j u' Hr Hi Hj) as [e E].
  assert (F : e = false).
  { destruct e; auto. exfalso. apply Hs. exact (proj1 (V E)). }
  subst e.
  destruct (order_spec st i u j u' false Hr Hi Hj) as (O1 & O2 & O3).
  destruct (O3 false E) as (O4 & O5).
  assert (L : forall a b : R, a = b -> (if Rlt_dec a b then true else false) = false).
  { intros a b ->. destruct (Rlt_dec b b) as [L|L]; [exfalso; lra|reflexivity]. }
  pose proof (L _ _ (eq_sym Hn)) as L1. pose proof (L _ _ Hn) as L2.
  destruct c; auto; try congruence.
  - apply O1; auto.
  - apply O4. rewrite L1. auto.
  - apply O2; auto.
  - apply O5. rewrite L2. auto.
Qed.

Lemma ex_C02 : runs (N:=RN) init ex_prog0 ex_st ex_os /\ defined_ok (N:=RN) ex_prog0 ex_os /\
  in_domain (g:=g) (lg:=lg) (x0_of (N:=RN) ex_prog0) pinit ex_prog0 /\
  is_number (N:=RN) ex_st 3 (mkUF (N:=RN) ((1 + 2) * 1) 3%nat None) /\
  exists d, reads ex_st (IDeriv 3) (ODict (N:=RN) d) /\ dval d 0%nat = 4 /\ dval d 1%nat = 1.
Proof.
  split; [exact ex_runs|]. split; [exact ex_defined|]. split; [exact ex_in_domain0|].
  split; [exact ex_number3|].
  destruct (@ex_deriv3 g lg) as (d & A & B & C & _). exists d; auto.
Qed.
Lemma ex_C03 : reachable (N:=RN) ex_st /\
  is_number (N:=RN) ex_st 2 (mkUF (N:=RN) (1 + 2) 2%nat None) /\
  reads ex_st (IStd 2) (ONum (N:=RN) 5) /\ reads ex_st (IStd 3) (ONum (N:=RN) (sqrt 160)).
Proof. split; [exact ex_reach|]. split; [exact ex_number2|]. split; [exact ex_std2|exact ex_std3]. Qed.
Lemma ex_C04 : exists st', does ex_st (IDeriv 3) st'
    (snd (step 9 ex_st (IDeriv (N:=RN) 3))) /\ st' <> ex_st.
Proof.
  exists (fst (step 9 ex_st (IDeriv (N:=RN) 3))); split.
  - exists 9%nat; intros fuel H. replace fuel with (9 + (fuel - 9))%nat by lia. reflexivity.
  - intro H. apply (f_equal (fun s => get_lc (st_heap s) 3%nat)) in H. cbn in H. discriminate H.
Qed.

Ltac num2 := unfold is_number; rewrite ex_env2; reflexivity.
Lemma n2_0 : is_number ex_st2 0 (mkUF (N:=RN) 1 0%nat (Some 0%nat)). Proof. num2. Qed.
Lemma n2_1 : is_number ex_st2 1 (mkUF (N:=RN) 2 1%nat (Some 1%nat)). Proof. num2. Qed.
Lemma n2_4 : is_number ex_st2 4 (mkUF (N:=RN) 1 4%nat (Some 2%nat)). Proof. num2. Qed.
Lemma n2_5 : is_number ex_st2 5 (mkUF (N:=RN) 1 5%nat (Some 3%nat)). Proof. num2. Qed.
Lemma n2_6 : is_number ex_st2 6 (mkUF (N:=RN) 1 6%nat (Some 4%nat)). Proof. num2. Qed.
Lemma n2_8 : is_number ex_st2 8 (mkUF (N:=RN) (1 * 0) 7%nat None). Proof. num2. Qed.
Lemma sd2 : forall v, sd (ex_st2 (g:=g) (lg:=lg)) v = nth v [3; 4; 3; 0; 0] 0.
Proof.
  intros v. unfold sd, get_var. rewrite ex_vars2.
  destruct v as [|[|[|[|[|v]]]]]; try reflexivity. destruct v; reflexivity.
Qed.
Lemma ex_regular2 : regular (g:=g) (lg:=lg) (x0_of (N:=RN) ex_prog2) pinit ex_prog2.
Proof. apply in_domain_regular, ex_in_domain2. Qed.
Lemma ex_C06 : runs (N:=RN) init ex_prog2 ex_st2 (snd (run 0 init ex_prog2)) /\
  regular (g:=g) (lg:=lg) (x0_of (N:=RN) ex_prog2) pinit ex_prog2 /\
  (exists e, 0 < e /\ forall x, (forall k, Rabs (x k - x0_of (N:=RN) ex_prog2 k) < e) ->
     result (g:=g) (lg:=lg) ex_prog2 2 x = result (g:=g) (lg:=lg) ex_prog2 3 x) /\
  reads (N:=RN) ex_st2 (ICmp Ceq 2 3) (OBool true).
Proof.
  assert (S : exists e, 0 < e /\ forall x, (forall k, Rabs (x k - x0_of (N:=RN) ex_prog2 k) < e) ->
     result (g:=g) (lg:=lg) ex_prog2 2 x = result (g:=g) (lg:=lg) ex_prog2 3 x).
  { exists 1; split; [lra|]. intros x _. unfold result; cbn. f_equal; ring. }
  split; [exact ex_runs2|]. split; [exact ex_regular2|]. split; [exact S|].
  eapply same_function_equal; [exact ex_runs2|exact ex_defined2|exact ex_regular2| | |exact S];
    unfold is_number; rewrite ex_env2; reflexivity.
Qed.

Lemma ex_neq : reads (N:=RN) ex_st2 (ICmp Ceq 0 4) (OBool false).
Proof.
  apply (order_incomparable ex_st2 0%nat _ 0%nat 4%nat _ 2%nat ex_reach2 ltac:(discriminate)
           n2_0 eq_refl n2_4 eq_refl eq_refl); [|discriminate].
  rewrite sd2; simpl; lra.
Qed.
Lemma ex_C07 : reachable (N:=RN) ex_st2 /\
  reads (N:=RN) ex_st2 (ICmp Ceq 0 4) (OBool false) /\
  reads (N:=RN) ex_st2 (ICmp Ceq 5 6) (OBool true).
Proof.
  split; [exact ex_reach2|]. split; [exact ex_neq|].
  pose proof n2_5 as N5.
  pose proof n2_6 as N6.
  destruct (eq_total ex_st2 5 _ 6 _ ex_reach2 N5 N6) as [e E].
  destruct (variables_independent ex_st2 5 _ 3%nat 6 _ 4%nat ex_reach2 ltac:(discriminate) N5 eq_refl N6 eq_refl)
    as (_ & D & D' & _).
  destruct (eq_spec _ _ _ _ _ _ _ _ ex_reach2 N5 N6 D D' E) as [_ H].
  rewrite H in E; [exact E|]. split; [reflexivity|].
  intros v. rewrite sd2. destruct v as [|[|[|[|[|v]]]]]; unfold dval; simpl; try ring.
Qed.
Lemma ex_C08 : reads ex_st (IStd 2) (ONum (N:=RN) 5) /\
  does ex_st (ISet 0 (PZ 0)) ex_set (ONone (N:=RN)) /\
  reads ex_set (IStd 2) (ONum (N:=RN) 4).
Proof.
  split; [exact ex_std2|]. split; [exact ex_does_set|].
  destruct (std_update (g:=g) (lg:=lg) ex_st 0 _ 0%nat (PZ 0) ex_set 2 _ _ ex_reach ex_number0 eq_refl
              (Rle_refl 0) ex_does_set ex_number2 ex_deriv2) as (_ & _ & _ & H).
  match type of H with reads _ _ (ONum ?x) => assert (E : x = 4) end.
  { cbn. replace ((0 + 1 * 1) * 4 * ((0 + 1 * 1) * 4 * 1) + ((0 + 1 * 1) * 0 * ((0 + 1 * 1) * 0 * 1) + 0))
    with (4 * 4) by ring. apply sqrt_square; lra. }
  rewrite E in H; exact H.
Qed.
Lemma ex_C10 : reachable (N:=RN) ex_st2 /\
  reads (N:=RN) ex_st2 (ICmp Ceq 2 3) (OBool true) /\
  reads (N:=RN) ex_st2 (ICmp Ceq 0 4) (OBool false).
Proof. split; [exact ex_reach2|]. split; [apply ex_C06|exact ex_neq]. Qed.
Lemma ex_C11 : reachable (N:=RN) ex_st2 /\
  reads (N:=RN) ex_st2 (ICmp Cgt 1 0) (OBool true) /\
  reads (N:=RN) ex_st2 (ICmp Cge 0 4) (OBool false).
Proof.
  split; [exact ex_reach2|]. split.
  - pose proof n2_0 as N0.
    pose proof n2_1 as N1.
    apply (order_spec ex_st2 1 _ 0 _ true ex_reach2 N1 N0). cbn [uf_nom].
    destruct (Rlt_dec 1 2); auto; lra.
  - apply (order_incomparable ex_st2 0%nat _ 0%nat 4%nat _ 2%nat ex_reach2 ltac:(discriminate)
             n2_0 eq_refl n2_4 eq_refl eq_refl); [|discriminate].
    rewrite sd2; simpl; lra.
Qed.
Lemma ex_C12 : reachable (N:=RN) ex_st3 /\
  reads (N:=RN) ex_st3 (IBool 2) (OBool false) /\
  reads (N:=RN) ex_st3 (IBool 0) (OBool true).
Proof.
  split; [exact ex_reach3|].
  pose proof (@ex_number3_0 g lg) as N0. pose proof (@ex_number3_2 g lg) as N2.
  split.
  - destruct (reads_succeed ex_st3 2 _ ex_reach3 N2) as (_ & _ & _ & _ & (b & B) & _).
    pose proof (std_dev_formula _ _ _ _ ex_reach3 N2 ex_deriv3_2) as S.
    assert (Z : prop_std (g:=g) (lg:=lg) ex_st3 [(0%nat, 0 + 0 * 1)] = 0).
    { unfold prop_std, sd; cbn. replace ((0 + 0 * 1) * 3 * ((0 + 0 * 1) * 3 * 1) + 0) with 0 by ring. apply sqrt_0. }
    rewrite Z in S.
    rewrite (proj2 (bool_spec _ _ _ _ _ ex_reach3 N2 S B)) in B; [exact B|].
    split; [cbn; ring|reflexivity].
  - destruct (reads_succeed ex_st3 0 _ ex_reach3 N0) as (_ & (x & X) & _ & _ & (b & B) & _).
    destruct b; [exact B|].
    destruct (proj1 (bool_spec _ _ _ _ _ ex_reach3 N0 X B) eq_refl) as (H & _). cbn in H. lra.
Qed.
Lemma ex_C15 : reachable (N:=RN) ex_st /\
  exists l c c', reads ex_st (IErrs 3) (OErrs (N:=RN) l) /\
  dget l 0%nat = Some c /\ pval c = 12 /\ dget l 1%nat = Some c' /\ pval c' = 4.
Proof.
  split; [exact ex_reach|].
  destruct (@ex_deriv3 g lg) as (d & D & D0 & D1 & K).
  destruct (error_components_spec ex_st 3 _ d ex_reach ex_number3 D) as (l & L & _ & KL & V & _).
  assert (G : forall v, In v (dkeys d) -> exists c, dget l v = Some c).
  { intros v Hv. apply KL in Hv. clear -Hv. induction l as [|[k c] l IH]; simpl in *; [tauto|].
    destruct (Nat.eqb v k) eqn:E; eauto. destruct Hv as [->|Hv]; [rewrite Nat.eqb_refl in E; discriminate|auto]. }
  destruct (G 0%nat) as [c C]; [rewrite K; simpl; auto|].
  destruct (G 1%nat) as [c' C']; [rewrite K; simpl; auto|].
  exists l, c, c'. split; [exact L|]. split; [exact C|]. split.
  - rewrite (V _ _ C), D0. unfold sd; cbn. rewrite Rabs_pos_eq; lra.
  - split; [exact C'|]. rewrite (V _ _ C'), D1. unfold sd; cbn. rewrite Rabs_pos_eq; lra.
Qed.
Lemma ex_C16 : reachable (N:=RN) ex_st /\
  reads ex_st (IStdS 2) (ONum (N:=RN) 5) /\ reads ex_st (IStdS 0) (ONum (N:=RN) 3).
Proof.
  split; [exact ex_reach|]. split.
  - apply (s_is_std_dev ex_st 2 _ _ ex_reach ex_number2), ex_std2.
  - apply (s_is_std_dev ex_st 0 _ _ ex_reach ex_number0).
    eexists; exists 0%nat; intros; reflexivity.
Qed.
Lemma ex_C53 : reachable (N:=RN) ex_st /\
  reads ex_st (IScore 2 (PZ 13)) (ONum (N:=RN) 2).
Proof.
  split; [exact ex_reach|].
  pose proof (std_score_spec (g:=g) (lg:=lg) ex_st 2 _ 5 (PZ 13) ex_reach ex_number2 ex_std2) as H.
  destruct (Req_EM_T 5 0) as [E|]; [lra|].
  cbn [pval uf_nom] in H. replace ((13 - (1 + 2)) / 5) with 2 in H by lra. exact H.
Qed.
End ExFacts.
