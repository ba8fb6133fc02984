(** umath functions with numerical derivatives: fmod, gamma and lgamma (umath_core.py 62). *)
From Coq Require Import ZArith List Bool Reals Lra Lia.
From Coquelicot Require Import Coquelicot.
From Flocq Require Import Core.
From Verif Require Import Base Heap Affine Ops UMath NumR HeapSpec Machine Spec Refine Plain Regular History HistoryProofs Prim PrimProofs PrimReg
  DiffProofs ADProofs ChainProofs GenProofs RealFacts NumDeriv ExPrim.
Import ListNotations.
Local Open Scope R_scope.

Section Num.
Context {g lg : R -> R}.
Notation RN := (ROps g lg).
Notation state := (state RN).

(** The step of partial_derivative at [x]. *)
Definition step_at (x : R) : R := (if Reqb x 0 then 1 else Rabs x) / 2 ^ 26.

Theorem fmod_chain : forall (st : state) i j p q st' w d,
  reachable st -> has_nominal st i p -> has_nominal st j q ->
  does st (ICall (m2_fun G_fmod) (m2_pos G_fmod) (m2_kw G_fmod) [i; j] []) st' ONone ->
  is_number st' (length (st_env st)) w -> reads st' (IDeriv (length (st_env st))) (ODict d) ->
  let x := pval p in let y := pval q in
  y <> 0 /\ uf_nom w = x - y * IZR (Ztrunc (x / y)) /\
  exists cx cy,
    (uncertain st i -> (forall t, Rabs (t - x) <= step_at x -> Ztrunc (t / y) = Ztrunc (x / y)) -> cx = 1) /\
    (uncertain st j -> (forall t, Rabs (t - y) <= step_at y -> Ztrunc (x / t) = Ztrunc (x / y)) -> cy = - IZR (Ztrunc (x / y))) /\
    forall v Dx Dy, deriv_is st i v Dx -> deriv_is st j v Dy -> dval d v = cx * Dx + cy * Dy.
Proof.
  intros st i j p q st' w d Rc (a & Ea & Na) (b & Eb & Nb) Dn W Rd x y.
  destruct (chain_rule st _ _ _ [i; j] [] st' w d [a; b] [] Rc Dn W Rd) as
    (r & cp & ck & F & En & P & _ & G); [simpl; now rewrite Ea, Eb|reflexivity|].
  cbn [map] in F, P. rewrite Na, Nb in F, P.
  change (@kw_map RN nominal_value []) with (@nil (nat * plain RN)) in F, P.
  unfold m2_fun in F. rewrite !pn_float_R in F. cbn [rbind] in F. fold x in F. fold y in F.
  assert (Fm : forall s t, n_fun2 RN G_fmod s t = if Reqb t 0 then Err EValue else Ok (s - t * IZR (Ztrunc (s / t)))) by reflexivity.
  rewrite Fm in F. destruct (Reqb y 0) eqn:Y0; [discriminate F|]. cbn [rbind] in F. injection F as <-.
  assert (Ny : y <> 0). { intros E0. unfold Reqb in Y0. rewrite E0 in Y0. destruct (Req_EM_T 0 0); [discriminate|contradiction]. }
  split; [exact Ny|]. split; [exact En|]. exists (cp 0%nat), (cp 1%nat). split; [|split].
  - intros Hu Tc. destruct (P 0%nat i eq_refl Hu) as (r2 & E2 & V2). cbn [m2_pos m2_der0] in E2.
    destruct (numerical_derivative (g:=g) (lg:=lg) (m2_fun G_fmod) (APos 0) [PNum p; PNum q] [] p (fun t => t - y * IZR (Ztrunc (t / y))) eq_refl) as (c & Ec & Hh & Wc & _).
    { intros t Ht. cbn [arg_set]. exists (PF (N:=RN) (t - y * IZR (Ztrunc (t / y)))). split; [|reflexivity].
      change (m2_fun G_fmod [PNum (PF (N:=RN) t); PNum q] [] = Ok (PNum (PF (N:=RN) (t - y * IZR (Ztrunc (t / y)))))). unfold m2_fun.
      rewrite !pn_float_R. cbn [rbind]. fold y. rewrite Fm, Y0. reflexivity. }
    rewrite E2 in Ec. injection Ec as ->. fold x in Hh, Wc. fold (step_at x) in Hh, Wc.
    rewrite <- V2, Wc, (Tc (x + step_at x)), (Tc (x - step_at x)) by (apply Rabs_le; lra). field. lra.
  - intros Hu Tc. destruct (P 1%nat j eq_refl Hu) as (r2 & E2 & V2). cbn [m2_pos m2_der1] in E2.
    assert (Sy : step_at y = Rabs y / 2 ^ 26) by (unfold step_at; rewrite Y0; reflexivity).
    assert (Py : 0 < Rabs y) by (apply Rabs_pos_lt, Ny).
    destruct (numerical_derivative (g:=g) (lg:=lg) (m2_fun G_fmod) (APos 1) [PNum p; PNum q] [] q (fun t => x - t * IZR (Ztrunc (x / t))) eq_refl) as (c & Ec & Hh & Wc & _).
    { intros t Ht. cbn [arg_set]. exists (PF (N:=RN) (x - t * IZR (Ztrunc (x / t)))). split; [|reflexivity].
      change (m2_fun G_fmod [PNum p; PNum (PF (N:=RN) t)] [] = Ok (PNum (PF (N:=RN) (x - t * IZR (Ztrunc (x / t)))))). unfold m2_fun.
      rewrite !pn_float_R. cbn [rbind]. fold x. rewrite Fm. change (pval (PF (N:=RN) t)) with t.
      assert (Nt : t <> 0).
      { intros ->. fold y in Ht. fold (step_at y) in Ht. rewrite Sy in Ht. rewrite Rminus_0_l, Rabs_Ropp in Ht.
        assert (Rabs y / 2 ^ 26 < Rabs y). { unfold Rdiv. rewrite <- (Rmult_1_r (Rabs y)) at 2. apply Rmult_lt_compat_l; [exact Py|]. lra. } lra. }
      unfold Reqb. destruct (Req_EM_T t 0); [contradiction|]. reflexivity. }
    rewrite E2 in Ec. injection Ec as ->. fold y in Hh, Wc. fold (step_at y) in Hh, Wc.
    rewrite <- V2, Wc, (Tc (y + step_at y)), (Tc (y - step_at y)) by (apply Rabs_le; lra). field. lra.
  - intros v Dx Dy HX HY. rewrite (G v (fun k => match k with 0%nat => Dx | _ => Dy end) (fun _ => 0)).
    + simpl. ring.
    + intros [|[|k]] k' Hk; simpl in Hk; try (destruct k; discriminate); injection Hk as <-; assumption.
    + intros [|k] m k' Hk; discriminate.
Qed.

(** gamma and lgamma. *)
Theorem gamma_chain : forall (st : state) f j u st' w d F F1 F2 F3 M,
  reachable st -> is_number st j u -> f = F_gamma \/ f = F_lgamma ->
  does st (ICall (m1_fun f) (m1_pos f) (m1_kw f) [j] []) st' ONone ->
  is_number st' (length (st_env st)) w -> reads st' (IDeriv (length (st_env st))) (ODict d) ->
  let x := uf_nom u in
  (forall t, Rabs (t - x) <= step_at x -> n_fun1 RN f t = Ok (F t) /\
     is_derive F t (F1 t) /\ is_derive F1 t (F2 t) /\ is_derive F2 t (F3 t) /\ Rabs (F3 t) <= M) ->
  uf_nom w = F x /\
  exists c, Rabs (c - F1 x) <= step_at x ^ 2 / 6 * M /\ forall v D, deriv_is st j v D -> dval d v = c * D.
Proof.
  intros st f j u st' w d F F1 F2 F3 M Rc U Hf Dn W Rd x HF.
  destruct (chain_rule st _ _ _ [j] [] st' w d [VUF u] [] Rc Dn W Rd) as
    (p & cp & ck & Fp & En & P & _ & G); [simpl; unfold is_number in U; now rewrite U|reflexivity|].
  cbn [map kw_map nominal_value] in Fp, P. change (@kw_map RN nominal_value []) with (@nil (nat * plain RN)) in Fp, P.
  assert (Px : 0 < step_at x).
  { unfold step_at. apply Rdiv_lt_0_compat; [|apply pow_lt; lra]. unfold Reqb. destruct (Req_EM_T x 0); [lra|apply Rabs_pos_lt; assumption]. }
  assert (X0 : n_fun1 RN f x = Ok (F x)) by (apply HF; rewrite Rminus_eq_0, Rabs_R0; lra).
  unfold m1_fun in Fp. cbn [pn_float rbind] in Fp. fold x in Fp. rewrite X0 in Fp. cbn [rbind] in Fp. injection Fp as <-.
  split; [exact En|]. exists (cp 0%nat). split.
  - destruct (P 0%nat j eq_refl (ex_intro _ u U)) as (r & Er & Ev).
    assert (Er' : partial_derivative (m1_fun f) (APos 0) [PNum (PF (N:=RN) x)] [] = Ok r) by (destruct Hf as [-> | ->]; exact Er).
    destruct (numerical_derivative (g:=g) (lg:=lg) (m1_fun f) (APos 0) [PNum (PF (N:=RN) x)] [] (PF (N:=RN) x) F eq_refl) as (c & Ec & Hh & _ & _ & Bd).
    { intros t Ht. cbn [arg_set]. exists (PF (N:=RN) (F t)). split; [|reflexivity].
      change (m1_fun f [PNum (PF (N:=RN) t)] [] = Ok (PNum (PF (N:=RN) (F t)))). unfold m1_fun. cbn [pn_float rbind]. destruct (HF t Ht) as (Y & _). rewrite Y. reflexivity. }
    rewrite Er' in Ec. injection Ec as ->. rewrite <- Ev. apply (Bd F1 F2 F3 M). intros t Ht. apply HF. exact Ht.
  - intros v D HD. rewrite (G v (fun _ => D) (fun _ => 0)).
    + simpl. ring.
    + intros [|[|k]] k' Hk; simpl in Hk; try (destruct k; discriminate); try discriminate. injection Hk as <-. exact HD.
    + intros [|k] m k' Hk; discriminate.
Qed.
End Num.

Section Ex.
Context {g lg : R -> R}.
Notation RN := (ROps g lg).

(** umath.fmod(x, y) with x = ufloat(1, 3) and y = ufloat(2, 4); umath.fmod(x, x) would be at a
    discontinuity. *)
Lemma fmod_x : forall t, Rabs (t - 1) <= step_at 1 -> Ztrunc (t / 2) = 0%Z.
Proof.
  intros t H. unfold step_at in H. rewrite (proj2 (Reqb_false 1 0)), Rabs_R1 in H by lra. apply Rabs_le_inv in H.
  rewrite Ztrunc_floor by lra. apply Zfloor_imp. simpl. lra.
Qed.
Lemma fmod_y : forall t, Rabs (t - 2) <= step_at 2 -> Ztrunc (1 / t) = 0%Z.
Proof.
  intros t H. unfold step_at in H. rewrite (proj2 (Reqb_false 2 0)), (Rabs_pos_eq 2) in H by lra. apply Rabs_le_inv in H.
  assert (P : 0 < / t) by (apply Rinv_0_lt_compat; lra).
  assert (Q : / t < 1) by (rewrite <- Rinv_1; apply Rinv_lt_contravar; lra).
  rewrite Ztrunc_floor by lra. apply Zfloor_imp. simpl. lra.
Qed.
Lemma ex_fmod : reachable (xy_st (g:=g) (lg:=lg)) /\ has_nominal (xy_st (g:=g) (lg:=lg)) 0 (PF (N:=RN) 1) /\ has_nominal (xy_st (g:=g) (lg:=lg)) 1 (PF (N:=RN) 2) /\
  uncertain (xy_st (g:=g) (lg:=lg)) 0 /\ uncertain (xy_st (g:=g) (lg:=lg)) 1 /\
  (exists st' w d, does (xy_st (g:=g) (lg:=lg)) (ICall (m2_fun G_fmod) (m2_pos G_fmod) (m2_kw G_fmod) [0; 1]%nat []) st' ONone /\
     is_number st' (length (st_env (xy_st (g:=g) (lg:=lg)))) w /\ reads st' (IDeriv (length (st_env (xy_st (g:=g) (lg:=lg))))) (ODict d)) /\
  (forall t, Rabs (t - 1) <= step_at 1 -> Ztrunc (t / 2) = Ztrunc (1 / 2)) /\ (forall t, Rabs (t - 2) <= step_at 2 -> Ztrunc (1 / t) = Ztrunc (1 / 2)).
Proof.
  split; [exact xy_reach|]. split; [eexists; split; reflexivity|]. split; [eexists; split; reflexivity|].
  split; [eexists; reflexivity|]. split; [eexists; reflexivity|].
  assert (P2 : 0 < 2 ^ 26) by (apply pow_lt; lra).
  assert (S1 : Rabs (1 - 1) <= step_at 1). { unfold step_at. rewrite (proj2 (Reqb_false 1 0)) by lra. rewrite Rminus_eq_0, Rabs_R0, Rabs_R1. apply Rlt_le, Rdiv_lt_0_compat; lra. }
  split; [|split; [intros t H; rewrite (fmod_x t H); symmetry; apply fmod_x, S1|intros t H; rewrite (fmod_y t H); symmetry; apply fmod_x, S1]].
  assert (Fm : forall s t, t <> 0 -> m2_fun G_fmod [PNum (PF (N:=RN) s); PNum (PF (N:=RN) t)] [] = Ok (PNum (PF (N:=RN) (s - t * IZR (Ztrunc (s / t)))))).
  { intros s t H. unfold m2_fun. cbn [pn_float rbind]. change (n_fun2 RN G_fmod s t) with (if Reqb t 0 then Err EValue else Ok (s - t * IZR (Ztrunc (s / t)))).
    rewrite (proj2 (Reqb_false t 0)) by exact H. reflexivity. }
  destruct (numerical_derivative (g:=g) (lg:=lg) (m2_fun G_fmod) (APos 0) [PNum (PF (N:=RN) 1); PNum (PF (N:=RN) 2)] [] (PF (N:=RN) 1) (fun t => t - 2 * IZR (Ztrunc (t / 2))) eq_refl) as (c0 & E0 & _).
  { intros t _. eexists. split; [apply (Fm t 2); lra|reflexivity]. }
  destruct (numerical_derivative (g:=g) (lg:=lg) (m2_fun G_fmod) (APos 1) [PNum (PF (N:=RN) 1); PNum (PF (N:=RN) 2)] [] (PF (N:=RN) 2) (fun t => 1 - t * IZR (Ztrunc (1 / t))) eq_refl) as (c1 & E1 & _).
  { intros t H. cbn [pval] in H. rewrite (proj2 (Reqb_false 2 0)), (Rabs_pos_eq 2) in H by lra. apply Rabs_le_inv in H. eexists. split; [apply (Fm 1 t); lra|reflexivity]. }
  assert (D : exists st' w, does (xy_st (g:=g) (lg:=lg)) (ICall (m2_fun G_fmod) (m2_pos G_fmod) (m2_kw G_fmod) [0; 1]%nat []) st' ONone /\
     is_number st' (length (st_env (xy_st (g:=g) (lg:=lg)))) w).
  { eexists _, _. split.
    - exists 0%nat. intros fuel _. rewrite (umath2_call fuel xy_st G_fmod 0 1 (VUF (mkUF (N:=RN) 1 0%nat (Some 0%nat))) (VUF (mkUF (N:=RN) 2 1%nat (Some 1%nat))) eq_refl eq_refl). unfold umath2, wcall.
      cbn [existsb is_uf orb negb map nominal_value kw_map uf_nom]. rewrite (Fm 1 2) by lra.
      change (pos_terms (m2_pos G_fmod) 0 [VUF (mkUF (N:=RN) 1 0%nat (Some 0%nat)); VUF (mkUF (N:=RN) 2 1%nat (Some 1%nat))] [PNum (PF (N:=RN) 1); PNum (PF (N:=RN) 2)] [])
        with (rbind (partial_derivative (m2_fun G_fmod) (APos 0) [PNum (PF (N:=RN) 1); PNum (PF (N:=RN) 2)] []) (fun c =>
              rbind (rbind (partial_derivative (m2_fun G_fmod) (APos 1) [PNum (PF (N:=RN) 1); PNum (PF (N:=RN) 2)] []) (fun c' => Ok [IPair c' 1%nat])) (fun t => Ok (IPair c 0%nat :: t)))).
      rewrite E0. cbn [rbind]. rewrite E1. reflexivity.
    - reflexivity. }
  destruct D as (st' & w & D & W). 
  assert (Rc : reachable st') by (apply (reach_runs _ [ICall (m2_fun G_fmod) (m2_pos G_fmod) (m2_kw G_fmod) [0; 1]%nat []] _ [ONone] xy_reach); destruct D as (k & D); exists k; intros fuel Hk; cbn [run]; rewrite (D fuel Hk); reflexivity).
  destruct (reads_succeed st' _ w Rc W) as ((d & Rd & _) & _). exists st', w, d. split; [exact D|]. split; [exact W|exact Rd].
Qed.
End Ex.
(** umath.gamma(x), if the function gamma was the square. *)
Definition square_xy lg : state (ROps (fun t => t ^ 2) lg) := xy_st (g:=fun t => t ^ 2) (lg:=lg).
Lemma ex_gamma : forall lg : R -> R, reachable (square_xy lg) /\ is_number (square_xy lg) 0 (mkUF (N:=ROps (fun t => t ^ 2) lg) 1 0%nat (Some 0%nat)) /\
  (exists st' w d, does (square_xy lg) (ICall (m1_fun F_gamma) (m1_pos F_gamma) (m1_kw F_gamma) [0%nat] []) st' ONone /\
     is_number st' (length (st_env (square_xy lg))) w /\ reads st' (IDeriv (length (st_env (square_xy lg)))) (ODict d)) /\
  (forall t, Rabs (t - 1) <= step_at 1 -> n_fun1 (ROps (fun t => t ^ 2) lg) F_gamma t = Ok (t ^ 2) /\
     is_derive (fun t => t ^ 2) t (2 * t) /\ is_derive (fun t => 2 * t) t 2 /\ is_derive (fun _ => 2) t 0 /\ Rabs 0 <= 0).
Proof.
  intros lg. split; [exact xy_reach|]. split; [exact xy_x|].
  assert (Fg : forall t, 0 < t -> n_fun1 (ROps (fun t => t ^ 2) lg) F_gamma t = Ok (t ^ 2)).
  { intros t H. change (n_fun1 (ROps (fun t => t ^ 2) lg) F_gamma t) with (if Ris_int t && Rleb t 0 then Err EValue else Ok (t ^ 2) : res R).
    replace (Rleb t 0) with false by (unfold Rleb; destruct (Rle_dec t 0); [lra|reflexivity]). rewrite andb_false_r. reflexivity. }
  assert (St : forall t, Rabs (t - 1) <= step_at 1 -> 0 < t).
  { intros t H. unfold step_at in H. rewrite (proj2 (Reqb_false 1 0)), Rabs_R1 in H by lra. apply Rabs_le_inv in H. lra. }
  split; [|intros t H; split; [apply Fg, St, H|split; [auto_derive; [exact I|ring]|split; [auto_derive; [exact I|ring]|split; [auto_derive; [exact I|ring]|rewrite Rabs_R0; lra]]]]].
  destruct (numerical_derivative (g:=fun t => t ^ 2) (lg:=lg) (m1_fun F_gamma) (APos 0) [PNum (PF (N:=ROps (fun t => t ^ 2) lg) 1)] [] (PF (N:=ROps (fun t => t ^ 2) lg) 1) (fun t => t ^ 2) eq_refl) as (c0 & E0 & _).
  { intros t H. exists (PF (N:=ROps (fun t => t ^ 2) lg) (t ^ 2)). split; [|reflexivity].
    change (m1_fun F_gamma [PNum (PF (N:=ROps (fun t => t ^ 2) lg) t)] [] = Ok (PNum (PF (N:=ROps (fun t => t ^ 2) lg) (t ^ 2)))). unfold m1_fun. cbn [pn_float rbind]. rewrite (Fg t (St t H)). reflexivity. }
  assert (D : exists st' w, does (square_xy lg) (ICall (m1_fun F_gamma) (m1_pos F_gamma) (m1_kw F_gamma) [0%nat] []) st' ONone /\ is_number st' (length (st_env (square_xy lg))) w).
  { eexists _, _. split.
    - exists 0%nat. intros fuel _. rewrite (umath1_call fuel (square_xy lg) F_gamma 0 (VUF (mkUF (N:=ROps (fun t => t ^ 2) lg) 1 0%nat (Some 0%nat))) eq_refl). unfold umath1, wcall.
      cbn [existsb is_uf orb negb map nominal_value kw_map uf_nom].
      replace (m1_fun F_gamma [PNum (PF (N:=ROps (fun t => t ^ 2) lg) 1)] []) with (Ok (PNum (PF (N:=ROps (fun t => t ^ 2) lg) (1 ^ 2)))) by (unfold m1_fun; cbn [pn_float rbind]; rewrite (Fg 1) by lra; reflexivity).
      change (pos_terms (m1_pos F_gamma) 0 [VUF (mkUF (N:=ROps (fun t => t ^ 2) lg) 1 0%nat (Some 0%nat))] [PNum (PF (N:=ROps (fun t => t ^ 2) lg) 1)] [])
        with (rbind (partial_derivative (m1_fun F_gamma) (APos 0) [PNum (PF (N:=ROps (fun t => t ^ 2) lg) 1)] []) (fun c => Ok [IPair c 0%nat])).
      rewrite E0. reflexivity.
    - reflexivity. }
  destruct D as (st' & w & D & W).
  assert (Rc : reachable st') by (apply (reach_runs _ [ICall (m1_fun F_gamma) (m1_pos F_gamma) (m1_kw F_gamma) [0%nat] []] _ [ONone] xy_reach); destruct D as (k & D); exists k; intros fuel Hk; cbn [run]; change (xy_st (g:=fun t => t ^ 2) (lg:=lg)) with (square_xy lg); rewrite (D fuel Hk); reflexivity).
  destruct (reads_succeed st' _ w Rc W) as ((d & Rd & _) & _). exists st', w, d. split; [exact D|]. split; [exact W|exact Rd].
Qed.
