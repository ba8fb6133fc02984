(** The derivatives of the elementary operations are their true partial derivatives. *)
From Coq Require Import ZArith List Bool Reals Lra Lia Arith.
From Coquelicot Require Import Coquelicot.
From Verif Require Import Base Heap Affine Ops UMath NumR HeapSpec HeapProofs DenProofs Machine Plain
  Spec Refine Regular DiffProofs ADProofs DerivR Prim.
From Flocq Require Import Core.
Import ListNotations.
Local Open Scope R_scope.

(** ** Total functions of several variables *)
Definition fd (n : nat) (F : (nat -> R) -> R) (x0 gr : nat -> R) : Prop :=
  fdiff n (fun z => Some (F z)) x0 gr.

Lemma fd_ext : forall n F x0 gr gr', (forall v, (v < n)%nat -> gr v = gr' v) ->
  fd n F x0 gr -> fd n F x0 gr'.
Proof. intros. eapply fdiff_ext; eauto. Qed.
Lemma fd_const : forall n k x0, fd n (fun _ => k) x0 (fun _ => 0).
Proof.
  intros n k x0. exists k. split; auto. intros eps He. exists 1. split; [lra|].
  intros x _. exists k. split; auto.
  assert (dot n (fun _ => 0) (fun i => x i - x0 i) = 0) as ->.
  { unfold dot. induction (seq 0 n); simpl; lra. }
  replace (k - k - 0) with 0 by ring. rewrite Rabs_R0.
  apply Rmult_le_pos; [lra|apply nrm_nonneg].
Qed.
Lemma fd_proj : forall n k x0, (k < n)%nat ->
  fd n (fun z => z k) x0 (fun v => if Nat.eqb v k then 1 else 0).
Proof. intros. now apply fdiff_proj. Qed.
Lemma fd_comp1 : forall n F x0 gr (g : R -> R) l, fd n F x0 gr -> is_derive g (F x0) l ->
  fd n (fun z => g (F z)) x0 (fun v => l * gr v).
Proof.
  intros n F x0 gr g l D H.
  assert (G : fdiff 1 (fun z => Some (g (z 0%nat))) (fun _ => F x0) (fun _ => l)).
  { apply (fdiff_1 g); auto. exists 1. split; [lra|]. auto. }
  apply (fdiff_ext n _ x0 (fun v => Rsum (map (fun k => (fun _ => l) k * (fun _ => gr) k v) (seq 0 1)))).
  { intros; simpl; ring. }
  apply (fdiff_comp 1 n _ (fun _ => F x0) (fun _ => l) (fun _ z => Some (F z)) (fun _ => gr) x0
    (fun z => Some (g (F z))) G).
  - intros k Hk. split; auto.
  - exists 1. split; [lra|]. intros x z _ E. specialize (E 0%nat (Nat.lt_0_succ 0)).
    simpl in E. injection E; intros <-. reflexivity.
Qed.
Lemma fd_lin : forall n F G x0 gf gg a b, fd n F x0 gf -> fd n G x0 gg ->
  fd n (fun z => a * F z + b * G z) x0 (fun v => a * gf v + b * gg v).
Proof.
  intros n F G x0 gf gg a b DF DG.
  set (c := fun k : nat => if Nat.eqb k 0 then a else b).
  set (z0 := fun k : nat => if Nat.eqb k 0 then F x0 else G x0).
  assert (H : fdiff 2 (fun z => Some (a * z 0%nat + b * z 1%nat)) z0 c).
  { exists (a * z0 0%nat + b * z0 1%nat). split; auto. intros eps He. exists 1. split; [lra|].
    intros x _. eexists. split; [reflexivity|]. unfold dot. simpl.
    match goal with |- Rabs ?e <= _ => replace e with 0 by (unfold c, z0; simpl; ring) end.
    rewrite Rabs_R0. apply Rmult_le_pos; [lra|apply nrm_nonneg]. }
  set (gr := fun k : nat => if Nat.eqb k 0 then gf else gg).
  apply (fdiff_ext n _ x0 (fun v => Rsum (map (fun k => c k * gr k v) (seq 0 2)))).
  { intros; simpl; unfold c, gr; simpl; ring. }
  apply (fdiff_comp 2 n _ z0 c (fun k z => Some (if Nat.eqb k 0 then F z else G z)) gr x0
    (fun z => Some (a * F z + b * G z)) H).
  - intros k Hk. unfold gr, z0. destruct (Nat.eqb k 0); split; auto.
  - exists 1. split; [lra|]. intros x z _ E.
    pose proof (E 0%nat (Nat.lt_0_succ 1)) as E0. pose proof (E 1%nat (Nat.lt_succ_diag_r 1)) as E1.
    simpl in E0, E1. injection E0; injection E1; intros <- <-. reflexivity.
Qed.
Lemma fd_fun : forall n F G x0 gr, (forall z, F z = G z) -> fd n F x0 gr -> fd n G x0 gr.
Proof.
  intros n F G x0 gr E D. unfold fd in *. eapply fdiff_local; [|exact D].
  exists 1. split; [lra|]. intros x _. now rewrite E.
Qed.
Lemma fd_plus : forall n F G x0 gf gg, fd n F x0 gf -> fd n G x0 gg ->
  fd n (fun z => F z + G z) x0 (fun v => gf v + gg v).
Proof.
  intros. apply (fd_fun n (fun z => 1 * F z + 1 * G z)); [intros; ring|].
  eapply fd_ext; [|apply fd_lin; eauto]. intros; simpl; ring.
Qed.
Lemma fd_minus : forall n F G x0 gf gg, fd n F x0 gf -> fd n G x0 gg ->
  fd n (fun z => F z - G z) x0 (fun v => gf v - gg v).
Proof.
  intros. apply (fd_fun n (fun z => 1 * F z + -1 * G z)); [intros; ring|].
  eapply fd_ext; [|apply fd_lin; eauto]. intros; simpl; ring.
Qed.
Lemma fd_scal : forall n F x0 gf k, fd n F x0 gf ->
  fd n (fun z => k * F z) x0 (fun v => k * gf v).
Proof.
  intros. apply (fd_fun n (fun z => k * F z + 0 * F z)); [intros; ring|].
  eapply fd_ext; [|apply fd_lin; eauto]. intros; simpl; ring.
Qed.
Lemma fd_mult : forall n F G x0 gf gg, fd n F x0 gf -> fd n G x0 gg ->
  fd n (fun z => F z * G z) x0 (fun v => G x0 * gf v + F x0 * gg v).
Proof.
  intros n F G x0 gf gg DF DG.
  assert (Sq : forall x, is_derive (fun t => t ^ 2 / 4) x (x / 2)).
  { intros x. auto_derive; auto. field. }
  apply (fd_fun n (fun z => (F z + G z) ^ 2 / 4 - (F z - G z) ^ 2 / 4)); [intros; field|].
  pose proof (fd_comp1 n _ x0 _ (fun t => t ^ 2 / 4) _ (fd_plus n F G x0 gf gg DF DG) (Sq _)) as A.
  pose proof (fd_comp1 n _ x0 _ (fun t => t ^ 2 / 4) _ (fd_minus n F G x0 gf gg DF DG) (Sq _)) as B.
  eapply fd_ext; [|exact (fd_minus _ _ _ _ _ _ A B)].
  intros v _. simpl. field.
Qed.
Lemma inv_derive : forall x, x <> 0 -> is_derive Rinv x (- 1 / x ^ 2).
Proof. intros. auto_derive; auto. field. auto. Qed.
Lemma fd_div : forall n F G x0 gf gg, fd n F x0 gf -> fd n G x0 gg -> G x0 <> 0 ->
  fd n (fun z => F z / G z) x0 (fun v => gf v / G x0 - F x0 / (G x0) ^ 2 * gg v).
Proof.
  intros n F G x0 gf gg DF DG N0. unfold Rdiv.
  eapply fd_ext; [|apply fd_mult; [exact DF|apply fd_comp1; [exact DG|apply inv_derive; auto]]].
  intros v _. simpl. field. auto.
Qed.
Lemma fd_near : forall n F x0 gr, fd n F x0 gr -> forall e, 0 < e ->
  exists d, 0 < d /\ forall x, nrm n (fun i => x i - x0 i) < d -> Rabs (F x - F x0) < e.
Proof.
  intros n F x0 gr (y0 & E0 & D) e He. injection E0; intros <-.
  destruct (D 1) as (d & Pd & B); [lra|].
  set (K := nrm n gr + 1). assert (PK : 0 < K) by (unfold K; pose proof (nrm_nonneg n gr); lra).
  exists (Rmin d (e / K)). split. { apply Rmin_glb_lt; auto. now apply Rdiv_lt_0_compat. }
  intros x Hx. destruct (B x) as (y & Ey & By). { eapply Rlt_le_trans; [exact Hx|apply Rmin_l]. }
  injection Ey; intros <-. set (m := nrm n (fun i => x i - x0 i)) in *.
  assert (m < e / K) by (eapply Rlt_le_trans; [exact Hx|apply Rmin_r]).
  pose proof (dot_bound n gr (fun i => x i - x0 i)) as DB. fold m in DB.
  assert (Rabs (F x - F x0) <= K * m).
  { replace (F x - F x0) with ((F x - F x0 - dot n gr (fun i => x i - x0 i)) + dot n gr (fun i => x i - x0 i)) by ring.
    eapply Rle_trans; [apply Rabs_triang|]. unfold K. lra. }
  apply Rle_lt_trans with (K * m); auto.
  replace e with (K * (e / K)) by (field; lra). apply Rmult_lt_compat_l; auto.
Qed.
Lemma fd_pos_near : forall n F x0 gr, fd n F x0 gr -> 0 < F x0 ->
  exists d, 0 < d /\ forall x, nrm n (fun i => x i - x0 i) < d -> 0 < F x.
Proof.
  intros n F x0 gr D H. destruct (fd_near n F x0 gr D (F x0) H) as (d & P & B).
  exists d. split; auto. intros x Hx. specialize (B x Hx). apply Rabs_def2 in B. lra.
Qed.
Lemma fd_neg_near : forall n F x0 gr, fd n F x0 gr -> F x0 < 0 ->
  exists d, 0 < d /\ forall x, nrm n (fun i => x i - x0 i) < d -> F x < 0.
Proof.
  intros n F x0 gr D H. destruct (fd_near n F x0 gr D (- F x0)) as (d & P & B); [lra|].
  exists d. split; auto. intros x Hx. specialize (B x Hx). apply Rabs_def2 in B. lra.
Qed.
Lemma fd_nz_near : forall n F x0 gr, fd n F x0 gr -> F x0 <> 0 ->
  exists d, 0 < d /\ forall x, nrm n (fun i => x i - x0 i) < d -> F x <> 0.
Proof.
  intros n F x0 gr D H. destruct (Rtotal_order (F x0) 0) as [L|[L|L]]; [|contradiction|].
  - destruct (fd_neg_near _ _ _ _ D L) as (d & P & B). exists d. split; auto.
    intros x Hx. specialize (B x Hx). lra.
  - destruct (fd_pos_near _ _ _ _ D L) as (d & P & B). exists d. split; auto.
    intros x Hx. specialize (B x Hx). lra.
Qed.

(** Combining neighbourhoods. *)
Definition nearby (n : nat) (x0 : nat -> R) (P : (nat -> R) -> Prop) : Prop :=
  exists d, 0 < d /\ forall x, nrm n (fun i => x i - x0 i) < d -> P x.
Lemma nearby_and : forall n x0 P Q, nearby n x0 P -> nearby n x0 Q ->
  nearby n x0 (fun x => P x /\ Q x).
Proof.
  intros n x0 P Q (d & Pd & A) (e & Pe & B). exists (Rmin d e).
  split; [now apply Rmin_glb_lt|]. intros x Hx. split.
  - apply A. eapply Rlt_le_trans; [exact Hx|apply Rmin_l].
  - apply B. eapply Rlt_le_trans; [exact Hx|apply Rmin_r].
Qed.
Lemma nearby_impl : forall n x0 (P Q : (nat -> R) -> Prop), (forall x, P x -> Q x) ->
  nearby n x0 P -> nearby n x0 Q.
Proof. intros n x0 P Q H (d & Pd & A). exists d. auto. Qed.
Lemma nearby_all : forall n x0 (P : (nat -> R) -> Prop), (forall x, P x) -> nearby n x0 P.
Proof. intros. exists 1. split; [lra|]. auto. Qed.

Lemma fdiff_of_fd : forall n F (G : (nat -> R) -> option R) x0 gr, fd n F x0 gr ->
  nearby n x0 (fun z => G z = Some (F z)) -> fdiff n G x0 gr.
Proof.
  intros n F G x0 gr D (d & Pd & E). eapply fdiff_local; [|exact D]. exists d. split; auto.
  intros. now rewrite E.
Qed.

(** ** Floor is locally constant off the integers *)
Lemma floor_near : forall x, ~ integral x -> exists e, 0 < e /\ forall t, Rabs (t - x) < e ->
  Zfloor t = Zfloor x.
Proof.
  intros x H. pose proof (Zfloor_lb x) as L. pose proof (Zfloor_ub x) as U.
  assert (IZR (Zfloor x) <> x). { intros E. apply H. exists (Zfloor x). auto. }
  exists (Rmin (x - IZR (Zfloor x)) (IZR (Zfloor x) + 1 - x)).
  split. { apply Rmin_glb_lt; lra. }
  intros t Ht. apply Rabs_def2 in Ht.
  pose proof (Rmin_l (x - IZR (Zfloor x)) (IZR (Zfloor x) + 1 - x)).
  pose proof (Rmin_r (x - IZR (Zfloor x)) (IZR (Zfloor x) + 1 - x)).
  apply Zfloor_imp. rewrite plus_IZR. lra.
Qed.
Lemma trunc_near : forall x, ~ integral x -> exists e, 0 < e /\ forall t, Rabs (t - x) < e ->
  Ztrunc t = Ztrunc x.
Proof.
  intros x H. assert (x <> 0) by (intros ->; apply H; now exists 0%Z).
  destruct (floor_near x H) as (e & Pe & E).
  assert (H' : ~ integral (- x)).
  { intros [z Hz]. apply H. exists (- z)%Z. rewrite opp_IZR. lra. }
  destruct (floor_near (- x) H') as (e' & Pe' & E').
  pose proof (Rabs_pos_lt x H0).
  exists (Rmin (Rabs x) (Rmin e e')). split. { repeat apply Rmin_glb_lt; auto. }
  intros t Ht.
  assert (T1 : Rabs (t - x) < Rabs x) by (eapply Rlt_le_trans; [exact Ht|apply Rmin_l]).
  assert (T2 : Rabs (t - x) < e).
  { eapply Rlt_le_trans; [exact Ht|]. eapply Rle_trans; [apply Rmin_r|apply Rmin_l]. }
  assert (T3 : Rabs (- t - - x) < e').
  { replace (- t - - x) with (- (t - x)) by ring. rewrite Rabs_Ropp.
    eapply Rlt_le_trans; [exact Ht|]. eapply Rle_trans; [apply Rmin_r|apply Rmin_r]. }
  destruct (Rle_or_lt 0 x) as [P|P].
  - rewrite (Rabs_pos_eq x) in T1 by auto. apply Rabs_def2 in T1.
    rewrite !Ztrunc_floor by lra. auto.
  - rewrite (Rabs_left x) in T1 by auto. apply Rabs_def2 in T1.
    rewrite !Ztrunc_ceil by lra. unfold Zceil. now rewrite E'.
Qed.

(** ** Powers *)
Lemma Rpow_py_Z : forall u m, (u <> 0 \/ (0 <= m)%Z) ->
  Rpow_py u (IZR m) = Ok (Some (powerRZ u m)).
Proof.
  intros u m H. unfold Rpow_py. destruct (Reqb (IZR m) 0) eqn:E0.
  { apply Reqb_true in E0. apply eq_IZR in E0. subst. reflexivity. }
  apply Reqb_false in E0. assert (Nm : m <> 0%Z) by congruence.
  destruct (Rltb 0 u) eqn:E1.
  { apply Rltb_true in E1. now rewrite powerRZ_Rpower. }
  apply Rltb_false in E1. destruct (Reqb u 0) eqn:E2.
  - apply Reqb_true in E2. subst. destruct H as [H|H]; [contradiction|].
    assert (Pm : 0 < IZR m) by (apply IZR_lt; lia).
    apply Rltb_true in Pm. rewrite Pm. destruct m; try lia. simpl.
    rewrite pow_i; auto. apply Pos2Nat.is_pos.
  - rewrite Ris_int_IZR, Zfloor_IZR. reflexivity.
Qed.
Lemma Rpow_py_pos : forall x y, 0 < x -> Rpow_py x y = Ok (Some (Rpower x y)).
Proof.
  intros x y H. unfold Rpow_py. destruct (Reqb y 0) eqn:E.
  - apply Reqb_true in E. subst. now rewrite Rpower_O.
  - apply Rltb_true in H. now rewrite H.
Qed.

Section Operands.
(** Two operands [U], [V] as differentiable functions of [n] variables; an operand that does
    not vary is constant. *)
Variables (n : nat) (U V : (nat -> R) -> R) (x0 gu gv : nat -> R) (bx by_ : bool).
Hypotheses (DU : fd n U x0 gu) (DV : fd n V x0 gv)
  (CU : bx = false -> (forall z, U z = U x0) /\ forall v, gu v = 0)
  (CV : by_ = false -> (forall z, V z = V x0) /\ forall v, gv v = 0).

Let good (F : R -> R -> R) (a b : R) : Prop :=
  fd n (fun z => F (U z) (V z)) x0 (fun v => a * gu v + b * gv v).

Lemma nearU_pos : 0 < U x0 -> nearby n x0 (fun z => 0 < U z).
Proof. intros. eapply fd_pos_near; eauto. Qed.
Lemma nearV_pos : 0 < V x0 -> nearby n x0 (fun z => 0 < V z).
Proof. intros. eapply fd_pos_near; eauto. Qed.
Lemma nearU_neg : U x0 < 0 -> nearby n x0 (fun z => U z < 0).
Proof. intros. eapply fd_neg_near; eauto. Qed.
Lemma nearV_neg : V x0 < 0 -> nearby n x0 (fun z => V z < 0).
Proof. intros. eapply fd_neg_near; eauto. Qed.
Lemma nearU_nz : U x0 <> 0 -> nearby n x0 (fun z => U z <> 0).
Proof. intros. eapply fd_nz_near; eauto. Qed.
Lemma nearV_nz : V x0 <> 0 -> nearby n x0 (fun z => V z <> 0).
Proof. intros. eapply fd_nz_near; eauto. Qed.

Lemma pow_good : pow_dom bx by_ (U x0) (V x0) -> exists F a b, good F a b /\
  nearby n x0 (fun z => Rpow_py (U z) (V z) = Ok (Some (F (U z) (V z)))) /\
  (bx = true -> (V x0 = 0 /\ a = 0) \/
     (V x0 <> 0 /\ (U x0 <> 0 \/ integral (V x0)) /\
      exists w, Rpow_py (U x0) (V x0 - 1) = Ok (Some w) /\ a = V x0 * w)) /\
  (by_ = true -> (U x0 = 0 /\ 0 < V x0 /\ b = 0) \/
     (0 < U x0 /\ exists w, Rpow_py (U x0) (V x0) = Ok (Some w) /\ b = ln (U x0) * w)).
Proof.
  intros [P|[(By & (m & Em) & H)|(Bx & X & Y)]].
  - exists Rpower, (V x0 * Rpower (U x0) (V x0 - 1)), (ln (U x0) * Rpower (U x0) (V x0)).
    split; [|split; [|split]].
    + unfold good. unfold Rpower at 1.
      pose proof (fd_comp1 _ _ _ _ ln _ DU (ln_derive _ P)) as D1.
      pose proof (fd_mult _ _ _ _ _ _ DV D1) as D2.
      pose proof (fd_comp1 _ _ _ _ exp _ D2 (is_derive_exp _)) as D3. cbv beta in D3.
      eapply fd_ext; [|exact D3]. intros v _. cbv beta.
      assert (E : Rpower (U x0) (V x0 - 1) = Rpower (U x0) (V x0) / U x0).
      { unfold Rminus. rewrite Rpower_plus, Rpower_Ropp, Rpower_1 by auto. reflexivity. }
      rewrite E. unfold Rpower. field. lra.
    + eapply nearby_impl; [|exact (nearU_pos P)]. intros z Pz. now apply Rpow_py_pos.
    + intros _. destruct (Req_dec (V x0) 0) as [E|E].
      * left. split; auto. rewrite E. ring.
      * right. split; auto. split; [left; lra|]. eexists. split; [now apply Rpow_py_pos|reflexivity].
    + intros _. right. split; auto. eexists. split; [now apply Rpow_py_pos|reflexivity].
  - destruct (CV By) as [Cv Gv].
    exists (fun u _ => powerRZ u m), (IZR m * powerRZ (U x0) (m - 1)), 0.
    assert (H' : U x0 <> 0 \/ (0 <= m)%Z).
    { destruct H as [H|H]; auto. right. rewrite Em in H. now apply le_IZR. }
    split; [|split; [|split]].
    + eapply fd_ext; [|apply (fd_comp1 _ _ _ _ (fun u => powerRZ u m) (IZR m * powerRZ (U x0) (m - 1)) DU)].
      * intros v _. cbv beta. rewrite Gv. ring.
      * destruct (Z.eq_dec m 0) as [->|Nm].
        { simpl. eapply is_derive_val; [apply @is_derive_const|].
          change (@zero R_NormedModule) with 0. ring. }
        apply powerRZ_derive. destruct H'; [auto|right; lia].
    + destruct H' as [H'|H'].
      * eapply nearby_impl; [|exact (nearU_nz H')]. intros z Hz. rewrite Cv, Em.
        apply Rpow_py_Z; auto.
      * apply nearby_all. intros z. rewrite Cv, Em. apply Rpow_py_Z; auto.
    + intros _. rewrite Em. destruct (Z.eq_dec m 0) as [->|Nm].
      * left. split; auto. ring.
      * right. split. { now apply (IZR_neq m 0). } split. { right. now exists m. }
        exists (powerRZ (U x0) (m - 1)). split; auto.
        rewrite <- minus_IZR. apply Rpow_py_Z. destruct H'; [auto|right; lia].
    + congruence.
  - destruct (CU Bx) as [Cu Gu]. exists (fun _ _ => 0), 0, 0.
    split; [|split; [|split]].
    + eapply fd_ext; [|apply fd_const]. intros; simpl; ring.
    + eapply nearby_impl; [|exact (nearV_pos Y)]. intros z Pz. rewrite Cu, X.
      unfold Rpow_py. replace (Reqb (V z) 0) with false by (symmetry; apply Reqb_false; lra).
      replace (Rltb 0 0) with false by (symmetry; apply Rltb_false; lra).
      replace (Reqb 0 0) with true by (symmetry; apply Reqb_true; lra).
      replace (Rltb 0 (V z)) with true by (symmetry; apply Rltb_true; lra). reflexivity.
    + congruence.
    + intros _. left. auto.
Qed.

Lemma div_good : V x0 <> 0 -> good Rdiv (/ V x0) (- U x0 / V x0 ^ 2).
Proof.
  intros N0. eapply fd_ext; [|exact (fd_div _ _ _ _ _ _ DU DV N0)].
  intros v _. simpl. field. auto.
Qed.
Lemma floor_good : V x0 <> 0 -> ~ integral (U x0 / V x0) ->
  nearby n x0 (fun z => V z <> 0 /\ Zfloor (U z / V z) = Zfloor (U x0 / V x0)).
Proof.
  intros N0 NI. apply nearby_and; [now apply nearV_nz|].
  destruct (floor_near _ NI) as (e & Pe & E).
  destruct (fd_near _ _ _ _ (div_good N0) e Pe) as (d & Pd & B).
  exists d. split; auto. 
Qed.
Lemma mod_good : forall k, good (fun u v => u - v * k) 1 (- k).
Proof.
  intros k. eapply fd_ext; [|apply (fd_minus _ _ _ _ _ _ DU (fd_mult _ _ _ _ _ _ DV (fd_const n k x0)))].
  intros v _. cbv beta. ring.
Qed.

(** ** Functions of two variables of umath *)
Lemma hypot_good : U x0 <> 0 \/ V x0 <> 0 ->
  let r := sqrt (U x0 ^ 2 + V x0 ^ 2) in
  r <> 0 /\ good (fun u v => sqrt (u ^ 2 + v ^ 2)) (U x0 / r) (V x0 / r).
Proof.
  intros H r.
  assert (P : 0 < U x0 ^ 2 + V x0 ^ 2).
  { pose proof (pow2_ge_0 (U x0)). pose proof (pow2_ge_0 (V x0)).
    destruct H as [H|H]; apply (pow_nonzero _ 2) in H; lra. }
  assert (Pr : 0 < r) by now apply sqrt_lt_R0. split; [lra|].
  assert (Sq : forall t, is_derive (fun t => t ^ 2) t (2 * t)).
  { intros. auto_derive; auto. ring. }
  pose proof (fd_comp1 _ _ _ _ (fun t => t ^ 2) _ DU (Sq _)) as D1.
  pose proof (fd_comp1 _ _ _ _ (fun t => t ^ 2) _ DV (Sq _)) as D2.
  pose proof (fd_comp1 _ _ _ _ sqrt _ (fd_plus _ _ _ _ _ _ D1 D2) (sqrt_derive _ P)) as D3.
  eapply fd_ext; [|exact D3]. intros v _. cbv beta. fold r. field. lra.
Qed.
Lemma log_good : 0 < U x0 -> 0 < V x0 -> V x0 <> 1 ->
  ln (V x0) <> 0 /\
  good (fun u v => ln u / ln v) (1 / U x0 / ln (V x0)) (- (ln (U x0) / ln (V x0)) / V x0 / ln (V x0)).
Proof.
  intros P Q N1.
  assert (L : ln (V x0) <> 0).
  { intros E. apply N1. apply ln_inv; [auto|lra|]. now rewrite ln_1. }
  split; auto.
  pose proof (fd_comp1 _ _ _ _ ln _ DU (ln_derive _ P)) as D1.
  pose proof (fd_comp1 _ _ _ _ ln _ DV (ln_derive _ Q)) as D2.
  pose proof (fd_div _ _ _ _ _ _ D1 D2 L) as D3.
  eapply fd_ext; [|exact D3]. intros v _. cbv beta. field. repeat split; auto; lra.
Qed.
Lemma atan2_good : 0 < V x0 \/ U x0 <> 0 ->
  let r := V x0 ^ 2 + U x0 ^ 2 in
  r <> 0 /\ exists F, good F (V x0 / r) (- U x0 / r) /\
    nearby n x0 (fun z => Ratan2 (U z) (V z) = F (U z) (V z)).
Proof.
  intros H r.
  assert (P : 0 < r).
  { unfold r. pose proof (pow2_ge_0 (U x0)). pose proof (pow2_ge_0 (V x0)).
    destruct H as [H|H]. { nra. } apply (pow_nonzero _ 2) in H. lra. }
  split; [lra|].
  assert (K : (0 < V x0) \/ (V x0 <= 0 /\ 0 < U x0) \/ (V x0 <= 0 /\ U x0 < 0)) by
    (destruct (Rlt_dec 0 (V x0)); auto; right; destruct H as [H|H]; [contradiction|];
     destruct (Rtotal_order 0 (U x0)) as [|[|]]; [left|congruence|right]; lra).
  assert (G : U x0 <> 0 -> forall k, good (fun u v => k - atan (v / u)) (V x0 / r) (- U x0 / r)).
  { intros N0 k. pose proof (fd_comp1 _ _ _ _ atan _ (fd_div _ _ _ _ _ _ DV DU N0) (atan_derive _)) as D1.
    pose proof (fd_minus _ _ _ _ _ _ (fd_const n k x0) D1) as D2.
    eapply fd_ext; [|exact D2]. intros v _. cbv beta. unfold r in *. field.
    repeat split; try lra; nra. }
  destruct K as [K|[[K L]|[K L]]].
  - exists (fun u v => atan (u / v)). split.
    + assert (N0 : V x0 <> 0) by lra.
      pose proof (fd_comp1 _ _ _ _ atan _ (fd_div _ _ _ _ _ _ DU DV N0) (atan_derive _)) as D1.
      eapply fd_ext; [|exact D1]. intros v _. cbv beta. unfold r in *. field.
      repeat split; try lra; nra.
    + eapply nearby_impl; [|exact (nearV_pos K)]. intros z Hz. unfold Ratan2.
      apply Rltb_true in Hz. now rewrite Hz.
  - exists (fun u v => PI / 2 - atan (v / u)). split; [apply G; lra|].
    eapply nearby_impl; [|exact (nearU_pos L)]. intros z Hz. unfold Ratan2.
    destruct (Rltb 0 (V z)) eqn:E.
    + apply Rltb_true in E.
      pose proof (atan_inv (V z / U z)) as A. rewrite <- A.
      * f_equal. unfold Rdiv. rewrite Rinv_mult, Rinv_inv. ring.
      * now apply Rdiv_lt_0_compat.
    + apply Rltb_true in Hz. now rewrite Hz.
  - exists (fun u v => - (PI / 2) - atan (v / u)). split; [apply G; lra|].
    eapply nearby_impl; [|exact (nearU_neg L)]. intros z Hz. unfold Ratan2.
    destruct (Rltb 0 (V z)) eqn:E.
    + apply Rltb_true in E.
      assert (Q : 0 < V z / - U z) by (apply Rdiv_lt_0_compat; lra).
      pose proof (atan_inv (V z / - U z) Q) as A.
      replace (V z / U z) with (- (V z / - U z)) by (field; lra).
      replace (U z / V z) with (- (/ (V z / - U z))) by (field; lra).
      rewrite !atan_opp. rewrite A. ring.
    + replace (Rltb 0 (U z)) with false by (symmetry; apply Rltb_false; lra).
      apply Rltb_true in Hz. now rewrite Hz.
Qed.
Lemma copysign_good : U x0 <> 0 -> V x0 <> 0 ->
  exists F, good F (if Rle_dec 0 (U x0) then Rcopysign 1 (V x0) else - Rcopysign 1 (V x0)) 0 /\
    nearby n x0 (fun z => Rcopysign (U z) (V z) = F (U z) (V z)).
Proof.
  intros Nu Nv. pose proof (fd_comp1 _ _ _ _ Rabs _ DU (fabs_derive _ Nu)) as D.
  unfold Rcopysign. destruct (Rtotal_order 0 (V x0)) as [L|[L|L]]; [|congruence|].
  - exists (fun u _ => Rabs u). split.
    + eapply fd_ext; [|exact D]. intros v _. cbv beta.
      replace (Rleb 0 (V x0)) with true by (symmetry; apply Rleb_true; lra).
      rewrite Rabs_R1. destruct (Rle_dec 0 (U x0)); ring.
    + eapply nearby_impl; [|exact (nearV_pos L)]. intros z Hz.
      replace (Rleb 0 (V z)) with true by (symmetry; apply Rleb_true; lra). reflexivity.
  - exists (fun u _ => - Rabs u). split.
    + eapply fd_ext; [|apply (fd_fun n (fun z => -1 * Rabs (U z)));
        [intros; ring|exact (fd_scal _ _ _ _ (-1) D)]].
      intros v _. cbv beta.
      replace (Rleb 0 (V x0)) with false by (symmetry; apply Rleb_false; lra).
      rewrite Rabs_R1. destruct (Rle_dec 0 (U x0)); ring.
    + eapply nearby_impl; [|exact (nearV_neg L)]. intros z Hz.
      replace (Rleb 0 (V z)) with false by (symmetry; apply Rleb_false; lra). reflexivity.
Qed.
End Operands.
