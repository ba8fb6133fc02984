(** Calls of the elementary operations inside their domains are regular. *)
From Coq Require Import ZArith List Bool Reals Lra Lia Arith.
From Coquelicot Require Import Coquelicot.
From Verif Require Import Base Heap Affine Ops UMath NumR HeapSpec HeapProofs DenProofs Machine Plain
  Spec Refine Regular DiffProofs ADProofs DerivR Prim PrimProofs.
From Flocq Require Import Core.
Import ListNotations.
Local Open Scope R_scope.

Section PrimReg.
Context {g lg : R -> R}.
Notation RN := (ROps g lg).
Implicit Types p q : pynum RN.

(** One argument. *)
Lemma regular1 : forall (f : pyfun RN) pos kwd x F c,
  is_derive F x c ->
  (exists d, 0 < d /\ forall t, Rabs (t - x) < d -> exists r,
     f [PNum (PF (N:=RN) t)] [] = Ok (PNum r) /\ pval r = F t) ->
  (exists r, pos 0%nat [PNum (PF (N:=RN) x)] [] = Ok r /\ pval r = c) ->
  regular_call f pos kwd [(PNum (PF (N:=RN) x), true)] [].
Proof.
  intros f pos kwd x F c D (d & Pd & E) Hp. exists (fun _ => c). split; [|split].
  - apply (fdiff_1 F); auto. exists d. split; auto. intros z Hz. unfold callG. simpl.
    destruct (E (z 0%nat) Hz) as (r & Er & Ev). simpl in Er. rewrite Er. now rewrite Ev.
  - intros [|[|i]] a Ha; simpl in Ha; try discriminate. exact Hp.
  - intros [|i] k a Ha; discriminate.
Qed.

(** An operand of a call with two arguments: fixed, or varying and then a float. *)
Definition pick (b : bool) (x t : R) : R := if b then t else x.

Lemma pick_fd : forall b x i x0, (i < 2)%nat -> x0 i = x ->
  fd 2 (fun z => pick b x (z i)) x0 (fun v => if Nat.eqb v i then (if b then 1 else 0) else 0).
Proof.
  intros b x i x0 Hi E. destruct b; simpl.
  - now apply fd_proj.
  - eapply fd_ext; [|apply fd_const]. intros v _. simpl. destruct (Nat.eqb v i); auto.
Qed.

Lemma regular2 : forall (f : pyfun RN) pos kwd p q bp bq (F : R -> R -> R) a b,
  let x0 := call_at [(PNum p, bp); (PNum q, bq)] [] in
  okn p bp -> okn q bq ->
  fd 2 (fun z => F (pick bp (pval p) (z 0%nat)) (pick bq (pval q) (z 1%nat))) x0
     (fun v => a * (if Nat.eqb v 0 then (if bp then 1 else 0) else 0)
             + b * (if Nat.eqb v 1 then (if bq then 1 else 0) else 0)) ->
  nearby 2 x0 (fun z => forall p' q', pval p' = pick bp (pval p) (z 0%nat) ->
     pval q' = pick bq (pval q) (z 1%nat) ->
     (bp = true -> exists t : R, p' = PF (N:=RN) t) -> (bp = false -> p' = p) ->
     (bq = false -> q' = q) ->
     f [PNum p'; PNum q'] [] = Ok (PNum (PF (N:=RN) (F (pick bp (pval p) (z 0%nat)) (pick bq (pval q) (z 1%nat)))))) ->
  (bp = true -> exists r, pos 0%nat [PNum p; PNum q] [] = Ok r /\ pval r = a) ->
  (bq = true -> exists r, pos 1%nat [PNum p; PNum q] [] = Ok r /\ pval r = b) ->
  regular_call f pos kwd [(PNum p, bp); (PNum q, bq)] [].
Proof.
  intros f pos kwd p q bp bq F a b x0 Op Oq D NB Hp Hq.
  exists (fun v => a * (if Nat.eqb v 0 then (if bp then 1 else 0) else 0)
             + b * (if Nat.eqb v 1 then (if bq then 1 else 0) else 0)). split; [|split].
  - eapply fdiff_of_fd; [exact D|]. eapply nearby_impl; [|exact NB]. intros z Hz. unfold callG.
    destruct bp, bq; simpl in *; erewrite Hz; eauto; try reflexivity; congruence.
  - intros [|[|[|i]]] c Hc; simpl in Hc; try discriminate; injection Hc; intros; subst; simpl.
    + destruct (Hp eq_refl) as (r & E & V). exists r. split; auto. rewrite V. ring.
    + destruct (Hq eq_refl) as (r & E & V). exists r. split; auto. rewrite V. ring.
  - intros [|i] k c Hc; discriminate.
Qed.

Lemma pn_div_R : forall p q, pval q <> 0 -> exists r, pn_div p q = Ok r /\ pval r = pval p / pval q.
Proof.
  intros p q H. assert (E : Rdiv_py (pval p) (pval q) = Ok (pval p / pval q)).
  { unfold Rdiv_py. now rewrite (proj2 (Reqb_false _ _) H). }
  destruct p as [a|a], q as [b|b]; simpl in *; rewrite E; simpl; eexists; split; reflexivity.
Qed.
Lemma pn_mul_ex : forall p q, exists r, pn_mul p q = Ok r /\ pval r = pval p * pval q.
Proof.
  intros [a|a] [b|b]; simpl; eexists; (split; [reflexivity|]); simpl; auto. apply mult_IZR.
Qed.
Lemma pn_neg_R : forall p, pval (pn_neg p) = - pval p.
Proof. intros [a|a]; simpl; auto. apply opp_IZR. Qed.
Lemma pn_is0_R : forall p, pn_is0 p = Reqb (pval p) 0.
Proof.
  intros [a|a]; simpl; auto. destruct (Z.eqb_spec a 0) as [->|H]; symmetry.
  - now apply Reqb_true.
  - apply Reqb_false. now apply (IZR_neq a 0).
Qed.
Lemma pn_gt0_R : forall p, pn_gt0 p = Rltb 0 (pval p).
Proof.
  intros [a|a]; simpl; auto. destruct (Z.ltb_spec 0 a) as [H|H]; symmetry.
  - apply Rltb_true. now apply IZR_lt.
  - apply Rltb_false. now apply IZR_le.
Qed.
Lemma pn_pred_R : forall p, pval (pn_pred p) = pval p - 1.
Proof. intros [a|a]; simpl; auto. apply minus_IZR. Qed.
Lemma pn_integral_R : forall p, integral (pval p) -> pn_integral p = true.
Proof.
  intros [a|a] [z E]; simpl in *; auto.
  rewrite (proj2 (Reqb_false 1 0)) by lra. simpl. apply Reqb_true.
  rewrite E, Rdiv_1, Zfloor_IZR. ring.
Qed.
Lemma pn_pow_R : forall p q w, Rpow_py (pval p) (pval q) = Ok (Some w) ->
  pn_pow p q = Ok (PF (N:=RN) w).
Proof.
  intros p q w H. unfold pn_pow. rewrite !pn_float_R. simpl. unfold n_powf. simpl.
  rewrite H. reflexivity.
Qed.

(** Numerical differentiation over exact numbers is the symmetric difference quotient. *)
Definition step_of (x : R) : R :=
  if Req_EM_T x 0 then bpow radix2 (-26) else bpow radix2 (-26) * Rabs x.
Lemma step_pos : forall x, 0 < step_of x.
Proof.
  intros x. unfold step_of. pose proof (bpow_gt_0 radix2 (-26)).
  destruct (Req_EM_T x 0); auto. apply Rmult_lt_0_compat; auto. now apply Rabs_pos_lt.
Qed.
Definition call_with (f : pyfun RN) (r : argref) args kw (t : R) : res (plain RN) :=
  let (a, k) := arg_set r args kw (PNum (PF (N:=RN) t)) in f a k.
Lemma partial_derivative_R : forall (f : pyfun RN) r args kw p y1 y2,
  arg_get r args kw = Some (PNum p) ->
  let h := step_of (pval p) in
  call_with f r args kw (pval p + h) = Ok (PNum y1) ->
  call_with f r args kw (pval p - h) = Ok (PNum y2) ->
  exists c, partial_derivative f r args kw = Ok c /\ pval c = (pval y1 - pval y2) / 2 / h.
Proof.
  intros f r args kw p y1 y2 Ea h E1 E2. pose proof (step_pos (pval p)) as Ph. fold h in Ph.
  unfold partial_derivative. rewrite Ea. simpl as_num. unfold rbind at 1.
  set (st0 := PF (N:=RN) (bpow radix2 (-26) * Rabs (pval p))).
  assert (S0 : pn_mul (PF (n_step RN)) (pn_abs p) = Ok st0).
  { unfold st0. destruct p; simpl; auto. rewrite abs_IZR. reflexivity. }
  rewrite S0. unfold rbind at 1.
  set (st := PF (N:=RN) h).
  assert (S1 : (if pn_is0 st0 then PF (n_step RN) else st0) = st).
  { rewrite pn_is0_R. unfold st0, st, h, step_of. simpl. pose proof (bpow_gt_0 radix2 (-26)).
    destruct (Req_EM_T (pval p) 0) as [E|E].
    - rewrite (proj2 (Reqb_true _ _)); auto. rewrite E, Rabs_R0. ring.
    - rewrite (proj2 (Reqb_false _ _)); auto. apply Rgt_not_eq, Rmult_lt_0_compat; auto.
      now apply Rabs_pos_lt. }
  rewrite S1.
  assert (S2 : pn_add p st = Ok (PF (N:=RN) (pval p + h))) by (destruct p; reflexivity).
  rewrite S2. unfold rbind at 1. unfold call_with in E1, E2.
  destruct (arg_set r args kw (PNum (PF (N:=RN) (pval p + h)))) as [a1 k1]. rewrite E1.
  unfold rbind at 1.
  assert (S3 : pn_mul (PZ 2) st = Ok (PF (N:=RN) (2 * h))) by reflexivity.
  rewrite S3. unfold rbind at 1.
  assert (S4 : pn_sub (PF (N:=RN) (pval p + h)) (PF (N:=RN) (2 * h)) = Ok (PF (N:=RN) (pval p - h))).
  { simpl. do 2 f_equal. ring. }
  rewrite S4. unfold rbind at 1.
  destruct (arg_set r args kw (PNum (PF (N:=RN) (pval p - h)))) as [a2 k2]. rewrite E2.
  cbn [rbind as_num].
  destruct (pn_sub_R y1 y2) as (df & E3 & W3). rewrite E3. cbn [rbind].
  destruct (pn_div_R df (PZ 2)) as (dh & E4 & W4); [simpl; lra|]. rewrite E4. cbn [rbind].
  destruct (pn_div_R dh st) as (c & E5 & W5); [simpl; lra|]. exists c. split; auto.
  rewrite W5, W4, W3. reflexivity.
Qed.

(** Operators: [U] and [V] are the operands. *)
Lemma op_good : forall op n U V x0 gu gv bx by_ p q,
  fd n U x0 gu -> fd n V x0 gv -> U x0 = pval p -> V x0 = pval q ->
  (bx = false -> (forall z, U z = U x0) /\ forall v, gu v = 0) ->
  (by_ = false -> (forall z, V z = V x0) /\ forall v, gv v = 0) ->
  op_dom op bx by_ (pval p) (pval q) ->
  (op = Bmod -> by_ = true -> exists x : R, p = PF (N:=RN) x) ->
  exists F a b, fd n (fun z => F (U z) (V z)) x0 (fun v => a * gu v + b * gv v) /\
    nearby n x0 (fun z => float_op (N:=RN) op (U z) (V z) = Ok (PNum (PF (N:=RN) (F (U z) (V z))))) /\
    (bx = true -> exists r, op_der_x op p q = Ok r /\ pval r = a) /\
    (by_ = true -> exists r, op_der_y op p q = Ok r /\ pval r = b).
Proof.
  intros op n U V x0 gu gv bx by_ p q DU DV Ex Ey CU CV Dom Fl.
  destruct op; cbn [op_dom] in Dom.
  - exists Rplus, 1, 1. split; [|split; [|split]].
    + eapply fd_ext; [|exact (fd_plus _ _ _ _ _ _ DU DV)]. intros; simpl; ring.
    + apply nearby_all. reflexivity.
    + intros _. eexists; split; reflexivity.
    + intros _. eexists; split; reflexivity.
  - exists Rminus, 1, (-1). split; [|split; [|split]].
    + eapply fd_ext; [|exact (fd_minus _ _ _ _ _ _ DU DV)]. intros; simpl; ring.
    + apply nearby_all. reflexivity.
    + intros _. eexists; split; reflexivity.
    + intros _. eexists; split; [reflexivity|]. simpl. ring.
  - exists Rmult, (V x0), (U x0). split; [|split; [|split]].
    + exact (fd_mult _ _ _ _ _ _ DU DV).
    + apply nearby_all. reflexivity.
    + intros _. rewrite Ey. eexists; split; reflexivity.
    + intros _. rewrite Ex. eexists; split; reflexivity.
  - rewrite <- Ey in Dom. exists Rdiv, (/ V x0), (- U x0 / V x0 ^ 2). split; [|split; [|split]].
    + exact (div_good _ _ _ _ _ _ DU DV Dom).
    + eapply nearby_impl; [|exact (nearV_nz _ _ _ _ DV Dom)]. intros z Hz. simpl.
      unfold Rdiv_py. now rewrite (proj2 (Reqb_false _ _) Hz).
    + intros _. rewrite Ey in *. unfold op_der_x. destruct (pn_div_R (PZ 1) q Dom) as (r & E & W).
      exists r. split; auto. rewrite W. simpl. unfold Rdiv. ring.
    + intros _. rewrite Ey in *. unfold op_der_y. destruct (pn_square_R q) as (s & Es & Ws).
      rewrite Es. simpl rbind.
      assert (Ns : pval s <> 0) by (rewrite Ws; now apply pow_nonzero).
      destruct (pn_div_R (pn_neg p) s Ns) as (r & E & W). exists r. split; auto.
      rewrite W, Ws, pn_neg_R, Ex. reflexivity.
  - destruct Dom as [N0 NI]. rewrite <- Ey in *. rewrite <- Ex in *.
    exists (fun _ _ => IZR (Zfloor (U x0 / V x0))), 0, 0. split; [|split; [|split]].
    + eapply fd_ext; [|apply fd_const]. intros; simpl; ring.
    + eapply nearby_impl; [|exact (floor_good _ _ _ _ _ _ DU DV N0 NI)]. intros z [Nz Ez].
      simpl. rewrite (proj2 (Reqb_false _ _) Nz), Ez. reflexivity.
    + intros _. eexists; split; reflexivity.
    + intros _. eexists; split; reflexivity.
  - destruct Dom as (N0 & NI & St). rewrite <- Ey in *. rewrite <- Ex in *.
    set (k := Zfloor (U x0 / V x0)) in *.
    exists (fun u v => u - v * IZR k), 1, (- IZR k). split; [|split; [|split]].
    + exact (mod_good _ _ _ _ _ _ DU DV (IZR k)).
    + eapply nearby_impl; [|exact (floor_good _ _ _ _ _ _ DU DV N0 NI)]. intros z [Nz Ez].
      simpl. rewrite (proj2 (Reqb_false _ _) Nz), Ez. reflexivity.
    + intros _. eexists; split; reflexivity.
    + intros By. destruct (Fl eq_refl By) as (x & ->). simpl in Ex.
      destruct (St By) as [S1 S2]. clear St.
      assert (Pb : 0 < bpow radix2 (-26) < 1).
      { split; [apply bpow_gt_0|]. apply (bpow_lt radix2 (-26) 0). lia. }
      assert (Ab : 0 < Rabs (V x0)) by now apply Rabs_pos_lt.
      set (hh := bpow radix2 (-26) * Rabs (V x0)) in *.
      assert (Ph : 0 < hh) by (apply Rmult_lt_0_compat; lra).
      assert (Lh : hh < Rabs (V x0)).
      { unfold hh. rewrite <- (Rmult_1_l (Rabs (V x0))) at 2. apply Rmult_lt_compat_r; lra. }
      assert (Hs : step_of (pval q) = hh).
      { unfold step_of. rewrite <- Ey. destruct (Req_EM_T (V x0) 0); [contradiction|reflexivity]. }
      assert (Z1 : V x0 + hh <> 0).
      { intros Z. assert (E : V x0 = - hh) by lra.
        rewrite E, Rabs_Ropp, Rabs_pos_eq in Lh by lra. lra. }
      assert (Z2 : V x0 - hh <> 0).
      { intros Z. assert (E : V x0 = hh) by lra. rewrite E, Rabs_pos_eq in Lh by lra. lra. }
      destruct (partial_derivative_R (float_method Bmod) (APos 1) [PNum (PF (N:=RN) x); PNum q] [] q
        (PF (N:=RN) (U x0 - (V x0 + hh) * IZR k)) (PF (N:=RN) (U x0 - (V x0 - hh) * IZR k)) eq_refl)
        as (c & Ec & Wc).
      * rewrite Hs. unfold call_with. simpl. rewrite <- Ey, (proj2 (Reqb_false _ _) Z1). simpl.
        rewrite <- Ex, S1. reflexivity.
      * rewrite Hs. unfold call_with. simpl. rewrite <- Ey, (proj2 (Reqb_false _ _) Z2). simpl.
        rewrite <- Ex, S2. reflexivity.
      * exists c. split; [exact Ec|]. rewrite Wc, Hs. simpl. field. lra.
  - rewrite <- Ey, <- Ex in Dom.
    destruct (pow_good n U V x0 gu gv bx by_ DU DV CU CV Dom) as (F & a & b & D & NB & A & B).
    exists F, a, b. split; [exact D|]. split; [|split].
    + eapply nearby_impl; [|exact NB]. intros z Hz. simpl. rewrite Hz. reflexivity.
    + intros Bx. unfold op_der_x, pow_deriv_0. rewrite !pn_is0_R, <- Ey, <- Ex.
      destruct (A Bx) as [[Y0 A0]|(Y0 & X0 & w & Ew & Aw)].
      * rewrite (proj2 (Reqb_true _ _) Y0). simpl. eexists; split; [reflexivity|]. now simpl.
      * rewrite (proj2 (Reqb_false _ _) Y0).
        replace (negb (Reqb (U x0) 0) || pn_integral q) with true.
        2:{ symmetry. apply orb_true_iff. destruct X0 as [X0|X0].
            - left. rewrite (proj2 (Reqb_false _ _) X0). reflexivity.
            - right. apply pn_integral_R. now rewrite <- Ey. }
        rewrite (pn_pow_R p (pn_pred q) w). 2:{ rewrite pn_pred_R, <- Ex, <- Ey. exact Ew. }
        simpl rbind. destruct (pn_mul_ex q (PF (N:=RN) w)) as (r & E & W).
        rewrite E. exists r. split; auto. rewrite W, Aw, Ey. reflexivity.
    + intros By. unfold op_der_y, pow_deriv_1. rewrite pn_is0_R, pn_gt0_R, <- Ey, <- Ex.
      destruct (B By) as [(X0 & Y0 & B0)|(X0 & w & Ew & Bw)].
      * rewrite (proj2 (Reqb_true _ _) X0), (proj2 (Rltb_true _ _) Y0). simpl.
        eexists; split; [reflexivity|]. now simpl.
      * rewrite (proj2 (Reqb_false (U x0) 0)) by lra. simpl andb. cbv iota.
        rewrite pn_float_R. simpl rbind. rewrite <- Ex, (proj2 (Rltb_true _ _) X0). simpl rbind.
        rewrite (pn_pow_R p q w). 2:{ rewrite <- Ex, <- Ey. exact Ew. }
        simpl. eexists; split; [reflexivity|]. simpl. auto.
Qed.

Theorem op_regular : forall op (x : R) q bq, okn q bq ->
  op_dom op true bq x (pval q) ->
  regular_call (float_method op) (op_pos op) no_kw [(PNum (PF (N:=RN) x), true); (PNum q, bq)] [].
Proof.
  intros op x q bq Oq Dom.
  set (x0 := call_at [(PNum (PF (N:=RN) x), true); (PNum q, bq)] []).
  destruct (op_good op 2 (fun z => pick true x (z 0%nat)) (fun z => pick bq (pval q) (z 1%nat)) x0
    _ _ true bq (PF (N:=RN) x) q (pick_fd true x 0 x0 ltac:(lia) eq_refl)
    (pick_fd bq (pval q) 1 x0 ltac:(lia) eq_refl)) as (F & a & b & D & NB & A & B); auto.
  - unfold x0, call_at. simpl. now destruct bq.
  - discriminate.
  - intros ->. split; auto. intros v. destruct (Nat.eqb v 1); auto.
  - intros _ _. now exists x.
  - apply (regular2 _ _ _ (PF (N:=RN) x) q true bq F a b); auto.
    + intros _. now exists x.
    + eapply nearby_impl; [|exact NB]. intros z Hz p' q' Ep Eq_ Fp _ _.
      destruct (Fp eq_refl) as (t & ->). simpl in Ep. subst t.
      unfold float_method. rewrite pn_float_R, Eq_. exact Hz.
Qed.
Theorem rop_regular : forall op p (y : R), 
  op_dom op false true (pval p) y -> (op = Bmod -> exists x : R, p = PF (N:=RN) x) ->
  regular_call (float_rmethod op) (rop_pos op) no_kw
    [(PNum (PF (N:=RN) y), true); (PNum p, false)] [].
Proof.
  intros op p y Dom Fl.
  set (x0 := call_at [(PNum (PF (N:=RN) y), true); (PNum p, false)] []).
  destruct (op_good op 2 (fun z => pick false (pval p) (z 1%nat)) (fun z => pick true y (z 0%nat)) x0
    _ _ false true p (PF (N:=RN) y) (pick_fd false (pval p) 1 x0 ltac:(lia) eq_refl)
    (pick_fd true y 0 x0 ltac:(lia) eq_refl)) as (F & a & b & D & NB & A & B); auto.
  - intros _. split; auto. intros v. destruct (Nat.eqb v 1); auto.
  - discriminate.
  - apply (regular2 _ _ _ (PF (N:=RN) y) p true false (fun v u => F u v) b a); auto.
    + intros _. now exists y.
    + discriminate.
    + eapply fd_ext; [|exact D]. intros v _. simpl. ring.
    + eapply nearby_impl; [|exact NB]. intros z Hz p' q' Ep Eq_ Fp _ _.
      destruct (Fp eq_refl) as (t & ->). simpl in Ep. subst t.
      unfold float_rmethod. rewrite pn_float_R, Eq_. exact Hz.
Qed.

(** Unary operators. *)
Theorem unop_regular : forall op (x : R), unop_dom op x ->
  regular_call (unop_fun op) (unop_pos op) no_kw [(PNum (PF (N:=RN) x), true)] [].
Proof.
  intros op x Dom. destruct op; simpl in Dom.
  - apply (regular1 _ _ _ x Rabs _ (fabs_derive x Dom)).
    + exists 1. split; [lra|]. intros t _. eexists; split; reflexivity.
    + eexists; split; [reflexivity|]. simpl. unfold Rleb. destruct (Rle_dec 0 x); simpl; ring.
  - apply (regular1 _ _ _ x Ropp (-1)).
    + auto_derive; auto.
    + exists 1. split; [lra|]. intros t _. eexists; split; reflexivity.
    + eexists; split; [reflexivity|]. simpl. ring.
  - apply (regular1 _ _ _ x (fun t => t) 1).
    + apply @is_derive_id.
    + exists 1. split; [lra|]. intros t _. eexists; split; reflexivity.
    + eexists; split; reflexivity.
  - apply (regular1 _ _ _ x (fun _ => IZR (Ztrunc x)) 0).
    + apply @is_derive_const.
    + destruct (trunc_near x Dom) as (e & Pe & E). exists e. split; auto. intros t Ht.
      eexists; split; [reflexivity|]. simpl. now rewrite E.
    + eexists; split; reflexivity.
Qed.

(** Functions of one variable of umath. *)
Lemma near_lt : forall x a, a < x -> exists d, 0 < d /\ forall t, Rabs (t - x) < d -> a < t.
Proof. intros. exists (x - a). split; [lra|]. intros t Ht. apply Rabs_def2 in Ht. lra. Qed.
Lemma near_gt : forall x a, x < a -> exists d, 0 < d /\ forall t, Rabs (t - x) < d -> t < a.
Proof. intros. exists (a - x). split; [lra|]. intros t Ht. apply Rabs_def2 in Ht. lra. Qed.
Lemma near_both : forall x a b, a < x < b -> exists d, 0 < d /\ forall t, Rabs (t - x) < d -> a < t < b.
Proof.
  intros x a b [H1 H2]. destruct (near_lt _ _ H1) as (d & Pd & D).
  destruct (near_gt _ _ H2) as (e & Pe & E). exists (Rmin d e). split; [now apply Rmin_glb_lt|].
  intros t Ht. split.
  - apply D. eapply Rlt_le_trans; [exact Ht|apply Rmin_l].
  - apply E. eapply Rlt_le_trans; [exact Ht|apply Rmin_r].
Qed.
Lemma abs1 : forall x, -1 < x < 1 -> Rabs x < 1.
Proof. intros. apply Rabs_def1; lra. Qed.

(** The real function computed by each math function. *)
Definition m1_real (f : mfun1) : R -> R :=
  match f with
  | F_acos => acos | F_acosh => Racosh | F_asin => asin | F_asinh => Rasinh | F_atan => atan
  | F_atanh => Ratanh | F_cos => cos | F_cosh => cosh | F_degrees => fun x => x * (180 / PI)
  | F_erf => Rerf | F_erfc => fun x => 1 - Rerf x | F_exp => exp | F_expm1 => fun x => exp x - 1
  | F_fabs => Rabs | F_log => ln | F_log10 => fun x => ln x / ln 10 | F_log1p => fun x => ln (1 + x)
  | F_radians => fun x => x * (PI / 180) | F_sin => sin | F_sinh => sinh | F_sqrt => sqrt
  | F_tan => tan | F_tanh => tanh | F_gamma => g | F_lgamma => lg
  end.
Lemma m1_near : forall f x, m1_dom f x -> exists d, 0 < d /\ forall t, Rabs (t - x) < d ->
  Rfun1 g lg f t = Ok (m1_real f t).
Proof.
  intros f x Dom.
  assert (T : (forall t, Rfun1 g lg f t = Ok (m1_real f t)) -> exists d, 0 < d /\ forall t,
    Rabs (t - x) < d -> Rfun1 g lg f t = Ok (m1_real f t)).
  { intros H. exists 1. split; [lra|]. auto. }
  destruct f; try (apply T; reflexivity); simpl in Dom; try contradiction.
  all: try (destruct (near_both _ _ _ Dom) as (d & Pd & D); exists d; split; auto; intros t Ht;
    specialize (D t Ht); apply abs1 in D; simpl;
    try (rewrite (proj2 (Rleb_true _ _)) by lra; reflexivity);
    rewrite (proj2 (Rltb_true _ _)) by lra; reflexivity).
  all: try (destruct (near_lt _ _ Dom) as (d & Pd & D); exists d; split; auto; intros t Ht;
    specialize (D t Ht); simpl;
    try (rewrite (proj2 (Rleb_true _ _)) by lra; reflexivity);
    rewrite (proj2 (Rltb_true _ _)) by lra; reflexivity).
  (* tan *)
  assert (C : fd 1 (fun z => cos (z 0%nat)) (fun _ => x) (fun _ => - sin x)).
  { eapply fd_ext; [|apply (fd_comp1 1 (fun z => z 0%nat) (fun _ => x) _ cos (- sin x)
      (fd_proj 1 0 _ Nat.lt_0_1))].
    - intros [|v] Hv; [|lia]. simpl. ring.
    - apply is_derive_cos. }
  destruct (fd_nz_near _ _ _ _ C Dom) as (d & Pd & D). exists d. split; auto. intros t Ht.
  simpl. rewrite (proj2 (Reqb_false _ _)); auto.
  apply (D (fun _ => t)). unfold nrm. simpl. lra.
Qed.

Lemma div_ok : forall a b, b <> 0 -> Rdiv_py a b = Ok (a / b).
Proof. intros. unfold Rdiv_py. now rewrite (proj2 (Reqb_false _ _)). Qed.
Lemma sqrt_ok : forall a, 0 <= a -> n_fun1 RN F_sqrt a = Ok (sqrt a).
Proof. intros. simpl. now rewrite (proj2 (Rleb_true _ _)). Qed.
Lemma sq_R : forall x : R, sq (N:=RN) x = Ok (x ^ 2).
Proof. intros. unfold sq. apply Rsq_py. Qed.
Lemma erf_coef_R : erf_coef (N:=RN) = Ok (2 / sqrt PI).
Proof.
  unfold erf_coef. change (n_pi RN) with PI. rewrite sqrt_ok by (pose proof PI_RGT_0; lra).
  cbn [rbind]. change (n_two RN) with 2. change (n_div RN) with Rdiv_py. apply div_ok.
  pose proof (sqrt_lt_R0 _ PI_RGT_0). lra.
Qed.
Lemma m1_der_good : forall f x, m1_dom f x -> exists d c, m1_der (N:=RN) f = Some d /\
  (exists r, d x = Ok r /\ pval r = c) /\ is_derive (m1_real f) x c.
Proof.
  intros f x Dom.
  assert (K : forall (d : R -> res (pynum RN)) (c : R), m1_der (N:=RN) f = Some d ->
    (exists r, d x = Ok r /\ pval r = c) -> is_derive (m1_real f) x c ->
    exists d c, m1_der (N:=RN) f = Some d /\
      (exists r, d x = Ok r /\ pval r = c) /\ is_derive (m1_real f) x c).
  { intros d c H1 H2 H3. exists d, c. auto. }
  destruct f; simpl in Dom; try contradiction;
    (eapply K; [reflexivity| |]); clear K; cbv beta;
    rewrite ?sq_R, ?erf_coef_R; cbn [rbind rmap];
    change (n_sub RN) with Rminus; change (n_add RN) with Rplus; change (n_one RN) with 1;
    change (n_div RN) with Rdiv_py; change (n_neg RN) with Ropp; change (n_mul RN) with Rmult.
  - rewrite sqrt_ok by nra. cbn [rbind rmap]. rewrite div_ok.
    + eexists; split; reflexivity.
    + assert (0 < 1 - x ^ 2) by nra. pose proof (sqrt_lt_R0 _ H). lra.
  - apply acos_derive; auto.
  - pose proof (acosh_pos _ Dom). rewrite sqrt_ok by lra. cbn [rbind rmap]. rewrite div_ok.
    + eexists; split; reflexivity.
    + pose proof (sqrt_lt_R0 _ H). lra.
  - apply acosh_derive; auto.
  - rewrite sqrt_ok by nra. cbn [rbind rmap]. rewrite div_ok.
    + eexists; split; reflexivity.
    + assert (0 < 1 - x ^ 2) by nra. pose proof (sqrt_lt_R0 _ H). lra.
  - apply asin_derive; auto.
  - assert (0 < 1 + x ^ 2) by (pose proof (pow2_ge_0 x); lra).
    rewrite sqrt_ok by lra. cbn [rbind rmap]. rewrite div_ok.
    + eexists; split; reflexivity.
    + pose proof (sqrt_lt_R0 _ H). lra.
  - apply asinh_derive.
  - rewrite div_ok.
    + eexists; split; reflexivity.
    + pose proof (pow2_ge_0 x). lra.
  - apply atan_derive.
  - rewrite div_ok by nra. eexists; split; reflexivity.
  - apply atanh_derive; auto.
  - eexists; split; reflexivity.
  - apply is_derive_cos.
  - eexists; split; reflexivity.
  - apply cosh_derive.
  - eexists; split; reflexivity.
  - apply lin_derive.
  - eexists; split; reflexivity.
  - apply erf_derive.
  - eexists; split; reflexivity.
  - apply erfc_derive.
  - eexists; split; reflexivity.
  - apply is_derive_exp.
  - eexists; split; reflexivity.
  - apply expm1_derive.
  - change (n_le RN) with Rleb. change (n_zero RN) with 0. eexists; split; [reflexivity|]. reflexivity.
  - eapply is_derive_val; [apply fabs_derive; auto|]. unfold Rleb.
    destruct (Rle_dec 0 x); reflexivity.
  - rewrite div_ok by lra. eexists; split; reflexivity.
  - apply ln_derive; auto.
  - rewrite div_ok by lra. simpl. change (n_ten RN) with 10.
    rewrite (proj2 (Rltb_true 0 10)) by lra. cbn [rbind]. rewrite div_ok by (pose proof log10_pos; lra).
    eexists; split; reflexivity.
  - apply log10_derive; auto.
  - rewrite div_ok by lra. eexists; split; reflexivity.
  - apply log1p_derive; auto.
  - eexists; split; reflexivity.
  - apply lin_derive.
  - eexists; split; reflexivity.
  - apply is_derive_sin.
  - eexists; split; reflexivity.
  - apply sinh_derive.
  - rewrite sqrt_ok by lra. cbn [rbind]. change (n_half RN) with (/ 2). rewrite div_ok.
    + eexists; split; reflexivity.
    + pose proof (sqrt_lt_R0 _ Dom). lra.
  - apply sqrt_derive; auto.
  - simpl. rewrite (proj2 (Reqb_false _ _) Dom). cbn [rbind]. rewrite sq_R. cbn [rbind].
    eexists; split; reflexivity.
  - apply tan_derive; auto.
  - simpl. rewrite sq_R. cbn [rbind]. eexists; split; reflexivity.
  - apply tanh_derive.
Qed.
Theorem umath1_regular : forall f (x : R), m1_dom f x ->
  regular_call (m1_fun f) (m1_pos f) (m1_kw f) [(PNum (PF (N:=RN) x), true)] [].
Proof.
  intros f x Dom. destruct (m1_der_good f x Dom) as (d & c & Ed & (r & Er & Ev) & D).
  apply (regular1 _ _ _ x (m1_real f) c D).
  - destruct (m1_near f x Dom) as (e & Pe & E). exists e. split; auto. intros t Ht.
    exists (PF (N:=RN) (m1_real f t)). split; auto. unfold m1_fun. cbn [pn_float rbind].
    change (n_fun1 RN) with (Rfun1 g lg). rewrite (E t Ht). reflexivity.
  - exists r. split; auto. unfold m1_pos. rewrite Ed. cbn [pn_float rbind].
    unfold nan_if_exception. simpl in Er |- *. rewrite Er. reflexivity.
Qed.

(** Functions of two variables of umath. *)
Lemma mint : forall y : R, integral y -> pn_integral (PF (N:=RN) y) = true.
Proof. intros y H. now apply pn_integral_R. Qed.
Lemma m2_good : forall f n U V x0 gu gv bx by_,
  fd n U x0 gu -> fd n V x0 gv ->
  (bx = false -> (forall z, U z = U x0) /\ forall v, gu v = 0) ->
  (by_ = false -> (forall z, V z = V x0) /\ forall v, gv v = 0) ->
  m2_dom f bx by_ (U x0) (V x0) ->
  exists F a b d0 d1, fd n (fun z => F (U z) (V z)) x0 (fun v => a * gu v + b * gv v) /\
    nearby n x0 (fun z => Rfun2 f (U z) (V z) = Ok (F (U z) (V z))) /\
    m2_der0 (N:=RN) f = Some d0 /\ m2_der1 (N:=RN) f = Some d1 /\
    (bx = true -> exists r, d0 (U x0) (V x0) = Ok r /\ pval r = a) /\
    (by_ = true -> exists r, d1 (U x0) (V x0) = Ok r /\ pval r = b).
Proof.
  intros f n U V x0 gu gv bx by_ DU DV CU CV Dom.
  assert (K : forall (F : R -> R -> R) (a b : R) (d0 d1 : R -> R -> res (pynum RN)),
    m2_der0 (N:=RN) f = Some d0 -> m2_der1 (N:=RN) f = Some d1 ->
    fd n (fun z => F (U z) (V z)) x0 (fun v => a * gu v + b * gv v) ->
    nearby n x0 (fun z => Rfun2 f (U z) (V z) = Ok (F (U z) (V z))) ->
    (bx = true -> exists r, d0 (U x0) (V x0) = Ok r /\ pval r = a) ->
    (by_ = true -> exists r, d1 (U x0) (V x0) = Ok r /\ pval r = b) ->
    exists F a b d0 d1, fd n (fun z => F (U z) (V z)) x0 (fun v => a * gu v + b * gv v) /\
      nearby n x0 (fun z => Rfun2 f (U z) (V z) = Ok (F (U z) (V z))) /\
      m2_der0 (N:=RN) f = Some d0 /\ m2_der1 (N:=RN) f = Some d1 /\
      (bx = true -> exists r, d0 (U x0) (V x0) = Ok r /\ pval r = a) /\
      (by_ = true -> exists r, d1 (U x0) (V x0) = Ok r /\ pval r = b)).
  { clear. intros F a b d0 d1 H1 H2 H3 H4 H5 H6. exists F, a, b, d0, d1. repeat split; assumption. }
  destruct f; simpl in Dom; try contradiction.
  - destruct (atan2_good _ _ _ _ _ _ DU DV Dom) as (N0 & F & D & NB).
    eapply (K F); [reflexivity|reflexivity|exact D| | |]; clear K; cbv beta;
      rewrite ?sq_R; cbn [rbind rmap];
      change (n_add RN) with Rplus; change (n_div RN) with Rdiv_py; change (n_neg RN) with Ropp.
    + eapply nearby_impl; [|exact NB]. intros z Hz. simpl. now rewrite Hz.
    + intros _. rewrite div_ok by auto. eexists; split; reflexivity.
    + intros _. rewrite div_ok by auto. eexists; split; reflexivity.
  - destruct Dom as [Nu Nv]. destruct (copysign_good _ _ _ _ _ _ DU DV Nu Nv) as (F & D & NB).
    eapply (K F); [reflexivity|reflexivity|exact D| | |]; clear K; cbv beta.
    + eapply nearby_impl; [|exact NB]. intros z Hz. simpl. now rewrite Hz.
    + intros _. simpl. eexists; split; [reflexivity|]. simpl. unfold Rleb.
      destruct (Rle_dec 0 (U x0)); reflexivity.
    + intros _. eexists; split; reflexivity.
  - destruct (hypot_good _ _ _ _ _ _ DU DV Dom) as (N0 & D).
    eapply (K (fun u v => sqrt (u ^ 2 + v ^ 2))); [reflexivity|reflexivity|exact D| | |]; clear K; cbv beta;
      change (n_fun2 RN) with Rfun2; cbn [Rfun2 rbind rmap]; change (n_div RN) with Rdiv_py.
    + apply nearby_all. reflexivity.
    + intros _. rewrite div_ok by auto. eexists; split; reflexivity.
    + intros _. rewrite div_ok by auto. eexists; split; reflexivity.
  - destruct Dom as (Pu & Pv & N1). destruct (log_good _ _ _ _ _ _ DU DV Pu Pv N1) as (L & D).
    eapply (K (fun u v => ln u / ln v)); [reflexivity|reflexivity|exact D| | |]; clear K; cbv beta;
      change (n_fun2 RN) with Rfun2; cbn [Rfun2 rbind rmap]; change (n_div RN) with Rdiv_py;
      change (n_one RN) with 1.
    + assert (NB : nearby n x0 (fun z => V z - 1 <> 0)).
      { eapply (fd_nz_near _ (fun z => V z - 1)).
        - exact (fd_minus _ _ _ _ _ _ DV (fd_const n 1 x0)).
        - lra. }
      eapply nearby_impl; [|exact (nearby_and _ _ _ _ NB (nearby_and _ _ _ _
        (nearU_pos _ _ _ _ DU Pu) (nearV_pos _ _ _ _ DV Pv)))].
      intros z (Hz1 & Hz2 & Hz3).
      rewrite (proj2 (Rltb_true _ _) Hz2), (proj2 (Rltb_true _ _) Hz3). simpl.
      rewrite (proj2 (Reqb_false _ _)); auto. lra.
    + intros _. rewrite div_ok by lra. cbn [rbind rmap]. simpl.
      rewrite (proj2 (Rltb_true _ _) Pv). cbn [rbind rmap]. rewrite div_ok by auto.
      eexists; split; reflexivity.
    + intros _. rewrite (proj2 (Rltb_true _ _) Pu), (proj2 (Rltb_true _ _) Pv). simpl.
      rewrite (proj2 (Reqb_false _ _) N1). cbn [rbind rmap]. rewrite div_ok by lra. simpl.
      rewrite (proj2 (Rltb_true _ _) Pv). cbn [rbind rmap]. rewrite div_ok by auto.
      eexists; split; reflexivity.
  - destruct (pow_good n U V x0 gu gv bx by_ DU DV CU CV Dom) as (F & a & b & D & NB & A & B).
    eapply (K F); [reflexivity|reflexivity|exact D| | |]; clear K.
    + eapply nearby_impl; [|exact NB]. intros z Hz. simpl. unfold Rpow_math. now rewrite Hz.
    + intros Bx. unfold mpow_der0. change (n_eq RN) with Reqb. change (n_zero RN) with 0.
      destruct (A Bx) as [[Y0 A0]|(Y0 & X0 & w & Ew & Aw)].
      * rewrite (proj2 (Reqb_true _ _) Y0). simpl. eexists; split; [reflexivity|]. now simpl.
      * rewrite (proj2 (Reqb_false _ _) Y0).
        replace (negb (Reqb (U x0) 0) || pn_integral (PF (N:=RN) (V x0))) with true.
        2:{ symmetry. apply orb_true_iff. destruct X0 as [X0|X0].
            - left. rewrite (proj2 (Reqb_false _ _) X0). reflexivity.
            - right. now apply mint. }
        simpl. unfold Rpow_math. rewrite Ew. simpl. eexists; split; [reflexivity|].
        simpl. auto.
    + intros By. unfold mpow_der1. change (n_eq RN) with Reqb. change (n_zero RN) with 0.
      change (n_lt RN) with Rltb.
      destruct (B By) as [(X0 & Y0 & B0)|(X0 & w & Ew & Bw)].
      * rewrite (proj2 (Reqb_true _ _) X0), (proj2 (Rltb_true _ _) Y0). simpl.
        eexists; split; [reflexivity|]. now simpl.
      * rewrite (proj2 (Reqb_false (U x0) 0)) by lra. simpl.
        rewrite (proj2 (Rltb_true _ _) X0). simpl. unfold Rpow_math. rewrite Ew. simpl.
        eexists; split; [reflexivity|]. simpl. auto.
Qed.
Theorem umath2_regular : forall f p q bp bq, okn p bp -> okn q bq ->
  m2_dom f bp bq (pval p) (pval q) ->
  regular_call (m2_fun f) (m2_pos f) (m2_kw f) [(PNum p, bp); (PNum q, bq)] [].
Proof.
  intros f p q bp bq Op Oq Dom.
  set (x0 := call_at [(PNum p, bp); (PNum q, bq)] []).
  assert (X0 : pick bp (pval p) (x0 0%nat) = pval p).
  { unfold x0, call_at. simpl. now destruct bp. }
  assert (Y0 : pick bq (pval q) (x0 1%nat) = pval q).
  { unfold x0, call_at. simpl. now destruct bq. }
  destruct (m2_good f 2 (fun z => pick bp (pval p) (z 0%nat)) (fun z => pick bq (pval q) (z 1%nat)) x0
    _ _ bp bq (pick_fd bp (pval p) 0 x0 ltac:(lia) eq_refl)
    (pick_fd bq (pval q) 1 x0 ltac:(lia) eq_refl)) as (F & a & b & d0 & d1 & D & NB & E0 & E1 & A & B).
  - intros ->. split; auto. intros v. destruct (Nat.eqb v 0); auto.
  - intros ->. split; auto. intros v. destruct (Nat.eqb v 1); auto.
  - now rewrite X0, Y0.
  - cbv beta in A, B. rewrite X0, Y0 in A, B.
    apply (regular2 _ _ _ p q bp bq F a b); auto.
    + eapply nearby_impl; [|exact NB]. intros z Hz p' q' Ep Eq_ _ _ _.
      unfold m2_fun. rewrite !pn_float_R, Ep, Eq_. cbn [rbind]. change (n_fun2 RN) with Rfun2.
      rewrite Hz. reflexivity.
    + intros Bp. destruct (A Bp) as (r & Er & Ev). exists r. split; auto. unfold m2_pos.
      rewrite E0, !pn_float_R. cbn [rbind]. simpl in Er |- *. rewrite Er. reflexivity.
    + intros Bq. destruct (B Bq) as (r & Er & Ev). exists r. split; auto. unfold m2_pos.
      rewrite E1, !pn_float_R. cbn [rbind]. simpl in Er |- *. rewrite Er. reflexivity.
Qed.

(** fsum. *)
Lemma Rsum_seq_shift : forall (F : nat -> R) n k,
  Rsum (map F (seq (S k) n)) = Rsum (map (fun i => F (S i)) (seq k n)).
Proof. intros. rewrite <- seq_shift, map_map. reflexivity. Qed.
Lemma floats_fill : forall args i z, okargs args -> exists l,
  floats_of (N:=RN) (fillp i args z) = Ok l /\
  (l : list R) = map (fun k => pick (snd (nth k args (PNotImpl, false))) (enum (nth k args (PNotImpl, false))) (z (i + k)%nat))
         (seq 0 (length args)).
Proof.
  induction args as [|[a b] args IH]; intros i z Ok_; simpl.
  - eexists; split; reflexivity.
  - destruct (Ok_ a b (or_introl eq_refl)) as (p & -> & Op).
    destruct (IH (S i) z) as (l & El & Vl). { intros x y H. apply Ok_. now right. }
    assert (T : map (fun k => pick (snd (nth k args (PNotImpl, false))) (enum (nth k args (PNotImpl, false))) (z (S i + k)%nat))
         (seq 0 (length args)) =
      map (fun k => pick (snd (match k with O => (PNum p, b) | S m => nth m args (PNotImpl, false) end))
        (enum (match k with O => (PNum p, b) | S m => nth m args (PNotImpl, false) end)) (z (i + k)%nat)) (seq 1 (length args))).
    { rewrite <- seq_shift, map_map. apply map_ext. intros k. now rewrite <- plus_n_Sm. }
    destruct b; simpl.
    + rewrite El. simpl. eexists. split; [reflexivity|]. rewrite Vl, T, Nat.add_0_r. reflexivity.
    + rewrite pn_float_R. simpl. rewrite El. simpl. eexists. split; [reflexivity|].
      rewrite Vl, T. reflexivity.
Qed.
Lemma fold_Rsum : forall l, fold_right Rplus 0 l = Rsum l.
Proof. induction l; simpl; congruence. Qed.
Theorem fsum_regular : forall args, okargs args ->
  regular_call (flat_fsum (N:=RN)) fsum_pos fsum_kw
    args [].
Proof.
  intros args Ok_.
  set (ent := fun k => nth k args (PNotImpl, false)).
  set (F := fun z : nat -> R => Rsum (map (fun k => pick (snd (ent k)) (enum (ent k)) (z k)) (seq 0 (length args)))).
  set (c := fun k => if snd (ent k) then 1 else 0).
  exists c. split; [|split].
  - rewrite Nat.add_0_r.
    assert (E : forall z, callG (flat_fsum (N:=RN)) args [] z = Some (F z)).
    { intros z. unfold callG, flat_fsum. simpl fillk. cbv iota.
      destruct (floats_fill args 0 z Ok_) as (l & El & Vl). rewrite El. simpl. f_equal.
      rewrite fold_Rsum. unfold F. now rewrite Vl. }
    set (x0 := call_at args []).
    exists (F x0). split; [apply E|]. intros eps He. exists 1. split; [lra|]. intros x _.
    exists (F x). split; [apply E|].
    assert (Z : F x - F x0 - dot (length args) c (fun i => x i - x0 i) = 0).
    { unfold F, dot. unfold x0. clear E. clear F. clear He eps. induction (seq 0 (length args)) as [|k l IH]; simpl; [ring|].
      assert (pick (snd (ent k)) (enum (ent k)) (x k) - pick (snd (ent k)) (enum (ent k)) (call_at args [] k)
        - c k * (x k - call_at args [] k) = 0). 2:{ lra. }
      unfold c. destruct (snd (ent k)); simpl; ring. }
    rewrite Z, Rabs_R0. apply Rmult_le_pos; [lra|apply nrm_nonneg].
  - intros i a Ha. exists (PZ 1). split; auto. unfold c, ent. 
    rewrite (nth_error_nth _ _ _ Ha). reflexivity.
  - intros [|i] k a H; discriminate.
Qed.

(** modf. *)
Theorem modf_regular : forall x : R, ~ integral x ->
  fdiff 1 (fun z => Some (fst (n_modf RN (z 0%nat)))) (fun _ => x) (fun _ => 1).
Proof.
  intros x NI. destruct (trunc_near x NI) as (e & Pe & E).
  apply (fdiff_1 (fun t => t - IZR (Ztrunc x))).
  - auto_derive; auto.
  - exists e. split; auto. intros z Hz. simpl. now rewrite E.
Qed.

(** Calculations inside the domains are regular. *)
Lemma pargs2_shape : forall (env : list (pentry (N:=RN))) i j a b, pargs env [i; j] = Some [a; b] ->
  nth_error env i = Some a /\ nth_error env j = Some b.
Proof.
  intros env i j a b H. simpl in H. destruct (nth_error env i), (nth_error env j); try discriminate.
  injection H; intros; subst. auto.
Qed.
Lemma in_domain_ins_regular : forall env ins, in_domain_ins (g:=g) (lg:=lg) env ins -> regular_ins env ins.
Proof.
  intros env ins H. destruct ins; try exact I.
  - destruct H as (p & q & bx & by_ & E & Op & Oq & Any & Dom & Fl).
    unfold regular_ins. rewrite E. simpl snd. destruct bx.
    + destruct (Op eq_refl) as (x & ->). apply op_regular; auto.
    + simpl in Any. subst. destruct (Oq eq_refl) as (y & ->). apply rop_regular; auto.
  - destruct H as (a & E & -> & B). unfold regular_ins. rewrite E. simpl. intros _.
    destruct B.
    + now apply unop_regular.
    + now apply umath1_regular.
    + now apply umath2_regular.
    + now apply fsum_regular.
  - simpl in H |- *. destruct (nth_error env i) as [[[[z|x]| | |] [|]]|]; auto.
    now apply modf_regular.
Qed.
Theorem in_domain_regular : forall prog xs ps, in_domain (g:=g) (lg:=lg) xs ps prog ->
  regular xs ps prog.
Proof.
  induction prog as [|ins prog IH]; intros xs ps H; simpl in *; auto.
  destruct H as [H1 H2]. split; auto. now apply in_domain_ins_regular.
Qed.

(** One-dimensional form: the derivative functions give the slopes of the operation. *)
Definition op_value (op : binop) (x y : R) : R :=
  match float_op (N:=RN) op x y with Ok (PNum r) => pval r | _ => 0 end.
Theorem op_slope_x : forall op (x : R) q, op_dom op true false x (pval q) ->
  exists c, op_der_x op (PF (N:=RN) x) q = Ok c /\
    is_derive (fun t => op_value op t (pval q)) x (pval c).
Proof.
  intros op x q Dom.
  assert (Oq : okn q false) by discriminate.
  destruct (op_regular op x q false Oq Dom) as (c & D & P & _).
  destruct (P 0%nat _ eq_refl) as (r & Er & Ev). exists r. split; auto. rewrite Ev.
  pose proof (fdiff_partial _ _ _ _ 0%nat D (Nat.lt_0_succ _)) as H.
  change (call_at [(PNum (PF (N:=RN) x), true); (PNum q, false)] [] 0%nat) with x in H.
  eapply is_derive_ext; [|exact H]. intros t. unfold callG, upd, op_value. simpl fillp.
  unfold float_method. rewrite pn_float_R. simpl. 
  destruct (float_op (N:=RN) op t (pval q)) as [[]|]; reflexivity.
Qed.
Theorem op_slope_y : forall op p (y : R), op_dom op false true (pval p) y ->
  (op = Bmod -> exists x : R, p = PF (N:=RN) x) ->
  exists c, op_der_y op p (PF (N:=RN) y) = Ok c /\
    is_derive (fun t => op_value op (pval p) t) y (pval c).
Proof.
  intros op p y Dom Fl.
  destruct (rop_regular op p y Dom Fl) as (c & D & P & _).
  destruct (P 0%nat _ eq_refl) as (r & Er & Ev). exists r. split; auto. rewrite Ev.
  pose proof (fdiff_partial _ _ _ _ 0%nat D (Nat.lt_0_succ _)) as H.
  change (call_at [(PNum (PF (N:=RN) y), true); (PNum p, false)] [] 0%nat) with y in H.
  eapply is_derive_ext; [|exact H]. intros t. unfold callG, upd, op_value. simpl fillp.
  unfold float_rmethod. rewrite pn_float_R. simpl. 
  destruct (float_op (N:=RN) op (pval p) t) as [[]|]; reflexivity.
Qed.
Theorem umath1_slope : forall f (x : R), m1_dom f x -> exists d c,
  m1_der (N:=RN) f = Some d /\ d x = Ok c /\
  is_derive (fun t => match n_fun1 RN f t with Ok y => y | Err _ => 0 end) x (pval c).
Proof.
  intros f x Dom. destruct (m1_der_good f x Dom) as (d & c & E & (r & Er & Ev) & D).
  exists d, r. split; auto. split; auto. rewrite Ev.
  destruct (m1_near f x Dom) as (e & Pe & N1).
  eapply is_derive_ext_loc; [|exact D].
  exists (mkposreal e Pe). intros t Ht. change (n_fun1 RN) with (Rfun1 g lg). rewrite N1; auto.
Qed.
Theorem umath2_slopes : forall f (x y : R), m2_dom f true true x y -> exists d0 d1 c0 c1,
  m2_der0 (N:=RN) f = Some d0 /\ m2_der1 (N:=RN) f = Some d1 /\ d0 x y = Ok c0 /\ d1 x y = Ok c1 /\
  is_derive (fun t => match n_fun2 RN f t y with Ok y => y | Err _ => 0 end) x (pval c0) /\
  is_derive (fun t => match n_fun2 RN f x t with Ok y => y | Err _ => 0 end) y (pval c1).
Proof.
  intros f x y Dom.
  set (x0 := fun i : nat => match i with O => x | _ => y end).
  destruct (m2_good f 2 (fun z => z 0%nat) (fun z => z 1%nat) x0 _ _ true true
     (fd_proj 2 0 x0 ltac:(lia)) (fd_proj 2 1 x0 ltac:(lia)) ltac:(discriminate) ltac:(discriminate) Dom)
    as (F & a & b & d0 & d1 & D & NB & E0 & E1 & A & B).
  destruct (A eq_refl) as (c0 & Ec0 & V0). destruct (B eq_refl) as (c1 & Ec1 & V1).
  exists d0, d1, c0, c1. split; auto. split; auto. split; auto. split; auto.
  assert (D' : fdiff 2 (fun z => match Rfun2 f (z 0%nat) (z 1%nat) with Ok r => Some r | Err _ => None end) x0
    (fun v => a * (if Nat.eqb v 0 then 1 else 0) + b * (if Nat.eqb v 1 then 1 else 0))).
  { eapply fdiff_of_fd; [exact D|]. eapply nearby_impl; [|exact NB]. intros z ->. reflexivity. }
  split.
  - pose proof (fdiff_partial _ _ _ _ 0%nat D' ltac:(lia)) as H. simpl in H.
    rewrite V0. replace a with (a * 1 + b * 0) by ring. eapply is_derive_ext; [|exact H].
    intros t. unfold upd. simpl. destruct (Rfun2 f t y); reflexivity.
  - pose proof (fdiff_partial _ _ _ _ 1%nat D' ltac:(lia)) as H. simpl in H.
    rewrite V1. replace b with (a * 0 + b * 1) by ring. eapply is_derive_ext; [|exact H].
    intros t. unfold upd. simpl. destruct (Rfun2 f x t); reflexivity.
Qed.
End PrimReg.
