(** correlated_values() and correlated_values_norm() over exact numbers. *)
From Coq Require Import ZArith List Bool Reals Lra Lia Arith Permutation.
From Verif Require Import Base Heap Affine Ops UMath NumR HeapSpec HeapProofs DenProofs Machine Spec
  Refine RefineStep Cov Copy Calls History CallProofs CovConv CovSpec HistoryProofs CovProofs.
Import ListNotations.
Local Open Scope R_scope.

Section CorrProofs.
Context {g lg : R -> R}.
Notation RN := (ROps g lg).
Notation state := (state RN).
Implicit Types (st : state).

(** The eigenvalues of a positive semi-definite matrix are not negative. *)
Lemma eigen_nonneg : forall n (M V : nat -> nat -> R) (lam : nat -> R), psd n M ->
  (forall i j, (i < n)%nat -> (j < n)%nat -> M i j = Sum n (fun k => V i k * lam k * V j k)) ->
  (forall k l, (k < n)%nat -> (l < n)%nat -> Sum n (fun i => V i k * V i l) = kron k l) ->
  forall k, (k < n)%nat -> 0 <= lam k.
Proof.
  intros n M V lam P HM HV k Hk. specialize (P (fun i => V i k)). cbv beta in P.
  assert (E : Sum n (fun i => Sum n (fun j => V i k * V j k * M i j)) = lam k).
  { transitivity (Sum n (fun i => V i k * (lam k * V i k))).
    - apply Sum_ext. intros i Hi.
      transitivity (V i k * Sum n (fun j => V j k * M i j)).
      { rewrite <- Sum_scal. apply Sum_ext. intros; ring. }
      f_equal.
      transitivity (Sum n (fun j => Sum n (fun l => V j k * (V i l * lam l * V j l)))).
      { apply Sum_ext. intros j Hj. rewrite HM by auto. now rewrite <- Sum_scal. }
      rewrite Sum_swap.
      transitivity (Sum n (fun l => kron k l * (V i l * lam l))).
      { apply Sum_ext. intros l Hl. rewrite <- HV by auto. rewrite (Rmult_comm (Sum _ _)), <- Sum_scal. apply Sum_ext. intros; ring. }
      rewrite (Sum_kron n k (fun l => V i l * lam l)) by auto. ring.
    - transitivity (lam k * Sum n (fun i => V i k * V i k)).
      { rewrite <- Sum_scal. apply Sum_ext. intros; ring. }
      rewrite HV by auto. rewrite kron_same. ring. }
  now rewrite E in P.
Qed.

(** Gradient of a combination of new variables. *)
Lemma dval_seq : forall (c : list R) s k, (k < length c)%nat ->
  dval (g:=g) (lg:=lg) (combine (seq s (length c)) c) (s + k)%nat = nth k c 0.
Proof.
  induction c as [|x c IH]; intros s k Hk; cbn in Hk; [lia|]. cbn [length seq combine].
  unfold dval. cbn [dget]. destruct k as [|k].
  - rewrite Nat.add_0_r, Nat.eqb_refl. reflexivity.
  - destruct (Nat.eqb_spec (s + S k) s) as [E|E]; [lia|].
    replace (s + S k)%nat with (S s + k)%nat by lia. exact (IH (S s) k ltac:(lia)).
Qed.
Lemma dval_seq_low : forall n (c : list R) s v, (v < s)%nat -> dval (g:=g) (lg:=lg) (combine (seq s n) c) v = 0.
Proof.
  induction n as [|n IH]; intros c s v Hv; [reflexivity|]. destruct c as [|x c]; [reflexivity|].
  cbn [seq combine]. unfold dval. cbn [dget]. destruct (Nat.eqb_spec v s); [lia|]. exact (IH c (S s) v ltac:(lia)).
Qed.
Lemma Sum_app : forall n m F, Sum (n + m) F = Sum n F + Sum m (fun k => F (n + k)%nat).
Proof.
  intros n m F. induction m; [rewrite Nat.add_0_r; cbn; lra|]. rewrite Nat.add_succ_r, !Sum_S, IHm. lra.
Qed.
Lemma sigma_new : forall vs (l : list R) k, sigma (vs ++ l) (length vs + k)%nat = nth k l 0.
Proof. intros. unfold sigma. rewrite app_nth2 by lia. f_equal. lia. Qed.

Lemma Forall2_len : forall A B (P : A -> B -> Prop) l l', Forall2 P l l' -> length l = length l'.
Proof. induction 1; cbn; auto. Qed.
Lemma clip_id : forall x, 0 <= x -> clip x = x.
Proof. intros x H. unfold clip. now rewrite (proj2 (Rltb_false x 0)) by lra. Qed.
Lemma scov_new : forall n vs (lam ca cb : list R), length lam = n -> length ca = n -> length cb = n ->
  (forall k, (k < n)%nat -> 0 <= nth k lam 0) ->
  scov (vs ++ map (fun x => sqrt (clip x)) lam)
    (fun w => dval (g:=g) (lg:=lg) (combine (seq (length vs) n) ca) w)
    (fun w => dval (g:=g) (lg:=lg) (combine (seq (length vs) n) cb) w) =
  Sum n (fun k => nth k ca 0 * nth k cb 0 * nth k lam 0).
Proof.
  intros n vs lam ca cb Ll La Lb P. rewrite scov_Sum, app_length, map_length, Ll, Sum_app.
  rewrite Sum_zero.
  - rewrite Rplus_0_l. apply Sum_ext. intros k Hk. rewrite sigma_new.
    rewrite <- La at 1. rewrite dval_seq by lia. rewrite <- Lb at 1. rewrite dval_seq by lia.
    rewrite (nth_map_lt _ _ _ _ _ 0) by lia. rewrite pow2_sqrt by apply clip_pos. rewrite clip_id by auto. reflexivity.
  - intros v Hv. rewrite dval_seq_low by auto. ring.
Qed.

Lemma nth_error_app_r : forall A (l l' : list A) k, nth_error (l ++ l') (length l + k)%nat = nth_error l' k.
Proof. intros. rewrite nth_error_app2 by lia. f_equal. lia. Qed.
Lemma nth_combine : forall A B (l : list A) (m : list B) k da db, length l = length m -> (k < length l)%nat ->
  nth_error (combine l m) k = Some (nth k l da, nth k m db).
Proof.
  intros A B l. induction l as [|a l IH]; intros [|b m] k da db L H; cbn in *; try lia.
  destruct k; cbn; auto. apply IH; lia.
Qed.

(** What the new numbers are, in terms of the specification. *)
Record new_values st st' (vals : list (R * R)) (corr : nat -> nat -> R) : Prop := {
  nv_env : exists us, st_env st' = st_env st ++ map VUF us /\ length us = length vals;
  nv_sim : exists ss ss', sim st ss /\ sim st' ss' /\
    (forall j, (j < length (st_env st))%nat -> nth_error (ss_env ss') j = nth_error (ss_env ss) j) /\
    exists G : nat -> varid -> R, exists D : nat -> list varid,
      (forall a, (a < length vals)%nat ->
         nth_error (ss_env ss') (length (st_env st) + a)%nat = Some (SUF (fst (nth a vals (0, 0))) (G a) (D a) None)) /\
      (forall a v, (a < length vals)%nat -> In v (D a) -> (length (ss_vars ss) <= v)%nat) /\
      (forall a b, (a < length vals)%nat -> (b < length vals)%nat ->
         scov (ss_vars ss') (G a) (G b) = snd (nth a vals (0, 0)) * snd (nth b vals (0, 0)) * corr a b)
}.

Lemma corr_norm_new : forall h env eigh (vals : list (R * R)) (corr : matrix RN) tags us h',
  reachable (mkState h env) -> eigh_shape eigh -> eigh_exact eigh -> square (length vals) corr ->
  (forall a b, mat corr a b = mat corr b a) -> psd (length vals) (mat corr) -> tags_ok (length vals) tags ->
  correlated_values_norm (N:=RN) eigh vals corr tags h = (Ok us, h') ->
  new_values (mkState h env) (mkState h' (env ++ map VUF us)) vals (mat corr).
Proof.
  intros h env eigh vals corr tags us h' Rc Hs He Hq Sy Ps Ht E.
  destruct (reach_sim _ Rc) as ([vs senv] & S).
  destruct vals as [|p0 vals0] eqn:Ev; [discriminate|]. rewrite <- Ev in *. clear p0 vals0 Ev.
  assert (Nv : vals <> []) by (intros ->; discriminate).
  destruct (eigh corr) as [[lam V]|e] eqn:Ee.
  2:{ exfalso. destruct vals; [congruence|]. unfold correlated_values_norm, bind, lift in E. rewrite Ee in E. discriminate. }
  destruct (He _ corr lam V Hq Sy Ee) as (Ll & HqV & HM & HV).
  destruct (corr_norm_rel eigh vals corr tags lam V h env vs senv S Nv Ee Ll HqV Ht)
    as (us1 & h1 & objs & E1 & Ho & _ & _ & Lu & S').
  rewrite E1 in E. injection E; intros -> ->.
  pose proof (varsrel_len _ _ (si_vars _ _ S)) as Lh. cbn [st_heap ss_vars] in Lh.
  assert (Le : length senv = length env).
  { symmetry. eapply Forall2_len; exact (si_env _ _ S). }
  set (n := length vals) in *.
  assert (Lr : length (rows V vals) = n).
  { unfold rows. rewrite map_length. etransitivity; [apply combine_length|]. destruct HqV as [-> _]. apply Nat.min_id. }
  assert (Hrow : forall a, (a < n)%nat -> nth a (rows V vals) [] = map (fun c => c * snd (nth a vals (0, 0))) (nth a V [])).
  { intros a Ha. unfold rows. 
    assert (X : nth_error (combine V vals) a = Some (nth a V [], nth a vals (0,0))).
    { apply nth_combine; destruct HqV as [Q _]; [exact Q|]. unfold matrix in Q; cbn in Q |- *. lia. }
    apply (map_nth_error (fun p => map (fun c => c * snd (snd p)) (fst p))) in X.
    apply (nth_error_nth _ _ []) in X. exact X. }
  assert (Hlen : forall a, (a < n)%nat -> length (nth a V []) = n).
  { intros a Ha. destruct HqV as [Q F]. rewrite Forall_forall in F. apply F. apply nth_In.
    unfold matrix in Q; cbn in Q |- *. lia. }
  constructor.
  - exists us. split; auto.
  - exists (mkS vs senv), (mkS (vs ++ map (fun x => sqrt (clip x)) lam)
             (senv ++ map (scomb (seq (length (h_var h)) (length vals))) (combine (rows V vals) (map fst vals)))).
    split; [exact S|]. split; [exact S'|]. cbn [ss_env ss_vars st_env].
    split; [intros j Hj; apply nth_error_app1; lia|].
    exists (fun a w => dval (g:=g) (lg:=lg) (combine (seq (length vs) n) (nth a (rows V vals) [])) w).
    exists (fun a => firstn (length (nth a (rows V vals) [])) (seq (length vs) n)).
    split; [|split].
    + intros a Ha. rewrite <- Le, nth_error_app_r.
      assert (X : nth_error (combine (rows V vals) (map fst vals)) a = Some (nth a (rows V vals) [], fst (nth a vals (0,0)))).
      { rewrite (nth_combine _ _ _ _ _ [] (fst (0, 0))) by (rewrite ?map_length; fold n; lia).
        now rewrite map_nth. }
      apply (map_nth_error (scomb (g:=g) (lg:=lg) (seq (length (h_var h)) (length vals)))) in X. rewrite X.
      unfold scomb. cbn [fst snd]. rewrite Lh. reflexivity.
    + intros a v Ha Hv. apply firstn_In in Hv. apply in_seq in Hv. lia.
    + intros a b Ha Hb. rewrite (scov_new n vs lam).
      * transitivity (snd (nth a vals (0,0)) * snd (nth b vals (0,0)) * Sum n (fun k => mat V a k * nth k lam 0 * mat V b k)).
        -- rewrite <- Sum_scal. apply Sum_ext. intros k Hk. rewrite !Hrow by auto.
           rewrite !(nth_map_lt _ _ _ _ _ 0) by (rewrite Hlen; auto). unfold mat.
           enough (X : forall x y z p q : R, x * p * (y * q) * z = p * q * (x * z * y)) by apply X. intros; ring.
        -- rewrite <- HM by auto. reflexivity.
      * exact Ll.
      * rewrite Hrow, map_length by auto. auto.
      * rewrite Hrow, map_length by auto. auto.
      * apply (eigen_nonneg n (mat corr) (mat V) (fun k => nth k lam 0)); auto.
Qed.

(** From the specification to observations. *)
Lemma new_values_read : forall st st' vals corr order (m : matrix RN) st'', reachable st -> reachable st' ->
  new_values st st' vals corr -> (forall l, Permutation (order l) l) ->
  covariance order st' (seq (length (st_env st)) (length vals)) (Ok m) st'' ->
  (forall a b, (a < length vals)%nat -> (b < length vals)%nat ->
     mat m a b = snd (nth a vals (0, 0)) * snd (nth b vals (0, 0)) * corr a b).
Proof.
  intros st st' vals corr order m st'' Rc Rc' [(us & Ee & Lu) (ss & ss' & S & S' & Old & G & D & Env & Kd & Cov)] P C a b Ha Hb.
  assert (U : Forall (uncertain st') (seq (length (st_env st)) (length vals))).
  { apply Forall_forall. intros i Hi. apply in_seq in Hi. unfold uncertain, is_number. rewrite Ee.
    rewrite nth_error_app2 by lia. rewrite nth_error_map.
    destruct (nth_error us (i - length (st_env st))) as [u|] eqn:X; [exists u; reflexivity|].
    apply nth_error_None in X. lia. }
  destruct (cov_is _ _ _ _ _ _ S' P U C) as (sl & -> & L & Nt). rewrite seq_length in L.
  rewrite sym_entry by lia. unfold covof.
  assert (Q : forall c, (c < length vals)%nat -> nth_error (seq (length (st_env st)) (length vals)) c = Some (length (st_env st) + c)%nat).
  { intros c Hc. rewrite (nth_error_nth' _ 0%nat) by now rewrite seq_length. now rewrite seq_nth. }
  pose proof (Nt _ _ (Q a Ha)) as Na. pose proof (Nt _ _ (Q b Hb)) as Nb.
  rewrite Env in Na, Nb by auto. injection Na; intros <-. injection Nb; intros <-. cbn [sgrad]. apply Cov; auto.
Qed.
Lemma new_values_nominal : forall st st' vals corr a, new_values st st' vals corr -> (a < length vals)%nat ->
  has_nominal st' (length (st_env st) + a)%nat (PF (N:=RN) (fst (nth a vals (0, 0)))).
Proof.
  intros st st' vals corr a [(us & Ee & Lu) (ss & ss' & S & S' & Old & G & D & Env & Kd & Cov)] Ha.
  destruct (nth_error us a) as [u|] eqn:X; [|apply nth_error_None in X; lia].
  assert (I : is_number st' (length (st_env st) + a)%nat u).
  { unfold is_number. rewrite Ee, nth_error_app_r, nth_error_map, X. reflexivity. }
  destruct (number_rel _ _ _ _ S' I) as (n & gr & ds & var & NR).
  pose proof (nr_env _ _ _ _ _ _ _ _ NR) as E. rewrite Env in E by auto. injection E; intros _ _ _ <-.
  exists (VUF u). split; [exact I|]. cbn. rewrite (nr_nom _ _ _ _ _ _ _ _ NR). reflexivity.
Qed.
Lemma new_values_independent : forall st st' vals corr a j d d' v, new_values st st' vals corr ->
  (a < length vals)%nat -> (j < length (st_env st))%nat ->
  reads st' (IDeriv (length (st_env st) + a)%nat) (ODict (N:=RN) d) -> reads st' (IDeriv j) (ODict d') ->
  dget d v = None \/ dget d' v = None.
Proof.
  intros st st' vals corr a j d d' v [(us & Ee & Lu) (ss & ss' & S & S' & Old & G & D & Env & Kd & Cov)] Ha Hj Rd Rd'.
  assert (U : uncertain st' (length (st_env st) + a)%nat).
  { destruct (nth_error us a) as [u|] eqn:X; [|apply nth_error_None in X; lia].
    exists u. unfold is_number. rewrite Ee, nth_error_app_r, nth_error_map, X. reflexivity. }
  destruct (uncertain_rel _ _ _ S' U) as (u & n & gr & ds & var & NR).
  pose proof (nr_env _ _ _ _ _ _ _ _ NR) as E. rewrite Env in E by auto. injection E; intros; subst.
  destruct (deriv_read _ _ _ _ _ _ _ _ _ S' NR Rd) as (d1 & E1 & _ & K1 & _). injection E1; intros <-.
  destruct (dget d v) as [x|] eqn:Dv; [|auto]. right. apply dget_None. intros Hin.
  assert (Hv : In v (dkeys d)) by (apply dget_In_keys; eauto). apply K1 in Hv. apply (Kd a v Ha) in Hv.
  destruct (nth_error (st_env st) j) as [[q|uj]|] eqn:Xj; [| |apply nth_error_None in Xj; lia].
  - pose proof (reads_sim _ _ _ _ S' Rd') as O. cbn in O. unfold swith_uf, swith in O. rewrite Old in O by auto.
    destruct S as [_ _ Ev]. destruct (Forall2_nth_error _ _ _ _ _ Ev _ _ Xj) as (sa & Es & Rl).
    rewrite Es in O. destruct sa as [q'|]; [|contradiction]. cbn in O. contradiction.
  - destruct (number_rel _ _ _ _ S Xj) as (nj & grj & dsj & varj & NRj).
    assert (I' : is_number st' j uj) by (unfold is_number; rewrite Ee, nth_error_app1; auto).
    destruct (number_rel _ _ _ _ S' I') as (n2 & gr2 & ds2 & var2 & NR2).
    pose proof (nr_env _ _ _ _ _ _ _ _ NR2) as E2. rewrite Old in E2 by auto.
    rewrite (nr_env _ _ _ _ _ _ _ _ NRj) in E2. injection E2; intros; subst.
    destruct (deriv_read _ _ _ _ _ _ _ _ _ S' NR2 Rd') as (d2 & E3 & _ & K2 & _). injection E3; intros <-.
    apply K2 in Hin. apply (nr_bound _ _ _ _ _ _ _ _ NRj) in Hin. lia.
Qed.

(** C19: correlated_values_norm(). *)
Theorem correlated_norm_spec : forall st eigh (vals : list (R * R)) (corr : matrix RN) tags st' o,
  reachable st -> eigh_shape eigh -> eigh_exact eigh -> square (length vals) corr ->
  (forall a b, mat corr a b = mat corr b a) -> psd (length vals) (mat corr) -> tags_ok (length vals) tags ->
  call_step st (CCorrNorm eigh vals corr tags) = (st', o) -> o = ONone ->
  length (st_env st') = (length (st_env st) + length vals)%nat /\
  (forall a, (a < length vals)%nat ->
     has_nominal st' (length (st_env st) + a)%nat (PF (N:=RN) (fst (nth a vals (0, 0))))) /\
  (forall order (m : matrix RN) st'', (forall l, Permutation (order l) l) ->
     covariance order st' (seq (length (st_env st)) (length vals)) (Ok m) st'' ->
     forall a b, (a < length vals)%nat -> (b < length vals)%nat ->
       mat m a b = snd (nth a vals (0, 0)) * snd (nth b vals (0, 0)) * mat corr a b) /\
  (forall a j d d' v, (a < length vals)%nat -> (j < length (st_env st))%nat ->
     reads st' (IDeriv (length (st_env st) + a)%nat) (ODict (N:=RN) d) -> reads st' (IDeriv j) (ODict d') ->
     dget d v = None \/ dget d' v = None).
Proof.
  intros [h env] eigh vals corr tags st' o Rc Hs He Hq Sy Ps Ht C Ho. subst o.
  assert (Rc' : reachable st').
  { replace st' with (fst (call_step (mkState h env) (CCorrNorm eigh vals corr tags))) by now rewrite C.
    apply reach_call; auto. cbn. auto. }
  cbn [call_step st_heap] in C.
  destruct (correlated_values_norm eigh vals corr tags h) as [[us|e] h'] eqn:E; cbn in C; [|discriminate].
  injection C; intros <-.
  pose proof (corr_norm_new h env eigh vals corr tags us h' Rc Hs He Hq Sy Ps Ht E) as NV.
  split; [|split; [|split]].
  - destruct NV as [(us' & Ee & Lu) _]. rewrite Ee, app_length, map_length. now rewrite Lu.
  - intros a Ha. exact (new_values_nominal _ _ _ _ a NV Ha).
  - intros order m st'' P Cv. exact (new_values_read _ _ _ _ _ _ _ Rc Rc' NV P Cv).
  - intros a j d d' v Ha Hj. exact (new_values_independent _ _ _ _ a j d d' v NV Ha Hj).
Qed.

Theorem correlated_norm_total : forall st eigh (vals : list (R * R)) (corr : matrix RN) tags r,
  reachable st -> eigh_shape eigh -> square (length vals) corr -> tags_ok (length vals) tags -> vals <> [] ->
  eigh corr = Ok r -> snd (call_step st (CCorrNorm eigh vals corr tags)) = ONone.
Proof.
  intros [h env] eigh vals corr tags [lam V] Rc Hs Hq Ht Nv Ee. destruct (reach_sim _ Rc) as ([vs senv] & S).
  destruct (Hs _ _ _ _ Hq Ee) as [Ll Lv].
  destruct (corr_norm_rel eigh vals corr tags lam V h env vs senv S Nv Ee Ll Lv Ht) as (us & h' & objs & E & _).
  cbn [call_step st_heap]. rewrite E. reflexivity.
Qed.

(** C19: correlated_values(). *)
Definition norms (n : nat) (cov : matrix RN) : list R :=
  map (fun s => if Reqb s 0 then 1 else s) (map (fun i => sqrt (mat cov i i)) (seq 0 n)).
Lemma norms_nth : forall n cov i, (i < n)%nat ->
  nth i (norms n cov) 0 = if Reqb (sqrt (mat cov i i)) 0 then 1 else sqrt (mat cov i i).
Proof.
  intros. unfold norms. rewrite (nth_map_lt _ _ _ _ _ 0) by now rewrite map_length, seq_length.
  now rewrite nth_seq_map.
Qed.
Lemma norms_nz : forall n cov i, (i < n)%nat -> nth i (norms n cov) 0 <> 0.
Proof.
  intros n cov i Hi. rewrite norms_nth by auto. destruct (Reqb _ 0) eqn:E; [lra|]. intros Z. apply Reqb_true in Z. congruence.
Qed.
Lemma normal_psd : forall n cov v, psd n (mat cov) -> psd n (mat (normal (g:=g) (lg:=lg) n cov v)).
Proof.
  intros n cov v P x. specialize (P (fun i => x i / nth i v 0)). cbv beta in P.
  erewrite Sum_ext; [exact P|]. intros i Hi. cbv beta. apply Sum_ext. intros j Hj. cbv beta.
  rewrite normal_entry by auto. unfold Rdiv. ring.
Qed.
Lemma corr_values_norm : forall eigh (noms : list R) (cov : matrix RN) tags h, square (length noms) cov ->
  psd (length noms) (mat cov) ->
  correlated_values (N:=RN) eigh noms cov tags h =
  correlated_values_norm (N:=RN) eigh (combine noms (map (fun i => sqrt (mat cov i i)) (seq 0 (length noms))))
    (normal (length noms) cov (norms (length noms) cov)) tags h.
Proof.
  intros eigh noms cov tags h [L F] Ps. unfold correlated_values. unfold bind at 1. unfold lift at 1.
  rewrite (diagonal_sqrt (length noms) cov L) by (intros; eapply psd_diag; eauto). cbv zeta. unfold bind, lift.
  change (map (fun s : num RN => if n_eq RN s (n_zero RN) then n_one RN else s)
    (map (fun i : nat => sqrt (mat cov i i)) (seq 0 (length noms)))) with (norms (length noms) cov).
  rewrite (normalize_ok (length noms)); auto. apply norms_nz.
Qed.
Theorem correlated_total : forall st eigh (noms : list R) (cov : matrix RN) tags,
  reachable st -> eigh_shape eigh -> square (length noms) cov -> psd (length noms) (mat cov) ->
  tags_ok (length noms) tags -> noms <> [] -> (forall m : matrix RN, square (length noms) m -> exists r, eigh m = Ok r) ->
  snd (call_step st (CCorr eigh noms cov tags)) = ONone.
Proof.
  intros [h env] eigh noms cov tags Rc Hs Hq Ps Ht Nv He. cbn [call_step st_heap]. rewrite corr_values_norm by auto.
  set (n := length noms) in *. set (vals := combine noms (map (fun i => sqrt (mat cov i i)) (seq 0 n))).
  assert (Lv : length vals = n).
  { unfold vals. rewrite combine_length, map_length, seq_length. fold n. lia. }
  destruct (He _ (normal_square n cov (norms n cov))) as (r & Er).
  assert (X : snd (call_step (mkState h env) (CCorrNorm eigh vals (normal n cov (norms n cov)) tags)) = ONone).
  { apply (correlated_norm_total (mkState h env) eigh vals (normal n cov (norms n cov)) tags r Rc Hs).
    - exact (eq_ind_r (fun k => square k (normal n cov (norms n cov) : matrix RN)) (normal_square _ _ _) Lv).
    - exact (eq_ind_r (fun k => tags_ok k tags) Ht Lv).
    - intros Z. rewrite Z in Lv. destruct noms; [congruence|discriminate].
    - exact Er. }
  exact X.
Qed.
Theorem correlated_spec : forall st eigh (noms : list R) (cov : matrix RN) tags st' o,
  reachable st -> eigh_shape eigh -> eigh_exact eigh -> square (length noms) cov ->
  (forall a b, mat cov a b = mat cov b a) -> psd (length noms) (mat cov) -> tags_ok (length noms) tags ->
  call_step st (CCorr eigh noms cov tags) = (st', o) -> o = ONone ->
  length (st_env st') = (length (st_env st) + length noms)%nat /\
  (forall a, (a < length noms)%nat ->
     has_nominal st' (length (st_env st) + a)%nat (PF (N:=RN) (nth a noms 0))) /\
  (forall order (m : matrix RN) st'', (forall l, Permutation (order l) l) ->
     covariance order st' (seq (length (st_env st)) (length noms)) (Ok m) st'' ->
     forall a b, (a < length noms)%nat -> (b < length noms)%nat -> mat m a b = mat cov a b) /\
  (forall a j d d' v, (a < length noms)%nat -> (j < length (st_env st))%nat ->
     reads st' (IDeriv (length (st_env st) + a)%nat) (ODict (N:=RN) d) -> reads st' (IDeriv j) (ODict d') ->
     dget d v = None \/ dget d' v = None).
Proof.
  intros [h env] eigh noms cov tags st' o Rc Hs He Hq Sy Ps Ht C Ho. subst o.
  assert (Rc' : reachable st').
  { replace st' with (fst (call_step (mkState h env) (CCorr eigh noms cov tags))) by now rewrite C.
    apply reach_call; auto. cbn. auto. }
  cbn [call_step st_heap] in C. rewrite corr_values_norm in C by auto.
  set (n := length noms) in *.
  set (vals := combine noms (map (fun i => sqrt (mat cov i i)) (seq 0 n))) in *.
  assert (Lv : length vals = n).
  { unfold vals. rewrite combine_length, map_length, seq_length. fold n. lia. }
  assert (Nv : forall a, (a < n)%nat -> nth a vals (0, 0) = (nth a noms 0, sqrt (mat cov a a))).
  { intros a Ha. unfold vals. rewrite combine_nth by (rewrite map_length, seq_length; reflexivity).
    now rewrite nth_seq_map. }
  destruct (correlated_values_norm eigh vals _ tags h) as [[us|e] h'] eqn:E; cbn in C; [|discriminate].
  injection C; intros <-.
  assert (NV : new_values (mkState h env) (mkState h' (env ++ map VUF us)) vals (mat (normal n cov (norms n cov)))).
  { apply (corr_norm_new h env eigh vals (normal n cov (norms n cov)) tags us h' Rc Hs He).
    - exact (eq_ind_r (fun k => square k (normal n cov (norms n cov) : matrix RN)) (normal_square _ _ _) Lv).
    - apply normal_sym; auto.
    - exact (eq_ind_r (fun k => psd k (mat (normal n cov (norms n cov)))) (normal_psd _ _ _ Ps) Lv).
    - exact (eq_ind_r (fun k => tags_ok k tags) Ht Lv).
    - exact E. }
  rewrite <- Lv. split; [|split; [|split]].
  - destruct NV as [(us' & Ee & Lu) _]. rewrite Ee, app_length, map_length. now rewrite Lu.
  - intros a Ha. replace (nth a noms 0) with (fst (nth a vals (0, 0))) by (rewrite Nv by lia; reflexivity).
    exact (new_values_nominal _ _ _ _ a NV Ha).
  - intros order m st'' P Cv a b Ha Hb. rewrite (new_values_read _ _ _ _ _ _ _ Rc Rc' NV P Cv) by auto.
    rewrite Lv in Ha, Hb. rewrite !Nv by auto. cbn [snd]. rewrite normal_entry, !norms_nth by auto.
    destruct (Reqb (sqrt (mat cov a a)) 0) eqn:Ea.
    { apply Reqb_true in Ea. rewrite Ea. apply sqrt_eq_0 in Ea; [|eapply psd_diag; eauto].
      rewrite (psd_zero_diag n (mat cov) a b Ps Ha Hb Sy Ea). ring. }
    destruct (Reqb (sqrt (mat cov b b)) 0) eqn:Eb.
    { apply Reqb_true in Eb. rewrite Eb. apply sqrt_eq_0 in Eb; [|eapply psd_diag; eauto].
      rewrite (Sy a b), (psd_zero_diag n (mat cov) b a Ps Hb Ha Sy Eb). ring. }
    field. split; intros Z; apply Reqb_true in Z; congruence.
  - intros a j d d' v Ha Hj. exact (new_values_independent _ _ _ _ a j d d' v NV Ha Hj).
Qed.
End CorrProofs.
