(** Covariance and correlation matrices of numbers that have been read do not change. *)
From Coq Require Import ZArith List Bool Arith Lia.
From Verif Require Import Base Heap HeapProofs Affine Ops UMath Machine Cov Copy Calls Unumpy UMatrix History CallProofs Fuel Ordered DepSpec Deps AnySpec AnyArith TwinSpec Twin StaySpec Evolve Stay LaterSpec Later LaterMore.
Import ListNotations.

Section LaterCov.
Context {N : NumOps}.
Implicit Types h : heap N.

Definition same_var h h' (v : varid) : Prop := exists o o', get_var h v = Some o /\ get_var h' v = Some o' /\ v_std o' = v_std o.
Definition same_value h h' (a : value N) : Prop :=
  match a with
  | VUF u => exists d, get_lc h (uf_lp u) = LDict d /\ get_lc h' (uf_lp u) = LDict d /\ forall v, In v (dkeys d) -> same_var h h' v
  | VPlain _ => True
  end.
Definition same_result {A} h h' (m : M N A) : Prop := exists r, m h = (r, h) /\ m h' = (r, h').
Lemma sr_bind : forall A B h h' (m : M N A) (f : A -> M N B), same_result h h' m -> (forall a, m h = (Ok a, h) -> same_result h h' (f a)) -> same_result h h' (bind m f).
Proof.
  intros A B h h' m f ([a|e] & E & E') F; unfold bind, same_result; rewrite E, E'; [exact (F a E)|]. eauto.
Qed.
Lemma sr_ret : forall A h h' (a : A), same_result h h' (ret a).
Proof. intros. exists (Ok a). auto. Qed.
Lemma sr_elem : forall h h' k a, same_value h h' a -> same_result h h' (elem_derivatives k a).
Proof.
  intros h h' k [p|u] S; cbn in *; [eexists; split; reflexivity|]. destruct S as (d & G & G' & _). unfold same_result, derivatives, lc_derivatives. rewrite G, G'. eauto.
Qed.
Lemma elem_dict : forall h h' k a d, same_value h h' a -> elem_derivatives k a h = (Ok d, h) -> forall v, In v (dkeys d) -> same_var h h' v.
Proof.
  intros h h' k [p|u] d S E; cbn in *; [discriminate E|]. destruct S as (e & G & _ & V). unfold derivatives, lc_derivatives in E. rewrite G in E. injection E as <-. exact V.
Qed.
Lemma sum_same : forall h h' d1 d2 vs acc, (forall v, In v (dkeys d1) -> same_var h h' v) -> cov_sum h d1 d2 vs acc = cov_sum h' d1 d2 vs acc.
Proof.
  intros h h' d1 d2 vs. induction vs as [|v vs IH]; intros acc V; cbn [cov_sum]; [reflexivity|]. destruct (dget d1 v) as [x|] eqn:G; [|reflexivity].
  destruct (V v) as (o & o' & E & E' & S). { apply (proj2 (dget_In_keys _ _)). eauto. }
  rewrite E, E', S. destruct (dget d2 v); [|reflexivity]. destruct (n_powf (v_std o) (n_two N)); cbn; auto.
Qed.
Lemma sr_row : forall order k h h' d1 l, (forall v, In v (dkeys d1) -> same_var h h' v) -> (forall a, In a l -> same_value h h' a) -> same_result h h' (cov_row order k d1 l).
Proof.
  intros order k h h' d1 l V. induction l as [|a l IH]; intros S; cbn [cov_row]; [apply sr_ret|]. apply sr_bind; [apply sr_elem, S; now left|]. intros d2 _.
  apply sr_bind; [exists (cov_sum h d1 d2 (common order d1 d2) (n_zero N)); split; [reflexivity|]; now rewrite (sum_same h h')|]. intros c _.
  apply sr_bind; [apply IH; intros b Hb; apply S; now right|]. intros r _. apply sr_ret.
Qed.
Lemma firstn_in : forall A n (l : list A) a, In a (firstn n l) -> In a l.
Proof. intros A. induction n as [|n IH]; intros [|x l] a H; cbn in H; try contradiction. destruct H as [->|H]; [now left|right; auto]. Qed.
Lemma sr_rows : forall order k h h' l, (forall a, In a l -> same_value h h' a) -> forall rest i, (forall a, In a rest -> same_value h h' a) -> same_result h h' (cov_rows order k l i rest).
Proof.
  intros order k h h' l S. induction rest as [|a rest IH]; intros i T; cbn [cov_rows]; [apply sr_ret|]. assert (Sa := T a (or_introl eq_refl)).
  apply sr_bind; [now apply sr_elem|]. intros d1 E. apply sr_bind; [apply sr_row; [exact (elem_dict _ _ _ _ _ Sa E)|intros b Hb; exact (S b (firstn_in _ _ _ _ Hb))]|]. intros row _.
  apply sr_bind; [apply IH; intros b Hb; apply T; now right|]. intros rows _. apply sr_ret.
Qed.
Lemma sr_covariance : forall order k h h' l, (forall a, In a l -> same_value h h' a) -> same_result h h' (covariance_matrix order k l).
Proof. intros order k h h' l S. unfold covariance_matrix. apply sr_bind; [now apply sr_rows|]. intros m _. apply sr_ret. Qed.
Lemma sr_correlation : forall order k h h' l, (forall a, In a l -> same_value h h' a) -> same_result h h' (correlation_matrix order k l).
Proof. intros order k h h' l S. unfold correlation_matrix. apply sr_bind; [now apply sr_covariance|]. intros m _. eexists; split; reflexivity. Qed.

Lemma args_same : forall (st st' : state N) is l, reachable st -> afterwards st st' -> (forall i, In i is -> settled st i /\ same_deviations st st' i) ->
  get_args (st_env st) is = Some l -> get_args (st_env st') is = Some l /\ forall a, In a l -> same_value (st_heap st) (st_heap st') a.
Proof.
  intros st st' is l R A. revert l. induction is as [|i is IH]; intros l S G; cbn in *; [injection G as <-; split; [reflexivity|contradiction]|].
  destruct (nth_error (st_env st) i) as [a|] eqn:E; [|discriminate G]. destruct (get_args (st_env st) is) as [l'|] eqn:G'; [|discriminate G]. injection G as <-.
  destruct (IH l') as (G1 & S1); [intros j Hj; apply S; now right|reflexivity|]. destruct (afterwards_sev _ _ A) as (Ev & new & En).
  rewrite En. rewrite (nth_app_l _ _ _ _ _ E). rewrite <- En, G1. split; [reflexivity|]. intros b [<-|Hb]; [|now apply S1].
  destruct a as [p|u]; [exact I|]. destruct (S i (or_introl eq_refl)) as ([(p & P)|(u0 & d & U & D & Rd)] & Dv); [congruence|].
  assert (u0 = u) by (unfold is_number in U; congruence). subst u0. assert (Gd := settled_dict _ _ _ _ R U D). assert (B := reachable_bound st i u R U).
  cbn [same_value]. exists d. split; [exact Gd|]. split; [exact (proj2 (ev_dict _ _ Ev _ _ B Gd))|]. intros v Hv. destruct Rd as (Rr & Ex & _). rewrite Forall_forall in Ex. specialize (Ex v Hv).
  unfold same_var, existing in *. destruct (get_var (st_heap st) v) as [o|] eqn:Go; [|contradiction].
  assert (Lv : (v < length (h_var (st_heap st)))%nat) by (apply nth_error_Some; unfold get_var in Go; congruence). assert (Lv' := ev_vars _ _ Ev).
  destruct (get_var (st_heap st') v) as [o'|] eqn:Go'; [|unfold get_var in Go'; apply nth_error_None in Go'; lia].
  exists o, o'. split; [reflexivity|]. split; [reflexivity|]. specialize (Dv u d v U Rr (or_introl Hv)). unfold sd in Dv. now rewrite Go, Go' in Dv.
Qed.
Theorem matrices_stay : forall order (st st' st1 : state N) is r, reachable st -> afterwards st st' -> (forall i, In i is -> settled st i /\ same_deviations st st' i) ->
  (covariance order st is r st1 -> st1 = st /\ covariance order st' is r st') /\ (correlation order st is r st1 -> st1 = st /\ correlation order st' is r st').
Proof.
  intros order st st' st1 is r R A S.
  assert (X : forall (f : nat -> list (value N) -> M N (matrix N)), (forall k l, (forall a, In a l -> same_value (st_heap st) (st_heap st') a) -> same_result (st_heap st) (st_heap st') (f k l)) ->
    observes f st is r st1 -> st1 = st /\ observes f st' is r st').
  { intros f F (l & k & G & En & H). destruct (args_same _ _ _ _ R A S G) as (G' & Sv). split.
    - specialize (H k (le_n _)). destruct (F k l Sv) as (r0 & E & _). rewrite E in H. injection H as _ H. destruct st1, st; cbn in *; congruence.
    - exists l, k. split; [exact G'|]. split; [reflexivity|]. intros f0 Hf. specialize (H f0 Hf). destruct (F f0 l Sv) as (r0 & E & E'). rewrite E in H. injection H as <- _. exact E'. }
  split; apply X; intros k l Sv; [now apply sr_covariance|now apply sr_correlation].
Qed.
End LaterCov.
