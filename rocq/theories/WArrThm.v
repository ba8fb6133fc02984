(** Functions of arrays wrapped by wrap_array_func(): numerical derivatives. *)
From Coq Require Import ZArith List Bool Reals Lra Lia Arith Permutation.
From Coquelicot Require Import Coquelicot.
From Verif Require Import Base Heap Affine Ops UMath NumR HeapSpec HeapProofs DenProofs Machine Spec
  Refine RefineStep CovConv Unumpy History CovSpec UnumpySpec MatrixSpec CovProofs ArrProofs MxProofs InvConv HistoryProofs
  ChainProofs InvThm NumDeriv.
Import ListNotations.
Local Open Scope R_scope.

Section WArrThm.
Context {g lg : R -> R}.
Notation RN := (ROps g lg).
Notation state := (state RN).

(** ** Arrays of floats *)
Definition zip (f : R -> R -> R) (l l' : list R) : list R := map (fun p => f (fst p) (snd p)) (combine l l').
Lemma all_some_Some : forall A (l : list A), all_some (map Some l) = Some l.
Proof. induction l as [|x l IH]; cbn; auto. now rewrite IH. Qed.
Lemma nth_error_combine : forall A B (l : list A) (l' : list B) k x y, nth_error l k = Some x -> nth_error l' k = Some y ->
  nth_error (combine l l') k = Some (x, y).
Proof.
  induction l as [|a l IH]; intros [|b l'] [|k] x y H H'; cbn in *; try discriminate; [congruence|auto].
Qed.
Lemma aop_same : forall f (a b : arr R), wf_arr a -> wf_arr b -> a_shape b = a_shape a ->
  aop (N:=RN) f a b = Ok (mkArr (cls_max (a_cls a) (a_cls b)) (a_shape a) (zip f (a_flat a) (a_flat b))).
Proof.
  intros f a b Wa Wb E. unfold aop. change (a_shape (A:=num RN)) with (a_shape (A:=R)). rewrite E, broadcast_same.
  assert (L : length (zip f (a_flat a) (a_flat b)) = count (a_shape a)).
  { unfold zip. rewrite map_length, combine_length. unfold wf_arr in *. rewrite Wa, Wb, E. apply Nat.min_id. }
  rewrite (map_ext_in _ (fun idx => nth_error (zip f (a_flat a) (a_flat b)) (UnumpySpec.rank (a_shape a) idx))).
  - rewrite (map_nth_indices _ _ _ L), all_some_Some. reflexivity.
  - intros idx I. apply indices_valid in I. pose proof (rank_lt _ _ I) as Lt.
    assert (Va : valid (a_shape a) idx) by exact I.
    assert (Vb : valid (a_shape b) idx) by (rewrite E; exact I).
    change (bget (A:=num RN)) with (bget (A:=R)). rewrite (bget_self _ a idx Va), (bget_self _ b idx Vb). unfold elem. rewrite E.
    destruct (nth_error (a_flat a) (UnumpySpec.rank (a_shape a) idx)) as [x|] eqn:Ex.
    2:{ apply nth_error_None in Ex. unfold wf_arr in Wa. pose proof (size_count (a_shape a)). lia. }
    destruct (nth_error (a_flat b) (UnumpySpec.rank (a_shape a) idx)) as [y|] eqn:Ey.
    2:{ apply nth_error_None in Ey. unfold wf_arr in Wb. pose proof (size_count (a_shape b)). rewrite E in *. lia. }
    symmetry. exact (map_nth_error (fun p => f (fst p) (snd p)) _ _ (nth_error_combine _ _ _ _ _ _ _ Ex Ey)).
Qed.
Lemma div_ok : forall x y, y <> 0 -> n_div RN x y = Ok (x / y).
Proof. intros x y H. cbn. unfold Rdiv_py, Reqb. destruct (Req_EM_T y 0); [contradiction|reflexivity]. Qed.
Lemma adiv_ok : forall (a : arr R) x, x <> 0 ->
  adiv (N:=RN) a x = Ok (mkArr (a_cls a) (a_shape a) (map (fun y => y / x) (a_flat a))).
Proof.
  intros [c sh l] x Nx. unfold adiv. cbn [a_cls a_shape a_flat].
  assert (Q : rmap (A:=num RN) (B:=num RN) (fun y => n_div RN y x) l = Ok (map (fun y => y / x) l)).
  { induction l as [|y l IH]; cbn [rmap map]; [reflexivity|].
    assert (D : n_div RN y x = Ok (y / x)). { now apply div_ok. }
    rewrite D. cbn [rbind]. unfold num in *. cbn [ROps] in *. rewrite IH. reflexivity. }
  rewrite Q. reflexivity.
Qed.
Lemma zip_moved : forall t D A, zip Rplus A (map (fun x => x * t) D) = moved A D t.
Proof.
  intros t D. unfold zip, moved. induction D as [|d D IH]; intros [|a A]; cbn; auto. f_equal; [lra|apply IH].
Qed.
Lemma zip_quotients : forall t B A, map (fun y => y / t) (zip Rminus B A) = quotients t A B.
Proof.
  intros t. unfold zip, quotients. induction B as [|b B IH]; intros [|a A]; cbn; auto. f_equal. apply IH.
Qed.
Lemma moved_length : forall A D t, length D = length A -> length (moved A D t) = length A.
Proof. intros. unfold moved. rewrite map_length, combine_length. lia. Qed.
Lemma moved_zero : forall A D t, length D = length A -> (forall x, In x D -> x = 0) -> moved A D t = A.
Proof.
  intros A D t. revert D. unfold moved. induction A as [|a A IH]; intros [|d D] L Z; cbn in *; try discriminate; auto.
  rewrite (Z d) by auto. f_equal; [lra|]. apply IH; auto.
Qed.

Lemma shift_ok : forall o : varobj RN, exists t, shift_var o = Ok t /\ step_for (v_nom o) (v_std o) t.
Proof.
  intros o. unfold shift_var.
  assert (D8 : n_divZ RN 1 100000000 = Ok (1 / 100000000)) by (cbn; unfold Rdiv_py, Reqb; destruct (Req_EM_T 100000000 0); [lra|reflexivity]).
  change (n_of_Z RN 100000) with (Ok (A:=R) 100000). cbn [rbind]. rewrite D8. cbn [rbind].
  rewrite (div_ok (v_std o) 100000) by lra. cbn [rbind].
  assert (Q : (if n_lt RN (v_std o / 100000) (n_mul RN (1 / 100000000) (n_abs RN (v_nom o)))
               then n_mul RN (1 / 100000000) (n_abs RN (v_nom o)) else v_std o / 100000) =
              Rmax (v_std o / 100000) (Rabs (v_nom o) / 100000000)).
  { cbn. replace (1 / 100000000 * Rabs (v_nom o)) with (Rabs (v_nom o) / 100000000) by lra.
    unfold Rltb. destruct (Rlt_dec _ _); [rewrite Rmax_right|rewrite Rmax_left]; lra. }
  rewrite Q. eexists. split; [reflexivity|]. unfold step_for. rewrite nonzero_R.
  destruct (Req_EM_T _ 0); split; intros; auto; contradiction.
Qed.
Lemma step_unique : forall n s t t', step_for n s t -> step_for n s t' -> t = t'.
Proof.
  intros n s t t' [H1 H2] [H1' H2']. destruct (Req_EM_T (Rmax (s / 100000) (Rabs n / 100000000)) 0); [rewrite H2, H2'|rewrite H1, H1']; auto.
Qed.
Lemma step_pos : forall n s t, step_for n s t -> 0 < t.
Proof.
  intros n s t [H1 H2]. pose proof (Rmax_r (s / 100000) (Rabs n / 100000000)). pose proof (Rabs_pos n).
  destruct (Req_EM_T (Rmax (s / 100000) (Rabs n / 100000000)) 0) as [E|E]; [rewrite H2; lra|]. rewrite H1 by auto. lra.
Qed.

Lemma numerical_ok : forall f (nom val : arr R) (o : varobj RN) da sh sh' F t,
  computes f sh sh' F -> wf_arr nom -> a_shape nom = sh -> wf_arr da -> a_shape da = sh -> wf_arr val -> a_shape val = sh' ->
  a_flat val = F (a_flat nom) -> step_for (v_nom o) (v_std o) t ->
  (forall c, numerical_deriv (N:=RN) f nom val o da = Ok c ->
     a_flat c = quotients t (F (a_flat nom)) (F (moved (a_flat nom) (a_flat da) t))) /\
  ((forall a, wf_arr a -> a_shape a = sh -> exists b, f a = Ok b) -> exists c, numerical_deriv (N:=RN) f nom val o da = Ok c).
Proof.
  intros f nom val o da sh sh' F t HF Wn En Wd Ed Wv Ev Fv St.
  destruct (shift_ok o) as (t0 & E0 & S0). assert (t0 = t) by (eapply step_unique; eauto). subst t0. clear S0.
  pose proof (step_pos _ _ _ St) as Tp. unfold numerical_deriv. rewrite E0. cbn [rbind].
  set (sda := amap (fun x => n_mul RN x t) da).
  assert (Ws : wf_arr sda) by (unfold wf_arr in *; cbn; rewrite map_length; exact Wd).
  rewrite (aop_same (n_add RN) nom sda Wn Ws (eq_trans Ed (eq_sym En))). cbn [rbind].
  set (sh1 := mkArr _ (a_shape nom) _).
  assert (F1 : a_flat sh1 = moved (a_flat nom) (a_flat da) t) by (cbn; apply zip_moved).
  assert (L : length (a_flat da) = length (a_flat nom)).
  { unfold wf_arr in *. rewrite Wn, Wd, En, Ed. reflexivity. }
  assert (W1 : wf_arr sh1).
  { unfold wf_arr. rewrite F1, moved_length by exact L. exact Wn. }
  split.
  - intros c E. destruct (f sh1) as [fs|e] eqn:Ef; [|discriminate E].
    destruct (HF sh1 fs W1 En Ef) as (Wf & Sf & Ff).
    assert (E' : rbind (aop (N:=RN) (n_sub RN) fs val) (fun d => adiv (N:=RN) d t) = Ok c) by exact E. clear E.
    rewrite (aop_same (n_sub RN) fs val Wf Wv) in E' by congruence. cbn [rbind] in E'.
    rewrite adiv_ok in E' by lra. injection E'; intros <-. cbn [a_flat]. rewrite Ff, Fv, F1.
    exact (zip_quotients t (F (moved (a_flat nom) (a_flat da) t)) (F (a_flat nom))).
  - intros Ht. destruct (Ht sh1 W1 En) as [fs Ef]. destruct (HF sh1 fs W1 En Ef) as (Wf & Sf & Ff).
    assert (Q : exists c, rbind (aop (N:=RN) (n_sub RN) fs val) (fun d => adiv (N:=RN) d t) = Ok c).
    { rewrite (aop_same (n_sub RN) fs val Wf Wv) by congruence. cbn [rbind]. rewrite adiv_ok by lra. eauto. }
    destruct Q as [c Q]. exists c. rewrite Ef. exact Q.
Qed.

(** ** The results *)
Lemma Forall2_nth_intro : forall A B (P : A -> B -> Prop) l l', length l' = length l ->
  (forall k x y, nth_error l k = Some x -> nth_error l' k = Some y -> P x y) -> Forall2 P l l'.
Proof.
  induction l as [|a l IH]; intros [|b l'] L H; cbn in L; try discriminate; constructor.
  - apply (H 0%nat); reflexivity.
  - apply IH; [lia|]. intros k x y Hx Hy. apply (H (S k)); auto.
Qed.
Lemma Forall2_nth_elim : forall A B (P : A -> B -> Prop) l l', Forall2 P l l' ->
  length l' = length l /\ forall k x y, nth_error l k = Some x -> nth_error l' k = Some y -> P x y.
Proof.
  induction 1 as [|a b l l' H F [L IH]]; split; cbn; auto.
  - intros [|k]; discriminate.
  - intros [|k] x y Hx Hy; cbn in *; [congruence|eauto].
Qed.
Lemma list_ext : forall A (l l' : list A), length l' = length l ->
  (forall k x y, nth_error l k = Some x -> nth_error l' k = Some y -> x = y) -> l = l'.
Proof.
  induction l as [|a l IH]; intros [|b l'] L H; cbn in L; try discriminate; auto. f_equal.
  - apply (H 0%nat); reflexivity.
  - apply IH; [lia|]. intros k x y Hx Hy. apply (H (S k)); auto.
Qed.
Lemma nth_some : forall A (l : list A) k, (k < length l)%nat -> exists x, nth_error l k = Some x.
Proof. intros A l k L. destruct (nth_error l k) eqn:E; [eauto|]. apply nth_error_None in E. lia. Qed.
Lemma nominal_is : forall F (st st' : state) ia ir A val D dv l, facts F st st' ia ir A val D dv -> nominal_list st ia l -> a_flat A = l.
Proof.
  intros F st st' ia ir A val D dv l H N. destruct (Forall2_nth_elim _ _ _ _ _ N) as [L Hl].
  apply list_ext; [rewrite (fa_len _ _ _ _ _ _ _ _ _ H); exact L|]. intros k x y Hx Hy.
  destruct (nth_some _ (a_flat ia) k) as [i Hi]. { rewrite <- L. apply nth_error_Some. congruence. }
  destruct (fa_nom _ _ _ _ _ _ _ _ _ H _ _ _ Hi Hx) as (p & Hp & <-). destruct (Hl _ _ _ Hi Hy) as (q & Hq & <-).
  f_equal. eapply has_nominal_unique; eauto.
Qed.
Lemma derivs_is : forall F (st st' : state) ia ir A val D dv l v, facts F st st' ia ir A val D dv -> deriv_list st ia v l -> a_flat (D v) = l.
Proof.
  intros F st st' ia ir A val D dv l v H N. destruct (Forall2_nth_elim _ _ _ _ _ N) as [L Hl].
  apply list_ext; [rewrite (fa_dlen _ _ _ _ _ _ _ _ _ H v); exact L|]. intros k x y Hx Hy.
  destruct (nth_some _ (a_flat ia) k) as [i Hi]. { rewrite <- L. apply nth_error_Some. congruence. }
  eapply deriv_is_unique; [exact (fa_deriv _ _ _ _ _ _ _ _ _ H v _ _ _ Hi Hx)|exact (Hl _ _ _ Hi Hy)].
Qed.

Theorem wrapped_result : forall f order (st st' : state) ia ir sh' F A,
  reachable st -> (forall l, Permutation (order l) l) -> computes f (a_shape ia) sh' F -> nominal_list st ia A ->
  array_call (wrap_array_func (N:=RN) order f) st ia (Ok ir) st' ->
  a_shape ir = sh' /\ nominal_list st' ir (F A) /\
  forall v o D t, get_var (st_heap st) v = Some o -> step_for (v_nom o) (v_std o) t -> deriv_list st ia v D ->
    0 < t /\ deriv_list st' ir v (quotients t (F A) (F (moved A D t))) /\
    (forall k i x, nth_error (a_flat ir) k = Some i -> nth_error (quotients t (F A) (F (moved A D t))) k = Some x ->
       (depends st' i v <-> x <> 0)).
Proof.
  intros f order st st' ia ir sh' F A Re P HF HA C.
  assert (W : wf_arr ia) by (destruct C as (a & k & W & _); exact W).
  destruct (call_facts _ _ st ia ir st' Re (wrapped_conv order f P) C) as (A0 & val & D0 & dv & H).
  pose proof (nominal_is _ _ _ _ _ _ _ _ _ _ H HA) as EA.
  pose proof (fa_shape _ _ _ _ _ _ _ _ _ H) as SA.
  assert (WA : wf_arr A0). { unfold wf_arr in *. rewrite (fa_len _ _ _ _ _ _ _ _ _ H), SA. exact W. }
  destruct (fa_val _ _ _ _ _ _ _ _ _ H) as [c Hv].
  destruct (HF A0 (with_cls c val) WA SA Hv) as (Wv & Sv & Fv). cbn [with_cls a_shape a_flat] in Sv, Fv.
  assert (Wv' : wf_arr val) by exact Wv. clear Wv. rewrite EA in Fv.
  pose proof (fa_rshape _ _ _ _ _ _ _ _ _ H) as Sr. pose proof (fa_rlen _ _ _ _ _ _ _ _ _ H) as Lr.
  split; [congruence|]. split.
  { apply Forall2_nth_intro; [rewrite <- Fv; auto|]. intros k i x Hi Hx. rewrite <- Fv in Hx.
    exists (PF (N:=RN) x). split; [|reflexivity]. exact (fa_rnom _ _ _ _ _ _ _ _ _ H _ _ _ Hi Hx). }
  intros v o D t Ho Ht HD. split; [eapply step_pos; eauto|].
  pose proof (derivs_is _ _ _ _ _ _ _ _ _ _ v H HD) as ED.
  assert (LD : length D = length A).
  { destruct (Forall2_nth_elim _ _ _ _ _ HD) as [L _]. destruct (Forall2_nth_elim _ _ _ _ _ HA) as [L' _]. congruence. }
  destruct (fa_rderiv _ _ _ _ _ _ _ _ _ H v) as [[Z N]|(U & Ed & N)].
  - rewrite ED in Z. rewrite (moved_zero A D t LD Z).
    assert (G : forall l k x, nth_error (quotients t l l) k = Some x -> x = 0).
    { intros l. unfold quotients. induction l as [|y l IH]; intros [|k] x E; cbn in E; try discriminate; [|eauto].
      injection E; intros <-. unfold Rdiv. rewrite Rminus_eq_0. ring. }
    assert (Lq : length (quotients t (F A) (F A)) = length (a_flat ir)).
    { unfold quotients. rewrite map_length, combine_length, Nat.min_id, <- Fv. auto. }
    split.
    + apply Forall2_nth_intro; [exact Lq|]. intros k i x Hi Hx. rewrite (G _ _ _ Hx). apply N. eapply nth_error_In; eauto.
    + intros k i x Hi Hx. rewrite (G _ _ _ Hx). split; [|lra]. intros Dp. exfalso. eapply N; eauto. eapply nth_error_In; eauto.
  - cbn [of_func af_deriv] in Ed. unfold get_var in Ho. rewrite Ho in Ed.
    assert (WD : wf_arr (D0 v)). { unfold wf_arr in *. rewrite (fa_dlen _ _ _ _ _ _ _ _ _ H), (fa_dshape _ _ _ _ _ _ _ _ _ H). exact W. }
    destruct (numerical_ok f A0 val o (D0 v) (a_shape ia) sh' F t HF WA SA WD (fa_dshape _ _ _ _ _ _ _ _ _ H v) Wv' Sv
                (eq_trans Fv (f_equal F (eq_sym EA))) Ht) as [Q _].
    assert (Q' : a_flat (dv v) = quotients t (F A) (F (moved A D t))) by (rewrite <- EA, <- ED; exact (Q _ Ed)).
    clear Q. rename Q' into Q.
    assert (Lq : length (quotients t (F A) (F (moved A D t))) = length (a_flat ir)).
    { unfold quotients. rewrite map_length, combine_length.
      (* the shifted value has the same shape *)
      assert (L2 : length (F (moved A D t)) = length (F A)).
      { destruct (shift_ok o) as (t0 & E0 & S0). assert (t0 = t) by (eapply step_unique; eauto). subst t0.
        unfold numerical_deriv in Ed. rewrite E0 in Ed. cbn [rbind] in Ed.
        set (sda := amap (fun x => n_mul RN x t) (D0 v)) in Ed.
        assert (Ws : wf_arr sda) by (unfold wf_arr in *; cbn; rewrite map_length; exact WD).
        rewrite (aop_same (n_add RN) A0 sda WA Ws (eq_trans (fa_dshape _ _ _ _ _ _ _ _ _ H v) (eq_sym SA))) in Ed. cbn [rbind] in Ed.
        set (sh1 := mkArr _ (a_shape A0) _) in Ed.
        assert (F1 : a_flat sh1 = moved A D t) by (cbn; rewrite <- EA, <- ED; apply zip_moved).
        assert (W1 : wf_arr sh1).
        { unfold wf_arr. rewrite F1, moved_length, <- EA by exact LD. exact WA. }
        destruct (f sh1) as [fs|e] eqn:Ef; [|discriminate Ed]. destruct (HF sh1 fs W1 SA Ef) as (Wf & Sf & Ff).
        rewrite <- F1, <- Ff, <- Fv. unfold wf_arr in *. rewrite Wf, Wv', Sf, Sv. reflexivity. }
      rewrite L2, Nat.min_id, <- Fv. auto. }
    split.
    + apply Forall2_nth_intro; [exact Lq|]. intros k i x Hi Hx. destruct (N k i Hi) as [N1 _].
      rewrite <- Q in Hx. apply (nth_error_nth _ _ 0) in Hx. rewrite <- Hx. exact N1.
    + intros k i x Hi Hx. destruct (N k i Hi) as [_ N2]. rewrite <- Q in Hx. apply (nth_error_nth _ _ 0) in Hx. rewrite <- Hx. exact N2.
Qed.

(** Accuracy of the derivatives. *)
Lemma forward_difference : forall (phi phi1 phi2 : R -> R) t M, 0 < t ->
  (forall s, 0 <= s <= t -> is_derive phi s (phi1 s)) -> (forall s, 0 <= s <= t -> is_derive phi1 s (phi2 s)) ->
  (forall s, 0 <= s <= t -> Rabs (phi2 s) <= M) ->
  Rabs ((phi t - phi 0) / t - phi1 0) <= M * t / 2.
Proof.
  intros phi phi1 phi2 t M Tp D1 D2 B.
  assert (E1 : forall s, 0 <= s <= t -> Rabs (phi1 s - phi1 0) <= M * s).
  { apply (bound_of_derive (fun s => phi1 s - phi1 0) phi2 (fun s => M * s) (fun _ => M)); auto; try ring.
    - intros s Hs. evar_last; [apply (is_derive_minus phi1 (fun _ => phi1 0) s (phi2 s) 0); [now apply D2|exact (is_derive_const _ s)]|].
      unfold minus, plus, opp; cbn. ring.
    - intros s Hs. auto_derive; auto. ring. }
  assert (E2 : forall s, 0 <= s <= t -> Rabs (phi s - phi 0 - phi1 0 * s) <= M * s ^ 2 / 2).
  { apply (bound_of_derive (fun s => phi s - phi 0 - phi1 0 * s) (fun s => phi1 s - phi1 0) (fun s => M * s ^ 2 / 2) (fun s => M * s)); auto; try (simpl; lra).
    - intros s Hs. evar_last.
      + apply (is_derive_minus (fun s => phi s - phi 0) (fun s => phi1 0 * s) s (phi1 s) (phi1 0)).
        * evar_last; [apply (is_derive_minus phi (fun _ => phi 0) s (phi1 s) 0); [now apply D1|exact (is_derive_const _ s)]|].
          unfold minus, plus, opp; cbn. ring.
        * auto_derive; auto. ring.
      + unfold minus, plus, opp; cbn. ring.
    - intros s Hs. auto_derive; auto. simpl. field. }
  specialize (E2 t ltac:(lra)).
  replace ((phi t - phi 0) / t - phi1 0) with ((phi t - phi 0 - phi1 0 * t) * / t) by (field; lra).
  rewrite Rabs_mult, (Rabs_pos_eq (/ t)) by (left; now apply Rinv_0_lt_compat).
  replace (M * t / 2) with (M * t ^ 2 / 2 * / t) by (field; lra).
  apply Rmult_le_compat_r; auto. left. now apply Rinv_0_lt_compat.
Qed.
Theorem wrapped_accuracy : forall f order (st st' : state) ia ir sh' F A v o D t k i (phi1 phi2 : R -> R) M,
  reachable st -> (forall l, Permutation (order l) l) -> computes f (a_shape ia) sh' F -> nominal_list st ia A ->
  array_call (wrap_array_func (N:=RN) order f) st ia (Ok ir) st' ->
  get_var (st_heap st) v = Some o -> step_for (v_nom o) (v_std o) t -> deriv_list st ia v D ->
  nth_error (a_flat ir) k = Some i ->
  (forall s, 0 <= s <= t -> is_derive (fun s => nth k (F (moved A D s)) 0) s (phi1 s)) ->
  (forall s, 0 <= s <= t -> is_derive phi1 s (phi2 s)) -> (forall s, 0 <= s <= t -> Rabs (phi2 s) <= M) ->
  exists x, deriv_is st' i v x /\ Rabs (x - phi1 0) <= M * t / 2.
Proof.
  intros f order st st' ia ir sh' F A v o D t k i phi1 phi2 M Re P HF HA C Ho Ht HD Hi D1 D2 B.
  destruct (wrapped_result f order st st' ia ir sh' F A Re P HF HA C) as (_ & HN & HV).
  destruct (HV v o D t Ho Ht HD) as (Tp & HL & _).
  destruct (Forall2_nth_elim _ _ _ _ _ HL) as [L Hl].
  destruct (nth_some _ (quotients t (F A) (F (moved A D t))) k) as [x Hx]. { rewrite L. apply nth_error_Some. congruence. }
  exists x. split; [exact (Hl _ _ _ Hi Hx)|].
  assert (M0 : moved A D 0 = A).
  { assert (LD : length D = length A).
    { destruct (Forall2_nth_elim _ _ _ _ _ HD) as [L1 _]. destruct (Forall2_nth_elim _ _ _ _ _ HA) as [L' _]. congruence. }
    clear -LD. unfold moved. revert D LD. induction A as [|a A IH]; intros [|d D] L; cbn in *; try discriminate; auto.
    f_equal; [lra|]. apply IH. lia. }
  assert (Ex : x = (nth k (F (moved A D t)) 0 - nth k (F A) 0) / t).
  { clear -Hx. unfold quotients in Hx. rewrite nth_error_map in Hx.
    destruct (nth_error (combine (F A) (F (moved A D t))) k) as [[a b]|] eqn:E; [|discriminate]. injection Hx; intros <-. cbn [fst snd].
    assert (G : forall (l l' : list R) k a b, nth_error (combine l l') k = Some (a, b) -> nth k l 0 = a /\ nth k l' 0 = b).
    { clear. induction l as [|x l IH]; intros [|y l'] [|k] a b H; cbn in *; try discriminate; [injection H; auto|auto]. }
    destruct (G _ _ _ _ _ E) as [-> ->]. reflexivity. }
  rewrite Ex. rewrite <- M0 at 2. apply (forward_difference (fun s => nth k (F (moved A D s)) 0) phi1 phi2 t M); auto.
Qed.

(** The calls succeed. *)
Theorem wrapped_returns : forall f order (st : state) ia sh' F A,
  reachable st -> (forall l, Permutation (order l) l) -> wf_arr ia -> computes f (a_shape ia) sh' F ->
  (forall a, wf_arr a -> a_shape a = a_shape ia -> exists b, f a = Ok b) -> count sh' <> 0%nat -> nominal_list st ia A ->
  exists ir st', array_call (wrap_array_func (N:=RN) order f) st ia (Ok ir) st'.
Proof.
  intros f order st ia sh' F A Re P W HF Ht Nz HA.
  apply (call_succeeds _ _ st ia Re (wrapped_conv order f P)); auto.
  - intros k Hk. destruct (Forall2_nth_elim _ _ _ _ _ HA) as [L Hl]. apply In_nth_error in Hk as [j Hj].
    destruct (nth_some _ A j) as [x Hx]. { rewrite L. apply nth_error_Some. congruence. }
    destruct (Hl _ _ _ Hj Hx) as (p & Hp & _). eauto.
  - intros A0 S0 W0 H0. destruct (Ht A0 W0 S0) as [val Hv]. exists val. split; [exact Hv|].
    destruct (HF _ _ W0 S0 Hv) as (Wv & Sv & Fv). intros c v D Ne Hv' SD WD. split.
    + intros E. unfold wf_arr in Wv. rewrite E, Sv in Wv. cbn in Wv. congruence.
    + cbn [of_func af_deriv]. destruct (nth_error (h_var (st_heap st)) v) as [o|] eqn:Eo.
      2:{ apply nth_error_None in Eo. lia. }
      destruct (shift_ok o) as (t & _ & St).
      destruct (numerical_ok f A0 (with_cls c val) o D (a_shape ia) sh' F t HF W0 S0 WD SD Wv Sv Fv St) as [_ Q]. now apply Q.
Qed.
Theorem wrapped_unaffected : forall order f (st st' : state) ia r k ins o o',
  reachable st -> (forall l, Permutation (order l) l) -> array_call (wrap_array_func (N:=RN) order f) st ia r st' ->
  In ins [IDeriv k; IStd k; IErrs k; IBool k] -> (k < length (st_env st))%nat ->
  reads st ins o -> reads st' ins o' -> same_out o o'.
Proof. intros order f st st' ia r k ins o o' Re P. exact (call_unaffected _ _ st st' ia r k ins o o' Re (wrapped_conv order f P)). Qed.
End WArrThm.
