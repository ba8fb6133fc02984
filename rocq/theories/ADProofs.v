(** Gradients of the specification are the partial derivatives of plain evaluation. *)
From Coq Require Import ZArith List Bool Reals Lra Lia.
From Coquelicot Require Import Coquelicot.
From Flocq Require Import Core.
From Verif Require Import Base Heap Affine Ops UMath NumR HeapSpec HeapProofs DenProofs Machine Spec
  Refine Plain Regular DiffProofs.
Import ListNotations.
Local Open Scope R_scope.

Lemma nth_error_ext : forall A (l l' : list A),
  (forall k, nth_error l k = nth_error l' k) -> l = l'.
Proof.
  induction l as [|a l IH]; intros [|b l'] H; auto.
  - specialize (H 0%nat). discriminate.
  - specialize (H 0%nat). discriminate.
  - pose proof (H 0%nat) as H0. injection H0; intros ->. f_equal. apply IH.
    intros k. exact (H (S k)).
Qed.

Section AD.
Context {g lg : R -> R}.
Notation RN := (ROps g lg).
Notation pentry := (pentry (N:=RN)).
Notation pstate := (pstate (N:=RN)).
Variable n : nat.           (* number of variables *)
Variable x0 : nat -> R.

Definition near (P : (nat -> R) -> Prop) : Prop :=
  exists d, 0 < d /\ forall x, nrm n (fun i => x i - x0 i) < d -> P x.
Lemma near_true : forall P : (nat -> R) -> Prop, (forall x, P x) -> near P.
Proof. intros P H. exists 1. split; [lra|auto]. Qed.
Lemma near_and : forall P Q, near P -> near Q -> near (fun x => P x /\ Q x).
Proof.
  intros P Q (d & Pd & H) (d' & Pd' & H'). exists (Rmin d d'). split; [now apply Rmin_glb_lt|].
  intros x Hx. pose proof (Rmin_l d d'). pose proof (Rmin_r d d'). split; [apply H|apply H']; lra.
Qed.
Lemma near_impl : forall P Q : (nat -> R) -> Prop, (forall x, P x -> Q x) -> near P -> near Q.
Proof. intros P Q I (d & Pd & H). exists d. split; auto. Qed.
Lemma near_all : forall (P : nat -> (nat -> R) -> Prop) m,
  (forall j, (j < m)%nat -> near (P j)) -> near (fun x => forall j, (j < m)%nat -> P j x).
Proof.
  intros P m. induction m as [|m IH]; intros H.
  - apply near_true. intros; lia.
  - apply near_impl with (fun x => (forall j, (j < m)%nat -> P j x) /\ P m x).
    + intros x [A B] j Hj. destruct (Nat.eq_dec j m) as [->|]; auto. apply A. lia.
    + apply near_and; auto.
Qed.
Lemma nrm_x0 : nrm n (fun i => x0 i - x0 i) = 0.
Proof.
  unfold nrm. apply Rsum_zero. intros r Hr. apply in_map_iff in Hr.
  destruct Hr as (i & <- & _). replace (x0 i - x0 i) with 0 by lra. apply Rabs_R0.
Qed.
Lemma near_here : forall P : (nat -> R) -> Prop, near P -> P x0.
Proof. intros P (d & Pd & H). apply H. now rewrite nrm_x0. Qed.
Lemma fdiff_near : forall F gr, fdiff n F x0 gr -> near (fun x => exists y, F x = Some y).
Proof.
  intros F gr (y0 & _ & D). destruct (D 1) as (d & Pd & B); [lra|]. exists d. split; auto.
  intros x Hx. destruct (B x Hx) as (y & Ey & _). eauto.
Qed.

Lemma fdiff_const : forall c gr, (forall v, (v < n)%nat -> gr v = 0) ->
  fdiff n (fun _ => Some c) x0 gr.
Proof.
  intros c gr Z. exists c. split; auto. intros eps He. exists 1. split; [lra|]. intros x _.
  exists c. split; auto. unfold dot. rewrite (Rsum_zero _).
  - replace (c - c - 0) with 0 by lra. rewrite Rabs_R0. apply Rmult_le_pos; [lra|apply nrm_nonneg].
  - intros r Hr. apply in_map_iff in Hr. destruct Hr as (i & <- & Hi). apply in_seq in Hi.
    rewrite Z by lia. ring.
Qed.

(** Nominal value and dependence of a specification value. *)
Definition pe (a : sval g lg) : pentry := (snom a, is_suf a).

(** Value of entry [j] that depends on a variable. *)
Definition evl (e : option pentry) : option R :=
  match e with Some (PNum (PF y), true) => Some y | _ => None end.
Definition ev (ps : pstate) (j : nat) : option R := evl (nth_error (p_env ps) j).

Definition goodval (a : sval g lg) (e : (nat -> R) -> option pentry) : Prop :=
  match a with
  | SPlain p => near (fun x => e x = Some (p, false))
  | SUF y gr _ _ => fdiff n (fun x => evl (e x)) x0 gr /\ evl (e x0) = Some y
  end.

Record inv (ss : sstate g lg) (psf : (nat -> R) -> pstate) : Prop := {
  iv_nv : forall x, p_nv (psf x) = length (ss_vars ss);
  iv_len : forall x, length (p_env (psf x)) = length (ss_env ss);
  iv_val : forall j a, nth_error (ss_env ss) j = Some a ->
             goodval a (fun x => nth_error (p_env (psf x)) j)
}.

Definition agrees (ss : sstate g lg) (psf : (nat -> R) -> pstate) (x : nat -> R) : Prop :=
  forall j p, nth_error (ss_env ss) j = Some (SPlain p) ->
  nth_error (p_env (psf x)) j = Some (p, false).

Lemma inv_agrees : forall ss psf, inv ss psf -> near (agrees ss psf).
Proof.
  intros ss psf I.
  apply near_impl with (fun x => forall j, (j < length (ss_env ss))%nat -> forall p,
     nth_error (ss_env ss) j = Some (SPlain p) -> nth_error (p_env (psf x)) j = Some (p, false)).
  - intros x H j p E. apply H; auto. apply nth_error_Some. congruence.
  - apply near_all. intros j Hj. destruct (nth_error (ss_env ss) j) as [a|] eqn:E.
    + pose proof (iv_val _ _ I j a E) as V. destruct a as [p|]; simpl in V.
      * eapply near_impl; [|exact V]. simpl. intros x Hx p' Ep. congruence.
      * apply near_true. intros; congruence.
    + apply near_true. intros; congruence.
Qed.

Lemma evl_inv : forall e y, evl e = Some y -> e = Some (PNum (PF (N:=RN) y), true).
Proof.
  intros [[[p| | |] [|]]|] y E; simpl in E; try discriminate; destruct p; simpl in E;
    try discriminate. injection E; intros ->. reflexivity.
Qed.

Lemma inv_at_x0 : forall ss psf, inv ss psf -> p_env (psf x0) = map pe (ss_env ss).
Proof.
  intros ss psf I. apply nth_error_ext. intros j. rewrite nth_error_map.
  destruct (nth_error (ss_env ss) j) as [a|] eqn:E; simpl.
  - pose proof (iv_val _ _ I j a E) as V. destruct a as [p|y gr ds var]; simpl in V.
    + exact (near_here _ V).
    + destruct V as [_ V]. apply evl_inv in V. exact V.
  - apply nth_error_None. rewrite (iv_len _ _ I). now apply nth_error_None.
Qed.

(** ** Arguments *)
Lemma pargs_fill : forall ss psf x is a off z, agrees ss psf x ->
  sargs (ss_env ss) is = Some a ->
  (forall k i b, nth_error is k = Some i -> nth_error a k = Some b -> is_suf b = true ->
     ev (psf x) i = Some (z (off + k)%nat)) ->
  exists l, pargs (p_env (psf x)) is = Some l /\ map fst l = fillp off (map pe a) z /\
            map snd l = map is_suf a.
Proof.
  intros ss psf x is. induction is as [|i is IH]; intros a off z G E H; simpl in E.
  - injection E; intros; subst. exists []. auto.
  - destruct (nth_error (ss_env ss) i) as [b|] eqn:Eb; [|discriminate].
    destruct (sargs (ss_env ss) is) as [a'|] eqn:Ea; [|discriminate].
    injection E; intros; subst a. clear E.
    destruct (IH a' (S off) z G eq_refl) as (l & El & F1 & F2).
    { intros k i' b' Ei Ea' Sb'. rewrite (H (S k) i' b'); auto. f_equal. f_equal. lia. }
    simpl. destruct b as [p|y gr ds var].
    + rewrite (G _ _ Eb), El. eexists; split; [reflexivity|]. simpl. rewrite F1, F2. auto.
    + specialize (H 0%nat i _ eq_refl eq_refl eq_refl). unfold ev in H.
      apply evl_inv in H. rewrite Nat.add_0_r in H. rewrite H, El.
      eexists; split; [reflexivity|]. simpl. rewrite F1, F2. auto.
Qed.

Lemma pkwargs_fill : forall ss psf x ks a off z, agrees ss psf x ->
  skwargs (ss_env ss) ks = Some a ->
  (forall k q i r b, nth_error ks k = Some (q, i) -> nth_error a k = Some (r, b) ->
     is_suf b = true -> ev (psf x) i = Some (z (off + k)%nat)) ->
  exists l, pkwargs (p_env (psf x)) ks = Some l /\
    kw_plain l = fillk off (map (fun p => (fst p, pe (snd p))) a) z /\
    map (fun p => snd (snd p)) l = map (fun p => is_suf (snd p)) a.
Proof.
  intros ss psf x ks. induction ks as [|[q i] ks IH]; intros a off z G E H; simpl in E.
  - injection E; intros; subst. exists []. auto.
  - destruct (nth_error (ss_env ss) i) as [b|] eqn:Eb; [|discriminate].
    destruct (skwargs (ss_env ss) ks) as [a'|] eqn:Ea; [|discriminate].
    injection E; intros; subst a. clear E.
    destruct (IH a' (S off) z G eq_refl) as (l & El & F1 & F2).
    { intros k q' i' r' b' Ei Ea' Sb'. rewrite (H (S k) q' i' r' b'); auto. f_equal. f_equal. lia. }
    simpl. destruct b as [p|y gr ds var].
    + rewrite (G _ _ Eb), El. eexists; split; [reflexivity|].
      unfold kw_plain in *. simpl. rewrite F1, F2. auto.
    + specialize (H 0%nat q i _ _ eq_refl eq_refl eq_refl). unfold ev in H.
      apply evl_inv in H. rewrite Nat.add_0_r in H. rewrite H, El.
      eexists; split; [reflexivity|]. unfold kw_plain in *. simpl. rewrite F1, F2. auto.
Qed.

Lemma sargs_nth : forall env is (a : list (sval g lg)) k b, sargs env is = Some a ->
  nth_error a k = Some b -> exists i, nth_error is k = Some i /\ nth_error env i = Some b.
Proof.
  intros env is. induction is as [|i is IH]; intros a k b E H; simpl in E.
  - injection E; intros; subst. destruct k; discriminate.
  - destruct (nth_error env i) eqn:Ei; [|discriminate].
    destruct (sargs env is) eqn:Ea; [|discriminate]. injection E; intros; subst.
    destruct k; simpl in *; eauto. injection H; intros; subst. eauto.
Qed.
Lemma skwargs_nth : forall env ks (a : list (nat * sval g lg)) k q b, skwargs env ks = Some a ->
  nth_error a k = Some (q, b) -> exists i, nth_error ks k = Some (q, i) /\ nth_error env i = Some b.
Proof.
  intros env ks. induction ks as [|[q0 i] ks IH]; intros a k q b E H; simpl in E.
  - injection E; intros; subst. destruct k; discriminate.
  - destruct (nth_error env i) eqn:Ei; [|discriminate].
    destruct (skwargs env ks) eqn:Ea; [|discriminate]. injection E; intros; subst.
    destruct k; simpl in *; eauto. injection H; intros; subst. eauto.
Qed.
Lemma sargs_len : forall env is (a : list (sval g lg)), sargs env is = Some a -> length a = length is.
Proof.
  intros env is. induction is as [|i is IH]; intros a E; simpl in E.
  - injection E; intros; subst; auto.
  - destruct (nth_error env i); [|discriminate]. destruct (sargs env is); [|discriminate].
    injection E; intros; subst. simpl. f_equal. auto.
Qed.
Lemma skwargs_len : forall env ks (a : list (nat * sval g lg)), skwargs env ks = Some a ->
  length a = length ks.
Proof.
  intros env ks. induction ks as [|[q i] is IH]; intros a E; simpl in E.
  - injection E; intros; subst; auto.
  - destruct (nth_error env i); [|discriminate]. destruct (skwargs env is); [|discriminate].
    injection E; intros; subst. simpl. f_equal. auto.
Qed.

(** ** Coefficients *)
Lemma spos_sum : forall pos av kv (c : nat -> R) rest i t v,
  spos pos i rest av kv = Ok t ->
  (forall k b, nth_error rest k = Some b -> is_suf b = true ->
     exists p, pos (i + k)%nat av kv = Ok p /\ pval p = c (i + k)%nat) ->
  lin_grad (g:=g) (lg:=lg) t v =
  Rsum (map (fun k => c (i + k)%nat * match nth_error rest k with Some b => sgrad b v | None => 0 end)
            (seq 0 (length rest))).
Proof.
  intros pos av kv c rest. induction rest as [|b rest IH]; intros i t v E H; simpl in E.
  - injection E; intros; subst. reflexivity.
  - simpl length. rewrite <- cons_seq, <- seq_shift. simpl map. rewrite map_map.
    assert (IH' : forall t', spos pos (S i) rest av kv = Ok t' -> lin_grad t' v =
       Rsum (map (fun k => c (i + S k)%nat *
          match nth_error rest k with Some b => sgrad b v | None => 0 end) (seq 0 (length rest)))).
    { intros t' E'. rewrite (IH (S i) t' v E').
      - apply Rsum_ext. intros k _. do 2 f_equal. lia.
      - intros k b' Eb Sb'. destruct (H (S k) b' Eb Sb') as (p & P1 & P2). exists p.
        replace (S i + k)%nat with (i + S k)%nat by lia. auto. }
    destruct (is_suf b) eqn:Sb.
    + destruct (H 0%nat b eq_refl Sb) as (p & P1 & P2). rewrite Nat.add_0_r in *.
      rewrite P1 in E. simpl in E.
      destruct (spos pos (S i) rest av kv) as [t'|] eqn:Et; simpl in E; [|discriminate].
      injection E; intros; subst t. unfold lin_grad. simpl.
      specialize (IH' t' eq_refl). unfold lin_grad in IH'. rewrite IH', P2. reflexivity.
    + rewrite (IH' t E). destruct b; [|discriminate]. simpl. lra.
Qed.
Lemma skws_sum : forall kwd av kv (c : nat -> R) rest i t v,
  skws kwd rest av kv = Ok t ->
  (forall k q b, nth_error rest k = Some (q, b) -> is_suf b = true ->
     exists p, kwd q av kv = Ok p /\ pval p = c (i + k)%nat) ->
  lin_grad (g:=g) (lg:=lg) t v =
  Rsum (map (fun k => c (i + k)%nat *
                      match nth_error rest k with Some b => sgrad (snd b) v | None => 0 end)
            (seq 0 (length rest))).
Proof.
  intros kwd av kv c rest. induction rest as [|[q b] rest IH]; intros i t v E H; simpl in E.
  - injection E; intros; subst. reflexivity.
  - simpl length. rewrite <- cons_seq, <- seq_shift. simpl map. rewrite map_map.
    assert (IH' : forall t', skws kwd rest av kv = Ok t' -> lin_grad t' v =
       Rsum (map (fun k => c (i + S k)%nat *
          match nth_error rest k with Some b => sgrad (snd b) v | None => 0 end)
          (seq 0 (length rest)))).
    { intros t' E'. rewrite (IH (S i) t' v E').
      - apply Rsum_ext. intros k _. do 2 f_equal. lia.
      - intros k q' b' Eb Sb'. destruct (H (S k) q' b' Eb Sb') as (p & P1 & P2). exists p.
        replace (S i + k)%nat with (i + S k)%nat by lia. auto. }
    destruct (is_suf b) eqn:Sb.
    + destruct (H 0%nat q b eq_refl Sb) as (p & P1 & P2). rewrite Nat.add_0_r in *.
      rewrite P1 in E. simpl in E.
      destruct (skws kwd rest av kv) as [t'|] eqn:Et; simpl in E; [|discriminate].
      injection E; intros; subst t. unfold lin_grad. simpl.
      specialize (IH' t' eq_refl). unfold lin_grad in IH'. rewrite IH', P2. reflexivity.
    + rewrite (IH' t E). destruct b; [|discriminate]. simpl. lra.
Qed.

Lemma lin_grad_app : forall a b v, lin_grad (g:=g) (lg:=lg) (a ++ b) v = lin_grad a v + lin_grad b v.
Proof. intros. unfold lin_grad. now rewrite map_app, Rsum_app. Qed.

Lemma existsb_map : forall A (f : A -> bool) l, existsb (fun b => b) (map f l) = existsb f l.
Proof. induction l; simpl; auto. now rewrite IHl. Qed.

Lemma any_dep_map : forall l : list pentry, any_dep l = existsb (fun b => b) (map snd l).
Proof. unfold any_dep. induction l; simpl; auto. now rewrite IHl. Qed.

Lemma any_dep_kw : forall l : list (nat * pentry),
  any_dep (map snd l) = existsb (fun b => b) (map (fun p => snd (snd p)) l).
Proof. unfold any_dep. induction l; simpl; auto. now rewrite IHl. Qed.

Lemma enum_pe : forall a : sval g lg, is_suf a = true -> exists y gr ds var,
  a = SUF y gr ds var /\ enum (pe a) = y.
Proof. intros [p|y gr ds var] H; [discriminate|]. repeat eexists. Qed.

Lemma nth_of_nth_error : forall A (l : list A) k d x, nth_error l k = Some x -> nth k l d = x.
Proof. intros. now apply nth_error_nth. Qed.

(** ** Calls *)
Lemma call_good : forall ss psf f pos kwd is ks a kw r, inv ss psf ->
  sargs (ss_env ss) is = Some a -> skwargs (ss_env ss) ks = Some kw ->
  scall f pos kwd a kw = Ok r ->
  (any_dep (map pe a) || any_dep (map snd (map (fun p => (fst p, pe (snd p))) kw)) = true ->
     regular_call f pos kwd (map pe a) (map (fun p => (fst p, pe (snd p))) kw)) ->
  goodval r (fun x => Some (match (match pargs (p_env (psf x)) is, pkwargs (p_env (psf x)) ks with
                                   | Some a, Some k => pcall f a k
                                   | _, _ => Err EUser end)
                            with Ok e => e | Err _ => (POther 0, false) end)).
Proof.
  intros ss psf f pos kwd is ks a kw r I Ea Ek Er Rg.
  set (args := map pe a) in *. set (kws := map (fun p => (fst p, pe (snd p))) kw) in *.
  assert (XD : any_dep args || any_dep (map snd kws) =
               existsb is_suf a || existsb (fun p => is_suf (snd p)) kw).
  { rewrite !any_dep_map. unfold args, kws. rewrite !map_map. simpl.
    now rewrite !existsb_map. }
  assert (AV : map fst args = map snom a) by (unfold args; rewrite map_map; reflexivity).
  assert (KV : kw_plain kws = map (fun p => (fst p, snom (snd p))) kw).
  { unfold kw_plain, kws. rewrite map_map. reflexivity. }
  unfold scall in Er.
  destruct (existsb is_suf a || existsb (fun p => is_suf (snd p)) kw) eqn:X.
  - (* some uncertain argument *)
    rewrite XD in Rg. destruct (Rg eq_refl) as (c & FD & CP & CK). clear Rg.
    rewrite AV, KV in *.
    destruct (f (map snom a) (map (fun p => (fst p, snom (snd p))) kw)) as [fr|] eqn:Ef;
      simpl in Er; [|discriminate].
    (* the result is a number *)
    assert (G0 : fillp 0 args (call_at args kws) = map snom a /\
                 fillk (length args) kws (call_at args kws) =
                 map (fun p => (fst p, snom (snd p))) kw).
    { unfold call_at. split.
      - assert (Q : forall (l : list (sval g lg)) pre post,
          fillp (length pre) (map pe l)
            (fun i => nth i (pre ++ map enum (map pe l) ++ post) 0) = map snom l).
        { induction l as [|b l IH]; intros pre post; simpl; auto.
          specialize (IH (pre ++ [enum (pe b)]) post).
          rewrite app_length in IH. simpl in IH. rewrite Nat.add_1_r in IH.
          rewrite <- app_assoc in IH. simpl in IH.
          destruct b as [p|y gr ds var]; simpl in *.
          - now rewrite IH.
          - rewrite IH. do 3 f_equal. rewrite app_nth2, Nat.sub_diag; auto. }
        apply (Q a [] (map (fun p => enum (snd p)) kws)).
      - assert (Q : forall (l : list (nat * sval g lg)) pre,
          fillk (length pre) (map (fun p => (fst p, pe (snd p))) l)
            (fun i => nth i (pre ++ map (fun p => enum (snd p))
                                       (map (fun p => (fst p, pe (snd p))) l)) 0) =
          map (fun p => (fst p, snom (snd p))) l).
        { induction l as [|[q b] l IH]; intros pre; simpl; auto.
          specialize (IH (pre ++ [enum (pe b)])).
          rewrite app_length in IH. simpl in IH. rewrite Nat.add_1_r in IH.
          rewrite <- app_assoc in IH. simpl in IH.
          destruct b as [p|y gr ds var]; simpl in *.
          - now rewrite IH.
          - rewrite IH. do 3 f_equal. rewrite app_nth2, Nat.sub_diag; auto. }
        specialize (Q kw (map enum args)). rewrite map_length in Q. exact Q. }
    destruct FD as (y0 & EG0 & FD').
    assert (FD : fdiff (length args + length kws) (callG f args kws) (call_at args kws) c)
      by (exists y0; auto).
    unfold callG in EG0. destruct G0 as [G1 G2]. rewrite G1, G2, Ef in EG0.
    destruct fr as [p| | |]; try discriminate.
    destruct (spos pos 0 a _ _) as [tp|] eqn:Etp; simpl in Er; [|discriminate].
    destruct (skws kwd kw _ _) as [tk|] eqn:Etk; simpl in Er; [|discriminate].
    injection Er; intros; subst r. clear Er.
    assert (LA : length args = length a) by apply map_length.
    assert (LK : length kws = length kw) by apply map_length.
    (* values of the arguments as functions of the variables *)
    set (argval := fun k => if (k <? length a)%nat then nth_error a k
                            else option_map snd (nth_error kw (k - length a))).
    set (argidx := fun k => if (k <? length a)%nat then nth k is 0%nat
                            else snd (nth (k - length a) ks (0%nat, 0%nat))).
    set (Z := fun k x => match argval k with
                         | Some (SUF _ _ _ _) => ev (psf x) (argidx k)
                         | _ => Some (call_at args kws k) end).
    set (gr := fun k v => match argval k with Some b => sgrad b v | None => 0 end).
    assert (AI : forall k b, argval k = Some b -> nth_error (ss_env ss) (argidx k) = Some b).
    { intros k b. unfold argval, argidx. destruct (Nat.ltb_spec k (length a)); intros Hb.
      - destruct (sargs_nth _ _ _ _ _ Ea Hb) as (i & E1 & E2).
        now rewrite (nth_of_nth_error _ _ _ _ _ E1).
      - destruct (nth_error kw (k - length a)) as [[q b']|] eqn:E; simpl in Hb; [|discriminate].
        injection Hb; intros; subst b'.
        destruct (skwargs_nth _ _ _ _ _ _ Ek E) as (i & E1 & E2).
        now rewrite (nth_of_nth_error _ _ _ _ _ E1). }
    assert (CA : forall k y gr ds var, argval k = Some (SUF y gr ds var) -> call_at args kws k = y).
    { intros k y gr0 ds var. unfold argval, call_at.
      destruct (Nat.ltb_spec k (length a)); intros Hb.
      - rewrite app_nth1 by (rewrite map_length; lia).
        apply nth_of_nth_error. unfold args. rewrite map_map, nth_error_map, Hb. reflexivity.
      - rewrite app_nth2 by (rewrite map_length; lia). rewrite map_length, LA.
        apply nth_of_nth_error. unfold kws. rewrite map_map, nth_error_map.
        destruct (nth_error kw (k - length a)) as [[q b']|]; simpl in Hb; [|discriminate].
        injection Hb; intros; subst b'. reflexivity. }
    assert (HZ : forall k, (k < length args + length kws)%nat ->
       fdiff n (Z k) x0 (gr k) /\ Z k x0 = Some (call_at args kws k)).
    { intros k Hk. unfold Z, gr. destruct (argval k) as [[p'|y gr0 ds var]|] eqn:E.
      - split; auto. apply fdiff_const. reflexivity.
      - pose proof (iv_val _ _ I _ _ (AI _ _ E)) as [V1 V2]. split; auto.
        rewrite (CA _ _ _ _ _ E). exact V2.
      - split; auto. apply fdiff_const. reflexivity. }
    simpl goodval.
    match goal with |- fdiff _ ?F _ _ /\ _ => set (H := F) end.
    assert (HH : exists dlt, 0 < dlt /\ forall x z, nrm n (fun i => x i - x0 i) < dlt ->
       (forall k, (k < length args + length kws)%nat -> Z k x = Some (z k)) ->
       H x = callG f args kws z).
    { destruct (inv_agrees ss psf I) as (d & Pd & Ag). exists d. split; auto.
      intros x z Hx Hz. specialize (Ag x Hx).
      destruct (pargs_fill ss psf x is a 0 z Ag Ea) as (l & El & F1 & F2).
      { intros k i b Ei Eb Sb.
        assert (Lk : (k < length a)%nat) by (apply nth_error_Some; congruence).
        specialize (Hz k). unfold Z, argval, argidx in Hz.
        assert (Hlt : (k <? length a)%nat = true) by now apply Nat.ltb_lt.
        rewrite Hlt, Eb in Hz. destruct b; [discriminate|].
        rewrite (nth_of_nth_error _ _ _ _ _ Ei) in Hz. apply Hz. lia. }
      destruct (pkwargs_fill ss psf x ks kw (length args) z Ag Ek) as (lk & Elk & F3 & F4).
      { intros k q i q' b Ei Eb Sb.
        assert (Lk : (k < length kw)%nat) by (apply nth_error_Some; congruence).
        specialize (Hz (length args + k)%nat). unfold Z, argval, argidx in Hz.
        assert (Hlt : (length args + k <? length a)%nat = false) by (apply Nat.ltb_ge; lia).
        rewrite Hlt in Hz. replace (length args + k - length a)%nat with k in Hz by lia.
        rewrite Eb in Hz. simpl in Hz. destruct b; [discriminate|].
        rewrite (nth_of_nth_error _ _ _ _ _ Ei) in Hz. simpl in Hz. apply Hz. lia. }
      unfold H. rewrite El, Elk. unfold pcall.
      replace (any_dep l || any_dep (map snd lk)) with true.
      2:{ rewrite any_dep_map, any_dep_kw, F2, F4, !existsb_map. now rewrite X. }
      rewrite F1, F3. fold args kws. unfold callG, to_float.
      destruct (f (fillp 0 args z) (fillk (length args) kws z)) as [[p1| |k1|]|]; auto. destruct p1; reflexivity. }
    split.
    + eapply fdiff_ext; [|exact (fdiff_comp _ n _ _ c Z gr x0 H FD HZ HH)].
      intros v Hv. cbn beta. rewrite lin_grad_app.
      rewrite (spos_sum pos _ _ c a 0 tp v Etp).
      2:{ intros k b Eb Sb. simpl. destruct (CP k (snom b)) as (q & Q1 & Q2); eauto.
          unfold args. rewrite nth_error_map, Eb. unfold pe; simpl. now rewrite Sb. }
      rewrite (skws_sum kwd _ _ c kw (length a) tk v Etk).
      2:{ intros k q b Eb Sb. destruct (CK k q (snom b)) as (q' & Q1 & Q2).
          - unfold kws. rewrite nth_error_map, Eb. simpl. unfold pe. now rewrite Sb.
          - exists q'. rewrite LA in Q2. auto. }
      rewrite LA, LK, seq_app, map_app, Rsum_app. f_equal.
      * apply Rsum_ext. intros k Hk. apply in_seq in Hk. simpl. unfold gr, argval.
        replace (k <? length a)%nat with true by (symmetry; apply Nat.ltb_lt; lia). reflexivity.
      * simpl. rewrite <- (Nat.add_0_r (length a)) at 1.
        assert (Q : forall s len, seq (length a + s) len = map (fun k => (length a + k)%nat) (seq s len)).
        { intros s len. revert s. induction len; intros s; simpl; auto. f_equal.
          rewrite <- IHlen. f_equal. lia. }
        rewrite Q, map_map. apply Rsum_ext. intros k Hk. unfold gr, argval.
        replace (length a + k <? length a)%nat with false by (symmetry; apply Nat.ltb_ge; lia).
        replace (length a + k - length a)%nat with k by lia.
        destruct (nth_error kw k); reflexivity.
    + change (H x0 = Some (pval p)). destruct HH as (d & Pd & HH).
      rewrite (HH x0 (call_at args kws)).
      * unfold callG. rewrite G1, G2, Ef. reflexivity.
      * rewrite nrm_x0. exact Pd.
      * intros k Hk. apply HZ. exact Hk.
  - (* no uncertain argument *)
    destruct (f (map snom a) _) as [fr|] eqn:Ef; simpl in Er; [|discriminate].
    injection Er; intros; subst r. simpl.
    eapply near_impl; [|exact (inv_agrees ss psf I)]. intros x Ag.
    apply orb_false_iff in X. destruct X as [X1 X2].
    destruct (pargs_fill ss psf x is a 0 (fun _ => 0) Ag Ea) as (l & El & F1 & F2).
    { intros k i b Ei Eb Sb. exfalso. 
      assert (existsb is_suf a = true); [|congruence].
      apply existsb_exists. exists b. split; auto. eapply nth_error_In; eauto. }
    destruct (pkwargs_fill ss psf x ks kw 0 (fun _ => 0) Ag Ek) as (lk & Elk & F3 & F4).
    { intros k q i q' b Ei Eb Sb. exfalso.
      assert (existsb (fun p => is_suf (snd p)) kw = true); [|congruence].
      apply existsb_exists. exists (q', b). split; auto. eapply nth_error_In; eauto. }
    assert (Q1 : forall off (l : list (sval g lg)), existsb is_suf l = false ->
       fillp off (map pe l) (fun _ => 0) = map snom l).
    { clear. intros off l. revert off. induction l as [|b l IH]; simpl; intros off H; auto.
      destruct b; simpl in *; [|discriminate]. now rewrite IH. }
    assert (Q2 : forall off (l : list (nat * sval g lg)),
       existsb (fun p => is_suf (snd p)) l = false ->
       fillk off (map (fun p => (fst p, pe (snd p))) l) (fun _ => 0) =
       map (fun p => (fst p, snom (snd p))) l).
    { clear. intros off l. revert off. induction l as [|[q b] l IH]; simpl; intros off H; auto.
      destruct b; simpl in *; [|discriminate]. now rewrite IH. }
    rewrite El, Elk. unfold pcall. rewrite F1, F3, Q1, Q2, Ef by auto.
    replace (any_dep l || any_dep (map snd lk)) with false; auto.
    rewrite any_dep_map, any_dep_kw, F2, F4, !existsb_map. now rewrite X1, X2.
Qed.

End AD.
