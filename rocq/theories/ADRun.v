(** Derivatives read on the machine are the partial derivatives of plain evaluation. *)
From Coq Require Import ZArith List Bool Reals Lra Lia.
From Coquelicot Require Import Coquelicot.
From Flocq Require Import Core.
From Verif Require Import Base Heap Affine Ops UMath NumR HeapSpec HeapProofs DenProofs Machine Spec
  Refine RefineStep Plain Regular DiffProofs ADProofs.
Import ListNotations.
Local Open Scope R_scope.

Section ADRun.
Context {g lg : R -> R}.
Notation RN := (ROps g lg).
Notation pentry := (pentry (N:=RN)).
Notation pstate := (pstate (N:=RN)).
Variable n : nat.
Variable x0 : nat -> R.
Notation goodval := (goodval (g:=g) (lg:=lg) n x0).
Notation inv := (inv (g:=g) (lg:=lg) n x0).
Notation near := (near n x0).
Notation sval := (sval g lg).

Lemma goodval_ext : forall (a : sval) e e', (forall x, e x = e' x) -> goodval a e -> goodval a e'.
Proof.
  intros [p|y gr ds var] e e' E; simpl.
  - apply near_impl. intros x Hx. now rewrite <- E.
  - intros [H1 H2]. split; [|now rewrite <- E].
    eapply fdiff_local; [|exact H1]. exists 1. split; [lra|]. intros x _. now rewrite E.
Qed.
Lemma goodval_evl : forall y gr ds var e e', (forall x, evl (e x) = evl (e' x)) ->
  goodval (SUF y gr ds var) e -> goodval (SUF y gr ds var) e'.
Proof.
  intros y gr ds var e e' E [H1 H2]. split; [|now rewrite <- E].
  eapply fdiff_local; [|exact H1]. exists 1. split; [lra|]. intros x _. now rewrite E.
Qed.

Lemma inv_push : forall ss psf a (e : (nat -> R) -> res pentry), inv ss psf ->
  goodval a (fun x => Some (match e x with Ok e => e | Err _ => (POther 0, false) end)) ->
  inv (mkS (ss_vars ss) (ss_env ss ++ [a])) (fun x => ppush (psf x) (e x)).
Proof.
  intros ss psf a e I G. constructor; simpl.
  - apply (iv_nv _ _ _ _ I).
  - intros x. rewrite !app_length, (iv_len _ _ _ _ I). reflexivity.
  - intros j b H. destruct (Nat.lt_ge_cases j (length (ss_env ss))) as [L|L].
    + rewrite nth_error_app1 in H by auto.
      eapply goodval_ext; [|exact (iv_val _ _ _ _ I j b H)]. intros x. simpl.
      rewrite nth_error_app1; auto. rewrite (iv_len _ _ _ _ I). exact L.
    + rewrite nth_error_app2 in H by auto.
      destruct (j - length (ss_env ss))%nat as [|k] eqn:J; [|destruct k; discriminate].
      injection H; intros; subst b. eapply goodval_ext; [|exact G]. intros x. simpl.
      rewrite nth_error_app2 by (rewrite (iv_len _ _ _ _ I); auto).
      rewrite (iv_len _ _ _ _ I), J. reflexivity.
Qed.

Lemma pargs_pe : forall (env : list sval) is, pargs (map pe env) is = option_map (map pe) (sargs env is).
Proof.
  induction is as [|i is IH]; simpl; auto. rewrite nth_error_map, IH.
  destruct (nth_error env i); simpl; auto. destruct (sargs env is); auto.
Qed.
Lemma pkwargs_pe : forall (env : list sval) ks, pkwargs (map pe env) ks =
  option_map (map (fun p => (fst p, pe (snd p)))) (skwargs env ks).
Proof.
  induction ks as [|[k i] ks IH]; simpl; auto. rewrite nth_error_map, IH.
  destruct (nth_error env i); simpl; auto. destruct (skwargs env ks); auto.
Qed.


Definition okent (a : sval) (e : pentry) : Prop :=
  match a with SPlain p => e = (p, false) | SUF _ _ _ _ => exists y, e = (PNum (PF (N:=RN) y), true) end.
Lemma near_entry : forall ss psf i a, inv ss psf -> nth_error (ss_env ss) i = Some a ->
  near (fun x => exists e, nth_error (p_env (psf x)) i = Some e /\ okent a e).
Proof.
  intros ss psf i a I H. pose proof (iv_val _ _ _ _ I i a H) as V. destruct a as [p|y gr ds var].
  - simpl in V. eapply near_impl; [|exact V]. intros x E. simpl. exists (p, false). auto.
  - destruct V as [V1 V2]. eapply near_impl; [|exact (fdiff_near _ _ _ _ V1)]. cbn beta.
    intros x (z & E). apply evl_inv in E. eexists; split; [exact E|]. simpl. eauto.
Qed.
Lemma goodval_near : forall y gr ds var e e', near (fun x => evl (e x) = evl (e' x)) ->
  goodval (SUF y gr ds var) e -> goodval (SUF y gr ds var) e'.
Proof.
  intros y gr ds var e e' E [H1 H2]. split.
  - eapply fdiff_local; [|exact H1]. exact E.
  - rewrite <- H2. symmetry. exact (near_here _ _ _ E).
Qed.

Lemma sargs2 : forall (env : list sval) i j l, sargs env [i; j] = Some l ->
  exists a b, l = [a; b] /\ nth_error env i = Some a /\ nth_error env j = Some b.
Proof.
  intros env i j l H. simpl in H. destruct (nth_error env i) as [a|] eqn:Ei; [|discriminate].
  destruct (nth_error env j) as [b|] eqn:Ej; [|discriminate]. injection H; intros; subst.
  exists a, b. repeat split.
Qed.

Lemma scall_shape : forall f pos kwd (args : list sval) kw r, scall f pos kwd args kw = Ok r ->
  existsb is_suf args = true -> r = SPlain PNotImpl \/ exists y gr ds var, r = SUF y gr ds var.
Proof.
  intros f pos kwd args kw r E X. unfold scall in E. rewrite X in E. simpl in E.
  destruct (f _ _) as [[p| |k|]|]; simpl in E; try discriminate.
  - destruct (spos _ _ _ _ _); simpl in E; [|discriminate].
    destruct (skws _ _ _ _); simpl in E; [|discriminate].
    right. injection E; intros; subst. repeat eexists.
  - destruct (spos _ _ _ _ _); simpl in E; [|discriminate].
    destruct (skws _ _ _ _); simpl in E; discriminate.
  - left. congruence.
  - left. congruence.
Qed.

Lemma bin_good : forall ss psf op i j a b r, inv ss psf ->
  nth_error (ss_env ss) i = Some a -> nth_error (ss_env ss) j = Some b ->
  sbin op a b = Ok r ->
  (if is_suf a then regular_call (float_method op) (op_pos op) no_kw [pe a; pe b] []
   else regular_call (float_rmethod op) (rop_pos op) no_kw [pe b; pe a] []) ->
  goodval r (fun x => Some (match (match pargs (p_env (psf x)) [i; j] with
                                   | Some [a; b] => pbin op a b | _ => Err EUser end)
                            with Ok e => e | Err _ => (POther 0, false) end)).
Proof.
  intros ss psf op i j a b r I Ei Ej Er Rg. unfold sbin in Er.
  pose proof (near_and _ _ _ _ (near_entry _ _ _ _ I Ei) (near_entry _ _ _ _ I Ej)) as NE.
  destruct (is_suf a) eqn:Sa.
  - destruct (scall _ _ _ [a; b] []) as [r'|] eqn:Es; simpl in Er; [|discriminate].
    assert (r' = r /\ r <> SPlain PNotImpl) as [-> Hr].
    { destruct r' as [[]|]; inversion Er; subst; split; congruence. }
    assert (exists y gr ds var, r = SUF y gr ds var) as (y & gr & ds & var & ->).
    { destruct (scall_shape _ _ _ _ _ _ Es) as [|H]; [simpl; now rewrite Sa|congruence|exact H]. }
    eapply goodval_near.
    2:{ eapply (call_good n x0 ss psf (float_method op) (op_pos op) no_kw [i; j] []); eauto.
        - simpl. rewrite Ei, Ej. reflexivity.
        - reflexivity.
        }
    cbn beta. eapply near_impl; [|exact NE]. intros x ((ea & E1 & O1) & (eb & E2 & O2)).
    cbn [pargs]. rewrite E1, E2. cbn [pkwargs].
    destruct a as [|? ? ? ?]; [discriminate|]. destruct O1 as (ya & ->).
    unfold pcall, pbin. simpl.
    destruct b as [q|]; simpl in O2; [subst eb|destruct O2 as (yb & ->)]; simpl; auto.
    destruct q as [q| | |]; simpl; auto.
  - destruct (is_suf b) eqn:Sb; [|discriminate].
    destruct (scall _ _ _ [b; a] []) as [r'|] eqn:Es; simpl in Er; [|discriminate].
    assert (r' = r /\ r <> SPlain PNotImpl) as [-> Hr].
    { destruct r' as [[]|]; inversion Er; subst; split; congruence. }
    assert (exists y gr ds var, r = SUF y gr ds var) as (y & gr & ds & var & ->).
    { destruct (scall_shape _ _ _ _ _ _ Es) as [|H]; [simpl; now rewrite Sb|congruence|exact H]. }
    eapply goodval_near.
    2:{ eapply (call_good n x0 ss psf (float_rmethod op) (rop_pos op) no_kw [j; i] []); eauto.
        - simpl. rewrite Ei, Ej. reflexivity.
        - reflexivity.
        }
    cbn beta. eapply near_impl; [|exact NE]. intros x ((ea & E1 & O1) & (eb & E2 & O2)).
    cbn [pargs]. rewrite E1, E2. cbn [pkwargs].
    destruct b as [|? ? ? ?]; [discriminate|]. destruct O2 as (yb & ->).
    destruct a as [q|]; [|discriminate]. simpl in O1. subst ea.
    unfold pcall, pbin. simpl.
    destruct q as [q| | |]; simpl; auto.
Qed.

Lemma modf_good : forall ss psf i a r, inv ss psf -> nth_error (ss_env ss) i = Some a ->
  smodf a = Ok r ->
  match pe a with
  | (PNum (PF x), true) =>
      fdiff 1 (fun z => Some (fst (n_modf RN (z 0%nat)))) (fun _ => x) (fun _ => 1)
  | _ => True end ->
  goodval r (fun x => Some (match (match nth_error (p_env (psf x)) i with
                                   | Some a => pmodf a | None => Err EUser end)
                            with Ok e => e | Err _ => (POther 0, false) end)).
Proof.
  intros ss psf i a r I Ei Er Rg. pose proof (near_entry _ _ _ _ I Ei) as NE.
  destruct a as [p|y gr ds var].
  - destruct p as [p| | |]; simpl in Er; try discriminate. injection Er; intros; subst r. simpl.
    eapply near_impl; [|exact NE]. intros x (e & E & ->). rewrite E. unfold pmodf. cbn.
    destruct p; reflexivity.
  - simpl in Er. injection Er; intros; subst r. simpl in Rg.
    pose proof (iv_val _ _ _ _ I _ _ Ei) as [V1 V2]. split.
    + eapply fdiff_ext with (gr := fun v => Rsum (map (fun k => 1 * gr v) (seq 0 1))).
      { intros v _. simpl. lra. }
      apply (fdiff_comp 1 n _ _ _ (fun _ x => evl (nth_error (p_env (psf x)) i)) (fun _ => gr) x0 _ Rg).
      * intros k Hk. split; auto.
      * destruct NE as (d & Pd & NE). exists d. split; auto. intros x z Hx Hz.
        destruct (NE x Hx) as (e & E & y' & ->). specialize (Hz 0%nat (le_n _)).
        rewrite E in *. simpl in Hz. injection Hz; intros ->. reflexivity.
    + apply evl_inv in V2. rewrite V2. reflexivity.
Qed.

Lemma ldexp_good : forall ss psf i k a r, inv ss psf -> nth_error (ss_env ss) i = Some a ->
  sldexp a k = Ok r ->
  goodval r (fun x => Some (match (match nth_error (p_env (psf x)) i with
                                   | Some a => pldexp a k | None => Err EUser end)
                            with Ok e => e | Err _ => (POther 0, false) end)).
Proof.
  intros ss psf i k a r I Ei Er. pose proof (near_entry _ _ _ _ I Ei) as NE.
  destruct a as [p|y gr ds var].
  - destruct p as [p| | |]; simpl in Er; try discriminate. injection Er; intros; subst r. simpl.
    eapply near_impl; [|exact NE]. intros x (e & E & ->). rewrite E. unfold pldexp. cbn.
    destruct p; reflexivity.
  - simpl in Er. injection Er; intros; subst r.
    pose proof (iv_val _ _ _ _ I _ _ Ei) as [V1 V2]. split.
    + assert (Rg : fdiff 1 (fun z => Some (z 0%nat * bpow radix2 k)) (fun _ => y)
                         (fun _ => bpow radix2 k)).
      { apply fdiff_1 with (f := fun t => t * bpow radix2 k).
        - auto_derive; auto. ring.
        - exists 1. split; [lra|]. auto. }
      eapply fdiff_ext with (gr := fun v => Rsum (map (fun _ => bpow radix2 k * gr v) (seq 0 1))).
      { intros v _. simpl. lra. }
      apply (fdiff_comp 1 n _ _ _ (fun _ x => evl (nth_error (p_env (psf x)) i)) (fun _ => gr) x0 _ Rg).
      * intros k' Hk. split; auto.
      * destruct NE as (d & Pd & NE). exists d. split; auto. intros x z Hx Hz.
        destruct (NE x Hx) as (e & E & y' & ->). specialize (Hz 0%nat (le_n _)).
        rewrite E in *. simpl in Hz. injection Hz; intros ->. reflexivity.
    + apply evl_inv in V2. rewrite V2. reflexivity.
Qed.

Definition sexn (o : sout) : bool := match o with SExn _ => true | _ => false end.

Lemma step_good : forall ss psf ins, inv ss psf -> regular_ins (p_env (psf x0)) ins ->
  (defines ins = true -> sexn (snd (sstep (g:=g) (lg:=lg) ss ins)) = false) ->
  (forall m s t, ins = INew m s t -> x0 (length (ss_vars ss)) = pval m /\ (length (ss_vars ss) < n)%nat) ->
  inv (fst (sstep ss ins)) (fun x => pstep (N:=RN) x (psf x) ins).
Proof.
  intros ss psf ins I Rg X Hn. pose proof (inv_at_x0 n x0 _ _ I) as E0.
  unfold regular_ins in Rg. rewrite E0 in Rg.
  destruct ins; simpl in X.
  - (* INew *) specialize (X eq_refl). simpl in *.
    destruct (Rltb (pval s) 0); [discriminate|]. simpl.
    destruct (Hn _ _ _ eq_refl) as [Hx Hl].
    constructor; simpl.
    + intros x. rewrite (iv_nv _ _ _ _ I), app_length. simpl. lia.
    + intros x. rewrite !app_length, (iv_len _ _ _ _ I). reflexivity.
    + intros j b H. destruct (Nat.lt_ge_cases j (length (ss_env ss))) as [L|L].
      * rewrite nth_error_app1 in H by auto.
        eapply goodval_ext; [|exact (iv_val _ _ _ _ I j b H)]. intros x. simpl.
        rewrite nth_error_app1; auto. rewrite (iv_len _ _ _ _ I). exact L.
      * rewrite nth_error_app2 in H by auto.
        destruct (j - length (ss_env ss))%nat as [|k] eqn:J; [|destruct k; discriminate].
        injection H; intros; subst b.
        eapply goodval_ext with (e := fun x => Some (PNum (PF (N:=RN) (x (length (ss_vars ss)))), true)).
        { intros x. rewrite nth_error_app2 by (rewrite (iv_len _ _ _ _ I); auto).
          rewrite (iv_len _ _ _ _ I), J, (iv_nv _ _ _ _ I). reflexivity. }
        simpl. split.
        { apply fdiff_ext with (gr := fun v => if Nat.eqb v (length (ss_vars ss)) then 1 else 0).
          - intros; reflexivity.
          - apply fdiff_proj. auto. }
        { now rewrite Hx. }
  - (* IConst *) simpl. apply (inv_push ss psf _ (fun _ => Ok (PNum p, false)) I).
    simpl. apply near_true. reflexivity.
  - (* IBin *) specialize (X eq_refl). simpl sstep. rewrite pargs_pe in Rg. unfold pstep. cbv zeta.
    change (match nth_error (ss_env ss) i with
       | Some a => match match nth_error (ss_env ss) j with Some a0 => Some [a0] | None => None end with
                   | Some l => Some (a :: l) | None => None end
       | None => None end) with (sargs (ss_env ss) [i; j]) in *.
    destruct (sargs (ss_env ss) [i; j]) as [l|] eqn:El; [|discriminate].
    destruct (sargs2 _ _ _ _ El) as (a & b & -> & Ei & Ej).
    simpl in X, Rg. simpl fst.
    destruct (sbin op a b) as [r|] eqn:Er; [|discriminate]. simpl.
    apply (inv_push ss psf r (fun x => match pargs (p_env (psf x)) [i; j] with
                                   | Some [a; b] => pbin op a b | _ => Err EUser end) I).
    eapply bin_good; eauto.
  - (* ICall *) specialize (X eq_refl). simpl sstep. rewrite pargs_pe, pkwargs_pe in Rg.
    unfold pstep. cbv zeta.
    destruct (sargs (ss_env ss) args) as [a|] eqn:Ea; [|discriminate].
    destruct (skwargs (ss_env ss) kw) as [k|] eqn:Ek; [|discriminate].
    simpl in Rg. simpl fst.
    destruct (scall f pos kwd a k) as [r|] eqn:Er; [|discriminate]. simpl.
    apply (inv_push ss psf r (fun x => match pargs (p_env (psf x)) args, pkwargs (p_env (psf x)) kw with
                | Some a, Some k => pcall f a k
                | _, _ => Err EUser
                end) I).
    eapply call_good; eauto.
  - (* IModf *) specialize (X eq_refl). simpl sstep. unfold pstep. cbv zeta.
    rewrite nth_error_map in Rg.
    destruct (nth_error (ss_env ss) i) as [a|] eqn:Ei; [|discriminate].
    simpl fst. destruct (smodf a) as [r|] eqn:Er; [|discriminate]. simpl.
    apply (inv_push ss psf r (fun x => match nth_error (p_env (psf x)) i with
             | Some a => pmodf a | None => Err EUser end) I).
    eapply modf_good; eauto.
  - (* ILdexp *) specialize (X eq_refl). simpl sstep. unfold pstep. cbv zeta.
    destruct (nth_error (ss_env ss) i) as [a|] eqn:Ei; [|discriminate].
    simpl fst. destruct (sldexp a e) as [r|] eqn:Er; [|discriminate]. simpl.
    apply (inv_push ss psf r (fun x => match nth_error (p_env (psf x)) i with
             | Some a => pldexp a e | None => Err EUser end) I).
    eapply ldexp_good; eauto.
  - simpl. unfold swith_uf, swith. destruct (nth_error (ss_env ss) i) as [[]|]; exact I.
  - simpl. unfold swith_uf, swith. destruct (nth_error (ss_env ss) i) as [[]|]; exact I.
  - simpl. unfold swith_uf, swith. destruct (nth_error (ss_env ss) i) as [[]|]; exact I.
  - simpl. unfold swith_uf, swith. destruct (nth_error (ss_env ss) i) as [[]|]; exact I.
  - simpl. unfold swith_uf, swith. destruct (nth_error (ss_env ss) i) as [[|? ? ? [v|]]|]; try exact I.
    destruct (Rltb (pval s) 0); [exact I|]. simpl. destruct I as [I1 I2 I3]. constructor; simpl; auto.
    intros x. rewrite I1. clear. revert v. induction (ss_vars ss); intros [|v]; simpl; auto.
  - simpl. unfold swith_uf, swith. destruct (nth_error (ss_env ss) i) as [[]|]; try exact I.
    destruct (nth_error (ss_env ss) j); exact I.
  - simpl. unfold swith_uf, swith. destruct (nth_error (ss_env ss) i) as [[]|]; exact I.
  - simpl. unfold swith_uf, swith. destruct (nth_error (ss_env ss) i) as [[]|]; exact I.
Qed.

Lemma sstep_nv : forall ss ins, (defines ins = true -> sexn (snd (sstep (g:=g) (lg:=lg) ss ins)) = false) ->
  length (ss_vars (fst (sstep (g:=g) (lg:=lg) ss ins))) =
  (length (ss_vars ss) + match ins with INew _ _ _ => 1 | _ => 0 end)%nat.
Proof.
  intros ss ins X. rewrite Nat.add_comm.
  destruct ins; simpl in *; unfold swith_uf, swith in *.
  - specialize (X eq_refl). destruct (Rltb (pval s) 0); [discriminate|]. simpl.
    rewrite app_length. simpl. lia.
  - reflexivity.
  - destruct (nth_error (ss_env ss) i), (nth_error (ss_env ss) j); simpl; auto.
    destruct (sbin _ _ _); reflexivity.
  - destruct (sargs _ _); simpl; auto. destruct (skwargs _ _); simpl; auto.
    destruct (scall _ _ _ _ _); reflexivity.
  - destruct (nth_error (ss_env ss) i); simpl; auto. destruct (smodf _); reflexivity.
  - destruct (nth_error (ss_env ss) i); simpl; auto. destruct (sldexp _ _); reflexivity.
  - destruct (nth_error (ss_env ss) i) as [[]|]; reflexivity.
  - destruct (nth_error (ss_env ss) i) as [[]|]; reflexivity.
  - destruct (nth_error (ss_env ss) i) as [[]|]; reflexivity.
  - destruct (nth_error (ss_env ss) i) as [[]|]; reflexivity.
  - destruct (nth_error (ss_env ss) i) as [[|? ? ? [v|]]|]; try reflexivity.
    destruct (Rltb (pval s) 0); [reflexivity|]. simpl.
    clear. revert v. induction (ss_vars ss); intros [|v]; simpl; auto.
  - destruct (nth_error (ss_env ss) i) as [[]|]; try reflexivity.
    destruct (nth_error (ss_env ss) j); reflexivity.
  - destruct (nth_error (ss_env ss) i) as [[]|]; reflexivity.
  - destruct (nth_error (ss_env ss) i) as [[]|]; reflexivity.
Qed.

Definition sdefined_ok (prog : list (instr RN)) (os : list sout) : Prop :=
  Forall2 (fun ins o => defines ins = true -> sexn o = false) prog os.

Lemma run_good : forall prog ss psf, inv ss psf -> regular x0 (psf x0) prog ->
  sdefined_ok prog (snd (srun (g:=g) (lg:=lg) ss prog)) ->
  (forall k y, nth_error (noms (N:=RN) prog) k = Some y ->
     x0 (length (ss_vars ss) + k)%nat = y /\ (length (ss_vars ss) + k < n)%nat) ->
  inv (fst (srun ss prog)) (fun x => peval (N:=RN) x (psf x) prog).
Proof.
  induction prog as [|ins prog IH]; intros ss psf I Rg D Hx; simpl in *; [exact I|].
  destruct Rg as [R1 R2].
  pose proof (step_good ss psf ins I R1) as SG. pose proof (sstep_nv ss ins) as NV.
  destruct (sstep (g:=g) (lg:=lg) ss ins) as [s1 o] eqn:Es.
  specialize (IH s1 (fun x => pstep (N:=RN) x (psf x) ins)).
  destruct (srun (g:=g) (lg:=lg) s1 prog) as [s2 os]. simpl in *.
  inversion D; subst. apply IH; auto.
  - apply SG; auto. intros m s t ->. simpl in Hx.
    destruct (Hx 0%nat _ eq_refl) as [A B]. rewrite Nat.add_0_r in *.
    split; auto. rewrite A. destruct m; reflexivity.
  - intros k y Hk. rewrite NV by auto. destruct ins; simpl in Hx;
      try (destruct (Hx k y Hk) as [A B]; split; [rewrite <- A; f_equal; lia|lia]).
    destruct (Hx (S k) y Hk) as [A B]; split; [rewrite <- A; f_equal; lia|lia].
Qed.
End ADRun.

Section Final.
Context {g lg : R -> R}.
Notation RN := (ROps g lg).

Lemma inv_init : forall n x0, inv (g:=g) (lg:=lg) n x0 sinit (fun _ => pinit).
Proof. intros. constructor; simpl; auto. intros [|j] a H; discriminate. Qed.

Lemma out_ok_exn : forall (o : out RN) so, out_ok o so -> is_exn o = sexn so.
Proof. intros [] []; simpl; auto; contradiction. Qed.

(** Every entry of the environment has as gradient its partial derivatives. *)
Theorem spec_gradient : forall (prog : list (instr RN)) i y gr ds var,
  sdefined_ok prog (snd (srun (g:=g) (lg:=lg) sinit prog)) ->
  regular (x0_of (N:=RN) prog) pinit prog ->
  nth_error (ss_env (fst (srun sinit prog))) i = Some (SUF y gr ds var) ->
  fdiff (length (noms (N:=RN) prog)) (result prog i) (x0_of (N:=RN) prog) gr /\
  result prog i (x0_of (N:=RN) prog) = Some y.
Proof.
  intros prog i y gr ds var D Rg H.
  assert (I : inv (length (noms (N:=RN) prog)) (x0_of (N:=RN) prog) (fst (srun sinit prog))
                (fun x => peval (N:=RN) x pinit prog)).
  { apply run_good; auto using inv_init. intros k z Hk. simpl. split.
    - unfold x0_of. now apply nth_error_nth.
    - apply nth_error_Some. intros Q; pose proof (eq_trans (eq_sym Hk) Q); discriminate. }
  destruct (iv_val _ _ _ _ I _ _ H) as [V1 V2]. cbv beta in V1.
  assert (Q : forall e : option (pentry (N:=RN)), forall y, evl e = Some y ->
     match e with Some (PNum p, true) => Some (pval p) | _ => None end = Some y).
  { intros e z E. apply evl_inv in E. rewrite E. reflexivity. }
  split.
  - eapply fdiff_local; [|exact V1].
    destruct (fdiff_near _ _ _ _ V1) as (d & Pd & NE). exists d. split; auto.
    intros x Hx. destruct (NE x Hx) as (z & Ez). rewrite Ez. symmetry. now apply Q.
  - unfold result. now apply Q.
Qed.

End Final.
