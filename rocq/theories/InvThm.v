(** Inverse and pseudo-inverse of matrices of numbers with uncertainties. *)
From Coq Require Import ZArith List Bool Reals Lra Lia Arith Permutation.
From Coquelicot Require Import Coquelicot.
From Verif Require Import Base Heap Affine Ops UMath NumR HeapSpec HeapProofs DenProofs Machine Spec
  Refine RefineStep CovConv Unumpy History CovSpec UnumpySpec MatrixSpec CovProofs ArrProofs MxProofs InvConv HistoryProofs
  ChainProofs.
Import ListNotations.
Local Open Scope R_scope.

Section InvThm.
Context {g lg : R -> R}.
Notation RN := (ROps g lg).
Notation state := (state RN).

(** ** Calls on results *)
Lemma Forall2_nth_error_r : forall A B (P : A -> B -> Prop) l l', Forall2 P l l' -> forall i b, nth_error l' i = Some b ->
  exists a, nth_error l i = Some a /\ P a b.
Proof. induction 1; intros [|i] c E; cbn in *; try discriminate; eauto. injection E; intros <-. eauto. Qed.
Lemma urel_zero : forall h u n gr ds v, wf anyc h -> urel (g:=g) (lg:=lg) h u n gr ds -> ~ In v ds -> gr v = 0.
Proof.
  intros h u n gr ds v W U N. destruct (derivatives_conv h u n gr ds W U) as (d & h' & _ & _ & _ & K & D).
  rewrite <- D. unfold dval. rewrite <- K in N. apply dget_None in N. now rewrite N.
Qed.
Lemma classic_used : forall (sl : list (sval g lg)) v, used sl v \/ ~ used sl v.
Proof.
  intros sl v. destruct (existsb (fun sa => existsb (Nat.eqb v) (sdeps sa)) sl) eqn:Ex.
  - left. apply existsb_exists in Ex as (sa & I & Ex). apply existsb_exists in Ex as (w & J & Q).
    apply Nat.eqb_eq in Q. subst w. exists sa; auto.
  - right. intros (sa & I & J). assert (T : existsb (fun sa => existsb (Nat.eqb v) (sdeps sa)) sl = true); [|congruence].
    apply existsb_exists. exists sa. split; auto. apply existsb_exists. exists v. split; auto. apply Nat.eqb_refl.
Qed.
Lemma get_args_nth : forall (env : list (value RN)) is l, get_args env is = Some l ->
  length l = length is /\ forall k i, nth_error is k = Some i -> exists x, nth_error l k = Some x /\ nth_error env i = Some x.
Proof.
  intros env. induction is as [|i is IH]; intros l E; cbn in E.
  - injection E; intros <-. split; auto. intros [|k] i; discriminate.
  - destruct (nth_error env i) as [x|] eqn:Ex; [|discriminate].
    destruct (get_args env is) as [l'|]; [|discriminate]. injection E; intros <-.
    destruct (IH l' eq_refl) as [L H]. cbn. split; [now f_equal|]. intros [|k] j Hj; cbn in *.
    + injection Hj; intros <-. eauto.
    + auto.
Qed.
Lemma sargs_nth : forall (env : list (sval g lg)) is l, sargs env is = Some l ->
  length l = length is /\ forall k i, nth_error is k = Some i -> exists x, nth_error l k = Some x /\ nth_error env i = Some x.
Proof.
  intros env. induction is as [|i is IH]; intros l E; cbn in E.
  - injection E; intros <-. split; auto. intros [|k] i; discriminate.
  - destruct (nth_error env i) as [x|] eqn:Ex; [|discriminate].
    destruct (sargs env is) as [l'|]; [|discriminate]. injection E; intros <-.
    destruct (IH l' eq_refl) as [L H]. cbn. split; [now f_equal|]. intros [|k] j Hj; cbn in *.
    + injection Hj; intros <-. eauto.
    + auto.
Qed.
Lemma read_derivs : forall (st : state) k u n gr ds, wf anyc (st_heap st) -> is_number st k u ->
  urel (st_heap st) u n gr ds ->
  exists d, reads st (IDeriv k) (ODict d) /\ (forall v, In v (dkeys d) <-> In v ds) /\ (forall v, dval d v = gr v).
Proof.
  intros [h env] k u n gr ds W E U. unfold is_number in E. cbn in *.
  destruct (derivatives_conv h u n gr ds W U) as (d & h' & [k0 C] & X & _ & K & D).
  exists d. split; auto. eexists. exists k0. intros fuel Hf. cbn [step]. unfold with_uf, with_val. cbn [st_env].
  rewrite E. unfold observe. cbn [st_heap]. rewrite C by auto. reflexivity.
Qed.
Lemma deriv_is_sgrad : forall (st : state) ss j sa v, sim st ss -> nth_error (ss_env ss) j = Some sa ->
  deriv_is st j v (sgrad sa v) /\ (depends st j v <-> In v (sdeps sa)).
Proof.
  intros st ss j sa v [W V E] H. destruct (Forall2_nth_error_r _ _ _ _ _ E _ _ H) as (x & Ex & Rl).
  destruct x as [p|u], sa as [q|n gr ds var]; try contradiction.
  - unfold deriv_is. rewrite Ex. split; [reflexivity|]. cbn. split; [|tauto].
    intros (d & (st1 & [k C]) & _). specialize (C k (le_n k)). destruct st as [h env]. cbn [st_env st_heap] in *.
    cbn [step] in C. unfold with_uf, with_val in C. cbn [st_env] in C. rewrite Ex in C. discriminate.
  - destruct Rl as (U & _). destruct (read_derivs st j u n gr ds W Ex U) as (d & Rd & K & D).
    unfold deriv_is. rewrite Ex. cbn [sgrad sdeps]. split; [eauto|]. split.
    + intros (d' & Rd' & I). pose proof (reads_unique _ _ _ _ Rd Rd') as Q. injection Q; intros ->. now apply K.
    + intros I. exists d. split; auto. now apply K.
Qed.
Lemma deriv_is_unique : forall (st : state) k v x y, deriv_is st k v x -> deriv_is st k v y -> x = y.
Proof.
  intros st k v x y. unfold deriv_is. destruct (nth_error (st_env st) k) as [[p|u]|]; [congruence| |tauto].
  intros (d & Rd & <-) (d' & Rd' & <-). pose proof (reads_unique _ _ _ _ Rd Rd') as Q. injection Q; intros ->. auto.
Qed.
Lemma has_nominal_unique : forall (st : state) k p q, has_nominal st k p -> has_nominal st k q -> p = q.
Proof. intros st k p q (a & E & H) (b & E' & H'). congruence. Qed.

(** What a call returns, in terms of observations. *)
Record facts (F : afun (g:=g) (lg:=lg)) (st st' : state) (ia ir : arr nat) (A val : arr R) (D dv : varid -> arr R) : Prop := {
  fa_shape : a_shape A = a_shape ia;
  fa_len : length (a_flat A) = length (a_flat ia);
  fa_nom : forall k i x, nth_error (a_flat ia) k = Some i -> nth_error (a_flat A) k = Some x ->
      exists p, has_nominal st i p /\ pval p = x;
  fa_dshape : forall v, a_shape (D v) = a_shape ia;
  fa_dlen : forall v, length (a_flat (D v)) = length (a_flat ia);
  fa_deriv : forall v k i x, nth_error (a_flat ia) k = Some i -> nth_error (a_flat (D v)) k = Some x -> deriv_is st i v x;
  fa_val : exists c, af_value F A = Ok (with_cls c val);
  fa_rshape : a_shape ir = a_shape val;
  fa_rlen : length (a_flat ir) = length (a_flat val);
  fa_rnom : forall k i x, nth_error (a_flat ir) k = Some i -> nth_error (a_flat val) k = Some x -> has_nominal st' i (PF (N:=RN) x);
  fa_rderiv : forall v,
      (forall x, In x (a_flat (D v)) -> x = 0) /\ (forall i, In i (a_flat ir) -> deriv_is st' i v 0 /\ ~ depends st' i v) \/
      (exists i, In i (a_flat ia) /\ depends st i v) /\ af_deriv F (h_var (st_heap st)) A val v (D v) = Ok (dv v) /\
      forall k i, nth_error (a_flat ir) k = Some i ->
        deriv_is st' i v (nth k (a_flat (dv v)) 0) /\ (depends st' i v <-> nth k (a_flat (dv v)) 0 <> 0)
}.
Lemma call_facts : forall f FF (st : state) ia ir st', reachable st -> behaves f FF ->
  array_call f st ia (Ok ir) st' ->
  exists A val D dv, facts FF st st' ia ir A val D dv.
Proof.
  intros f FF st ia ir st' Re P (a & k & Wi & (A1 & A2 & A3) & b & (B1 & B2 & B3) & He & Hf & H).
  destruct (reach_sim st Re) as [ss Sm]. pose proof Sm as [W V E].
  pose proof (get_args_rel (st_heap st) (st_env st) (ss_env ss) (a_flat ia) E) as AR. rewrite A3 in AR.
  destruct (sargs (ss_env ss) (a_flat ia)) as [sl|] eqn:Esl; [|contradiction].
  destruct (get_args_nth _ _ _ A3) as [La Na]. destruct (sargs_nth _ _ _ Esl) as [Ls Ns].
  assert (Wa : wf_arr a) by (unfold wf_arr in *; rewrite A2, <- Wi; auto).
  destruct (P a sl (st_heap st) W AR Wa) as (r1 & h1 & C & X & Ho & _).
  assert (Q : (r1, h1) = (Ok b, st_heap st')).
  { destruct C as [k1 C]. rewrite <- (C (max k k1)) by lia. apply H. lia. }
  injection Q; intros -> ->. clear Q. destruct (Ho b eq_refl) as (noms & val0 & dvs & U). clear Ho.
  pose proof (he_wf _ _ X) as W'.
  assert (Ln : length noms = length sl). { symmetry. pose proof (ur_noms _ _ _ _ _ _ _ _ _ U) as F. clear -F. induction F; cbn; auto. }
  exists (np_arr a noms), (val_of FF a val0), (fun v => dmatrix a sl v), dvs.
  assert (Lr : length (a_flat ir) = length (a_flat val0)).
  { rewrite Hf, seq_length. apply (ur_length _ _ _ _ _ _ _ _ _ U). }
  assert (Nr : forall k i, nth_error (a_flat ir) k = Some i -> exists x, nth_error (a_flat b) k = Some x /\ nth_error (st_env st') i = Some x).
  { destruct (get_args_nth _ _ _ B3) as [_ Nb]. exact Nb. }
  split; cbn [a_shape a_flat np_arr dmatrix val_of with_cls].
  - auto.
  - lia.
  - intros j i x Hi Hx. destruct (Ns j i Hi) as (sa & Es & Ei).
    pose proof (ur_noms _ _ _ _ _ _ _ _ _ U) as F. destruct (Forall2_nth_error _ _ _ _ _ F _ _ Es) as (y & Ey & Hy).
    pose proof (eq_trans (eq_sym Ey) Hx) as Qy. injection Qy; intros ->.
    destruct (Na j i Hi) as (va & Ev & Eei). destruct (Forall2_nth_error _ _ _ _ _ E _ _ Eei) as (sa' & Es' & Rl).
    assert (sa' = sa) by congruence. subst sa'. pose proof (vrel_nom _ _ _ Rl) as Q. rewrite <- Q in Hy.
    destruct (nominal_value va) as [p| | |] eqn:En; try discriminate. exists p. split; [exists va; auto|].
    unfold as_float in Hy. destruct p as [z|fl0]; cbn in Hy |- *; congruence.
  - auto.
  - intros v. rewrite map_length. lia.
  - intros v j i x Hi Hx. destruct (Ns j i Hi) as (sa & Es & Ei).
    assert (Q : nth_error (map (fun sa => sgrad sa v) sl) j = Some (sgrad sa v)) by exact (map_nth_error (fun sa => sgrad sa v) _ _ Es).
    pose proof (eq_trans (eq_sym Hx) Q) as Qx. injection Qx; intros ->. eapply deriv_is_sgrad; eauto.
  - exists (a_cls val0). rewrite (ur_value _ _ _ _ _ _ _ _ _ U). unfold with_cls. cbn. destruct val0; reflexivity.
  - rewrite <- B2. apply (ur_shape _ _ _ _ _ _ _ _ _ U).
  - exact Lr.
  - intros j i x Hi Hx. destruct (Nr j i Hi) as (y & Ey & Ei).
    destruct (ur_elems _ _ _ _ _ _ _ _ _ U j y Ey) as (z & Ez & Hz).
    pose proof (eq_trans (eq_sym Ez) Hx) as Qz. injection Qz; intros ->. exists y. split; auto.
    destruct Hz as [[_ ->]|(_ & u & gr & ds & -> & _ & Ur & _)]; [reflexivity|]. cbn. now rewrite (ur_nom _ _ _ _ _ Ur).
  - intros v. destruct (classic_used sl v) as [Hu|Hu].
    + right. split; [|split].
      * destruct Hu as (sa & Is & Id). apply In_nth_error in Is as [j Ej].
        destruct (nth_error (a_flat ia) j) as [i|] eqn:Ei.
        2:{ apply nth_error_None in Ei. assert (j < length sl)%nat by (apply nth_error_Some; congruence). lia. }
        exists i. split; [eapply nth_error_In; eauto|]. destruct (Ns j i Ei) as (sa' & Es' & Ee).
        assert (sa' = sa) by congruence. subst sa'. now apply (deriv_is_sgrad st ss i sa v Sm Ee).
      * apply (ur_derivs _ _ _ _ _ _ _ _ _ U v Hu).
      * intros j i Hi. destruct (Nr j i Hi) as (y & Ey & Ei).
        destruct (ur_elems _ _ _ _ _ _ _ _ _ U j y Ey) as (z & Ez & [[Nu _]|(_ & u & gr & ds & -> & Uv & Ur & K & G & G0)]).
        { exfalso. now apply (Nu v). }
        destruct (read_derivs st' i u z gr ds W' Ei Ur) as (d & Rd & Kd & Dd).
        assert (Q : nth j (a_flat (dvs v)) 0 = gr v).
        { destruct (in_dec Nat.eq_dec v ds) as [I|I].
          - specialize (G v I). apply (nth_error_nth _ _ 0) in G. exact G.
          - rewrite (G0 v I). destruct (nth_error (a_flat (dvs v)) j) as [x|] eqn:Ex.
            + pose proof (nth_error_nth _ _ 0 Ex) as Qx. destruct (Req_EM_T x 0) as [->|Nx]; [exact Qx|].
              exfalso. apply I. apply K. split; auto. exists x; auto.
            + apply nth_overflow. now apply nth_error_None. }
        split.
        -- unfold deriv_is. rewrite Ei. exists d. split; auto. rewrite Dd. congruence.
        -- split.
           ++ intros (d' & Rd' & I). pose proof (reads_unique _ _ _ _ Rd Rd') as Q'. injection Q'; intros <-.
              apply Kd in I. pose proof (G v I) as Gv. apply K in I as (_ & x & Ex & Nx). rewrite Q.
              pose proof (eq_trans (eq_sym Ex) Gv) as Qx. injection Qx; intros <-. exact Nx.
           ++ intros Nx. exists d. split; auto. apply Kd. apply K. split; auto.
              destruct (nth_error (a_flat (dvs v)) j) as [x|] eqn:Ex.
              ** exists x. split; auto. intros ->. apply Nx. apply (nth_error_nth _ _ 0 Ex).
              ** exfalso. apply Nx. apply nth_overflow. now apply nth_error_None.
    + left. split.
      * intros x Hx. apply in_map_iff in Hx as (sa & <- & Is).
        apply In_nth_error in Is as [j Ej].
        destruct (nth_error (a_flat ia) j) as [i|] eqn:Ei.
        2:{ apply nth_error_None in Ei. assert (j < length sl)%nat by (apply nth_error_Some; congruence). lia. }
        destruct (Ns j i Ei) as (sa' & Es' & Ee). assert (sa' = sa) by congruence. subst sa'.
        destruct sa as [q|n gr ds var]; [reflexivity|].
        destruct (Forall2_nth_error_r _ _ _ _ _ E _ _ Ee) as (y & Ey & Rl). destruct y as [p|u]; [contradiction|].
        destruct Rl as (Ur & _). cbn. apply (urel_zero _ _ _ _ _ _ W Ur). intros I. apply Hu. exists (SUF n gr ds var).
        split; [eapply nth_error_In; eauto|exact I].
      * intros i Hi. apply In_nth_error in Hi as [j Hi]. destruct (Nr j i Hi) as (y & Ey & Ei).
        destruct (ur_elems _ _ _ _ _ _ _ _ _ U j y Ey) as (z & Ez & [[Nu ->]|(_ & u & gr & ds & -> & Uv & Ur & K & G & G0)]).
        -- unfold deriv_is. rewrite Ei. split; auto. intros (d & (st1 & [k0 C0]) & _). specialize (C0 k0 (le_n k0)).
           destruct st' as [h' env']. cbn [st_env st_heap] in *. cbn [step] in C0. unfold with_uf, with_val in C0.
           cbn [st_env] in C0. rewrite Ei in C0. discriminate.
        -- destruct (read_derivs st' i u z gr ds W' Ei Ur) as (d & Rd & Kd & Dd).
           assert (Nd : ~ In v ds) by (intros I; apply K in I as [I _]; auto).
           unfold deriv_is. rewrite Ei. split; [exists d; split; auto; rewrite Dd; auto|].
           intros (d' & Rd' & I). pose proof (reads_unique _ _ _ _ Rd Rd') as Q'. injection Q'; intros <-.
           apply Nd. now apply Kd.
Qed.

(** ** Matrices of floats *)
Lemma elem2 : forall A (a : arr A) m n i j, a_shape a = [m; n] -> elem a [i; j] = nth_error (a_flat a) (i * n + j).
Proof. intros A a m n i j E. unfold elem. rewrite E. cbn. f_equal. lia. Qed.
Lemma in_range : forall m n i j, (i < m)%nat -> (j < n)%nat -> (i * n + j < m * n)%nat.
Proof. intros. nia. Qed.
Lemma wf2 : forall A (a : arr A) m n, a_shape a = [m; n] -> (wf_arr a <-> length (a_flat a) = (m * n)%nat).
Proof. intros A a m n E. unfold wf_arr. rewrite E. cbn. rewrite Nat.mul_1_r. tauto. Qed.
Lemma mget_nth : forall (a : arr R) m n i j, a_shape a = [m; n] -> mget (N:=RN) a i j = nth (i * n + j) (a_flat a) 0.
Proof. intros [c sh fl] m n i j E. cbn in E. subst sh. reflexivity. Qed.
Lemma entries_own : forall (a : arr R) m n, a_shape a = [m; n] -> wf_arr a -> entries a m n (mget (N:=RN) a).
Proof.
  intros a m n E W. split; auto. split; auto. intros i j Hi Hj. rewrite (elem2 _ a m n) by auto.
  rewrite (mget_nth a m n) by auto. apply nth_error_nth'. apply (wf2 _ a m n E) in W. rewrite W. now apply in_range.
Qed.
Lemma entries_mget : forall (a : arr R) m n A, entries a m n A -> meq m n (mget (N:=RN) a) A.
Proof.
  intros a m n A (E & W & H) i j Hi Hj. specialize (H i j Hi Hj). rewrite (elem2 _ a m n) in H by auto.
  rewrite (mget_nth a m n) by auto. now apply nth_error_nth.
Qed.
Lemma entries_meq : forall (a : arr R) m n A B, entries a m n A -> meq m n A B -> entries a m n B.
Proof. intros a m n A B (E & W & H) Q. split; auto. split; auto. intros i j Hi Hj. rewrite H by auto. f_equal. now apply Q. Qed.
Lemma entries_unique : forall (a : arr R) m n A B, entries a m n A -> entries a m n B -> meq m n A B.
Proof. intros a m n A B (_ & _ & H) (_ & _ & H') i j Hi Hj. specialize (H i j Hi Hj). specialize (H' i j Hi Hj). congruence. Qed.
Lemma flat_rows : forall (F : nat -> nat -> R) n m s, length (flat_map (fun i => map (F i) (seq 0 n)) (seq s m)) = (m * n)%nat /\
  forall i j, (i < m)%nat -> (j < n)%nat ->
    nth_error (flat_map (fun i => map (F i) (seq 0 n)) (seq s m)) (i * n + j) = Some (F (s + i)%nat j).
Proof.
  intros F n. induction m as [|m IH]; intros s; cbn [seq flat_map]; [split; [reflexivity|lia]|].
  destruct (IH (S s)) as [L H]. split.
  - rewrite app_length, L, map_length, seq_length. lia.
  - intros [|i] j Hi Hj.
    + rewrite nth_error_app1 by (rewrite map_length, seq_length; lia). rewrite Nat.add_0_r. cbn [Nat.mul Nat.add].
      rewrite (map_nth_error (F s) j (seq 0 n) (d := j)); auto.
      rewrite (nth_error_nth' _ 0%nat) by (rewrite seq_length; lia). rewrite seq_nth by lia. reflexivity.
    + rewrite nth_error_app2 by (rewrite map_length, seq_length; lia). rewrite map_length, seq_length.
      replace (S i * n + j - n)%nat with (i * n + j)%nat by lia. rewrite H by lia. f_equal. f_equal. lia.
Qed.
Lemma mtab_entries : forall m n F, entries (mtab (N:=RN) m n F) m n F.
Proof.
  intros m n F. destruct (flat_rows F n m 0) as [L H]. split; [reflexivity|]. split.
  - apply (wf2 _ _ m n); [reflexivity|exact L].
  - intros i j Hi Hj. rewrite (elem2 _ _ m n) by reflexivity. exact (H i j Hi Hj).
Qed.
Lemma fold_sum : forall (F : nat -> R) l acc, fold_left (fun acc p => acc + F p) l acc = acc + Rsum (map F l).
Proof. intros F. induction l as [|x l IH]; intros acc; cbn; [lra|]. rewrite IH. lra. Qed.
Lemma mdot_entries : forall a b m k n A B, entries a m k A -> entries b k n B ->
  exists c, mdot (N:=RN) a b = Ok c /\ entries c m n (mprod k A B).
Proof.
  intros a b m k n A B Ha Hb. unfold mdot.
  change (a_shape (A:=num RN) a) with (a_shape (A:=R) a). change (a_shape (A:=num RN) b) with (a_shape (A:=R) b).
  rewrite (proj1 Ha), (proj1 Hb), Nat.eqb_refl. eexists. split; [reflexivity|].
  eapply entries_meq; [apply mtab_entries|]. intros i j Hi Hj. cbn.
  rewrite (fold_sum (fun p => mget (N:=RN) a i p * mget (N:=RN) b p j)), Rplus_0_l.
  unfold mprod, Sum. fold (Sum k (fun p => mget (N:=RN) a i p * mget (N:=RN) b p j)). fold (Sum k (fun p => A i p * B p j)).
  apply Sum_ext. intros p Hp. rewrite (entries_mget a m k A Ha i p) by auto. rewrite (entries_mget b k n B Hb p j) by auto. reflexivity.
Qed.
Lemma mneg_entries : forall a m n A, entries a m n A -> entries (mneg (N:=RN) a) m n (mopp A).
Proof.
  intros a m n A (E & W & H). split; [exact E|]. split.
  - unfold wf_arr, mneg, amap in *. cbn. rewrite map_length. exact W.
  - intros i j Hi Hj. specialize (H i j Hi Hj). rewrite (elem2 _ a m n) in H by auto.
    rewrite (elem2 _ _ m n) by exact E. exact (map_nth_error Ropp _ _ H).
Qed.
Lemma mop_entries : forall f a b m n A B, entries a m n A -> entries b m n B ->
  exists c, mop (N:=RN) f a b = Ok c /\ entries c m n (fun i j => f (A i j) (B i j)).
Proof.
  intros f a b m n A B Ha Hb. unfold mop.
  change (a_shape (A:=num RN) a) with (a_shape (A:=R) a). change (a_shape (A:=num RN) b) with (a_shape (A:=R) b).
  rewrite (proj1 Ha), (proj1 Hb), !Nat.eqb_refl. eexists. split; [reflexivity|].
  eapply entries_meq; [apply mtab_entries|]. intros i j Hi Hj.
  cbn beta. rewrite (entries_mget a m n A Ha i j), (entries_mget b m n B Hb i j) by auto. reflexivity.
Qed.
Lemma mtrans_entries : forall a m n A, entries a m n A -> exists c, mtrans (N:=RN) a = Ok c /\ entries c n m (mtr A).
Proof.
  intros a m n A Ha. unfold mtrans. change (a_shape (A:=num RN) a) with (a_shape (A:=R) a). rewrite (proj1 Ha). eexists. split; [reflexivity|].
  eapply entries_meq; [apply mtab_entries|]. intros i j Hi Hj. cbn beta. apply (entries_mget a m n A Ha); auto.
Qed.
Lemma meye_entries : forall n, entries (meye (N:=RN) n) n n kron.
Proof. intros n. apply mtab_entries. Qed.

Lemma inv_deriv_entries : forall a b d n B D, entries b n n B -> entries d n n D ->
  exists c, inv_deriv (N:=RN) a b d = Ok c /\ entries c n n (fun i j => - mprod n (mprod n B D) B i j).
Proof.
  intros a b d n B D Hb Hd. unfold inv_deriv.
  destruct (mdot_entries _ _ _ _ _ _ _ (mneg_entries _ _ _ _ Hb) Hd) as (p & -> & Hp). cbn [rbind].
  destruct (mdot_entries _ _ _ _ _ _ _ Hp Hb) as (c & Ec & Hc). exists c. split; [exact Ec|].
  eapply entries_meq; [exact Hc|]. intros i j _ _. now rewrite !mprod_opp_l.
Qed.
Lemma pinv_deriv_entries : forall a b d m n A P D, entries a m n A -> entries b n m P -> entries d m n D ->
  exists c, pinv_deriv (N:=RN) a b d = Ok c /\ entries c n m (pinv_terms m n A P P D (mprod m P A)).
Proof.
  intros a b d m n A P D Ha Hb Hd. unfold pinv_deriv. change (a_shape (A:=num RN) a) with (a_shape (A:=R) a). rewrite (proj1 Ha).
  destruct (mdot_entries _ _ _ _ _ _ _ Ha Hb) as (pa & -> & Hpa). cbn [rbind].
  destruct (mdot_entries _ _ _ _ _ _ _ Hb Ha) as (ap & -> & Hap). cbn [rbind].
  destruct (mtrans_entries _ _ _ _ Hb) as (ih & -> & Hih). cbn [rbind].
  destruct (mdot_entries _ _ _ _ _ _ _ Hb Hih) as (f21 & -> & H21). cbn [rbind].
  destruct (mop_entries (n_sub RN) _ _ _ _ _ _ (meye_entries m) Hpa) as (f22 & -> & H22). cbn [rbind].
  destruct (mop_entries (n_sub RN) _ _ _ _ _ _ (meye_entries n) Hap) as (f31 & -> & H31). cbn [rbind].
  destruct (mdot_entries _ _ _ _ _ _ _ Hih Hb) as (f32 & -> & H32). cbn [rbind].
  destruct (mdot_entries _ _ _ _ _ _ _ (mneg_entries _ _ _ _ Hb) Hd) as (p & -> & Hp). cbn [rbind].
  destruct (mdot_entries _ _ _ _ _ _ _ Hp Hb) as (t1 & -> & Ht1). cbn [rbind].
  destruct (mtrans_entries _ _ _ _ Hd) as (dh & -> & Hdh). cbn [rbind].
  destruct (mdot_entries _ _ _ _ _ _ _ H21 Hdh) as (q & -> & Hq). cbn [rbind].
  destruct (mdot_entries _ _ _ _ _ _ _ Hq H22) as (t2 & -> & Ht2). cbn [rbind].
  destruct (mdot_entries _ _ _ _ _ _ _ H31 Hdh) as (r & -> & Hr). cbn [rbind].
  destruct (mdot_entries _ _ _ _ _ _ _ Hr H32) as (t3 & -> & Ht3). cbn [rbind].
  destruct (mop_entries (n_add RN) _ _ _ _ _ _ Ht1 Ht2) as (s & -> & Hs). cbn [rbind].
  destruct (mop_entries (n_add RN) _ _ _ _ _ _ Hs Ht3) as (c & Ec & Hc). exists c. split; [exact Ec|].
  eapply entries_meq; [exact Hc|]. intros i j Hi Hj. cbn [n_add n_sub ROps]. unfold pinv_terms.
  f_equal; [f_equal|].
  - now rewrite !mprod_opp_l.
  - change (fun i j => kron i j - mprod n A P i j) with (msub kron (mprod n A P)). rewrite mprod_sub_r.
    f_equal. apply (mprod_kron_r n m); auto.
  - change (fun i j => kron i j - mprod m P A i j) with (msub kron (mprod m P A)).
    rewrite mprod_msub_l, mprod_sub_l. f_equal.
    + rewrite !mprod_assoc.
      apply (mprod_kron_l n m); auto.
    + rewrite !mprod_assoc. reflexivity.
Qed.

(** ** Matrices of results *)
Lemma nominal_entries : forall fw st st' ia ir A val D dv m n, facts fw st st' ia ir A val D dv -> wf_arr ia ->
  a_shape ia = [m; n] -> nominal_matrix st ia m n (mget (N:=RN) A) /\ entries A m n (mget (N:=RN) A).
Proof.
  intros fw st st' ia ir A val D dv m n F W E. pose proof (fa_shape _ _ _ _ _ _ _ _ _ F) as Es. rewrite E in Es.
  assert (WA : wf_arr A). { unfold wf_arr in *. rewrite (fa_len _ _ _ _ _ _ _ _ _ F), W, E, Es. reflexivity. }
  pose proof (entries_own A m n Es WA) as HA. split; auto. split; auto. intros i j Hi Hj.
  destruct HA as (_ & _ & HA). specialize (HA i j Hi Hj). rewrite (elem2 _ A m n) in HA by auto. rewrite (elem2 _ ia m n) by auto.
  destruct (nth_error (a_flat ia) (i * n + j)) as [k|] eqn:Ek.
  2:{ apply nth_error_None in Ek. apply (wf2 _ ia m n E) in W. pose proof (in_range m n i j Hi Hj). lia. }
  destruct (fa_nom _ _ _ _ _ _ _ _ _ F _ _ _ Ek HA) as (p & Hp & Q). exists k, p. auto.
Qed.
Lemma deriv_entries : forall fw st st' ia ir A val D dv m n v, facts fw st st' ia ir A val D dv -> wf_arr ia ->
  a_shape ia = [m; n] -> deriv_matrix st ia m n v (mget (N:=RN) (D v)) /\ entries (D v) m n (mget (N:=RN) (D v)).
Proof.
  intros fw st st' ia ir A val D dv m n v F W E. pose proof (fa_dshape _ _ _ _ _ _ _ _ _ F v) as Es. rewrite E in Es.
  assert (WA : wf_arr (D v)). { unfold wf_arr in *. rewrite (fa_dlen _ _ _ _ _ _ _ _ _ F), W, E, Es. reflexivity. }
  pose proof (entries_own (D v) m n Es WA) as HA. split; auto. split; auto. intros i j Hi Hj.
  destruct HA as (_ & _ & HA). specialize (HA i j Hi Hj). rewrite (elem2 _ (D v) m n) in HA by auto. rewrite (elem2 _ ia m n) by auto.
  destruct (nth_error (a_flat ia) (i * n + j)) as [k|] eqn:Ek.
  2:{ apply nth_error_None in Ek. apply (wf2 _ ia m n E) in W. pose proof (in_range m n i j Hi Hj). lia. }
  exists k. split; auto. apply (fa_deriv _ _ _ _ _ _ _ _ _ F v _ _ _ Ek HA).
Qed.
Lemma nominal_matrix_unique : forall (st : state) ia m n A B, nominal_matrix st ia m n A -> nominal_matrix st ia m n B -> meq m n A B.
Proof.
  intros st ia m n A B [_ H] [_ H'] i j Hi Hj. destruct (H i j Hi Hj) as (k & p & E & Np & <-).
  destruct (H' i j Hi Hj) as (k' & p' & E' & Np' & <-). assert (k' = k) by congruence. subst. f_equal. eapply has_nominal_unique; eauto.
Qed.
Lemma deriv_matrix_unique : forall (st : state) ia m n v A B, deriv_matrix st ia m n v A -> deriv_matrix st ia m n v B -> meq m n A B.
Proof.
  intros st ia m n v A B [_ H] [_ H'] i j Hi Hj. destruct (H i j Hi Hj) as (k & E & Np).
  destruct (H' i j Hi Hj) as (k' & E' & Np'). assert (k' = k) by congruence. subst. eapply deriv_is_unique; eauto.
Qed.
Lemma nominal_matrix_meq : forall (st : state) ia m n A B, nominal_matrix st ia m n A -> meq m n A B -> nominal_matrix st ia m n B.
Proof.
  intros st ia m n A B [E H] Q. split; auto. intros i j Hi Hj. destruct (H i j Hi Hj) as (k & p & E' & Np & Hp).
  exists k, p. split; auto. split; auto. rewrite Hp. now apply Q.
Qed.
Lemma deriv_matrix_meq : forall (st : state) ia m n v A B, deriv_matrix st ia m n v A -> meq m n A B -> deriv_matrix st ia m n v B.
Proof.
  intros st ia m n v A B [E H] Q. split; auto. intros i j Hi Hj. destruct (H i j Hi Hj) as (k & E' & Np).
  exists k. split; auto. rewrite <- Q; auto.
Qed.
Lemma is_inverse_meq : forall n A A' B B', is_inverse n A B -> meq n n A A' -> meq n n B B' -> is_inverse n A' B'.
Proof.
  intros n A A' B B' [H1 H2] QA QB. split.
  - eapply meq_trans; [|exact H1]. apply (mprod_meq n n n); now apply meq_sym.
  - eapply meq_trans; [|exact H2]. apply (mprod_meq n n n); now apply meq_sym.
Qed.
Lemma is_inverse_unique : forall n A B B', is_inverse n A B -> is_inverse n A B' -> meq n n B B'.
Proof.
  intros n A B B' [H1 H2] [H1' H2'].
  eapply meq_trans; [apply meq_sym, (mprod_kron_r n n)|].
  eapply meq_trans; [apply (mprod_meq n n n); [apply meq_refl|apply meq_sym, H1']|].
  rewrite <- mprod_assoc. eapply meq_trans; [apply (mprod_meq n n n); [exact H2|apply meq_refl]|].
  apply mprod_kron_l.
Qed.
Lemma is_pinv_meq : forall m n A A' B B', is_pinv m n A B -> meq m n A A' -> meq n m B B' -> is_pinv m n A' B'.
Proof.
  intros m n A A' B B' (H1 & H2 & H3 & H4) QA QB. pose proof (meq_sym _ _ _ _ QA) as SA. pose proof (meq_sym _ _ _ _ QB) as SB.
  assert (PAB : meq m m (mprod n A' B') (mprod n A B)) by (apply (mprod_meq m n m); auto).
  assert (PBA : meq n n (mprod m B' A') (mprod m B A)) by (apply (mprod_meq n m n); auto).
  split; [|split; [|split]].
  - eapply meq_trans; [apply (mprod_meq m m n); [exact PAB|exact SA]|]. eapply meq_trans; [exact H1|exact QA].
  - eapply meq_trans; [apply (mprod_meq n n m); [exact PBA|exact SB]|]. eapply meq_trans; [exact H2|exact QB].
  - eapply meq_trans; [apply (mtr_meq m m); exact PAB|]. eapply meq_trans; [exact H3|apply meq_sym; exact PAB].
  - eapply meq_trans; [apply (mtr_meq n n); exact PBA|]. eapply meq_trans; [exact H4|apply meq_sym; exact PBA].
Qed.
Lemma mprod_zero_r : forall k A B i j, (forall p, (p < k)%nat -> B p j = 0) -> mprod k A B i j = 0.
Proof. intros k A B i j H. apply Sum_zero. intros p Hp. rewrite H by auto. ring. Qed.
Lemma mprod_zero_l : forall k A B i j, (forall p, (p < k)%nat -> A i p = 0) -> mprod k A B i j = 0.
Proof. intros k A B i j H. apply Sum_zero. intros p Hp. rewrite H by auto. ring. Qed.
Lemma terms_zero : forall m n A P0 P E Q, (forall i j, (i < m)%nat -> (j < n)%nat -> E i j = 0) ->
  forall i j, (i < n)%nat -> (j < m)%nat -> pinv_terms m n A P0 P E Q i j = 0.
Proof.
  intros m n A P0 P E Q H i j Hi Hj. unfold pinv_terms.
  rewrite (mprod_zero_l n (mprod m P E)) by (intros p Hp; apply mprod_zero_r; auto).
  rewrite (mprod_zero_r n (mprod m P (mtr P)) (mtr E)) by (intros p Hp; unfold mtr; auto).
  rewrite (mprod_zero_l m (mprod n (mprod m P (mtr P)) (mtr E))) by (intros p Hp; apply mprod_zero_r; intros q Hq; unfold mtr; auto).
  rewrite (mprod_zero_l n (mprod m (mtr E) (mtr P0)) P0) by (intros p Hp; apply mprod_zero_l; intros q Hq; unfold mtr; auto).
  rewrite (mprod_zero_r n Q). ring.
  intros p Hp. apply mprod_zero_l. intros q Hq. apply mprod_zero_l. intros r Hr. unfold mtr; auto.
Qed.
Lemma is_pinv_unique : forall m n A P P', is_pinv m n A P -> is_pinv m n A P' -> meq n m P P'.
Proof.
  intros m n A P P' H H' i j Hi Hj. pose proof (pinv_difference m n A A P P' H H' i j Hi Hj) as D.
  rewrite terms_zero in D; auto.
  - unfold msub in D. lra.
  - intros. unfold msub. ring.
Qed.

(** The result of a function of matrices, when the function and its derivatives are known. *)
Lemma matrix_result : forall fw st st' ia ir A val D dv p q (B : mx) (T : mx -> mx),
  facts fw st st' ia ir A val D dv -> entries val p q B ->
  nominal_matrix st' ir p q B.
Proof.
  intros fw st st' ia ir A val D dv p q B T F (E & W & H).
  pose proof (fa_rshape _ _ _ _ _ _ _ _ _ F) as Er. rewrite E in Er. split; auto.
  intros i j Hi Hj. specialize (H i j Hi Hj). rewrite (elem2 _ val p q) in H by auto. rewrite (elem2 _ ir p q) by auto.
  destruct (nth_error (a_flat ir) (i * q + j)) as [k|] eqn:Ek.
  2:{ apply nth_error_None in Ek. rewrite (fa_rlen _ _ _ _ _ _ _ _ _ F) in Ek. assert (i * q + j < length (a_flat val))%nat by (apply nth_error_Some; congruence). lia. }
  exists k, (PF (N:=RN) (B i j)). split; auto. split; [|reflexivity]. apply (fa_rnom _ _ _ _ _ _ _ _ _ F _ _ _ Ek H).
Qed.
Lemma matrix_deriv : forall fw st st' ia ir A val D dv m n p q v (B T : mx),
  facts fw st st' ia ir A val D dv -> wf_arr ia -> a_shape ia = [m; n] -> entries val p q B ->
  (forall c, af_deriv fw (h_var (st_heap st)) A val v (D v) = Ok c -> entries c p q T) ->
  ((forall i j, (i < m)%nat -> (j < n)%nat -> mget (N:=RN) (D v) i j = 0) -> forall i j, (i < p)%nat -> (j < q)%nat -> T i j = 0) ->
  deriv_matrix st' ir p q v T /\
  (forall i, In i (a_flat ir) -> depends st' i v -> exists i', In i' (a_flat ia) /\ depends st i' v).
Proof.
  intros fw st st' ia ir A val D dv m n p q v B T F W Ea HB HT HZ.
  destruct (matrix_result _ _ _ _ _ _ _ _ _ _ _ B (fun x => x) F HB) as [Er Hr].
  assert (Hk : forall i j, (i < p)%nat -> (j < q)%nat -> exists k, elem ir [i; j] = Some k /\ nth_error (a_flat ir) (i * q + j) = Some k).
  { intros i j Hi Hj. destruct (Hr i j Hi Hj) as (k & _ & Ek & _). exists k. split; auto. now rewrite <- (elem2 _ ir p q). }
  destruct (fa_rderiv _ _ _ _ _ _ _ _ _ F v) as [[Z N]|(U & Ed & N)].
  - split.
    + split; auto. intros i j Hi Hj. destruct (Hk i j Hi Hj) as (k & Ek & Nk). exists k. split; auto.
      rewrite HZ; auto. { apply N. eapply nth_error_In; eauto. }
      intros a b Ha Hb. pose proof (deriv_entries _ _ _ _ _ _ _ _ _ m n v F W Ea) as [_ (E1 & _ & E2)].
      specialize (E2 a b Ha Hb). rewrite (elem2 _ _ m n) in E2 by auto. apply Z. eapply nth_error_In; exact E2.
    + intros i Hi Dp. exfalso. now apply (N i Hi).
  - split.
    + split; auto. intros i j Hi Hj. destruct (Hk i j Hi Hj) as (k & Ek & Nk). exists k. split; auto.
      pose proof (HT _ Ed) as (E1 & _ & E2). specialize (E2 i j Hi Hj). rewrite (elem2 _ _ p q) in E2 by auto.
      apply (nth_error_nth _ _ 0) in E2. rewrite <- E2. now apply N.
    + intros i Hi Dp. exact U.
Qed.
Lemma entries_cls : forall (b : arr R) c m n A, entries (with_cls c b) m n A <-> entries b m n A.
Proof. intros b c m n A. unfold entries, wf_arr, elem, with_cls. cbn. tauto. Qed.

(** C49 *)
Theorem inv_result : forall linv order (st st' : state) ia ir n A,
  reachable st -> (forall l, Permutation (order l) l) -> inverts linv n A -> nominal_matrix st ia n n A ->
  array_call (inv (N:=RN) linv order) st ia (Ok ir) st' ->
  exists B, nominal_matrix st' ir n n B /\ is_inverse n A B /\
  forall v, exists D, deriv_matrix st ia n n v D /\
    deriv_matrix st' ir n n v (fun i j => - mprod n (mprod n B D) B i j) /\
    (forall i, In i (a_flat ir) -> depends st' i v -> exists i', In i' (a_flat ia) /\ depends st i' v).
Proof.
  intros linv order st st' ia ir n A Re P HI HA C.
  assert (W : wf_arr ia) by (destruct C as (a & k & W & _); exact W).
  destruct (call_facts _ _ st ia ir st' Re (uncert_conv order _ P) C) as (A0 & val & D & dv & F).
  pose proof (proj1 HA) as Ea. destruct (nominal_entries _ _ _ _ _ _ _ _ _ n n F W Ea) as [N0 E0].
  pose proof (nominal_matrix_unique _ _ _ _ _ _ N0 HA) as Q. pose proof (entries_meq _ _ _ _ _ E0 Q) as EA.
  destruct (fa_val _ _ _ _ _ _ _ _ _ F) as [c Hv]. destruct (HI _ _ EA Hv) as (B & EB & IB). apply entries_cls in EB.
  exists B. split; [eapply (matrix_result _ _ _ _ _ _ _ _ _ _ _ B (fun x => x)); eauto|]. split; auto.
  intros v. exists (mget (N:=RN) (D v)). destruct (deriv_entries _ _ _ _ _ _ _ _ _ n n v F W Ea) as [D0 ED]. split; auto.
  eapply (matrix_deriv _ _ _ _ _ _ _ _ _ n n); eauto.
  - intros c' Hc. destruct (inv_deriv_entries A0 val (D v) n B _ EB ED) as (c2 & E2 & H2).
    pose proof (eq_trans (eq_sym Hc) E2) as Qc. injection Qc; intros ->. exact H2.
  - intros Z i j Hi Hj. rewrite (mprod_zero_l n (mprod n B _)); [ring|]. intros p Hp. apply mprod_zero_r. intros q Hq. now apply Z.
Qed.
Theorem inv_derivative : forall linv order (st st' : state) ia ir n A v D (F G : nat -> nat -> R -> R) t,
  reachable st -> (forall l, Permutation (order l) l) -> inverts linv n A ->
  nominal_matrix st ia n n A -> deriv_matrix st ia n n v D ->
  array_call (inv (N:=RN) linv order) st ia (Ok ir) st' ->
  (forall i j, (i < n)%nat -> (j < n)%nat -> F i j t = A i j /\ is_derive (F i j) t (D i j)) ->
  locally t (fun s => is_inverse n (fun i j => F i j s) (fun i j => G i j s)) ->
  nominal_matrix st' ir n n (fun i j => G i j t) /\
  exists D', deriv_matrix st' ir n n v D' /\
    forall i j, (i < n)%nat -> (j < n)%nat -> is_derive (G i j) t (D' i j).
Proof.
  intros linv order st st' ia ir n A v D F G t Re P HI HA HD C HF HG.
  destruct (inv_result linv order st st' ia ir n A Re P HI HA C) as (B & NB & IB & Hv).
  pose proof (locally_singleton _ _ HG) as I0.
  assert (QB : meq n n B (fun i j => G i j t)).
  { apply (is_inverse_unique n A); auto. eapply is_inverse_meq; [exact I0| |apply meq_refl]. intros i j Hi Hj. now apply HF. }
  split; [eapply nominal_matrix_meq; eauto|].
  destruct (Hv v) as (D0 & HD0 & HR & _). pose proof (deriv_matrix_unique _ _ _ _ _ _ _ HD0 HD) as QD.
  exists (fun i j => - mprod n (mprod n (at_ G t) D) (at_ G t) i j). split.
  - eapply deriv_matrix_meq; [exact HR|]. intros i j Hi Hj. f_equal.
    apply (mprod_meq n n n); auto. apply (mprod_meq n n n); auto.
  - apply (inverse_derivative n F G t D); auto. intros i j Hi Hj. now apply HF.
Qed.

(** C50 *)
Theorem pinv_result : forall lpinv order (st st' : state) ia ir m n A,
  reachable st -> (forall l, Permutation (order l) l) -> pseudo_inverts lpinv m n A -> nominal_matrix st ia m n A ->
  array_call (pinv (N:=RN) lpinv order) st ia (Ok ir) st' ->
  exists B, nominal_matrix st' ir n m B /\ is_pinv m n A B /\
  forall v, exists D, deriv_matrix st ia m n v D /\
    deriv_matrix st' ir n m v (pinv_terms m n A B B D (mprod m B A)) /\
    (forall i, In i (a_flat ir) -> depends st' i v -> exists i', In i' (a_flat ia) /\ depends st i' v).
Proof.
  intros lpinv order st st' ia ir m n A Re P HI HA C.
  assert (W : wf_arr ia) by (destruct C as (a & k & W & _); exact W).
  destruct (call_facts _ _ st ia ir st' Re (uncert_conv order _ P) C) as (A0 & val & D & dv & F).
  pose proof (proj1 HA) as Ea. destruct (nominal_entries _ _ _ _ _ _ _ _ _ m n F W Ea) as [N0 E0].
  pose proof (nominal_matrix_unique _ _ _ _ _ _ N0 HA) as Q. pose proof (entries_meq _ _ _ _ _ E0 Q) as EA.
  destruct (fa_val _ _ _ _ _ _ _ _ _ F) as [c Hv]. destruct (HI _ _ EA Hv) as (B & EB & IB). apply entries_cls in EB.
  exists B. split; [eapply (matrix_result _ _ _ _ _ _ _ _ _ _ _ B (fun x => x)); eauto|]. split; auto.
  intros v. exists (mget (N:=RN) (D v)). destruct (deriv_entries _ _ _ _ _ _ _ _ _ m n v F W Ea) as [D0 ED]. split; auto.
  eapply (matrix_deriv _ _ _ _ _ _ _ _ _ m n); eauto.
  - intros c' Hc. destruct (pinv_deriv_entries A0 val (D v) m n A B _ EA EB ED) as (c2 & E2 & H2).
    pose proof (eq_trans (eq_sym Hc) E2) as Qc. injection Qc; intros ->. exact H2.
  - intros Z i j Hi Hj. apply terms_zero; auto.
Qed.
Theorem pinv_value : forall lpinv order (st st' : state) ia ir m n A,
  reachable st -> (forall l, Permutation (order l) l) -> pseudo_inverts lpinv m n A -> nominal_matrix st ia m n A ->
  array_call (pinv (N:=RN) lpinv order) st ia (Ok ir) st' ->
  (exists B, nominal_matrix st' ir n m B /\ is_pinv m n A B) /\
  forall v i, In i (a_flat ir) -> depends st' i v -> exists i', In i' (a_flat ia) /\ depends st i' v.
Proof.
  intros lpinv order st st' ia ir m n A Re P HI HA C.
  destruct (pinv_result lpinv order st st' ia ir m n A Re P HI HA C) as (B & NB & IB & Hv).
  split; [exists B; auto|]. intros v. now destruct (Hv v) as (D & _ & _ & H).
Qed.
Lemma terms_meq : forall m n A A' P P' E E', meq m n A A' -> meq n m P P' -> meq m n E E' ->
  meq n m (pinv_terms m n A P P E (mprod m P A)) (pinv_terms m n A' P' P' E' (mprod m P' A')).
Proof.
  intros m n A A' P P' E E' QA QP QE i j Hi Hj. unfold pinv_terms.
  pose proof (mtr_meq _ _ _ _ QP) as TP. pose proof (mtr_meq _ _ _ _ QE) as TE.
  assert (M1 : meq n m (mprod n (mprod m P E) P) (mprod n (mprod m P' E') P')) by (apply (mprod_meq n n m); auto; apply (mprod_meq n m n); auto).
  assert (M2 : meq n m (mprod n (mprod m P (mtr P)) (mtr E)) (mprod n (mprod m P' (mtr P')) (mtr E'))) by (apply (mprod_meq n n m); auto; apply (mprod_meq n m n); auto).
  assert (M3 : meq n m (mprod n (mprod m (mtr E) (mtr P)) P) (mprod n (mprod m (mtr E') (mtr P')) P')) by (apply (mprod_meq n n m); auto; apply (mprod_meq n m n); auto).
  assert (M4 : meq m m (mprod n A P) (mprod n A' P')) by (apply (mprod_meq m n m); auto).
  assert (M5 : meq n n (mprod m P A) (mprod m P' A')) by (apply (mprod_meq n m n); auto).
  rewrite (M1 i j Hi Hj), (M2 i j Hi Hj), (M3 i j Hi Hj).
  rewrite (mprod_meq n m m _ _ _ _ M2 M4 i j Hi Hj), (mprod_meq n n m _ _ _ _ M5 M3 i j Hi Hj). reflexivity.
Qed.
Theorem pinv_derivatives : forall lpinv order (st st' : state) ia ir m n A v D (F G : nat -> nat -> R -> R) t,
  reachable st -> (forall l, Permutation (order l) l) -> pseudo_inverts lpinv m n A ->
  nominal_matrix st ia m n A -> deriv_matrix st ia m n v D ->
  array_call (pinv (N:=RN) lpinv order) st ia (Ok ir) st' ->
  (forall i j, (i < m)%nat -> (j < n)%nat -> F i j t = A i j /\ is_derive (F i j) t (D i j)) ->
  locally t (fun s => is_pinv m n (fun i j => F i j s) (fun i j => G i j s)) ->
  (forall i j, (i < n)%nat -> (j < m)%nat -> continuous (G i j) t) ->
  nominal_matrix st' ir n m (fun i j => G i j t) /\
  exists D', deriv_matrix st' ir n m v D' /\
    forall i j, (i < n)%nat -> (j < m)%nat -> is_derive (G i j) t (D' i j).
Proof.
  intros lpinv order st st' ia ir m n A v D F G t Re P HI HA HD C HF HG HC.
  destruct (pinv_result lpinv order st st' ia ir m n A Re P HI HA C) as (B & NB & IB & Hv).
  pose proof (locally_singleton _ _ HG) as I0.
  assert (QA : meq m n (fun i j => F i j t) A) by (intros i j Hi Hj; now apply HF).
  assert (QB : meq n m B (fun i j => G i j t)).
  { apply (is_pinv_unique m n A); auto. eapply is_pinv_meq; [exact I0|exact QA|apply meq_refl]. }
  split; [eapply nominal_matrix_meq; eauto|].
  destruct (Hv v) as (D0 & HD0 & HR & _). pose proof (deriv_matrix_unique _ _ _ _ _ _ _ HD0 HD) as QD.
  exists (pinv_terms m n (at_ F t) (at_ G t) (at_ G t) D (mprod m (at_ G t) (at_ F t))). split.
  - eapply deriv_matrix_meq; [exact HR|]. apply terms_meq; auto. now apply meq_sym.
  - apply (pinv_derivative m n F G t D); auto. intros i j Hi Hj. now apply HF.
Qed.

(** The calls succeed when NumPy's functions do. *)
Lemma nonempty_shape : forall (a b : arr R) m n p q, a_shape a = [m; n] -> a_shape b = [p; q] -> wf_arr a -> wf_arr b ->
  (m * n = p * q)%nat -> a_flat a <> [] -> a_flat b <> [].
Proof.
  intros a b m n p q Ea Eb Wa Wb Q Na E. apply (wf2 _ a m n Ea) in Wa. apply (wf2 _ b p q Eb) in Wb. rewrite E in Wb. cbn in Wb.
  destruct (a_flat a); [auto|]. cbn in Wa. lia.
Qed.
Lemma call_succeeds : forall f FF (st : state) ia, reachable st -> behaves f FF -> wf_arr ia ->
  (forall k, In k (a_flat ia) -> exists p, has_nominal st k p) ->
  (forall A : arr R, a_shape A = a_shape ia -> wf_arr A ->
     (forall k i x, nth_error (a_flat ia) k = Some i -> nth_error (a_flat A) k = Some x -> exists p, has_nominal st i p /\ pval p = x) ->
     exists val, af_value FF A = Ok val /\
       forall c v (D : arr R), a_flat A <> [] -> (v < length (h_var (st_heap st)))%nat -> a_shape D = a_shape ia -> wf_arr D ->
         a_flat val <> [] /\ exists dv, af_deriv FF (h_var (st_heap st)) A (with_cls c val) v D = Ok dv) ->
  exists ir st', array_call f st ia (Ok ir) st'.
Proof.
  intros f FF st ia Re P Wi HN HF. destruct (reach_sim st Re) as [ss Sm]. pose proof Sm as [W V E].
  assert (Hg : exists l, get_args (st_env st) (a_flat ia) = Some l).
  { clear -HN. induction (a_flat ia) as [|k is IH]; [exists []; reflexivity|]. cbn.
    destruct (HN k) as (p & x & Ex & _); [cbn; auto|]. rewrite Ex. destruct IH as [l ->]; [intros; apply HN; cbn; auto|]. eauto. }
  destruct Hg as [fl A3]. set (a := mkArr (a_cls ia) (a_shape ia) fl).
  pose proof (get_args_rel (st_heap st) (st_env st) (ss_env ss) (a_flat ia) E) as AR. rewrite A3 in AR.
  destruct (sargs (ss_env ss) (a_flat ia)) as [sl|] eqn:Esl; [|contradiction].
  destruct (get_args_nth _ _ _ A3) as [La Na]. destruct (sargs_nth _ _ _ Esl) as [Ls Ns].
  assert (Wa : wf_arr a) by (unfold wf_arr in *; cbn; rewrite <- Wi; auto).
  destruct (P a sl (st_heap st) W AR Wa) as (r1 & h1 & [k C] & X & _ & Ho).
  assert (Hn : exists noms, noms_of sl noms).
  { assert (G : forall j sa, nth_error sl j = Some sa -> exists x, as_float (N:=RN) (snom sa) = Ok x).
    { intros j sa Ej. destruct (nth_error (a_flat ia) j) as [i|] eqn:Ei.
      2:{ apply nth_error_None in Ei. assert (j < length sl)%nat by (apply nth_error_Some; congruence). lia. }
      destruct (Na j i Ei) as (va & Ev & Eei). destruct (Forall2_nth_error _ _ _ _ _ AR _ _ Ev) as (sa' & Es' & Rl).
      assert (sa' = sa) by congruence. subst. rewrite <- (vrel_nom _ _ _ Rl).
      destruct (HN i (nth_error_In _ _ Ei)) as (p & x & Ex & Hp). assert (x = va) by congruence. subst. rewrite Hp.
      cbn. destruct p; cbn; eauto. }
    clear -G. induction sl as [|sa sl IH]; [exists []; constructor|].
    destruct (G 0%nat sa eq_refl) as [x Hx]. destruct IH as [noms Hn]. { intros j s' Ej. apply (G (S j) s' Ej). }
    exists (x :: noms). constructor; auto. }
  destruct Hn as [noms Hn]. assert (Ln : length noms = length sl) by (clear -Hn; induction Hn; cbn; auto).
  destruct (HF (np_arr a noms)) as (val & Hval & Hder).
  { reflexivity. }
  { unfold wf_arr in *. cbn. rewrite <- Wi. lia. }
  { intros j i x Hi Hx. cbn [np_arr a_flat] in Hx. destruct (Ns j i Hi) as (sa & Es & Ei).
    destruct (Forall2_nth_error _ _ _ _ _ Hn _ _ Es) as (y & Ey & Hy).
    pose proof (eq_trans (eq_sym Ey) Hx) as Qy. injection Qy; intros ->.
    destruct (Na j i Hi) as (va & Ev & Eei). destruct (Forall2_nth_error _ _ _ _ _ E _ _ Eei) as (sa' & Es' & Rl).
    assert (sa' = sa) by congruence. subst sa'. pose proof (vrel_nom _ _ _ Rl) as Q. rewrite <- Q in Hy.
    destruct (nominal_value va) as [p| | |] eqn:En; try discriminate. exists p. split; [exists va; auto|].
    unfold as_float in Hy. destruct p as [z|fl0]; cbn in Hy |- *; congruence. }
  destruct (Ho noms val Hn Hval) as [b ->].
  { intros v Hv. apply Hder; [|eapply used_bound; eauto|reflexivity|unfold wf_arr in *; cbn; rewrite map_length, <- Wi; lia].
    destruct Hv as (sa & Is & _). cbn. destruct noms; [|discriminate]. destruct sl; [destruct Is|discriminate]. }
  exists (mkArr (a_cls b) (a_shape b) (seq (length (st_env st)) (length (a_flat b)))), (mkState h1 (st_env st ++ a_flat b)).
  exists a, k. split; auto. split; [split; auto|]. exists b. split; [|split; [reflexivity|split; [reflexivity|exact C]]].
  split; [reflexivity|]. split; [reflexivity|]. cbn [a_flat st_env].
  clear. rewrite <- (app_nil_r (st_env st ++ a_flat b)), <- app_assoc. generalize (@nil (value RN)) as tl.
  generalize (st_env st) as e. induction (a_flat b) as [|x l IH]; intros e tl; [reflexivity|].
  cbn [length seq get_args]. rewrite nth_error_app2, Nat.sub_diag by lia. cbn [nth_error app].
  specialize (IH (e ++ [x]) tl). rewrite app_length, Nat.add_1_r, <- app_assoc in IH. cbn [app] in IH. now rewrite IH.
Qed.
Theorem inv_succeeds : forall linv order (st : state) ia n A,
  reachable st -> (forall l, Permutation (order l) l) -> inverts linv n A -> wf_arr ia -> nominal_matrix st ia n n A ->
  (forall a, entries a n n A -> exists b, linv a = Ok b) ->
  exists ir st', array_call (inv (N:=RN) linv order) st ia (Ok ir) st'.
Proof.
  intros linv order st ia n A Re P HI W HA HS. pose proof (proj1 HA) as Ea.
  apply (call_succeeds _ _ st ia Re (uncert_conv order _ P)); auto.
  - intros k Hk. apply In_nth_error in Hk as [j Ej]. 
    assert (Lj : (j < n * n)%nat). { apply (wf2 _ ia n n Ea) in W. rewrite <- W. apply nth_error_Some. congruence. }
    assert (n <> 0)%nat by (intros ->; lia).
    destruct (proj2 HA (j / n)%nat (j mod n)%nat) as (k' & p & E & Hp & _).
    + apply Nat.div_lt_upper_bound; auto.
    + now apply Nat.mod_upper_bound.
    + rewrite (elem2 _ ia n n) in E by auto. rewrite (Nat.mul_comm (j / n)), <- Nat.div_mod in E by auto.
      assert (k' = k) by congruence. subst. eauto.
  - intros A0 E0 W0 H0.
    assert (EA : entries A0 n n A).
    { rewrite Ea in E0. split; auto. split; auto. intros i j Hi Hj. rewrite (elem2 _ A0 n n) by auto.
      destruct (proj2 HA i j Hi Hj) as (k & p & Ek & Hp & <-). rewrite (elem2 _ ia n n) in Ek by auto.
      destruct (nth_error (a_flat A0) (i * n + j)) as [x|] eqn:Ex.
      - destruct (H0 _ _ _ Ek Ex) as (p' & Hp' & <-). f_equal. f_equal. eapply has_nominal_unique; eauto.
      - exfalso. apply nth_error_None in Ex. apply (wf2 _ A0 n n E0) in W0. pose proof (in_range n n i j Hi Hj). lia. }
    destruct (HS _ EA) as [b Hb]. destruct (HI _ _ EA Hb) as (B & EB & _). exists b. split; auto.
    intros c v D NA _ ED WD. rewrite Ea in ED. pose proof (entries_own D n n ED WD) as HD. split.
    { apply (nonempty_shape A0 b n n n n (proj1 EA) (proj1 EB) W0 (proj1 (proj2 EB))); auto. }
    destruct (inv_deriv_entries A0 (with_cls c b) D n B _ (proj2 (entries_cls _ _ _ _ _) EB) HD) as (dv & Hdv & _). eauto.
Qed.
Theorem pinv_succeeds : forall lpinv order (st : state) ia m n A,
  reachable st -> (forall l, Permutation (order l) l) -> pseudo_inverts lpinv m n A -> wf_arr ia -> nominal_matrix st ia m n A ->
  (forall a, entries a m n A -> exists b, lpinv a = Ok b) ->
  exists ir st', array_call (pinv (N:=RN) lpinv order) st ia (Ok ir) st'.
Proof.
  intros lpinv order st ia m n A Re P HI W HA HS. pose proof (proj1 HA) as Ea.
  apply (call_succeeds _ _ st ia Re (uncert_conv order _ P)); auto.
  - intros k Hk. apply In_nth_error in Hk as [j Ej]. 
    assert (Lj : (j < m * n)%nat). { apply (wf2 _ ia m n Ea) in W. rewrite <- W. apply nth_error_Some. congruence. }
    assert (n <> 0)%nat by (intros ->; lia).
    destruct (proj2 HA (j / n)%nat (j mod n)%nat) as (k' & p & E & Hp & _).
    + apply Nat.div_lt_upper_bound; auto. lia.
    + now apply Nat.mod_upper_bound.
    + rewrite (elem2 _ ia m n) in E by auto. rewrite (Nat.mul_comm (j / n)), <- Nat.div_mod in E by auto.
      assert (k' = k) by congruence. subst. eauto.
  - intros A0 E0 W0 H0.
    assert (EA : entries A0 m n A).
    { rewrite Ea in E0. split; auto. split; auto. intros i j Hi Hj. rewrite (elem2 _ A0 m n) by auto.
      destruct (proj2 HA i j Hi Hj) as (k & p & Ek & Hp & <-). rewrite (elem2 _ ia m n) in Ek by auto.
      destruct (nth_error (a_flat A0) (i * n + j)) as [x|] eqn:Ex.
      - destruct (H0 _ _ _ Ek Ex) as (p' & Hp' & <-). f_equal. f_equal. eapply has_nominal_unique; eauto.
      - exfalso. apply nth_error_None in Ex. apply (wf2 _ A0 m n E0) in W0. pose proof (in_range m n i j Hi Hj). lia. }
    destruct (HS _ EA) as [b Hb]. destruct (HI _ _ EA Hb) as (B & EB & _). exists b. split; auto.
    intros c v D NA _ ED WD. rewrite Ea in ED. pose proof (entries_own D m n ED WD) as HD. split.
    { apply (nonempty_shape A0 b m n n m (proj1 EA) (proj1 EB) W0 (proj1 (proj2 EB))); auto. lia. }
    destruct (pinv_deriv_entries A0 (with_cls c b) D m n A B _ EA (proj2 (entries_cls _ _ _ _ _) EB) HD) as (dv & Hdv & _). eauto.
Qed.
(** Older results are not affected. *)
Lemma call_unaffected : forall f FF (st st' : state) ia r k ins o o',
  reachable st -> behaves f FF -> array_call f st ia r st' ->
  In ins [IDeriv k; IStd k; IErrs k; IBool k] -> (k < length (st_env st))%nat ->
  reads st ins o -> reads st' ins o' -> same_out o o'.
Proof.
  intros f FF st st' ia r k ins o o' Re P (a & k0 & Wi & (A1 & A2 & A3) & H) Hin Hk R1 R2.
  destruct (reach_sim st Re) as [ss Sm]. pose proof Sm as [W V E].
  pose proof (get_args_rel (st_heap st) (st_env st) (ss_env ss) (a_flat ia) E) as AR. rewrite A3 in AR.
  destruct (sargs (ss_env ss) (a_flat ia)) as [sl|] eqn:Esl; [|contradiction].
  destruct (get_args_nth _ _ _ A3) as [La Na].
  assert (Wa : wf_arr a) by (unfold wf_arr in *; rewrite A2, <- Wi; auto).
  destruct (P a sl (st_heap st) W AR Wa) as (r1 & h1 & [k1 C] & X & _ & _).
  assert (Q : h1 = st_heap st' /\ exists tl, st_env st' = st_env st ++ tl).
  { destruct r as [ir|e].
    - destruct H as (b & _ & He & _ & Hf). specialize (Hf (max k0 k1) ltac:(lia)). rewrite C in Hf by lia.
      injection Hf; intros -> _. eauto.
    - destruct H as (He & Hf). specialize (Hf (max k0 k1) ltac:(lia)). rewrite C in Hf by lia.
      injection Hf; intros -> _. split; auto. exists []. now rewrite app_nil_r. }
  destruct Q as [-> [tl Et]].
  assert (S' : sim (mkState (st_heap st') (st_env st)) ss).
  { destruct st as [h env], ss as [vs senv]. exact (sim_hext _ _ _ _ _ Sm X). }
  assert (R3 : reads (mkState (st_heap st') (st_env st)) ins o').
  { destruct R2 as (st2 & k2 & Hk2). destruct st' as [h' env']. cbn [st_heap st_env] in *. subst env'.
    assert (G : forall fuel, snd (step fuel (mkState h' (st_env st)) ins) = snd (step fuel (mkState h' (st_env st ++ tl)) ins) /\
       st_heap (fst (step fuel (mkState h' (st_env st)) ins)) = st_heap (fst (step fuel (mkState h' (st_env st ++ tl)) ins)) /\
       st_env (fst (step fuel (mkState h' (st_env st)) ins)) = st_env st).
    { intros fuel. destruct Hin as [<-|[<-|[<-|[<-|[]]]]]; cbn [step]; unfold with_uf, with_val; cbn [st_env st_heap];
        (rewrite nth_error_app1 by auto); destruct (nth_error (st_env st) k) as [[p|u]|]; cbn; auto;
        unfold observe; match goal with |- context [match ?m with _ => _ end] => destruct m as [[x|e] h2] end; cbn; auto. }
    exists (mkState (st_heap st2) (st_env st)), k2. intros fuel Hf. specialize (Hk2 fuel Hf). destruct (G fuel) as (G1 & G2 & G3).
    rewrite Hk2 in G1, G2. cbn in G1, G2. destruct (step fuel (mkState h' (st_env st)) ins) as [[h3 e3] o3]. cbn in *. now subst. }
  eapply out_ok_same; [exact (reads_sim _ _ _ _ Sm R1)|exact (reads_sim _ _ _ _ S' R3)].
Qed.
Theorem array_unaffected : forall order fw (st st' : state) ia r k ins o o',
  reachable st -> (forall l, Permutation (order l) l) -> array_call (uncert_func order fw) st ia r st' ->
  In ins [IDeriv k; IStd k; IErrs k; IBool k] -> (k < length (st_env st))%nat ->
  reads st ins o -> reads st' ins o' -> same_out o o'.
Proof. intros order fw st st' ia r k ins o o' Re P. exact (call_unaffected _ _ st st' ia r k ins o o' Re (uncert_conv order fw P)). Qed.
End InvThm.
