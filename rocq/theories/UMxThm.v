(** Operators on arrays and products of matrices of numbers with uncertainties. *)
From Coq Require Import ZArith List Bool Reals Lra Lia Arith Permutation.
From Coquelicot Require Import Coquelicot.
From Verif Require Import Base Heap Affine Ops UMath NumR HeapSpec HeapProofs DenProofs Machine Spec
  Refine RefineStep Unumpy UMatrix History CovSpec UnumpySpec MatrixSpec CovProofs ArrProofs MxProofs InvConv UMxConv HistoryProofs
  ChainProofs InvThm VecProofs PrimReg.
Import ListNotations.
Local Open Scope R_scope.

(** ** Vocabulary *)
(** The four operators on real numbers, with their partial derivatives. *)
Definition real_op (op : binop) (x y : R) : R :=
  match op with Badd => x + y | Bsub => x - y | Bmul => x * y | _ => x / y end.
Definition real_dx (op : binop) (x y : R) : R :=
  match op with Badd => 1 | Bsub => 1 | Bmul => y | _ => 1 / y end.
Definition real_dy (op : binop) (x y : R) : R :=
  match op with Badd => 1 | Bsub => -1 | Bmul => x | _ => - x / y ^ 2 end.

(** ** In any arithmetic *)
Section Any.
Context {N : NumOps}.
(** Operator statements, one after the other. *)
Lemma bins_run : forall op (ls : list (nat * nat)) (al : list (value N * value N)) env h r h',
  Forall2 (fun is al => nth_error env (fst is) = Some (fst al) /\ nth_error env (snd is) = Some (snd al)) ls al ->
  calls (fun p => py_binop op (fst p) (snd p)) al h r h' ->
  runs (mkState h env) (map (fun is => IBin op (fst is) (snd is)) ls) (mkState h' (env ++ r)) (repeat ONone (length ls)).
Proof.
  intros op ls al env h r h' F C. revert ls env F. induction C as [h|l al h b h1 r h2 E C IH]; intros ls env F.
  - inversion F; subst. exists 0%nat. intros. cbn. now rewrite app_nil_r.
  - inversion F as [|[i j] ? ls' ? [G1 G2] F']; subst. cbn [fst snd] in *.
    destruct (IH ls' (env ++ [b])) as [k Hk].
    { clear -F'. induction F' as [|is l ls al [G1 G2] F IH]; constructor; auto.
      split; (rewrite nth_error_app1; [assumption|]); apply nth_error_Some; congruence. }
    exists k. intros fuel Hf. cbn [map run step fst snd get_args st_env st_heap]. rewrite G1, G2. rewrite E.
    cbn [push st_env st_heap]. rewrite Hk by auto. cbn. rewrite <- app_assoc. reflexivity.
Qed.
(** other * m, for a matrix [other]. *)
Theorem rmul_matrix : forall (self other : arr (value N)), a_shape other <> [] ->
  matrix_rmul self other = obj_matmul other self.
Proof. intros self other H. unfold matrix_rmul. destruct (a_shape other); [contradiction|reflexivity]. Qed.
Theorem operator_elementwise : forall op (st st' : state N) ia ja sh ir,
  broadcasts (a_shape ia) (a_shape ja) sh ->
  (forall idx i j, valid sh idx -> pair_at ia ja idx i j -> exists u, is_number st i u \/ is_number st j u) ->
  array_call2 (array_op op) st ia ja (Ok ir) st' ->
  a_shape ir = sh /\
  exists prog, runs st prog st' (repeat ONone (length prog)) /\
    Forall2 (fun idx ins => exists i j, pair_at ia ja idx i j /\ ins = IBin op i j) (indices sh) prog.
Proof.
  intros op [h env] [h' env'] ia ja sh ir Bs Un (a & b & Wi & Wj & (A1 & A2 & A3) & (B1 & B2 & B3) & c & (C1 & C2 & C3) & He & Hf & H).
  cbn [st_heap st_env] in *. subst env'.
  assert (Wa : wf_arr a). { unfold wf_arr in *. rewrite A2, <- Wi. eapply get_args_length; eauto. }
  assert (Wb : wf_arr b). { unfold wf_arr in *. rewrite B2, <- Wj. eapply get_args_length; eauto. }
  rewrite <- A2, <- B2 in Bs.
  unfold array_op in H. apply (proj1 (vectorize2 _ _ _ a b sh h c h' Wa Wb Bs)) in H as (_ & Hs & l & El & C). split; [congruence|].
  assert (G : forall (x : arr (value N)) (ix : arr nat), a_shape x = a_shape ix -> get_args env (a_flat ix) = Some (a_flat x) ->
     forall idx y, elem x idx = Some y -> exists i, elem ix idx = Some i /\ nth_error env i = Some y).
  { intros x ix Es Eg idx y. unfold elem. rewrite Es. generalize (rank (a_shape ix) idx). clear -Eg. revert Eg.
    generalize (a_flat x). induction (a_flat ix) as [|i is IH]; intros fl E; cbn in E.
    - injection E; intros <-. intros [|n]; discriminate.
    - destruct (nth_error env i) as [z|] eqn:Ez; [|discriminate]. destruct (get_args env is) as [l'|]; [|discriminate].
      injection E; intros <-. intros [|n] Hn; cbn in *; [exists i; split; congruence|]. eapply IH; eauto. }
  assert (P : exists ls al, l = map (fun p => [fst p; snd p]) al /\
     List.Forall (fun p => exists u, fst p = VUF u \/ snd p = VUF u) al /\
     Forall2 (fun is al => nth_error env (fst is) = Some (fst al) /\ nth_error env (snd is) = Some (snd al)) ls al /\
     Forall2 (fun idx is => pair_at ia ja idx (fst is) (snd is)) (indices sh) ls).
  { assert (Vi : forall idx, In idx (indices sh) -> valid sh idx) by (intros idx; apply indices_valid).
    clear C. revert l El Vi. induction (indices sh) as [|idx t IH]; intros l El Vi.
    - destruct l; [|discriminate]. exists [], []. repeat split; constructor.
    - destruct l as [|x l]; [discriminate|]. cbn [map] in El.
      destruct (elem a (shown (a_shape a) idx)) as [p|] eqn:E1; [|discriminate].
      destruct (elem b (shown (a_shape b) idx)) as [q|] eqn:E2; [|discriminate].
      injection El; intros El' ->. destruct (IH l El') as (ls & al & -> & U & F1 & F2). { intros; apply Vi; cbn; auto. }
      destruct (G a ia A2 A3 _ _ E1) as (i & Ei & Ni). destruct (G b ja B2 B3 _ _ E2) as (j & Ej & Nj).
      assert (Pa : pair_at ia ja idx i j) by (split; congruence).
      destruct (Un idx i j (Vi idx (or_introl eq_refl)) Pa) as (u & Hu).
      exists ((i, j) :: ls), ((p, q) :: al). repeat split; try constructor; auto.
      exists u. unfold is_number in Hu. cbn [st_env fst snd] in *. destruct Hu; [left|right]; congruence. }
  destruct P as (ls & al & -> & U & F1 & F2). exists (map (fun is => IBin op (fst is) (snd is)) ls). split.
  - rewrite map_length. eapply bins_run; eauto. apply calls_map in C.
    eapply calls_ext; [|exact C]. intros [p q] h0 I. cbn [fst snd].
    rewrite Forall_forall in U. destruct (U _ I) as (u & [Q|Q]); cbn in Q; subst; [reflexivity|destruct p as [[]|]; reflexivity].
  - clear -F2. induction F2 as [|idx is t ls P F IH]; cbn [map]; constructor; eauto.
Qed.
End Any.

(** ** Over exact numbers *)
Section UMxThm.
Context {g lg : R -> R}.
Notation RN := (ROps g lg).
Notation state := (state RN).
Notation sval := (sval g lg).
Local Open Scope res_scope.

Definition four (op : binop) : Prop := op = Badd \/ op = Bsub \/ op = Bmul \/ op = Btruediv.

Lemma Rdiv_py_ok : forall x y, y <> 0 -> Rdiv_py x y = Ok (x / y).
Proof. intros. unfold Rdiv_py. destruct (Reqb y 0) eqn:E; auto. apply Reqb_true in E. contradiction. Qed.
Lemma Rdiv_py_0 : forall x, Rdiv_py x 0 = Err EZeroDiv.
Proof. intros. unfold Rdiv_py. destruct (Reqb 0 0) eqn:E; auto. apply Reqb_false in E. contradiction. Qed.

(** The operators on elements: value, derivatives, dependences. *)
Lemma sop_R : forall op (a b : sval) p q, four op -> snom a = PNum p -> snom b = PNum q ->
  (op = Btruediv -> pval q <> 0) ->
  exists c r, sop op a b = Ok c /\ snom c = PNum r /\ pval r = real_op op (pval p) (pval q) /\
    (forall v, sgrad c v = real_dx op (pval p) (pval q) * sgrad a v + real_dy op (pval p) (pval q) * sgrad b v) /\
    (forall v, In v (sdeps c) <-> In v (sdeps a) \/ In v (sdeps b)).
Proof.
  intros op a b p q F Ha Hb Nz.
  assert (Ex : exists x, op_der_x op p q = Ok x /\ pval x = real_dx op (pval p) (pval q)).
  { destruct F as [->|[->|[->| ->]]]; cbn [op_der_x real_dx]; try (eexists; split; [reflexivity|reflexivity]).
    destruct (pn_div_R (PZ (N:=RN) 1) q (Nz eq_refl)) as (r & E & V). exists r. split; auto. }
  assert (Ey : exists y, op_der_y op p q = Ok y /\ pval y = real_dy op (pval p) (pval q)).
  { destruct F as [->|[->|[->| ->]]]; cbn [op_der_y real_dy]; try (eexists; split; [reflexivity|cbn; lra]).
    destruct (pn_square_R q) as (s & Es & Vs). rewrite Es. cbn [rbind].
    destruct (pn_div_R (pn_neg p) s) as (r & E & V). { rewrite Vs. apply pow_nonzero. now apply Nz. }
    exists r. split; auto. rewrite V, Vs. f_equal. destruct p; cbn; [apply opp_IZR|reflexivity]. }
  assert (Ev : float_op (N:=RN) op (pval p) (pval q) = Ok (PNum (PF (N:=RN) (real_op op (pval p) (pval q))))).
  { destruct F as [->|[->|[->| ->]]]; try reflexivity. cbn [float_op n_div ROps real_op].
    rewrite Rdiv_py_ok by now apply Nz. reflexivity. }
  destruct Ex as (x & Ex & Vx), Ey as (y & Ey & Vy).
  destruct a as [pa|na gra dsa va].
  - cbn in Ha. subst pa. destruct b as [pb|nb grb dsb vb].
    + cbn in Hb. subst pb. cbn [sop].
      assert (Q : exists r, pn_op (N:=RN) op p q = Ok (PNum r) /\ pval r = real_op op (pval p) (pval q)).
      { destruct F as [->|[->|[->| ->]]]; cbn [pn_op real_op].
        - destruct p, q; cbn; eexists; split; try reflexivity; cbn; rewrite ?plus_IZR; reflexivity.
        - destruct p, q; cbn; eexists; split; try reflexivity; cbn; rewrite ?minus_IZR; reflexivity.
        - destruct p, q; cbn; eexists; split; try reflexivity; cbn; rewrite ?mult_IZR; reflexivity.
        - destruct (pn_div_R p q (Nz eq_refl)) as (r & E & V). rewrite E. cbn. eauto. }
      destruct Q as (r & Er & Vr). rewrite Er. cbn. exists (SPlain (PNum r)), r. repeat split; auto; cbn; try tauto. intros; ring.
    + cbn in Hb. injection Hb; intros <-. cbn [pval] in *.
      exists (SUF (real_op op (pval p) nb) (lin_grad [(pval y, SUF (g:=g) (lg:=lg) nb grb dsb vb)])
                (lin_deps [(pval y, SUF (g:=g) (lg:=lg) nb grb dsb vb)]) None), (PF (N:=RN) (real_op op (pval p) nb)).
      split; [|split; [reflexivity|split; [reflexivity|split]]].
      * cbn [sop]. unfold sbin. cbn [is_suf]. unfold scall. cbn [existsb is_suf orb map snom].
        cbn [float_rmethod]. rewrite pn_float_R. cbn [rbind]. rewrite Ev. cbn [rbind spos is_suf skws rop_pos].
        rewrite Ey. cbn. reflexivity.
      * intros v. cbn. rewrite Vy. ring.
      * intros v. cbn. rewrite app_nil_r. tauto.
  - cbn in Ha. injection Ha; intros <-. cbn [pval] in *.
    destruct b as [pb|nb grb dsb vb].
    + cbn in Hb. subst pb.
      exists (SUF (real_op op na (pval q)) (lin_grad [(pval x, SUF (g:=g) (lg:=lg) na gra dsa va)])
                (lin_deps [(pval x, SUF (g:=g) (lg:=lg) na gra dsa va)]) None), (PF (N:=RN) (real_op op na (pval q))).
      split; [|split; [reflexivity|split; [reflexivity|split]]].
      * cbn [sop]. unfold sbin. cbn [is_suf]. unfold scall. cbn [existsb is_suf orb map snom].
        cbn [float_method]. rewrite pn_float_R. cbn [rbind]. rewrite Ev. cbn [rbind spos is_suf skws op_pos].
        rewrite Ex. cbn. reflexivity.
      * intros v. cbn. rewrite Vx. ring.
      * intros v. cbn. rewrite app_nil_r. tauto.
    + cbn in Hb. injection Hb; intros <-. cbn [pval] in *.
      exists (SUF (real_op op na nb) (lin_grad [(pval x, SUF (g:=g) (lg:=lg) na gra dsa va); (pval y, SUF nb grb dsb vb)])
                (lin_deps [(pval x, SUF (g:=g) (lg:=lg) na gra dsa va); (pval y, SUF nb grb dsb vb)]) None), (PF (N:=RN) (real_op op na nb)).
      split; [|split; [reflexivity|split; [reflexivity|split]]].
      * cbn [sop]. unfold sbin. cbn [is_suf]. unfold scall. cbn [existsb is_suf orb map snom].
        cbn [float_method pn_float rbind]. rewrite Ev. cbn [rbind spos is_suf skws op_pos].
        rewrite Ex. cbn [rbind]. rewrite Ey. cbn. reflexivity.
      * intros v. cbn. rewrite Vx, Vy. ring.
      * intros v. cbn. rewrite app_nil_r, in_app_iff. tauto.
Qed.

Lemma sop_div0 : forall (a b : sval) p q, snom a = PNum p -> snom b = PNum q -> pval q = 0 ->
  exists e, sop Btruediv a b = Err e.
Proof.
  intros a b p q Ha Hb Z.
  assert (D : forall x, Rdiv_py x (pval q) = Err EZeroDiv) by (intros; rewrite Z; apply Rdiv_py_0).
  destruct a as [pa|na gra dsa va]; destruct b as [pb|nb grb dsb vb]; cbn in Ha, Hb.
  - subst pa pb. assert (pn_div p q = Err EZeroDiv) as E by (destruct p, q; cbn in *; now rewrite D).
    cbn [sop pn_op]. rewrite E. cbn. eauto.
  - subst pa. injection Hb; intros <-. cbn [pval] in *. cbn [sop]. unfold sbin. cbn [is_suf]. unfold scall. cbn [existsb is_suf orb map snom].
    cbn [float_rmethod]. rewrite pn_float_R. cbn [rbind float_op n_div ROps]. rewrite D. cbn. eauto.
  - subst pb. injection Ha; intros <-. cbn [sop]. unfold sbin. cbn [is_suf]. unfold scall. cbn [existsb is_suf orb map snom].
    cbn [float_method]. rewrite pn_float_R. cbn [rbind float_op n_div ROps]. rewrite D. cbn. eauto.
  - injection Ha; injection Hb; intros <- <-. cbn [pval] in *. cbn [sop]. unfold sbin. cbn [is_suf]. unfold scall. cbn [existsb is_suf orb map snom].
    cbn [float_method pn_float rbind float_op n_div ROps]. rewrite D. cbn. eauto.
Qed.

(** ** Dot products *)
Definition nomR (a : sval) : R := match snom a with PNum p => pval p | _ => 0 end.
Definition numeric (a : sval) : Prop := exists p, snom a = PNum p.
Lemma numeric_nomR : forall a p, snom a = PNum p -> nomR a = pval p.
Proof. intros a p H. unfold nomR. now rewrite H. Qed.
Definition nsum (l : list (sval * sval)) : R := Rsum (map (fun p => nomR (fst p) * nomR (snd p)) l).
Definition gsum (v : varid) (l : list (sval * sval)) : R :=
  Rsum (map (fun p => nomR (snd p) * sgrad (fst p) v + nomR (fst p) * sgrad (snd p) v) l).
Definition in_deps (v : varid) (l : list (sval * sval)) : Prop :=
  exists p, In p l /\ (In v (sdeps (fst p)) \/ In v (sdeps (snd p))).
Lemma sdot_from_R : forall l acc, numeric acc -> List.Forall (fun p => numeric (fst p) /\ numeric (snd p)) l ->
  exists c, sdot_from acc l = Ok c /\ numeric c /\ nomR c = nomR acc + nsum l /\
    (forall v, sgrad c v = sgrad acc v + gsum v l) /\
    (forall v, In v (sdeps c) <-> In v (sdeps acc) \/ in_deps v l).
Proof.
  induction l as [|[x y] l IH]; intros acc Na F; cbn [sdot_from].
  - exists acc. split; auto. split; auto. unfold nsum, gsum, in_deps. cbn. repeat split; intros; try lra; auto.
    destruct H as [H|(p & [] & _)]; auto.
  - inversion F as [|? ? [(p & Hp) (q & Hq)] F']; subst. cbn [fst snd] in *. destruct Na as (n & Hn).
    destruct (sop_R Bmul x y p q) as (z & r & -> & Hz & Vz & Gz & Dz); auto; [unfold four; auto|discriminate|]. cbn [rbind].
    destruct (sop_R Badd acc z n r) as (s & t & -> & Hs & Vs & Gs & Ds); auto; [unfold four; auto|discriminate|]. cbn [rbind].
    destruct (IH s) as (c & E & Nc & Vc & Gc & Dc); auto; [now exists t|].
    exists c. split; auto. split; auto. split; [|split].
    + rewrite Vc. rewrite (numeric_nomR _ _ Hs), Vs, (numeric_nomR _ _ Hn). unfold nsum. cbn [map Rsum fst snd].
      rewrite (numeric_nomR _ _ Hp), (numeric_nomR _ _ Hq), Vz. cbn [real_op]. ring.
    + intros v. rewrite Gc, Gs, Gz. unfold gsum. cbn [map Rsum fst snd real_dx real_dy].
      rewrite (numeric_nomR _ _ Hp), (numeric_nomR _ _ Hq). ring.
    + intros v. rewrite Dc, Ds, Dz. unfold in_deps. split.
      * intros [[H|H]|(p0 & I & H)]; auto; right; [exists (x, y)|exists p0]; cbn; auto.
      * intros [H|(p0 & [<-|I] & H)]; auto. right. eauto.
Qed.
Lemma sdot_R : forall l, l <> [] -> List.Forall (fun p => numeric (fst p) /\ numeric (snd p)) l ->
  exists c, sdot l = Ok c /\ numeric c /\ nomR c = nsum l /\ (forall v, sgrad c v = gsum v l) /\
    (forall v, In v (sdeps c) <-> in_deps v l).
Proof.
  intros [|[x y] l] N F; [congruence|]. inversion F as [|? ? [(p & Hp) (q & Hq)] F']; subst. cbn [fst snd] in *.
  cbn [sdot]. destruct (sop_R Bmul x y p q) as (z & r & -> & Hz & Vz & Gz & Dz); auto; [unfold four; auto|discriminate|]. cbn [rbind].
  destruct (sdot_from_R l z) as (c & E & Nc & Vc & Gc & Dc); auto; [now exists r|].
  exists c. split; auto. split; auto. split; [|split].
  - rewrite Vc, (numeric_nomR _ _ Hz), Vz. unfold nsum. cbn [map Rsum fst snd real_op].
    now rewrite (numeric_nomR _ _ Hp), (numeric_nomR _ _ Hq).
  - intros v. rewrite Gc, Gz. unfold gsum. cbn [map Rsum fst snd real_dx real_dy].
    now rewrite (numeric_nomR _ _ Hp), (numeric_nomR _ _ Hq).
  - intros v. rewrite Dc, Dz. unfold in_deps. split.
    + intros [H|(p0 & I & H)]; [exists (x, y)|exists p0]; cbn; auto.
    + intros (p0 & [<-|I] & H); auto. right. eauto.
Qed.

(** ** Calls on the results of a program *)
Lemma Forall2_length : forall A B (P : A -> B -> Prop) l l', Forall2 P l l' -> length l = length l'.
Proof. induction 1; cbn; auto. Qed.
Arguments Forall2_length {A B P l l'} _.
Definition sarr (cls : acls) (ia : arr nat) (sl : list sval) : arr sval := mkArr cls (a_shape ia) sl.
Lemma call2_elems : forall f (st : state) ss ia ja ir st', sim st ss -> array_call2 f st ia ja (Ok ir) st' ->
  exists a b sla slb, wf_arr ia /\ wf_arr ja /\ array_of st ia a /\ array_of st ja b /\
    sargs (ss_env ss) (a_flat ia) = Some sla /\ sargs (ss_env ss) (a_flat ja) = Some slb /\
    arel (st_heap st) a (sarr (a_cls a) ia sla) /\ arel (st_heap st) b (sarr (a_cls b) ja slb) /\
    forall ok sh sf, gives (st_heap st) (f a b (st_heap st)) ok sh sf ->
      a_shape ir = sh /\ wf_arr ir /\ exists ss', sim st' ss' /\ (exists ne, ss_env ss' = ss_env ss ++ ne) /\
      forall idx, valid sh idx -> exists k s, elem ir idx = Some k /\ nth_error (ss_env ss') k = Some s /\ sf idx = Ok s.
Proof.
  intros f st ss ia ja ir st' S (a & b & Wi & Wj & Aa & Ab & c & Ac & He & Hf & H).
  destruct (call_arel _ _ _ _ S Aa) as (sla & Ea & Ra). destruct (call_arel _ _ _ _ S Ab) as (slb & Eb & Rb).
  exists a, b, sla, slb. repeat split; try apply Aa; try apply Ab; auto.
  - symmetry; apply Aa.
  - apply Ra.
  - symmetry; apply Ab.
  - apply Rb.
  - rewrite H in H0. destruct H0 as [X (Hs & _)]. destruct Ac as (_ & C2 & _). congruence.
  - rewrite H in H0. destruct H0 as [X (Hs & sl & F1 & F2)]. cbn in F2. unfold wf_arr. destruct Ac as (_ & C2 & _).
    rewrite Hf, seq_length, (Forall2_length F2), <- (Forall2_length F1), indices_length. congruence.
  - rewrite H in H0. destruct H0 as [X (Hs & sl & F1 & F2)]. cbn in X, Hs, F2.
    exists (mkS (ss_vars ss) (ss_env ss ++ sl)). destruct st as [h env], ss as [vs senv], st' as [h' env'].
    cbn [st_heap st_env ss_vars ss_env] in *. split; [|split; [eauto|]].
    + subst env'. pose proof (sim_hext _ _ _ _ _ S X) as [W1 V1 E1]. split; cbn in *; auto. apply Forall2_app; auto.
    + intros idx V. pose proof (nth_indices sh idx V) as Q.
      destruct (Forall2_nth_error _ _ _ _ _ F1 _ _ Q) as (s & Es & Hs').
      exists (length env + rank sh idx)%nat, s. split; [|split; auto].
      * unfold elem. destruct Ac as (_ & C2 & _). rewrite <- C2, Hs, Hf.
        assert (L : (rank sh idx < length (a_flat c))%nat).
        { rewrite (Forall2_length F2). apply nth_error_Some. congruence. }
        rewrite (nth_error_nth' _ 0%nat) by now rewrite seq_length. now rewrite seq_nth.
      * pose proof (sim_len _ _ S) as L. cbn in L. rewrite L. rewrite nth_error_app2 by lia.
        now replace (length senv + rank sh idx - length senv)%nat with (rank sh idx) by lia.
Qed.
(** Elements of the arguments. *)
Lemma arg_elem : forall (ss : sstate g lg) ia cls sl idx k, sargs (ss_env ss) (a_flat ia) = Some sl ->
  elem ia idx = Some k -> exists s, elem (sarr cls ia sl) idx = Some s /\ nth_error (ss_env ss) k = Some s.
Proof.
  intros ss ia cls sl idx k E H. unfold elem in *. cbn. destruct (sargs_nth _ _ _ E) as [_ Ns].
  destruct (Ns _ _ H) as (s & E1 & E2). eauto.
Qed.

Lemma all_some_total : forall A B (k : A -> option B) l, (forall a, In a l -> exists b, k a = Some b) ->
  exists r, all_some (map k l) = Some r /\ Forall2 (fun a b => k a = Some b) l r.
Proof.
  intros A B k. induction l as [|a l IH]; intros H; cbn.
  - exists []. auto.
  - destruct (H a (or_introl eq_refl)) as (b & Eb). rewrite Eb. destruct IH as (r & -> & F); [intros; apply H; cbn; auto|].
    exists (b :: r). auto.
Qed.
Lemma Rsum_Forall2 : forall A B (P : A -> B -> Prop) (F : A -> R) (G : B -> R) l l', Forall2 P l l' ->
  (forall a b, P a b -> In a l -> F a = G b) -> Rsum (map F l) = Rsum (map G l').
Proof.
  intros A B P F G l l' H. induction H as [|a b l l' Pab H IH]; intros Q; cbn; [reflexivity|].
  rewrite (Q a b) by (cbn; auto). f_equal. apply IH. intros; apply Q; cbn; auto.
Qed.
Lemma elem_valid2 : forall m n i j, (i < m)%nat -> (j < n)%nat -> valid [m; n] [i; j].
Proof. intros. repeat constructor; auto. Qed.
Lemma numeric_elem : forall (st : state) ss k p, sim st ss -> has_nominal st k p -> forall s, nth_error (ss_env ss) k = Some s ->
  snom s = PNum p.
Proof. intros st ss k p S H s E. destruct (has_nominal_snom st ss k p S H) as (a & Ea & Na). congruence. Qed.

(** A row and a column, in terms of observations. *)
Lemma row_col_facts : forall (st : state) ss ia ja ca cb sla slb m k n A B i j, sim st ss ->
  sargs (ss_env ss) (a_flat ia) = Some sla -> sargs (ss_env ss) (a_flat ja) = Some slb ->
  nominal_matrix st ia m k A -> nominal_matrix st ja k n B -> (i < m)%nat -> (j < n)%nat ->
  exists l, row_col (sarr ca ia sla) (sarr cb ja slb) k i j = Some l /\ length l = k /\
    List.Forall (fun p => numeric (fst p) /\ numeric (snd p)) l /\ nsum l = mprod k A B i j /\
    (forall v DA DB, deriv_matrix st ia m k v DA -> deriv_matrix st ja k n v DB ->
       gsum v l = mprod k DA B i j + mprod k A DB i j) /\
    (forall v, in_deps v l <-> exists t x, (t < k)%nat /\ (elem ia [i; t] = Some x \/ elem ja [t; j] = Some x) /\ depends st x v).
Proof.
  intros st ss ia ja ca cb sla slb m k n A B i j S Ea Eb [Sa Ha] [Sb Hb] Hi Hj.
  unfold row_col.
  match goal with |- context [all_some (map ?f _)] => set (F := f) end.
  assert (Q : forall t, (t < k)%nat -> exists x y ka kb p q, F t = Some (x, y) /\ elem ia [i; t] = Some ka /\ elem ja [t; j] = Some kb /\
     nth_error (ss_env ss) ka = Some x /\ nth_error (ss_env ss) kb = Some y /\ snom x = PNum p /\ snom y = PNum q /\
     pval p = A i t /\ pval q = B t j).
  { intros t Ht. destruct (Ha i t Hi Ht) as (ka & p & Eka & Np & Vp). destruct (Hb t j Ht Hj) as (kb & q & Ekb & Nq & Vq).
    destruct (arg_elem ss ia ca sla _ _ Ea Eka) as (x & E1 & N1). destruct (arg_elem ss ja cb slb _ _ Eb Ekb) as (y & E2 & N2).
    exists x, y, ka, kb, p, q. repeat split; auto; try (eapply numeric_elem; eauto).
    unfold F. rewrite !bget_self, E1, E2; auto; cbn; rewrite ?Sa, ?Sb; apply elem_valid2; auto. }
  destruct (all_some_total _ _ F (seq 0 k)) as (l & El & FF).
  { intros t I. apply in_seq in I. destruct (Q t) as (x & y & ka & kb & p & q & E & _); [lia|]. eauto. }
  exists l. rewrite El. split; auto. split; [now rewrite <- (Forall2_length FF), seq_length|].
  assert (Qp : forall t p, F t = Some p -> In t (seq 0 k) -> numeric (fst p) /\ numeric (snd p) /\ nomR (fst p) = A i t /\ nomR (snd p) = B t j /\
     exists ka kb, elem ia [i; t] = Some ka /\ elem ja [t; j] = Some kb /\ nth_error (ss_env ss) ka = Some (fst p) /\ nth_error (ss_env ss) kb = Some (snd p)).
  { intros t p0 E I. apply in_seq in I. destruct (Q t) as (x & y & ka & kb & p & q & E' & H1 & H2 & H3 & H4 & H5 & H6 & H7 & H8); [lia|].
    assert (p0 = (x, y)) by congruence. subst p0. cbn [fst snd]. repeat split; try (eexists; eassumption).
    - now rewrite (numeric_nomR _ _ H5).
    - now rewrite (numeric_nomR _ _ H6).
    - exists ka, kb. auto. }
  split; [|split; [|split]].
  - clear - FF Qp. induction FF as [|t p ts l E FF IH]; constructor.
    + destruct (Qp t p E (or_introl eq_refl)) as (P1 & P2 & _). auto.
    + apply IH. intros; apply Qp; cbn; auto.
  - unfold nsum, mprod, Sum. symmetry. eapply Rsum_Forall2; [exact FF|]. intros t p E I. destruct (Qp t p E I) as (_ & _ & -> & -> & _). reflexivity.
  - intros v DA DB [_ Da] [_ Db]. unfold gsum, mprod. rewrite <- Sum_plus. unfold Sum. symmetry. eapply Rsum_Forall2; [exact FF|].
    intros t p E I. destruct (Qp t p E I) as (_ & _ & -> & -> & ka & kb & E1 & E2 & N1 & N2). apply in_seq in I.
    destruct (Da i t Hi) as (ka' & E1' & D1); [lia|]. destruct (Db t j) as (kb' & E2' & D2); [lia|auto|].
    assert (ka' = ka) by congruence. assert (kb' = kb) by congruence. subst.
    pose proof (deriv_is_unique _ _ _ _ _ D1 (proj1 (deriv_is_sgrad st ss ka (fst p) v S N1))) as ->.
    pose proof (deriv_is_unique _ _ _ _ _ D2 (proj1 (deriv_is_sgrad st ss kb (snd p) v S N2))) as ->. ring.
  - intros v. unfold in_deps. split.
    + intros (p & I & D). destruct (In_nth_error _ _ I) as (t & Et).
      assert (Ft : nth_error (seq 0 k) t = Some t).
      { assert (t < k)%nat. { rewrite <- (seq_length k 0), (Forall2_length FF). apply nth_error_Some. congruence. }
        rewrite (nth_error_nth' _ 0%nat) by now rewrite seq_length. now rewrite seq_nth. }
      destruct (Forall2_nth_error _ _ _ _ _ FF _ _ Ft) as (p' & Ep & Fp). assert (p' = p) by congruence. subst p'.
      assert (It : In t (seq 0 k)) by (eapply nth_error_In; eauto).
      destruct (Qp t p Fp It) as (_ & _ & _ & _ & ka & kb & E1 & E2 & N1 & N2). apply in_seq in It.
      destruct D as [D|D]; [exists t, ka|exists t, kb]; (split; [lia|]); (split; [auto|]);
        eapply deriv_is_sgrad; eauto.
    + intros (t & x & Ht & Ex & D). assert (It : In t (seq 0 k)) by (apply in_seq; lia).
      destruct (In_nth_error _ _ It) as (t' & Et). destruct (Forall2_nth_error _ _ _ _ _ FF _ _ Et) as (p & Ep & Fp).
      destruct (Qp t p Fp It) as (_ & _ & _ & _ & ka & kb & E1 & E2 & N1 & N2).
      exists p. split; [eapply nth_error_In; eauto|].
      destruct Ex as [Ex|Ex]; [left; assert (x = ka) by congruence|right; assert (x = kb) by congruence]; subst x;
        eapply deriv_is_sgrad; eauto.
Qed.

(** Products. *)
Theorem product_result : forall (st st' : state) ia ja ir m k n A B,
  reachable st -> nominal_matrix st ia m k A -> nominal_matrix st ja k n B ->
  array_call2 (obj_matmul (N:=RN)) st ia ja (Ok ir) st' ->
  nominal_matrix st' ir m n (mprod k A B) /\
  (forall v DA DB, deriv_matrix st ia m k v DA -> deriv_matrix st ja k n v DB ->
     deriv_matrix st' ir m n v (madd (mprod k DA B) (mprod k A DB))) /\
  (forall v i j x, (i < m)%nat -> (j < n)%nat -> elem ir [i; j] = Some x ->
     (depends st' x v <-> exists t y, (t < k)%nat /\ (elem ia [i; t] = Some y \/ elem ja [t; j] = Some y) /\ depends st y v)).
Proof.
  intros st st' ia ja ir m k n A B Re HA HB H. destruct (reach_sim st Re) as (ss & S).
  destruct (call2_elems _ st ss ia ja ir st' S H) as (a & b & sla & slb & Wi & Wj & Aa & Ab & Ea & Eb & Ra & Rb & G).
  destruct (matmul_rel _ _ _ _ _ (si_wf _ _ S) Ra Rb) as (ok & sh & k0 & Gv & Sh).
  destruct (G _ _ _ Gv) as (Es & Wr & ss' & S' & (ne & En) & El). clear G Gv.
  destruct (Sh m k n) as (_ & -> & ->).
  { destruct Aa as (_ & -> & _). apply HA. } { destruct Ab as (_ & -> & _). apply HB. }
  assert (Q : forall i j, (i < m)%nat -> (j < n)%nat -> exists x c l, elem ir [i; j] = Some x /\ nth_error (ss_env ss') x = Some c /\
     row_col (sarr (a_cls a) ia sla) (sarr (a_cls b) ja slb) k i j = Some l /\
     numeric c /\ nomR c = nsum l /\ (forall v, sgrad c v = gsum v l) /\ (forall v, In v (sdeps c) <-> in_deps v l)).
  { intros i j Hi Hj. destruct (El [i; j] (elem_valid2 _ _ _ _ Hi Hj)) as (x & c & Ex & Nx & Sx). cbn [smm] in Sx.
    destruct (row_col_facts st ss ia ja (a_cls a) (a_cls b) sla slb m k n A B i j S Ea Eb HA HB Hi Hj) as (l & Rl & Ll & Fl & _).
    rewrite Rl in Sx. exists x, c, l. split; auto. split; auto. split; auto.
    destruct (sdot_R l) as (c' & E' & P); auto. { intros ->. discriminate Sx. }
    assert (c' = c) by congruence. subst c'. exact P. }
  split; [|split].
  - split; auto. intros i j Hi Hj. destruct (Q i j Hi Hj) as (x & c & l & Ex & Nx & Rl & (p & Np) & Vc & _).
    destruct (row_col_facts st ss ia ja (a_cls a) (a_cls b) sla slb m k n A B i j S Ea Eb HA HB Hi Hj) as (l' & Rl' & _ & _ & Ns & _).
    assert (l' = l) by congruence. subst l'. exists x, p. split; auto.
    destruct (Forall2_nth_error_r _ _ _ _ _ (si_env _ _ S') _ _ Nx) as (va & Ev & Rv). pose proof (vrel_nom _ _ _ Rv) as Qn.
    split; [exists va; split; auto; congruence|]. rewrite (numeric_nomR _ _ Np) in Vc. congruence.
  - intros v DA DB Da Db. split; auto. intros i j Hi Hj. destruct (Q i j Hi Hj) as (x & c & l & Ex & Nx & Rl & _ & _ & Gc & _).
    destruct (row_col_facts st ss ia ja (a_cls a) (a_cls b) sla slb m k n A B i j S Ea Eb HA HB Hi Hj) as (l' & Rl' & _ & _ & _ & Gl & _).
    assert (l' = l) by congruence. subst l'. exists x. split; auto. unfold madd. rewrite <- (Gl v DA DB Da Db), <- Gc.
    eapply deriv_is_sgrad; eauto.
  - intros v i j x0 Hi Hj Ex0. destruct (Q i j Hi Hj) as (x & c & l & Ex & Nx & Rl & _ & _ & _ & Dc).
    destruct (row_col_facts st ss ia ja (a_cls a) (a_cls b) sla slb m k n A B i j S Ea Eb HA HB Hi Hj) as (l' & Rl' & _ & _ & _ & _ & Dl).
    assert (l' = l) by congruence. assert (x0 = x) by congruence. subst. rewrite <- Dl, <- Dc.
    eapply deriv_is_sgrad; eauto.
Qed.

(** The product exists when the elements are numbers and there is at least one product to add. *)
Lemma args_exist : forall (st : state) ia, (forall k, In k (a_flat ia) -> exists p, has_nominal st k p) ->
  exists a, array_of st ia a.
Proof.
  intros st ia H. assert (G : exists l, get_args (st_env st) (a_flat ia) = Some l).
  { clear -H. induction (a_flat ia) as [|k is IH]; [exists []; reflexivity|]. cbn.
    destruct (H k) as (p & x & Ex & _); [cbn; auto|]. rewrite Ex. destruct IH as [l ->]; [intros; apply H; cbn; auto|]. eauto. }
  destruct G as [l E]. exists (mkArr (a_cls ia) (a_shape ia) l). split; [|split]; auto.
Qed.
Lemma matrix_numbers : forall (st : state) ia m n A, wf_arr ia -> nominal_matrix st ia m n A ->
  forall k, In k (a_flat ia) -> exists p, has_nominal st k p.
Proof.
  intros st ia m n A W [Ea HA] k Hk. apply In_nth_error in Hk as [j Ej].
  assert (Lj : (j < m * n)%nat). { apply (wf2 _ ia m n Ea) in W. rewrite <- W. apply nth_error_Some. congruence. }
  assert (n <> 0)%nat by (intros ->; lia).
  destruct (HA (j / n)%nat (j mod n)%nat) as (k' & p & E & Hp & _).
  - apply Nat.div_lt_upper_bound; auto. lia.
  - now apply Nat.mod_upper_bound.
  - rewrite (elem2 _ ia m n) in E by auto. rewrite (Nat.mul_comm (j / n)), <- Nat.div_mod in E by auto.
    assert (k' = k) by congruence. subst. eauto.
Qed.
Lemma new_args : forall (l e tl : list (value RN)), get_args (e ++ l ++ tl) (seq (length e) (length l)) = Some l.
Proof.
  induction l as [|x l IH]; intros e tl; [reflexivity|].
  cbn [length seq get_args]. rewrite nth_error_app2, Nat.sub_diag by lia. cbn [nth_error app].
  specialize (IH (e ++ [x]) tl). rewrite app_length, Nat.add_1_r, <- app_assoc in IH. cbn [app] in IH. now rewrite IH.
Qed.
Theorem product_returns : forall (st : state) ia ja m k n A B,
  reachable st -> wf_arr ia -> wf_arr ja -> nominal_matrix st ia m k A -> nominal_matrix st ja k n B -> (0 < k)%nat ->
  exists ir st', array_call2 (obj_matmul (N:=RN)) st ia ja (Ok ir) st'.
Proof.
  intros st ia ja m k n A B Re Wi Wj HA HB Hk. destruct (reach_sim st Re) as (ss & S).
  destruct (args_exist st ia (matrix_numbers _ _ _ _ _ Wi HA)) as (a & Aa).
  destruct (args_exist st ja (matrix_numbers _ _ _ _ _ Wj HB)) as (b & Ab).
  destruct (call_arel _ _ _ _ S Aa) as (sla & Ea & Ra). destruct (call_arel _ _ _ _ S Ab) as (slb & Eb & Rb).
  destruct (matmul_rel _ _ _ _ _ (si_wf _ _ S) Ra Rb) as (ok & sh & k0 & [X G] & Sh).
  destruct (Sh m k n) as (-> & -> & ->).
  { destruct Aa as (_ & -> & _). apply HA. } { destruct Ab as (_ & -> & _). apply HB. }
  destruct (obj_matmul a b (st_heap st)) as [[c|e] h'] eqn:E; cbn [fst snd] in *.
  - exists (mkArr (a_cls c) (a_shape c) (seq (length (st_env st)) (length (a_flat c)))), (mkState h' (st_env st ++ a_flat c)).
    exists a, b. split; auto. split; auto. split; auto. split; auto. exists c. split; [|split; [reflexivity|split; [reflexivity|exact E]]].
    split; [reflexivity|]. split; [reflexivity|]. cbn [a_flat st_env].
    pose proof (new_args (a_flat c) (st_env st) []) as Q. now rewrite app_nil_r in Q.
  - exfalso. destruct (G eq_refl) as (idx & I & He). apply indices_valid in I.
    inversion I as [|i ? [|j [|? ?]] ? Hi I']; subst; inversion I' as [|? ? ? ? Hj I'']; subst; [|inversion I''].
    cbn [smm] in He.
    destruct (row_col_facts st ss ia ja (a_cls a) (a_cls b) sla slb m k n A B i j S Ea Eb HA HB Hi Hj) as (l & Rl & Ll & Fl & _).
    destruct Aa as (_ & Sa & _), Ab as (_ & Sb & _). unfold sarr in Rl. rewrite <- Sa, <- Sb in Rl. rewrite Rl in He.
    destruct (sdot_R l) as (c' & E' & _); auto. { intros ->. cbn in Ll. lia. } congruence.
Qed.

(** Operators on arrays. *)
Theorem operator_result : forall op (st st' : state) ia ja sh ir, four op ->
  reachable st -> broadcasts (a_shape ia) (a_shape ja) sh ->
  array_call2 (array_op (N:=RN) op) st ia ja (Ok ir) st' ->
  a_shape ir = sh /\
  forall idx i j p q, valid sh idx -> pair_at ia ja idx i j -> has_nominal st i p -> has_nominal st j q ->
  (op = Btruediv -> pval q <> 0) /\
  exists k r, elem ir idx = Some k /\ has_nominal st' k r /\ pval r = real_op op (pval p) (pval q) /\
    (forall v x y, deriv_is st i v x -> deriv_is st j v y ->
       deriv_is st' k v (real_dx op (pval p) (pval q) * x + real_dy op (pval p) (pval q) * y)) /\
    (forall v, depends st' k v <-> depends st i v \/ depends st j v).
Proof.
  intros op st st' ia ja sh ir F4 Re Bs H. destruct (reach_sim st Re) as (ss & S).
  destruct (call2_elems _ st ss ia ja ir st' S H) as (a & b & sla & slb & Wi & Wj & Aa & Ab & Ea & Eb & Ra & Rb & G).
  destruct (array_op_rel _ op _ _ _ _ (si_wf _ _ S) Ra Rb) as (ok & sh0 & Gv & Sh).
  destruct (G _ _ _ Gv) as (Es & Wr & ss' & S' & (ne & En) & El). clear G Gv.
  destruct (Sh sh) as (_ & ->).
  { destruct Aa as (_ & -> & _), Ab as (_ & -> & _). cbn. rewrite broadcast_nil. now apply broadcast_spec. }
  split; auto. intros idx i j p q Vi [Pi Pj] Hp Hq.
  destruct (El idx Vi) as (k & c & Ek & Nk & Sk). unfold sel in Sk.
  destruct (shown_valid _ _ _ _ Bs Vi) as [V1 V2].
  assert (L1 : (length (a_shape ia) <= length idx)%nat /\ (length (a_shape ja) <= length idx)%nat).
  { rewrite (valid_length _ _ Vi). destruct Bs as [-> _]. lia. }
  rewrite !bget_shown in Sk by (cbn; tauto).
  destruct (arg_elem ss ia (a_cls a) sla _ _ Ea Pi) as (x & E1 & N1). destruct (arg_elem ss ja (a_cls b) slb _ _ Eb Pj) as (y & E2 & N2).
  cbn [a_shape sarr] in Sk. unfold sarr in E1, E2. unfold sarr in Sk. rewrite E1, E2 in Sk.
  pose proof (numeric_elem _ _ _ _ S Hp _ N1) as Sx. pose proof (numeric_elem _ _ _ _ S Hq _ N2) as Sy.
  assert (Nz : op = Btruediv -> pval q <> 0).
  { intros -> Z. destruct (sop_div0 x y p q Sx Sy Z) as (e & He). congruence. }
  split; auto. destruct (sop_R op x y p q F4 Sx Sy Nz) as (c' & r & Ec & Nc & Vc & Gc & Dc).
  assert (c' = c) by congruence. subst c'. exists k, r. split; auto.
  destruct (Forall2_nth_error_r _ _ _ _ _ (si_env _ _ S') _ _ Nk) as (va & Ev & Rv). pose proof (vrel_nom _ _ _ Rv) as Qn.
  split; [exists va; split; auto; congruence|]. split; auto. split.
  - intros v dx dy Dx Dy.
    pose proof (deriv_is_unique _ _ _ _ _ Dx (proj1 (deriv_is_sgrad st ss i x v S N1))) as ->.
    pose proof (deriv_is_unique _ _ _ _ _ Dy (proj1 (deriv_is_sgrad st ss j y v S N2))) as ->.
    rewrite <- Gc. eapply deriv_is_sgrad; eauto.
  - intros v. rewrite (proj2 (deriv_is_sgrad st' ss' k c v S' Nk)), (proj2 (deriv_is_sgrad st ss i x v S N1)), (proj2 (deriv_is_sgrad st ss j y v S N2)).
    apply Dc.
Qed.

Lemma elem_valid : forall A (a : arr A) idx, wf_arr a -> valid (a_shape a) idx -> exists x, elem a idx = Some x.
Proof.
  intros A a idx W V. unfold elem. destruct (nth_error _ _) as [x|] eqn:E; eauto. apply nth_error_None in E.
  pose proof (rank_lt _ _ V). unfold wf_arr in W. lia.
Qed.
Theorem operator_returns : forall op (st : state) ia ja sh, four op ->
  reachable st -> wf_arr ia -> wf_arr ja -> broadcasts (a_shape ia) (a_shape ja) sh ->
  (forall k, In k (a_flat ia) \/ In k (a_flat ja) -> exists p, has_nominal st k p) ->
  (op = Btruediv -> forall k p, In k (a_flat ja) -> has_nominal st k p -> pval p <> 0) ->
  exists ir st', array_call2 (array_op (N:=RN) op) st ia ja (Ok ir) st'.
Proof.
  intros op st ia ja sh F4 Re Wi Wj Bs Hn Nz. destruct (reach_sim st Re) as (ss & S).
  destruct (args_exist st ia) as (a & Aa); [auto|]. destruct (args_exist st ja) as (b & Ab); [auto|].
  destruct (call_arel _ _ _ _ S Aa) as (sla & Ea & Ra). destruct (call_arel _ _ _ _ S Ab) as (slb & Eb & Rb).
  destruct (array_op_rel _ op _ _ _ _ (si_wf _ _ S) Ra Rb) as (ok & sh0 & [X G] & Sh).
  destruct (Sh sh) as (-> & ->).
  { destruct Aa as (_ & -> & _), Ab as (_ & -> & _). cbn. rewrite broadcast_nil. now apply broadcast_spec. }
  destruct (array_op op a b (st_heap st)) as [[c|e] h'] eqn:E; cbn [fst snd] in *.
  - exists (mkArr (a_cls c) (a_shape c) (seq (length (st_env st)) (length (a_flat c)))), (mkState h' (st_env st ++ a_flat c)).
    exists a, b. split; auto. split; auto. split; auto. split; auto. exists c. split; [|split; [reflexivity|split; [reflexivity|exact E]]].
    split; [reflexivity|]. split; [reflexivity|]. cbn [a_flat st_env].
    pose proof (new_args (a_flat c) (st_env st) []) as Q. now rewrite app_nil_r in Q.
  - exfalso. destruct (G eq_refl) as (idx & I & He). apply indices_valid in I.
    destruct (shown_valid _ _ _ _ Bs I) as [V1 V2].
    assert (L1 : (length (a_shape ia) <= length idx)%nat /\ (length (a_shape ja) <= length idx)%nat).
    { rewrite (valid_length _ _ I). destruct Bs as [-> _]. lia. }
    destruct (elem_valid _ ia _ Wi V1) as (i & Pi). destruct (elem_valid _ ja _ Wj V2) as (j & Pj).
    destruct (Hn i) as (p & Hp); [left; eapply nth_error_In; exact Pi|].
    assert (Ij : In j (a_flat ja)) by (eapply nth_error_In; exact Pj).
    destruct (Hn j) as (q & Hq); [auto|].
    destruct (arg_elem ss ia (a_cls a) sla _ _ Ea Pi) as (x & E1 & N1). destruct (arg_elem ss ja (a_cls b) slb _ _ Eb Pj) as (y & E2 & N2).
    destruct Aa as (_ & Sa & _), Ab as (_ & Sb & _). unfold sel in He. rewrite Sa, Sb in He.
    rewrite !bget_shown in He by (cbn; tauto). cbn [a_shape] in He. unfold sarr in E1, E2. rewrite E1, E2 in He.
    destruct (sop_R op x y p q F4 (numeric_elem _ _ _ _ S Hp _ N1) (numeric_elem _ _ _ _ S Hq _ N2)) as (c' & r & Ec & _); [eauto|congruence].
Qed.

(** A number times a matrix. *)
Lemma broadcasts_nil_r : forall s, broadcasts s [] s.
Proof. intros. apply broadcast_spec. apply broadcast_nil. Qed.
Lemma broadcasts_nil_l : forall s, broadcasts [] s s.
Proof.
  intros s. apply broadcast_spec. unfold broadcast. cbn. destruct (rev s) as [|x l] eqn:E; cbn.
  - rewrite <- (rev_involutive s), E. reflexivity.
  - rewrite <- (rev_involutive s), E. reflexivity.
Qed.
Lemma shown_nil : forall idx, shown [] idx = [].
Proof. reflexivity. Qed.
Lemma deriv_is_total : forall (st : state) k v p, reachable st -> has_nominal st k p -> exists x, deriv_is st k v x.
Proof.
  intros st k v p Re H. destruct (reach_sim st Re) as (ss & S). destruct (has_nominal_snom st ss k p S H) as (s & E & _).
  exists (sgrad s v). eapply deriv_is_sgrad; eauto.
Qed.
Theorem scalar_product : forall (st st' : state) io ia ir k p m n A,
  reachable st -> a_shape io = [] -> elem io [] = Some k -> has_nominal st k p -> nominal_matrix st ia m n A ->
  array_call2 (fun o s => matrix_rmul (N:=RN) s o) st io ia (Ok ir) st' ->
  nominal_matrix st' ir m n (mscal (pval p) A) /\
  forall v x D, deriv_is st k v x -> deriv_matrix st ia m n v D ->
    deriv_matrix st' ir m n v (madd (mscal x A) (mscal (pval p) D)).
Proof.
  intros st st' io ia ir k p m n A Re Sio Ek Hk [Sa HA] (o & a & Wo & Wa & Ao & Aa & H).
  assert (Q : exists l r, (l = io /\ r = ia \/ l = ia /\ r = io) /\ array_call2 (array_op (N:=RN) Bmul) st l r (Ok ir) st').
  { destruct H as (c & Ac & He & Hf & E). unfold matrix_rmul in E. destruct Ao as (Ao1 & Ao2 & Ao3). rewrite Ao2, Sio in E.
    assert (L : exists x, a_flat o = [x]).
    { apply get_args_length in Ao3. unfold wf_arr in Wo. rewrite Sio in Wo. cbn in Wo. rewrite Wo in Ao3.
      destruct (a_flat o) as [|x [|? ?]]; try discriminate. eauto. }
    destruct L as (x & Lx). destruct x as [x|u]; rewrite Lx in E.
    - exists ia, io. split; auto. exists a, o. repeat split; auto; try apply Aa. exists c. auto.
    - exists io, ia. split; auto. exists o, a. repeat split; auto; try apply Aa. exists c. auto. }
  destruct Q as (l & r & LR & Q). clear H.
  assert (Bs : broadcasts (a_shape l) (a_shape r) [m; n]).
  { destruct LR as [[-> ->]|[-> ->]]; rewrite Sio, Sa; [apply broadcasts_nil_l|apply broadcasts_nil_r]. }
  assert (F4 : four Bmul) by (unfold four; auto).
  destruct (operator_result Bmul st st' l r [m; n] ir F4 Re Bs Q) as (Sr & P).
  assert (E : forall i j, (i < m)%nat -> (j < n)%nat -> forall t q, elem ia [i; j] = Some t -> has_nominal st t q ->
     exists z w, elem ir [i; j] = Some z /\ has_nominal st' z w /\ pval w = pval p * pval q /\
       forall v x y, deriv_is st k v x -> deriv_is st t v y -> deriv_is st' z v (x * pval q + pval p * y)).
  { intros i j Hi Hj t q Et Ht. pose proof (elem_valid2 m n i j Hi Hj) as V. 
    assert (Sh : shown [m; n] [i; j] = [i; j]) by now apply shown_self.
    destruct LR as [[-> ->]|[-> ->]].
    - destruct (P [i; j] k t p q V) as (_ & z & w & Ez & Hz & Vz & Dz & _); auto.
      { split; [rewrite Sio; exact Ek|rewrite Sa, Sh; exact Et]. }
      exists z, w. split; auto. split; auto. split; auto. intros v x y Dx Dy. specialize (Dz v x y Dx Dy). cbn [real_dx real_dy] in Dz.
      now replace (x * pval q + pval p * y) with (pval q * x + pval p * y) by ring.
    - destruct (P [i; j] t k q p V) as (_ & z & w & Ez & Hz & Vz & Dz & _); auto.
      { split; [rewrite Sa, Sh; exact Et|rewrite Sio; exact Ek]. }
      exists z, w. split; auto. split; auto. split; [cbn [real_op] in Vz; lra|]. intros v x y Dx Dy. specialize (Dz v y x Dy Dx). cbn [real_dx real_dy] in Dz.
      now replace (x * pval q + pval p * y) with (pval p * y + pval q * x) by ring. }
  split.
  - split; auto. intros i j Hi Hj. destruct (HA i j Hi Hj) as (t & q & Et & Ht & Vt). destruct (E i j Hi Hj t q Et Ht) as (z & w & Ez & Hz & Vz & _).
    exists z, w. split; auto. split; auto. unfold mscal. congruence.
  - intros v x D Dx [_ HD]. split; auto. intros i j Hi Hj. destruct (HA i j Hi Hj) as (t & q & Et & Ht & Vt).
    destruct (HD i j Hi Hj) as (t' & Et' & Dt). assert (t' = t) by congruence. subst t'.
    destruct (E i j Hi Hj t q Et Ht) as (z & w & Ez & Hz & Vz & Dz). exists z. split; auto.
    unfold madd, mscal. rewrite <- Vt. auto.
Qed.

(** Older results are not affected. *)
Lemma call2_unaffected : forall f (st st' : state) ia ja r k ins o o',
  (forall ss, sim (g:=g) (lg:=lg) st ss -> exists ne, sim st' (mkS (ss_vars ss) (ss_env ss ++ ne)) /\
    forall i n gr ds v, nth_error ne i <> Some (SUF n gr ds (Some v))) ->
  reachable st -> array_call2 f st ia ja r st' ->
  In ins [IDeriv k; IStd k; IErrs k; IBool k] -> (k < length (st_env st))%nat ->
  reads st ins o -> reads st' ins o' -> same_out o o'.
Proof.
  intros f st st' ia ja r k ins o o' HS Re _ Hin Hk R1 R2. destruct (reach_sim st Re) as (ss & S).
  destruct (HS ss S) as (ne & S' & _). eapply out_ok_same; [exact (reads_sim _ _ _ _ S R1)|].
  pose proof (reads_sim _ _ _ _ S' R2) as Q.
  assert (Lk : (k < length (ss_env ss))%nat) by (rewrite <- (Forall2_length (si_env _ _ S)); auto).
  assert (E : snd (sstep (mkS (ss_vars ss) (ss_env ss ++ ne)) ins) = snd (sstep ss ins)).
  { clear -Hin Lk. destruct ss as [vs env]. cbn in *. destruct Hin as [<-|[<-|[<-|[<-|[]]]]]; cbn [sstep];
      unfold swith_uf, swith; cbn [ss_env ss_vars]; (rewrite nth_error_app1 by auto);
      destruct (nth_error env k) as [[p|n gr ds v]|]; try reflexivity;
      match goal with |- context [match ?m with _ => _ end] => destruct m end; reflexivity. }
  now rewrite <- E.
Qed.
Theorem operator_unaffected : forall op (st st' : state) ia ja r k ins o o',
  reachable st -> array_call2 (array_op op) st ia ja r st' ->
  In ins [IDeriv k; IStd k; IErrs k; IBool k] -> (k < length (st_env st))%nat ->
  reads st ins o -> reads st' ins o' -> same_out o o'.
Proof.
  intros op st st' ia ja r k ins o o' Re H. apply (call2_unaffected (array_op op) st st' ia ja r k ins o o'); auto.
  intros ss S. exact (operator_sim op st ss ia ja r st' S H).
Qed.
Theorem product_unaffected : forall (st st' : state) ia ja r k ins o o',
  reachable st -> array_call2 obj_matmul st ia ja r st' ->
  In ins [IDeriv k; IStd k; IErrs k; IBool k] -> (k < length (st_env st))%nat ->
  reads st ins o -> reads st' ins o' -> same_out o o'.
Proof.
  intros st st' ia ja r k ins o o' Re H. apply (call2_unaffected obj_matmul st st' ia ja r k ins o o'); auto.
  intros ss S. exact (product_sim st ss ia ja r st' S H).
Qed.

(** A matrix times its inverse. *)
Lemma zero_std : forall (st : state) k o, reachable st -> (forall v, deriv_is st k v 0) -> reads st (IStd k) o ->
  (exists u, is_number st k u) -> o = ONum (N:=RN) 0.
Proof.
  intros st k o Re Z Ro (u & U). destruct (reach_sim st Re) as (ss & S).
  destruct (number_rel st ss k u S U) as (n & gr & ds & var & NR).
  rewrite (std_read _ _ _ _ _ _ _ _ o (IStd k) S NR (or_introl eq_refl) Ro). f_equal.
  unfold sstd, svariance. rewrite <- sqrt_0. f_equal.
  assert (E : forall v, gr v = 0).
  { intros v. pose proof (proj1 (deriv_is_sgrad st ss k _ v S (nr_env _ _ _ _ _ _ _ _ NR))) as D.
    exact (deriv_is_unique _ _ _ _ _ D (Z v)). }
  induction (seq 0 _) as [|v l IH]; [reflexivity|]. cbn [map Rsum]. rewrite E, IH. ring.
Qed.
Lemma call_keeps : forall f FF (st st' : state) ia ir, reachable st -> behaves f FF ->
  array_call f st ia (Ok ir) st' -> dependent st' ir ->
  (forall k p, has_nominal st k p -> has_nominal st' k p) /\
  (forall k v x, deriv_is st k v x -> deriv_is st' k v x).
Proof.
  intros f FF st st' ia ir Re P C Dp. destruct (reach_sim st Re) as (ss & S).
  destruct (array_sim f FF st ss ia (Ok ir) st' S P C) as (ne & S' & _). { intros ir' E. injection E; intros <-; exact Dp. }
  destruct C as (a & k0 & _ & _ & b & _ & Ee & _). split.
  - intros k p (x & Ex & Hx). exists x. split; auto. rewrite Ee, nth_error_app1; auto. apply nth_error_Some. congruence.
  - intros k v x D. assert (Lk : (k < length (st_env st))%nat).
    { apply nth_error_Some. intros Q. unfold deriv_is in D. now rewrite Q in D. }
    assert (Hk : exists s, nth_error (ss_env ss) k = Some s).
    { destruct (nth_error (ss_env ss) k) eqn:Q; eauto. apply nth_error_None in Q.
      rewrite <- (Forall2_length (si_env _ _ S)) in Q. lia. }
    destruct Hk as (s & Es). rewrite (deriv_is_unique _ _ _ _ _ D (proj1 (deriv_is_sgrad st ss k s v S Es))).
    eapply deriv_is_sgrad; [exact S'|]. cbn. rewrite nth_error_app1; auto. apply nth_error_Some. congruence.
Qed.
Theorem times_inverse : forall linv order (st st1 st2 : state) ia ib ir n A,
  reachable st -> (forall l, Permutation (order l) l) -> inverts linv n A -> nominal_matrix st ia n n A ->
  array_call (inv (N:=RN) linv order) st ia (Ok ib) st1 -> dependent st1 ib ->
  array_call2 (obj_matmul (N:=RN)) st1 ia ib (Ok ir) st2 \/ array_call2 (obj_matmul (N:=RN)) st1 ib ia (Ok ir) st2 ->
  nominal_matrix st2 ir n n kron /\
  (forall v, deriv_matrix st2 ir n n v (fun _ _ => 0)) /\
  (forall i j k o, (i < n)%nat -> (j < n)%nat -> elem ir [i; j] = Some k -> (exists u, is_number st2 k u) ->
     reads st2 (IStd k) o -> o = ONum (N:=RN) 0).
Proof.
  intros linv order st st1 st2 ia ib ir n A Re P HI HA C Dp M.
  assert (Re1 : reachable st1).
  { eapply reach_array; eauto. intros ir' E. injection E; intros <-; exact Dp. }
  assert (Re2 : reachable st2) by (destruct M as [M|M]; eapply reach_product; eauto).
  destruct (inv_result linv order st st1 ia ib n A Re P HI HA C) as (B & NB & [I1 I2] & Hv).
  destruct (call_keeps _ _ st st1 ia ib Re (uncert_conv order _ P) C Dp) as (KN & KD).
  assert (HA1 : nominal_matrix st1 ia n n A).
  { destruct HA as [Es HA]. split; auto. intros i j Hi Hj. destruct (HA i j Hi Hj) as (k & p & Ek & Hk & V). eauto 6. }
  assert (G : nominal_matrix st2 ir n n kron /\ forall v, deriv_matrix st2 ir n n v (fun _ _ => 0)).
  { destruct M as [M|M].
    - destruct (product_result st1 st2 ia ib ir n n n A B Re1 HA1 NB M) as (R1 & R2 & _). split.
      + eapply nominal_matrix_meq; eauto.
      + intros v. destruct (Hv v) as (D & HD & HB & _).
        assert (HD1 : deriv_matrix st1 ia n n v D).
        { destruct HD as [Es HD]. split; auto. intros i j Hi Hj. destruct (HD i j Hi Hj) as (k & Ek & Dk). eauto. }
        eapply deriv_matrix_meq; [exact (R2 v _ _ HD1 HB)|]. intros i j Hi Hj. unfold madd.
        change (fun i0 j0 => - mprod n (mprod n B D) B i0 j0) with (mopp (mprod n (mprod n B D) B)).
        assert (Q : mprod n A (mopp (mprod n (mprod n B D) B)) i j = - mprod n D B i j).
        { transitivity (- mprod n (mprod n (mprod n A B) D) B i j).
          { rewrite (mprod_assoc n n (mprod n A B) D B), (mprod_assoc n n A B), (mprod_assoc n n B D B).
            generalize (mprod n B (mprod n D B)) as X. intros X. unfold mprod, mopp. rewrite <- Sum_opp. apply Sum_ext. intros. ring. }
          f_equal. apply (mprod_meq n n n); auto; [|apply meq_refl].
          eapply meq_trans; [apply (mprod_meq n n n); [exact I1|apply meq_refl]|]. apply mprod_kron_l. }
        rewrite Q. ring.
    - destruct (product_result st1 st2 ib ia ir n n n B A Re1 NB HA1 M) as (R1 & R2 & _). split.
      + eapply nominal_matrix_meq; eauto.
      + intros v. destruct (Hv v) as (D & HD & HB & _).
        assert (HD1 : deriv_matrix st1 ia n n v D).
        { destruct HD as [Es HD]. split; auto. intros i j Hi Hj. destruct (HD i j Hi Hj) as (k & Ek & Dk). eauto. }
        eapply deriv_matrix_meq; [exact (R2 v _ _ HB HD1)|]. intros i j Hi Hj. unfold madd.
        change (fun i0 j0 => - mprod n (mprod n B D) B i0 j0) with (mopp (mprod n (mprod n B D) B)).
        rewrite mprod_opp_l. unfold mopp.
        assert (Q : mprod n (mprod n (mprod n B D) B) A i j = mprod n B D i j).
        { rewrite (mprod_assoc n n (mprod n B D) B A).
          transitivity (mprod n (mprod n B D) kron i j); [|now apply (mprod_kron_r n n)].
          apply (mprod_meq n n n); auto. apply meq_refl. }
        rewrite Q. ring. }
  destruct G as [G1 G2]. split; auto. split; auto.
  intros i j k o Hi Hj Ek U Ro. eapply zero_std; eauto. intros v. destruct (G2 v) as [_ H].
  destruct (H i j Hi Hj) as (k' & Ek' & Dk). assert (k' = k) by congruence. now subst.
Qed.

Lemma inv_wf : forall linv order (st st' : state) ia ir n A,
  reachable st -> (forall l, Permutation (order l) l) -> inverts linv n A -> nominal_matrix st ia n n A ->
  array_call (inv (N:=RN) linv order) st ia (Ok ir) st' -> wf_arr ir.
Proof.
  intros linv order st st' ia ir n A Re P HI HA C.
  assert (W : wf_arr ia) by (destruct C as (a & k & W & _); exact W).
  destruct (call_facts _ _ st ia ir st' Re (uncert_conv order _ P) C) as (A0 & val & D & dv & F).
  pose proof (proj1 HA) as Ea. destruct (nominal_entries _ _ _ _ _ _ _ _ _ n n F W Ea) as [N0 E0].
  pose proof (nominal_matrix_unique _ _ _ _ _ _ N0 HA) as Q. pose proof (entries_meq _ _ _ _ _ E0 Q) as EA.
  destruct (fa_val _ _ _ _ _ _ _ _ _ F) as [c Hv]. destruct (HI _ _ EA Hv) as (B & EB & IB). apply entries_cls in EB.
  destruct EB as (_ & Wv & _). unfold wf_arr in *.
  now rewrite (fa_rshape _ _ _ _ _ _ _ _ _ F), (fa_rlen _ _ _ _ _ _ _ _ _ F).
Qed.
Lemma matrix_dependent : forall (st : state) ir m n v D, wf_arr ir -> deriv_matrix st ir m n v D ->
  (forall i j, (i < m)%nat -> (j < n)%nat -> D i j <> 0) -> dependent st ir.
Proof.
  intros st ir m n v D W [Ea HD] Nz k Hk Rk. apply In_nth_error in Hk as [j Ej].
  assert (Lj : (j < m * n)%nat). { apply (wf2 _ ir m n Ea) in W. rewrite <- W. apply nth_error_Some. congruence. }
  assert (n <> 0)%nat by (intros ->; lia).
  assert (L1 : (j / n < m)%nat) by (apply Nat.div_lt_upper_bound; auto; lia).
  assert (L2 : (j mod n < n)%nat) by now apply Nat.mod_upper_bound.
  destruct (HD _ _ L1 L2) as (k' & E & Dk).
  rewrite (elem2 _ ir m n) in E by auto. rewrite (Nat.mul_comm (j / n)), <- Nat.div_mod in E by auto.
  assert (k' = k) by congruence. subst k'. apply (Nz _ _ L1 L2). unfold deriv_is in Dk.
  destruct (nth_error (st_env st) k) as [[p|u]|]; [auto| |contradiction].
  destruct Dk as (d & Rd & <-). pose proof (reads_unique _ _ _ _ Rk Rd) as Q. injection Q; intros <-. reflexivity.
Qed.

End UMxThm.
