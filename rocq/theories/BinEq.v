(** == in binary64, for numbers whose derivatives have been read (C10). *)
From Coq Require Import ZArith List Bool Lia Reals Lra.
From Flocq Require Import Core BinarySingleNaN Plus_error.
From Verif Require Import Base Heap HeapSpec HeapProofs NumR NumF Affine Ops Machine History Ordered Fuel FFacts FRefute FmtF
  BinProofs BinQ BinStd NumFacts GradSpec.
Import ListNotations.
Local Open Scope R_scope.

Section BinEq.
Variable lm : Libm.
Hypothesis SQ : squares_ok lm.
Notation FN := (FOps lm).

(** A read that changes nothing: the derivatives have been calculated before. *)
Definition known_dict (st : state FN) (i : nat) (d : dict FN) : Prop := does st (IDeriv i) st (ODict d).

Lemma known_get : forall (st : state FN) i u d, reachable st -> is_number st i u -> known_dict st i d ->
  get_lc (st_heap st) (uf_lp u) = LDict d.
Proof.
  intros st i u d R Hn (k & H). assert (B := reachable_bound st i u R Hn). unfold is_number in Hn. specialize (H k (Nat.le_refl _)). cbn [step] in H. unfold with_uf, with_val in H.
  rewrite Hn in H. unfold derivatives, lc_derivatives in H. destruct (get_lc (st_heap st) (uf_lp u)) as [d'|its] eqn:G.
  - cbn [observe] in H. injection H as E1 E2. subst d'. reflexivity.
  - exfalso. destruct (expand_loop k (uf_lp u) [] (st_heap st)) as [[t|e] h'] eqn:X.
    + destruct (get_lc h' (uf_lp u)) as [d'|its'] eqn:G'; cbn [observe] in H; [|discriminate H].
      injection H as E1 E2. assert (h' = st_heap st) by (rewrite <- E1; reflexivity). congruence.
    + cbn [observe] in H. discriminate H.
Qed.

Lemma dset_length : forall (A : Type) (l : list (nat * A)) k x, (length (dset l k x) <= S (length l))%nat.
Proof. intros A. induction l as [|[k' y] l IHl]; intros k x; cbn [dset length]; [lia|]. destruct (Nat.eqb k k'); cbn [length]; [lia|]. specialize (IHl k x). lia. Qed.
(** Adding c times a dictionary. *)
Lemma acc_spec : forall (c : f64) (d acc : dict FN), NoDup (dkeys d) -> NoDup (dkeys acc) ->
  exists acc', acc_dict (N:=FN) (PF (N:=FN) c) d acc = Ok acc' /\ NoDup (dkeys acc') /\ (length acc' <= length acc + length d)%nat /\
    forall v, dget acc' v = match dget d v with
      | Some f => Some (fadd (match dget acc v with Some y => y | None => f0 end) (fmul c f))
      | None => dget acc v end.
Proof.
  intros c d. induction d as [|[v f] d IH]; intros acc N1 N2.
  - exists acc. split; [reflexivity|]. split; [exact N2|]. split; [cbn [length]; lia|]. intros v. reflexivity.
  - unfold dkeys in N1. cbn [map fst] in N1. inversion N1 as [|? ? NI N1']; subst. cbn [acc_dict]. unfold cmul. cbn [pn_float rbind].
    destruct (IH (dset acc v (fadd (match dget acc v with Some y => y | None => f0 end) (fmul c f))) N1' (dset_NoDup _ _ _ N2)) as (a & E & A & B & C).
    exists a. split; [exact E|]. split; [exact A|]. split.
    + cbn [length]. eapply Nat.le_trans; [exact B|]. eapply Nat.le_trans; [apply Nat.add_le_mono_r; apply dset_length|].
      rewrite Nat.add_succ_r. apply Nat.le_refl.
    + intros v'. rewrite C. cbn [dget]. destruct (Nat.eqb_spec v' v) as [->|NE].
      * assert (D : dget d v = None) by (apply dget_None; exact NI). rewrite D. rewrite dget_dset_eq. reflexivity.
      * rewrite dget_dset_neq by congruence. reflexivity.
Qed.

Lemma fneg_one : is_finite (fneg fone) = true /\ B2R (fneg fone) = -1.
Proof. split; [reflexivity|]. unfold fneg. rewrite B2R_Bopp, one_R'. ring. Qed.
Lemma rnd_B2R : forall x : f64, rnd64 (B2R x) = B2R x.
Proof. intros x. apply round_generic; [apply valid_rnd_N|apply generic_format_B2R]. Qed.
Lemma mul_unit : forall c f : f64, is_finite c = true -> is_finite f = true -> B2R c = 1 \/ B2R c = -1 ->
  is_finite (fmul c f) = true /\ B2R (fmul c f) = B2R c * B2R f.
Proof.
  intros c f Fc Ff H. pose proof (Bmult_correct 53 1024 prec_gt_0_64 prec_lt_emax_64 mode_NE c f) as C. fold (fmul c f) in C.
  assert (E : round radix2 (SpecFloat.fexp 53 1024) (round_mode mode_NE) (B2R c * B2R f) = B2R c * B2R f).
  { apply round_generic; [apply valid_rnd_round_mode|]. destruct H as [->| ->]; [rewrite Rmult_1_l; apply generic_format_B2R|].
    replace (-1 * B2R f) with (- B2R f) by ring. apply generic_format_opp, generic_format_B2R. }
  rewrite E in C. assert (A : Rabs (B2R c * B2R f) < bpow radix2 1024).
  { rewrite Rabs_mult. replace (Rabs (B2R c)) with 1; [rewrite Rmult_1_l; apply abs_B2R_lt_emax|].
    destruct H as [->| ->]; [rewrite Rabs_R1; reflexivity|rewrite Rabs_left; lra]. }
  rewrite Rlt_bool_true in C by exact A. destruct C as (V & F & _). rewrite Fc, Ff in F. auto.
Qed.
Lemma add_round : forall x y : f64, is_finite x = true -> is_finite y = true -> Rabs (rnd64 (B2R x + B2R y)) < bpow radix2 1024 ->
  is_finite (fadd x y) = true /\ B2R (fadd x y) = rnd64 (B2R x + B2R y).
Proof.
  intros x y F G A. pose proof (Bplus_correct 53 1024 prec_gt_0_64 prec_lt_emax_64 mode_NE x y F G) as C. fold (fadd x y) in C.
  rewrite Rlt_bool_true in C by exact A. destruct C as (V & Fi & _). auto.
Qed.

(** Derivatives of the difference. *)
Definition all_finite (d : dict FN) : Prop := forall v x, dget d v = Some x -> is_finite (x : f64) = true.
Lemma diff_dict : forall di dj : dict FN, NoDup (dkeys di) -> NoDup (dkeys dj) -> all_finite di -> all_finite dj ->
  (forall v, Rabs (rnd64 (fval lm di v - fval lm dj v)) < bpow radix2 1024) ->
  exists d1 d2, acc_dict (N:=FN) (PF (N:=FN) (fneg fone)) dj [] = Ok d1 /\ acc_dict (N:=FN) (PF (N:=FN) fone) di d1 = Ok d2 /\
    NoDup (dkeys d2) /\ (length d2 <= length di + length dj)%nat /\ (forall v, In v (dkeys d2) <-> In v (dkeys di) \/ In v (dkeys dj)) /\
    all_finite d2 /\ forall v, fval lm d2 v = rnd64 (fval lm di v - fval lm dj v).
Proof.
  intros di dj Ni Nj Fi Fj Hb.
  destruct (acc_spec (fneg fone) dj [] Nj ltac:(constructor)) as (d1 & E1 & N1 & L1 & G1).
  destruct (acc_spec fone di d1 Ni N1) as (d2 & E2 & N2 & L2 & G2).
  exists d1, d2. split; [exact E1|]. split; [exact E2|]. split; [exact N2|]. split; [cbn [length] in L1; lia|]. split; [|].
  - intros v. rewrite !dget_In_keys. rewrite G2. split.
    + intros (x & X). destruct (dget di v) as [f|] eqn:Di; [left; eauto|]. rewrite G1 in X. destruct (dget dj v) as [f|] eqn:Dj; [right; eauto|discriminate X].
    + intros [(f & X)|(f & X)].
      * rewrite X. eauto.
      * destruct (dget di v); [eauto|]. rewrite G1, X. eauto.
  - assert (A1 : forall v, match dget d1 v with Some y => is_finite (y : f64) = true /\ B2R (y : f64) = - fval lm dj v | None => fval lm dj v = 0 end).
    { intros v. rewrite G1. unfold fval. destruct (dget dj v) as [f|] eqn:Dj; [|reflexivity]. cbn [dget].
      destruct fneg_one as (O1 & O2). destruct (mul_unit (fneg fone) f O1 (Fj _ _ Dj) (or_intror O2)) as (M1 & M2).
      assert (Z : B2R f0 + B2R (fmul (fneg fone) f) = B2R (fmul (fneg fone) f)) by (change (B2R f0) with 0; ring).
      destruct (add_round f0 (fmul (fneg fone) f) eq_refl M1) as (P1 & P2).
      { rewrite Z, rnd_B2R. apply abs_B2R_lt_emax. }
      split; [exact P1|]. rewrite P2, Z, rnd_B2R, M2, O2. ring. }
    assert (A2 : forall v, match dget d2 v with Some y => is_finite (y : f64) = true /\ B2R (y : f64) = rnd64 (fval lm di v - fval lm dj v)
                           | None => rnd64 (fval lm di v - fval lm dj v) = 0 end).
    { intros v. rewrite G2. specialize (A1 v). specialize (Hb v).
      destruct (dget di v) as [f|] eqn:Di.
      - destruct (mul_unit fone f eq_refl (Fi _ _ Di) (or_introl one_R')) as (M1 & M2). rewrite one_R', Rmult_1_l in M2.
        assert (Vi : fval lm di v = B2R (f : f64)) by (unfold fval; rewrite Di; reflexivity).
        set (y := match dget d1 v with Some y => y | None => f0 end).
        assert (Y : is_finite (y : f64) = true /\ B2R (y : f64) = - fval lm dj v).
        { unfold y. destruct (dget d1 v); [exact A1|]. split; [reflexivity|]. change (B2R f0) with 0. rewrite A1. ring. }
        destruct Y as (Y1 & Y2).
        assert (Z : B2R (y : f64) + B2R (fmul fone f) = fval lm di v - fval lm dj v) by (rewrite Y2, M2, Vi; ring).
        destruct (add_round y (fmul fone f) Y1 M1) as (P1 & P2); [rewrite Z; exact Hb|]. split; [exact P1|]. rewrite Z in P2. exact P2.
      - assert (Vi : fval lm di v = 0) by (unfold fval; rewrite Di; reflexivity). rewrite Vi.
        destruct (dget d1 v) as [y|] eqn:D1.
        + destruct A1 as (Y1 & Y2). split; [exact Y1|]. rewrite Rminus_0_l, <- Y2. symmetry. apply rnd_B2R.
        + rewrite A1, Rminus_0_r. apply round_0, valid_rnd_N. }
    split.
    + intros v x X. specialize (A2 v). rewrite X in A2. apply A2.
    + intros v. specialize (A2 v). unfold fval at 1. destruct (dget d2 v) as [y|]; [apply A2|symmetry; exact A2].
Qed.

(** ** Comparison *)
(** Two numbers whose derivatives have been read, with finite values; the differences of the
    contributions of the variables are zero, or neither tiny nor huge. *)
Record comparable (st : state FN) (i j : nat) (di dj : dict FN) : Prop := {
  cp_reach : reachable st;
  cp_i : known_dict st i di;  cp_j : known_dict st j dj;
  cp_ei : exists e, reads st (IErrs i) (OErrs e);  cp_ej : exists e, reads st (IErrs j) (OErrs e);
  cp_ni : NoDup (dkeys di);  cp_nj : NoDup (dkeys dj);
  cp_fi : all_finite di;  cp_fj : all_finite dj;
  cp_size : INR (length di + length dj) <= 1000000;
  cp_sd : forall v, In v (dkeys di) \/ In v (dkeys dj) -> is_finite (sd st v : f64) = true;
  cp_diff : forall v, Rabs (rnd64 (fval lm di v - fval lm dj v)) < bpow radix2 1024;
  cp_ord : forall v, ordinary (rnd64 (fval lm di v - fval lm dj v) * B2R (sd st v : f64))
}.

Lemma rnd_minus_zero : forall x y : f64, rnd64 (B2R x - B2R y) = 0 -> B2R x = B2R y.
Proof.
  intros x y H. destruct (Req_dec (B2R x) (B2R y)) as [E|NE]; [exact E|]. exfalso.
  assert (NZ : B2R x + - B2R y <> 0) by lra.
  apply (round_plus_neq_0 radix2 fexp64 (Znearest (fun z => negb (Z.even z))) (B2R x) (- B2R y) (generic_format_B2R 53 1024 x)
    (generic_format_opp _ _ _ (generic_format_B2R 53 1024 y)) NZ). exact H.
Qed.

Lemma minus_zero : forall x y : f64, is_finite x = true -> is_finite y = true -> nonzero (fsub x y) = false <-> B2R x = B2R y.
Proof.
  intros x y F G. pose proof (Bminus_correct 53 1024 prec_gt_0_64 prec_lt_emax_64 mode_NE x y F G) as C. fold (fsub x y) in C.
  destruct (Rlt_bool_spec (Rabs (rnd64 (B2R x - B2R y))) (bpow radix2 1024)) as [L|L];
    [rewrite Rlt_bool_true in C by exact L|rewrite Rlt_bool_false in C by exact L].
  - destruct C as (V & Fi & _). rewrite nonzero_R by exact Fi. rewrite V. split.
    + intros H. apply negb_false_iff in H. destruct (Req_bool_spec (round radix2 (SpecFloat.fexp 53 1024) (round_mode mode_NE) (B2R x - B2R y)) 0) as [Z|Z]; [|discriminate H].
      apply rnd_minus_zero. exact Z.
    + intros E. rewrite E, Rminus_diag_eq by reflexivity. rewrite round_0 by apply valid_rnd_round_mode. rewrite Req_bool_true by reflexivity. reflexivity.
  - destruct C as (V & _). split.
    + intros H. exfalso. destruct (fsub x y) as [s|s| |s m e B]; try discriminate V; destruct s; discriminate H.
    + intros E. exfalso. rewrite E, Rminus_diag_eq, rnd_zero, Rabs_R0 in L by reflexivity. assert (P := bpow_gt_0 radix2 1024). lra.
Qed.
Lemma squares_zero : forall l, 0 <= Rsum (map (fun x => x ^ 2) l) /\ (Rsum (map (fun x => x ^ 2) l) = 0 <-> forall x, In x l -> x = 0).
Proof.
  induction l as [|x l (P & Q)]; cbn [map Rsum]; [split; [lra|split; [intros _ y []|reflexivity]]|].
  assert (X := pow2_ge_0 x). split; [lra|]. split.
  - intros H y [<-|I]; [nra|]. apply Q; [lra|exact I].
  - intros H. rewrite (proj2 Q); [|intros y I; apply H; right; exact I]. rewrite (H x (or_introl eq_refl)). ring.
Qed.
Lemma comps_keys : forall (h : heap FN) d e, components (N:=FN) h d = Ok e -> forall v, In v (dkeys d) -> get_var h v <> None.
Proof.
  intros h. induction d as [|[k x] d IH]; intros e E v I; [destruct I|]. cbn [components] in E.
  destruct (get_var h k) as [o|] eqn:G; [|discriminate E]. destruct (components h d) as [r|] eqn:C; [|discriminate E].
  destruct I as [<-|I]; [cbn [fst]; congruence|exact (IH r eq_refl v I)].
Qed.
Lemma comps_total : forall (h : heap FN) d, (forall v, In v (dkeys d) -> get_var h v <> None) -> exists e, components (N:=FN) h d = Ok e.
Proof.
  intros h. induction d as [|[k x] d IH]; intros H; [exists []; reflexivity|]. cbn [components].
  destruct (get_var h k) as [o|] eqn:G; [|exfalso; apply (H k); [left; reflexivity|exact G]].
  destruct IH as (e & ->); [intros v I; apply H; right; exact I|]. eexists. reflexivity.
Qed.
Lemma errs_keys : forall (st : state FN) i u d e, is_number st i u -> get_lc (st_heap st) (uf_lp u) = LDict d ->
  reads st (IErrs i) (OErrs e) -> forall v, In v (dkeys d) -> get_var (st_heap st) v <> None.
Proof.
  intros st i u d e Hn G (st' & k & H). specialize (H k (Nat.le_refl _)). cbn [step] in H. unfold with_uf, with_val in H. unfold is_number in Hn. rewrite Hn in H.
  unfold error_components, bind, derivatives, lc_derivatives in H. rewrite G in H. cbn [observe] in H.
  destruct (components (st_heap st) d) as [r|] eqn:C; [|discriminate H]. exact (comps_keys _ _ _ C).
Qed.

Lemma equal_core : forall (st : state FN) i j u w di dj, is_number st i u -> is_number st j w ->
  get_lc (st_heap st) (uf_lp u) = LDict di -> get_lc (st_heap st) (uf_lp w) = LDict dj ->
  (uf_lp u < length (h_lc (st_heap st)))%nat -> (uf_lp w < length (h_lc (st_heap st)))%nat ->
  (forall v, In v (dkeys di) -> get_var (st_heap st) v <> None) -> (forall v, In v (dkeys dj) -> get_var (st_heap st) v <> None) ->
  NoDup (dkeys di) -> NoDup (dkeys dj) -> all_finite di -> all_finite dj -> INR (length di + length dj) <= 1000000 ->
  (forall v, In v (dkeys di) \/ In v (dkeys dj) -> is_finite (sd st v : f64) = true) ->
  (forall v, Rabs (rnd64 (fval lm di v - fval lm dj v)) < bpow radix2 1024) ->
  (forall v, ordinary (rnd64 (fval lm di v - fval lm dj v) * B2R (sd st v : f64))) ->
  is_finite (uf_nom u : f64) = true -> is_finite (uf_nom w : f64) = true ->
  exists b, reads st (ICmp Ceq i j) (OBool b) /\
    (b = true <-> B2R (uf_nom u : f64) = B2R (uf_nom w : f64) /\ forall v, fval lm di v = fval lm dj v \/ B2R (sd st v : f64) = 0).
Proof.
  intros st i j u w di dj Hu Hw Gi Gj Bi Bj Vi Vj Ni Nj Fi Fj Sz Sd Df Or Fu Fw.
  destruct (diff_dict di dj Ni Nj Fi Fj Df) as (d1 & d2 & E1 & E2 & N2 & L2 & K2 & F2 & D2).
  set (h := st_heap st) in *. set (l := length (h_lc h)).
  set (its := [IPair (PF (N:=FN) (fneg fone)) (uf_lp w); IPair (PF (N:=FN) fone) (uf_lp u)]).
  set (h1 := mkHeap (h_lc h ++ [LList its]) (h_var h)).
  set (dn := mkUF (N:=FN) (fsub (uf_nom u) (uf_nom w)) l None).
  assert (MO : method_op Bsub u (VUF w) h = (Ok (VUF dn), h1)) by reflexivity.
  set (h2 := set_lc h1 l (LDict d2)).
  assert (L1 : (l < length (h_lc h1))%nat) by (unfold h1, l; cbn [h_lc]; rewrite app_length; cbn; lia).
  assert (G1 : get_lc h1 l = LList its) by apply get_alloc_new.
  assert (EX : forall f, (3 <= f)%nat -> lc_derivatives f l h1 = (Ok d2, h2)).
  { intros f Hf. destruct f as [|[|[|f]]]; try lia. unfold lc_derivatives. rewrite G1.
    cbn [expand_loop]. rewrite G1. cbn [its].
    assert (Ow : forall x, get_lc (set_lc h1 l x) (uf_lp w) = LDict dj).
    { intros x. rewrite get_set_neq by (unfold l; fold h in Bj; lia). unfold h1. rewrite get_alloc_old by exact Bj. exact Gj. }
    assert (Ou : forall x, get_lc (set_lc h1 l x) (uf_lp u) = LDict di).
    { intros x. rewrite get_set_neq by (unfold l; fold h in Bi; lia). unfold h1. rewrite get_alloc_old by exact Bi. exact Gi. }
    rewrite Ow, E1. rewrite get_set_eq by exact L1. rewrite set_set. rewrite Ou, E2. rewrite get_set_eq by exact L1. rewrite set_set.
    rewrite get_set_eq by exact L1. reflexivity. }
  assert (HV : h_var h2 = h_var h) by reflexivity.
  destruct (comps_total h2 d2) as (ec & EC).
  { intros v I. unfold get_var. rewrite HV. apply K2 in I. destruct I as [I|I]; [exact (Vi v I)|exact (Vj v I)]. }
  (* the state after x - y *)
  set (st1 := mkState h1 (st_env st ++ [VUF dn])).
  assert (Hd : is_number st1 (length (st_env st)) dn) by (unfold is_number, st1; cbn [st_env]; rewrite nth_error_app2 by lia; rewrite Nat.sub_diag; reflexivity).
  assert (R1 : reads st1 (IDeriv (length (st_env st))) (ODict d2)).
  { exists (mkState h2 (st_env st1)), 3%nat. intros f Hf. cbn [step]. unfold with_uf, with_val. unfold is_number in Hd. rewrite Hd.
    unfold derivatives. cbn [uf_lp dn st_heap st1]. rewrite (EX f Hf). reflexivity. }
  assert (R2 : reads st1 (IErrs (length (st_env st))) (OErrs ec)).
  { exists (mkState h2 (st_env st1)), 3%nat. intros f Hf. cbn [step]. unfold with_uf, with_val. unfold is_number in Hd. rewrite Hd.
    unfold error_components, bind, derivatives. cbn [uf_lp dn st_heap st1]. rewrite (EX f Hf), EC. reflexivity. }
  assert (SDE : forall v, sd st1 v = sd st v) by reflexivity.
  assert (En : List.Forall (entry_ok lm st1) d2).
  { apply Forall_forall. intros (v, x) I. assert (Gx := In_dget d2 v x N2 I).
    assert (Iv : In v (dkeys d2)) by (apply dget_In_keys; eauto).
    unfold entry_ok, prod. cbn [fst snd]. rewrite SDE. split; [exact (F2 v x Gx)|]. split; [apply Sd, K2, Iv|].
    replace (B2R (x : f64)) with (fval lm d2 v) by (unfold fval; rewrite Gx; reflexivity). rewrite D2. apply Or. }
  assert (Len : INR (length d2) <= 1000000) by (apply Rle_trans with (2 := Sz); apply le_INR; exact L2).
  destruct (std_accurate lm SQ st1 (length (st_env st)) dn d2 ec (IStd (length (st_env st))) Hd R1 R2 En Len (or_intror (conj eq_refl eq_refl))) as (_ & s & Rs & Fs & As).
  assert (Zs : B2R s = 0 <-> forall v, fval lm d2 v * B2R (sd st v : f64) = 0).
  { set (S := Rsum (map (fun p => prod lm st1 p ^ 2) d2)) in *.
    assert (SE : S = Rsum (map (fun x => x ^ 2) (map (prod lm st1) d2))) by (unfold S; rewrite map_map; reflexivity).
    destruct (squares_zero (map (prod lm st1) d2)) as (P & Q). rewrite <- SE in P, Q.
    assert (Z0 : S = 0 <-> forall v, fval lm d2 v * B2R (sd st v : f64) = 0).
    { rewrite Q. split.
      - intros HS v. unfold fval. destruct (dget d2 v) as [x|] eqn:Gx; [|ring]. apply dget_In in Gx.
        exact (HS _ (in_map (prod lm st1) _ _ Gx)).
      - intros HZ x I. apply in_map_iff in I. destruct I as ((v, y) & <- & I). specialize (HZ v). unfold fval in HZ.
        rewrite (In_dget d2 v y N2 I) in HZ. exact HZ. }
    rewrite <- Z0. clear Z0. set (e := INR (length d2 + 7) / 2 ^ 53) in *.
    assert (He : e < 1).
    { unfold e. rewrite plus_INR. change (INR 7) with (1 + 1 + 1 + 1 + 1 + 1 + 1). assert (2 ^ 53 = 9007199254740992) by ring. rewrite H.
      apply Rmult_lt_reg_r with 9007199254740992; [lra|]. unfold Rdiv. rewrite Rmult_assoc, Rinv_l by lra. lra. }
    split.
    - intros Z. rewrite Z, Rminus_0_l, Rabs_Ropp, Rabs_pos_eq in As by apply sqrt_pos.
      destruct (Rtotal_order S 0) as [X|[X|X]]; [lra|exact X|]. exfalso. assert (Q0 := sqrt_lt_R0 S X). nra.
    - intros Z. rewrite Z, sqrt_0, Rmult_0_r, Rminus_0_r in As. assert (Q0 := Rabs_pos (B2R s)). destruct (Req_dec (B2R s) 0) as [X|X]; [exact X|]. apply Rabs_pos_lt in X. lra. }
  destruct Rs as (st2 & k & Hs).
  assert (SS : forall f, (k <= f)%nat -> fst (std_dev f dn h1) = Ok s).
  { intros f Hf. specialize (Hs f Hf). cbn [step] in Hs. unfold with_uf, with_val in Hs. unfold is_number in Hd. rewrite Hd in Hs.
    cbn [st_heap st1] in Hs. destruct (std_dev f dn h1) as [[a|er] hh]; cbn [observe] in Hs; [|discriminate Hs]. injection Hs as _ <-. reflexivity. }
  assert (SH : forall f, (Nat.max 3 k <= f)%nat -> std_dev f dn h1 = (Ok s, h2)).
  { intros f Hf. specialize (SS f ltac:(lia)). unfold std_dev in *. cbn [uf_var dn] in *. unfold std_dev_affine, error_components, derivatives, bind in *.
    cbn [uf_lp dn] in *. rewrite (EX f ltac:(lia)) in *. rewrite EC in *. cbn [fst] in SS. rewrite SS. reflexivity. }
  assert (NT : nonzero (fsub (uf_nom u) (uf_nom w)) = false <-> B2R (uf_nom u : f64) = B2R (uf_nom w : f64)).
  { apply minus_zero; assumption. }
  destruct (nonzero (fsub (uf_nom u) (uf_nom w))) eqn:NN.
  - exists false. split.
    + exists (mkState h1 (st_env st)), 0%nat. intros f _. cbn [step]. unfold with_uf, with_val. unfold is_number in Hu, Hw. rewrite Hu, Hw.
      unfold py_cmp, bind, method_cmp. cbn [to_affine_scalar ret cmp_aff]. unfold eq_aff, bind. fold h. rewrite MO. cbn [uf_nom dn].
      change (n_truth FN (fsub (uf_nom u) (uf_nom w))) with (nonzero (fsub (uf_nom u) (uf_nom w))). rewrite NN. reflexivity.
    + split; [discriminate|]. intros (X & _). apply NT in X. discriminate X.
  - exists (negb (nonzero s)). split.
    + exists (mkState h2 (st_env st)), (Nat.max 3 k). intros f Hf. cbn [step]. unfold with_uf, with_val. unfold is_number in Hu, Hw. rewrite Hu, Hw.
      unfold py_cmp, bind, method_cmp. cbn [to_affine_scalar ret cmp_aff]. unfold eq_aff, bind. fold h. rewrite MO. cbn [uf_nom dn].
      change (n_truth FN (fsub (uf_nom u) (uf_nom w))) with (nonzero (fsub (uf_nom u) (uf_nom w))). rewrite NN. fold dn. rewrite (SH f Hf). reflexivity.
    + rewrite nonzero_R by exact Fs. rewrite negb_involutive. split.
      * intros Q. split; [apply NT; reflexivity|]. intros v.
        destruct (Req_bool_spec (B2R s) 0) as [Z|Z]; [|discriminate Q]. specialize (proj1 Zs Z v). rewrite D2. intros X.
        apply Rmult_integral in X. destruct X as [X|X]; [left|right; exact X]. unfold fval in X |- *.
        destruct (dget di v) as [x|], (dget dj v) as [y|].
        -- apply rnd_minus_zero. exact X.
        -- change 0 with (B2R f0) in X |- *. apply rnd_minus_zero. exact X.
        -- change 0 with (B2R f0) in X |- *. apply rnd_minus_zero. exact X.
        -- reflexivity.
      * intros (_ & Q). apply Req_bool_true. apply Zs. intros v. destruct (Q v) as [X|X]; [|rewrite X; ring].
        rewrite D2, X, Rminus_diag_eq by reflexivity. rewrite (round_0 radix2 fexp64 (Znearest (fun z => negb (Z.even z)))). ring.
Qed.

Theorem equal_spec : forall (st : state FN) i j u w di dj, is_number st i u -> is_number st j w -> comparable st i j di dj ->
  is_finite (uf_nom u : f64) = true -> is_finite (uf_nom w : f64) = true ->
  exists b, reads st (ICmp Ceq i j) (OBool b) /\
    (b = true <-> B2R (uf_nom u : f64) = B2R (uf_nom w : f64) /\ forall v, fval lm di v = fval lm dj v \/ B2R (sd st v : f64) = 0).
Proof.
  intros st i j u w di dj Hu Hw C Fu Fw. destruct C as [RE Ki Kj [ei Ei] [ej Ej] Ni Nj Fi Fj Sz Sd Df Or].
  assert (Gi := known_get st i u di RE Hu Ki). assert (Gj := known_get st j w dj RE Hw Kj).
  apply (equal_core st i j u w di dj); auto.
  - exact (reachable_bound st i u RE Hu).
  - exact (reachable_bound st j w RE Hw).
  - exact (errs_keys st i u di ei Hu Gi Ei).
  - exact (errs_keys st j w dj ej Hw Gj Ej).
Qed.

Lemma comparable_sym : forall (st : state FN) i j di dj, comparable st i j di dj -> comparable st j i dj di.
Proof.
  intros st i j di dj [RE Ki Kj Ei Ej Ni Nj Fi Fj Sz Sd Df Or].
  assert (S : forall v, rnd64 (fval lm dj v - fval lm di v) = - rnd64 (fval lm di v - fval lm dj v)).
  { intros v. replace (fval lm dj v - fval lm di v) with (- (fval lm di v - fval lm dj v)) by ring. apply round_NE_opp. }
  constructor; auto.
  - rewrite Nat.add_comm. exact Sz.
  - intros v H. apply Sd. tauto.
  - intros v. rewrite S, Rabs_Ropp. apply Df.
  - intros v. rewrite S. destruct (Or v) as [H|H]; [left; rewrite Ropp_mult_distr_l_reverse, H; ring|right].
    rewrite Ropp_mult_distr_l_reverse, Rabs_Ropp. exact H.
Qed.
Theorem equal_symmetric : forall (st : state FN) i j u w di dj, is_number st i u -> is_number st j w -> comparable st i j di dj ->
  is_finite (uf_nom u : f64) = true -> is_finite (uf_nom w : f64) = true ->
  exists b, reads st (ICmp Ceq i j) (OBool b) /\ reads st (ICmp Ceq j i) (OBool b).
Proof.
  intros st i j u w di dj Hu Hw C Fu Fw.
  destruct (equal_spec st i j u w di dj Hu Hw C Fu Fw) as (b & R & S).
  destruct (equal_spec st j i w u dj di Hw Hu (comparable_sym _ _ _ _ _ C) Fw Fu) as (b' & R' & S').
  assert (E : b = true <-> b' = true).
  { rewrite S, S'. split; intros (X & Y); (split; [symmetry; exact X|]); intros v; destruct (Y v); auto. }
  exists b. split; [exact R|]. replace b with b'; [exact R'|]. destruct b, b'; try reflexivity; [apply E; reflexivity|symmetry; apply E; reflexivity].
Qed.
(** x == x, when the derivatives of x have been read. *)
Theorem equal_reflexive : forall (st : state FN) i u d e, reachable st -> is_number st i u -> known_dict st i d -> reads st (IErrs i) (OErrs e) ->
  NoDup (dkeys d) -> all_finite d -> INR (length d) <= 500000 -> (forall v, In v (dkeys d) -> is_finite (sd st v : f64) = true) ->
  is_finite (uf_nom u : f64) = true -> reads st (ICmp Ceq i i) (OBool true) /\ reads st (ICmp Cne i i) (OBool false).
Proof.
  intros st i u d e RE Hu K Er N F L S Fu.
  assert (Z : forall v, rnd64 (fval lm d v - fval lm d v) = 0) by (intros v; rewrite Rminus_diag_eq by reflexivity; apply rnd_zero).
  assert (C : comparable st i i d d).
  { constructor; auto.
    - exists e. exact Er.
    - exists e. exact Er.
    - rewrite plus_INR. lra.
    - intros v [H|H]; auto.
    - intros v. rewrite Z, Rabs_R0. apply bpow_gt_0.
    - intros v. left. rewrite Z. ring. }
  destruct (equal_spec st i i u u d d Hu Hu C Fu Fu) as (b & R & Q).
  assert (b = true) by (apply Q; split; [reflexivity|]; intros v; left; reflexivity). subst b. split; [exact R|].
  destruct R as (st' & k & R). exists st', k. intros f Hf. specialize (R f Hf). cbn [step] in *. unfold with_uf, with_val in *. unfold is_number in Hu. rewrite Hu in *.
  unfold py_cmp, bind, method_cmp in *. cbn [to_affine_scalar ret cmp_aff] in *. unfold ne_aff, bind.
  destruct (eq_aff f u u (st_heap st)) as [[b|er] hh]; cbn [observe ret] in *; [|discriminate R]. injection R as <- ->. reflexivity.
Qed.
End BinEq.

(** ** The theorems *)
Theorem equal_when_read : forall lm, squares_ok lm -> forall (st : state (FOps lm)) i j u w di dj,
  is_number st i u -> is_number st j w -> comparable lm st i j di dj ->
  is_finite (uf_nom u : f64) = true -> is_finite (uf_nom w : f64) = true ->
  exists b, reads st (ICmp Ceq i j) (OBool b) /\
    (b = true <-> B2R (uf_nom u : f64) = B2R (uf_nom w : f64) /\ forall v, fval lm di v = fval lm dj v \/ B2R (sd st v : f64) = 0).
Proof. exact equal_spec. Qed.
Theorem equal_when_read_sym : forall lm, squares_ok lm -> forall (st : state (FOps lm)) i j u w di dj,
  is_number st i u -> is_number st j w -> comparable lm st i j di dj ->
  is_finite (uf_nom u : f64) = true -> is_finite (uf_nom w : f64) = true ->
  exists b, reads st (ICmp Ceq i j) (OBool b) /\ reads st (ICmp Ceq j i) (OBool b).
Proof. exact equal_symmetric. Qed.
Theorem equal_when_read_refl : forall lm, squares_ok lm -> forall (st : state (FOps lm)) i u d e,
  reachable st -> is_number st i u -> known_dict lm st i d -> reads st (IErrs i) (OErrs e) ->
  NoDup (dkeys d) -> all_finite lm d -> (INR (length d) <= 500000)%R -> (forall v, In v (dkeys d) -> is_finite (sd st v : f64) = true) ->
  is_finite (uf_nom u : f64) = true -> reads st (ICmp Ceq i i) (OBool true) /\ reads st (ICmp Cne i i) (OBool false).
Proof. exact equal_reflexive. Qed.

(** ** x + x and 2*x, after their derivatives have been read *)
Definition dict_at (st : state FN) (i : nat) : dict FN := match get_lc (st_heap st) (uf_lp (uf_at st i)) with LDict d => d | LList _ => [] end.
Lemma known_at : forall st i, has_uf st i = true -> expanded (get_lc (st_heap st) (uf_lp (uf_at st i))) = true -> known_dict lm0 st i (dict_at st i).
Proof.
  intros st i H X. apply has_uf_at in H. exists 0%nat. intros f _. cbn [step]. unfold with_uf, with_val. unfold is_number in H. rewrite H.
  unfold derivatives, lc_derivatives, dict_at. destruct (get_lc (st_heap st) (uf_lp (uf_at st i))) as [d|its]; [|discriminate X].
  cbn [observe]. destruct st; reflexivity.
Qed.
Definition twice : list (instr FN) := [INew (fl 1 0) (fl 1 (-3)) None; IBin Badd 0 0; IConst (fl 2 0); IBin Bmul 2 0; IDeriv 1; IDeriv 3].
Definition st_tw := after twice.
Definition one_entry (d : dict FN) : bool := match d with [(O, x)] => is_finite (x : f64) && Beqb (x : f64) ftwo | _ => false end.
Lemma one_entry_ok : forall d, one_entry d = true -> dkeys d = [0%nat] /\ all_finite lm0 d /\ forall v, fval lm0 d v = if Nat.eqb v 0 then 2 else 0.
Proof.
  intros d H. destruct d as [|[[|k] x] [|y d]]; try discriminate H. cbn [one_entry] in H. apply andb_true_iff in H. destruct H as (F & E).
  split; [reflexivity|]. split.
  - intros v y G. cbn [dget] in G. destruct (Nat.eqb v 0); [injection G as <-; exact F|discriminate G].
  - intros v. unfold fval. cbn [dget]. destruct (Nat.eqb v 0); [|reflexivity].
    assert (Y := Beqb_correct _ _ (x : f64) ftwo F eq_refl). assert (Y2 := eq_trans (eq_sym Y) E). clear Y.
    destruct (Req_bool_spec (B2R (x : f64)) (B2R ftwo)) as [Y|]; [|discriminate Y2]. rewrite Y.
    change (B2R ftwo) with (IZR 4503599627370496 * / IZR 2251799813685248). lra.
Qed.
Lemma errs_at : forall st i, match snd (step 40 st (IErrs i)) with OErrs _ => true | _ => false end = true -> exists e : list (varid * pynum FN), reads st (IErrs i) (OErrs e).
Proof. intros st i H. destruct (snd (step 40 st (IErrs i))) as [| |e| | |] eqn:E; try discriminate H. exists e. apply (reads_step 40); [exact E|discriminate]. Qed.
Lemma ex_equal : squares_ok lm0 /\ (exists u w, is_number st_tw 1 u /\ is_number st_tw 3 w /\ is_finite (uf_nom u : f64) = true /\ is_finite (uf_nom w : f64) = true) /\
  comparable lm0 st_tw 1 3 (dict_at st_tw 1) (dict_at st_tw 3) /\ reads st_tw (ICmp Ceq 1 3) (OBool true) /\
  reads st_tw (ICmp Ceq 1 0) (OBool false).
Proof.
  split; [apply exact_squares_ok, lm0_squares|]. split.
  { exists (uf_at st_tw 1), (uf_at st_tw 3). split; [numb|]. split; [numb|]. split; vm_cast_no_check (eq_refl true). }
  destruct (one_entry_ok (dict_at st_tw 1)) as (A1 & A2 & A3); [vm_cast_no_check (eq_refl true)|].
  destruct (one_entry_ok (dict_at st_tw 3)) as (B1 & B2 & B3); [vm_cast_no_check (eq_refl true)|].
  split; [|split; run_big].
  assert (Z : forall v, rnd64 (fval lm0 (dict_at st_tw 1) v - fval lm0 (dict_at st_tw 3) v) = 0) by (intros v; rewrite A3, B3, Rminus_diag_eq by reflexivity; apply rnd_zero).
  constructor; auto.
  - unfold st_tw. reach.
  - apply known_at; vm_cast_no_check (eq_refl true).
  - apply known_at; vm_cast_no_check (eq_refl true).
  - apply errs_at. vm_cast_no_check (eq_refl true).
  - apply errs_at. vm_cast_no_check (eq_refl true).
  - rewrite A1. constructor; [intros []|constructor].
  - rewrite B1. constructor; [intros []|constructor].
  - assert (L : (length (dict_at st_tw 1) + length (dict_at st_tw 3))%nat = 2%nat).
    { assert (M : forall d : dict FN, length d = length (dkeys d)) by (intros d; unfold dkeys; symmetry; apply map_length). rewrite !M, A1, B1. reflexivity. }
    rewrite L. simpl. lra.
  - intros v H. rewrite A1, B1 in H. assert (E : v = 0%nat) by (destruct H as [[<-|[]]|[<-|[]]]; reflexivity). subst v. vm_cast_no_check (eq_refl true).
  - intros v. rewrite Z, Rabs_R0. apply bpow_gt_0.
  - intros v. left. rewrite Z. ring.
Qed.
