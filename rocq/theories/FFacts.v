(** Facts about the IEEE binary64 instance, for any C library. *)
From Coq Require Import ZArith List Bool Lia Reals.
From Flocq Require Import Core BinarySingleNaN.
From Verif Require Import Base Heap Affine Ops UMath Machine History NumF GenProofs.
Import ListNotations.
Local Open Scope Z_scope.

Section FFacts.
Variable lm : Libm.
Notation FN := (FOps lm).
Notation state := (state FN).

Lemma nan_mul : forall x, fmul fnan x = fnan.
Proof. intros []; reflexivity. Qed.
Lemma nan_add_l : forall x, fadd fnan x = fnan.
Proof. intros []; reflexivity. Qed.
Lemma nan_add_r : forall x, fadd x fnan = fnan.
Proof. intros []; reflexivity. Qed.

(** ** A NaN coefficient gives NaN derivatives *)
Lemma acc_nan : forall (dd acc : dict FN),
  NoDup (dkeys dd) -> (forall v, In v (dkeys dd) -> ~ In v (dkeys acc)) ->
  acc_dict (N:=FN) (PF (N:=FN) fnan) dd acc = Ok (acc ++ map (fun p => (fst p, fnan)) dd).
Proof.
  induction dd as [|[v f] dd IH]; intros acc ND Hd; cbn [acc_dict]; [cbn; now rewrite app_nil_r|].
  cbn [cmul pn_float rbind n_mul FOps]. unfold cmul. cbn [pn_float rbind].
  assert (G : dget acc v = None).
  { assert (H : ~ In v (dkeys acc)) by (apply Hd; now left). clear - H.
    induction acc as [|[w y] acc IH]; cbn in *; auto. destruct (Nat.eqb_spec v w); subst; tauto. }
  rewrite G. cbn [n_mul n_add n_zero FOps]. rewrite nan_mul, nan_add_r.
  assert (D : dset acc v fnan = acc ++ [(v, fnan)]).
  { clear - G. induction acc as [|[w y] acc IH]; cbn in *; auto.
    destruct (Nat.eqb v w); [discriminate|]. now rewrite IH. }
  rewrite D. inversion ND; subst. rewrite IH; auto.
  - now rewrite <- app_assoc.
  - intros w Hw. unfold dkeys. rewrite map_app. intros X. apply in_app_or in X. destruct X as [X|X].
    + apply (Hd w); [now right|exact X].
    + cbn in X. destruct X as [X|[]]. subst. contradiction.
Qed.

Lemma get_set : forall (h : heap FN) l x, (l < length (h_lc h))%nat -> get_lc (set_lc h l x) l = x.
Proof.
  intros [lcs vs] l x. unfold get_lc, set_lc. cbn. revert l.
  induction lcs as [|y lcs IH]; intros [|l] H; cbn in *; try lia; auto. apply IH. lia.
Qed.
Lemma get_set_ne : forall (h : heap FN) l l' x, l <> l' -> get_lc (set_lc h l x) l' = get_lc h l'.
Proof.
  intros [lcs vs] l l' x. unfold get_lc, set_lc. cbn. revert l l'.
  induction lcs as [|y lcs IH]; intros [|l] [|l'] H; cbn in *; try lia; auto.
Qed.
Lemma set_set : forall (h : heap FN) l x y, set_lc (set_lc h l x) l y = set_lc h l y.
Proof.
  intros [lcs vs] l x y. unfold set_lc. cbn. f_equal. revert l.
  induction lcs as [|z lcs IH]; intros [|l]; cbn; auto. now rewrite IH.
Qed.

Definition all_nan (dd : dict FN) : dict FN := map (fun p => (fst p, fnan)) dd.

Lemma nan_derivatives : forall (h : heap FN) l l' dd fuel,
  (l < length (h_lc h))%nat -> l <> l' -> (2 <= fuel)%nat ->
  get_lc h l = LList [IPair (PF (N:=FN) fnan) l'] -> get_lc h l' = LDict dd -> NoDup (dkeys dd) ->
  lc_derivatives fuel l h = (Ok (all_nan dd), set_lc h l (LDict (all_nan dd))).
Proof.
  intros h l l' dd fuel B Nl F G G' ND. unfold lc_derivatives. rewrite G.
  destruct fuel as [|[|fuel]]; try lia. cbn [expand_loop]. rewrite G.
  rewrite get_set_ne by auto. rewrite G'. rewrite acc_nan by (auto; intros; now intros []).
  cbn [app]. rewrite get_set by auto. rewrite set_set, get_set by auto. reflexivity.
Qed.

Definition is_exact (h : heap FN) (v : varid) : bool :=
  match get_var h v with Some o => Beqb (v_std o) f0 | None => false end.

Lemma nan_components : forall (h : heap FN) dd,
  (forall v, In v (dkeys dd) -> get_var h v <> None) ->
  components h (all_nan dd) =
    Ok (map (fun p => (fst p, if is_exact h (fst p) then PZ 0 else PF (N:=FN) fnan)) dd).
Proof.
  intros h. induction dd as [|[v x] dd IH]; intros H; cbn [all_nan map components]; auto.
  cbn [fst]. unfold is_exact at 1. destruct (get_var h v) as [o|] eqn:E.
  2:{ exfalso. apply (H v); [now left|exact E]. }
  unfold all_nan in IH. rewrite IH by (intros w Hw; apply H; now right). cbn [rbind].
  cbn [n_eq FOps n_zero n_mul n_abs]. rewrite nan_mul. reflexivity.
Qed.
Lemma nan_sum : forall (h : heap FN) dd,
  let cs := map (fun p : varid * num FN => if is_exact h (fst p) then PZ 0 else PF (N:=FN) fnan) dd in
  sum_squares (PF (N:=FN) fnan) cs = Ok (PF (N:=FN) fnan) /\
  sum_squares (PZ 0) cs =
    Ok (if forallb (fun p => is_exact h (fst p)) dd then PZ 0 else PF (N:=FN) fnan).
Proof.
  intros h. induction dd as [|[v x] dd IH]; cbn zeta in *; [split; reflexivity|].
  cbn [map fst forallb]. destruct IH as [IH1 IH2]. destruct (is_exact h v).
  - split; cbn [sum_squares pn_square rbind].
    + cbn [pn_add]. change (f_of_Z 0) with (Ok f0). exact IH1.
    + exact IH2.
  - assert (Q : pn_square (PF (N:=FN) fnan) = Ok (PF (N:=FN) fnan)) by reflexivity.
    split; cbn [sum_squares]; rewrite Q; cbn [rbind].
    + exact IH1.
    + exact IH1.
Qed.

(** A number calculated with an undefined derivative. *)
Lemma nan_reads : forall (st : state) n w l' dd fuel, is_number st n w -> uf_var w = None ->
  (uf_lp w < length (h_lc (st_heap st)))%nat -> uf_lp w <> l' -> (2 <= fuel)%nat ->
  get_lc (st_heap st) (uf_lp w) = LList [IPair (PF (N:=FN) fnan) l'] ->
  get_lc (st_heap st) l' = LDict dd -> NoDup (dkeys dd) ->
  (forall v, In v (dkeys dd) -> get_var (st_heap st) v <> None) ->
  exists st', step fuel st (IDeriv n) = (st', ODict (all_nan dd)) /\
    step fuel st (IStd n) =
      (st', ONum (N:=FN) (if forallb (fun p => is_exact (st_heap st) (fst p)) dd then f0 else fnan)).
Proof.
  intros st n w l' dd fuel W V B Nl F G G' ND HV. unfold is_number in W.
  exists (mkState (set_lc (st_heap st) (uf_lp w) (LDict (all_nan dd))) (st_env st)). split.
  - cbn [step]. unfold with_uf, with_val. rewrite W. unfold derivatives.
    rewrite (nan_derivatives _ _ _ _ _ B Nl F G G' ND). reflexivity.
  - cbn [step]. unfold with_uf, with_val. rewrite W. unfold std_dev. rewrite V.
    unfold std_dev_affine, error_components, bind, derivatives.
    rewrite (nan_derivatives _ _ _ _ _ B Nl F G G' ND).
    assert (HV' : forall v, In v (dkeys dd) -> get_var (set_lc (st_heap st) (uf_lp w) (LDict (all_nan dd))) v <> None).
    { intros v Hv. exact (HV v Hv). }
    rewrite (nan_components _ _ HV'). cbv beta iota. rewrite map_map. cbn [snd].
    set (h' := set_lc (st_heap st) (uf_lp w) (LDict (all_nan dd))).
    rewrite (proj2 (nan_sum h' dd)).
    change (forallb (fun p : varid * num FN => is_exact h' (fst p)) dd)
      with (forallb (fun p : varid * num FN => is_exact (st_heap st) (fst p)) dd).
    destruct (forallb _ dd); reflexivity.
Qed.

(** C24: umath functions. *)
Theorem umath_nan : forall (st : state) f d j u dd y e,
  is_number st j u -> (uf_lp u < length (h_lc (st_heap st)))%nat ->
  get_lc (st_heap st) (uf_lp u) = LDict dd -> NoDup (dkeys dd) ->
  (forall v, In v (dkeys dd) -> get_var (st_heap st) v <> None) ->
  m1_der (N:=FN) f = Some d -> n_fun1 FN f (uf_nom u) = Ok y ->
  d (uf_nom u) = Err e -> arith e = true ->
  exists st1 w, (forall fuel, step fuel st (ICall (m1_fun f) (m1_pos f) (m1_kw f) [j] []) = (st1, ONone)) /\
    is_number st1 (length (st_env st)) w /\ uf_nom w = y /\
    forall fuel, (2 <= fuel)%nat -> exists st2,
      step fuel st1 (IDeriv (length (st_env st))) = (st2, ODict (N:=FN) (map (fun p => (fst p, fnan)) dd)) /\
      step fuel st1 (IStd (length (st_env st))) =
        (st2, ONum (N:=FN) (if forallb (fun p => is_exact (st_heap st) (fst p)) dd then f0 else fnan)).
Proof.
  intros st f d j u dd y e U B G ND HV Ed Ef Er Ar. unfold is_number in U.
  set (h := st_heap st).
  set (w := mkUF (N:=FN) y (length (h_lc h)) None).
  set (st1 := mkState (mkHeap (h_lc h ++ [LList [IPair (PF (N:=FN) fnan) (uf_lp u)]]) (h_var h))
                      (st_env st ++ [VUF w])).
  assert (NN : nan_if_exception (N:=FN) (Err e) = Ok (PF (N:=FN) fnan))
    by (destruct e; try discriminate Ar; reflexivity).
  exists st1, w. split.
  - intros fuel. cbn [step get_args get_kwargs]. rewrite U. unfold wcall.
    cbn [existsb is_uf orb negb map nominal_value kw_map pos_terms kw_terms].
    unfold m1_fun at 1. cbn [pn_float rbind]. rewrite Ef. cbn [rbind].
    unfold m1_pos. rewrite Ed. cbn [pn_float rbind]. rewrite Er, NN. reflexivity.
  - assert (W : is_number st1 (length (st_env st)) w).
    { unfold is_number, st1. cbn. rewrite nth_error_app2, Nat.sub_diag by lia. reflexivity. }
    split; [exact W|]. split; [reflexivity|]. intros fuel F.
    destruct (nan_reads st1 (length (st_env st)) w (uf_lp u) dd fuel W eq_refl) as (st2 & A1 & A2); auto.
    + cbn. rewrite app_length. cbn. lia.
    + cbn. fold h in B. lia.
    + cbn. unfold get_lc. cbn. rewrite app_nth2, Nat.sub_diag by lia. reflexivity.
    + cbn. unfold get_lc. cbn. rewrite app_nth1 by exact B. exact G.
    + exists st2. split; [exact A1|exact A2].
Qed.
(** C24: other exceptions of the derivative, and the exceptions of the function itself. *)
Theorem umath_other_exception : forall (st : state) f d j u y e fuel,
  is_number st j u -> m1_der (N:=FN) f = Some d -> n_fun1 FN f (uf_nom u) = Ok y ->
  d (uf_nom u) = Err e -> arith e = false ->
  step fuel st (ICall (m1_fun f) (m1_pos f) (m1_kw f) [j] []) =
    (mkState (st_heap st) (st_env st ++ [VPlain (POther 0)]), OExn e).
Proof.
  intros st f d j u y e fuel U Ed Ef Er Ar. unfold is_number in U.
  cbn [step get_args get_kwargs]. rewrite U. unfold wcall.
  cbn [existsb is_uf orb negb map nominal_value kw_map pos_terms kw_terms].
  unfold m1_fun at 1. cbn [pn_float rbind]. rewrite Ef. cbn [rbind].
  unfold m1_pos. rewrite Ed. cbn [pn_float rbind]. rewrite Er.
  destruct e; try discriminate Ar; reflexivity.
Qed.
Theorem umath_own_exception : forall (st : state) f j u e fuel,
  is_number st j u -> n_fun1 FN f (uf_nom u) = Err e ->
  step fuel st (ICall (m1_fun f) (m1_pos f) (m1_kw f) [j] []) =
    (mkState (st_heap st) (st_env st ++ [VPlain (POther 0)]), OExn e).
Proof.
  intros st f j u e fuel U Ef. unfold is_number in U.
  cbn [step get_args get_kwargs]. rewrite U. unfold wcall.
  cbn [existsb is_uf orb negb map nominal_value kw_map pos_terms kw_terms].
  unfold m1_fun at 1. cbn [pn_float rbind]. rewrite Ef. reflexivity.
Qed.
(** C24: x**y with an exact exponent. *)
Theorem pow_nan : forall (st : state) j u k q dd z e,
  is_number st j u -> (uf_lp u < length (h_lc (st_heap st)))%nat ->
  get_lc (st_heap st) (uf_lp u) = LDict dd -> NoDup (dkeys dd) ->
  (forall v, In v (dkeys dd) -> get_var (st_heap st) v <> None) ->
  nth_error (st_env st) k = Some (VNum q) ->
  float_method Bpow [PNum (PF (uf_nom u)); PNum q] [] = Ok (PNum (PF (N:=FN) z)) ->
  (pow_deriv_0 (PF (uf_nom u)) q = Err e /\ arith e = true) \/
    pow_deriv_0 (PF (uf_nom u)) q = Ok (PF (N:=FN) fnan) ->
  exists st1 w, (forall fuel, step fuel st (IBin Bpow j k) = (st1, ONone)) /\
    is_number st1 (length (st_env st)) w /\ uf_nom w = z /\
    forall fuel, (2 <= fuel)%nat -> exists st2,
      step fuel st1 (IDeriv (length (st_env st))) = (st2, ODict (N:=FN) (map (fun p => (fst p, fnan)) dd)) /\
      step fuel st1 (IStd (length (st_env st))) =
        (st2, ONum (N:=FN) (if forallb (fun p => is_exact (st_heap st) (fst p)) dd then f0 else fnan)).
Proof.
  intros st j u k q dd z e U B G ND HV K Ef Er. unfold is_number in U.
  set (h := st_heap st).
  set (w := mkUF (N:=FN) z (length (h_lc h)) None).
  set (st1 := mkState (mkHeap (h_lc h ++ [LList [IPair (PF (N:=FN) fnan) (uf_lp u)]]) (h_var h))
                      (st_env st ++ [VUF w])).
  assert (NN : nan_if_exception (pow_deriv_0 (N:=FN) (PF (uf_nom u)) q) = Ok (PF (N:=FN) fnan)).
  { destruct Er as [[-> Ar]| ->]; [destruct e; try discriminate Ar|]; reflexivity. }
  exists st1, w. split.
  - intros fuel. cbn [step get_args]. rewrite U, K. unfold py_binop, bind, method_op, wcall.
    cbn [existsb is_uf orb negb map nominal_value]. cbn [kw_map map]. rewrite Ef.
    cbn [pos_terms kw_terms]. unfold op_pos. cbn [op_der_x]. rewrite NN. reflexivity.
  - assert (W : is_number st1 (length (st_env st)) w).
    { unfold is_number, st1. cbn. rewrite nth_error_app2, Nat.sub_diag by lia. reflexivity. }
    split; [exact W|]. split; [reflexivity|]. intros fuel F.
    destruct (nan_reads st1 (length (st_env st)) w (uf_lp u) dd fuel W eq_refl) as (st2 & A1 & A2); auto.
    + cbn. rewrite app_length. cbn. lia.
    + cbn. fold h in B. lia.
    + cbn. unfold get_lc. cbn. rewrite app_nth2, Nat.sub_diag by lia. reflexivity.
    + cbn. unfold get_lc. cbn. rewrite app_nth1 by exact B. exact G.
    + exists st2. split; [exact A1|exact A2].
Qed.

(** ** Exact conversions to int *)
Local Open Scope R_scope.
Lemma F2R_div : forall m e, (e < 0)%Z -> @F2R radix2 (Float radix2 m e) = IZR m / IZR (2 ^ (- e)).
Proof.
  intros m e H. unfold F2R. cbn [Fnum Fexp]. unfold Rdiv. f_equal.
  replace (2 ^ (- e))%Z with (radix2 ^ (- e))%Z by reflexivity.
  rewrite IZR_Zpower by lia. rewrite <- bpow_opp. f_equal. lia.
Qed.
Lemma F2R_int : forall m e, (0 <= e)%Z -> @F2R radix2 (Float radix2 m e) = IZR (m * 2 ^ e).
Proof.
  intros m e H. unfold F2R. cbn [Fnum Fexp]. rewrite mult_IZR. f_equal.
  replace (2 ^ e)%Z with (radix2 ^ e)%Z by reflexivity. now rewrite IZR_Zpower.
Qed.
Lemma to_Z_correct : forall (rnd : Z -> Z -> Z) (R_rnd : R -> Z) (x : f64), is_finite x = true ->
  (forall a b, (0 < b)%Z -> rnd a b = R_rnd (IZR a / IZR b)) -> (forall z, R_rnd (IZR z) = z) ->
  f_to_Z rnd x = Ok (R_rnd (B2R x)).
Proof.
  intros rnd R_rnd [s|s| |s m e Hb] Fx H1 H2; try discriminate Fx.
  - cbn. change 0 with (IZR 0). now rewrite H2.
  - cbn [f_to_Z B2R]. f_equal. destruct (0 <=? e)%Z eqn:E.
    + apply Z.leb_le in E. rewrite F2R_int by auto. now rewrite H2.
    + apply Z.leb_gt in E. rewrite F2R_div by auto. rewrite H1; auto. apply Z.pow_pos_nonneg; lia.
Qed.
Theorem floor_exact : forall x : f64, is_finite x = true -> f_floor x = Ok (Zfloor (B2R x)).
Proof.
  intros x F. apply to_Z_correct; auto.
  - intros a b H. rewrite Zfloor_div by lia. reflexivity.
  - apply Zfloor_IZR.
Qed.
Theorem ceil_exact : forall x : f64, is_finite x = true -> f_ceil x = Ok (Zceil (B2R x)).
Proof.
  intros x F. apply (to_Z_correct (fun a b => (- (- a / b))%Z)); auto.
  - intros a b H. unfold Zceil. rewrite <- Ropp_div, <- opp_IZR, Zfloor_div by lia. reflexivity.
  - apply Zceil_IZR.
Qed.
Theorem trunc_exact : forall x : f64, is_finite x = true -> f_trunc x = Ok (Ztrunc (B2R x)).
Proof.
  intros x F. apply to_Z_correct; auto.
  - intros a b H. symmetry. apply Ztrunc_div. lia.
  - apply Ztrunc_IZR.
Qed.
End FFacts.
