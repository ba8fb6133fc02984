(** Facts about single calls that hold for any float arithmetic: wrapped functions, creation and
    update of variables, exact variables. *)
From Coq Require Import ZArith List Bool Lia.
From Verif Require Import Base Heap Affine Ops UMath Machine History.
Import ListNotations.

Section Gen.
Context {N : NumOps}.
Notation state := (state N).

Definition none : value N := VPlain (POther 0).
Definition any_uncertain (a : args_t N) (k : kwargs_t N) : bool :=
  existsb is_uf a || existsb (fun p => is_uf (snd p)) k.

(** ** Wrapped functions (C25) *)
Theorem wrap_raises : forall fuel (st : state) f pos kwd args kw a k e,
  get_args (st_env st) args = Some a -> get_kwargs (st_env st) kw = Some k ->
  f (map nominal_value a) (kw_map nominal_value k) = Err e ->
  step fuel st (ICall f pos kwd args kw) =
    (mkState (st_heap st) (st_env st ++ [none]), OExn e).
Proof.
  intros fuel st f pos kwd args kw a k e A K F. cbn [step]. rewrite A, K. unfold wcall. rewrite F.
  destruct (negb _); reflexivity.
Qed.
Theorem wrap_plain : forall fuel (st : state) f pos kwd args kw a k r,
  get_args (st_env st) args = Some a -> get_kwargs (st_env st) kw = Some k ->
  any_uncertain a k = false ->
  f (map nominal_value a) (kw_map nominal_value k) = Ok r ->
  step fuel st (ICall f pos kwd args kw) =
    (mkState (st_heap st) (st_env st ++ [VPlain r]), ONone).
Proof.
  intros fuel st f pos kwd args kw a k r A K U F. cbn [step]. rewrite A, K. unfold wcall.
  unfold any_uncertain in U. rewrite U, F. reflexivity.
Qed.
(** The function then receives the arguments themselves. *)
Theorem wrap_plain_args : forall (a : args_t N) (k : kwargs_t N), any_uncertain a k = false ->
  map VPlain (map nominal_value a) = a /\
  map (fun p => (fst p, VPlain (snd p))) (kw_map nominal_value k) = k.
Proof.
  intros a k H. apply orb_false_iff in H. destruct H as [H1 H2]. split.
  - induction a as [|[x|u] a IH]; simpl in *; [reflexivity| |discriminate]. now rewrite IH.
  - induction k as [|[n [x|u]] k IH]; simpl in *; [reflexivity| |discriminate]. now rewrite IH.
Qed.
Theorem wrap_not_number : forall fuel (st : state) f pos kwd args kw a k r,
  get_args (st_env st) args = Some a -> get_kwargs (st_env st) kw = Some k ->
  any_uncertain a k = true ->
  f (map nominal_value a) (kw_map nominal_value k) = Ok r ->
  (forall p, r <> PNum p) -> r <> PComplex ->
  step fuel st (ICall f pos kwd args kw) =
    (mkState (st_heap st) (st_env st ++ [VNotImpl]), ONone).
Proof.
  intros fuel st f pos kwd args kw a k r A K U F N1 N2. cbn [step]. rewrite A, K. unfold wcall.
  unfold any_uncertain in U. rewrite U, F. destruct r; try reflexivity; exfalso; eauto.
  eapply N1; reflexivity.
Qed.

Lemma pos_terms_ok : forall pos av kv (rest : args_t N) i0,
  (forall i u, nth_error rest i = Some (VUF u) -> exists c, pos (i0 + i)%nat av kv = Ok c) ->
  exists t, pos_terms pos i0 rest av kv = Ok t.
Proof.
  induction rest as [|a rest IH]; intros i0 H; simpl; [eauto|].
  assert (R : exists t, pos_terms pos (S i0) rest av kv = Ok t).
  { apply IH. intros i u Hi. destruct (H (S i) u Hi) as (c & C). exists c.
    rewrite <- C. f_equal. lia. }
  destruct R as (t & T). destruct a as [|u]; [eauto|].
  destruct (H 0%nat u eq_refl) as (c & C). rewrite Nat.add_0_r in C. rewrite C, T. simpl. eauto.
Qed.
Lemma kw_terms_ok : forall kwd av kv (rest : kwargs_t N),
  (forall i n u, nth_error rest i = Some (n, VUF u) -> exists c, kwd n av kv = Ok c) ->
  exists t, kw_terms kwd rest av kv = Ok t.
Proof.
  induction rest as [|[n a] rest IH]; intros H; simpl; [eauto|].
  destruct IH as (t & T). { intros i m u Hi. exact (H (S i) m u Hi). }
  destruct a as [|u]; [eauto|]. destruct (H 0%nat n u eq_refl) as (c & C). rewrite C, T. simpl. eauto.
Qed.
Theorem wrap_number : forall fuel (st : state) f pos kwd args kw a k p x,
  get_args (st_env st) args = Some a -> get_kwargs (st_env st) kw = Some k ->
  any_uncertain a k = true ->
  let av := map nominal_value a in let kv := kw_map nominal_value k in
  f av kv = Ok (PNum p) -> pn_float p = Ok x ->
  (forall i u, nth_error a i = Some (VUF u) -> exists c, pos i av kv = Ok c) ->
  (forall i n u, nth_error k i = Some (n, VUF u) -> exists c, kwd n av kv = Ok c) ->
  exists st' w, step fuel st (ICall f pos kwd args kw) = (st', ONone) /\
    is_number st' (length (st_env st)) w /\ uf_nom w = x /\ uf_var w = None.
Proof.
  intros fuel st f pos kwd args kw a k p x A K U av kv F X P Q. cbn [step]. rewrite A, K.
  unfold wcall. unfold any_uncertain in U. rewrite U. fold av kv. rewrite F.
  destruct (pos_terms_ok pos av kv a 0 P) as (t & T).
  destruct (kw_terms_ok kwd av kv k Q) as (t' & T').
  rewrite T, T', X. cbn. eexists _, _. split; [reflexivity|]. split.
  - unfold is_number. cbn. rewrite nth_error_app2, Nat.sub_diag by lia. reflexivity.
  - split; reflexivity.
Qed.

(** ** Undefined derivatives (C24) *)
Definition arith (e : exn) : bool :=
  match e with EValue | EZeroDiv | EOverflow => true | _ => false end.
Theorem nan_if_exception_spec : forall r : res (pynum N),
  (forall c, r = Ok c -> nan_if_exception r = Ok c) /\
  (forall e, r = Err e -> arith e = true -> nan_if_exception r = rmap PF (n_nan N)) /\
  (forall e, r = Err e -> arith e = false -> nan_if_exception r = Err e).
Proof.
  intros r. split; [|split].
  - intros c ->. reflexivity.
  - intros [] -> H; try discriminate; reflexivity.
  - intros [] -> H; try discriminate; reflexivity.
Qed.

(** ** Negative standard deviations (C09) *)
Theorem new_negative : forall fuel (st : state) n s tag x,
  pn_float n = Ok x -> pn_lt0 s = true -> pn_isinfinite s = Ok false ->
  step fuel st (INew n s tag) = (mkState (st_heap st) (st_env st ++ [none]), OExn ENegStd).
Proof.
  intros fuel st n s tag x X L I. cbn [step]. unfold new_var, check_std. rewrite X, L, I. reflexivity.
Qed.
Theorem set_negative : forall fuel (st : state) i u v s,
  is_number st i u -> uf_var u = Some v -> pn_lt0 s = true -> pn_isinfinite s = Ok false ->
  step fuel st (ISet i s) = (st, OExn ENegStd).
Proof.
  intros fuel st i u v s U V L I. cbn [step]. unfold with_uf, with_val. unfold is_number in U.
  rewrite U, V. unfold set_std, check_std. rewrite L, I. destruct st; reflexivity.
Qed.
Theorem new_accepted : forall fuel (st : state) n s tag x y,
  pn_float n = Ok x -> pn_lt0 s = false -> pn_float s = Ok y ->
  exists st' w v, step fuel st (INew n s tag) = (st', ONone) /\
    is_number st' (length (st_env st)) w /\ uf_nom w = x /\ uf_var w = Some v /\ sd st' v = y /\
    step fuel st' (IStd (length (st_env st))) = (st', ONum y).
Proof.
  intros fuel st n s tag x y X L Y. cbn [step]. unfold new_var, check_std. rewrite X, L, Y. cbn.
  assert (G : nth_error (st_env st ++ [VUF (mkUF x (length (h_lc (st_heap st))) (Some (length (h_var (st_heap st)))))])
    (length (st_env st)) = Some (VUF (mkUF x (length (h_lc (st_heap st))) (Some (length (h_var (st_heap st))))))).
  { rewrite nth_error_app2, Nat.sub_diag by lia. reflexivity. }
  assert (V : nth_error (h_var (st_heap st) ++ [mkVar x (length (h_lc (st_heap st))) y tag])
    (length (h_var (st_heap st))) = Some (mkVar x (length (h_lc (st_heap st))) y tag)).
  { rewrite nth_error_app2, Nat.sub_diag by lia. reflexivity. }
  eexists _, _, _. split; [reflexivity|]. split; [exact G|]. split; [reflexivity|].
  split; [reflexivity|]. split.
  - unfold sd, get_var. cbn. rewrite V. reflexivity.
  - unfold with_uf, with_val. cbn. rewrite G. unfold std_dev. cbn. unfold get_var. cbn. rewrite V. reflexivity.
Qed.
Theorem set_accepted : forall fuel (st : state) i u v s y,
  is_number st i u -> uf_var u = Some v -> (v < length (h_var (st_heap st)))%nat ->
  pn_lt0 s = false -> pn_float s = Ok y ->
  exists st', step fuel st (ISet i s) = (st', ONone) /\ st_env st' = st_env st /\
    h_lc (st_heap st') = h_lc (st_heap st) /\ sd st' v = y /\ forall w, w <> v -> sd st' w = sd st w.
Proof.
  intros fuel st i u v s y U V B L Y. cbn [step]. unfold with_uf, with_val. unfold is_number in U.
  rewrite U, V. unfold set_std, check_std. rewrite L, Y. unfold get_var.
  destruct (nth_error (h_var (st_heap st)) v) as [o|] eqn:E; [|apply nth_error_None in E; lia].
  cbn. eexists. split; [reflexivity|]. split; [reflexivity|]. split; [reflexivity|].
  assert (S1 : forall A (l : list A) k m x, nth_error (list_set l k x) m =
     if Nat.eqb m k then match nth_error l m with Some _ => Some x | None => None end else nth_error l m).
  { induction l as [|b l IH]; intros [|k] [|m] z; simpl; auto. destruct (Nat.eqb m k); reflexivity. }
  split.
  - unfold sd, get_var. cbn. rewrite S1, Nat.eqb_refl, E. reflexivity.
  - intros w Hw. unfold sd, get_var. cbn. rewrite S1. apply Nat.eqb_neq in Hw. now rewrite Hw.
Qed.

(** ** Exact variables (C14) *)
Lemma components_exact : forall h (d : dict N) l, components h d = Ok l ->
  dkeys l = dkeys d /\
  forall v o, get_var h v = Some o -> n_eq N (v_std o) (n_zero N) = true -> In v (dkeys d) ->
    dget l v = Some (PZ 0).
Proof.
  intros h. induction d as [|[v x] d IH]; intros l H; simpl in H.
  - injection H; intros <-. split; [reflexivity|]. contradiction.
  - destruct (get_var h v) as [o|] eqn:E; [|discriminate].
    destruct (components h d) as [r|]; [|discriminate]. cbn [rbind] in H. injection H; intros <-.
    destruct (IH r eq_refl) as [K G]. split; [simpl; now f_equal|].
    intros w o' Ew Z I. simpl. destruct (Nat.eqb w v) eqn:Q.
    + apply Nat.eqb_eq in Q. subst w. rewrite E in Ew. injection Ew; intros <-. rewrite Z. reflexivity.
    + apply (G w o' Ew Z). destruct I as [I|I]; auto. simpl in I. subst w. now rewrite Nat.eqb_refl in Q.
Qed.
Theorem exact_component : forall fuel (st : state) i u st' l v o,
  is_number st i u -> step fuel st (IErrs i) = (st', OErrs l) ->
  get_var (st_heap st') v = Some o -> n_eq N (v_std o) (n_zero N) = true -> In v (dkeys l) ->
  dget l v = Some (PZ 0).
Proof.
  intros fuel st i u st' l v o U H E Z I. cbn [step] in H. unfold with_uf, with_val in H.
  unfold is_number in U. rewrite U in H. unfold error_components, bind in H.
  destruct (derivatives fuel u (st_heap st)) as [[d|e] h]; [|discriminate].
  destruct (components h d) as [r|e] eqn:C; [|discriminate]. cbn in H. injection H; intros <- <-.
  cbn in E. destruct (components_exact h d r C) as [K G].
  apply (G v o E Z). now rewrite <- K.
Qed.
Lemma sum_squares_zeros : forall l : list (pynum N), Forall (fun c => c = PZ 0) l ->
  sum_squares (PZ 0) l = Ok (PZ 0).
Proof. induction 1 as [|c l -> _ IH]; simpl; auto. Qed.
Lemma components_all : forall h (d : dict N),
  (forall v, In v (dkeys d) -> exists o, get_var h v = Some o /\ n_eq N (v_std o) (n_zero N) = true) ->
  exists l, components h d = Ok l /\ Forall (fun c => c = PZ 0) (map snd l).
Proof.
  intros h. induction d as [|[v x] d IH]; intros H; simpl; [exists []; split; [reflexivity|constructor]|].
  destruct (H v (or_introl eq_refl)) as (o & E & Z). rewrite E, Z.
  destruct IH as (l & L & F). { intros w Hw. apply H. now right. }
  rewrite L. cbn. eexists. split; [reflexivity|]. simpl. auto.
Qed.
(** A calculated number all of whose variables are exact has the standard deviation sqrt(0),
    whatever its derivatives. *)
Theorem exact_std_dev : forall fuel (st : state) i u st' d,
  is_number st i u -> uf_var u = None -> step fuel st (IDeriv i) = (st', ODict d) ->
  (forall v, In v (dkeys d) -> exists o, get_var (st_heap st') v = Some o /\
                                         n_eq N (v_std o) (n_zero N) = true) ->
  step fuel st (IStd i) =
    match pn_sqrt (PZ (N:=N) 0) with Ok x => (st', ONum x) | Err e => (st', OExn e) end.
Proof.
  intros fuel st i u st' d U V H Z. cbn [step] in *. unfold with_uf, with_val in *.
  unfold is_number in U. rewrite U in *. unfold std_dev. rewrite V.
  unfold std_dev_affine, error_components, bind.
  destruct (derivatives fuel u (st_heap st)) as [[d'|e] h]; [|discriminate].
  cbn in H. injection H; intros <- <-. cbn in Z.
  destruct (components_all h d' Z) as (l & L & F). rewrite L. cbv beta iota.
  rewrite (sum_squares_zeros _ F). unfold rbind. cbv beta iota. unfold observe.
  destruct (pn_sqrt (PZ (N:=N) 0)); reflexivity.
Qed.

(** ** Access functions and conversions (C56, C57) *)
Theorem access_functions : forall (a : value N) fuel h,
  (forall u, a = VUF u -> nominal_value a = PNum (PF (uf_nom u)) /\
     any_std_dev fuel a h = std_dev fuel u h) /\
  (forall p, a = VPlain p -> nominal_value a = p /\ any_std_dev fuel a h = (Ok (n_zero N), h)).
Proof. intros a fuel h. split; intros ? ->; split; reflexivity. Qed.

(** Operators on a number with uncertainty and an object that is not a number, in any order:
    TypeError (the other operand declines in the model). *)
Theorem unsupported_operand : forall fuel (st : state) op i j u k,
  is_number st i u -> nth_error (st_env st) j = Some (VPlain (POther k)) ->
  step fuel st (IBin op i j) = (mkState (st_heap st) (st_env st ++ [none]), OExn EType) /\
  step fuel st (IBin op j i) = (mkState (st_heap st) (st_env st ++ [none]), OExn EType).
Proof.
  intros fuel st op i j u k U J. unfold is_number in U. cbn [step get_args]. rewrite U, J.
  split; unfold py_binop, method_op, method_rop, wcall, bind; cbn; reflexivity.
Qed.
Theorem unsupported_comparison : forall fuel (st : state) i j u k,
  is_number st i u -> nth_error (st_env st) j = Some (VPlain (POther k)) ->
  step fuel st (ICmp Ceq i j) = (st, OBool false) /\ step fuel st (ICmp Cne i j) = (st, OBool true) /\
  forall c, In c [Cgt; Cge; Clt; Cle] -> step fuel st (ICmp c i j) = (st, OExn EType).
Proof.
  intros fuel st i j u k U J. unfold is_number in U. destruct st as [h env].
  split; [|split; [|intros c Hc]]; cbn in *; unfold with_uf, with_val; cbn; rewrite U, J;
    try reflexivity.
  unfold py_cmp, method_cmp, bind. cbn. 
  destruct Hc as [<-|[<-|[<-|[<-|[]]]]]; reflexivity.
Qed.

(** ** frexp (C30) *)
(** The linear part built by frexp is not a list of pairs: the first read of the uncertainty or
    of the derivatives of its result raises TypeError. *)
Theorem frexp_reads_raise : forall (h : heap N) x w e h' fuel, umath_frexp (VUF x) h = (Ok (w, e), h') ->
  exists u, w = VUF u /\ uf_nom u = fst (n_frexp N (uf_nom x)) /\
    fst (derivatives (S fuel) u h') = Err EType /\ fst (std_dev (S fuel) u h') = Err EType.
Proof.
  intros h x w e h' fuel H. unfold umath_frexp in H. cbn [to_affine_scalar bind] in H.
  destruct (n_frexp N (uf_nom x)) as [m e'] eqn:F.
  unfold to_affine_scalar, bind, ret in H. rewrite F in H.
  destruct (lc_truth (get_lc h (uf_lp x))); [|discriminate].
  destruct (two_power (- e')) as [c|]; [|discriminate]. injection H; intros <- <- <-.
  exists (mkUF m (length (h_lc h)) None). split; [reflexivity|]. split; [reflexivity|].
  assert (G : get_lc (mkHeap (h_lc h ++ [LList [ILC (uf_lp x); INum c]]) (h_var h)) (length (h_lc h))
              = LList [ILC (uf_lp x); INum c]).
  { unfold get_lc. cbn [h_lc]. rewrite app_nth2, Nat.sub_diag by lia. reflexivity. }
  assert (D : fst (derivatives (S fuel) (mkUF m (length (h_lc h)) None)
      (mkHeap (h_lc h ++ [LList [ILC (uf_lp x); INum c]]) (h_var h))) = Err EType).
  { unfold derivatives, lc_derivatives. cbn [uf_lp]. rewrite G. cbn [expand_loop]. rewrite G. reflexivity. }
  split; [exact D|]. unfold std_dev, std_dev_affine, error_components, bind. cbn [uf_var].
  destruct (derivatives (S fuel) _ _) as [[d|e''] h1]; simpl in D |- *; congruence.
Qed.
(** Each failed read drops one element of the malformed list: the third read succeeds and finds
    no derivative at all. *)
Theorem frexp_later_reads : forall (h : heap N) x u e h' fuel, umath_frexp (VUF x) h = (Ok (VUF u, e), h') ->
  let h1 := snd (derivatives (S fuel) u h') in
  let h2 := snd (derivatives (S fuel) u h1) in
  fst (derivatives (S fuel) u h1) = Err EType /\ fst (derivatives (S fuel) u h2) = Ok [].
Proof.
  intros h x u e h' fuel H. unfold umath_frexp in H. unfold to_affine_scalar, bind, ret in H.
  destruct (n_frexp N (uf_nom x)) as [m e'] eqn:F.
  destruct (lc_truth (get_lc h (uf_lp x))); [|discriminate].
  destruct (two_power (- e')) as [c|]; [|discriminate]. injection H; intros <- <- <-. clear H.
  assert (G : forall its, get_lc (mkHeap (h_lc h ++ [its]) (h_var h)) (length (h_lc h)) = its).
  { intros. unfold get_lc. cbn [h_lc]. rewrite app_nth2, Nat.sub_diag by lia. reflexivity. }
  assert (T : forall its its', set_lc (mkHeap (h_lc h ++ [its]) (h_var h)) (length (h_lc h)) its'
                        = mkHeap (h_lc h ++ [its']) (h_var h)).
  { intros. unfold set_lc. cbn [h_lc h_var]. f_equal. generalize (h_lc h) as l.
    induction l as [|y l IH]; cbn; [reflexivity|]. rewrite IH. reflexivity. }
  unfold derivatives, lc_derivatives. cbn [uf_lp]. repeat (rewrite ?G, ?T; cbn [expand_loop fst snd]).
  auto.
Qed.
(** Numbers calculated from a result of frexp: the first read raises TypeError, the second one
    finds no derivative. *)
Theorem frexp_derived_reads : forall (h : heap N) u a c f pos kwd y h' fuel,
  get_lc h (uf_lp u) = LList [ILC a; INum c] ->
  wcall f pos kwd [VUF u] [] h = (Ok (VUF y), h') ->
  fst (derivatives (S fuel) y h') = Err EType /\
  fst (derivatives (S fuel) y (snd (derivatives (S fuel) y h'))) = Ok [].
Proof.
  intros h u a c f pos kwd y h' fuel M H. unfold wcall in H. cbn [existsb is_uf orb negb] in H.
  destruct (f _ _) as [r|]; [|discriminate].
  destruct r as [p| | |]; try discriminate.
  2: { destruct (rbind _ _); discriminate. }
  cbn [pos_terms kw_terms] in H. destruct (pos 0%nat _ _) as [k|]; [|discriminate].
  cbn [rbind app rev] in H. destruct (pn_float p) as [z|]; [|discriminate].
  unfold alloc_lc in H. injection H; intros <- <-. clear H.
  assert (L : (uf_lp u < length (h_lc h))%nat).
  { destruct (Nat.lt_ge_cases (uf_lp u) (length (h_lc h))) as [|B]; auto.
    unfold get_lc in M. rewrite nth_overflow in M by exact B. discriminate. }
  assert (G : forall its, get_lc (mkHeap (h_lc h ++ [its]) (h_var h)) (length (h_lc h)) = its).
  { intros. unfold get_lc. cbn [h_lc]. rewrite app_nth2, Nat.sub_diag by lia. reflexivity. }
  assert (G' : forall its, get_lc (mkHeap (h_lc h ++ [its]) (h_var h)) (uf_lp u) = LList [ILC a; INum c]).
  { intros. unfold get_lc in M |- *. cbn [h_lc]. rewrite app_nth1 by exact L. exact M. }
  assert (T : forall its its', set_lc (mkHeap (h_lc h ++ [its]) (h_var h)) (length (h_lc h)) its'
                        = mkHeap (h_lc h ++ [its']) (h_var h)).
  { intros. unfold set_lc. cbn [h_lc h_var]. f_equal. generalize (h_lc h) as l.
    induction l as [|w l IH]; cbn; [reflexivity|]. rewrite IH. reflexivity. }
  unfold derivatives, lc_derivatives. cbn [uf_lp].
  repeat (rewrite ?G, ?G', ?T; cbn [expand_loop fst snd push_items rev app]).
  auto.
Qed.
Theorem frexp_then_derived : forall (h : heap N) x u e h1 f pos kwd y h2 fuel,
  umath_frexp (VUF x) h = (Ok (VUF u, e), h1) -> wcall f pos kwd [VUF u] [] h1 = (Ok (VUF y), h2) ->
  fst (derivatives (S fuel) y h2) = Err EType /\
  fst (derivatives (S fuel) y (snd (derivatives (S fuel) y h2))) = Ok [].
Proof.
  intros h x u e h1 f pos kwd y h2 fuel H W. unfold umath_frexp in H. unfold to_affine_scalar, bind, ret in H.
  destruct (n_frexp N (uf_nom x)) as [m e'] eqn:F.
  destruct (lc_truth (get_lc h (uf_lp x))); [|discriminate].
  destruct (two_power (- e')) as [c|]; [|discriminate]. injection H; intros <- <- <-. clear H.
  eapply frexp_derived_reads; [|exact W]. cbn [uf_lp].
  unfold get_lc. cbn [h_lc]. rewrite app_nth2, Nat.sub_diag by lia. reflexivity.
Qed.
(** With an exact argument frexp, ldexp and modf are the math functions. *)
Theorem exact_float_functions : forall (h : heap N) x i,
  umath_frexp (VNum (PF x)) h = (Ok (VNum (PF (fst (n_frexp N x))), snd (n_frexp N x)), snd (to_affine_scalar (VNum (PF x)) h)) /\
  umath_ldexp (VNum (PF x)) i h = (rmap (fun r => VNum (PF r)) (n_ldexp N x i), snd (to_affine_scalar (VNum (PF x)) h)) /\
  umath_modf (VNum (PF x)) h = (Ok (VNum (PF (fst (n_modf N x))), snd (n_modf N x)), snd (to_affine_scalar (VNum (PF x)) h)).
Proof.
  intros h x i. unfold umath_frexp, umath_ldexp, umath_modf, bind, to_affine_scalar.
  cbn [rbind pn_float alloc_lc uf_nom uf_lp snd fst].
  assert (G : get_lc (mkHeap (h_lc h ++ [LDict []]) (h_var h)) (length (h_lc h)) = LDict []).
  { unfold get_lc. cbn [h_lc]. rewrite app_nth2, Nat.sub_diag by lia. reflexivity. }
  rewrite !G. cbn [lc_truth]. destruct (n_frexp N x), (n_modf N x), (n_ldexp N x i); repeat split; reflexivity.
Qed.

(** ** Locally constant functions (C31) *)
Theorem locally_constant : forall f (u : uf N), umath_cst f (VUF u) =
  match f with
  | K_ceil => n_ceil N (uf_nom u) | K_floor => n_floor N (uf_nom u) | K_trunc => n_trunc N (uf_nom u)
  | K_isinf => Ok (if n_isinf N (uf_nom u) then 1%Z else 0%Z)
  | K_isnan => Ok (if n_isnan N (uf_nom u) then 1%Z else 0%Z)
  end.
Proof. intros [] u; reflexivity. Qed.
End Gen.

(** ** Calls of umath functions and unary operators, as statements *)
Section CallsAs.
Context {N : NumOps}.
Lemma unop_call : forall fuel (st : state N) op j u,
  nth_error (st_env st) j = Some (VUF u) ->
  step fuel st (ICall (unop_fun op) (unop_pos op) no_kw [j] []) = push st (py_unop op u (st_heap st)).
Proof. intros fuel st op j u H. cbn [step get_args get_kwargs]. rewrite H. reflexivity. Qed.
Lemma umath1_call : forall fuel (st : state N) f j a,
  nth_error (st_env st) j = Some a ->
  step fuel st (ICall (m1_fun f) (m1_pos f) (m1_kw f) [j] []) = push st (umath1 f a (st_heap st)).
Proof. intros fuel st f j u H. cbn [step get_args get_kwargs]. rewrite H. reflexivity. Qed.
Lemma umath2_call : forall fuel (st : state N) f i j a b,
  nth_error (st_env st) i = Some a -> nth_error (st_env st) j = Some b ->
  step fuel st (ICall (m2_fun f) (m2_pos f) (m2_kw f) [i; j] []) = push st (umath2 f a b (st_heap st)).
Proof. intros fuel st f i j a b H H'. cbn [step get_args get_kwargs]. rewrite H, H'. reflexivity. Qed.
Lemma fsum_call : forall fuel (st : state N) is l,
  get_args (st_env st) is = Some l ->
  step fuel st (ICall flat_fsum fsum_pos fsum_kw is []) = push st (umath_fsum l (st_heap st)).
Proof. intros fuel st is l H. cbn [step get_kwargs]. rewrite H. reflexivity. Qed.
End CallsAs.
