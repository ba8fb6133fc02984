(** Nominal values are those of plain evaluation, for any float arithmetic. *)
From Coq Require Import ZArith List Bool Lia.
From Verif Require Import Base Heap Affine Ops UMath Machine Plain.
Import ListNotations.

Section PlainProofs.
Context {N : NumOps}.

Definition vp (a : value N) : pentry (N:=N) := (nominal_value a, is_uf a).

Lemma pargs_vp : forall env is, pargs (map vp env) is = option_map (map vp) (get_args env is).
Proof.
  induction is as [|i is IH]; simpl; auto. rewrite nth_error_map, IH.
  destruct (nth_error env i); simpl; auto. destruct (get_args env is); auto.
Qed.
Lemma pkwargs_vp : forall env ks, pkwargs (map vp env) ks =
  option_map (map (fun p => (fst p, vp (snd p)))) (get_kwargs env ks).
Proof.
  induction ks as [|[k i] ks IH]; simpl; auto. rewrite nth_error_map, IH.
  destruct (nth_error env i); simpl; auto. destruct (get_kwargs env ks); auto.
Qed.

Lemma any_dep_vp : forall args, any_dep (map vp args) = existsb is_uf args.
Proof. unfold any_dep. induction args; simpl; auto. now rewrite IHargs. Qed.
Lemma map_fst_vp : forall args, map fst (map vp args) = map nominal_value args.
Proof. intros. rewrite map_map. reflexivity. Qed.

Lemma wcall_plain : forall (f : pyfun N) pos kwd args kw h r h',
  wcall f pos kwd args kw h = (Ok r, h') ->
  pcall f (map vp args) (map (fun p => (fst p, vp (snd p))) kw) = Ok (vp r).
Proof.
  intros f pos kwd args kw h r h' E. unfold wcall in E. unfold pcall.
  rewrite map_fst_vp, any_dep_vp.
  replace (any_dep (map snd (map (fun p => (fst p, vp (snd p))) kw)))
    with (existsb (fun p => is_uf (snd p)) kw).
  2:{ unfold any_dep. clear. induction kw; simpl; auto. now rewrite IHkw. }
  replace (kw_plain (map (fun p => (fst p, vp (snd p))) kw)) with (kw_map nominal_value kw).
  2:{ unfold kw_plain, kw_map. rewrite map_map. reflexivity. }
  destruct (existsb is_uf args || existsb (fun p => is_uf (snd p)) kw) eqn:X; simpl in E.
  - destruct (f (map nominal_value args) (kw_map nominal_value kw)) as [a|e] eqn:Ef;
      [|discriminate].
    unfold to_float. rewrite ?Ef. simpl rbind.
    destruct a as [p| |k|]; try (injection E; intros; subst; reflexivity);
      destruct (rbind (pos_terms _ _ _ _ _) _); try discriminate.
    destruct (pn_float p); try discriminate. injection E; intros; subst. reflexivity.
  - injection E; intros E1 E2.
    destruct (f (map nominal_value args) (kw_map nominal_value kw)) as [a|e]; simpl in *;
      [|discriminate]. injection E2; intros; subst. reflexivity.
Qed.

Lemma binop_plain : forall op a b h r h', py_binop op a b h = (Ok r, h') ->
  pbin op (vp a) (vp b) = Ok (vp r).
Proof.
  intros op a b h r h' E. unfold py_binop in E.
  assert (K : forall (f : pyfun N) pos args,
     bind (wcall f pos no_kw args []) (fun r => match r with VNotImpl => raise EType
        | _ => ret r end) h = (Ok r, h') ->
     pcall f (map vp args) [] = Ok (vp r) /\ Ok (PNotImpl, false) <> Ok (vp r)).
  { clear. intros f pos args E. unfold bind in E.
    destruct (wcall f pos no_kw args [] h) as [[r0|e] h0] eqn:Ew; [|discriminate].
    assert (r0 <> VPlain PNotImpl /\ r0 = r) as [H1 H2].
    { destruct r0 as [[]|]; inversion E; subst; split; congruence. }
    subst. split; [eapply (wcall_plain f pos no_kw args []); eauto|].
    intros X. unfold vp in X. destruct r as [[]|]; simpl in X; congruence. }
  destruct a as [a|u]; [destruct b as [b|w]; [discriminate|]|].
  - apply K in E. destruct E as [E X]. unfold pcall, pbin in *. cbn in E. simpl.
    destruct a as [p| |k|]; try contradiction. simpl in *. exact E.
  - apply K in E. destruct E as [E X]. unfold pcall, pbin in *. cbn in E.
    simpl. destruct b as [[q| |k|]|w]; try contradiction; simpl in *; exact E.
Qed.

(** Operations on which plain evaluation is not stated for arbitrary floats. *)
Definition simple (ins : instr N) : bool :=
  match ins with IModf _ | ILdexp _ _ => false | _ => true end.

Definition prel (st : state N) (ps : pstate (N:=N)) : Prop := p_env ps = map vp (st_env st).

Lemma push_prel : forall (st : state N) ps r e,
  prel st ps -> is_exn (snd (push st r)) = false ->
  (forall a h', r = (Ok a, h') -> e = Ok (vp a)) ->
  prel (fst (push st r)) (ppush ps e).
Proof.
  intros st ps [[a|x] h'] e P X H; simpl in *; [|discriminate].
  rewrite (H a h' eq_refl). unfold prel. simpl. rewrite P, map_app. reflexivity.
Qed.

Lemma with_uf_env : forall (st : state N) i k,
  (forall u, st_env (fst (k u)) = st_env st) -> st_env (fst (with_uf st i k)) = st_env st.
Proof.
  intros st i k H. unfold with_uf, with_val. destruct (nth_error (st_env st) i); auto.
  destruct v; auto.
Qed.
Lemma observe_env : forall A (st : state N) (f : A -> out N) r,
  st_env (fst (observe st f r)) = st_env st.
Proof. intros A st f [[a|e] h]; reflexivity. Qed.

Lemma step_env : forall fuel (st : state N) ins, defines ins = false ->
  st_env (fst (step fuel st ins)) = st_env st.
Proof.
  intros fuel st ins H. destruct ins; try discriminate; simpl; apply with_uf_env; intros u;
    try apply observe_env.
  - destruct (uf_var u); auto. apply observe_env.
  - unfold with_val. destruct (nth_error (st_env st) j); auto. apply observe_env.
Qed.

Lemma step_plain : forall fuel (st : state N) ps xs ins, prel st ps -> simple ins = true ->
  (forall n s tag, ins = INew n s tag -> pn_float n = Ok (xs (p_nv ps))) ->
  (defines ins = true -> is_exn (snd (step fuel st ins)) = false) ->
  prel (fst (step fuel st ins)) (pstep xs ps ins).
Proof.
  intros fuel st ps xs ins P Sm Hn X.
  destruct (defines ins) eqn:D.
  2:{ unfold prel. rewrite step_env by auto. destruct ins; try discriminate; exact P. }
  specialize (X eq_refl).
  destruct ins; try discriminate; clear D Sm.
  - simpl in X |- *. unfold new_var in *. rewrite (Hn n s tag eq_refl) in *.
    destruct (check_std s); simpl in *; [|discriminate].
    unfold prel; simpl. rewrite P, map_app. reflexivity.
  - apply push_prel; auto. intros a h' E. injection E; intros; subst. reflexivity.
  - unfold step, pstep in *. rewrite P, pargs_vp.
    destruct (get_args (st_env st) [i; j]) as [[|a [|b [|c l]]]|]; try discriminate.
    simpl option_map. apply push_prel; auto. intros r h' E. now apply binop_plain in E.
  - unfold step, pstep in *. cbv zeta in *. unfold prel in P. rewrite P, pargs_vp, pkwargs_vp.
    destruct (get_args (st_env st) args) as [a|]; try discriminate.
    destruct (get_kwargs (st_env st) kw) as [k|]; try discriminate.
    simpl option_map.
    apply push_prel; auto. intros r' h'' E. now apply wcall_plain in E.
Qed.

Lemma pstep_nv : forall xs (ps : pstate (N:=N)) ins,
  p_nv (pstep xs ps ins) = (p_nv ps + match ins with INew _ _ _ => 1 | _ => 0 end)%nat.
Proof. intros. destruct ins; simpl; lia. Qed.

Theorem run_plain : forall prog fuel (st : state N) ps xs, prel st ps ->
  forallb simple prog = true ->
  (forall k x, nth_error (noms prog) k = Some x -> xs (p_nv ps + k)%nat = x) ->
  defined_ok prog (snd (run fuel st prog)) ->
  prel (fst (run fuel st prog)) (peval xs ps prog).
Proof.
  induction prog as [|ins prog IH]; intros fuel st ps xs P Sm Hx D; simpl in *; auto.
  apply andb_true_iff in Sm. destruct Sm as [S1 S2].
  pose proof (step_plain fuel st ps xs ins P S1) as K.
  pose proof (pstep_nv xs ps ins) as NV.
  destruct (step fuel st ins) as [st1 o] eqn:Es.
  specialize (IH fuel st1 (pstep xs ps ins) xs).
  destruct (run fuel st1 prog) as [st2 os]. simpl in *.
  inversion D; subst. apply IH; auto.
  - apply K; auto. intros n s tag ->. specialize (H2 eq_refl).
    simpl in Es. unfold new_var in Es. simpl in Hx.
    destruct (pn_float n) eqn:En.
    + specialize (Hx 0%nat _ eq_refl). rewrite Nat.add_0_r in Hx. now rewrite Hx.
    + simpl in Es. injection Es; intros; subst. discriminate.
  - intros k x Hk. rewrite NV. destruct ins; simpl in Hx;
      try (rewrite <- (Hx k x Hk); f_equal; lia).
    rewrite <- (Hx (S k) x Hk). f_equal. lia.
Qed.

Theorem nominal_plain : forall fuel (prog : list (instr N)), forallb simple prog = true ->
  defined_ok prog (snd (run fuel init prog)) ->
  map nominal_value (st_env (fst (run fuel init prog))) =
  map fst (p_env (peval (x0_of prog) pinit prog)).
Proof.
  intros fuel prog S D.
  assert (P : prel (fst (run fuel init prog)) (peval (x0_of prog) pinit prog)).
  { apply run_plain; auto. { reflexivity. }
    intros k x Hk. simpl. unfold x0_of. now apply nth_error_nth. }
  unfold prel in P. rewrite P, map_map. reflexivity.
Qed.
End PlainProofs.
