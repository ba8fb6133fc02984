(** Vectorized functions as programs; std_devs() of any array of results; names of the
    functions. *)
From Coq Require Import String.
From Coq Require Import ZArith List Bool Reals Lra Lia Arith.
From Verif Require Import Base Heap Affine Ops UMath NumR HeapSpec HeapProofs DenProofs Machine Spec Refine RefineStep
  History Unumpy UnumpySpec MatrixSpec ArrProofs InvConv CovConv HistoryProofs CovSpec CovProofs.
Import ListNotations.

Section Vec.
Context {N : NumOps}.
Implicit Types h : heap N.
Local Notation length := List.length.

Lemma get_args_app : forall (env tl : list (value N)) is l, get_args env is = Some l -> get_args (env ++ tl) is = Some l.
Proof.
  intros env tl. induction is as [|i is IH]; intros l E; cbn in *; auto.
  destruct (nth_error env i) as [x|] eqn:Ex; [|discriminate]. destruct (get_args env is) as [l'|]; [|discriminate].
  rewrite nth_error_app1 by (apply nth_error_Some; congruence). rewrite Ex, (IH l' eq_refl). exact E.
Qed.
Lemma get_args_length : forall (env : list (value N)) is l, get_args env is = Some l -> length l = length is.
Proof.
  intros env. induction is as [|i is IH]; intros l E; cbn in E.
  - injection E; intros <-. reflexivity.
  - destruct (nth_error env i); [|discriminate]. destruct (get_args env is); [|discriminate]. injection E; intros <-. cbn. auto.
Qed.
Lemma calls_run : forall f pos kwd (ls : list (list nat)) (al : list (list (value N))) env h r h',
  Forall2 (fun is l => get_args env is = Some l) ls al ->
  calls (fun l => wcall f pos kwd l []) al h r h' ->
  runs (mkState h env) (map (fun is => ICall f pos kwd is []) ls) (mkState h' (env ++ r)) (repeat ONone (length ls)).
Proof.
  intros f pos kwd ls al env h r h' F C. revert ls env F. induction C as [h|l al h b h1 r h2 E C IH]; intros ls env F.
  - inversion F; subst. exists 0%nat. intros. cbn. now rewrite app_nil_r.
  - inversion F as [|is ? ls' ? G F']; subst.
    destruct (IH ls' (env ++ [b])) as [k Hk].
    { clear -F'. induction F' as [|is l ls al G F IH]; constructor; auto. now apply get_args_app. }
    exists k. intros fuel Hf. cbn [map run step st_env st_heap get_kwargs]. rewrite G. cbn [get_kwargs]. rewrite E.
    cbn [push st_env st_heap]. rewrite Hk by auto. cbn. rewrite <- app_assoc. reflexivity.
Qed.

(** A vectorized function of one argument does one call per element. *)
Theorem vectorized1 : forall f pos kwd (st st' : state N) ia ir,
  array_call (fun _ a => vectorize (arg1 (fun x => wcall f pos kwd [x] [])) [a]) st ia (Ok ir) st' ->
  a_shape ir = a_shape ia /\
  runs st (map (fun i => ICall f pos kwd [i] []) (a_flat ia)) st' (repeat ONone (length (a_flat ia))).
Proof.
  intros f pos kwd [h env] [h' env'] ia ir (a & k & Wi & (A1 & A2 & A3) & b & (B1 & B2 & B3) & He & Hf & H).
  cbn [st_heap st_env] in *. specialize (H k (le_n k)).
  assert (Wa : wf_arr a). { unfold wf_arr in *. rewrite A2, <- Wi. eapply get_args_length; eauto. }
  apply vectorize1 in H as (_ & Hs & C); auto. split; [congruence|]. subst env'.
  replace (map (fun i => ICall f pos kwd [i] []) (a_flat ia))
    with (map (fun is => ICall f pos kwd is []) (map (fun i => [i]) (a_flat ia))) by (rewrite map_map; reflexivity).
  rewrite <- (map_length (fun i => [i]) (a_flat ia)).
  eapply (calls_run f pos kwd (map (fun i => [i]) (a_flat ia)) (map (fun x => [x]) (a_flat a))).
  - clear -A3. revert A3. generalize (a_flat a). induction (a_flat ia) as [|i is IH]; intros l E; cbn in E.
    + injection E; intros <-. constructor.
    + destruct (nth_error env i) as [x|] eqn:Ex; [|discriminate]. destruct (get_args env is) as [l'|]; [|discriminate].
      injection E; intros <-. cbn. constructor; auto. cbn. now rewrite Ex.
  - clear -C. induction C; cbn; econstructor; eauto.
Qed.
(** A vectorized function of two arguments does one call per index of the broadcast arrays. *)
Theorem vectorized2 : forall f pos kwd (st st' : state N) ia ja sh ir a b c,
  wf_arr ia -> wf_arr ja -> broadcasts (a_shape ia) (a_shape ja) sh ->
  array_of st ia a -> array_of st ja b -> array_of st' ir c ->
  st_env st' = st_env st ++ a_flat c ->
  vectorize (fun l => wcall f pos kwd l []) [a; b] (st_heap st) = (Ok c, st_heap st') ->
  a_shape ir = sh /\
  exists prog, runs st prog st' (repeat ONone (length prog)) /\
    Forall2 (fun idx ins => exists i j, pair_at ia ja idx i j /\ ins = ICall f pos kwd [i; j] []) (indices sh) prog.
Proof.
  intros f pos kwd [h env] [h' env'] ia ja sh ir a b c Wi Wj Bs (A1 & A2 & A3) (B1 & B2 & B3) (C1 & C2 & C3) He H.
  cbn [st_heap st_env] in *. subst env'.
  assert (Wa : wf_arr a). { unfold wf_arr in *. rewrite A2, <- Wi. eapply get_args_length; eauto. }
  assert (Wb : wf_arr b). { unfold wf_arr in *. rewrite B2, <- Wj. eapply get_args_length; eauto. }
  rewrite <- A2, <- B2 in Bs.
  apply (proj1 (vectorize2 _ _ _ a b sh h c h' Wa Wb Bs)) in H as (_ & Hs & l & El & C). split; [congruence|].
  assert (G : forall (x : arr (value N)) (ix : arr nat), a_shape x = a_shape ix -> get_args env (a_flat ix) = Some (a_flat x) ->
     forall idx y, elem x idx = Some y -> exists i, elem ix idx = Some i /\ nth_error env i = Some y).
  { intros x ix Es Eg idx y. unfold elem. rewrite Es. generalize (rank (a_shape ix) idx). clear -Eg. revert Eg.
    generalize (a_flat x). induction (a_flat ix) as [|i is IH]; intros fl E; cbn in E.
    - injection E; intros <-. intros [|n]; discriminate.
    - destruct (nth_error env i) as [z|] eqn:Ez; [|discriminate]. destruct (get_args env is) as [l'|]; [|discriminate].
      injection E; intros <-. intros [|n] Hn; cbn in *; [exists i; split; congruence|]. eapply IH; eauto. }
  assert (P : exists ls, Forall2 (fun is al => get_args env is = Some al) ls l /\
     Forall2 (fun idx is => exists i j, pair_at ia ja idx i j /\ is = [i; j]) (indices sh) ls).
  { clear C. revert l El. induction (indices sh) as [|idx t IH]; intros l El.
    - destruct l; [|discriminate]. exists []. split; constructor.
    - destruct l as [|x l]; [discriminate|]. cbn [map] in El.
      destruct (elem a (shown (a_shape a) idx)) as [p|] eqn:E1; [|discriminate].
      destruct (elem b (shown (a_shape b) idx)) as [q|] eqn:E2; [|discriminate].
      injection El; intros El' ->. destruct (IH l El') as (ls & F1 & F2).
      destruct (G a ia A2 A3 _ _ E1) as (i & Ei & Ni). destruct (G b ja B2 B3 _ _ E2) as (j & Ej & Nj).
      exists ([i; j] :: ls). split; constructor; auto.
      + cbn. now rewrite Ni, Nj.
      + exists i, j. split; auto. split; congruence. }
  destruct P as (ls & F1 & F2). exists (map (fun is => ICall f pos kwd is []) ls). split.
  - rewrite map_length. eapply calls_run; eauto.
  - clear -F2. induction F2 as [|idx is t ls (i & j & P & ->) F IH]; constructor; eauto.
Qed.
End Vec.

(** ** std_devs() over exact numbers *)
Section VecR.
Context {g lg : R -> R}.
Notation RN := (ROps g lg).
Notation state := (state RN).
Local Open Scope R_scope.
Local Notation length := List.length.

Definition astd (vs : svars) (sa : sval g lg) : R :=
  match sa with SUF _ gr _ _ => sstd vs gr | _ => 0 end.
Lemma stds_conv : forall vs l sl h, wf anyc h -> varsrel h vs -> Forall2 (vrel h) l sl ->
  exists h' k, hext h h' /\ forall fuel, (k <= fuel)%nat ->
    calls (any_std_dev fuel) l h (map (astd vs) sl) h'.
Proof.
  intros vs. induction l as [|a l IH]; intros sl h W V F; inversion F as [|? sa ? sl' Ha F']; subst.
  - exists h, 0%nat. split; auto using hext_refl. intros. constructor.
  - assert (C1 : exists h1, conv (fun f => any_std_dev f a h) (Ok (astd vs sa), h1) /\ hext h h1).
    { destruct a as [p|u], sa as [q|n gr ds var]; try contradiction.
      - exists h. split; [exists 0%nat; reflexivity|auto using hext_refl].
      - apply (std_conv h vs u n gr ds var W V Ha). }
    destruct C1 as (h1 & [k1 C1] & X1).
    assert (S1 : sim (mkState h1 []) (mkS vs [])).
    { apply (sim_hext h h1 []); [|exact X1]. split; cbn; auto. }
    destruct (IH sl' h1 (he_wf _ _ X1) (si_vars _ _ S1) (Forall2_hext _ _ _ _ X1 F')) as (h2 & k2 & X2 & C2).
    exists h2, (max k1 k2). split; [eapply hext_trans; eauto|]. intros fuel Hf. cbn [map].
    econstructor; [apply C1; lia|apply C2; lia].
Qed.
Lemma std_is_astd : forall (st : state) ss j sa, sim st ss -> nth_error (ss_env ss) j = Some sa ->
  std_is st j (astd (ss_vars ss) sa).
Proof.
  intros [h env] ss j sa [W V E] Ej. cbn [st_heap st_env] in *. unfold std_is. cbn [st_env].
  assert (G : exists a, nth_error env j = Some a /\ vrel h a sa).
  { clear -E Ej. revert j Ej. induction E; intros [|j] Ej; cbn in *; try discriminate; eauto. injection Ej; intros <-; eauto. }
  destruct G as (a & Ea & Rl). rewrite Ea. destruct a as [p|u], sa as [q|n gr ds var]; try contradiction; [reflexivity|].
  destruct (std_conv h (ss_vars ss) u n gr ds var W V Rl) as (h' & [k C] & _).
  eexists. exists k. intros fuel Hf. cbn [step]. unfold with_uf, with_val. cbn [st_env]. rewrite Ea.
  unfold observe. cbn [st_heap]. rewrite C by auto. reflexivity.
Qed.
Lemma get_args_total : forall (st : state) is, Forall (fun i => (i < length (st_env st))%nat) is ->
  exists l, get_args (st_env st) is = Some l.
Proof.
  intros st. induction 1 as [|i is Hi F [l IH]]; [exists []; reflexivity|]. cbn.
  destruct (nth_error (st_env st) i) as [x|] eqn:Ex; [|apply nth_error_None in Ex; lia]. rewrite IH. eauto.
Qed.
Lemma std_devs_facts : forall (st : state) ss ia, sim st ss -> wf_arr ia ->
  Forall (fun i => (i < length (st_env st))%nat) (a_flat ia) ->
  exists r st', array_read (std_devs (N:=RN)) st ia (Ok r) st' /\ sim st' ss /\ a_shape r = a_shape ia /\
    Forall2 (fun i x => std_is st i x) (a_flat ia) (a_flat r).
Proof.
  intros st ss ia S Wi Hi. pose proof S as [W V E]. destruct (get_args_total st _ Hi) as [fl A3].
  set (a := mkArr (a_cls ia) (a_shape ia) fl).
  pose proof (get_args_rel (st_heap st) (st_env st) (ss_env ss) (a_flat ia) E) as AR. rewrite A3 in AR.
  destruct (sargs (ss_env ss) (a_flat ia)) as [sl|] eqn:Esl; [|contradiction].
  assert (Wa : wf_arr a) by (unfold wf_arr in *; cbn; rewrite <- Wi; eapply get_args_length; eauto).
  destruct (stds_conv (ss_vars ss) fl sl (st_heap st) W V AR) as (h' & k & X & C).
  set (r := mkArr (a_cls ia) (a_shape ia) (map (astd (ss_vars ss)) sl)).
  exists (to_numpy r), (mkState h' (st_env st)). split; [|split; [|split]].
  - exists a, k. split; auto. split; [split; auto|]. split; [reflexivity|]. intros fuel Hf. cbn [st_heap].
    assert (Ev : vectorize (arg1 (any_std_dev (N:=RN) fuel)) [a] (st_heap st) = (Ok r, h')).
    { apply vectorize1; auto. }
    unfold std_devs, bind. rewrite Ev. reflexivity.
  - destruct st as [h env], ss as [vs senv]. exact (sim_hext h h' env vs senv S X).
  - unfold to_numpy. destruct (a_cls r); reflexivity.
  - assert (Ef : a_flat (to_numpy r) = map (astd (ss_vars ss)) sl) by (unfold to_numpy; destruct (a_cls r); reflexivity).
    match goal with |- Forall2 _ _ ?l => replace l with (map (astd (ss_vars ss)) sl) by (symmetry; exact Ef) end. clear -S Esl. revert sl Esl. induction (a_flat ia) as [|i is IH]; intros sl Esl; cbn in Esl.
    + injection Esl; intros <-. constructor.
    + destruct (nth_error (ss_env ss) i) as [sa|] eqn:Ei; [|discriminate].
      destruct (sargs (ss_env ss) is) as [l'|]; [|discriminate]. injection Esl; intros <-. cbn. constructor; auto.
      now apply std_is_astd.
Qed.
Lemma array_read_unique : forall f (st : state) ia r st1 r' st2, array_read f st ia r st1 -> array_read f st ia r' st2 ->
  r = r' /\ st1 = st2.
Proof.
  intros f st ia r [h1 e1] r' [h2 e2] (a & k & _ & (A1 & A2 & A3) & E & H) (a' & k' & _ & (A1' & A2' & A3') & E' & H').
  assert (a' = a) as ->. { destruct a, a'; cbn in *; congruence. }
  specialize (H (max k k') ltac:(lia)). specialize (H' (max k k') ltac:(lia)). cbn in *.
  pose proof (eq_trans (eq_sym H) H') as Q. injection Q; intros -> ->. split; auto. congruence.
Qed.
(** std_devs() returns the standard deviation of each element. *)
Theorem std_devs_results : forall (st : state) ia, reachable st -> wf_arr ia ->
  Forall (fun i => (i < length (st_env st))%nat) (a_flat ia) ->
  exists r st', array_read (std_devs (N:=RN)) st ia (Ok r) st' /\ elementwise (std_is st) ia r.
Proof.
  intros st ia Re Wi Hi. destruct (reach_sim st Re) as [ss S].
  destruct (std_devs_facts st ss ia S Wi Hi) as (r & st' & H & _ & Es & F). exists r, st'. split; auto.
  apply Forall2_elem; auto.
Qed.
(** Reading standard deviations does not change what is observed later. *)
Theorem std_devs_invisible : forall (st : state) ia r st' prog st1 os1 st2 os2, reachable st ->
  array_read (std_devs (N:=RN)) st ia r st' -> runs st prog st1 os1 -> runs st' prog st2 os2 -> Forall2 same_out os1 os2.
Proof.
  intros st ia r st' prog st1 os1 st2 os2 Rc C R1 R2. destruct (reach_sim st Rc) as (ss & S).
  assert (Hi : wf_arr ia /\ Forall (fun i => (i < length (st_env st))%nat) (a_flat ia)).
  { destruct C as (a & k & W & (A1 & A2 & A3) & _). split; auto. clear -A3. revert A3. generalize (a_flat a).
    induction (a_flat ia) as [|i is IH]; intros l E; constructor; cbn in E.
    - apply nth_error_Some. destruct (nth_error (st_env st) i); congruence.
    - destruct (nth_error (st_env st) i); [|discriminate]. destruct (get_args (st_env st) is); [|discriminate]. eapply IH; eauto. }
  destruct (std_devs_facts st ss ia S (proj1 Hi) (proj2 Hi)) as (r0 & st0 & H & S' & _).
  destruct (array_read_unique _ _ _ _ _ _ _ C H) as [_ ->].
  destruct (runs_sim _ _ _ _ _ S R1) as [_ O1]. destruct (runs_sim _ _ _ _ _ S' R2) as [_ O2].
  eapply Forall2_same; eauto.
Qed.
End VecR.

(** ** Names *)
Local Open Scope string_scope.
Lemma str_in_In : forall s l, str_in s l = true <-> In s l.
Proof.
  intros s l. unfold str_in. rewrite existsb_exists. split.
  - intros (x & I & E). apply String.eqb_eq in E. now subst.
  - intros I. exists s. split; auto. apply String.eqb_refl.
Qed.
Definition umath_ok : list string := fixed_names ++ num_deriv_names ++ cst_names ++ ["modf"; "ldexp"].
Lemma umath_names_ok : forall dm s, In s (umath_names dm) -> In s umath_ok.
Proof.
  intros dm s H. unfold umath_names in H. apply in_app_iff in H. unfold umath_ok. rewrite !in_app_iff.
  destruct H as [H|H]; [|auto]. apply filter_In in H as [_ H]. apply orb_true_iff in H as [H|H].
  - apply orb_true_iff in H as [H|H]; apply str_in_In in H; auto.
  - apply str_in_In in H; auto.
Qed.
(** Every function of umath that NumPy has is in unumpy under NumPy's name, except three. *)
Theorem numpy_names : forall dir_math s np, In s (umath_all dir_math) -> numpy_name s = Some np ->
  ~ In s ["asinh"; "pow"; "frexp"] -> In (np, s) (unumpy_funcs dir_math).
Proof.
  intros dm s np H E Nn. unfold umath_all in H. apply in_app_iff in H as [H|H].
  - unfold unumpy_funcs. apply in_map_iff. exists s. split; auto. f_equal.
    apply umath_names_ok in H. unfold umath_ok in H. cbn in H.
    repeat (destruct H as [<-|H]; [first [injection E; intros <-; reflexivity|discriminate E|exfalso; apply Nn; cbn; tauto]|]).
    destruct H.
  - cbn in H. repeat (destruct H as [<-|H]; [first [discriminate E|exfalso; apply Nn; cbn; tauto]|]). destruct H.
Qed.
(** The three exceptions. *)
Theorem numpy_names_refuted : forall dir_math, In "asinh" dir_math -> In "pow" dir_math ->
  exists l, l = ["asinh"; "pow"; "frexp"] /\
  forall s, In s l -> In s (umath_all dir_math) /\
    exists np, numpy_name s = Some np /\ ~ exists f, In (np, f) (unumpy_funcs dir_math).
Proof.
  intros dm H1 H2. eexists. split; [reflexivity|].
  assert (G : forall np f, In (np, f) (unumpy_funcs dm) -> In (np, f) (map (fun s => (unumpy_name s, s)) umath_ok)).
  { intros np f H. apply in_map_iff in H as (s & Es & I). apply in_map_iff. exists s. split; auto. eapply umath_names_ok; eauto. }
  assert (U : forall s, In s dm -> str_in s fixed_names = true -> In s (umath_all dm)).
  { intros s I J. unfold umath_all, umath_names. rewrite !in_app_iff. left. left. apply filter_In. split; auto. now rewrite J. }
  intros s [<-|[<-|[<-|[]]]].
  - split; [now apply U|]. exists "arcsinh". split; auto. intros [f Hf]. apply G in Hf. cbn in Hf.
    repeat (destruct Hf as [Hf|Hf]; [discriminate Hf|]). exact Hf.
  - split; [now apply U|]. exists "power". split; auto. intros [f Hf]. apply G in Hf. cbn in Hf.
    repeat (destruct Hf as [Hf|Hf]; [discriminate Hf|]). exact Hf.
  - split; [unfold umath_all; apply in_app_iff; right; cbn; tauto|]. exists "frexp". split; auto. intros [f Hf]. apply G in Hf. cbn in Hf.
    repeat (destruct Hf as [Hf|Hf]; [discriminate Hf|]). exact Hf.
Qed.
(** A name of unumpy stands for one function, and for NumPy's one when NumPy has that name. *)
Theorem unumpy_names_unique : forall dir_math np f f', In (np, f) (unumpy_funcs dir_math) ->
  In (np, f') (unumpy_funcs dir_math) -> f = f'.
Proof.
  intros dm np f f' H H'.
  assert (G : forall np f, In (np, f) (unumpy_funcs dm) -> unumpy_name f = np /\ In f umath_ok).
  { intros x s I. apply in_map_iff in I as (t & Et & I). injection Et; intros -> <-. split; auto. eapply umath_names_ok; eauto. }
  apply G in H as [Q I], H' as [Q' I']. rewrite <- Q in Q'. clear G Q np dm.
  assert (K : forallb (fun a => forallb (fun b => if String.eqb (unumpy_name a) (unumpy_name b) then String.eqb a b else true) umath_ok) umath_ok = true)
    by (vm_compute; reflexivity).
  rewrite forallb_forall in K. specialize (K f I). rewrite forallb_forall in K. specialize (K f' I').
  rewrite Q', String.eqb_refl in K. now apply String.eqb_eq.
Qed.
Theorem unumpy_names_numpy : forall dir_math np f s, In (np, f) (unumpy_funcs dir_math) ->
  numpy_name s = Some np -> f = s.
Proof.
  intros dm np f s H E. apply in_map_iff in H as (t & Et & I). injection Et; intros -> <-. apply umath_names_ok in I.
  unfold numpy_name in E. destruct (find _ _) as [q|] eqn:Ef; [|discriminate]. apply find_some in Ef as [J Es].
  apply String.eqb_eq in Es. subst s. injection E; intros E'. clear E.
  assert (K : forallb (fun a => forallb (fun q => if String.eqb (snd q) (unumpy_name a) then String.eqb a (fst q) else true)
    [("acos", "arccos"); ("acosh", "arccosh"); ("asin", "arcsin"); ("asinh", "arcsinh");
     ("atan", "arctan"); ("atan2", "arctan2"); ("atanh", "arctanh"); ("ceil", "ceil");
     ("copysign", "copysign"); ("cos", "cos"); ("cosh", "cosh"); ("degrees", "degrees");
     ("exp", "exp"); ("expm1", "expm1"); ("fabs", "fabs"); ("floor", "floor"); ("fmod", "fmod");
     ("frexp", "frexp"); ("hypot", "hypot"); ("isinf", "isinf"); ("isnan", "isnan");
     ("ldexp", "ldexp"); ("log", "log"); ("log10", "log10"); ("log1p", "log1p"); ("modf", "modf");
     ("pow", "power"); ("radians", "radians"); ("sin", "sin"); ("sinh", "sinh"); ("sqrt", "sqrt");
     ("tan", "tan"); ("tanh", "tanh"); ("trunc", "trunc")]) umath_ok = true) by (vm_compute; reflexivity).
  rewrite forallb_forall in K. specialize (K f I). rewrite forallb_forall in K. specialize (K q J).
  rewrite E', String.eqb_refl in K. now apply String.eqb_eq.
Qed.
