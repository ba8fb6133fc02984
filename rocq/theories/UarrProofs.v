(** uarray(), nominal_values() and std_devs(), in any arithmetic. *)
From Coq Require Import ZArith List Bool Lia Arith.
From Verif Require Import Base Heap Affine Ops UMath Machine History Unumpy UnumpySpec MatrixSpec ArrProofs.
Import ListNotations.

Section Uarr.
Context {N : NumOps}.
Implicit Types h : heap N.

(** What an element of uarray(n, s) is made from: two Python numbers and the floats that they
    become. *)
Definition accepted (l : list (pynum N)) (p : num N * num N) : Prop :=
  match l with [n; s] => pn_float n = Ok (fst p) /\ check_std s = Ok (snd p) | _ => False end.

Fixpoint heap_of h (ps : list (num N * num N)) : heap N :=
  match ps with
  | [] => h
  | p :: ps' =>
      heap_of (mkHeap (h_lc h ++ [LDict [(length (h_var h), n_one N)]])
                      (h_var h ++ [mkVar (fst p) (length (h_lc h)) (snd p) None])) ps'
  end.
Fixpoint values_of (l v : nat) (ps : list (num N * num N)) : list (value N) :=
  match ps with
  | [] => []
  | p :: ps' => VUF (mkUF (fst p) l (Some v)) :: values_of (S l) (S v) ps'
  end.

Lemma new_elements : forall ls ps h, Forall2 accepted ls ps ->
  calls new_element ls h (values_of (length (h_lc h)) (length (h_var h)) ps) (heap_of h ps).
Proof.
  intros ls ps h F. revert h. induction F as [|l p ls ps A F IH]; intros h; cbn [values_of heap_of]; [constructor|].
  destruct l as [|n [|s [|]]]; cbn in A; try contradiction. destruct A as [An As].
  econstructor.
  - unfold new_element, bind, new_var. rewrite An, As. cbn [alloc_lc]. cbn. reflexivity.
  - specialize (IH (mkHeap (h_lc h ++ [LDict [(length (h_var h), n_one N)]])
                      (h_var h ++ [mkVar (fst p) (length (h_lc h)) (snd p) None]))).
    cbn [h_lc h_var] in IH. rewrite !app_length in IH. cbn [length] in IH.
    rewrite !Nat.add_1_r in IH. exact IH.
Qed.

Lemma heap_of_ext : forall ps h, exists a b, h_lc (heap_of h ps) = h_lc h ++ a /\ h_var (heap_of h ps) = h_var h ++ b.
Proof.
  induction ps as [|p ps IH]; intros h; cbn [heap_of]. { exists [], []. now rewrite !app_nil_r. }
  destruct (IH (mkHeap (h_lc h ++ [LDict [(length (h_var h), n_one N)]])
                      (h_var h ++ [mkVar (fst p) (length (h_lc h)) (snd p) None]))) as (a & b & Ea & Eb).
  cbn [h_lc h_var] in Ea, Eb. rewrite <- app_assoc in Ea, Eb. eauto.
Qed.

Lemma values_nth : forall ps l v k p, nth_error ps k = Some p ->
  nth_error (values_of l v ps) k = Some (VUF (mkUF (fst p) (l + k) (Some (v + k)))).
Proof.
  induction ps as [|q ps IH]; intros l v [|k] p E; cbn in *; try discriminate.
  - injection E; intros <-. now rewrite !Nat.add_0_r.
  - rewrite (IH _ _ _ _ E). now rewrite <- !plus_n_Sm.
Qed.
Lemma values_length : forall ps l v, length (values_of l v ps) = length ps.
Proof. induction ps; intros; cbn; auto. Qed.
Lemma heap_nth : forall ps h k p, nth_error ps k = Some p ->
  get_var (heap_of h ps) (length (h_var h) + k) =
    Some (mkVar (fst p) (length (h_lc h) + k) (snd p) None) /\
  get_lc (heap_of h ps) (length (h_lc h) + k) = LDict [(length (h_var h) + k, n_one N)].
Proof.
  induction ps as [|q ps IH]; intros h [|k] p E; cbn [nth_error] in E; try discriminate; cbn [heap_of].
  - injection E; intros <-. rewrite !Nat.add_0_r.
    destruct (heap_of_ext ps (mkHeap (h_lc h ++ [LDict [(length (h_var h), n_one N)]])
                      (h_var h ++ [mkVar (fst q) (length (h_lc h)) (snd q) None]))) as (a & b & Ea & Eb).
    cbn [h_lc h_var] in Ea, Eb. unfold get_var, get_lc. rewrite Ea, Eb. split.
    + rewrite <- app_assoc, nth_error_app2, Nat.sub_diag by lia. reflexivity.
    + rewrite <- app_assoc, app_nth2, Nat.sub_diag by lia. reflexivity.
  - specialize (IH (mkHeap (h_lc h ++ [LDict [(length (h_var h), n_one N)]])
                      (h_var h ++ [mkVar (fst q) (length (h_lc h)) (snd q) None])) k p E).
    cbn [h_lc h_var] in IH. rewrite !app_length in IH. cbn [length] in IH.
    replace (length (h_var h) + 1 + k) with (length (h_var h) + S k) in IH by lia.
    replace (length (h_lc h) + 1 + k) with (length (h_lc h) + S k) in IH by lia. exact IH.
Qed.

Lemma new_element_ok : forall l h b h1, new_element l h = (Ok b, h1) -> exists p, accepted l p.
Proof.
  intros [|n [|s [|]]] h b h1 E; try discriminate. unfold new_element, bind, new_var in E.
  destruct (pn_float n) as [x|] eqn:En; [|discriminate]. destruct (check_std s) as [y|] eqn:Es; [|discriminate].
  exists (x, y). cbn. auto.
Qed.

(** uarray(n, s) gives one new variable per index, with the nominal value and the standard
    deviation found at that index of n and of s. *)
Theorem uarray_spec : forall (n s : arr (pynum N)) sh h, wf_arr n -> wf_arr s ->
  broadcasts (a_shape n) (a_shape s) sh ->
  (forall idx p q, valid sh idx -> pair_at n s idx p q ->
     (exists x, pn_float p = Ok x) /\ (exists y, check_std q = Ok y)) ->
  exists a h', uarray (UArr n) (Some (UArr s)) h = (Ok a, h') /\ wf_arr a /\ a_shape a = sh /\
  (forall idx, valid sh idx -> exists p q x y u v,
     pair_at n s idx p q /\ pn_float p = Ok x /\ check_std q = Ok y /\
     elem a idx = Some (VUF u) /\ uf_nom u = x /\ uf_var u = Some v /\ get_var h v = None /\
     (forall fuel, std_dev fuel u h' = (Ok y, h')) /\
     (forall fuel, derivatives fuel u h' = (Ok [(v, n_one N)], h'))) /\
  (forall idx idx' u u', valid sh idx -> valid sh idx' -> elem a idx = Some (VUF u) ->
     elem a idx' = Some (VUF u') -> uf_var u = uf_var u' -> idx = idx').
Proof.
  intros n s sh h Wn Ws Bs Hok.
  assert (EL : exists l ps,
     map Some l = map (fun idx => match elem n (shown (a_shape n) idx), elem s (shown (a_shape s) idx) with
                            | Some x, Some y => Some [x; y] | _, _ => None end) (indices sh) /\
     Forall2 accepted l ps /\
     Forall2 (fun idx p => exists x y, pair_at n s idx x y /\ accepted [x; y] p) (indices sh) ps).
  { assert (H : forall idx, In idx (indices sh) -> valid sh idx) by (intros; now apply indices_valid).
    induction (indices sh) as [|idx t IH]; [exists [], []; auto|].
    destruct IH as (l & ps & El & F1 & F2). { intros; apply H; cbn; auto. }
    assert (Vi := H idx (or_introl eq_refl)).
    destruct (shown_valid _ _ _ idx Bs Vi) as [V1 V2].
    destruct (elem n (shown (a_shape n) idx)) as [x|] eqn:Ex.
    2:{ unfold elem in Ex. apply nth_error_None in Ex. rewrite Wn in Ex. pose proof (rank_lt _ _ V1). lia. }
    destruct (elem s (shown (a_shape s) idx)) as [y|] eqn:Ey.
    2:{ unfold elem in Ey. apply nth_error_None in Ey. rewrite Ws in Ey. pose proof (rank_lt _ _ V2). lia. }
    assert (P : pair_at n s idx x y) by (split; auto).
    destruct (Hok idx x y Vi P) as ((x1 & E1) & (y1 & E2)).
    exists ([x; y] :: l), ((x1, y1) :: ps). cbn [map]. rewrite Ex, Ey, El. repeat split; auto.
    - constructor; auto. cbn. auto.
    - constructor; auto. exists x, y. split; auto. cbn. auto. }
  destruct EL as (l & ps & El & F1 & F2).
  pose proof (new_elements l ps h F1) as C.
  set (a := mkArr (cls_max (a_cls n) (cls_max (a_cls s) ANd)) sh (values_of (length (h_lc h)) (length (h_var h)) ps)).
  exists a, (heap_of h ps).
  assert (Lp : length ps = count sh).
  { rewrite <- indices_length. symmetry. clear -F2. induction F2; cbn; auto. }
  assert (EA : forall idx, valid sh idx -> exists p x y, nth_error ps (rank sh idx) = Some p /\ pair_at n s idx x y /\ accepted [x; y] p).
  { intros idx V. pose proof (nth_indices sh idx V) as E. revert E. generalize (rank sh idx) as k.
    clear -F2. induction F2 as [|i p t ps (x & y & P & A) F IH]; intros [|k] E; cbn in E; try discriminate.
    - injection E; intros <-. exists p, x, y. auto.
    - cbn [nth_error]. apply IH; auto. }
  split; [|split; [|split; [|split]]].
  - unfold uarray. cbn [lift bind stack_tuple rbind fst snd]. unfold bind, lift. cbn [fst snd].
    apply (proj2 (vectorize2 _ _ new_element n s sh h a (heap_of h ps) Wn Ws Bs)).
    cbn [a a_cls a_shape a_flat]. split; auto. split; auto. exists l. auto.
  - unfold wf_arr. cbn. now rewrite values_length.
  - reflexivity.
  - intros idx V. destruct (EA idx V) as (p & x & y & Ep & P & A1 & A2). cbn in A1, A2.
    destruct (heap_nth ps h _ _ Ep) as [Gv Gl].
    exists x, y, (fst p), (snd p), (mkUF (fst p) (length (h_lc h) + rank sh idx) (Some (length (h_var h) + rank sh idx))), (length (h_var h) + rank sh idx).
    split; auto. split; auto. split; auto. split.
    { unfold elem. cbn [a a_flat a_shape]. now apply values_nth. }
    split; [reflexivity|]. split; [reflexivity|]. split; [|split].
    + unfold get_var. apply nth_error_None. lia.
    + intros fuel. unfold std_dev. cbn [uf_var]. now rewrite Gv.
    + intros fuel. unfold derivatives, lc_derivatives. cbn [uf_lp]. now rewrite Gl.
  - intros idx idx' u u' V V' E E' Eq.
    destruct (EA idx V) as (p & _ & _ & Ep & _). destruct (EA idx' V') as (p' & _ & _ & Ep' & _).
    unfold elem in E, E'. cbn [a a_flat a_shape] in E, E'.
    rewrite (values_nth _ _ _ _ _ Ep) in E. rewrite (values_nth _ _ _ _ _ Ep') in E'.
    injection E; intros <-. injection E'; intros <-. cbn in Eq. injection Eq; intros Eq'.
    apply rank_inj with sh; auto. lia.
Qed.

(** It accepts nothing else: a negative standard deviation raises. *)
Theorem uarray_refuses : forall (n s : arr (pynum N)) sh h a h', wf_arr n -> wf_arr s ->
  broadcasts (a_shape n) (a_shape s) sh -> uarray (UArr n) (Some (UArr s)) h = (Ok a, h') ->
  forall idx p q, valid sh idx -> pair_at n s idx p q ->
    (exists x, pn_float p = Ok x) /\ (exists y, check_std q = Ok y).
Proof.
  intros n s sh h a h' Wn Ws Bs E idx p q V [P1 P2].
  unfold uarray, bind, lift in E. cbn [stack_tuple rbind fst snd] in E.
  apply (proj1 (vectorize2 _ _ new_element n s sh h a h' Wn Ws Bs)) in E as (_ & _ & l & El & C).
  assert (I : In (Some [p; q]) (map Some l)).
  { rewrite El. apply in_map_iff. exists idx. rewrite P1, P2. split; auto. now apply indices_valid. }
  apply in_map_iff in I as (t & Et & I). injection Et; intros ->.
  clear -C I. induction C as [|t l h b h1 r h2 E C IH]; [destruct I|].
  destruct I as [->|I]; auto. apply new_element_ok in E as [[x y] [A1 A2]]. eauto.
Qed.

(** ** nominal_values() and std_devs() *)
Lemma as_float_nominal : forall (x : value N) y, as_float (nominal_value x) = Ok y <-> nominal_float x y.
Proof.
  intros [[p| |k|]|u] y; cbn; split; try congruence; try tauto.
Qed.

Theorem nominal_values_spec : forall (a : arr (value N)) h, wf_arr a ->
  (forall x, In x (a_flat a) -> exists y, nominal_float x y) ->
  exists r, nominal_values a h = (Ok r, h) /\ wf_arr r /\ elementwise nominal_float a r /\
    a_cls r = match a_cls a with AUMat => AMat | c => c end.
Proof.
  intros a h W H.
  assert (F : exists l, Forall2 (fun x y => as_float (nominal_value x) = Ok y) (a_flat a) l).
  { clear W. induction (a_flat a) as [|x l IH]; [exists []; constructor|].
    destruct IH as [l' F]. { intros; apply H; cbn; auto. }
    destruct (H x (or_introl eq_refl)) as [y Hy]. exists (y :: l'). constructor; auto. now apply as_float_nominal. }
  destruct F as [l F]. set (r := mkArr (a_cls a) (a_shape a) l).
  assert (E : vectorize (arg1 (fun x => lift (as_float (nominal_value x)))) [a] h = (Ok r, h)).
  { apply vectorize1; auto. cbn. split; auto. split; auto. now apply calls_pure. }
  assert (Ll : length l = length (a_flat a)) by (clear -F; induction F; cbn; auto).
  exists (to_numpy r). split.
  { unfold nominal_values, bind. now rewrite E. }
  assert (Es : a_shape (to_numpy r) = a_shape a /\ a_flat (to_numpy r) = l).
  { unfold to_numpy. destruct (a_cls r); cbn; auto. }
  destruct Es as [Es Ef]. split; [|split].
  - unfold wf_arr. now rewrite Es, Ef, Ll.
  - apply Forall2_elem; auto. rewrite Ef. clear -F. induction F; constructor; auto. now apply as_float_nominal.
  - unfold to_numpy. cbn. destruct (a_cls a); reflexivity.
Qed.

Theorem std_devs_variables : forall (a : arr (value N)) h fuel, wf_arr a ->
  (forall x, In x (a_flat a) -> exists y, own_std h x y) ->
  exists r, std_devs fuel a h = (Ok r, h) /\ wf_arr r /\ elementwise (own_std h) a r /\
    a_cls r = match a_cls a with AUMat => AMat | c => c end.
Proof.
  intros a h fuel W H.
  assert (G : forall x y, own_std h x y -> any_std_dev fuel x h = (Ok y, h)).
  { intros [p|u] y; cbn. { now intros ->. } intros (v & o & E1 & E2 & ->). unfold std_dev. now rewrite E1, E2. }
  assert (F : exists l, Forall2 (own_std h) (a_flat a) l).
  { clear W. induction (a_flat a) as [|x l IH]; [exists []; constructor|].
    destruct IH as [l' F]. { intros; apply H; cbn; auto. }
    destruct (H x (or_introl eq_refl)) as [y Hy]. exists (y :: l'). constructor; auto. }
  destruct F as [l F]. set (r := mkArr (a_cls a) (a_shape a) l).
  assert (E : vectorize (arg1 (any_std_dev fuel)) [a] h = (Ok r, h)).
  { apply vectorize1; auto. cbn. split; auto. split; auto. clear -F G. induction F; econstructor; eauto. }
  assert (Ll : length l = length (a_flat a)) by (clear -F; induction F; cbn; auto).
  exists (to_numpy r). split.
  { unfold std_devs, bind. now rewrite E. }
  assert (Es : a_shape (to_numpy r) = a_shape a /\ a_flat (to_numpy r) = l).
  { unfold to_numpy. destruct (a_cls r); cbn; auto. }
  destruct Es as [Es Ef]. split; [|split].
  - unfold wf_arr. now rewrite Es, Ef, Ll.
  - apply Forall2_elem; auto. now rewrite Ef.
  - unfold to_numpy. cbn. destruct (a_cls a); reflexivity.
Qed.

(** nominal_values(uarray(n, s)) = n and std_devs(uarray(n, s)) = s, for arrays of floats of the
    same shape. *)
Theorem uarray_values : forall (n s : arr (num N)) h fuel, wf_arr n -> wf_arr s ->
  a_shape s = a_shape n ->
  (forall y, In y (a_flat s) -> n_lt N y (n_zero N) = false) ->
  exists a h', uarray (UArr (amap PF n)) (Some (UArr (amap PF s))) h = (Ok a, h') /\
    a_shape a = a_shape n /\
    exists n' s', nominal_values a h' = (Ok n', h') /\ std_devs fuel a h' = (Ok s', h') /\
      a_shape n' = a_shape n /\ a_flat n' = a_flat n /\ a_shape s' = a_shape s /\ a_flat s' = a_flat s.
Proof.
  intros n s h fuel Wn Ws Es Hs.
  assert (Wn' : wf_arr (amap (PF (N:=N)) n)) by (unfold wf_arr; cbn; now rewrite map_length).
  assert (Ws' : wf_arr (amap (PF (N:=N)) s)) by (unfold wf_arr; cbn; now rewrite map_length).
  assert (Bs : broadcasts (a_shape (amap (PF (N:=N)) n)) (a_shape (amap (PF (N:=N)) s)) (a_shape n)).
  { cbn. rewrite Es. apply broadcast_spec, broadcast_same. }
  assert (EM : forall (m : arr (num N)) idx, elem (amap (PF (N:=N)) m) idx = option_map PF (elem m idx)).
  { intros m idx. unfold elem. cbn. apply nth_error_map. }
  assert (CK : forall y, In y (a_flat s) -> check_std (PF y) = Ok y).
  { intros y I. unfold check_std. cbn. now rewrite (Hs y I). }
  destruct (uarray_spec _ _ _ h Wn' Ws' Bs) as (a & h' & E & Wa & Ea & V & _).
  { intros idx p q _ [P1 P2]. rewrite EM in P1, P2.
    destruct (elem n _) as [x|]; [|discriminate]. cbn in P1. injection P1; intros <-.
    destruct (elem s _) as [y|] eqn:Ey; [|discriminate]. cbn in P2. injection P2; intros <-.
    split; [exists x; reflexivity|]. exists y. apply CK. unfold elem in Ey. eapply nth_error_In; eauto. }
  exists a, h'. split; auto. split; auto.
  (* the elements *)
  assert (V' : forall idx, valid (a_shape n) idx -> exists u v o x y,
     elem a idx = Some (VUF u) /\ elem n idx = Some x /\ elem s idx = Some y /\ uf_nom u = x /\
     uf_var u = Some v /\ get_var h' v = Some o /\ v_std o = y).
  { intros idx Vi. destruct (V idx Vi) as (p & q & x & y & u & v & [P1 P2] & F1 & F2 & Eu & Eun & Euv & _ & Sd & _).
    cbn [amap a_shape] in P1, P2. rewrite Es in P2. rewrite (shown_self _ _ Vi) in P1, P2.
    rewrite EM in P1, P2. destruct (elem n idx) as [x0|]; [|discriminate]. cbn in P1. injection P1; intros <-.
    destruct (elem s idx) as [y0|] eqn:Ey0; [|discriminate]. cbn in P2. injection P2; intros <-.
    cbn in F1. injection F1; intros ->.
    rewrite CK in F2 by (unfold elem in Ey0; eapply nth_error_In; eauto). injection F2; intros ->.
    specialize (Sd 0). unfold std_dev in Sd. rewrite Euv in Sd.
    destruct (get_var h' v) as [o|] eqn:Eo; [|discriminate]. injection Sd; intros Eso.
    exists u, v, o, x, y. repeat split; auto. }
  assert (A : forall k x, nth_error (a_flat a) k = Some x -> exists idx, valid (a_shape n) idx /\ rank (a_shape n) idx = k).
  { intros k x Ek. assert (L : k < count (a_shape n)). { rewrite <- Ea. unfold wf_arr in Wa. rewrite <- Wa. apply nth_error_Some. congruence. }
    assert (I : In k (map (rank (a_shape n)) (indices (a_shape n)))) by (rewrite map_rank; apply in_seq; lia).
    apply in_map_iff in I as (idx & Er & Hi). exists idx. split; auto. now apply indices_valid. }
  assert (Q : forall x, In x (a_flat a) -> exists u v o, x = VUF u /\ uf_var u = Some v /\ get_var h' v = Some o).
  { intros x I. apply In_nth_error in I as [k Ek]. destruct (A k x Ek) as (idx & Vi & Er).
    destruct (V' idx Vi) as (u & v & o & _ & _ & E1 & _ & _ & _ & E2 & E3 & _).
    unfold elem in E1. rewrite Ea, Er, Ek in E1. injection E1; intros ->. exists u, v, o. auto. }
  destruct (nominal_values_spec a h' Wa) as (n' & En & Wn2 & [Sn Fn] & _).
  { intros x I. destruct (Q x I) as (u & _ & _ & -> & _). exists (uf_nom u). reflexivity. }
  destruct (std_devs_variables a h' fuel Wa) as (s' & Esd & Ws2 & [Ss Fs] & _).
  { intros x I. destruct (Q x I) as (u & v & o & -> & E1 & E2). exists (v_std o), v, o. auto. }
  exists n', s'. split; auto. split; auto.
  assert (EX : forall B (c d : arr B), wf_arr c -> wf_arr d -> a_shape c = a_shape d ->
     (forall idx, valid (a_shape d) idx -> exists x, elem c idx = Some x /\ elem d idx = Some x) -> a_flat c = a_flat d).
  { intros B c d Wc Wd Ec H0. pose proof (map_nth_indices _ _ _ Wc) as M1. pose proof (map_nth_indices _ _ _ Wd) as M2.
    rewrite Ec in M1. assert (M : map Some (a_flat c) = map Some (a_flat d)).
    { rewrite <- M1, <- M2. apply map_ext_in. intros idx Hi. apply indices_valid in Hi.
      destruct (H0 idx Hi) as (x & X1 & X2). unfold elem in X1, X2. rewrite Ec in X1. congruence. }
    clear -M. revert M. generalize (a_flat c) (a_flat d). induction l; intros [|y l'] E; cbn in E; try discriminate; auto.
    injection E; intros E1 E2; subst. f_equal. auto. }
  split; [congruence|]. split; [|split; [congruence|]].
  - apply EX; auto; [congruence|]. intros idx Vi. destruct (V' idx Vi) as (u & v & o & x & y & E1 & E2 & E3 & E4 & E5 & E6 & E7).
    rewrite Ea in Fn. destruct (Fn idx Vi) as (x0 & y0 & X1 & X2 & X3). rewrite E1 in X1. injection X1; intros <-.
    cbn in X3. subst y0. exists x. rewrite X2, E4. auto.
  - apply EX; auto; [congruence|]. intros idx Vi. rewrite Es in Vi. destruct (V' idx Vi) as (u & v & o & x & y & E1 & E2 & E3 & E4 & E5 & E6 & E7).
    rewrite Ea in Fs. destruct (Fs idx Vi) as (x0 & y0 & X1 & X2 & X3). rewrite E1 in X1. injection X1; intros <-.
    cbn in X3. destruct X3 as (v' & o' & Y1 & Y2 & ->). exists y.
    assert (v' = v) by congruence. subst. assert (o' = o) by congruence. subst. auto.
Qed.

(** ** uarray() as a program *)
(** uarray(n, s) is the same as one call of ufloat() per index. *)
Theorem uarray_runs : forall (n s : arr (pynum N)) sh (st : state N) a h', wf_arr n -> wf_arr s ->
  broadcasts (a_shape n) (a_shape s) sh -> uarray (UArr n) (Some (UArr s)) (st_heap st) = (Ok a, h') ->
  exists prog os, runs st prog (mkState h' (st_env st ++ a_flat a)) os /\
    Forall2 (fun idx ins => exists p q, pair_at n s idx p q /\ ins = INew p q None) (indices sh) prog /\
    Forall (fun o => o = ONone) os.
Proof.
  intros n s sh st a h' Wn Ws Bs E.
  unfold uarray, bind, lift in E. cbn [stack_tuple rbind fst snd] in E.
  apply (proj1 (vectorize2 _ _ new_element n s sh _ a h' Wn Ws Bs)) in E as (_ & _ & l & El & C).
  destruct st as [h env]. cbn [st_heap st_env] in *.
  revert h env C. generalize (a_flat a) as fl. clear a. revert l El.
  induction (indices sh) as [|idx t IH]; intros l El fl h env C.
  - destruct l; [|discriminate]. inversion C; subst. exists [], []. rewrite app_nil_r. repeat split; auto.
    exists 0. intros; reflexivity.
  - destruct l as [|x l]; [discriminate|]. cbn [map] in El.
    destruct (elem n (shown (a_shape n) idx)) as [p|] eqn:E1; [|discriminate].
    destruct (elem s (shown (a_shape s) idx)) as [q|] eqn:E2; [|discriminate].
    injection El; intros El' ->. inversion C as [|? ? ? b h1 r h2 Ec C']; subst.
    destruct (IH l El' r h1 (env ++ [b]) C') as (prog & os & [k Hk] & F & G).
    exists (INew p q None :: prog), (ONone :: os). split; [|split].
    + exists k. intros fuel Hf. cbn [run step]. unfold new_element, bind in Ec.
      destruct (new_var p q None h) as [[u|e] h0] eqn:Ev; cbn in Ec; [|discriminate].
      injection Ec; intros -> <-. cbn [st_heap st_env push]. rewrite Ev. cbn [push st_heap st_env].
      rewrite Hk by auto. rewrite <- app_assoc. reflexivity.
    + constructor; auto. exists p, q. split; auto. split; auto.
    + constructor; auto.
Qed.

(** ** The other forms of uarray(), and umatrix() *)
Lemma flat_ext : forall A (a b : arr A), wf_arr a -> wf_arr b -> a_shape b = a_shape a ->
  (forall idx, valid (a_shape a) idx -> elem a idx = elem b idx) -> a_flat a = a_flat b.
Proof.
  intros A a b Wa Wb E H.
  assert (G : map (fun idx => nth_error (a_flat a) (rank (a_shape a) idx)) (indices (a_shape a)) =
              map (fun idx => nth_error (a_flat b) (rank (a_shape a) idx)) (indices (a_shape a))).
  { apply map_ext_in. intros idx I. apply indices_valid in I. specialize (H idx I). unfold elem in H. rewrite E in H. exact H. }
  unfold wf_arr in Wa, Wb. rewrite E in Wb.
  rewrite map_nth_indices in G by (rewrite Wa; auto). rewrite map_nth_indices in G by (rewrite Wb; auto).
  clear -G. revert G. generalize (a_flat b). induction (a_flat a) as [|x l IH]; intros [|y l'] G; cbn in G; try discriminate; [reflexivity|].
  injection G as -> G. f_equal. apply IH. exact G.
Qed.
(** uarray(a) = uarray(a[0], a[1]), for an array or a tuple. *)
Theorem uarray_pair : forall (a n s : arr (pynum N)) sh h, wf_arr a -> wf_arr n -> wf_arr s ->
  a_shape a = 2%nat :: sh -> a_shape n = sh -> a_shape s = sh -> a_cls n = a_cls a -> a_cls s = a_cls a ->
  (forall idx, valid sh idx -> elem n idx = elem a (0%nat :: idx) /\ elem s idx = elem a (1%nat :: idx)) ->
  uarray (UArr a) None h = uarray (UArr n) (Some (UArr s)) h /\
  uarray (UTuple [n; s]) None h = uarray (UArr n) (Some (UArr s)) h.
Proof.
  intros a n s sh h Wa Wn Ws Ea En Es Cn Cs H. split; [|reflexivity].
  assert (L : length (a_flat a) = (count sh + count sh)%nat).
  { unfold wf_arr in Wa. rewrite Wa, Ea. cbn [count fold_right]. change (fold_right Nat.mul 1%nat sh) with (count sh). lia. }
  set (n1 := mkArr (a_cls a) sh (firstn (size sh) (a_flat a))). set (s1 := mkArr (a_cls a) sh (skipn (size sh) (a_flat a))).
  assert (Wn1 : wf_arr n1) by (unfold wf_arr, n1; cbn [a_flat a_shape]; rewrite firstn_length, L; pose proof (size_count sh); lia).
  assert (Ws1 : wf_arr s1) by (unfold wf_arr, s1; cbn [a_flat a_shape]; rewrite skipn_length, L; pose proof (size_count sh); lia).
  assert (E1 : n = n1).
  { assert (F : a_flat n = a_flat n1).
    { apply flat_ext; [assumption|assumption|cbn; congruence|]. rewrite En. intros idx V. rewrite (proj1 (H idx V)). unfold elem, n1. cbn [a_flat a_shape].
      rewrite Ea. cbn [rank]. assert (R := rank_lt _ _ V). rewrite Nat.mul_0_l, Nat.add_0_l.
      rewrite <- (firstn_skipn (size sh) (a_flat a)) at 1. apply nth_error_app1. rewrite firstn_length, L, size_count. lia. }
    destruct n as [c q fl]. cbn in En, Cn, F. subst c q fl. reflexivity. }
  assert (E2 : s = s1).
  { assert (F : a_flat s = a_flat s1).
    { apply flat_ext; [assumption|assumption|cbn; congruence|]. rewrite Es. intros idx V. rewrite (proj2 (H idx V)). unfold elem, s1. cbn [a_flat a_shape].
      rewrite Ea. cbn [rank]. rewrite Nat.mul_1_l.
      rewrite <- (firstn_skipn (size sh) (a_flat a)) at 1. rewrite nth_error_app2; rewrite firstn_length, L, size_count.
      - f_equal. lia.
      - lia. }
    clear E1. destruct s as [c q fl]. cbn in Es, Cs, F. subst c q fl. reflexivity. }
  rewrite E1, E2. unfold uarray, unpack2, bind, lift. rewrite Ea. reflexivity.
Qed.
(** umatrix(n, s) has the elements of uarray(n, s), in two dimensions. *)
Theorem umatrix_spec : forall (n s : arr (pynum N)) h m h', umatrix (UArr n) (Some (UArr s)) h = (Ok m, h') ->
  exists a, uarray (UArr n) (Some (UArr s)) h = (Ok a, h') /\ a_cls m = AUMat /\
    ((exists k l, a_shape a = [k; l] /\ a_shape m = [k; l] /\ forall i j, elem m [i; j] = elem a [i; j]) \/
     (exists l, a_shape a = [l] /\ a_shape m = [1%nat; l] /\ forall j, elem m [0%nat; j] = elem a [j]) \/
     (a_shape a = [] /\ a_shape m = [1%nat; 1%nat] /\ elem m [0%nat; 0%nat] = elem a [])).
Proof.
  intros n s h m h' H. unfold umatrix in H. unfold bind at 1 in H. unfold lift at 1 in H. cbn [fst snd] in H. unfold bind at 1 in H.
  destruct (uarray (UArr n) (Some (UArr s)) h) as [[a|e] h1] eqn:Eu; [|discriminate H].
  exists a. unfold lift, as_matrix in H. destruct (a_shape a) as [|k [|l [|q t]]] eqn:Es; injection H as H ->; try discriminate H; subst m.
  - split; [reflexivity|]. split; [reflexivity|]. right. right. split; [exact eq_refl|]. split; [reflexivity|]. unfold elem. rewrite Es. reflexivity.
  - split; [reflexivity|]. split; [reflexivity|]. right. left. exists k. split; [reflexivity|]. split; [reflexivity|]. intros j. unfold elem. rewrite Es. reflexivity.
  - split; [reflexivity|]. split; [reflexivity|]. left. exists k, l. split; [reflexivity|]. split; [reflexivity|]. intros i j. unfold elem. rewrite Es. reflexivity.
Qed.
(** umatrix() returns when uarray() does, in at most two dimensions; one argument is as for uarray(). *)
Theorem umatrix_returns : forall (n s : arr (pynum N)) h a h', uarray (UArr n) (Some (UArr s)) h = (Ok a, h') ->
  (length (a_shape a) <= 2)%nat -> exists m, umatrix (UArr n) (Some (UArr s)) h = (Ok m, h').
Proof.
  intros n s h a h' H L. unfold umatrix. unfold bind at 1. unfold lift at 1. cbn [fst snd]. unfold bind at 1. rewrite H.
  unfold lift, as_matrix. destruct (a_shape a) as [|k [|l [|q t]]]; cbn in L; [eauto..|lia].
Qed.
(** The attribute I. *)
Theorem matrix_I_spec : forall linv lpinv order fuel (a : arr (value N)) h m n, a_shape a = [m; n] ->
  (m = n -> matrix_I linv lpinv order fuel a h = inv linv order fuel a h) /\
  (m <> n -> matrix_I linv lpinv order fuel a h = pinv lpinv order fuel a h).
Proof.
  intros linv lpinv order fuel a h m n E. unfold matrix_I. rewrite E.
  split; intros X; [subst; rewrite Nat.eqb_refl; reflexivity|]. apply Nat.eqb_neq in X. rewrite X. reflexivity.
Qed.
End Uarr.
