(** The caches of wrap() and IndexableIter never change what is returned. *)
From Coq Require Import ZArith List Bool Lia.
From Verif Require Import Base Heap Affine Wrap WrapSpec.
Import ListNotations.

Section II.
Context {A : Type}.

(** Value that index [n] stands for. *)
Definition ii_val (it : iterator A) (conv : nat -> option A) (n : nat) : option A :=
  match it n with Some (Some a) => Some a | _ => conv n end.

Definition ii_ok (it : iterator A) (conv : nat -> option A) (x : iiter A) : Prop :=
  ii_iter x = it /\ ii_conv x = conv /\
  forall n, (n < length (ii_elems x))%nat ->
    nth_error (ii_elems x) n = Some (ii_val it conv n) /\ it n <> None.

Lemma ii_fill_ok : forall n it conv x, ii_ok it conv x ->
  ii_ok it conv (snd (ii_fill n x)) /\
  (length (ii_elems x) <= length (ii_elems (snd (ii_fill n x))) <= n + length (ii_elems x))%nat /\
  match fst (ii_fill n x) with
  | Ok _ => length (ii_elems (snd (ii_fill n x))) = (n + length (ii_elems x))%nat
  | Err e => e = EStop /\ it (length (ii_elems (snd (ii_fill n x)))) = None /\
             (length (ii_elems (snd (ii_fill n x))) < n + length (ii_elems x))%nat
  end.
Proof.
  induction n as [|n IH]; intros it conv x H; cbn [ii_fill].
  - cbn. split; auto.
  - destruct (ii_iter x (length (ii_elems x))) as [v|] eqn:E.
    + set (y := mkII _ _ _).
      assert (Hy : ii_ok it conv y).
      { destruct H as (I & C & P). unfold y. split; [exact I|]. split; [exact C|].
        cbn [ii_iter ii_conv ii_elems]. intros m Hm. rewrite app_length in Hm; cbn in Hm.
        destruct (Nat.eq_dec m (length (ii_elems x))) as [->|].
        - rewrite nth_error_app2, Nat.sub_diag by lia. cbn. unfold ii_val.
          rewrite <- I, E, <- C. split; [destruct v; reflexivity|discriminate].
        - rewrite nth_error_app1 by lia. apply P. lia. }
      destruct (IH _ _ _ Hy) as (K & L & M).
      assert (Ly : length (ii_elems y) = S (length (ii_elems x)))
        by (unfold y; cbn; rewrite app_length; cbn; lia).
      split; [exact K|]. rewrite Ly in L. split; [lia|].
      destruct (fst (ii_fill n y)); [lia|]. destruct M as (? & ? & ?). repeat split; auto; lia.
    + cbn. split; auto. split; [lia|]. destruct H as (I & _). rewrite <- I. repeat split; auto. lia.
Qed.

Lemma ii_get_ok : forall it conv x i, ii_ok it conv x ->
  ii_ok it conv (snd (ii_get x i)) /\
  (length (ii_elems x) <= length (ii_elems (snd (ii_get x i))))%nat.
Proof.
  intros it conv x i H. unfold ii_get. destruct (py_index (ii_elems x) i) as [v|]; [cbn; auto|].
  destruct (ii_fill_ok (Z.to_nat (i + 1 - Z.of_nat (length (ii_elems x)))) it conv x H) as (K & L & _).
  destruct (ii_fill _ x) as [[u|e] x'] eqn:E; cbn [fst snd] in K, L |- *.
  - destruct (py_index (ii_elems x') i); cbn; split; auto; lia.
  - split; auto; lia.
Qed.

Lemma ii_get_nat : forall it conv x n, ii_ok it conv x -> (forall k, (k <= n)%nat -> it k <> None) ->
  fst (ii_get x (Z.of_nat n)) = Ok (ii_val it conv n) /\
  (n < length (ii_elems (snd (ii_get x (Z.of_nat n)))))%nat.
Proof.
  intros it conv x n H D. unfold ii_get, py_index.
  assert (B : (0 <=? Z.of_nat n)%Z = true) by (apply Z.leb_le; lia). rewrite B, Nat2Z.id.
  destruct (nth_error (ii_elems x) n) as [v|] eqn:E.
  - assert (L : (n < length (ii_elems x))%nat) by (apply nth_error_Some; congruence).
    destruct (proj2 (proj2 H) n L) as (V & _). cbn. split; [congruence|exact L].
  - assert (L : (length (ii_elems x) <= n)%nat) by (apply nth_error_None; exact E).
    replace (Z.to_nat (Z.of_nat n + 1 - Z.of_nat (length (ii_elems x))))
      with (S n - length (ii_elems x))%nat by lia.
    destruct (ii_fill_ok (S n - length (ii_elems x)) it conv x H) as (K & _ & M).
    destruct (ii_fill _ x) as [[u|e] x'] eqn:F; cbn [fst snd] in K, M |- *.
    + assert (L' : (n < length (ii_elems x'))%nat) by lia.
      destruct (proj2 (proj2 K) n L') as (V & _). rewrite V. cbn. auto.
    + destruct M as (_ & Q & M). exfalso. apply (D (length (ii_elems x'))); [lia|exact Q].
Qed.

Lemma ii_get_short : forall it conv x n k, ii_ok it conv x -> (k <= n)%nat -> it k = None ->
  fst (ii_get x (Z.of_nat n)) = Err EStop.
Proof.
  intros it conv x n k H Hk D. unfold ii_get, py_index.
  assert (B : (0 <=? Z.of_nat n)%Z = true) by (apply Z.leb_le; lia). rewrite B, Nat2Z.id.
  assert (Lx : forall y, ii_ok it conv y -> (length (ii_elems y) <= k)%nat).
  { intros y Y. destruct (Nat.le_gt_cases (length (ii_elems y)) k) as [|L]; auto.
    destruct (proj2 (proj2 Y) k L). contradiction. }
  destruct (nth_error (ii_elems x) n) as [v|] eqn:E.
  - assert (L : (n < length (ii_elems x))%nat) by (apply nth_error_Some; congruence).
    specialize (Lx x H). lia.
  - assert (L : (length (ii_elems x) <= n)%nat) by (apply nth_error_None; exact E).
    destruct (ii_fill_ok (Z.to_nat (Z.of_nat n + 1 - Z.of_nat (length (ii_elems x)))) it conv x H) as (K & _ & M).
    destruct (ii_fill _ x) as [[u|e] x'] eqn:F; cbn [fst snd] in K, M |- *.
    + specialize (Lx x' K). lia.
    + f_equal. tauto.
Qed.

Lemma ii_accesses_ok : forall is it conv x, ii_ok it conv x -> ii_ok it conv (ii_accesses x is).
Proof.
  induction is as [|i is IH]; intros; cbn; auto. apply IH, ii_get_ok; auto.
Qed.
Lemma ii_new_ok : forall it conv, ii_ok it conv (ii_new it conv).
Proof. intros; repeat split; cbn in *; lia. Qed.

(** C28 *)
Theorem indexing : forall (it : iterator A) conv (accesses : list Z) n,
  let x := ii_accesses (ii_new it conv) accesses in
  ((forall k, (k <= n)%nat -> it k <> None) ->
     fst (ii_get x (Z.of_nat n)) =
     Ok (match it n with Some (Some a) => Some a | _ => conv n end)) /\
  ((exists k, (k <= n)%nat /\ it k = None) -> fst (ii_get x (Z.of_nat n)) = Err EStop).
Proof.
  intros it conv is n x.
  assert (H : ii_ok it conv x) by (apply ii_accesses_ok, ii_new_ok).
  split; [intros D; apply (ii_get_nat _ _ _ _ H D)|].
  intros (k & Hk & D). eapply ii_get_short; eauto.
Qed.
End II.

Lemma element_chain : forall {A} n (it : iterator A),
  chain_none it n = Some (element it n).
Proof.
  intros A n. induction n as [|n IH]; intros it; unfold chain_none.
  - cbn. destruct (it 0%nat); reflexivity.
  - change (seq 0 (S (S n))) with (0%nat :: seq 1 (S n)). cbn [existsb].
    rewrite <- seq_shift. cbn [element].
    destruct (it 0%nat) as [v|] eqn:E; [|reflexivity]. cbn [orb].
    specialize (IH (fun k => it (S k))). unfold chain_none in IH. rewrite <- IH.
    assert (X : forall l, existsb (fun k => match it k with None => true | _ => false end) (map S l)
                = existsb (fun k => match it (S k) with None => true | _ => false end) l).
    { induction l; cbn; [reflexivity|]. rewrite IHl. reflexivity. }
    rewrite X. reflexivity.
Qed.

Lemma dget_dset : forall {V} (d : list (nat * V)) k v k',
  dget (dset d k v) k' = if Nat.eqb k' k then Some v else dget d k'.
Proof.
  induction d as [|[k0 v0] d IH]; intros; cbn.
  - reflexivity.
  - destruct (Nat.eqb k k0) eqn:E.
    + apply Nat.eqb_eq in E as ->. cbn. destruct (Nat.eqb k' k0) eqn:E'; reflexivity.
    + cbn. rewrite IH. destruct (Nat.eqb k' k0) eqn:E'; [|reflexivity].
      apply Nat.eqb_eq in E' as ->. rewrite Nat.eqb_sym, E. reflexivity.
Qed.

Section W.
Context {N : NumOps}.
Variables (f : pyfun N) (dargs : iterator (pyder N)) (dkw : list (nat * option (pyder N)))
  (params : option (list nat)).

Lemma kwargs_table_get : forall dkw t k,
  NoDup (map fst dkw) -> (forall k, In k (map fst dkw) -> dget t k = None) ->
  dget (kwargs_table f dkw t) k =
  match dget dkw k with
  | Some d => Some (match d with Some d => d | None => partial_derivative f (AName k) end)
  | None => dget t k
  end.
Proof.
  induction dkw0 as [|[k0 d0] l IH]; intros t k ND H; cbn; auto.
  inversion ND as [|? ? Hn ND']; subst. rewrite IH; auto.
  - rewrite dget_dset. destruct (Nat.eqb k k0) eqn:E.
    + apply Nat.eqb_eq in E as ->. destruct (dget l k0) eqn:D; [|destruct d0; reflexivity].
      exfalso. apply Hn. clear - D. induction l as [|[k1 d1] l IH]; cbn in *; [discriminate|].
      destruct (Nat.eqb k0 k1) eqn:E; [apply Nat.eqb_eq in E; auto|auto].
    + reflexivity.
  - intros k1 Hk1. rewrite dget_dset. destruct (Nat.eqb k1 k0) eqn:E.
    + apply Nat.eqb_eq in E as ->. contradiction.
    + apply H. right. auto.
Qed.

Let it0 := chain_none dargs.
Lemma it0_val : forall n, it0 n = Some (element dargs n).
Proof. intros; apply element_chain. Qed.
Let none := fun _ : nat => @None (pyder N).
Lemma val0 : forall n, ii_val it0 none n = element dargs n.
Proof. intros. unfold ii_val. rewrite it0_val. destruct (element dargs n); reflexivity. Qed.

Lemma params_table_ok : forall ps i x t, ii_ok it0 none x -> NoDup ps ->
  exists t' x', params_table f i ps x t = (Ok t', x') /\ ii_ok it0 none x' /\
  forall k, dget t' k =
    match position k ps with
    | Some j => Some (match element dargs (i + j) with
                      | Some d => d | None => partial_derivative f (AName k) end)
    | None => dget t k
    end.
Proof.
  induction ps as [|p ps IH]; intros i x t H ND; cbn [params_table].
  - exists t, x. cbn. auto.
  - destruct (ii_get_nat it0 none x i H) as (G & _); [intros; rewrite it0_val; discriminate|].
    destruct (ii_get_ok it0 none x (Z.of_nat i) H) as (K & _).
    destruct (ii_get x (Z.of_nat i)) as [r x1]. cbn in G, K. subst r. rewrite val0.
    inversion ND as [|? ? Hn ND']; subst.
    destruct (IH (S i) x1 (dset t p (match element dargs i with Some d => d
      | None => partial_derivative f (AName p) end)) K ND') as (t' & x' & E & K' & T).
    exists t', x'. split; [exact E|]. split; [exact K'|]. intros k. rewrite T. cbn [position].
    destruct (Nat.eqb k p) eqn:Ek.
    + apply Nat.eqb_eq in Ek as ->. rewrite Nat.add_0_r.
      destruct (position p ps) as [j|] eqn:P.
      * exfalso. apply Hn. clear - P. revert j P. induction ps as [|q ps IH]; cbn; intros; [discriminate|].
        destruct (Nat.eqb p q) eqn:E; [apply Nat.eqb_eq in E; auto|].
        destruct (position p ps); [right; eapply IH; eauto|discriminate].
      * rewrite dget_dset, Nat.eqb_refl. reflexivity.
    + destruct (position k ps) as [j|]; cbn [option_map].
      * replace (i + S j)%nat with (S i + j)%nat by lia. reflexivity.
      * rewrite dget_dset, Ek. reflexivity.
Qed.

Let conv := fun i => partial_derivative f (APos i).
Lemma convert_none_nth : forall l i n,
  nth_error (convert_none conv i l) n =
  option_map (fun d => Some (match d with Some d => d | None => conv (i + n) end)) (nth_error l n).
Proof.
  induction l as [|d l IH]; intros i [|n]; cbn; auto.
  - rewrite Nat.add_0_r. reflexivity.
  - rewrite IH. replace (S i + n)%nat with (i + S n)%nat by lia. reflexivity.
Qed.
Lemma convert_none_len : forall l i, length (convert_none conv i l) = length l.
Proof. induction l; intros; cbn; auto. Qed.

Let sconv := fun i => Some (conv i).
Lemma val1 : forall n, ii_val it0 sconv n = Some (documented_pos f dargs n).
Proof.
  intros. unfold ii_val, documented_pos. rewrite it0_val. destruct (element dargs n); reflexivity.
Qed.

(** Invariant of the captured variables. *)
Definition w_ok (w : wrapped N) : Prop :=
  w_fun w = f /\ ii_ok it0 sconv (w_args w) /\
  forall k, match dget (w_kwargs w) k with
            | Some d => d = documented_kw f dargs dkw params k
            | None => documented_kw f dargs dkw params k = partial_derivative f (AName k)
            end.

Definition params_nodup := match params with Some ps => NoDup ps | None => True end.

Lemma wrap_ok : NoDup (map fst dkw) -> params_nodup ->
  exists w, wrap f dargs dkw params = Ok w /\ w_ok w.
Proof.
  intros ND NP. unfold wrap. fold it0. fold none.
  assert (T : exists t x, match params with None => (Ok (kwargs_table f dkw []), ii_new it0 none)
      | Some ps => params_table f 0 ps (ii_new it0 none) (kwargs_table f dkw []) end = (Ok t, x) /\
      ii_ok it0 none x /\ forall k, dget t k =
        match match params with Some ps => position k ps | None => None end with
        | Some j => Some (match element dargs j with
                      | Some d => d | None => partial_derivative f (AName k) end)
        | None => dget (kwargs_table f dkw []) k
        end).
  { unfold params_nodup in NP. destruct params as [ps|].
    - apply params_table_ok; auto. apply ii_new_ok.
    - eexists _, _. split; [reflexivity|]. split; [apply ii_new_ok|reflexivity]. }
  destruct T as (t & x & E & K & T). rewrite E. eexists. split; [reflexivity|].
  destruct K as (I & C & P). split; [reflexivity|]. cbn [w_args w_fun w_kwargs]. split.
  - split; [exact I|]. split; [reflexivity|]. cbn [ii_elems]. fold conv.
    intros n Hn. rewrite convert_none_len in Hn. rewrite convert_none_nth.
    destruct (P _ Hn) as (Q & Q'). rewrite Q. cbn [option_map Nat.add]. rewrite val0, val1. auto.
  - intros k. rewrite T. unfold documented_kw.
    destruct (match params with Some ps => position k ps | None => None end); [reflexivity|].
    rewrite kwargs_table_get by (cbn; auto). destruct (dget dkw k) as [[d|]|]; reflexivity.
Qed.

Lemma pos_terms_w_ok : forall rest x i av kv, ii_ok it0 sconv x ->
  fst (pos_terms_w x i rest av kv) = pos_terms (documented_pos f dargs) i rest av kv /\
  ii_ok it0 sconv (snd (pos_terms_w x i rest av kv)).
Proof.
  induction rest as [|a rest IH]; intros x i av kv H; cbn [pos_terms_w pos_terms]; auto.
  destruct a as [a|u]; auto.
  destruct (ii_get_nat it0 sconv x i H) as (G & _); [intros; rewrite it0_val; discriminate|].
  destruct (ii_get_ok it0 sconv x (Z.of_nat i) H) as (K & _).
  destruct (ii_get x (Z.of_nat i)) as [r x1]. cbn in G, K. subst r. rewrite val1.
  destruct (documented_pos f dargs i av kv) as [c|e]; cbn; auto.
  destruct (IH x1 (S i) av kv K) as (I1 & I2).
  destruct (pos_terms_w x1 (S i) rest av kv) as [[t|e] x2]; cbn in I1, I2 |- *;
    rewrite <- I1; auto.
Qed.
Lemma kw_terms_w_ok : forall rest t av kv,
  (forall k, match dget t k with
            | Some d => d = documented_kw f dargs dkw params k
            | None => documented_kw f dargs dkw params k = partial_derivative f (AName k)
            end) ->
  fst (kw_terms_w f t rest av kv) = kw_terms (documented_kw f dargs dkw params) rest av kv /\
  forall k, match dget (snd (kw_terms_w f t rest av kv)) k with
            | Some d => d = documented_kw f dargs dkw params k
            | None => documented_kw f dargs dkw params k = partial_derivative f (AName k)
            end.
Proof.
  induction rest as [|[k a] rest IH]; intros t av kv H; cbn [kw_terms_w kw_terms]; auto.
  destruct a as [a|u]; auto.
  set (d := match dget t k with Some d => d | None => _ end).
  set (t' := match dget t k with Some _ => t | None => _ end).
  assert (Ed : d = documented_kw f dargs dkw params k).
  { unfold d. specialize (H k). destruct (dget t k); auto. }
  assert (Et : forall k, match dget t' k with
            | Some d => d = documented_kw f dargs dkw params k
            | None => documented_kw f dargs dkw params k = partial_derivative f (AName k)
            end).
  { intros k1. unfold t'. destruct (dget t k) eqn:G; [apply H|].
    rewrite dget_dset. destruct (Nat.eqb k1 k) eqn:E; [|apply H].
    apply Nat.eqb_eq in E as ->. exact Ed. }
  rewrite Ed. destruct (documented_kw f dargs dkw params k av kv) as [c|e]; cbn; auto.
  destruct (IH t' av kv Et) as (I1 & I2).
  destruct (kw_terms_w f t' rest av kv) as [[l|e] t2]; cbn in I1, I2 |- *; rewrite <- I1; auto.
Qed.

Lemma wcall_w_ok : forall w args kw h, w_ok w ->
  fst (wcall_w w args kw h) =
    wcall f (documented_pos f dargs) (documented_kw f dargs dkw params) args kw h /\
  w_ok (snd (wcall_w w args kw h)).
Proof.
  intros w args kw h (F & I & T). unfold wcall_w, wcall. rewrite F.
  destruct (negb _); [cbn; repeat split; auto; apply I; auto|].
  destruct (f _ _) as [r|e]; [|cbn; repeat split; auto; apply I; auto].
  assert (G : w_ok w) by (split; auto).
  destruct r; try (cbn; split; [reflexivity|exact G]).
  - destruct (pos_terms_w_ok args (w_args w) 0 (map nominal_value args) (kw_map nominal_value kw) I) as (P1 & P2).
    destruct (kw_terms_w_ok kw (w_kwargs w) (map nominal_value args) (kw_map nominal_value kw) T) as (K1 & K2).
    destruct (pos_terms_w _ _ _ _ _) as [[tp|e] x]; cbn [fst snd] in P1, P2; rewrite <- P1; cbn [rbind];
      [|split; [reflexivity|split; cbn; auto]].
    destruct (kw_terms_w _ _ _ _ _) as [[tk|e] t]; cbn [fst snd] in K1, K2; rewrite <- K1; cbn [rbind];
      [|split; [reflexivity|split; cbn; auto]].
    split; [reflexivity|split; cbn; auto].
  - destruct (pos_terms_w_ok args (w_args w) 0 (map nominal_value args) (kw_map nominal_value kw) I) as (P1 & P2).
    destruct (kw_terms_w_ok kw (w_kwargs w) (map nominal_value args) (kw_map nominal_value kw) T) as (K1 & K2).
    destruct (pos_terms_w _ _ _ _ _) as [[tp|e] x]; cbn [fst snd] in P1, P2; rewrite <- P1; cbn [rbind];
      [|split; [reflexivity|split; cbn; auto]].
    destruct (kw_terms_w _ _ _ _ _) as [[tk|e] t]; cbn [fst snd] in K1, K2; rewrite <- K1; cbn [rbind];
      [|split; [reflexivity|split; cbn; auto]].
    split; [reflexivity|split; cbn; auto].
Qed.

Lemma wcalls_ok : forall cs w, w_ok w -> w_ok (wcalls w cs).
Proof.
  induction cs as [|[[args kw] h] cs IH]; intros w H; cbn; auto.
  apply IH. apply wcall_w_ok. exact H.
Qed.

(** C26 *)
Theorem wrapped_calls_s : NoDup (map fst dkw) ->
  match params with Some ps => NoDup ps | None => True end ->
  exists w, wrap f dargs dkw params = Ok w /\
  forall calls args kw h,
    fst (wcall_w (wcalls w calls) args kw h) =
    wcall f (documented_pos f dargs) (documented_kw f dargs dkw params) args kw h.
Proof.
  intros ND NP. destruct (wrap_ok ND NP) as (w & E & W). exists w. split; [exact E|].
  intros. apply wcall_w_ok, wcalls_ok, W.
Qed.
End W.

Theorem wrapped_calls : forall (N : NumOps) (f : pyfun N) dargs dkw params,
  NoDup (map fst dkw) -> match params with Some ps => NoDup ps | None => True end ->
  exists w, wrap f dargs dkw params = Ok w /\
  forall calls args kw h,
    fst (wcall_w (wcalls w calls) args kw h) =
    wcall f (documented_pos f dargs) (documented_kw f dargs dkw params) args kw h.
Proof. intros. apply wrapped_calls_s; auto. Qed.

(** getargspec() of a bound method includes self: a keyword argument then gets the derivative
    of the next parameter. *)
Theorem bound_method : forall (N : NumOps) (f : pyfun N) d0 d1 (self a b : nat) w,
  self <> a -> self <> b -> a <> b ->
  wrap f (iter_list [Some d0; Some d1]) [] (Some [self; a; b]) = Ok w ->
  forall calls x y h,
  fst (wcall_w (wcalls w calls) [] [(a, VUF x); (b, VPlain y)] h) =
  wcall f (fun _ => d1) (fun _ => d1) [] [(a, VUF x); (b, VPlain y)] h.
Proof.
  intros N f d0 d1 self a b w H1 H2 H3 W calls x y h.
  assert (ND : NoDup [self; a; b]).
  { repeat constructor; cbn; intuition congruence. }
  destruct (wrapped_calls N f (iter_list [Some d0; Some d1]) [] (Some [self; a; b]) (NoDup_nil _) ND)
    as (w' & W' & C).
  rewrite W' in W. injection W; intros ->. rewrite C. unfold wcall.
  cbn [existsb is_uf orb negb snd pos_terms kw_terms kw_map map fst].
  assert (K : documented_kw f (iter_list [Some d0; Some d1]) [] (Some [self; a; b]) a = d1).
  { unfold documented_kw. cbn [position]. rewrite Nat.eqb_refl.
    destruct (Nat.eqb a self) eqn:E; [apply Nat.eqb_eq in E; congruence|]. reflexivity. }
  rewrite K. reflexivity.
Qed.

Theorem negative_index : forall (A : Type) (it : iterator A) conv v0 v1,
  it 0%nat = Some (Some v0) -> it 1%nat = Some (Some v1) ->
  fst (ii_get (ii_new it conv) (-1)) = Err EIndex /\
  fst (ii_get (ii_accesses (ii_new it conv) [0%Z]) (-1)) = Ok (Some v0) /\
  fst (ii_get (ii_accesses (ii_new it conv) [1%Z]) (-1)) = Ok (Some v1).
Proof.
  intros A it conv v0 v1 H0 H1. unfold ii_get at 1. cbn. split; [reflexivity|].
  unfold ii_get. cbn. change (Pos.to_nat 1) with 1%nat. change (Pos.to_nat 2) with 2%nat.
  cbn. rewrite H0. cbn. rewrite ?H1. cbn. auto.
Qed.

Theorem ex_C26 : forall (N : NumOps) (f : pyfun N) d0 d2 d9,
  let ds := iter_list [Some d0; None; Some d2] in
  let dk := [(9%nat, Some d9); (8%nat, None); (7%nat, Some d9)] in
  let ps := Some [5%nat; 6%nat; 7%nat] in
  NoDup (map fst dk) /\ NoDup [5%nat; 6%nat; 7%nat] /\
  documented_pos f ds 0 = d0 /\ documented_pos f ds 1 = partial_derivative f (APos 1) /\
  documented_pos f ds 2 = d2 /\ documented_pos f ds 3 = partial_derivative f (APos 3) /\
  documented_pos f (fun _ => Some (Some d0)) 3 = d0 /\
  documented_kw f ds dk ps 5 = d0 /\ documented_kw f ds dk ps 6 = partial_derivative f (AName 6) /\
  documented_kw f ds dk ps 7 = d2 /\ documented_kw f ds dk ps 8 = partial_derivative f (AName 8) /\
  documented_kw f ds dk ps 9 = d9 /\ documented_kw f ds dk ps 4 = partial_derivative f (AName 4) /\
  documented_kw f ds dk None 7 = d9.
Proof.
  intros. repeat split; repeat constructor; cbn; intuition congruence.
Qed.

Theorem ex_C28 :
  let it : iterator nat := fun n => if Nat.even n then Some None else Some (Some (n * n)%nat) in
  let x := ii_accesses (ii_new it (fun n => Some (100 + n)%nat)) [5%Z; 0%Z; (-1)%Z; 3%Z] in
  fst (ii_get x 3%Z) = Ok (Some 9%nat) /\ fst (ii_get x 4%Z) = Ok (Some 104%nat) /\
  fst (ii_get x 7%Z) = Ok (Some 49%nat) /\
  fst (ii_get (ii_new (iter_list [Some 1%nat]) (fun n => None)) 1%Z) = Err EStop.
Proof. cbn. auto. Qed.

Theorem ex_C58 : forall (N : NumOps) (f : pyfun N) d0 d1, exists w,
  wrap f (iter_list [Some d0; Some d1]) [] (Some [5%nat; 6%nat; 7%nat]) = Ok w /\
  5%nat <> 6%nat /\ 5%nat <> 7%nat /\ 6%nat <> 7%nat.
Proof.
  intros N f d0 d1.
  destruct (wrapped_calls N f (iter_list [Some d0; Some d1]) [] (Some [5%nat; 6%nat; 7%nat]) (NoDup_nil _))
    as (w & W & _).
  { repeat constructor; cbn; intuition congruence. }
  exists w. split; [exact W|]. repeat split; discriminate.
Qed.
