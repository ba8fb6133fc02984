(** Uncertainties in any arithmetic. *)
From Coq Require Import ZArith List Bool Arith Lia.
From Verif Require Import Base Heap HeapSpec Affine Ops UMath HeapProofs Machine Cov Calls Unumpy UMatrix History Fuel Ordered DepSpec Deps AnySpec.
Import ListNotations.

Section Any.
Context {N : NumOps}.

(** ** What a read of derivatives does *)
Lemma loop_vars : forall fuel l acc (h : heap N) r h', expand_loop fuel l acc h = (r, h') -> h_var h' = h_var h.
Proof.
  induction fuel as [|f IH]; intros l acc h r h' H; [now injection H as _ <-|]. cbn [expand_loop] in H.
  destruct (get_lc h l) as [[|]|[|[c l'|c|l'] rest]]; try (injection H as _ <-; reflexivity). cbv zeta in H.
  destruct (get_lc (set_lc h l (LList rest)) l') as [d|its].
  - destruct (acc_dict c d acc); [now apply IH in H|now injection H as _ <-].
  - destruct (push_items c (rev its) rest) as [s [e|]]; [now injection H as _ <-|now apply IH in H].
Qed.
Lemma deriv_done : forall k u (h : heap N) d h', derivatives k u h = (Ok d, h') ->
  h_var h' = h_var h /\ (forall n, (k <= n)%nat -> derivatives n u h = (Ok d, h')) /\ forall n, derivatives n u h' = (Ok d, h').
Proof.
  intros k u h d h' E. split; [|split].
  - unfold derivatives, lc_derivatives in E. destruct (get_lc h (uf_lp u)) as [d0|its]; [now injection E as _ <-|].
    destruct (expand_loop k (uf_lp u) [] h) as [[[]|e] h1] eqn:X; [|discriminate E]. destruct (get_lc h1 (uf_lp u)); [|discriminate E].
    injection E as _ <-. exact (loop_vars _ _ _ _ _ _ X).
  - intros n Hn. replace n with (k + (n - k))%nat by lia. rewrite (fm_derivatives u k (n - k)%nat h); [exact E|rewrite E; discriminate].
  - intros n. unfold derivatives, lc_derivatives in *. destruct (get_lc h (uf_lp u)) as [d0|its] eqn:G; [injection E as <- <-; now rewrite G|].
    destruct (expand_loop k (uf_lp u) [] h) as [[[]|e] h1]; [|discriminate E]. destruct (get_lc h1 (uf_lp u)) as [d1|] eqn:G1; [|discriminate E].
    injection E as <- <-. now rewrite G1.
Qed.
Lemma read_deriv : forall (st : state N) i u d, is_number st i u -> reads st (IDeriv i) (ODict d) ->
  exists k h', derivatives k u (st_heap st) = (Ok d, h').
Proof.
  intros st i u d U (st' & k & D). specialize (D k (le_n k)). unfold is_number in U. cbn [step] in D. unfold with_uf, with_val in D. rewrite U in D.
  exists k. unfold observe in D. destruct (derivatives k u (st_heap st)) as [[d'|e] h']; [|discriminate D]. injection D as _ <-. eauto.
Qed.

(** ** Components and standard deviations *)
Lemma components_spec : forall (h : heap N) env d e, components h d = Ok e ->
  e = map (fun p => (fst p, component (sd (mkState h env) (fst p)) (snd p))) d.
Proof.
  intros h env. induction d as [|[v x] d IH]; intros e H; cbn [components] in H; [now injection H as <-|]. unfold sd in *. cbn [st_heap map fst snd] in *.
  destruct (get_var h v) as [o|]; [|discriminate H]. cbv zeta in H. destruct (components h d) as [r|]; [|discriminate H]. injection H as <-.
  rewrite (IH r eq_refl). reflexivity.
Qed.
Theorem components_any : forall (st : state N) i u d e, is_number st i u -> reads st (IDeriv i) (ODict d) -> reads st (IErrs i) (OErrs e) ->
  e = map (fun p => (fst p, component (sd st (fst p)) (snd p))) d.
Proof.
  intros st i u d e U D (st' & k & E). destruct (read_deriv _ _ _ _ U D) as (j & h' & Dj). destruct (deriv_done _ _ _ _ _ Dj) as (V & F & _).
  specialize (E (k + j)%nat ltac:(lia)). unfold is_number in U. cbn [step] in E. unfold with_uf, with_val in E. rewrite U in E.
  unfold observe, error_components, bind in E. rewrite (F (k + j)%nat ltac:(lia)) in E.
  destruct (components h' d) as [e'|] eqn:C; [|discriminate E]. injection E as _ <-. rewrite (components_spec h' (st_env st) d e' C).
  apply map_ext. intros p. unfold sd, get_var. cbn [st_heap]. now rewrite V.
Qed.
Lemma sum_fold : forall l acc, fold_left (fun acc c => rbind acc (fun a => rbind (pn_square (N:=N) c) (pn_add a))) l acc = rbind acc (fun a => sum_squares a l).
Proof.
  induction l as [|c l IH]; intros [a|e]; cbn [fold_left sum_squares rbind]; auto.
  - rewrite IH. destruct (pn_square c) as [s|]; [reflexivity|reflexivity].
  - rewrite IH. reflexivity.
Qed.
Lemma affine_any : forall u (h : heap N) k e h', error_components k u h = (Ok e, h') -> std_dev_affine k u h = (root_of_squares (map snd e), h').
Proof.
  intros u h k e h' E. unfold std_dev_affine, bind. rewrite E. unfold root_of_squares. rewrite sum_fold. reflexivity.
Qed.
Theorem std_any : forall (st : state N) i u e ins, is_number st i u -> reads st (IErrs i) (OErrs e) ->
  ins = IStdS i \/ (ins = IStd i /\ uf_var u = None) -> reads st ins (as_number (root_of_squares (map snd e))).
Proof.
  intros st i u e ins U (st' & k & E) H. unfold is_number in U. exists st', k. intros n Hn. specialize (E n Hn). cbn [step] in E. unfold with_uf, with_val in E. rewrite U in E.
  unfold observe in E. destruct (error_components n u (st_heap st)) as [[e'|x] h'] eqn:C; [|discriminate E]. injection E as <- <-.
  apply affine_any in C. destruct H as [->|(-> & V)]; cbn [step]; unfold with_uf, with_val, observe; rewrite U; unfold std_dev_s, std_dev; rewrite ?V, C;
    destruct (root_of_squares (map snd e')); reflexivity.
Qed.

(** ** Reads of a number do not change what is read of it *)
Lemma about_step : forall (st : state N) i u k d h' ins n, is_number st i u -> derivatives k u (st_heap st) = (Ok d, h') -> about i ins -> (k <= n)%nat ->
  (fst (step n st ins) = mkState h' (st_env st) \/ fst (step n st ins) = st) /\ snd (step n st ins) = snd (step n (mkState h' (st_env st)) ins).
Proof.
  intros st i u k d h' ins n U Dk A Hn. destruct (deriv_done _ _ _ _ _ Dk) as (V & F & G). specialize (F n Hn). specialize (G n). unfold is_number in U.
  assert (U' : nth_error (st_env (mkState h' (st_env st))) i = Some (VUF u)) by exact U.
  assert (X : forall w, get_var h' w = get_var (st_heap st) w) by (intros w; unfold get_var; now rewrite V).
  destruct A as [->|[->|[->|[->|(p & ->)]]]]; cbn [step]; unfold with_uf, with_val, observe; cbn [st_env st_heap] in *; rewrite ?U, ?U'.
  - rewrite F, G. cbn. auto.
  - unfold error_components, bind. rewrite F, G. destruct (components h' d); cbn; auto.
  - unfold std_dev. destruct (uf_var u) as [w|].
    + rewrite X. destruct (get_var (st_heap st) w); cbn; destruct st; auto.
    + unfold std_dev_affine, error_components, bind. rewrite F, G. destruct (components h' d) as [e|]; [destruct (rbind _ _)|]; cbn; auto.
  - unfold std_dev_s, std_dev_affine, error_components, bind. rewrite F, G. destruct (components h' d) as [e|]; [destruct (rbind _ _)|]; cbn; auto.
  - unfold std_score, bind, std_dev. destruct (uf_var u) as [w|].
    + rewrite X. destruct (get_var (st_heap st) w); cbn; destruct st; cbn; auto.
      match goal with |- context [match ?r with Ok _ => _ | Err _ => _ end] => destruct r as [|[]]; cbn; auto end.
    + unfold std_dev_affine, error_components, bind. rewrite F, G. destruct (components h' d) as [e|]; [|cbn; auto].
      destruct (rbind _ _); cbn; auto. match goal with |- context [match ?r with Ok _ => _ | Err _ => _ end] => destruct r as [|[]]; cbn; auto end.
Qed.
Lemma about_stable : forall (st : state N) i u k d h' ins n, is_number st i u -> derivatives k u (st_heap st) = (Ok d, h') -> about i ins -> (k <= n)%nat ->
  step n st ins = step k st ins.
Proof.
  intros st i u k d h' ins n U Dk A Hn. destruct (deriv_done _ _ _ _ _ Dk) as (_ & F & _). specialize (F n Hn). unfold is_number in U.
  destruct A as [->|[->|[->|[->|(p & ->)]]]]; cbn [step]; unfold with_uf, with_val, observe; rewrite U; unfold std_score, std_dev_s, std_dev, bind;
    try (destruct (uf_var u); [reflexivity|]); unfold std_dev_affine, error_components, bind; rewrite ?F, ?Dk; reflexivity.
Qed.
Theorem same_number : forall (st : state N) i u d ins st' o, is_number st i u -> reads st (IDeriv i) (ODict d) -> about i ins -> does st ins st' o ->
  is_number st' i u /\ forall ins' o', about i ins' -> (reads st ins' o' <-> reads st' ins' o').
Proof.
  intros st i u d ins st' o U D A (k & S). destruct (read_deriv _ _ _ _ U D) as (j & h' & Dj).
  destruct (about_step st i u j d h' ins (k + j)%nat U Dj A ltac:(lia)) as (P & _). rewrite (S (k + j)%nat ltac:(lia)) in P. cbn [fst] in P.
  assert (B : forall ins' o', about i ins' -> (reads st ins' o' <-> reads (mkState h' (st_env st)) ins' o')).
  { intros ins' o' A'. destruct (deriv_done _ _ _ _ _ Dj) as (_ & _ & G). split; intros (s & m & R).
    - destruct (about_step st i u j d h' ins' (m + j)%nat U Dj A' ltac:(lia)) as (_ & Q). rewrite (R (m + j)%nat ltac:(lia)) in Q. cbn [snd] in Q.
      exists (fst (step (m + j) (mkState h' (st_env st)) ins')), (m + j)%nat. intros n Hn.
      destruct (about_step (mkState h' (st_env st)) i u 0%nat d h' ins' n U (G 0%nat) A' ltac:(lia)) as (P1 & _).
      destruct (about_step (mkState h' (st_env st)) i u 0%nat d h' ins' (m + j)%nat U (G 0%nat) A' ltac:(lia)) as (P2 & _).
      destruct (about_step st i u j d h' ins' n U Dj A' ltac:(lia)) as (_ & Q'). rewrite (R n ltac:(lia)) in Q'. cbn [snd] in Q'.
      rewrite (surjective_pairing (step n _ ins')). rewrite <- Q'. f_equal. destruct P1 as [->| ->], P2 as [->| ->]; reflexivity.
    - assert (Q : forall n, (m + j <= n)%nat -> snd (step n st ins') = o').
      { intros n Hn. destruct (about_step st i u j d h' ins' n U Dj A' ltac:(lia)) as (_ & Q). rewrite Q, (R n ltac:(lia)). reflexivity. }
      assert (E : forall n, (m + j <= n)%nat -> step n st ins' = step (m + j) st ins').
      { intros n Hn. rewrite (about_stable st i u j d h' ins' n U Dj A' ltac:(lia)). symmetry. apply (about_stable st i u j d h' ins' (m + j)%nat U Dj A'). lia. }
      exists (fst (step (m + j) st ins')), (m + j)%nat. intros n Hn. rewrite (E n Hn), (surjective_pairing (step (m + j) st ins')). f_equal. apply Q. lia. }
  destruct P as [->| ->]; split; auto. intros; reflexivity.
Qed.

(** ** The setter *)
Theorem set_any : forall (st : state N) j w v s st', is_number st j w -> uf_var w = Some v -> does st (ISet j s) st' ONone ->
  st_env st' = st_env st /\ check_std s = Ok (sd st' v) /\ (forall x, x <> v -> sd st' x = sd st x) /\
  forall i o, reads st (IDeriv i) o <-> reads st' (IDeriv i) o.
Proof.
  intros st j w v s st' W V (k & D). specialize (D k (le_n k)). unfold is_number in W. cbn [step] in D. unfold with_uf, with_val in D. rewrite W, V in D.
  unfold observe, set_std in D. destruct (check_std s) as [x|] eqn:C; [|discriminate D]. destruct (get_var (st_heap st) v) as [ob|] eqn:G; [|discriminate D].
  injection D as <-. split; [reflexivity|]. assert (B : (v < length (h_var (st_heap st)))%nat) by (apply nth_error_Some; unfold get_var in G; rewrite G; discriminate).
  split; [|split].
  - unfold sd, get_var. cbn [st_heap h_var]. rewrite nth_error_list_set_eq by exact B. reflexivity.
  - intros y Hy. unfold sd, get_var. cbn [st_heap h_var]. rewrite nth_error_list_set_neq by auto. reflexivity.
  - assert (Dv : forall i o (st1 : state N) objs, reads st1 (IDeriv i) o -> reads (mkState (with_objs (st_heap st1) objs) (st_env st1)) (IDeriv i) o).
    { intros i o st1 objs (s2 & m & R). exists (mkState (with_objs (st_heap s2) objs) (st_env s2)), m. intros n Hn. specialize (R n Hn).
      cbn [step] in *. unfold with_uf, with_val in *. cbn [st_env st_heap] in *. destruct (nth_error (st_env st1) i) as [[?|u]|]; try (injection R as <- <-; reflexivity).
      unfold derivatives in *. rewrite deriv_objs. destruct (lc_derivatives n (uf_lp u) (st_heap st1)) as [[d|e] h']; injection R as <- <-; reflexivity. }
    intros i o. split; intros R.
    + exact (Dv i o st _ R).
    + apply (Dv i o _ (h_var (st_heap st))) in R. destruct st as [[lcs vars] env]. exact R.
Qed.

(** ** Covariance matrices *)
Lemma row_len : forall order fuel d1 l (h : heap N) r h', cov_row order fuel d1 l h = (Ok r, h') -> length r = length l.
Proof.
  intros order fuel d1. induction l as [|w l IH]; intros h r h' H; cbn [cov_row] in H; [now injection H as <- _|].
  apply bind_ok in H as (d2 & h1 & _ & H). apply bind_ok in H as (c & h2 & _ & H). apply bind_ok in H as (r' & h3 & H & E). injection E as <- _.
  cbn [length]. f_equal. eauto.
Qed.
Lemma rows_len : forall order fuel l rest i (h : heap N) m h', cov_rows order fuel l i rest h = (Ok m, h') ->
  length m = length rest /\ forall a, (a < length rest)%nat -> length (nth a m []) = length (firstn (S (i + a)) l).
Proof.
  intros order fuel l. induction rest as [|w rest IH]; intros i h m h' H; cbn [cov_rows] in H; [injection H as <- _; split; [reflexivity|intros a Ha; inversion Ha]|].
  apply bind_ok in H as (d1 & h1 & _ & H). apply bind_ok in H as (r & h2 & Hr & H). apply bind_ok in H as (m' & h3 & H & E). injection E as <- _.
  destruct (IH _ _ _ _ H) as (A & B). split; [cbn; now f_equal|]. intros [|a] Ha.
  - rewrite Nat.add_0_r. exact (row_len _ _ _ _ _ _ _ Hr).
  - cbn [nth]. rewrite (B a) by (cbn in Ha; lia). do 2 f_equal. lia.
Qed.
Lemma sym_len : forall m : matrix N, (forall a, (a < length m)%nat -> length (nth a m []) = S a) -> square (length m) (symmetrize m).
Proof.
  intros m H. unfold square, symmetrize. rewrite map_length, seq_length. split; [reflexivity|]. apply Forall_forall. intros r Hr. apply in_map_iff in Hr as (i & <- & Hi).
  apply in_seq in Hi. rewrite app_length, map_length, seq_length, H by lia. lia.
Qed.
Theorem symmetric_any : forall order (st : state N) is m st', covariance order st is (Ok m) st' ->
  square (length is) m /\ forall a b, entry m a b = entry m b a.
Proof.
  intros order st is m st' (l & k & G & _ & H). specialize (H k (le_n k)). unfold covariance_matrix in H. apply bind_ok in H as (m0 & h1 & H & E).
  injection E as <- _. destruct (rows_len _ _ _ _ _ _ _ _ H) as (A & B).
  assert (Ln : length l = length is). { clear - G. revert l G. induction is as [|i is IH]; intros l G; cbn in G; [now injection G as <-|].
    destruct (nth_error (st_env st) i); [|discriminate G]. destruct (get_args (st_env st) is); [|discriminate G]. injection G as <-. cbn. f_equal. auto. }
  assert (B' : forall a, (a < length m0)%nat -> length (nth a m0 []) = S a).
  { intros a Ha. rewrite A in Ha. rewrite (B a Ha). rewrite firstn_length. cbn [Nat.add]. lia. }
  assert (S := sym_len m0 B'). split; [now rewrite <- Ln, <- A|].
  intros a b. destruct (Nat.lt_ge_cases a (length m0)) as [Ha|Ha]; destruct (Nat.lt_ge_cases b (length m0)) as [Hb|Hb].
  - rewrite !sym_entry by auto. destruct (Nat.leb_spec b a), (Nat.leb_spec a b); try reflexivity; try lia. replace b with a by lia. reflexivity.
  - unfold entry. destruct S as (S1 & S2). rewrite (nth_overflow (symmetrize m0)) with (n := b) by lia.
    rewrite nth_overflow; [destruct a; reflexivity|]. rewrite Forall_forall in S2. rewrite (S2 (nth a (symmetrize m0) [])); [lia|]. apply nth_In. lia.
  - unfold entry. destruct S as (S1 & S2). rewrite (nth_overflow (symmetrize m0)) with (n := a) by lia.
    rewrite (nth_overflow (nth b _ _)); [destruct b; reflexivity|]. rewrite Forall_forall in S2. rewrite (S2 (nth b (symmetrize m0) [])); [lia|]. apply nth_In. lia.
  - unfold entry. rewrite !(nth_overflow (symmetrize m0)) by (destruct S; lia). destruct a, b; reflexivity.
Qed.

(** ** Elements of covariance matrices *)
Definition kept (h h' : heap N) : Prop := h_var h' = h_var h /\ forall l d, get_lc h l = LDict d -> get_lc h' l = LDict d.
Lemma kept_refl : forall h, kept h h. Proof. intros h. split; auto. Qed.
Lemma kept_trans : forall h1 h2 h3, kept h1 h2 -> kept h2 h3 -> kept h1 h3.
Proof. intros h1 h2 h3 [A B] [C D]. split; [congruence|auto]. Qed.
Lemma elem_kept : forall fuel w (h : heap N) d h', elem_derivatives fuel w h = (Ok d, h') ->
  kept h h' /\ exists u, w = VUF u /\ get_lc h' (uf_lp u) = LDict d.
Proof.
  intros fuel [x|u] h d h' H; [discriminate H|]. cbn [elem_derivatives] in H. assert (X := deriv_done _ _ _ _ _ H). destruct X as (V & _ & _).
  unfold derivatives, lc_derivatives in H. destruct (get_lc h (uf_lp u)) as [d0|its] eqn:G; [injection H as -> <-; split; [apply kept_refl|eauto]|].
  destruct (expand_loop fuel (uf_lp u) [] h) as [[[]|e] h1] eqn:X; [|discriminate H]. destruct (get_lc h1 (uf_lp u)) as [d1|] eqn:G1; [|discriminate H].
  injection H as -> <-. split; [|eauto]. split; [exact V|]. intros l0 d0 G0. destruct (Nat.eq_dec l0 (uf_lp u)) as [->|Hn]; [congruence|].
  destruct (loop_others _ _ _ _ _ _ X) as (_ & _ & O). rewrite O by auto. exact G0.
Qed.
Lemma sum_kept : forall (h h' : heap N) d1 d2 vs acc, h_var h' = h_var h -> cov_sum h' d1 d2 vs acc = cov_sum h d1 d2 vs acc.
Proof.
  intros h h' d1 d2 vs. induction vs as [|v vs IH]; intros acc V; cbn [cov_sum]; [reflexivity|]. unfold get_var. rewrite V.
  destruct (dget d1 v), (dget d2 v), (nth_error (h_var h) v); auto. destruct (n_powf _ _); cbn; auto.
Qed.
Definition good_entry order (h : heap N) d1 (w : value N) x : Prop :=
  exists u d2, w = VUF u /\ get_lc h (uf_lp u) = LDict d2 /\ cov_sum h d1 d2 (common order d1 d2) (n_zero N) = Ok x.
Lemma good_kept : forall order h h' d1 w x, kept h h' -> good_entry order h d1 w x -> good_entry order h' d1 w x.
Proof. intros order h h' d1 w x [V K] (u & d2 & -> & G & C). exists u, d2. rewrite (sum_kept _ _ _ _ _ _ V). auto. Qed.
Lemma nth_firstn : forall A (l : list A) n j, (j < n)%nat -> nth_error (firstn n l) j = nth_error l j.
Proof. intros A. induction l as [|x l IH]; intros [|n] j H; try lia; [reflexivity|]. destruct j as [|j]; [reflexivity|]. cbn. apply IH. lia. Qed.
Lemma row_entries : forall order fuel d1 l (h : heap N) r h', cov_row order fuel d1 l h = (Ok r, h') ->
  kept h h' /\ forall j w, nth_error l j = Some w -> good_entry order h' d1 w (nth j r (n_zero N)).
Proof.
  intros order fuel d1. induction l as [|w l IH]; intros h r h' H; cbn [cov_row] in H.
  { injection H as <- <-. split; [apply kept_refl|]. intros [|j] w X; discriminate X. }
  apply bind_ok in H as (d2 & h1 & H1 & H). apply bind_ok in H as (c & h2 & H2 & H). apply bind_ok in H as (r' & h3 & H & E). injection E as <- <-.
  destruct (elem_kept _ _ _ _ _ H1) as (K1 & u & -> & G). injection H2 as C <-. destruct (IH _ _ _ H) as (K2 & Q).
  split; [eapply kept_trans; eauto|]. intros [|j] w Hw; cbn in Hw.
  - injection Hw as <-. apply (good_kept order h1); [exact K2|]. exists u, d2. auto.
  - exact (Q j w Hw).
Qed.
Lemma rows_entries : forall order fuel l rest i (h : heap N) m h', cov_rows order fuel l i rest h = (Ok m, h') ->
  kept h h' /\ forall a w, nth_error rest a = Some w -> exists u d1, w = VUF u /\ get_lc h' (uf_lp u) = LDict d1 /\
    forall j w', (j <= i + a)%nat -> nth_error l j = Some w' -> good_entry order h' d1 w' (nth j (nth a m []) (n_zero N)).
Proof.
  intros order fuel l. induction rest as [|w rest IH]; intros i h m h' H; cbn [cov_rows] in H.
  { injection H as <- <-. split; [apply kept_refl|]. intros [|a] w X; discriminate X. }
  apply bind_ok in H as (d1 & h1 & H1 & H). apply bind_ok in H as (r & h2 & H2 & H). apply bind_ok in H as (m' & h3 & H & E). injection E as <- <-.
  destruct (elem_kept _ _ _ _ _ H1) as (K1 & u & -> & G). destruct (row_entries _ _ _ _ _ _ _ H2) as (K2 & Q2). destruct (IH _ _ _ _ H) as (K3 & Q).
  split; [eapply kept_trans; [exact K1|eapply kept_trans; eauto]|]. intros [|a] w Hw; cbn in Hw.
  - injection Hw as <-. exists u, d1. split; [reflexivity|]. split; [apply K3, K2, G|]. intros j w' Hj Hw'. apply (good_kept order h2); [exact K3|].
    apply Q2. rewrite nth_firstn by lia. exact Hw'.
  - destruct (Q a w Hw) as (u' & d' & -> & G' & Q'). exists u', d'. split; [reflexivity|]. split; [exact G'|]. intros j w' Hj. apply Q'. lia.
Qed.
Lemma cov_fold : forall (st : state N) d1 d2 vs acc x, cov_sum (st_heap st) d1 d2 vs acc = Ok x ->
  fold_left (fun acc v => rbind acc (fun c => rbind (n_powf (sd st v) (n_two N)) (fun s2 =>
    match dget d1 v, dget d2 v with Some x, Some y => Ok (n_add N c (n_mul N (n_mul N x y) s2)) | _, _ => Err EKey end))) vs (Ok acc) = Ok x.
Proof.
  intros st d1 d2. induction vs as [|v vs IH]; intros acc x H; cbn [cov_sum fold_left] in *; [exact H|].
  destruct (dget d1 v) as [x1|]; [|discriminate H]. destruct (dget d2 v) as [x2|]; [|discriminate H]. destruct (get_var (st_heap st) v) as [o|] eqn:G; [|discriminate H].
  unfold sd at 2. rewrite G. cbn [rbind]. destruct (n_powf (v_std o) (n_two N)) as [s2|]; [|discriminate H]. cbn [rbind] in *. exact (IH _ _ H).
Qed.
Theorem entries_any : forall order (st : state N) is m st' a b i j d d', covariance order st is (Ok m) st' -> nth_error is a = Some i -> nth_error is b = Some j ->
  (b <= a)%nat -> reads st' (IDeriv i) (ODict d) -> reads st' (IDeriv j) (ODict d') -> covariance_sum (sd st') d d' (order (both d d')) = Ok (entry m a b).
Proof.
  intros order st is m st' a b i j d d' (l & k & G & En & H) Ha Hb Hab Ra Rb. specialize (H k (le_n k)). unfold covariance_matrix in H.
  apply bind_ok in H as (m0 & h1 & H & E). injection E as <- E. subst h1.
  assert (Gl : forall c x, nth_error is c = Some x -> exists w, nth_error (st_env st) x = Some w /\ nth_error l c = Some w).
  { clear - G. revert l G. induction is as [|y is IH]; intros l G c x Hc; [destruct c; discriminate Hc|]. cbn in G.
    destruct (nth_error (st_env st) y) as [w|] eqn:Y; [|discriminate G]. destruct (get_args (st_env st) is) as [l'|] eqn:L; [|discriminate G]. injection G as <-.
    destruct c as [|c]; cbn in Hc; [injection Hc as <-; eauto|]. exact (IH l' eq_refl c x Hc). }
  assert (Ln : length l = length is). { clear - G. revert l G. induction is as [|y is IH]; intros l G; cbn in G; [now injection G as <-|].
    destruct (nth_error (st_env st) y); [|discriminate G]. destruct (get_args (st_env st) is); [|discriminate G]. injection G as <-. cbn. f_equal. auto. }
  destruct (Gl a i Ha) as (wa & Ea & La). destruct (Gl b j Hb) as (wb & Eb & Lb).
  destruct (rows_len _ _ _ _ _ _ _ _ H) as (A & B).
  assert (B' : forall a, (a < length m0)%nat -> length (nth a m0 []) = S a).
  { intros c Hc. rewrite A in Hc. rewrite (B c Hc). rewrite firstn_length. cbn [Nat.add]. lia. }
  assert (La' : (a < length m0)%nat) by (rewrite A; apply nth_error_Some; rewrite La; discriminate).
  rewrite sym_entry by (auto; lia). destruct (Nat.leb_spec b a); [|lia].
  destruct (rows_entries _ _ _ _ _ _ _ _ H) as (_ & Q). destruct (Q a wa La) as (u & d1 & -> & G1 & Q1).
  destruct (Q1 b wb Hab Lb) as (u' & d2 & -> & G2 & C).
  assert (Dd : forall x w e f, nth_error (st_env st) x = Some (VUF w) -> get_lc (st_heap st') (uf_lp w) = LDict e -> reads st' (IDeriv x) (ODict f) -> f = e).
  { intros x w e f Ex Gx (s2 & n & R). specialize (R n (le_n n)). cbn [step] in R. unfold with_uf, with_val in R. rewrite En, Ex in R.
    unfold observe, derivatives, lc_derivatives in R. rewrite Gx in R. now injection R as _ <-. }
  rewrite (Dd _ _ _ _ Ea G1 Ra), (Dd _ _ _ _ Eb G2 Rb). unfold covariance_sum. unfold entry. apply cov_fold. exact C.
Qed.
End Any.
