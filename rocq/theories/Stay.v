(** What has been read of a number does not change, in any arithmetic. *)
From Coq Require Import ZArith List Bool Arith Lia Relation_Operators.
From Verif Require Import Base Heap HeapProofs Affine Ops UMath Machine Cov Copy Calls Unumpy UMatrix History CallProofs Fuel Ordered Evolve DepSpec Deps AnySpec AnyArith TwinSpec Twin StaySpec.
Import ListNotations.

Section Stay.
Context {N : NumOps}.
Notation nev := (ev (N:=N) (fun _ => False)).
Notation nsev := (sev (N:=N) (fun _ => False)).
Lemma any_fine : forall A (r : res A), fine (fun _ => False) r.
Proof. intros A r e _ []. Qed.
Lemma happens_sev : forall st st' : state N, happens st st' -> nsev st st'.
Proof.
  intros st st' A. destruct A as [st ins st' o [k D]|st c|order st is r st' (l & k & _ & He & D)|order st is r st' (l & k & _ & He & D)
    |order fw st ia r st' (a & k & _ & _ & D)|order f st ia r st' (a & k & _ & _ & D)
    |op st ia ja r st' (a & b & _ & _ & _ & _ & D)|st ia ja r st' (a & b & _ & _ & _ & _ & D)].
  - specialize (D k (le_n k)). pose proof (step_sev (fun _ => False) k st ins) as X. rewrite D in X. apply X. intros e _ [].
  - apply call_sev. intros e _ [].
  - specialize (D k (le_n k)). pose proof (evs_cov (fun _ => False) order k l (st_heap st)) as X. rewrite D in X. split; [apply X, any_fine|]. exists []. now rewrite app_nil_r.
  - specialize (D k (le_n k)). pose proof (evs_corr (fun _ => False) order k l (st_heap st)) as X. rewrite D in X. split; [apply X, any_fine|]. exists []. now rewrite app_nil_r.
  - pose proof (evs_uncert (fun _ => False) order fw k a (st_heap st)) as X. destruct r as [ir|e].
    + destruct D as (b & _ & He & _ & D). specialize (D k (le_n k)). rewrite D in X. split; [apply X, any_fine|eauto].
    + destruct D as (He & D). specialize (D k (le_n k)). rewrite D in X. split; [apply X, any_fine|exists []; now rewrite app_nil_r].
  - pose proof (evs_wrapped (fun _ => False) order f k a (st_heap st)) as X. destruct r as [ir|e].
    + destruct D as (b & _ & He & _ & D). specialize (D k (le_n k)). rewrite D in X. split; [apply X, any_fine|eauto].
    + destruct D as (He & D). specialize (D k (le_n k)). rewrite D in X. split; [apply X, any_fine|exists []; now rewrite app_nil_r].
  - pose proof (evu_array_op (fun _ => False) op a b (st_heap st)) as X. destruct r as [ir|e].
    + destruct D as (c & _ & He & _ & D). rewrite D in X. split; [exact X|eauto].
    + destruct D as (He & D). rewrite D in X. split; [exact X|exists []; now rewrite app_nil_r].
  - pose proof (evu_matmul (fun _ => False) a b (st_heap st)) as X. destruct r as [ir|e].
    + destruct D as (c & _ & He & _ & D). rewrite D in X. split; [exact X|eauto].
    + destruct D as (He & D). rewrite D in X. split; [exact X|exists []; now rewrite app_nil_r].
Qed.
Lemma afterwards_sev : forall st st' : state N, afterwards st st' -> nsev st st'.
Proof. intros st st' A. induction A as [|st s1 st' H A IH]; [apply sev_refl|]. eapply sev_trans; [exact (happens_sev _ _ H)|exact IH]. Qed.
(** A dictionary is never replaced; variables do not disappear. *)
Lemma ev_dict : forall h h' : heap N, nev h h' -> forall l d, (l < length (h_lc h))%nat -> get_lc h l = LDict d -> (l < length (h_lc h'))%nat /\ get_lc h' l = LDict d.
Proof.
  intros h h' E. induction E as [h|h xs objs H|h l0 its fuel r h' G X F|h1 h2 h3 E1 I1 E2 I2]; intros l d B Gl.
  - auto.
  - cbn [h_lc]. rewrite app_length. split; [lia|]. now rewrite get_old.
  - destruct (loop_others _ _ _ _ _ _ X) as (L & _ & O). rewrite L. split; [exact B|]. rewrite O; [exact Gl|]. intros ->. congruence.
  - destruct (I1 l d B Gl) as (B1 & G1). now apply I2.
Qed.
Lemma ev_vars : forall h h' : heap N, nev h h' -> (length (h_var h) <= length (h_var h'))%nat.
Proof.
  intros h h' E. induction E as [h|h xs objs H|h l0 its fuel r h' G X F|h1 h2 h3 E1 I1 E2 I2]; auto; [|lia].
  destruct (loop_others _ _ _ _ _ _ X) as (_ & -> & _). lia.
Qed.
Lemma number_stays : forall (st st' : state N) i u, afterwards st st' -> is_number st i u -> is_number st' i u.
Proof. intros st st' i u A U. destruct (afterwards_sev _ _ A) as (_ & new & E). unfold is_number in *. rewrite E. now apply nth_app_l. Qed.
Lemma dict_reads : forall (st st' : state N) i u d, afterwards st st' -> is_number st i u -> (uf_lp u < length (h_lc (st_heap st)))%nat ->
  get_lc (st_heap st) (uf_lp u) = LDict d -> forall k, derivatives k u (st_heap st') = (Ok d, st_heap st').
Proof.
  intros st st' i u d A U B G k. destruct (ev_dict _ _ (proj1 (afterwards_sev _ _ A)) _ _ B G) as (_ & G'). unfold derivatives, lc_derivatives. now rewrite G'.
Qed.
Lemma derivs_read : forall (st : state N) i u d, is_number st i u -> derivatives 0 u (st_heap st) = (Ok d, st_heap st) ->
  (forall k, derivatives k u (st_heap st) = (Ok d, st_heap st)) -> does st (IDeriv i) st (ODict d).
Proof.
  intros st i u d U D F. exists 0%nat. intros k _. cbn [step]. unfold with_uf, with_val, is_number in *. rewrite U. unfold observe. rewrite F. now destruct st.
Qed.
Lemma read_dict : forall (st0 st : state N) i u d, reachable st0 -> is_number st0 i u -> does st0 (IDeriv i) st (ODict d) ->
  is_number st i u /\ (uf_lp u < length (h_lc (st_heap st)))%nat /\ get_lc (st_heap st) (uf_lp u) = LDict d.
Proof.
  intros st0 st i u d R U (k & D). assert (B := reachable_bound st0 i u R U). specialize (D k (le_n k)). cbn [step] in D. unfold with_uf, with_val, is_number in *. rewrite U in D.
  unfold observe in D. destruct (derivatives k u (st_heap st0)) as [[d1|e] h1] eqn:E; [|discriminate D]. injection D as <- <-. cbn [st_env st_heap].
  split; [exact U|]. unfold derivatives, lc_derivatives in E. destruct (get_lc (st_heap st0) (uf_lp u)) as [d0|its] eqn:G.
  - injection E as <- <-. auto.
  - destruct (expand_loop k (uf_lp u) [] (st_heap st0)) as [[[]|e] h2] eqn:X; [|discriminate E]. destruct (loop_others _ _ _ _ _ _ X) as (L & _).
    destruct (get_lc h2 (uf_lp u)) as [d2|] eqn:G2; [|discriminate E]. injection E as <- <-. rewrite L. auto.
Qed.

Theorem derivatives_stay : forall (st0 st st' : state N) i u d, reachable st0 -> is_number st0 i u -> does st0 (IDeriv i) st (ODict d) -> afterwards st st' ->
  is_number st' i u /\ does st' (IDeriv i) st' (ODict d).
Proof.
  intros st0 st st' i u d R U D A. destruct (read_dict _ _ _ _ _ R U D) as (U1 & B & G). assert (U' := number_stays _ _ _ _ A U1). split; [exact U'|].
  assert (F := dict_reads _ _ _ _ _ A U1 B G). exact (derivs_read _ _ _ _ U' (F 0%nat) F).
Qed.
Theorem attributes_stay : forall (st0 st st' : state N) i u d, reachable st0 -> is_number st0 i u -> does st0 (IDeriv i) st (ODict d) -> readable st i d -> afterwards st st' ->
  (forall v, In v (dkeys d) \/ uf_var u = Some v -> sd st' v = sd st v) ->
  forall read o, attribute read -> reads st (read i) o -> reads st' (read i) o.
Proof.
  intros st0 st st' i u d R U D (_ & Ex & Ev) A Sd read o At Ro. destruct (read_dict _ _ _ _ _ R U D) as (U1 & B & G). assert (U' := number_stays _ _ _ _ A U1).
  assert (F := dict_reads _ _ _ _ _ (rt1n_refl _ _ _) U1 B G). assert (F' := dict_reads _ _ _ _ _ A U1 B G). assert (L := ev_vars _ _ (proj1 (afterwards_sev _ _ A))).
  rewrite <- (out_same o). rewrite <- (keys_same _ d) in F'. refine (reads_as (fun v => v) st st' i i u u 0 d _ _ U1 U' eq_refl _ _ (F 0%nat) (F' 0%nat) read o At Ro).
  - now destruct (uf_var u).
  - intros v Hv. assert (X : existing st v). { rewrite Forall_forall in Ex. destruct Hv as [Hv|Hv]; [now apply Ex|exact (Ev u v U1 Hv)]. }
    specialize (Sd v Hv). unfold existing, sd in *. destruct (get_var (st_heap st) v) as [o1|] eqn:E1; [|contradiction].
    destruct (get_var (st_heap st') v) as [o2|] eqn:E2; [eauto|]. exfalso. apply nth_error_None in E2. assert (Y : nth_error (h_var (st_heap st)) v <> None) by (unfold get_var in E1; congruence). apply nth_error_Some in Y. lia.
Qed.
Theorem variable_stays : forall (st st1 st' : state N) n s tag, does st (INew n s tag) st1 ONone -> afterwards st1 st' ->
  exists u v, is_number st' (length (st_env st)) u /\ uf_var u = Some v /\ pn_float n = Ok (uf_nom u) /\ ~ existing st v /\
    does st' (IDeriv (length (st_env st))) st' (ODict [(v, n_one N)]) /\ readable st' (length (st_env st)) [(v, n_one N)] /\ reads st' (IStd (length (st_env st))) (ONum (sd st' v)).
Proof.
  intros st st1 st' n s tag (k & D) A. specialize (D k (le_n k)). cbn [step] in D. unfold new_var in D.
  destruct (pn_float n) as [x|e]; [|discriminate D]. destruct (check_std s) as [y|e]; [|discriminate D]. cbn [alloc_lc h_lc h_var push] in D. injection D as <-.
  set (v := length (h_var (st_heap st))) in *. set (u := mkUF x (length (h_lc (st_heap st))) (Some v)) in *.
  match type of A with afterwards ?s _ => set (s1 := s) in * end.
  assert (U1 : is_number s1 (length (st_env st)) u) by (unfold is_number, s1; cbn [st_env]; rewrite nth_error_app2, Nat.sub_diag by lia; reflexivity).
  assert (U' := number_stays _ _ _ _ A U1). exists u, v. split; [exact U'|]. split; [reflexivity|]. split; [reflexivity|].
  split; [intros X; apply X, nth_error_None; unfold v; lia|].
  assert (G : get_lc (st_heap s1) (uf_lp u) = LDict [(v, n_one N)]).
  { unfold get_lc, s1, u. cbn [st_heap h_lc uf_lp]. rewrite app_nth2, Nat.sub_diag by lia. reflexivity. }
  assert (B : (uf_lp u < length (h_lc (st_heap s1)))%nat) by (unfold s1, u; cbn [st_heap h_lc uf_lp]; rewrite app_length; cbn; lia).
  assert (F := dict_reads _ _ _ _ _ A U1 B G). assert (L := ev_vars _ _ (proj1 (afterwards_sev _ _ A))).
  assert (X : existing st' v). { apply nth_error_Some. unfold s1 in L. cbn [st_heap h_var] in L. rewrite app_length in L. unfold v. cbn [length] in L. lia. }
  assert (Dr := derivs_read _ _ _ _ U' (F 0%nat) F). split; [exact Dr|]. split; [split; [exists st'; exact Dr|split]|].
  - now repeat constructor.
  - intros u1 w U2 Hw. unfold is_number in *. rewrite U' in U2. injection U2 as <-. injection Hw as <-. exact X.
  - exists st', 0%nat. intros j _. cbn [step]. unfold with_uf, with_val, is_number, observe, std_dev, existing, sd in *. rewrite U'. cbn [uf_var u].
    destruct (get_var (st_heap st') v); [|contradiction]. now destruct st'.
Qed.
End Stay.
