(** What can come out of covariance and correlation matrices in binary64. *)
From Coq Require Import ZArith List Bool Arith Lia.
From Flocq Require Import Core IEEE754.BinarySingleNaN.
From Verif Require Import Base NumF Heap HeapProofs Affine Ops UMath Machine Cov Copy Calls Unumpy UMatrix History CallProofs Fuel Ordered TermSpec Term TermF DepSpec Deps AnySpec AnyArith TwinSpec Twin OutcomeSpec Outcome.
Import ListNotations.

Section Mat.
Variables (lm : Libm) (SQ : squares_not_negative lm).
Notation FN := (FOps lm).
Variables (order : list varid -> list varid) (OR : forall l v, In v (order l) -> In v l).
Variables (env : list (value FN)) (L : list (option (list varid))).
Definition good (h : heap FN) : Prop := reachable (mkState h env) /\ history (mkState h env) L.
Definition known (a : value FN) : Prop := exists i u vs, a = VUF u /\ nth_error env i = Some (VUF u) /\ nth_error L i = Some (Some vs).
Definition stops {A} (r : res A) : Prop := r = Err EOverflow \/ r = Err EFuel.
Definition kept (h : heap FN) (d : dict FN) : Prop := forall v, In v (dkeys d) -> get_var h v <> None.

Lemma elem_read : forall k a h r h', good h -> known a -> elem_derivatives k a h = (r, h') ->
  stops r \/ exists d, r = Ok d /\ good h' /\ h_var h' = h_var h /\ kept h' d.
Proof.
  intros k a h r h' (R & H) (i & u & vs & -> & U & I) E. cbn [elem_derivatives] in E. destruct r as [d|e].
  - right. exists d. split; [reflexivity|]. set (st := mkState h env) in *.
    assert (V : h_var h' = h_var h) by (eapply read_objs; exact E).
    assert (S : step k st (IDeriv i) = (mkState h' env, ODict d)) by (cbn [step]; unfold with_uf, with_val; cbn [st st_env]; rewrite U; unfold observe; cbn [st st_heap]; now rewrite E).
    assert (D : does st (IDeriv i) (mkState h' env) (ODict d)).
    { assert (X := does_step k st (IDeriv i) (ODict d)). rewrite S in X. apply X; [reflexivity|discriminate]. }
    split; [split|split; [exact V|]].
    + apply (reach_runs st [IDeriv i] _ [ODict d] R). destruct D as (k0 & D). exists k0. intros f Hf. cbn [run]. now rewrite (D f Hf).
    + replace L with (L ++ repeat None (length (st_env (mkState h' env)) - length (st_env st))) by (cbn [st st_env]; rewrite Nat.sub_diag; apply app_nil_r).
      apply history_other; [exact H|]. eapply act_statement; [exact D|]. intros _ (e & Q). discriminate Q.
    + intros v Hv. destruct (history_readable st L i vs d u H I U (ltac:(exists (mkState h' env); exact D))) as (_ & Q & _). rewrite List.Forall_forall in Q. specialize (Q v Hv).
      unfold existing in Q. unfold get_var in *. rewrite V. exact Q.
  - left. destruct (ov_deriv lm _ _ _ _ _ (heap_ok lm _ R) E) as [->| ->]; [now left|now right].
Qed.
Lemma cov_sum_result : forall h d1 d2, kept h d1 -> forall vs acc, (forall v, In v vs -> In v (dkeys d1) /\ In v (dkeys d2)) ->
  cov_sum h d1 d2 vs acc = Err EOverflow \/ exists c, cov_sum h d1 d2 vs acc = Ok c.
Proof.
  intros h d1 d2 K. induction vs as [|v vs IH]; intros acc V; cbn [cov_sum]; [right; eauto|]. destruct (V v (or_introl eq_refl)) as (V1 & V2).
  destruct (dget d1 v) as [x|] eqn:G1; [|apply dget_None in G1; contradiction]. destruct (dget d2 v) as [y|] eqn:G2; [|apply dget_None in G2; contradiction].
  destruct (get_var h v) as [o|] eqn:Go; [|now apply K in V1]. unfold n_powf. change (n_pow FN (v_std o) (n_two FN)) with (f_pow lm (v_std o) ftwo).
  destruct (nn_pow lm SQ (v_std o)) as [Q|(s & Q & S)]; rewrite Q; cbn [rbind]; [now left|]. apply IH. intros w Hw. apply V. now right.
Qed.
Lemma common_both : forall (d1 d2 : dict FN) v, In v (common order d1 d2) -> In v (dkeys d1) /\ In v (dkeys d2).
Proof.
  intros d1 d2 v H. apply OR in H. apply filter_In in H as (A & B). split; [exact A|]. apply existsb_exists in B as (w & Hw & E). apply Nat.eqb_eq in E. now subst.
Qed.
Lemma row_result : forall k d1 l h r h', good h -> Forall known l -> kept h d1 -> cov_row order k d1 l h = (r, h') ->
  stops r \/ exists c, r = Ok c /\ good h' /\ h_var h' = h_var h.
Proof.
  intros k d1. induction l as [|a l IH]; intros h r h' G F K E; cbn [cov_row] in E; [unfold ret in E; injection E as <- <-; right; eauto|].
  apply List.Forall_cons_iff in F as (Fa & F). unfold bind in E at 1. destruct (elem_derivatives k a h) as [[d2|e] h1] eqn:E1.
  - destruct (elem_read _ _ _ _ _ G Fa E1) as [[Q|Q]|(d & Q & G1 & V & K2)]; try discriminate Q. injection Q as <-.
    assert (K1 : kept h1 d1) by (intros v Hv; unfold get_var; rewrite V; now apply K).
    unfold bind in E at 1. destruct (cov_sum_result h1 d1 d2 K1 (common order d1 d2) (n_zero FN) (common_both d1 d2)) as [Q|(c & Q)]; rewrite Q in E.
    + injection E as <- _. left. now left.
    + unfold bind in E. destruct (cov_row order k d1 l h1) as [[cs|e] h2] eqn:E2.
      * destruct (IH _ _ _ G1 F K1 E2) as [[Q2|Q2]|(c2 & Q2 & G2 & V2)]; try discriminate Q2. unfold ret in E. injection E as <- <-. right. eexists. split; [reflexivity|]. split; [exact G2|congruence].
      * injection E as <- _. destruct (IH _ _ _ G1 F K1 E2) as [[Q2|Q2]|(c2 & Q2 & _)]; [left; left; injection Q2 as ->; reflexivity|left; right; injection Q2 as ->; reflexivity|discriminate Q2].
  - injection E as <- _. destruct (elem_read _ _ _ _ _ G Fa E1) as [[Q|Q]|(d & Q & _)]; [left; left; injection Q as ->; reflexivity|left; right; injection Q as ->; reflexivity|discriminate Q].
Qed.
Lemma rows_result : forall k l, Forall known l -> forall rest i h r h', good h -> Forall known rest -> cov_rows order k l i rest h = (r, h') ->
  stops r \/ exists c, r = Ok c.
Proof.
  intros k l Fl. induction rest as [|a rest IH]; intros i h r h' G F E; cbn [cov_rows] in E; [unfold ret in E; injection E as <- <-; right; eauto|].
  apply List.Forall_cons_iff in F as (Fa & F). unfold bind in E at 1. destruct (elem_derivatives k a h) as [[d1|e] h1] eqn:E1.
  - destruct (elem_read _ _ _ _ _ G Fa E1) as [[Q|Q]|(d & Q & G1 & V & K)]; try discriminate Q. injection Q as <-.
    assert (Ff : Forall known (firstn (S i) l)) by (apply List.Forall_forall; intros x Hx; rewrite List.Forall_forall in Fl; apply Fl; eapply firstn_In; exact Hx).
    unfold bind in E at 1. destruct (cov_row order k d1 (firstn (S i) l) h1) as [[row|e] h2] eqn:E2.
    + destruct (row_result _ _ _ _ _ _ G1 Ff K E2) as [[Q|Q]|(c & _ & G2 & _)]; try discriminate Q. unfold bind in E. destruct (cov_rows order k l (S i) rest h2) as [[m|e] h3] eqn:E3.
      * unfold ret in E. injection E as <- _. right. eauto.
      * injection E as <- _. destruct (IH _ _ _ _ G2 F E3) as [[Q|Q]|(c2 & Q)]; [left; left; injection Q as ->; reflexivity|left; right; injection Q as ->; reflexivity|discriminate Q].
    + injection E as <- _. destruct (row_result _ _ _ _ _ _ G1 Ff K E2) as [[Q|Q]|(c & Q & _)]; [left; left; injection Q as ->; reflexivity|left; right; injection Q as ->; reflexivity|discriminate Q].
  - injection E as <- _. destruct (elem_read _ _ _ _ _ G Fa E1) as [[Q|Q]|(d & Q & _)]; [left; left; injection Q as ->; reflexivity|left; right; injection Q as ->; reflexivity|discriminate Q].
Qed.
Lemma matrix_result : forall k l h r h', good h -> Forall known l -> covariance_matrix order k l h = (r, h') -> stops r \/ exists c, r = Ok c.
Proof.
  intros k l h r h' G F E. unfold covariance_matrix, bind in E. destruct (cov_rows order k l 0 l h) as [[m|e] h1] eqn:E1; unfold ret in E; injection E as <- _; [right; eauto|].
  destruct (rows_result k l F l 0%nat _ _ _ G F E1) as [[Q|Q]|(c & Q)]; [left; left; injection Q as ->; reflexivity|left; right; injection Q as ->; reflexivity|discriminate Q].
Qed.
Lemma rmapM_total : forall A B (f : A -> res B) l, (forall a, exists b, f a = Ok b) -> exists r, rmapM f l = Ok r.
Proof. intros A B f l H. induction l as [|a l (r & IH)]; cbn [rmapM]; [eauto|]. destruct (H a) as (b & ->). cbn [rbind]. rewrite IH. cbn [rbind]. eauto. Qed.
Lemma sqrt_total : forall x : num FN, exists y, np_sqrt x = Ok y.
Proof.
  intros x. unfold np_sqrt. destruct (n_lt FN x (n_zero FN)) eqn:E; [eexists; reflexivity|]. change (n_fun1 FN F_sqrt x) with (f_sqrt x). unfold f_sqrt.
  change (n_lt FN x (n_zero FN)) with (Bltb (x : f64) f0) in E. rewrite E. eauto.
Qed.
Lemma correlation_result : forall k l h r h', good h -> Forall known l -> correlation_matrix order k l h = (r, h') -> stops r \/ exists c, r = Ok c.
Proof.
  intros k l h r h' G F E. unfold correlation_matrix, bind in E. destruct (covariance_matrix order k l h) as [[m|e] h1] eqn:E1.
  - right. unfold lift in E. destruct (rmapM_total _ _ np_sqrt (diagonal m) sqrt_total) as (s & S). rewrite S in E. cbn [rbind] in E.
    assert (X : exists c, normalize m s = Ok c) by (unfold normalize; apply rmapM_total; intros i; apply rmapM_total; intros j; eexists; reflexivity).
    destruct X as (c & X). exists c. injection E as <- _. exact X.
  - injection E as <- _. destruct (matrix_result _ _ _ _ _ G F E1) as [[Q|Q]|(c & Q)]; [left; left; injection Q as ->; reflexivity|left; right; injection Q as ->; reflexivity|discriminate Q].
Qed.
End Mat.

Theorem matrices_or_overflow : forall lm, squares_not_negative lm -> forall order (st : state (FOps lm)) L is, (forall l v, In v (order l) -> In v l) -> reachable st -> history st L ->
  (forall i, In i is -> exists u vs, is_number st i u /\ nth_error L i = Some (Some vs)) ->
  (exists r st', covariance order st is r st' /\ (r = Err EOverflow \/ exists m, r = Ok m)) /\
  (exists r st', correlation order st is r st' /\ (r = Err EOverflow \/ exists m, r = Ok m)).
Proof.
  intros lm SQ order st L is OR R H K.
  assert (B : forall i, In i is -> (i < length (st_env st))%nat) by (intros i Hi; destruct (K i Hi) as (u & vs & U & _); apply nth_error_Some; unfold is_number in U; congruence).
  assert (Ka : forall l, get_args (st_env st) is = Some l -> List.Forall (known lm (st_env st) L) l).
  { clear B. induction is as [|i is IH]; intros l G; cbn in G; [injection G as <-; constructor|]. destruct (K i (or_introl eq_refl)) as (u & vs & U & I). unfold is_number in U. rewrite U in G.
    destruct (get_args (st_env st) is) as [l'|]; [|discriminate G]. injection G as <-. constructor; [exists i, u, vs; auto|]. apply IH; [|reflexivity]. intros j Hj. apply K. now right. }
  assert (Gd : good lm (st_env st) L (st_heap st)) by (destruct st; split; assumption).
  destruct (matrices_end_binary64 lm order st is R B) as ((r & st1 & C & Nr) & (r2 & st2 & C2 & Nr2)). split.
  - exists r, st1. split; [exact C|]. destruct C as (l & k & G & _ & C). specialize (C k (le_n _)).
    destruct (matrix_result lm SQ order OR _ L k l _ _ _ Gd (Ka l G) C) as [[Q|Q]|Q]; [now left|contradiction|now right].
  - exists r2, st2. split; [exact C2|]. destruct C2 as (l & k & G & _ & C2). specialize (C2 k (le_n _)).
    destruct (correlation_result lm SQ order OR _ L k l _ _ _ Gd (Ka l G) C2) as [[Q|Q]|Q]; [now left|contradiction|now right].
Qed.

(** ** Standard scores *)
Lemma known_var : forall (N : NumOps) (st : state N) L i vs u v, history st L -> nth_error L i = Some (Some vs) -> is_number st i u -> uf_var u = Some v -> existing st v.
Proof.
  intros N st L i vs u v H I U V. destruct (history_tracks _ _ H) as (Lm & T). destruct (known_number _ _ _ _ _ _ T I U) as (Hl & Hv).
  unfold existing. apply var_exists. exact (proj1 (proj2 (proj1 T) _ _ Hl) v (Hv v V)).
Qed.
Lemma score_or_error : forall lm, squares_not_negative lm -> forall (st : state (FOps lm)) L i vs u p, reachable st -> history st L -> nth_error L i = Some (Some vs) -> is_number st i u ->
  exists o, reads st (IScore i p) o /\ (o = OExn EOverflow \/ (exists x, o = ONum x) \/ (o = OExn EValue /\ exists s : f64, reads st (IStd i) (ONum (N:=FOps lm) s) /\ Beqb s f0 = true)).
Proof.
  intros lm SQ st L i vs u p R H I U. destruct (reads_end (binary64_ends lm) st (IScore i p) R eq_refl) as (st' & o & D & _). exists o.
  assert (Q : reads st (IScore i p) o) by (exists st'; exact D). split; [exact Q|]. assert (C := not_cut lm st (IScore i p) o R eq_refl Q).
  destruct Q as (st1 & k & Q). specialize (Q k (le_n _)). cbn [step] in Q. unfold with_uf, with_val in Q. assert (U' := U). unfold is_number in U'. rewrite U' in Q.
  unfold observe, std_score, bind in Q.
  assert (S : (exists h', std_dev k u (st_heap st) = (Err EFuel, h')) \/ (exists h', std_dev k u (st_heap st) = (Err EOverflow, h')) \/ exists s h', std_dev k u (st_heap st) = (Ok s, h')).
  { unfold std_dev. destruct (uf_var u) as [v|] eqn:V.
    - assert (X := known_var _ st L i vs u v H I U V). unfold existing in X. destruct (get_var (st_heap st) v) as [ov|] eqn:G; [right; right; eauto|contradiction].
    - destruct (affine_result lm SQ st L i vs u R H I U k) as [A|[A|(s & h' & A & _)]]; eauto. }
  destruct S as [(h' & S)|[(h' & S)|(s & h' & S)]]; rewrite S in Q; [injection Q as _ <-; congruence|injection Q as _ <-; now left|].
  assert (Rs : reads st (IStd i) (ONum (N:=FOps lm) s)).
  { apply (reads_step k); [|discriminate]. cbn [step]. unfold with_uf, with_val. rewrite U'. unfold observe. now rewrite S. }
  assert (P : pn_sub p (PF (uf_nom u)) = Err EOverflow \/ exists x, pn_sub p (PF (uf_nom u)) = Ok (PF x)).
  { destruct p as [z|x]; unfold pn_sub; [|right; eexists; reflexivity]. destruct (pn_float (PZ z)) as [y|e] eqn:E; cbn [rbind]; [right; eexists; reflexivity|]. left. f_equal. exact (ov_float lm _ _ E). }
  destruct P as [P|(x & P)]; rewrite P in Q; cbn [rbind] in Q; [injection Q as _ <-; now left|].
  unfold pn_div in Q. cbn [pn_float rbind] in Q. change (n_div (FOps lm) x s) with (f_div x s) in Q. unfold f_div in Q.
  destruct (Beqb (s : f64) f0) eqn:Z; cbn in Q; injection Q as _ <-; [right; right; split; [reflexivity|exists s; auto]|right; left; eauto].
Qed.
