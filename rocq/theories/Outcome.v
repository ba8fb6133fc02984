(** What can come out of a read of an uncertainty in binary64. *)
From Coq Require Import ZArith List Bool Arith Lia Reals Lra.
From Flocq Require Import Core IEEE754.BinarySingleNaN.
From Verif Require Import Base NumF Heap HeapProofs Affine Ops UMath Machine Cov Copy Calls Unumpy UMatrix History CallProofs Fuel Ordered TermSpec Term TermF DepSpec Deps AnySpec AnyArith TwinSpec Twin OutcomeSpec.
Import ListNotations.

Section Outcome.
Variable lm : Libm.
Notation FN := (FOps lm).
Implicit Types h : heap FN.

(** ** Exceptions of the expansion *)
Definition over {A} (r : res A) : Prop := forall e, r = Err e -> e = EOverflow.
Lemma ov_bind : forall A B (r : res A) (f : A -> res B), over r -> (forall a, over (f a)) -> over (rbind r f).
Proof. intros A B [a|e0] f H H' e; cbn; [apply H'|]. intros [= <-]. now apply H. Qed.
Lemma ov_ok : forall A (a : A), over (Ok a).
Proof. intros A a e [=]. Qed.
Lemma ov_float : forall p : pynum FN, over (pn_float p).
Proof.
  intros [z|x] e; [|discriminate]. change (f_of_Z z = Err e -> e = EOverflow). unfold f_of_Z. cbv zeta. destruct (is_inf (fnorm z 0)); [now intros [= <-]|discriminate].
Qed.
Lemma ov_mul : forall p q : pynum FN, over (pn_mul p q).
Proof. intros [z|x] [y|w]; unfold pn_mul; try apply ov_ok; (apply ov_bind; [apply ov_float|intros]; apply ov_bind; [apply ov_float|intros; apply ov_ok]). Qed.
Lemma ov_add : forall p q : pynum FN, over (pn_add p q).
Proof. intros [z|x] [y|w]; unfold pn_add; try apply ov_ok; (apply ov_bind; [apply ov_float|intros]; apply ov_bind; [apply ov_float|intros; apply ov_ok]). Qed.
Lemma ov_acc : forall c d acc, over (acc_dict (N:=FN) c d acc).
Proof.
  intros c. induction d as [|[v f] d IH]; intros acc; cbn [acc_dict]; [apply ov_ok|]. unfold cmul. apply ov_bind; [apply ov_bind; [apply ov_float|intros; apply ov_ok]|]. intros; apply IH.
Qed.
Lemma ov_push : forall c l its st s e, (forall it, In it its -> okt l it) -> push_items (N:=FN) c its st = (s, Some e) -> e = EOverflow.
Proof.
  intros c l its. induction its as [|it its IH]; intros st s e K H; cbn [push_items] in H; [discriminate H|]. assert (Ki := K it (or_introl eq_refl)).
  destruct it as [c' l'| |]; try contradiction. destruct (pn_mul c c') as [p|e'] eqn:E.
  - eapply IH; [|exact H]. intros it Hi. apply K. now right.
  - injection H as _ <-. exact (ov_mul _ _ _ E).
Qed.
Lemma ov_loop : forall h l, pairs h -> (l < length (h_lc h))%nat -> forall n st acc e, (forall it, In it st -> okt l it) ->
  fst (expand_loop n l acc (set_lc h l (LList st))) = Err e -> e = EOverflow \/ e = EFuel.
Proof.
  intros h l P B. induction n as [|n IH]; intros st acc e K; [cbn; intros [= <-]; now right|]. cbn [expand_loop]. rewrite get_set_eq by exact B.
  destruct st as [|it rest]; [discriminate|]. cbv zeta. rewrite !set_set. assert (Ki := K it (or_introl eq_refl)).
  destruct it as [c l'| |]; try contradiction. cbn [okt] in Ki. rewrite get_set_neq by lia.
  destruct (get_lc h l') as [d|its] eqn:G.
  - destruct (acc_dict c d acc) as [acc'|e'] eqn:A.
    + apply IH. intros it Hi. apply K. now right.
    + cbn [fst]. intros [= <-]. left. exact (ov_acc _ _ _ _ A).
  - assert (Z : forall y, In y (rev its) -> okt l y) by (intros y Hy; apply in_rev in Hy; eapply okt_mono; [|exact (P _ _ _ G Hy)]; lia).
    destruct (push_items c (rev its) rest) as [s [e'|]] eqn:Q; cbn [fst].
    + intros [= <-]. left. exact (ov_push _ _ _ _ _ _ Z Q).
    + rewrite set_set. apply IH. intros it Hi. eapply push_items_below; [exact Z| |exact Q|exact Hi]. intros y Hy. apply K. now right.
Qed.
Lemma loop_dict : forall n l acc h h', (l < length (h_lc h))%nat -> expand_loop n l acc h = (Ok tt, h') -> exists d, get_lc h' l = LDict d.
Proof.
  induction n as [|n IH]; intros l acc h h' B H; cbn [expand_loop] in H; [discriminate H|]. cbv zeta in H.
  destruct (get_lc h l) as [[|]|[|it rest]]; try discriminate H.
  - injection H as <-. exists acc. now apply get_set_eq.
  - injection H as <-. exists acc. now apply get_set_eq.
  - destruct it as [c l'| |]; try discriminate H. destruct (get_lc (set_lc h l (LList rest)) l') as [d|its].
    + destruct (acc_dict c d acc); [|discriminate H]. apply IH in H; [exact H|]. now rewrite set_lc_length.
    + destruct (push_items c (rev its) rest) as [s [e|]]; [discriminate H|]. apply IH in H; [exact H|]. now rewrite !set_lc_length.
Qed.
Lemma ov_deriv : forall k u h e h', okh h -> derivatives k u h = (Err e, h') -> e = EOverflow \/ e = EFuel.
Proof.
  intros k u h e h' [P _]. unfold derivatives, lc_derivatives. set (l := uf_lp u). destruct (get_lc h l) as [d|its] eqn:G; [discriminate|].
  assert (B : (l < length (h_lc h))%nat).
  { destruct (Nat.lt_ge_cases l (length (h_lc h))) as [B|B]; [exact B|]. unfold get_lc in G. rewrite nth_overflow in G by exact B. discriminate. }
  assert (X := ov_loop h l P B k its [] e (fun it => P _ _ it G)).
  assert (E : set_lc h l (LList its) = h) by (rewrite <- G; now apply set_self). rewrite E in X.
  destruct (expand_loop k l [] h) as [[[]|e'] h1] eqn:Q; [destruct (loop_dict _ _ _ _ _ B Q) as (d & ->); discriminate|]. intros H. apply X. cbn [fst]. congruence.
Qed.

(** ** Squares, sums and square roots *)
Lemma nn_abs : forall x : f64, ~ negative (fabs x).
Proof. intros [s|s| |s m e b]; unfold negative; discriminate. Qed.

Lemma negative_iff : forall x : f64, negative x <-> match x with B754_infinity s => s = true | B754_finite s _ _ _ => s = true | _ => False end.
Proof.
  intros [s|s| |s m e b]; unfold negative; [destruct s; split; [discriminate|contradiction|discriminate|contradiction]|destruct s; split; auto; discriminate|split; [discriminate|contradiction]|destruct s; split; auto; discriminate].
Qed.
Lemma nn_real : forall x : f64, is_finite x = true -> (~ negative x <-> (0 <= B2R x)%R).
Proof.
  intros x F. rewrite negative_iff. destruct x as [s| | |[] m e b]; try discriminate F; cbn [B2R].
  - split; [intros _; lra|intros _ []].
  - split; [intros H; now elim H|]. intros H. exfalso. apply (Rlt_not_le _ _ (F2R_lt_0 radix2 (Float radix2 (Zneg m) e) eq_refl)). exact H.
  - split; [|discriminate]. intros _. now apply F2R_ge_0.
Qed.
Lemma round_nn : forall v, (0 <= v)%R -> (0 <= round radix2 (SpecFloat.fexp 53 1024) (round_mode mode_NE) v)%R.
Proof. intros v H. apply round_ge_generic; [apply (fexp_correct 53 1024); reflexivity|apply valid_rnd_N|apply generic_format_0|exact H]. Qed.
Lemma nn_sqrt : forall x : f64, ~ negative x -> exists s : f64, f_sqrt x = Ok s /\ ~ negative s.
Proof.
  intros x H. unfold f_sqrt. assert (L : Bltb x f0 = false) by (unfold negative in H; destruct (Bltb x f0); congruence). rewrite L. eexists. split; [reflexivity|].
  destruct (Bsqrt_correct 53 1024 prec_gt_0_64 prec_lt_emax_64 mode_NE x) as (C1 & C2 & _).
  rewrite negative_iff in H. destruct x as [s|s| |[] m e b]; try (now elim H).
  - destruct s; discriminate.
  - destruct s; [now elim H|]. discriminate.
  - discriminate.
  - apply nn_real; [exact C2|]. rewrite C1. apply round_nn, sqrt_pos.
Qed.
Lemma nn_add : forall x y : f64, ~ negative x -> ~ negative y -> ~ negative (fadd x y).
Proof.
  intros x y X Y. destruct (is_finite x) eqn:Fx; [destruct (is_finite y) eqn:Fy|].
  - pose proof (Bplus_correct 53 1024 prec_gt_0_64 prec_lt_emax_64 mode_NE x y Fx Fy) as C. fold (fadd x y) in C.
    apply nn_real in X; [|exact Fx]. apply nn_real in Y; [|exact Fy].
    revert C. case Rlt_bool_spec; intros L C.
    + destruct C as (C1 & C2 & _). apply nn_real; [exact C2|]. rewrite C1. apply round_nn. lra.
    + destruct C as (C1 & C2). assert (S : Bsign x = false).
      { destruct (Bsign x) eqn:Sx; [exfalso|reflexivity]. assert (Zx : B2R x = 0%R).
        { destruct x as [s| | |[] m e b]; try discriminate Fx; try discriminate Sx; [reflexivity|]. exfalso. apply (Rlt_not_le _ _ (F2R_lt_0 radix2 (Float radix2 (Zneg m) e) eq_refl)). exact X. }
        assert (Zy : B2R y = 0%R).
        { symmetry in C2. destruct y as [s| | |[] m e b]; try discriminate Fy; try discriminate C2; [reflexivity|]. exfalso. apply (Rlt_not_le _ _ (F2R_lt_0 radix2 (Float radix2 (Zneg m) e) eq_refl)). exact Y. }
        rewrite Zx, Zy, Rplus_0_r, round_0 in L by apply valid_rnd_N. rewrite Rabs_R0 in L. apply (Rlt_not_le _ _ (bpow_gt_0 radix2 1024)). exact L. }
      rewrite S in C1. destruct (fadd x y); try discriminate C1; [injection C1 as ->; discriminate].
  - rewrite negative_iff in *. destruct x as [s|[]| |s m e b], y as [t|[]| |t n f c]; try discriminate Fx; cbn; try (now elim X); try (now elim Y); try discriminate; auto.
  - rewrite negative_iff in *. destruct x as [s|[]| |s m e b], y as [t|[]| |t n f c]; try discriminate Fx; cbn; try (now elim X); try (now elim Y); try discriminate; auto.
Qed.
Hypothesis SQ : squares_not_negative lm.
Lemma nn_pow : forall x : f64, f_pow lm x ftwo = Err EOverflow \/ exists r, f_pow lm x ftwo = Ok (Some r) /\ ~ negative r.
Proof.
  intros x. unfold f_pow. change (Beqb ftwo f0) with false. change (is_nanf ftwo) with false. change (is_inf ftwo) with false. change (is_odd_int ftwo) with false.
  change (is_integral ftwo) with true. change (Bltb f0 ftwo) with true. change (Bltb ftwo f0) with false. cbv zeta iota. rewrite !andb_false_r.
  destruct (is_nanf x) eqn:Nx; [right; exists x; split; [reflexivity|destruct x; discriminate]|].
  destruct (is_inf x) eqn:Ix; [right; eexists; split; [reflexivity|apply nn_abs]|].
  destruct (Beqb x f0) eqn:Zx; [right; eexists; split; [reflexivity|discriminate]|].
  destruct (Beqb (fabs x) fone); [right; eexists; split; [reflexivity|discriminate]|].
  destruct (is_inf (lm_pow lm (fabs x) ftwo)); [now left|]. right. eexists. split; [reflexivity|]. apply SQ.
  destruct x as [[]| | |[] m e b]; try discriminate; reflexivity.
Qed.
Lemma nn_square : forall p : pynum FN, size_of_error p -> pn_square p = Err EOverflow \/ exists q, pn_square p = Ok q /\ size_of_error q.
Proof.
  intros [z|x] H; cbn [pn_square].
  - right. eexists. split; [reflexivity|]. cbn in *. now subst.
  - unfold n_powf. change (n_pow FN x (n_two FN)) with (f_pow lm x ftwo). destruct (nn_pow x) as [->|(r & -> & R)]; [now left|]. right. eexists. split; [reflexivity|exact R].
Qed.
Lemma float_zero : pn_float (PZ 0 : pynum FN) = Ok f0.
Proof. reflexivity. Qed.
Lemma nn_padd : forall p q : pynum FN, size_of_error p -> size_of_error q -> exists r, pn_add p q = Ok r /\ size_of_error r.
Proof.
  intros [z|x] [y|w] X Y; cbn in X, Y; subst; unfold pn_add; rewrite ?float_zero; eexists; (split; [reflexivity|]); [reflexivity| | |].
  - change (~ negative (fadd f0 w)). apply nn_add; [discriminate|exact Y].
  - change (~ negative (fadd x f0)). apply nn_add; [exact X|discriminate].
  - change (~ negative (fadd x w)). now apply nn_add.
Qed.
Lemma nn_sum : forall l acc, Forall size_of_error l -> size_of_error acc ->
  sum_squares (N:=FN) acc l = Err EOverflow \/ exists q, sum_squares (N:=FN) acc l = Ok q /\ size_of_error q.
Proof.
  induction l as [|p l IH]; intros acc F A; cbn [sum_squares]; [right; eauto|]. apply List.Forall_cons_iff in F as (P & F').
  destruct (nn_square p P) as [->|(q & -> & Q)]; [now left|]. cbn [rbind]. destruct (nn_padd acc q A Q) as (r & -> & R). cbn [rbind]. now apply IH.
Qed.
Lemma nn_root : forall p : pynum FN, size_of_error p -> exists s : f64, pn_sqrt p = Ok s /\ ~ negative s.
Proof.
  intros p P. assert (E : exists x, pn_float p = Ok x /\ ~ negative x).
  { destruct p as [z|x]; cbn in P; [subst; exists f0; split; [exact float_zero|discriminate]|exists x; auto]. }
  destruct E as (x & E & X). unfold pn_sqrt. rewrite E. cbn [rbind]. change (n_fun1 FN F_sqrt x) with (f_sqrt x). now apply nn_sqrt.
Qed.
Lemma nn_components : forall h d, (forall v, In v (dkeys d) -> get_var h v <> None) -> exists c, components h d = Ok c /\ Forall (fun vc => size_of_error (snd vc)) c.
Proof.
  intros h. induction d as [|[v x] d IH]; intros H; cbn [components]; [exists []; auto|].
  destruct (get_var h v) as [o|] eqn:G; [|exfalso; apply (H v); [now left|exact G]]. destruct IH as (c & -> & C); [intros w Hw; apply H; now right|].
  cbv zeta. cbn [rbind]. eexists. split; [reflexivity|]. constructor; [|exact C]. cbn [snd]. destruct (n_eq FN (v_std o) (n_zero FN)); [reflexivity|apply nn_abs].
Qed.

(** ** Reads *)
Lemma not_cut : forall (st : state FN) ins o, reachable st -> is_read ins = true -> reads st ins o -> o <> OExn EFuel.
Proof.
  intros st ins o R I (st' & k & H). destruct (reads_end (binary64_ends lm) st ins R I) as (st1 & o1 & (k1 & H1) & N1).
  specialize (H (k + k1)%nat ltac:(lia)). specialize (H1 (k + k1)%nat ltac:(lia)). congruence.
Qed.
Lemma heap_ok : forall st : state FN, reachable st -> okh (st_heap st).
Proof. intros st R. exact (proj1 (reachable_ok st R)). Qed.
Theorem derivatives_outcome : forall (st : state FN) i u o, reachable st -> is_number st i u -> reads st (IDeriv i) o ->
  o = OExn EOverflow \/ exists d, o = ODict d.
Proof.
  intros st i u o R U H. assert (C := not_cut st (IDeriv i) o R eq_refl H). destruct H as (st' & k & H). specialize (H k (le_n _)).
  cbn [step] in H. unfold with_uf, with_val in H. unfold is_number in U. rewrite U in H. unfold observe in H.
  destruct (derivatives k u (st_heap st)) as [[d|e] h'] eqn:D; injection H as _ <-; [right; eauto|]. left.
  destruct (ov_deriv _ _ _ _ _ (heap_ok st R) D) as [->| ->]; [reflexivity|congruence].
Qed.
Lemma deriv_reads : forall (st : state FN) i u k d h', is_number st i u -> derivatives k u (st_heap st) = (Ok d, h') -> reads st (IDeriv i) (ODict d).
Proof.
  intros st i u k d h' U D. apply (reads_step k); [|discriminate]. cbn [step]. unfold with_uf, with_val. unfold is_number in U. rewrite U. unfold observe. now rewrite D.
Qed.
Section History.
Variables (st : state FN) (L : list (option (list varid))) (i : nat) (vs : list varid) (u : uf FN).
Hypotheses (R : reachable st) (H : history st L) (I : nth_error L i = Some (Some vs)) (U : is_number st i u).
Lemma errors_result : forall k, (exists h', error_components k u (st_heap st) = (Err EFuel, h')) \/ (exists h', error_components k u (st_heap st) = (Err EOverflow, h')) \/
  exists c h', error_components k u (st_heap st) = (Ok c, h') /\ Forall (fun vc => size_of_error (snd vc)) c.
Proof.
  intros k. unfold error_components, bind. destruct (derivatives k u (st_heap st)) as [[d|e] h'] eqn:D.
  - right; right. assert (Q := deriv_reads _ _ _ _ _ _ U D). destruct (history_readable st L i vs d u H I U Q) as (_ & E & _).
    assert (V : h_var h' = h_var (st_heap st)) by (eapply read_objs; exact D).
    destruct (nn_components h' d) as (c & -> & C); [|exists c, h'; auto].
    intros v Hv. rewrite List.Forall_forall in E. specialize (E v Hv). unfold existing in E. unfold get_var in *. rewrite V. exact E.
  - destruct (ov_deriv _ _ _ _ _ (heap_ok st R) D) as [->| ->]; [right; left|left]; eauto.
Qed.
Lemma affine_result : forall k, (exists h', std_dev_affine k u (st_heap st) = (Err EFuel, h')) \/ (exists h', std_dev_affine k u (st_heap st) = (Err EOverflow, h')) \/
  exists s h', std_dev_affine k u (st_heap st) = (Ok s, h') /\ ~ negative s.
Proof.
  intros k. unfold std_dev_affine, bind. destruct (errors_result k) as [(h' & ->)|[(h' & ->)|(c & h' & -> & C)]]; [left; eauto|right; left; eauto|].
  destruct (nn_sum (map snd c) (PZ 0)) as [->|(q & -> & Q)]; [|reflexivity|right; left; cbn; eauto|].
  - apply List.Forall_forall. intros p Hp. apply in_map_iff in Hp as (vc & <- & Hv). rewrite List.Forall_forall in C. now apply C.
  - cbn [rbind]. destruct (nn_root q Q) as (s & -> & S). right; right. exists s, h'. auto.
Qed.
Theorem components_outcome : forall o, reads st (IErrs i) o ->
  o = OExn EOverflow \/ exists c, o = OErrs c /\ forall v p, In (v, p) c -> size_of_error p.
Proof.
  intros o Q. assert (C := not_cut st (IErrs i) o R eq_refl Q). destruct Q as (st' & k & Q). specialize (Q k (le_n _)).
  cbn [step] in Q. unfold with_uf, with_val in Q. unfold is_number in U. rewrite U in Q. unfold observe in Q.
  destruct (errors_result k) as [(h' & E)|[(h' & E)|(c & h' & E & F)]]; rewrite E in Q; injection Q as _ <-; [congruence|now left|].
  right. exists c. split; [reflexivity|]. intros v p Hp. rewrite List.Forall_forall in F. exact (F (v, p) Hp).
Qed.
Theorem deviation_outcome : forall ins o, ins = IStdS i \/ (ins = IStd i /\ uf_var u = None) -> reads st ins o ->
  o = OExn EOverflow \/ exists s : f64, o = ONum (N:=FN) s /\ ~ negative s.
Proof.
  intros ins o A Q. assert (C : o <> OExn EFuel) by (refine (not_cut st ins o R _ Q); destruct A as [->|[-> _]]; reflexivity).
  destruct Q as (st' & k & Q). specialize (Q k (le_n _)). unfold is_number in U.
  assert (X : observe st ONum (std_dev_affine k u (st_heap st)) = (st', o)).
  { destruct A as [->|[-> V]]; cbn [step] in Q; unfold with_uf, with_val in Q; rewrite U in Q; [exact Q|]. unfold std_dev in Q. now rewrite V in Q. }
  unfold observe in X. destruct (affine_result k) as [(h' & E)|[(h' & E)|(s & h' & E & F)]]; rewrite E in X; injection X as _ <-; [congruence|now left|].
  right. exists s. auto.
Qed.
End History.
End Outcome.

Theorem derivatives_or_overflow : forall lm (st : state (FOps lm)) i u, reachable st -> is_number st i u ->
  exists o, reads st (IDeriv i) o /\ (o = OExn EOverflow \/ exists d, o = ODict d).
Proof.
  intros lm st i u R U. destruct (reads_end (binary64_ends lm) st (IDeriv i) R eq_refl) as (st' & o & D & _). exists o. assert (Q : reads st (IDeriv i) o) by (exists st'; exact D).
  split; [exact Q|]. exact (derivatives_outcome lm st i u o R U Q).
Qed.
Theorem errors_or_overflow : forall lm, forall (st : state (FOps lm)) L i vs u, reachable st -> history st L -> nth_error L i = Some (Some vs) -> is_number st i u ->
  exists o, reads st (IErrs i) o /\ (o = OExn EOverflow \/ exists c, o = OErrs c /\ forall v p, In (v, p) c -> size_of_error p).
Proof.
  intros lm st L i vs u R H I U. destruct (reads_end (binary64_ends lm) st (IErrs i) R eq_refl) as (st' & o & D & _). exists o. assert (Q : reads st (IErrs i) o) by (exists st'; exact D).
  split; [exact Q|]. eapply components_outcome; eauto.
Qed.
Theorem deviation_or_overflow : forall lm, squares_not_negative lm -> forall (st : state (FOps lm)) L i vs u ins, reachable st -> history st L -> nth_error L i = Some (Some vs) -> is_number st i u ->
  ins = IStdS i \/ (ins = IStd i /\ uf_var u = None) ->
  exists o, reads st ins o /\ (o = OExn EOverflow \/ exists s : f64, o = ONum (N:=FOps lm) s /\ ~ negative s).
Proof.
  intros lm SQ st L i vs u ins R H I U A. assert (IR : is_read ins = true) by (destruct A as [->|[-> _]]; reflexivity).
  destruct (reads_end (binary64_ends lm) st ins R IR) as (st' & o & D & _). exists o. assert (Q : reads st ins o) by (exists st'; exact D).
  split; [exact Q|]. eapply deviation_outcome; eauto.
Qed.
