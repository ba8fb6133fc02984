(** Local chain rule: derivatives of the result of one call or operator in terms of those of its
    operands. *)
From Coq Require Import ZArith List Bool Reals Lra Lia.
From Coquelicot Require Import Coquelicot.
From Flocq Require Zaux Raux.
From Verif Require Import Base Heap Affine Ops UMath NumR HeapSpec DenProofs Machine Spec Refine
  RefineStep Plain Regular DiffProofs ADProofs History HistoryProofs Prim PrimProofs PrimReg.
Import ListNotations.
Local Open Scope R_scope.

Section Chain.
Context {g lg : R -> R}.
Notation RN := (ROps g lg).
Notation state := (state RN).
Notation sval := (sval g lg).

Definition sdef : sval := SPlain (POther 0).

Lemma sim_len : forall (st : state) ss, sim st ss -> length (st_env st) = length (ss_env ss).
Proof. intros st ss [_ _ E]. clear - E. induction E; simpl; auto. Qed.

Lemma deriv_is_grad : forall (st : state) ss j v x, sim st ss -> deriv_is st j v x ->
  exists a, nth_error (ss_env ss) j = Some a /\ sgrad a v = x.
Proof.
  intros st ss j v x S H. unfold deriv_is in H.
  destruct (nth_error (st_env st) j) as [[p|u]|] eqn:E; [| |contradiction].
  - destruct (Forall2_nth_error _ _ _ _ _ (si_env _ _ S) _ _ E) as (sa & Es & Rl).
    destruct sa; simpl in Rl; [|contradiction]. exists (SPlain a). subst; auto.
  - destruct H as (d & D & <-).
    destruct (number_rel st ss j u S E) as (n & gr & ds & var & NR).
    destruct (deriv_read _ _ _ _ _ _ _ _ _ S NR D) as (d' & Q & _ & _ & V).
    injection Q; intros <-. exists (SUF n gr ds var). split; [apply NR|]. symmetry. apply V.
Qed.

Lemma deriv_is_plain_or_uncertain : forall (st : state) j v x, deriv_is st j v x ->
  uncertain st j \/ x = 0.
Proof.
  intros st j v x H. unfold deriv_is in H. unfold uncertain, is_number.
  destruct (nth_error (st_env st) j) as [[p|u]|]; [right; exact H|left; eauto|contradiction].
Qed.

Lemma lin_grad_cons : forall t (ts : list (R * sval)) v,
  lin_grad (t :: ts) v = fst t * sgrad (snd t) v + lin_grad ts v.
Proof. reflexivity. Qed.
Lemma lin_grad_app : forall ts ts' v, lin_grad (g:=g) (lg:=lg) (ts ++ ts') v = lin_grad ts v + lin_grad ts' v.
Proof. intros. unfold lin_grad. rewrite map_app. apply Rsum_app. Qed.

Lemma spos_sum : forall pos av kv (l : list sval) i0 ts, spos pos i0 l av kv = Ok ts ->
  exists c : nat -> R,
    (forall k a, nth_error l k = Some a -> is_suf a = true ->
       exists p, pos (i0 + k)%nat av kv = Ok p /\ pval p = c k) /\
    forall v, lin_grad ts v = Rsum (map (fun k => c k * sgrad (nth k l sdef) v) (seq 0 (length l))).
Proof.
  intros pos av kv. induction l as [|a l IH]; intros i0 ts H; cbn [spos] in H.
  - injection H; intros <-. exists (fun _ => 0). split; [|reflexivity].
    intros k a Hk. destruct k; discriminate.
  - destruct (is_suf a) eqn:Sa.
    + destruct (pos i0 av kv) as [p|e] eqn:Ep; [|discriminate].
      cbn [rbind] in H.
      destruct (spos pos (S i0) l av kv) as [t|e] eqn:Et; [|discriminate].
      injection H; intros <-. destruct (IH _ _ Et) as (c & C1 & C2).
      exists (fun k => match k with O => pval p | S k => c k end). split.
      * intros [|k] b Hk Sb; simpl in Hk.
        -- exists p. rewrite Nat.add_0_r. auto.
        -- destruct (C1 k b Hk Sb) as (q & Q1 & Q2). exists q. split; auto.
           rewrite <- Q1. f_equal. lia.
      * intros v. rewrite lin_grad_cons. cbn [length seq map Rsum nth fst snd].
        rewrite Rsum_seq_shift, C2. reflexivity.
    + destruct (IH _ _ H) as (c & C1 & C2).
      exists (fun k => match k with O => 0 | S k => c k end). split.
      * intros [|k] b Hk Sb; simpl in Hk.
        -- injection Hk; intros ->. congruence.
        -- destruct (C1 k b Hk Sb) as (q & Q1 & Q2). exists q. split; auto.
           rewrite <- Q1. f_equal. lia.
      * intros v. cbn [length seq map Rsum nth fst snd].
        rewrite Rsum_seq_shift, C2. ring.
Qed.
Lemma skws_sum : forall kwd av kv (l : list (nat * sval)) ts, skws kwd l av kv = Ok ts ->
  exists c : nat -> R,
    (forall i k a, nth_error l i = Some (k, a) -> is_suf a = true ->
       exists p, kwd k av kv = Ok p /\ pval p = c i) /\
    forall v, lin_grad ts v =
      Rsum (map (fun i => c i * sgrad (snd (nth i l (0%nat, sdef))) v) (seq 0 (length l))).
Proof.
  intros kwd av kv. induction l as [|[k0 a] l IH]; intros ts H; cbn [skws] in H.
  - injection H; intros <-. exists (fun _ => 0). split; [|reflexivity].
    intros i k a Hk. destruct i; discriminate.
  - destruct (is_suf a) eqn:Sa.
    + destruct (kwd k0 av kv) as [p|e] eqn:Ep; [|discriminate].
      cbn [rbind] in H.
      destruct (skws kwd l av kv) as [t|e] eqn:Et; [|discriminate].
      injection H; intros <-. destruct (IH _ eq_refl) as (c & C1 & C2).
      exists (fun k => match k with O => pval p | S k => c k end). split.
      * intros [|i] k b Hk Sb; simpl in Hk; [|eauto].
        injection Hk; intros -> ->. exists p. auto.
      * intros v. rewrite lin_grad_cons. cbn [length seq map Rsum nth fst snd].
        rewrite Rsum_seq_shift, C2. reflexivity.
    + destruct (IH _ H) as (c & C1 & C2).
      exists (fun k => match k with O => 0 | S k => c k end). split.
      * intros [|i] k b Hk Sb; simpl in Hk; [|eauto].
        injection Hk; intros -> ->. congruence.
      * intros v. cbn [length seq map Rsum nth fst snd].
        rewrite Rsum_seq_shift, C2. ring.
Qed.

Lemma get_args_nth : forall (env : list (value RN)) is l i j a, get_args env is = Some l ->
  nth_error is i = Some j -> nth_error env j = Some a -> nth_error l i = Some a.
Proof.
  induction is as [|j0 is IH]; intros l i j a H Hi Hj; simpl in H; [destruct i; discriminate|].
  destruct (nth_error env j0) as [b|] eqn:Eb; [|discriminate].
  destruct (get_args env is) as [l'|]; [|discriminate]. injection H; intros <-.
  destruct i; simpl in Hi; [injection Hi; intros ->; simpl; congruence|]. simpl. eauto.
Qed.
Lemma sargs_nth : forall (env : list sval) is l i j a, sargs env is = Some l ->
  nth_error is i = Some j -> nth_error env j = Some a -> nth_error l i = Some a.
Proof.
  induction is as [|j0 is IH]; intros l i j a H Hi Hj; simpl in H; [destruct i; discriminate|].
  destruct (nth_error env j0) as [b|] eqn:Eb; [|discriminate].
  destruct (sargs env is) as [l'|]; [|discriminate]. injection H; intros <-.
  destruct i; simpl in Hi; [injection Hi; intros ->; simpl; congruence|]. simpl. eauto.
Qed.
Lemma sargs_len : forall (env : list sval) is l, sargs env is = Some l -> length l = length is.
Proof.
  induction is as [|j0 is IH]; intros l H; simpl in H; [injection H; intros <-; auto|].
  destruct (nth_error env j0); [|discriminate]. destruct (sargs env is); [|discriminate].
  injection H; intros <-. simpl. f_equal. apply IH; auto.
Qed.
Lemma skwargs_nth : forall (env : list sval) is l i k j a, skwargs env is = Some l ->
  nth_error is i = Some (k, j) -> nth_error env j = Some a -> nth_error l i = Some (k, a).
Proof.
  induction is as [|[k0 j0] is IH]; intros l i k j a H Hi Hj; simpl in H; [destruct i; discriminate|].
  destruct (nth_error env j0) as [b|] eqn:Eb; [|discriminate].
  destruct (skwargs env is) as [l'|]; [|discriminate]. injection H; intros <-.
  destruct i; simpl in Hi; [injection Hi; intros -> ->; simpl; congruence|]. simpl. eauto.
Qed.
Lemma skwargs_len : forall (env : list sval) is l, skwargs env is = Some l -> length l = length is.
Proof.
  induction is as [|[k0 j0] is IH]; intros l H; simpl in H; [injection H; intros <-; auto|].
  destruct (nth_error env j0); [|discriminate]. destruct (skwargs env is); [|discriminate].
  injection H; intros <-. simpl. f_equal. apply IH; auto.
Qed.

Lemma scall_chain : forall f pos kwd (args : list sval) kw n gr ds var,
  scall f pos kwd args kw = Ok (SUF n gr ds var) ->
  let av := map snom args in
  let kv := map (fun p => (fst p, snom (snd p))) kw in
  exists p (cp ck : nat -> R), f av kv = Ok (PNum p) /\ n = pval p /\
    (forall i a, nth_error args i = Some a -> is_suf a = true ->
       exists q, pos i av kv = Ok q /\ pval q = cp i) /\
    (forall i k a, nth_error kw i = Some (k, a) -> is_suf a = true ->
       exists q, kwd k av kv = Ok q /\ pval q = ck i) /\
    (forall v, gr v =
      Rsum (map (fun i => cp i * sgrad (nth i args sdef) v) (seq 0 (length args))) +
      Rsum (map (fun i => ck i * sgrad (snd (nth i kw (0%nat, sdef))) v) (seq 0 (length kw)))).
Proof.
  intros f pos kwd args kw n gr ds var H av kv. unfold scall in H. fold av kv in H.
  destruct (_ || _) in H.
  - destruct (f av kv) as [r|e]; [|discriminate]. cbn [rbind] in H.
    destruct r as [p| | |]; try discriminate H.
    + destruct (spos pos 0 args av kv) as [tp|e] eqn:Ep; [|discriminate]. cbn [rbind] in H.
      destruct (skws kwd kw av kv) as [tk|e] eqn:Ek; [|discriminate]. cbn [rbind] in H.
      destruct (spos_sum _ _ _ _ _ _ Ep) as (cp & P1 & P2).
      destruct (skws_sum _ _ _ _ _ Ek) as (ck & K1 & K2).
      injection H; intros _ _ <- <-. exists p, cp, ck. repeat split; auto.
      intros v. rewrite lin_grad_app, P2, K2. reflexivity.
    + destruct (spos _ _ _ _ _); [|discriminate]. destruct (skws _ _ _ _); discriminate.
  - destruct (f av kv); discriminate.
Qed.

Lemma new_number : forall (st : state) ss r st' w, sim st' (fst (spush (g:=g) (lg:=lg) ss r)) ->
  length (st_env st) = length (ss_env ss) ->
  is_number st' (length (st_env st)) w ->
  exists n gr ds var, r = Ok (SUF n gr ds var) /\ uf_nom w = n /\
    num_rel st' (fst (spush ss r)) (length (st_env st)) w n gr ds var.
Proof.
  intros st ss r st' w S L W.
  destruct (number_rel st' _ _ w S W) as (n & gr & ds & var & NR).
  pose proof (nr_env _ _ _ _ _ _ _ _ NR) as E. rewrite L in E.
  exists n, gr, ds, var. split; [|split; [apply NR|exact NR]].
  destruct r as [a|e]; simpl in E; rewrite nth_error_app2, Nat.sub_diag in E by lia; simpl in E;
    [|discriminate]. congruence.
Qed.

Theorem chain_rule : forall (st : state) f pos kwd args kw st' w d a k,
  reachable st -> does st (ICall f pos kwd args kw) st' ONone ->
  is_number st' (length (st_env st)) w -> reads st' (IDeriv (length (st_env st))) (ODict d) ->
  get_args (st_env st) args = Some a -> get_kwargs (st_env st) kw = Some k ->
  let av := map nominal_value a in
  let kv := kw_map nominal_value k in
  exists p (cp ck : nat -> R), f av kv = Ok (PNum p) /\ uf_nom w = pval p /\
    (forall i j, nth_error args i = Some j -> uncertain st j ->
       exists q, pos i av kv = Ok q /\ pval q = cp i) /\
    (forall i n j, nth_error kw i = Some (n, j) -> uncertain st j ->
       exists q, kwd n av kv = Ok q /\ pval q = ck i) /\
    (forall v (D E : nat -> R),
       (forall i j, nth_error args i = Some j -> deriv_is st j v (D i)) ->
       (forall i n j, nth_error kw i = Some (n, j) -> deriv_is st j v (E i)) ->
       dval d v = Rsum (map (fun i => cp i * D i) (seq 0 (length args))) +
                  Rsum (map (fun i => ck i * E i) (seq 0 (length kw)))).
Proof.
  intros st f pos kwd args kw st' w d a k Rc Dn W Rd Ga Gk av kv.
  destruct (reach_sim st Rc) as (ss & S).
  destruct (does_sim _ _ _ _ _ S Dn) as [S' _].
  pose proof (get_args_rel _ _ _ args (si_env _ _ S)) as RA. rewrite Ga in RA.
  pose proof (get_kwargs_rel _ _ _ kw (si_env _ _ S)) as RK. rewrite Gk in RK.
  destruct (sargs (ss_env ss) args) as [sa|] eqn:Sa; [|contradiction].
  destruct (skwargs (ss_env ss) kw) as [sk|] eqn:Sk; [|contradiction].
  cbn [sstep] in S'. rewrite Sa, Sk in S'.
  destruct (new_number st ss _ st' w S' (sim_len _ _ S) W) as (n & gr & ds & var & Er & En & NR).
  destruct (deriv_read _ _ _ _ _ _ _ _ _ S' NR Rd) as (d' & Q & _ & _ & V).
  injection Q; intros <-. clear Q.
  destruct (scall_chain _ _ _ _ _ _ _ _ _ Er) as (p & cp & ck & F & Np & P & K & G).
  rewrite <- (proj1 (map_rel _ _ _ RA)) in F, P, K.
  rewrite <- (proj1 (kwmap_rel _ _ _ RK)) in F, P, K. fold av kv in F, P, K.
  assert (US : forall j, uncertain st j -> exists b, nth_error (ss_env ss) j = Some b /\ is_suf b = true).
  { intros j [u U]. destruct (number_rel st ss j u S U) as (n1 & g1 & d1 & v1 & NR1).
    exists (SUF n1 g1 d1 v1). split; [apply NR1|reflexivity]. }
  exists p, cp, ck. split; [exact F|]. split; [congruence|]. split; [|split].
  - intros i j Hi Hu. destruct (US j Hu) as (b & B1 & B2).
    apply (P i b); auto. eapply sargs_nth; eauto.
  - intros i m j Hi Hu. destruct (US j Hu) as (b & B1 & B2).
    apply (K i m b); auto. eapply skwargs_nth; eauto.
  - intros v D E HD HE. rewrite V, G.
    rewrite (sargs_len _ _ _ Sa), (skwargs_len _ _ _ Sk). f_equal; f_equal; apply map_ext_in.
    + intros i Hi. apply in_seq in Hi.
      destruct (nth_error args i) as [j|] eqn:Ej; [|apply nth_error_None in Ej; lia].
      destruct (deriv_is_grad st ss j v _ S (HD i j Ej)) as (b & B1 & <-).
      rewrite (nth_error_nth sa i sdef (sargs_nth _ _ _ _ _ _ Sa Ej B1)). reflexivity.
    + intros i Hi. apply in_seq in Hi.
      destruct (nth_error kw i) as [[m j]|] eqn:Ej; [|apply nth_error_None in Ej; lia].
      destruct (deriv_is_grad st ss j v _ S (HE i m j Ej)) as (b & B1 & <-).
      rewrite (nth_error_nth sk i (0%nat, sdef) (skwargs_nth _ _ _ _ _ _ _ Sk Ej B1)). reflexivity.
Qed.

(** ** Operators *)
Lemma has_nominal_snom : forall (st : state) ss j p, sim st ss -> has_nominal st j p ->
  exists a, nth_error (ss_env ss) j = Some a /\ snom a = PNum p.
Proof.
  intros st ss j p S (a & E & N).
  destruct (Forall2_nth_error _ _ _ _ _ (si_env _ _ S) _ _ E) as (sa & Es & Rl).
  exists sa. split; auto. rewrite <- N. symmetry. eapply nominal_rel; eauto.
Qed.
Lemma uncertain_suf : forall (st : state) ss j, sim st ss ->
  (uncertain st j <-> exists b, nth_error (ss_env ss) j = Some b /\ is_suf b = true).
Proof.
  intros st ss j S. split.
  - intros [u U]. destruct (number_rel st ss j u S U) as (n1 & g1 & d1 & v1 & NR1).
    exists (SUF n1 g1 d1 v1). split; [apply NR1|reflexivity].
  - intros (b & B1 & B2).
    destruct (nth_error (st_env st) j) as [a|] eqn:E.
    + destruct (Forall2_nth_error _ _ _ _ _ (si_env _ _ S) _ _ E) as (sa & Es & Rl).
      rewrite B1 in Es. injection Es; intros <-. destruct b; [discriminate|].
      destruct a as [p|u]; simpl in Rl; [contradiction|]. exists u. exact E.
    + apply nth_error_None in E. rewrite (sim_len _ _ S) in E.
      apply nth_error_None in E. congruence.
Qed.

Lemma scall2 : forall f pos kwd (a b : sval) n gr ds var,
  scall f pos kwd [a; b] [] = Ok (SUF n gr ds var) ->
  exists r ca cb, f [snom a; snom b] [] = Ok (PNum r) /\ n = pval r /\
    (is_suf a = true -> exists q, pos 0%nat [snom a; snom b] [] = Ok q /\ pval q = ca) /\
    (is_suf b = true -> exists q, pos 1%nat [snom a; snom b] [] = Ok q /\ pval q = cb) /\
    forall v, gr v = ca * sgrad a v + cb * sgrad b v.
Proof.
  intros f pos kwd a b n gr ds var H.
  destruct (scall_chain _ _ _ _ _ _ _ _ _ H) as (r & cp & ck & F & En & P & _ & G).
  exists r, (cp 0%nat), (cp 1%nat). split; [exact F|]. split; [exact En|]. split; [|split].
  - intros Sa. exact (P 0%nat a eq_refl Sa).
  - intros Sb. exact (P 1%nat b eq_refl Sb).
  - intros v. rewrite G. simpl. ring.
Qed.

(** The derivative function for the second operand of % needs a float as first operand. *)
Lemma mod_needs_float : forall (p q r : pynum RN), op_der_y Bmod p q = Ok r ->
  exists x : R, p = PF (N:=RN) x.
Proof.
  intros [z|x] q r H; [exfalso|exists x; reflexivity].
  unfold op_der_y, partial_derivative in H.
  cbn [arg_get nth_error as_num rbind] in H.
  destruct (pn_mul (PF (n_step RN)) (pn_abs q)) as [s|e]; [|discriminate]. cbn [rbind] in H.
  destruct (pn_add q (if pn_is0 s then PF (n_step RN) else s)) as [s'|e]; [|discriminate].
  cbn in H. discriminate.
Qed.

Theorem operator_chain : forall (st : state) op i j p q st' w d,
  reachable st -> has_nominal st i p -> has_nominal st j q ->
  does st (IBin op i j) st' ONone ->
  is_number st' (length (st_env st)) w -> reads st' (IDeriv (length (st_env st))) (ODict d) ->
  float_op (N:=RN) op (pval p) (pval q) = Ok (PNum (PF (N:=RN) (uf_nom w))) /\
  exists cx cy,
    (uncertain st i -> op_dom op true false (pval p) (pval q) ->
       is_derive (fun t => op_value (g:=g) (lg:=lg) op t (pval q)) (pval p) cx) /\
    (uncertain st j -> op_dom op false true (pval p) (pval q) ->
       is_derive (fun t => op_value (g:=g) (lg:=lg) op (pval p) t) (pval q) cy) /\
    forall v Dx Dy, deriv_is st i v Dx -> deriv_is st j v Dy -> dval d v = cx * Dx + cy * Dy.
Proof.
  intros st op i j p q st' w d Rc Hp Hq Dn W Rd.
  destruct (reach_sim st Rc) as (ss & S).
  destruct (has_nominal_snom st ss i p S Hp) as (a & Ea & Na).
  destruct (has_nominal_snom st ss j q S Hq) as (b & Eb & Nb).
  destruct (does_sim _ _ _ _ _ S Dn) as [S' _].
  cbn [sstep sargs] in S'. rewrite Ea, Eb in S'.
  destruct (new_number st ss _ st' w S' (sim_len _ _ S) W) as (n & gr & ds & var & Er & En & NR).
  destruct (deriv_read _ _ _ _ _ _ _ _ _ S' NR Rd) as (d' & Q & _ & _ & V).
  injection Q; intros <-. clear Q.
  assert (US : forall k c, nth_error (ss_env ss) k = Some c -> uncertain st k -> is_suf c = true).
  { intros k c Hk Hu. apply (uncertain_suf st ss k S) in Hu. destruct Hu as (c' & C1 & C2). congruence. }
  assert (FL : forall c m, snom c = PNum m -> is_suf c = true -> exists x : R, m = PF (N:=RN) x).
  { intros [|x ? ? ?] m H1 H2; [discriminate|]. simpl in H1. injection H1; intros <-. now exists x. }
  assert (DER : exists cx cy, float_op (N:=RN) op (pval p) (pval q) = Ok (PNum (PF (N:=RN) (uf_nom w))) /\
    (is_suf a = true -> exists r, op_der_x op p q = Ok r /\ pval r = cx) /\
    (is_suf b = true -> exists r, op_der_y op p q = Ok r /\ pval r = cy) /\
    forall v, gr v = cx * sgrad a v + cy * sgrad b v).
  { unfold sbin in Er.
    assert (FO : forall x y r, float_op (N:=RN) op x y = Ok (PNum r) -> exists t : R, r = PF (N:=RN) t).
    { intros x y r H. destruct op; simpl in H; try (injection H; intros <-; eexists; reflexivity).
      - unfold Rdiv_py in H. destruct (Reqb y 0); [discriminate|]. injection H; intros <-. eexists; reflexivity.
      - destruct (Reqb y 0); [discriminate|]. injection H; intros <-. eexists; reflexivity.
      - destruct (Reqb y 0); [discriminate|]. injection H; intros <-. eexists; reflexivity.
      - destruct (Rpow_py x y) as [[t|]|]; try discriminate. injection H; intros <-. eexists; reflexivity. }
    destruct (is_suf a) eqn:Sa.
    - destruct (scall _ _ _ _ _) as [r|e] eqn:Es; [|discriminate]. cbn [rbind] in Er.
      assert (r = SUF n gr ds var).
      { destruct r as [pl|]; [destruct pl|]; try discriminate Er; congruence. }
      subst r. destruct (scall2 _ _ _ _ _ _ _ _ _ Es) as (r & ca & cb & F & Nr & A & B & G).
      rewrite Na, Nb in *. destruct (FL a p Na Sa) as (x & ->).
      unfold float_method in F. rewrite pn_float_R in F. cbn [rbind] in F.
      exists ca, cb. split; [|split; [|split]].
      + destruct (FO _ _ _ F) as (t & ->). cbn [pval] in *. rewrite F. congruence.
      + intros _. exact (A Sa).
      + intros Sb. exact (B Sb).
      + exact G.
    - destruct (is_suf b) eqn:Sb; [|discriminate].
      destruct (scall _ _ _ _ _) as [r|e] eqn:Es; [|discriminate]. cbn [rbind] in Er.
      assert (r = SUF n gr ds var).
      { destruct r as [pl|]; [destruct pl|]; try discriminate Er; congruence. }
      subst r. destruct (scall2 _ _ _ _ _ _ _ _ _ Es) as (r & ca & cb & F & Nr & A & B & G).
      rewrite Na, Nb in *. destruct (FL b q Nb Sb) as (x & ->).
      unfold float_rmethod in F. rewrite pn_float_R in F. cbn [rbind] in F.
      exists cb, ca. split; [|split; [|split]].
      + destruct (FO _ _ _ F) as (t & ->). cbn [pval] in *. rewrite F. congruence.
      + discriminate.
      + intros _. exact (A Sb).
      + intros v. rewrite G. ring. }
  destruct DER as (cx & cy & F & A & B & G). split; [exact F|]. exists cx, cy.
  split; [|split].
  - intros Hu Dom. pose proof (US _ _ Ea Hu) as Sa. destruct (FL _ _ Na Sa) as (x & ->).
    destruct (A Sa) as (r & Er' & <-). destruct (op_slope_x op x q Dom) as (c & Ec & D).
    cbn [pval] in *. rewrite Ec in Er'. injection Er'; intros <-. exact D.
  - intros Hu Dom. pose proof (US _ _ Eb Hu) as Sb. destruct (FL _ _ Nb Sb) as (y & ->).
    destruct (B Sb) as (r & Er' & <-).
    assert (Fl : op = Bmod -> exists x : R, p = PF (N:=RN) x).
    { intros ->. exact (mod_needs_float _ _ _ Er'). }
    destruct (op_slope_y op p y Dom Fl) as (c & Ec & D).
    cbn [pval] in *. rewrite Ec in Er'. injection Er'; intros <-. exact D.
  - intros v Dx Dy HX HY. rewrite V, G.
    destruct (deriv_is_grad st ss i v _ S HX) as (a' & A1 & <-).
    destruct (deriv_is_grad st ss j v _ S HY) as (b' & B1 & <-).
    rewrite Ea in A1; rewrite Eb in B1. injection A1; intros <-. injection B1; intros <-. reflexivity.
Qed.

(** ** Unary operators, umath functions of one argument *)
Definition value1 (f : pyfun RN) (t : R) : R :=
  match f [PNum (PF (N:=RN) t)] [] with Ok (PNum r) => pval r | _ => 0 end.
Lemma regular_call1_slope : forall f pos kwd (x : R),
  regular_call (g:=g) (lg:=lg) f pos kwd [(PNum (PF (N:=RN) x), true)] [] ->
  exists c, pos 0%nat [PNum (PF (N:=RN) x)] [] = Ok c /\ is_derive (value1 f) x (pval c).
Proof.
  intros f pos kwd x (c & D & P & _).
  destruct (P 0%nat _ eq_refl) as (r & Er & Ev). exists r. split; auto. rewrite Ev.
  pose proof (fdiff_partial _ _ _ _ 0%nat D (Nat.lt_0_succ _)) as H.
  change (call_at [(PNum (PF (N:=RN) x), true)] [] 0%nat) with x in H.
  eapply is_derive_ext; [|exact H]. intros t. unfold callG, upd, value1. simpl.
  destruct (f [PNum (PF (N:=RN) t)] []) as [[]|]; reflexivity.
Qed.
Theorem call1_chain : forall (st : state) f pos kwd j u st' w d,
  reachable st -> is_number st j u ->
  regular_call (g:=g) (lg:=lg) f pos kwd [(PNum (PF (N:=RN) (uf_nom u)), true)] [] ->
  does st (ICall f pos kwd [j] []) st' ONone ->
  is_number st' (length (st_env st)) w -> reads st' (IDeriv (length (st_env st))) (ODict d) ->
  uf_nom w = value1 f (uf_nom u) /\
  exists c, is_derive (value1 f) (uf_nom u) c /\
    forall v D, deriv_is st j v D -> dval d v = c * D.
Proof.
  intros st f pos kwd j u st' w d Rc U Rg Dn W Rd.
  destruct (chain_rule st f pos kwd [j] [] st' w d [VUF u] [] Rc Dn W Rd) as
    (p & cp & ck & F & En & P & _ & G); [simpl; unfold is_number in U; now rewrite U|reflexivity|].
  cbn [map kw_map nominal_value] in F, P. change (@kw_map RN nominal_value []) with (@nil (nat * plain RN)) in F, P.
  split; [unfold value1; simpl in F; simpl; rewrite F; exact En|].
  destruct (regular_call1_slope _ _ _ _ Rg) as (c & Ec & D). exists (pval c). split; [exact D|].
  intros v Dj HD. rewrite (G v (fun _ => Dj) (fun _ => 0)).
  - destruct (P 0%nat j eq_refl (ex_intro _ u U)) as (r & Er & Ev). simpl in Er, Ec.
    rewrite Ec in Er. injection Er; intros <-. simpl. rewrite <- Ev. ring.
  - intros [|[|i]] k Hk; simpl in Hk; try discriminate. injection Hk; intros <-. exact HD.
  - intros [|i] m k Hk; discriminate.
Qed.
Theorem unop_chain : forall (st : state) op j u st' w d,
  reachable st -> is_number st j u -> unop_dom op (uf_nom u) ->
  does st (ICall (unop_fun op) (unop_pos op) no_kw [j] []) st' ONone ->
  is_number st' (length (st_env st)) w -> reads st' (IDeriv (length (st_env st))) (ODict d) ->
  uf_nom w = value1 (unop_fun op) (uf_nom u) /\
  exists c, is_derive (value1 (unop_fun op)) (uf_nom u) c /\
    forall v D, deriv_is st j v D -> dval d v = c * D.
Proof. intros. eapply call1_chain; eauto. now apply unop_regular. Qed.
Theorem umath1_chain : forall (st : state) f j u st' w d,
  reachable st -> is_number st j u -> m1_dom f (uf_nom u) ->
  does st (ICall (m1_fun f) (m1_pos f) (m1_kw f) [j] []) st' ONone ->
  is_number st' (length (st_env st)) w -> reads st' (IDeriv (length (st_env st))) (ODict d) ->
  n_fun1 RN f (uf_nom u) = Ok (uf_nom w) /\
  exists c, is_derive (fun t => match n_fun1 RN f t with Ok y => y | Err _ => 0 end) (uf_nom u) c /\
    forall v D, deriv_is st j v D -> dval d v = c * D.
Proof.
  intros st f j u st' w d Rc U Dom Dn W Rd.
  destruct (call1_chain st _ _ _ j u st' w d Rc U (umath1_regular f _ Dom) Dn W Rd) as (E & c & D & H).
  assert (V1 : forall t, value1 (m1_fun f) t = match n_fun1 RN f t with Ok y => y | Err _ => 0 end).
  { intros t. unfold value1, m1_fun. cbn [pn_float rbind]. 
    destruct (n_fun1 RN f t); reflexivity. }
  split.
  - destruct (m1_near (g:=g) (lg:=lg) f _ Dom) as (e & Pe & N1).
    assert (X : Rfun1 g lg f (uf_nom u) = Ok (m1_real (g:=g) (lg:=lg) f (uf_nom u))).
    { apply N1. rewrite Rminus_eq_0, Rabs_R0. exact Pe. }
    rewrite V1 in E. change (n_fun1 RN) with (Rfun1 g lg) in *. rewrite X in E. rewrite X, E. reflexivity.
  - exists c. split; [|exact H]. eapply is_derive_ext; [|exact D]. exact V1.
Qed.

(** ** umath functions of two arguments *)
Theorem umath2_chain : forall (st : state) f i j p q st' w d,
  reachable st -> has_nominal st i p -> has_nominal st j q ->
  does st (ICall (m2_fun f) (m2_pos f) (m2_kw f) [i; j] []) st' ONone ->
  is_number st' (length (st_env st)) w -> reads st' (IDeriv (length (st_env st))) (ODict d) ->
  n_fun2 RN f (pval p) (pval q) = Ok (uf_nom w) /\
  exists cx cy,
    (uncertain st i -> m2_dom f true false (pval p) (pval q) ->
       is_derive (fun t => match n_fun2 RN f t (pval q) with Ok y => y | Err _ => 0 end) (pval p) cx) /\
    (uncertain st j -> m2_dom f false true (pval p) (pval q) ->
       is_derive (fun t => match n_fun2 RN f (pval p) t with Ok y => y | Err _ => 0 end) (pval q) cy) /\
    forall v Dx Dy, deriv_is st i v Dx -> deriv_is st j v Dy -> dval d v = cx * Dx + cy * Dy.
Proof.
  intros st f i j p q st' w d Rc (a & Ea & Na) (b & Eb & Nb) Dn W Rd.
  destruct (chain_rule st _ _ _ [i; j] [] st' w d [a; b] [] Rc Dn W Rd) as
    (r & cp & ck & F & En & P & _ & G); [simpl; now rewrite Ea, Eb|reflexivity|].
  cbn [map] in F, P. rewrite Na, Nb in F, P.
  change (@kw_map RN nominal_value []) with (@nil (nat * plain RN)) in F, P.
  assert (FL : forall k c m, nth_error (st_env st) k = Some c -> nominal_value c = PNum m ->
            uncertain st k -> exists x : R, m = PF (N:=RN) x).
  { intros k c m H1 H2 [u U]. unfold is_number in U. rewrite U in H1. injection H1; intros <-.
    simpl in H2. injection H2; intros <-. eexists; reflexivity. }
  split.
  - unfold m2_fun in F. rewrite !pn_float_R in F. cbn [rbind] in F.
    destruct (n_fun2 RN f (pval p) (pval q)); [|discriminate]. cbn [rbind] in F.
    injection F; intros <-. simpl in En. congruence.
  - exists (cp 0%nat), (cp 1%nat). split; [|split].
    + intros Hu Dom. destruct (FL _ _ _ Ea Na Hu) as (x & ->).
      assert (Ox : okn (PF (N:=RN) x) true) by (intros _; now exists x).
      assert (Oq : okn q false) by discriminate.
      destruct (umath2_regular f _ q true false Ox Oq Dom) as (c & D & P' & _).
      destruct (P' 0%nat _ eq_refl) as (r1 & E1 & V1).
      destruct (P 0%nat i eq_refl Hu) as (r2 & E2 & V2).
      cbn [map fst kw_plain] in E1. rewrite E1 in E2. injection E2; intros <-. rewrite <- V2, V1.
      pose proof (fdiff_partial _ _ _ _ 0%nat D (Nat.lt_0_succ _)) as H.
      change (call_at [(PNum (PF (N:=RN) x), true); (PNum q, false)] [] 0%nat) with x in H.
      eapply is_derive_ext; [|exact H]. intros t. unfold callG, upd. simpl fillp.
      unfold m2_fun. simpl fillk. rewrite !pn_float_R. cbn [rbind pval].
      destruct (n_fun2 RN f t (pval q)); reflexivity.
    + intros Hu Dom. destruct (FL _ _ _ Eb Nb Hu) as (y & ->).
      assert (Oy : okn (PF (N:=RN) y) true) by (intros _; now exists y).
      assert (Op : okn p false) by discriminate.
      destruct (umath2_regular f p _ false true Op Oy Dom) as (c & D & P' & _).
      destruct (P' 1%nat _ eq_refl) as (r1 & E1 & V1).
      destruct (P 1%nat j eq_refl Hu) as (r2 & E2 & V2).
      cbn [map fst kw_plain] in E1. rewrite E1 in E2. injection E2; intros <-. rewrite <- V2, V1.
      assert (L1 : (1 < 2)%nat) by lia.
      pose proof (fdiff_partial _ _ _ _ 1%nat D L1) as H.
      change (call_at [(PNum p, false); (PNum (PF (N:=RN) y), true)] [] 1%nat) with y in H.
      eapply is_derive_ext; [|exact H]. intros t. unfold callG, upd. simpl fillp.
      unfold m2_fun. simpl fillk. rewrite !pn_float_R. cbn [rbind pval].
      destruct (n_fun2 RN f (pval p) t); reflexivity.
    + intros v Dx Dy HX HY.
      rewrite (G v (fun k => match k with O => Dx | _ => Dy end) (fun _ => 0)).
      * simpl. ring.
      * intros [|[|[|k]]] m Hk; simpl in Hk; try discriminate; injection Hk; intros <-; auto.
      * intros [|k] m n Hk; discriminate.
Qed.

(** ** fsum, modf, ldexp *)
Theorem fsum_chain : forall (st : state) args st' w d,
  reachable st ->
  does st (ICall flat_fsum fsum_pos fsum_kw
            args []) st' ONone ->
  is_number st' (length (st_env st)) w -> reads st' (IDeriv (length (st_env st))) (ODict d) ->
  (forall P, (forall i j, nth_error args i = Some j -> exists p, has_nominal st j p /\ pval p = P i) ->
     uf_nom w = Rsum (map P (seq 0 (length args)))) /\
  (forall v D, (forall i j, nth_error args i = Some j -> deriv_is st j v (D i)) ->
     dval d v = Rsum (map D (seq 0 (length args)))).
Proof.
  intros st args st' w d Rc Dn W Rd.
  assert (GA : exists a, get_args (st_env st) args = Some a).
  { destruct Dn as (k & K). specialize (K k (le_n k)). simpl in K.
    destruct (get_args (st_env st) args); [eauto|]. discriminate K. }
  destruct GA as (a & Ga).
  destruct (chain_rule st _ _ _ args [] st' w d a [] Rc Dn W Rd Ga eq_refl) as
    (p & cp & ck & F & En & P & _ & G). cbv zeta in *.
  change (@kw_map RN nominal_value []) with (@nil (nat * plain RN)) in F, P.
  split.
  - intros Q HQ. unfold flat_fsum in F.
    destruct (floats_of (map nominal_value a)) as [l|e] eqn:El; [|discriminate]. cbn [rbind] in F.
    simpl in F. injection F; intros <-. rewrite En. simpl. rewrite fold_Rsum.
    clear - Ga El HQ. revert a l Q Ga El HQ. induction args as [|j args IH]; intros a l Q Ga El HQ.
    + simpl in Ga. injection Ga; intros <-. simpl in El. injection El; intros <-. reflexivity.
    + simpl in Ga. destruct (nth_error (st_env st) j) as [b|] eqn:Eb; [|discriminate].
      destruct (get_args (st_env st) args) as [a'|] eqn:Ea; [|discriminate]. injection Ga; intros <-.
      destruct (HQ 0%nat j eq_refl) as (p & (b' & B1 & B2) & V). rewrite Eb in B1. injection B1; intros <-.
      simpl in El. rewrite B2 in El. rewrite pn_float_R in El. cbn [rbind] in El.
      destruct (floats_of (map nominal_value a')) as [l'|e] eqn:El'; [|discriminate].
      cbn [rbind] in El. injection El; intros <-. cbn [length seq map Rsum]. rewrite Rsum_seq_shift, V.
      f_equal. apply (IH a' l' (fun k => Q (S k)) eq_refl El').
      intros i k Hi. apply (HQ (S i) k Hi).
  - intros v D HD. rewrite (G v D (fun _ => 0) HD) by (intros [|i] m k Hk; discriminate).
    simpl Rsum at 2. rewrite Rplus_0_r. f_equal. apply map_ext_in. intros i Hi. apply in_seq in Hi.
    destruct (nth_error args i) as [j|] eqn:Ej; [|apply nth_error_None in Ej; lia].
    destruct (deriv_is_plain_or_uncertain st j v _ (HD i j Ej)) as [Hu| ->]; [|ring].
    destruct (P i j Ej Hu) as (q & E1 & <-). injection E1; intros <-. simpl. ring.
Qed.

Theorem modf_chain : forall (st : state) j u st' w d,
  reachable st -> is_number st j u -> does st (IModf j) st' ONone ->
  is_number st' (length (st_env st)) w -> reads st' (IDeriv (length (st_env st))) (ODict d) ->
  uf_nom w = uf_nom u - IZR (Flocq.Core.Raux.Ztrunc (uf_nom u)) /\
  forall v D, deriv_is st j v D -> dval d v = D.
Proof.
  intros st j u st' w d Rc U Dn W Rd. destruct (reach_sim st Rc) as (ss & S).
  destruct (does_sim _ _ _ _ _ S Dn) as [S' _].
  destruct (number_rel st ss j u S U) as (n & gr & ds & var & NU).
  cbn [sstep] in S'. rewrite (nr_env _ _ _ _ _ _ _ _ NU) in S'.
  destruct (new_number st ss _ st' w S' (sim_len _ _ S) W) as (n' & gr' & ds' & var' & Er & En & NR).
  destruct (deriv_read _ _ _ _ _ _ _ _ _ S' NR Rd) as (d' & Q & _ & _ & V).
  injection Q; intros <-. injection Er; intros _ _ <- <-. split.
  - rewrite En, (nr_nom _ _ _ _ _ _ _ _ NU). reflexivity.
  - intros v D HD. destruct (deriv_is_grad st ss j v D S HD) as (b & B1 & <-).
    rewrite (nr_env _ _ _ _ _ _ _ _ NU) in B1. injection B1; intros <-. apply V.
Qed.
Theorem ldexp_chain : forall (st : state) j u e st' w d,
  reachable st -> is_number st j u -> does st (ILdexp j e) st' ONone ->
  is_number st' (length (st_env st)) w -> reads st' (IDeriv (length (st_env st))) (ODict d) ->
  uf_nom w = uf_nom u * Flocq.Core.Raux.bpow Zaux.radix2 e /\
  forall v D, deriv_is st j v D -> dval d v = Flocq.Core.Raux.bpow Zaux.radix2 e * D.
Proof.
  intros st j u e st' w d Rc U Dn W Rd. destruct (reach_sim st Rc) as (ss & S).
  destruct (does_sim _ _ _ _ _ S Dn) as [S' _].
  destruct (number_rel st ss j u S U) as (n & gr & ds & var & NU).
  cbn [sstep] in S'. rewrite (nr_env _ _ _ _ _ _ _ _ NU) in S'.
  destruct (new_number st ss _ st' w S' (sim_len _ _ S) W) as (n' & gr' & ds' & var' & Er & En & NR).
  destruct (deriv_read _ _ _ _ _ _ _ _ _ S' NR Rd) as (d' & Q & _ & _ & V).
  injection Q; intros <-. injection Er; intros _ _ <- <-. split.
  - rewrite En, (nr_nom _ _ _ _ _ _ _ _ NU). reflexivity.
  - intros v D HD. destruct (deriv_is_grad st ss j v D S HD) as (b & B1 & <-).
    rewrite (nr_env _ _ _ _ _ _ _ _ NU) in B1. injection B1; intros <-. apply V.
Qed.
End Chain.
