(** Correlated values in any arithmetic. *)
From Coq Require Import ZArith List Bool Arith Lia.
From Verif Require Import Base Heap HeapProofs Affine Ops UMath Machine Cov Copy Calls Unumpy UMatrix History CallProofs Fuel DepSpec Deps TwinSpec.
Import ListNotations.

Section CorrAny.
Context {N : NumOps}.
Implicit Types h : heap N.

Lemma news : forall l h vs h', new_variables l h = (Ok vs, h') ->
  vs = seq (length (h_var h)) (length l) /\ (exists xs, h_lc h' = h_lc h ++ xs) /\ exists objs, h_var h' = h_var h ++ objs /\ length objs = length l /\
  forall b x tag, nth_error l b = Some (x, tag) -> exists s o, n_fun1 N F_sqrt x = Ok s /\ check_std (PF s) = Ok (v_std o) /\ nth_error objs b = Some o /\ v_tag o = tag.
Proof.
  induction l as [|[x tag] l IH]; intros h vs h' H; cbn [new_variables] in H.
  { injection H as <- <-. split; [reflexivity|]. split; [exists []; now rewrite app_nil_r|]. exists []. split; [now rewrite app_nil_r|]. split; [reflexivity|]. intros [|b] y t E; discriminate E. }
  apply bind_ok in H as (s & h1 & H1 & H). unfold lift in H1. injection H1 as H1 <-. apply bind_ok in H as (u & h2 & H2 & H). apply bind_ok in H as (vs' & h3 & H3 & H).
  unfold new_var in H2. destruct (pn_float (PZ 0)) as [z|] eqn:Z; [|discriminate H2]. destruct (check_std (PF s)) as [s'|] eqn:C; [|discriminate H2]. cbn [alloc_lc] in H2. injection H2 as <- <-.
  cbn [uf_var] in H. injection H as <- <-. destruct (IH _ _ _ H3) as (-> & (xs & X) & objs & O & Lo & Q). cbn [h_lc h_var] in *.
  split. { cbn [length seq]. f_equal. rewrite app_length. cbn [length]. now rewrite Nat.add_1_r. }
  split. { eexists. rewrite X, <- app_assoc. reflexivity. }
  eexists (_ :: objs). split; [rewrite O, <- app_assoc; reflexivity|]. split; [cbn; now rewrite Lo|].
  intros [|b] y t E; cbn in E; [|exact (Q b y t E)]. injection E as <- <-. exists s. eexists. split; [exact H1|]. split; [|split; [reflexivity|reflexivity]]. exact C.
Qed.
Lemma combos : forall vs l h us h', new_combinations vs l h = (Ok us, h') ->
  h_var h' = h_var h /\ h_lc h' = h_lc h ++ map (fun p => LDict (combine vs (fst p))) l /\ length us = length l /\
  forall a c x, nth_error l a = Some (c, x) -> nth_error us a = Some (mkUF x (length (h_lc h) + a) None).
Proof.
  intros vs. induction l as [|[c x] l IH]; intros h us h' H; cbn [new_combinations] in H.
  { injection H as <- <-. split; [reflexivity|]. split; [cbn; now rewrite app_nil_r|]. split; [reflexivity|]. intros [|a] y t E; discriminate E. }
  cbn [alloc_lc] in H. apply bind_ok in H as (us' & h1 & H & E). injection E as <- <-. destruct (IH _ _ _ H) as (V & L & Lu & Q). cbn [h_lc h_var] in *.
  split; [exact V|]. split; [rewrite L, <- app_assoc; reflexivity|]. split; [cbn; now rewrite Lu|].
  intros [|a] c' y E; cbn in E; [injection E as <- <-; cbn; now rewrite Nat.add_0_r|]. cbn [nth_error]. rewrite (Q a c' y E). do 2 f_equal. rewrite app_length. cbn. lia.
Qed.
Definition clipped (x : num N) : num N := if n_lt N x (n_zero N) then n_zero N else x.
Lemma nth_combine : forall A B (l : list A) (m : list B) n a b, nth_error l n = Some a -> nth_error m n = Some b -> nth_error (combine l m) n = Some (a, b).
Proof. intros A B. induction l as [|x l IH]; intros [|y m] [|n] a b H K; cbn in *; try discriminate; [congruence|eauto]. Qed.

Theorem correlated_norm_any : forall (st : state N) eigh vals corr tags lam rows st', eigh corr = Ok (lam, rows) -> length lam = length vals -> tags_ok (length vals) tags ->
  call_step st (CCorrNorm eigh vals corr tags) = (st', ONone) ->
  length (st_env st') = (length (st_env st) + length vals)%nat /\
  exists vs, length vs = length vals /\ NoDup vs /\
  (forall b v x, nth_error vs b = Some v -> nth_error lam b = Some x -> ~ existing st v /\ existing st' v /\
     (exists s, n_fun1 N F_sqrt (if n_lt N x (n_zero N) then n_zero N else x) = Ok s /\ check_std (PF s) = Ok (sd st' v)) /\
     vtag st' v = match tags with Some t => nth b t None | None => None end) /\
  (forall a x s row, nth_error vals a = Some (x, s) -> nth_error rows a = Some row ->
     exists u, is_number st' (length (st_env st) + a) u /\ uf_nom u = x /\ uf_var u = None /\
       does st' (IDeriv (length (st_env st) + a)) st' (ODict (combine vs (map (fun c => n_mul N c s) row)))).
Proof.
  intros st eigh vals corr tags lam rows st' Ei Ll Tg C. cbn [call_step] in C. unfold push_list, as_values in C.
  destruct (correlated_values_norm eigh vals corr tags (st_heap st)) as [[us|e] h'] eqn:E; [|cbn in C; discriminate C]. cbn in C. injection C as <-.
  unfold correlated_values_norm in E. cbv zeta in E. set (tl := match tags with Some t => t | None => repeat None (length vals) end) in E.
  assert (Lt : length tl = length vals) by (unfold tl; destruct tags as [t|]; [exact Tg|apply repeat_length]).
  assert (Nv : forall A (p q : A), (vals = [] -> False) -> match vals with [] => p | _ => q end = q) by (intros A p q; destruct vals; [intros F; now elim F|reflexivity]).
  rewrite Nv in E by (intros ->; discriminate E). clear Nv.
  apply bind_ok in E as (et & h0 & E0 & E). unfold lift in E0. rewrite Ei in E0. injection E0 as <- <-. cbn [fst snd] in E.
  destruct (Nat.eqb_spec (length rows) (length vals)) as [Lr|]; cbn [negb] in E; [|discriminate E].
  apply bind_ok in E as (vs & h1 & E1 & E2). destruct (news _ _ _ _ E1) as (-> & (xs & X) & objs & O & Lo & Q). destruct (combos _ _ _ _ _ E2) as (V & L & Lu & Q2).
  match type of Lo with _ = ?n => assert (Ln : n = length vals) by (rewrite combine_length, map_length; lia) end. rewrite Ln in *.
  assert (Lu' : length us = length vals) by (rewrite Lu, !combine_length, !map_length, combine_length; lia). clear Lu. rename Lu' into Lu.
  cbn [st_env st_heap]. split; [rewrite app_length, map_length, Lu; reflexivity|].
  exists (seq (length (h_var (st_heap st))) (length vals)). split; [apply seq_length|]. split; [apply seq_NoDup|]. split.
  - intros b v x Hv Hx. assert (B : (b < length vals)%nat) by (rewrite <- Ll; apply nth_error_Some; rewrite Hx; discriminate).
    assert (v = (length (h_var (st_heap st)) + b)%nat). { apply (nth_error_nth _ _ 0%nat) in Hv. rewrite seq_nth in Hv by exact B. congruence. } subst v.
    assert (T : nth_error tl b = Some (nth b tl None)) by (apply nth_error_nth'; lia).
    assert (Hc : nth_error (combine (map clipped lam) tl) b = Some (clipped x, nth b tl None)) by (apply nth_combine; [now rewrite nth_error_map, Hx|exact T]).
    destruct (Q b _ _ Hc) as (s & o & Es & Eo & Ob & Et).
    assert (G : get_var h' (length (h_var (st_heap st)) + b) = Some o) by (unfold get_var; rewrite V, O, nth_error_app2, Nat.add_comm, Nat.add_sub by lia; exact Ob).
    unfold existing, sd, vtag. cbn [st_heap]. rewrite G. split; [|split; [discriminate|split]].
    + intros H. apply H. unfold get_var. apply nth_error_None. lia.
    + exists s. auto.
    + rewrite Et. unfold tl. destruct tags as [t|]; [reflexivity|]. now rewrite nth_repeat.
  - intros a x s row Hv Hr. set (transform := map _ (combine rows vals)) in *.
    assert (Ht : nth_error transform a = Some (map (fun c => n_mul N c s) row)) by (unfold transform; rewrite nth_error_map, (nth_combine _ _ _ _ _ _ _ Hr Hv); reflexivity).
    assert (Hc : nth_error (combine transform (map fst vals)) a = Some (map (fun c => n_mul N c s) row, x)) by (apply nth_combine; [exact Ht|now rewrite nth_error_map, Hv]).
    assert (Hu := Q2 a _ _ Hc). eexists. split; [|split; [|split]].
    + unfold is_number. cbn [st_env]. rewrite nth_error_app2, Nat.add_comm, Nat.add_sub by lia. rewrite nth_error_map, Hu. reflexivity.
    + reflexivity.
    + reflexivity.
    + exists 0%nat. intros f _. cbn [step]. unfold with_uf, with_val. cbn [st_env]. rewrite nth_error_app2, (Nat.add_comm (length (st_env st)) a), Nat.add_sub by lia. rewrite nth_error_map, Hu. cbn [option_map].
      unfold observe, derivatives, lc_derivatives. cbn [uf_lp st_heap].
      assert (G : get_lc h' (length (h_lc h1) + a) = LDict (combine (seq (length (h_var (st_heap st))) (length vals)) (map (fun c => n_mul N c s) row))).
      { unfold get_lc. rewrite L, app_nth2, Nat.add_comm, Nat.add_sub by lia. erewrite nth_error_nth; [reflexivity|]. rewrite nth_error_map, Hc. reflexivity. }
      rewrite G. reflexivity.
Qed.
(** correlated_values(): through the standard deviations and the correlations of the covariance matrix. *)
Lemma rmapM_nth : forall A B (f : A -> res B) l r, rmapM f l = Ok r -> length r = length l /\ forall n a, nth_error l n = Some a -> exists b, f a = Ok b /\ nth_error r n = Some b.
Proof.
  intros A B f. induction l as [|a l IH]; intros r H; cbn in H; [injection H as <-; split; [reflexivity|intros [|n] a E; discriminate E]|].
  destruct (f a) as [b|] eqn:F; [|discriminate H]. cbn in H. destruct (rmapM f l) as [r'|]; [|discriminate H]. cbn in H. injection H as <-. destruct (IH r' eq_refl) as (L & Q).
  split; [cbn; now rewrite L|]. intros [|n] a' E; cbn in E; [injection E as <-; eauto|]. exact (Q n a' E).
Qed.
Theorem correlated_any : forall (st : state N) eigh noms cov tags st', length cov = length noms -> call_step st (CCorr eigh noms cov tags) = (st', ONone) ->
  exists vals corr, map fst vals = noms /\ call_step st (CCorrNorm eigh vals corr tags) = (st', ONone) /\
  (forall a x s, nth_error vals a = Some (x, s) -> np_sqrt (entry cov a a) = Ok s) /\
  forall a b x y s t, nth_error vals a = Some (x, s) -> nth_error vals b = Some (y, t) ->
    let unit r := if n_eq N r (n_zero N) then n_one N else r in
    rbind (np_div (entry cov a b) (unit t)) (fun q => np_div q (unit s)) = Ok (entry corr a b).
Proof.
  intros st eigh noms cov tags st' Lc C. cbn [call_step] in C. unfold push_list, as_values in C.
  destruct (correlated_values eigh noms cov tags (st_heap st)) as [[us|e] h'] eqn:E; [|cbn in C; discriminate C]. unfold correlated_values in E.
  apply bind_ok in E as (stds & h0 & E0 & E). unfold lift in E0. injection E0 as E0 <-. apply bind_ok in E as (corr & h0 & E1 & E). unfold lift in E1. injection E1 as E1 <-.
  destruct (rmapM_nth _ _ _ _ _ E0) as (Ls & Qs). unfold diagonal in Ls. rewrite map_length, seq_length, Lc in Ls.
  assert (Dg : forall a, (a < length noms)%nat -> nth_error (diagonal cov) a = Some (entry cov a a)).
  { intros a Ha. unfold diagonal. rewrite nth_error_map. rewrite (nth_error_nth' _ 0%nat) by (rewrite seq_length; lia). rewrite seq_nth by lia. reflexivity. }
  assert (Vn : forall a x s, nth_error (combine noms stds) a = Some (x, s) -> (a < length noms)%nat /\ nth_error stds a = Some s).
  { intros a x s H. assert (Ha : (a < length (combine noms stds))%nat) by (apply nth_error_Some; congruence). rewrite combine_length in Ha. split; [lia|].
    apply (nth_error_nth _ _ (x, s)) in H. rewrite combine_nth in H by lia. injection H as _ H. rewrite <- H. apply nth_error_nth'. lia. }
  exists (combine noms stds), corr. split; [|split; [|split]].
  - clear - Ls. revert stds Ls. induction noms as [|x l IH]; intros [|s stds] H; try discriminate H; [reflexivity|]. cbn. f_equal. apply IH. now injection H.
  - cbn [call_step]. unfold push_list, as_values. rewrite E. exact C.
  - intros a x s H. destruct (Vn a x s H) as (Ha & Hs). destruct (Qs a _ (Dg a Ha)) as (s' & F & G). congruence.
  - intros a b x y s t Ha Hb unit. destruct (Vn a x s Ha) as (La & Sa). destruct (Vn b y t Hb) as (Lb & Sb). unfold normalize in E1.
    destruct (rmapM_nth _ _ _ _ _ E1) as (_ & Q1). destruct (Q1 a a) as (row & F & G); [rewrite (nth_error_nth' _ 0%nat) by (rewrite seq_length; lia); now rewrite seq_nth by lia|].
    destruct (rmapM_nth _ _ _ _ _ F) as (_ & Q2). destruct (Q2 b b) as (c & F2 & G2); [rewrite (nth_error_nth' _ 0%nat) by (rewrite seq_length; lia); now rewrite seq_nth by lia|].
    assert (Nm : forall n r, nth_error stds n = Some r -> nth n (map unit stds) (n_zero N) = unit r) by (intros n r H; apply nth_error_nth; now rewrite nth_error_map, H).
    fold unit in F2. rewrite (Nm b t Sb), (Nm a s Sa) in F2. rewrite F2. unfold entry at 1. rewrite (nth_error_nth _ _ _ G), (nth_error_nth _ _ _ G2). reflexivity.
Qed.
End CorrAny.
