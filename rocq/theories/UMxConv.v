(** Operators on arrays and products of matrices over exact numbers: what they return, in terms
    of the specification. *)
From Coq Require Import ZArith List Bool Reals Lra Lia Arith.
From Verif Require Import Base Heap Affine Ops UMath NumR HeapSpec HeapProofs DenProofs Machine Spec
  Refine RefineStep Unumpy UMatrix History UnumpySpec ArrProofs.
Import ListNotations.

Section UMxConv.
Context {g lg : R -> R}.
Notation RN := (ROps g lg).
Notation sval := (sval g lg).
Local Open Scope R_scope.
Local Open Scope res_scope.
Implicit Types h : heap RN.

(** ** Specification of the operators on elements *)
Definition sop (op : binop) (a b : sval) : res sval :=
  match a, b with
  | SPlain (PNum p), SPlain (PNum q) => Base.rmap SPlain (pn_op op p q)
  | _, _ => sbin op a b
  end.
Fixpoint sdot_from (acc : sval) (l : list (sval * sval)) : res sval :=
  match l with
  | [] => Ok acc
  | (x, y) :: l' => p <- sop Bmul x y ;; s <- sop Badd acc p ;; sdot_from s l'
  end.
Definition sdot (l : list (sval * sval)) : res sval :=
  match l with
  | [] => Err EValue
  | (x, y) :: l' => p <- sop Bmul x y ;; sdot_from p l'
  end.

Lemma obj_op_rel : forall h op a b sa sb, wf anyc h -> vrel h a sa -> vrel h b sb ->
  okrel h (obj_op op a b h) (sop op sa sb).
Proof.
  intros h op a b sa sb W Ha Hb. pose proof (py_binop_rel h op a b sa sb W Ha Hb) as P.
  destruct a as [[p| |k|]|u], sa as [sp|n gr ds var]; try contradiction; cbn in Ha; subst; try exact P.
  destruct b as [[q| |k|]|u], sb as [sq|n gr ds var]; try contradiction; cbn in Hb; subst; try exact P.
  cbn. unfold lift. split; cbn; [now apply hext_refl|]. destruct (pn_op op p q); cbn; auto.
Qed.

(** Relation between two pairs of values. *)
Definition prel h (p : value RN * value RN) (q : sval * sval) : Prop := vrel h (fst p) (fst q) /\ vrel h (snd p) (snd q).
Lemma prel_hext : forall h h' l l', hext h h' -> Forall2 (prel h) l l' -> Forall2 (prel h') l l'.
Proof. intros h h' l l' X F. eapply Forall2_impl'; [|exact F]. intros a b [P Q]. split; eapply vrel_hext; eauto. Qed.

Lemma dot_from_rel : forall l l' h acc sacc, wf anyc h -> Forall2 (prel h) l l' -> vrel h acc sacc ->
  okrel h (dot_from acc l h) (sdot_from sacc l').
Proof.
  induction l as [|[x y] l IH]; intros l' h acc sacc W F A; inversion F as [|? [sx sy] ? sl [P Q] F']; subst.
  - cbn. split; cbn; auto using hext_refl.
  - cbn [dot_from sdot_from]. unfold bind. cbn in P, Q.
    destruct (obj_op_rel h Bmul x y sx sy W P Q) as [X1 R1]. destruct (obj_op Bmul x y h) as [r1 h1]. cbn [fst snd] in X1, R1.
    destruct r1 as [p|e], (sop Bmul sx sy) as [sp|e']; cbn in R1; try contradiction; cbn [rbind].
    2:{ subst. split; cbn; auto. }
    destruct (obj_op_rel h1 Badd acc p sacc sp (he_wf _ _ X1) (vrel_hext _ _ _ _ X1 A) R1) as [X2 R2].
    destruct (obj_op Badd acc p h1) as [r2 h2]. cbn [fst snd] in X2, R2.
    destruct r2 as [s|e], (sop Badd sacc sp) as [ss|e']; cbn in R2; try contradiction; cbn [rbind].
    2:{ subst. split; cbn; eauto using hext_trans. }
    pose proof (hext_trans _ _ _ X1 X2) as X.
    destruct (IH sl h2 s ss (he_wf _ _ X2) (prel_hext _ _ _ _ X F') R2) as [X3 R3]. split; auto. eapply hext_trans; eauto.
Qed.
Lemma obj_dot_rel : forall l l' h, wf anyc h -> Forall2 (prel h) l l' -> okrel h (obj_dot l h) (sdot l').
Proof.
  intros l l' h W F. destruct F as [|[x y] [sx sy] l l' [P Q] F].
  - cbn. split; cbn; auto using hext_refl.
  - cbn [obj_dot sdot]. unfold bind. cbn in P, Q.
    destruct (obj_op_rel h Bmul x y sx sy W P Q) as [X1 R1]. destruct (obj_op Bmul x y h) as [r1 h1]. cbn [fst snd] in X1, R1.
    destruct r1 as [p|e], (sop Bmul sx sy) as [sp|e']; cbn in R1; try contradiction; cbn [rbind].
    2:{ subst. split; cbn; auto. }
    destruct (dot_from_rel l l' h1 p sp (he_wf _ _ X1) (prel_hext _ _ _ _ X1 F) R1) as [X3 R3].
    split; auto. eapply hext_trans; eauto.
Qed.

(** ** Sequences of calls *)
Lemma mapM_rel : forall A (f : A -> M RN (value RN)) (sf : A -> res sval) l h, wf anyc h ->
  (forall x h1, In x l -> hext h h1 -> okrel h1 (f x h1) (sf x)) ->
  hext h (snd (mapM f l h)) /\
  match fst (mapM f l h) with
  | Ok r => exists sl, Forall2 (fun x s => sf x = Ok s) l sl /\ Forall2 (vrel (snd (mapM f l h))) r sl
  | Err e => exists x, In x l /\ sf x = Err e
  end.
Proof.
  intros A f sf. induction l as [|x l IH]; intros h W H.
  - cbn. split; [now apply hext_refl|]. exists []. auto.
  - cbn [mapM]. unfold bind. destruct (H x h (or_introl eq_refl) (hext_refl _ W)) as [X1 R1].
    destruct (f x h) as [r1 h1]. cbn [fst snd] in X1, R1.
    destruct r1 as [b|e], (sf x) as [sb|e'] eqn:Es; cbn in R1; try contradiction.
    2:{ subst. cbn. split; auto. exists x. auto. }
    destruct (IH h1 (he_wf _ _ X1)) as [X2 R2].
    { intros y h2 Hy X. apply H; [cbn; auto|]. eapply hext_trans; eauto. }
    destruct (mapM f l h1) as [r2 h2]. cbn [fst snd] in X2, R2. cbn [fst snd].
    destruct r2 as [r|e]; cbn [fst snd ret].
    + split; [eapply hext_trans; eauto|]. destruct R2 as (sl & F1 & F2). exists (sb :: sl).
      split; constructor; auto. eapply vrel_hext; eauto.
    + split; [eapply hext_trans; eauto|]. destruct R2 as (y & I & Hy). exists y. cbn. auto.
Qed.

(** ** Arrays *)
Definition arel h (a : arr (value RN)) (sa : arr sval) : Prop :=
  a_shape sa = a_shape a /\ Forall2 (vrel h) (a_flat a) (a_flat sa).
Lemma arel_hext : forall h h' a sa, hext h h' -> arel h a sa -> arel h' a sa.
Proof. intros h h' a sa X [E F]. split; auto. eapply Forall2_impl'; [|exact F]. intros; eapply vrel_hext; eauto. Qed.
Lemma bget_rel : forall h a sa idx, arel h a sa ->
  match bget idx a, bget idx sa with Some x, Some y => vrel h x y | None, None => True | _, _ => False end.
Proof.
  intros h a sa idx [E F]. unfold bget. rewrite E. set (k := roffset _ _ _).
  destruct (nth_error (a_flat a) k) as [x|] eqn:Ex.
  - destruct (Forall2_nth_error _ _ _ _ _ F _ _ Ex) as (y & -> & V). exact V.
  - now rewrite (Forall2_nth_error_None _ _ _ _ _ F _ Ex).
Qed.
Lemma row_col_rel : forall h a b sa sb k i j, arel h a sa -> arel h b sb ->
  match row_col a b k i j, row_col sa sb k i j with
  | Some l, Some l' => Forall2 (prel h) l l' | None, None => True | _, _ => False end.
Proof.
  intros h a b sa sb k i j Ha Hb. unfold row_col. induction (seq 0 k) as [|l t IH]; cbn [map all_some]; auto.
  pose proof (bget_rel h a sa [i; l] Ha) as P. pose proof (bget_rel h b sb [l; j] Hb) as Q.
  destruct (bget [i; l] a) as [x|], (bget [i; l] sa) as [x'|]; try contradiction; [|exact I].
  destruct (bget [l; j] b) as [y|], (bget [l; j] sb) as [y'|]; try contradiction; [|exact I].
  match goal with |- match match ?u with _ => _ end with _ => _ end => destruct u end;
  match goal with |- match match ?u with _ => _ end with _ => _ end => destruct u | |- match ?u with _ => _ end => destruct u end; auto.
  all: try contradiction. constructor; auto. split; auto.
Qed.

(** Element of the product; element of the result of an operator. *)
Definition smm (sa sb : arr sval) (k : nat) (idx : list nat) : res sval :=
  match idx with
  | [i; j] => match row_col sa sb k i j with Some l => sdot l | None => Err EIndex end
  | _ => Err EIndex
  end.
Definition sel (op : binop) (sa sb : arr sval) (idx : list nat) : res sval :=
  match bget idx sa, bget idx sb with Some x, Some y => sop op x y | _, _ => Err EIndex end.

(** What a function of two arrays returns: an array of shape [sh], with the elements that [sf]
    gives, or an exception. *)
Definition gives h (p : res (arr (value RN)) * heap RN) (ok : bool) (sh : list nat) (sf : list nat -> res sval) : Prop :=
  hext h (snd p) /\
  match fst p with
  | Ok r => a_shape r = sh /\ exists sl, Forall2 (fun x s => sf x = Ok s) (indices sh) sl /\ Forall2 (vrel (snd p)) (a_flat r) sl
  | Err e => ok = true -> exists x, In x (indices sh) /\ sf x = Err e
  end.
Lemma matmul_rel : forall h a b sa sb, wf anyc h -> arel h a sa -> arel h b sb ->
  exists ok sh k, gives h (obj_matmul a b h) ok sh (smm sa sb k) /\
    forall m l n, a_shape a = [m; l] -> a_shape b = [l; n] -> ok = true /\ sh = [m; n] /\ k = l.
Proof.
  intros h a b sa sb W Ha Hb. unfold obj_matmul.
  assert (D : forall e, gives h (raise e h) false [] (smm sa sb 0)) by (intros; split; cbn; [now apply hext_refl|discriminate]).
  destruct (a_shape a) as [|m [|k [|? ?]]]; try (exists false, [], 0%nat; split; [apply D|intros; discriminate]).
  destruct (a_shape b) as [|k' [|n [|? ?]]]; try (exists false, [], 0%nat; split; [apply D|intros; discriminate]).
  destruct (Nat.eqb_spec k k') as [<-|Nk].
  2:{ exists false, [], 0%nat. split; [apply D|]. intros m0 l n0 E1 E2. exfalso. apply Nk. congruence. }
  exists true, [m; n], k. split; [|intros; split; [reflexivity|split; congruence]].
  unfold bind.
  match goal with |- gives _ (let (_, _) := mapM ?f0 _ _ in _) _ _ _ => set (f := f0) end.
  destruct (mapM_rel _ f (smm sa sb k) (indices [m; n]) h W) as [X R].
  { intros idx h1 _ X. unfold f, smm. assert (W1 := he_wf _ _ X).
    destruct idx as [|i [|j [|? ?]]]; try (split; cbn; auto using hext_refl; fail).
    pose proof (row_col_rel h1 a b sa sb k i j (arel_hext _ _ _ _ X Ha) (arel_hext _ _ _ _ X Hb)) as P.
    destruct (row_col a b k i j), (row_col sa sb k i j); try contradiction.
    - now apply obj_dot_rel.
    - split; cbn; auto using hext_refl. }
  destruct (mapM f (indices [m; n]) h) as [[r|e] h']; cbn [fst snd] in X, R |- *.
  - split; cbn; auto.
  - split; cbn [fst snd]; auto.
Qed.
Lemma array_op_rel : forall h op a b sa sb, wf anyc h -> arel h a sa -> arel h b sb ->
  exists ok sh, gives h (array_op op a b h) ok sh (sel op sa sb) /\
    forall s, bshapes [a_shape a; a_shape b] = Some s -> ok = true /\ sh = s.
Proof.
  intros h op a b sa sb W Ha Hb. unfold array_op, vectorize. cbn [map].
  destruct (bshapes [a_shape a; a_shape b]) as [sh|].
  2:{ exists false, []. split; [split; cbn; [now apply hext_refl|discriminate]|discriminate]. }
  exists true, sh. split; [|intros s E; split; congruence].
  unfold bind.
  match goal with |- gives _ (let (_, _) := mapM ?f0 _ _ in _) _ _ _ => set (f := f0) end.
  destruct (mapM_rel _ f (sel op sa sb) (indices sh) h W) as [X R].
  { intros idx h1 _ X. unfold f, sel. assert (W1 := he_wf _ _ X).
    pose proof (bget_rel h1 a sa idx (arel_hext _ _ _ _ X Ha)) as P.
    pose proof (bget_rel h1 b sb idx (arel_hext _ _ _ _ X Hb)) as Q. cbn [all_some].
    destruct (bget idx a), (bget idx sa); try contradiction; [|split; cbn; auto using hext_refl].
    destruct (bget idx b), (bget idx sb); try contradiction; [|split; cbn; auto using hext_refl].
    now apply obj_op_rel. }
  destruct (mapM f (indices sh) h) as [[r|e] h']; cbn [fst snd] in X, R |- *.
  - split; cbn; auto.
  - split; cbn [fst snd]; auto.
Qed.

(** ** Results are not variables *)
Definition novar (a : sval) : Prop := forall n gr ds v, a <> SUF n gr ds (Some v).
Lemma scall_novar : forall f pos kwd args kw r, scall (g:=g) (lg:=lg) f pos kwd args kw = Ok r -> novar r.
Proof.
  intros f pos kwd args kw r H n gr ds v ->. unfold scall in H.
  destruct (existsb _ _ || existsb _ _).
  - destruct (f _ _) as [[p| |k|]|]; simpl in H; try discriminate;
    destruct (spos _ _ _ _ _); simpl in H; try discriminate;
    destruct (skws _ _ _ _); simpl in H; discriminate.
  - destruct (f _ _); discriminate.
Qed.
Lemma sop_novar : forall op a b r, sop op a b = Ok r -> novar r.
Proof.
  intros op a b r H. assert (S : sbin op a b = Ok r -> novar r).
  { unfold sbin. intros Q.
    destruct (is_suf a); [|destruct (is_suf b); [|discriminate]].
    all: match type of Q with rbind ?u _ = _ => destruct u as [s|] eqn:E end; cbn in Q; try discriminate.
    all: apply scall_novar in E; destruct s as [[| | |]|]; congruence. }
  unfold sop in H. destruct a as [[p| | |]|]; auto. destruct b as [[q| | |]|]; auto.
  destruct (pn_op op p q); cbn in H; [|discriminate]. injection H; intros <-. discriminate.
Qed.
Lemma sdot_from_novar : forall l acc r, novar acc -> sdot_from acc l = Ok r -> novar r.
Proof.
  induction l as [|[x y] l IH]; intros acc r A H; cbn in H.
  - congruence.
  - destruct (sop Bmul x y) as [s|]; cbn in H; [|discriminate]. destruct (sop Badd acc s) as [t|] eqn:E; cbn in H; [|discriminate].
    eapply IH; [|exact H]. eapply sop_novar; eauto.
Qed.
Lemma smm_novar : forall sa sb k idx r, smm sa sb k idx = Ok r -> novar r.
Proof.
  intros sa sb k idx r H. unfold smm in H. destruct idx as [|i [|j [|? ?]]]; try discriminate.
  destruct (row_col sa sb k i j) as [[|[x y] l]|]; try discriminate. cbn in H.
  destruct (sop Bmul x y) as [p|] eqn:E; cbn in H; [|discriminate]. eapply sdot_from_novar; [|exact H]. eapply sop_novar; eauto.
Qed.
Lemma sel_novar : forall op sa sb idx r, sel op sa sb idx = Ok r -> novar r.
Proof.
  intros op sa sb idx r H. unfold sel in H. destruct (bget idx sa), (bget idx sb); try discriminate. eapply sop_novar; eauto.
Qed.

(** ** Calls on the results of a program *)
Lemma args_length : forall (env : list (value RN)) is l, get_args env is = Some l -> length l = length is.
Proof.
  intros env. induction is as [|i is IH]; intros l E; cbn in E.
  - injection E; intros <-. reflexivity.
  - destruct (nth_error env i); [|discriminate]. destruct (get_args env is); [|discriminate]. injection E; intros <-. cbn. auto.
Qed.
Lemma call_arel : forall (st : state RN) ss ia a, sim st ss -> array_of st ia a ->
  exists sl, sargs (ss_env ss) (a_flat ia) = Some sl /\ arel (st_heap st) a (mkArr (a_cls a) (a_shape a) sl).
Proof.
  intros st ss ia a [W V E] (A1 & A2 & A3). pose proof (get_args_rel _ _ _ (a_flat ia) E) as A. rewrite A3 in A.
  destruct (sargs (ss_env ss) (a_flat ia)) as [sl|]; [|contradiction]. exists sl. split; auto. split; auto.
Qed.
Lemma call2_sim : forall f st ss ia ja r st', sim (g:=g) (lg:=lg) st ss -> array_call2 f st ia ja r st' ->
  (forall h a b sa sb, wf anyc h -> arel h a sa -> arel h b sb ->
     exists ok sh sf, gives h (f a b h) ok sh sf /\ forall idx s, sf idx = Ok s -> novar s) ->
  exists ne, sim st' (mkS (ss_vars ss) (ss_env ss ++ ne)) /\
    forall i n gr ds v, nth_error ne i <> Some (SUF n gr ds (Some v)).
Proof.
  intros f [h env] [vs senv] ia ja r [h' env'] S (a & b & Wi & Wj & Aa & Ab & H) P.
  destruct (call_arel _ _ _ _ S Aa) as (sla & _ & Ra). destruct (call_arel _ _ _ _ S Ab) as (slb & _ & Rb).
  cbn [st_heap st_env ss_vars ss_env] in *.
  destruct (P h a b _ _ (si_wf _ _ S) Ra Rb) as (ok & sh & sf & (X & G) & Nv).
  destruct r as [ir|e].
  - destruct H as (c & Ac & He & Hf & E). rewrite E in X, G. cbn [fst snd] in X, G.
    destruct G as (_ & sl & F1 & F2). exists sl. split.
    + subst env'. pose proof (sim_hext _ _ _ _ _ S X) as [W1 V1 E1]. split; cbn in *; auto. apply Forall2_app; auto.
    + intros i n gr ds v Q. assert (I : In (SUF n gr ds (Some v)) sl) by (eapply nth_error_In; eauto). clear - F1 Nv I.
      induction F1 as [|idx s t sl Hs F IH]; cbn in I; [contradiction|]. destruct I as [->|I]; auto.
      eapply (Nv _ _ Hs); reflexivity.
  - destruct H as (He & E). rewrite E in X. cbn in X. exists []. rewrite app_nil_r. subst env'. split.
    + eapply sim_hext; eauto.
    + intros [|i]; discriminate.
Qed.
Lemma operator_sim : forall op st ss ia ja r st', sim (g:=g) (lg:=lg) st ss -> array_call2 (array_op op) st ia ja r st' ->
  exists ne, sim st' (mkS (ss_vars ss) (ss_env ss ++ ne)) /\
    forall i n gr ds v, nth_error ne i <> Some (SUF n gr ds (Some v)).
Proof.
  intros op st ss ia ja r st' S H. eapply call2_sim; eauto. intros h a b sa sb W Ha Hb.
  destruct (array_op_rel h op a b sa sb W Ha Hb) as (ok & sh & G & _). exists ok, sh, (sel op sa sb). split; auto.
  apply sel_novar.
Qed.
Lemma product_sim : forall st ss ia ja r st', sim (g:=g) (lg:=lg) st ss -> array_call2 obj_matmul st ia ja r st' ->
  exists ne, sim st' (mkS (ss_vars ss) (ss_env ss ++ ne)) /\
    forall i n gr ds v, nth_error ne i <> Some (SUF n gr ds (Some v)).
Proof.
  intros st ss ia ja r st' S H. eapply call2_sim; eauto. intros h a b sa sb W Ha Hb.
  destruct (matmul_rel h a b sa sb W Ha Hb) as (ok & sh & k & G & _). exists ok, sh, (smm sa sb k). split; auto.
  apply smm_novar.
Qed.
End UMxConv.
