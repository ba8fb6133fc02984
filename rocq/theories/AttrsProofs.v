(** Saving and restoring the attributes of instances of subclasses of UFloat. *)
From Coq Require Import Ascii String List Bool Arith Permutation Lia.
From Verif Require Import Base Attrs.
Import ListNotations.
Local Open Scope list_scope.
Local Open Scope string_scope.

(** * Specification *)

(** Hierarchies whose slots can be saved. The first two conditions hold for all Python classes.
    The others: __slots__ is not an iterator, slots have no private name, none is __weakref__,
    and the name of a slot is not used by a class of the hierarchy for something else. *)
Record savable {V} (T : nat -> class V) (c : nat) : Prop := {
  sv_mro : forall k, In k (mro T c) -> exists l, mro T k = k :: l;
  sv_sub : forall k k', In k (mro T c) -> In k' (mro T k) -> In k' (mro T c);
  sv_iter : forall k l, In k (mro T c) -> c_slots (T k) <> Some (SOnce l);
  sv_private : forall k n, In k (mro T c) -> In n (own T k) ->
    (exists x, n = "__" ++ x) -> exists x, n = x ++ "__";
  sv_weakref : forall k n, In k (mro T c) -> In n (own T k) -> n <> "__weakref__";
  sv_hidden : forall k n, In k (mro T c) -> In n (own T k) -> n <> "__dict__" ->
    exists k', lookup T (mro T c) n = FSlot k'
}.

(** Instances as Python makes them. *)
Definition instance {V} (T : nat -> class V) (h : heap V) (o : obj V) : Prop :=
  match o_dict o with
  | Some d => has_dict T (o_class o) = true /\ d < List.length h
  | None => has_dict T (o_class o) = false
  end.

(** The values of attributes that are not those of a class: attributes of the classes are
    hidden by the keys of the __dict__, unless they are properties. *)
Definition of_instance {V} (T : nat -> class V) (h : heap V) (o : obj V) (n : string) : Prop :=
  n <> "__dict__" /\ n <> "__weakref__" /\
  forall a, lookup T (mro T (o_class o)) n = FAttr a ->
    (exists v, a = CPlain v) /\ exists d w, o_dict o = Some d /\ In (n, w) (dict_at h d).
Definition same_attr {V} (p : V -> V) (a b : res (aval V)) : Prop :=
  match a, b with
  | Ok (AV v), Ok (AV w) => w = p v
  | Err e, Err e' => e = e'
  | _, _ => False
  end.

Local Open Scope list_scope.

Lemma substring_end : forall x y, substring (String.length x) (String.length y) (x ++ y)%string = y.
Proof.
  induction x as [|a x IH]; intro y; cbn; [|apply IH].
  induction y as [|b y IHy]; cbn; [reflexivity|]. rewrite IHy. reflexivity.
Qed.
Lemma prefix_ex : forall a b, String.prefix a b = true -> exists x, b = (a ++ x)%string.
Proof.
  induction a as [|c a IH]; intros b P; [exists b; reflexivity|]. destruct b as [|d b]; [discriminate P|].
  cbn in P. destruct (ascii_dec c d) as [->|]; [|discriminate P]. destruct (IH b P) as [x ->]. exists x. reflexivity.
Qed.
Lemma length_app : forall x y, String.length (x ++ y)%string = String.length x + String.length y.
Proof. induction x as [|a x IH]; intro y; cbn; [reflexivity|]. rewrite IH. reflexivity. Qed.
Lemma not_private : forall n, ((exists x, n = "__" ++ x) -> exists x, n = x ++ "__")%string -> private n = false.
Proof.
  intros n H. unfold private. destruct (String.prefix "__" n) eqn:P; [|reflexivity].
  destruct (H (prefix_ex _ _ P)) as [x ->]. unfold ends_dunder. rewrite length_app. cbn [String.length].
  replace (String.length x + 2 - 2) with (String.length x) by lia. pose proof (substring_end x "__") as SE. cbn [String.length] in SE.
  rewrite SE, String.eqb_refl, (proj2 (Nat.leb_le 2 _)) by lia. reflexivity.
Qed.

Section Proofs.
Variable V : Type.
Variable vnone : V.
Variable T : nat -> class V.
Variable order : list string -> list string.
Hypothesis order_perm : forall l, Permutation l (order l).

Lemma eqb_eq : forall a b, String.eqb a b = true <-> a = b.
Proof. exact String.eqb_eq. Qed.

Lemma put_in : forall A n (a : A) l, NoDup (map fst l) ->
  NoDup (map fst (put n a l)) /\ (forall m b, In (m, b) (put n a l) <-> (m = n /\ b = a) \/ (m <> n /\ In (m, b) l)).
Proof.
  intros A n a l. induction l as [|[m b] l IH]; intro ND.
  - cbn. split; [constructor; [intros []|constructor]|]. intros m b. split.
    + intros [E|[]]. injection E as <- <-. left. auto.
    + intros [[-> ->]|[_ []]]. left. reflexivity.
  - cbn [map fst] in ND. inversion ND as [|? ? NI ND']; subst. specialize (IH ND'). destruct IH as [I1 I2].
    cbn [put]. destruct (String.eqb n m) eqn:E.
    + apply eqb_eq in E. subst m. cbn [map fst]. split; [constructor; assumption|].
      intros m c. cbn. split.
      * intros [X|X]. { injection X as <- <-. left. auto. }
        right. split; [|right; exact X]. intros ->. apply NI. apply (in_map fst) in X. exact X.
      * intros [[-> ->]|[NE [X|X]]]; [left; reflexivity| |right; exact X]. injection X as -> _. contradiction.
    + assert (NE : n <> m). { intros ->. rewrite String.eqb_refl in E. discriminate. }
      cbn [map fst]. split.
      * constructor; [|exact I1]. intro X. apply in_map_iff in X. destruct X as [[m' b'] [X1 X2]]. cbn in X1. subst m'.
        apply I2 in X2. destruct X2 as [[-> _]|[_ X2]]; [contradiction|]. apply NI. apply (in_map fst) in X2. exact X2.
      * intros m' b'. cbn. rewrite I2. split.
        -- intros [X|[[-> ->]|[X1 X2]]].
           ++ injection X as <- <-. right. split; [congruence|left; reflexivity].
           ++ left. auto.
           ++ right. auto.
        -- intros [[-> ->]|[X1 [X2|X2]]]; auto.
Qed.

Lemma assoc_none : forall (l : list (string * V)) n, assoc n l = None -> forall w, ~ In (n, w) l.
Proof.
  induction l as [|[m v] l IH]; intros n E w I; [destruct I|]. cbn in E. destruct (String.eqb n m) eqn:Q; [discriminate|].
  destruct I as [I|I]; [|exact (IH n E w I)]. injection I as -> ->. rewrite String.eqb_refl in Q. discriminate.
Qed.
Lemma assoc_put : forall (l : list (string * V)) n v, assoc n (put n v l) = Some v.
Proof.
  induction l as [|[m w] l IH]; intros n v; cbn; [rewrite String.eqb_refl; reflexivity|].
  destruct (String.eqb n m) eqn:Q; cbn; rewrite Q; [reflexivity|apply IH].
Qed.
Lemma assoc_put_other : forall (l : list (string * V)) n m v, m <> n -> assoc m (put n v l) = assoc m l.
Proof.
  induction l as [|[m' w] l IH]; intros n m v NE; cbn.
  - rewrite (proj2 (String.eqb_neq _ _) NE). reflexivity.
  - destruct (String.eqb n m') eqn:Q; cbn.
    + apply eqb_eq in Q. subst m'. rewrite (proj2 (String.eqb_neq _ _) NE). reflexivity.
    + destruct (String.eqb m m'); [reflexivity|apply IH; exact NE].
Qed.
Lemma dict_at_put : forall (h : heap V) d n v, d < List.length h -> dict_at (dict_put h d n v) d = put n v (dict_at h d).
Proof.
  intros h d n v LT. unfold dict_put, dict_at at 1. rewrite app_nth2; rewrite firstn_length_le by lia; [|lia].
  rewrite Nat.sub_diag. reflexivity.
Qed.

(** Setting an attribute and reading attributes. *)
Theorem set_get : forall h o n v h' o', instance T h o -> setattr T h o n (AV v) = Ok (h', o') ->
  instance T h' o' /\ getattr vnone T h' o' n = Ok (AV v) /\
  forall m, m <> n -> getattr vnone T h' o' m = getattr vnone T h o m.
Proof.
  intros h o n v h' o' IN S. unfold setattr in S. destruct (String.eqb n "__dict__") eqn:N1; [destruct (o_dict o); discriminate S|].
  destruct (String.eqb n "__weakref__") eqn:N2; [discriminate S|].
  destruct (lookup T (mro T (o_class o)) n) as [k|a|] eqn:L.
  - injection S as <- <-. split; [exact IN|]. split.
    + unfold getattr. rewrite N1, N2. cbn [set_slot o_class o_slots]. rewrite L, Nat.eqb_refl, String.eqb_refl. reflexivity.
    + intros m NE. unfold getattr, in_dict. cbn [set_slot o_class o_slots o_dict].
      destruct (lookup T (mro T (o_class o)) m) as [k'|a|]; try reflexivity.
      rewrite (proj2 (String.eqb_neq n m)) by congruence. rewrite andb_false_r. reflexivity.
  - destruct a as [w|w]; [|discriminate S]. destruct (o_dict o) as [d|] eqn:OD; [|discriminate S]. injection S as <- <-.
    unfold instance in IN. rewrite OD in IN. destruct IN as [HD LT].
    split; [|split].
    + unfold instance. rewrite OD. split; [exact HD|]. unfold dict_put. rewrite app_length, firstn_length_le by lia. cbn [List.length].
      rewrite skipn_length. lia.
    + unfold getattr, in_dict. rewrite N1, N2, L, OD, (dict_at_put _ _ _ _ LT), assoc_put. reflexivity.
    + intros m NE. unfold getattr, in_dict. rewrite OD, (dict_at_put _ _ _ _ LT), (assoc_put_other _ _ _ _ NE). reflexivity.
  - destruct (o_dict o) as [d|] eqn:OD; [|discriminate S]. injection S as <- <-.
    unfold instance in IN. rewrite OD in IN. destruct IN as [HD LT].
    split; [|split].
    + unfold instance. rewrite OD. split; [exact HD|]. unfold dict_put. rewrite app_length, firstn_length_le by lia. cbn [List.length].
      rewrite skipn_length. lia.
    + unfold getattr, in_dict. rewrite N1, N2, L, OD, (dict_at_put _ _ _ _ LT), assoc_put. reflexivity.
    + intros m NE. unfold getattr, in_dict. rewrite OD, (dict_at_put _ _ _ _ LT), (assoc_put_other _ _ _ _ NE). reflexivity.
Qed.

Lemma mem_In : forall n l, mem n l = true <-> In n l.
Proof.
  intros n l. unfold mem. rewrite existsb_exists. split.
  - intros [x [I E]]. apply eqb_eq in E. subst x. exact I.
  - intro I. exists n. split; [exact I|apply String.eqb_refl].
Qed.

Lemma lookup_slot : forall l n k, lookup T l n = FSlot k -> In k l /\ In n (descriptors T k).
Proof.
  induction l as [|k' l IH]; intros n k E; cbn in E; [discriminate|].
  destruct (mem n (descriptors T k')) eqn:M.
  - injection E as <-. split; [left; reflexivity|]. apply mem_In. exact M.
  - destruct (assoc n (c_attrs (T k'))); [discriminate|]. destruct (IH _ _ E) as [A B]. split; [right; exact A|exact B].
Qed.

Section Save.
Variable c : nat.
Hypothesis SV : savable T c.

Lemma listed_declared : forall k s, In k (mro T c) -> c_slots (T k) = Some s -> listed s = declared s.
Proof.
  intros k s I E. destruct s as [x|x|x]; try reflexivity. exfalso. exact (sv_iter _ _ SV k x I E).
Qed.

Lemma slots_attr_own : forall l n, (forall k, In k l -> In k (mro T c)) -> In n (slots_attr T l) ->
  exists k, In k (mro T c) /\ In n (own T k).
Proof.
  induction l as [|k l IH]; intros n H I; cbn in I; [destruct I|].
  destruct (c_slots (T k)) as [s|] eqn:E.
  - exists k. split; [apply H; left; reflexivity|]. unfold own. rewrite E.
    rewrite <- (listed_declared k s (H k (or_introl eq_refl)) E). exact I.
  - apply (IH n); [|exact I]. intros k' I'. apply H. right. exact I'.
Qed.

Lemma all_slots_own : forall n, In n (all_slots T order c) <-> exists k, In k (mro T c) /\ In n (own T k).
Proof.
  intro n. unfold all_slots. split.
  - intro I. apply (Permutation_in _ (Permutation_sym (order_perm _))) in I. apply nodup_In in I.
    apply in_flat_map in I. destruct I as [k [I1 I2]]. apply (slots_attr_own _ _ (fun k' I' => sv_sub _ _ SV k k' I1 I') I2).
  - intros [k [I1 I2]]. apply (Permutation_in _ (order_perm _)). apply nodup_In. apply in_flat_map. exists k. split; [exact I1|].
    destruct (sv_mro _ _ SV k I1) as [l E]. rewrite E. cbn [slots_attr]. unfold own in I2.
    destruct (c_slots (T k)) as [s|] eqn:S; [|destruct I2]. rewrite (listed_declared k s I1 S). exact I2.
Qed.

Lemma descr_own : forall k n, In k (mro T c) -> In n (descriptors T k) -> In n (own T k) /\ n <> "__dict__" /\ n <> "__weakref__".
Proof.
  intros k n I D. unfold descriptors in D. apply in_map_iff in D. destruct D as [m [E M]]. apply filter_In in M. destruct M as [M1 M2].
  unfold mangle in E. rewrite (not_private m (sv_private _ _ SV k m I M1)) in E. subst m. split; [exact M1|].
  unfold special in M2. apply negb_true_iff in M2. apply orb_false_iff in M2. destruct M2 as [A B].
  split; intros ->; [rewrite String.eqb_refl in A|rewrite String.eqb_refl in B]; discriminate.
Qed.

Variable h : heap V.
Variable o : obj V.
Hypothesis OC : o_class o = c.

(** Entries of the state. *)
Definition entry_ok (x : string * aval V) : Prop :=
  match snd x with
  | AD d => fst x = "__dict__" /\ o_dict o = Some d
  | AV v => fst x <> "__dict__" /\ fst x <> "__weakref__" /\ exists k, lookup T (mro T c) (fst x) = FSlot k /\ o_slots o k (fst x) = Some v
  end.

Lemma get_entry : forall n a, (exists k, In k (mro T c) /\ In n (own T k)) -> getattr vnone T h o n = Ok a -> entry_ok (n, a).
Proof.
  intros n a [k [I1 I2]] G. unfold getattr in G. rewrite OC in G. destruct (String.eqb n "__dict__") eqn:D.
  - apply eqb_eq in D. destruct (o_dict o) as [d|] eqn:OD; [|discriminate]. injection G as <-. unfold entry_ok. cbn. split; assumption.
  - assert (ND : n <> "__dict__"). { intros ->. rewrite String.eqb_refl in D. discriminate. }
    pose proof (sv_weakref _ _ SV k n I1 I2) as W. destruct (String.eqb n "__weakref__") eqn:W'; [apply eqb_eq in W'; contradiction|].
    destruct (sv_hidden _ _ SV k n I1 I2 ND) as [k' L]. rewrite L in G. destruct (o_slots o k' n) as [v|] eqn:S; [|discriminate].
    injection G as <-. unfold entry_ok. cbn. split; [exact ND|]. split; [exact W|]. exists k'. auto.
Qed.

Lemma fold_state : forall l st, (forall n, In n l -> exists k, In k (mro T c) /\ In n (own T k)) ->
  NoDup (map fst st) -> List.Forall entry_ok st ->
  let st' := fold_left (add_slot vnone T h o) l st in
  NoDup (map fst st') /\ List.Forall entry_ok st' /\
  (forall n a, (In (n, a) st \/ (In n l /\ getattr vnone T h o n = Ok a)) -> (forall b, In (n, b) st -> getattr vnone T h o n = Ok b) -> In (n, a) st').
Proof.
  induction l as [|m l IH]; intros st HL ND EN; cbn [fold_left].
  - cbn. split; [exact ND|]. split; [exact EN|]. intros n a [I|[[] _]] _. exact I.
  - assert (X : NoDup (map fst (add_slot vnone T h o st m)) /\ List.Forall entry_ok (add_slot vnone T h o st m)).
    { unfold add_slot. destruct (getattr vnone T h o m) as [a|e] eqn:G; [|auto].
      destruct (put_in _ m a st ND) as [P1 P2]. split; [exact P1|]. apply Forall_forall. intros [n b] I. apply P2 in I.
      destruct I as [[-> ->]|[_ I]].
      - apply (get_entry m a (HL m (or_introl eq_refl)) G).
      - rewrite Forall_forall in EN. exact (EN _ I). }
    destruct X as [X1 X2]. destruct (IH _ (fun n I => HL n (or_intror I)) X1 X2) as [Y1 [Y2 Y3]].
    split; [exact Y1|]. split; [exact Y2|]. intros n a H HB.
    apply Y3.
    + unfold add_slot. destruct (getattr vnone T h o m) as [b|e] eqn:G.
      * destruct (put_in _ m b st ND) as [_ P2]. rewrite P2. destruct (string_dec n m) as [->|NE].
        -- left. left. split; [reflexivity|]. destruct H as [H|[_ H]]; [apply HB in H|]; congruence.
        -- destruct H as [H|[[H|H] H']]; [left; right; auto|congruence|right; auto].
      * destruct H as [H|[[H|H] H']]; [left; exact H| |right; auto]. subst m. congruence.
    + intros b I. unfold add_slot in I. destruct (getattr vnone T h o m) as [b'|e] eqn:G; [|apply HB; exact I].
      destruct (put_in _ m b' st ND) as [_ P2]. apply P2 in I. destruct I as [[-> ->]|[_ I]]; [exact G|apply HB; exact I].
Qed.

Lemma getstate_spec : let st := getstate vnone T order h o in
  NoDup (map fst st) /\ List.Forall entry_ok st /\
  (forall d, o_dict o = Some d -> In ("__dict__", AD d) st) /\
  (forall n k v, lookup T (mro T c) n = FSlot k -> o_slots o k n = Some v -> In (n, AV v) st).
Proof.
  cbv zeta. unfold getstate. rewrite OC.
  set (st0 := match getattr vnone T h o "__dict__" with Ok a => [("__dict__", a)] | Err _ => [] end).
  assert (G0 : getattr vnone T h o "__dict__" = match o_dict o with Some d => Ok (AD d) | None => Err EAttr end) by reflexivity.
  assert (S0 : NoDup (map fst st0) /\ List.Forall entry_ok st0).
  { unfold st0. rewrite G0. destruct (o_dict o) as [d|] eqn:OD; cbn; [|split; constructor].
    split; [constructor; [intros []|constructor]|]. constructor; [|constructor]. unfold entry_ok. cbn. auto. }
  destruct S0 as [N0 E0].
  destruct (fold_state (all_slots T order c) st0 (fun n I => proj1 (all_slots_own n) I) N0 E0) as [A [B C]].
  split; [exact A|]. split; [exact B|].
  assert (HB : forall n b, In (n, b) st0 -> getattr vnone T h o n = Ok b).
  { intros n b I. unfold st0 in I. destruct (getattr vnone T h o "__dict__") as [x|] eqn:G; [|destruct I].
    destruct I as [I|[]]. injection I as <- <-. exact G. }
  split.
  - intros d OD. apply C; [|exact (HB _)]. left. unfold st0. rewrite G0, OD. left. reflexivity.
  - intros n k v L S. apply C; [|exact (HB _)]. right. destruct (lookup_slot _ _ _ L) as [I D].
    destruct (descr_own k n I D) as [O [N1 N2]]. split.
    + apply all_slots_own. exists k. auto.
    + unfold getattr. rewrite OC. apply String.eqb_neq in N1. apply String.eqb_neq in N2. rewrite N1, N2, L, S. reflexivity.
Qed.
End Save.

(** Restoring. *)
Definition ent (c : nat) (x : string * aval V) : Prop :=
  match snd x with
  | AD d => fst x = "__dict__"
  | AV v => fst x <> "__dict__" /\ fst x <> "__weakref__" /\ exists k, lookup T (mro T c) (fst x) = FSlot k
  end.
Lemma setstate_spec : forall st h o, NoDup (map fst st) -> List.Forall (ent (o_class o)) st ->
  (forall d, In ("__dict__", AD d) st -> o_dict o <> None) ->
  exists o', setstate T h o st = Ok (h, o') /\ o_class o' = o_class o /\
    (forall d, In ("__dict__", AD d) st -> o_dict o' = Some d) /\
    ((forall d, ~ In ("__dict__", AD d) st) -> o_dict o' = o_dict o) /\
    (forall n k v, In (n, AV v) st -> lookup T (mro T (o_class o)) n = FSlot k -> o_slots o' k n = Some v) /\
    (forall n k, (forall v, ~ In (n, AV v) st) -> o_slots o' k n = o_slots o k n).
Proof.
  induction st as [|[n a] st IH]; intros h o ND EN HD.
  - exists o. cbn. repeat split; auto; intros; contradiction.
  - cbn [map fst] in ND. inversion ND as [|? ? NI ND']; subst. inversion EN as [|? ? E EN']; subst.
    assert (NI' : forall b, ~ In (n, b) st). { intros b I. apply NI. apply (in_map fst) in I. exact I. }
    unfold ent in E. cbn [fst snd] in E. destruct a as [v|d].
    + destruct E as [N1 [N2 [k L]]].
      destruct (IH h (set_slot o k n v) ND' EN') as [o' [S [C [D1 [D2 [A B]]]]]].
      { intros d I. cbn. apply (HD d). right. exact I. }
      exists o'. cbn [setstate]. unfold setattr.
      rewrite (proj2 (String.eqb_neq _ _) N1), (proj2 (String.eqb_neq _ _) N2), L. cbn [rbind fst snd].
      split; [exact S|]. split; [exact C|]. cbn [o_class set_slot] in *.
      split; [|split; [|split]].
      * intros d [I|I]; [discriminate I|exact (D1 d I)].
      * intro H. apply D2. intros d I. exact (H d (or_intror I)).
      * intros m k' w [I|I] L'.
        -- injection I as <- <-. assert (k' = k) by congruence. subst k'. rewrite B; [|intros w I; exact (NI' _ I)].
           cbn. rewrite Nat.eqb_refl, String.eqb_refl. reflexivity.
        -- exact (A m k' w I L').
      * intros m k' H. rewrite B; [|intros w I; exact (H w (or_intror I))]. cbn.
        destruct (Nat.eqb k k' && String.eqb n m) eqn:Q; [|reflexivity]. apply andb_prop in Q. destruct Q as [_ Q]. apply eqb_eq in Q. subst m.
        exfalso. exact (H v (or_introl eq_refl)).
    + subst n. assert (OD : o_dict o <> None) by exact (HD d (or_introl eq_refl)).
      destruct (o_dict o) as [d0|] eqn:OD'; [|contradiction].
      destruct (IH h (mkObj (o_class o) (o_slots o) (Some d)) ND' EN') as [o' [S [C [D1 [D2 [A B]]]]]].
      { intros d' I. cbn. discriminate. }
      exists o'. cbn [setstate]. unfold setattr. cbn [String.eqb Ascii.eqb eqb]. rewrite OD'. cbn [rbind fst snd].
      split; [exact S|]. split; [exact C|]. cbn [o_class o_slots o_dict] in *.
      split; [|split; [|split]].
      * intros d' [I|I]; [|exfalso; exact (NI' _ I)]. injection I as <-. apply D2. intros d' I. exact (NI' _ I).
      * intro H. exfalso. exact (H d (or_introl eq_refl)).
      * intros m k' w [I|I] L'; [discriminate I|]. exact (A m k' w I L').
      * intros m k' H. apply B. intros w I. exact (H w (or_intror I)).
Qed.

Variable p : V -> V.
Lemma restate_spec : forall st h, NoDup (map fst st) -> (forall n d, In (n, AD d) st -> n = "__dict__") ->
  exists l st', restate p h st = (h ++ l, st') /\ NoDup (map fst st') /\
    (forall n w, In (n, AV w) st' <-> exists v, In (n, AV v) st /\ w = p v) /\
    (forall n d', In (n, AD d') st' <-> n = "__dict__" /\ d' = List.length h /\ exists d, In ("__dict__", AD d) st) /\
    (forall d, In ("__dict__", AD d) st -> nth 0 l [] = redict p (dict_at h d) /\ List.length l = 1) /\
    ((forall d, ~ In ("__dict__", AD d) st) -> l = []) /\ map fst st' = map fst st.
Proof.
  induction st as [|[n a] st IH]; intros h ND HA.
  - exists [], []. cbn. rewrite app_nil_r. repeat split; try constructor; try tauto; firstorder.
  - cbn [map fst] in ND. inversion ND as [|? ? NI ND']; subst.
    assert (NI' : forall b, ~ In (n, b) st). { intros b I. apply NI. apply (in_map fst) in I. exact I. }
    destruct a as [v|d].
    + destruct (IH h ND' (fun m d I => HA m d (or_intror I))) as [l [st' [R [N' [A [B [C [D M]]]]]]]].
      exists l, ((n, AV (p v)) :: st'). cbn [restate]. rewrite R. split; [reflexivity|]. cbn [map fst]. rewrite M.
      split; [constructor; assumption|]. split; [|split; [|split; [|split; [|reflexivity]]]].
      * intros m w. split.
        -- intros [I|I]. { injection I as <- <-. exists v. split; [left|]; reflexivity. }
           apply A in I. destruct I as [x [I ->]]. exists x. split; [right; exact I|reflexivity].
        -- intros [x [[I|I] ->]]. { injection I as <- <-. left. reflexivity. }
           right. apply A. exists x. auto.
      * intros m d'. split.
        -- intros [I|I]; [discriminate I|]. apply B in I. destruct I as [I1 [I2 [d I3]]]. split; [exact I1|]. split; [exact I2|]. exists d. right. exact I3.
        -- intros [-> [-> [d [I|I]]]]; [discriminate I|]. right. apply B. split; [reflexivity|]. split; [reflexivity|]. exists d. exact I.
      * intros d [I|I]; [discriminate I|]. exact (C d I).
      * intro H. apply D. intros d I. exact (H d (or_intror I)).
    + assert (n = "__dict__") by exact (HA n d (or_introl eq_refl)). subst n.
      destruct (IH (h ++ [redict p (dict_at h d)]) ND' (fun m d I => HA m d (or_intror I))) as [l [st' [R [N' [A [B [C [D M]]]]]]]].
      assert (NO : forall d', ~ In ("__dict__", AD d') st) by (intros d' I; exact (NI' _ I)).
      specialize (D NO). subst l. rewrite app_nil_r in R.
      exists [redict p (dict_at h d)], (("__dict__", AD (List.length h)) :: st'). cbn [restate]. rewrite R. split; [reflexivity|].
      cbn [map fst]. rewrite M. split; [constructor; assumption|]. split; [|split; [|split; [|split; [|reflexivity]]]].
      * intros m w. split.
        -- intros [I|I]; [discriminate I|]. apply A in I. destruct I as [x [I ->]]. exists x. split; [right; exact I|reflexivity].
        -- intros [x [[I|I] ->]]; [discriminate I|]. right. apply A. exists x. auto.
      * intros m d'. split.
        -- intros [I|I]. { injection I as <- <-. split; [reflexivity|]. split; [reflexivity|]. exists d. left. reflexivity. }
           apply B in I. destruct I as [-> [_ [d2 I]]]. exfalso. exact (NO _ I).
        -- intros [-> [-> _]]. left. reflexivity.
      * intros d' [I|I]; [|exfalso; exact (NO _ I)]. injection I as <-. split; reflexivity.
      * intro H. exfalso. exact (H d (or_introl eq_refl)).
Qed.

Lemma new_spec : forall h c, exists h' l o', new T h c = (h', o') /\ h' = h ++ l /\ o_class o' = c /\ (forall k n, o_slots o' k n = None) /\
  (has_dict T c = true <-> o_dict o' <> None) /\ (forall d, o_dict o' = Some d -> dict_at h' d = []) /\ (has_dict T c = false -> o_dict o' = None).
Proof.
  intros h c. unfold new. destruct (has_dict T c).
  - exists (h ++ [[]]), [[]], (mkObj c (fun _ _ => None) (Some (List.length h))). repeat split; cbn; try congruence.
    intros d E. injection E as <-. unfold dict_at. rewrite app_nth2 by lia. rewrite Nat.sub_diag. reflexivity.
  - exists h, [], (mkObj c (fun _ _ => None) None). rewrite app_nil_r. repeat split; cbn; try congruence; try discriminate; intro H; contradiction.
Qed.

Lemma dict_at_app : forall (h l : heap V) d, d < List.length h -> dict_at (h ++ l) d = dict_at h d.
Proof. intros. unfold dict_at. apply app_nth1. assumption. Qed.

Lemma restored_attr : forall h h' o o' n, of_instance T h o n -> o_class o' = o_class o ->
  (forall k, lookup T (mro T (o_class o)) n = FSlot k -> o_slots o' k n = option_map p (o_slots o k n)) ->
  in_dict h' o' n = option_map p (in_dict h o n) ->
  same_attr p (getattr vnone T h o n) (getattr vnone T h' o' n).
Proof.
  intros h h' o o' n [N1 [N2 NA]] C S D. unfold getattr. rewrite C.
  rewrite (proj2 (String.eqb_neq _ _) N1), (proj2 (String.eqb_neq _ _) N2).
  destruct (lookup T (mro T (o_class o)) n) as [k|a|] eqn:L.
  - rewrite (S k eq_refl). destruct (o_slots o k n); reflexivity.
  - destruct (NA a eq_refl) as [[v ->] [d [w [OD I]]]]. rewrite D. destruct (in_dict h o n) eqn:ID; [reflexivity|].
    exfalso. unfold in_dict in ID. rewrite OD in ID. exact (assoc_none _ _ ID w I).
  - rewrite D. destruct (in_dict h o n); reflexivity.
Qed.

Lemma assoc_redict : forall l n, assoc n (redict p l) = option_map p (assoc n l).
Proof. induction l as [|[m v] l IH]; intro n; cbn; [reflexivity|]. destruct (String.eqb n m); [reflexivity|apply IH]. Qed.

Theorem pickle_attrs : forall h o, savable T (o_class o) -> instance T h o ->
  exists h' o', pickled vnone T order p h o = Ok (h', o') /\ o_class o' = o_class o /\ instance T h' o' /\
    (forall n, of_instance T h o n -> same_attr p (getattr vnone T h o n) (getattr vnone T h' o' n)) /\
    (forall d, o_dict o = Some d -> exists d', o_dict o' = Some d' /\ List.length h <= d' /\ dict_at h' d' = redict p (dict_at h d)) /\
    (forall d, d < List.length h -> dict_at h' d = dict_at h d).
Proof.
  intros h o SV IN. destruct (getstate_spec (o_class o) SV h o eq_refl) as [ND [EN [GD GS]]].
  set (st := getstate vnone T order h o) in *. rewrite Forall_forall in EN.
  assert (HA : forall n d, In (n, AD d) st -> n = "__dict__" /\ o_dict o = Some d) by (intros n d I; exact (EN _ I)).
  destruct (restate_spec st h ND (fun n d I => proj1 (HA n d I))) as [l [st' [R [ND' [A [B [C [D M]]]]]]]].
  destruct (new_spec (h ++ l) (o_class o)) as [h2 [l2 [o2 [NW [H2 [C2 [S2 [D2 [E2 F2]]]]]]]]].
  assert (EN' : List.Forall (ent (o_class o2)) st').
  { apply Forall_forall. intros [n [v|d]] I; unfold ent; cbn [fst snd].
    - apply A in I. destruct I as [x [I _]]. apply EN in I. unfold entry_ok in I. cbn [fst snd] in I. destruct I as [I1 [I2 [k [I3 _]]]].
      split; [exact I1|]. split; [exact I2|]. exists k. rewrite C2. exact I3.
    - apply B in I. apply I. }
  assert (HD : forall d, In ("__dict__", AD d) st' -> o_dict o2 <> None).
  { intros d I. apply B in I. destruct I as [_ [_ [d0 I]]]. apply HA in I. destruct I as [_ I]. unfold instance in IN. rewrite I in IN.
    apply D2. apply IN. }
  destruct (setstate_spec st' h2 o2 ND' EN' HD) as [o' [SS [C' [DD [DN [SA SB]]]]]].
  assert (CC : o_class o' = o_class o) by congruence.
  assert (LL : forall d, o_dict o = Some d -> o_dict o' = Some (List.length h) /\ List.length l = 1 /\ nth 0 l [] = redict p (dict_at h d)).
  { intros d OD. pose proof (GD d OD) as I. destruct (C d I) as [C3 C4]. split; [|auto]. apply DD. apply B. split; [reflexivity|]. split; [reflexivity|]. exists d. exact I. }
  assert (LN : o_dict o = None -> o_dict o' = None).
  { intro OD. rewrite DN; [|intros d I; apply B in I; destruct I as [_ [_ [d0 I]]]; apply HA in I; destruct I as [_ I]; congruence].
    apply F2. unfold instance in IN. rewrite OD in IN. exact IN. }
  assert (DA : forall d, o_dict o = Some d -> dict_at h2 (List.length h) = redict p (dict_at h d)).
  { intros d OD. destruct (LL d OD) as [_ [L1 L2]]. rewrite H2. rewrite dict_at_app by (rewrite app_length; lia).
    unfold dict_at at 1. rewrite app_nth2 by lia. rewrite Nat.sub_diag. exact L2. }
  exists h2, o'. split; [|split; [exact CC|split; [|split; [|split]]]].
  - unfold pickled. fold st. rewrite R, NW. exact SS.
  - unfold instance. destruct (o_dict o) as [d|] eqn:OD.
    + destruct (LL d eq_refl) as [L0 [L1 _]]. rewrite L0, CC. unfold instance in IN. rewrite OD in IN. split; [apply IN|].
      rewrite H2, !app_length. lia.
    + rewrite (LN eq_refl), CC. unfold instance in IN. rewrite OD in IN. exact IN.
  - intros n OI. apply restored_attr; [exact OI|exact CC| |].
    + intros k L. destruct (o_slots o k n) as [v|] eqn:S; cbn.
      * apply (SA n k); [|rewrite C2; exact L]. apply A. exists v. split; [|reflexivity]. exact (GS n k v L S).
      * rewrite SB; [apply S2|]. intros w I. apply A in I. destruct I as [v [I _]]. apply EN in I. unfold entry_ok in I. cbn [fst snd] in I.
        destruct I as [_ [_ [k' [L' S']]]]. congruence.
    + unfold in_dict. destruct (o_dict o) as [d|] eqn:OD.
      * destruct (LL d eq_refl) as [L0 _]. rewrite L0, (DA d eq_refl). apply assoc_redict.
      * rewrite (LN eq_refl). reflexivity.
  - intros d OD. exists (List.length h). destruct (LL d OD) as [L0 _]. split; [exact L0|]. split; [lia|]. exact (DA d OD).
  - intros d LT. rewrite H2, <- app_assoc. apply dict_at_app. exact LT.
Qed.

(** copy.copy(). *)
Theorem copy_attrs : forall h o, savable T (o_class o) -> instance T h o ->
  exists h' o', shallow vnone T order h o = Ok (h', o') /\ o_class o' = o_class o /\ o_dict o' = o_dict o /\
    (forall n, of_instance T h o n -> same_attr (fun v => v) (getattr vnone T h o n) (getattr vnone T h' o' n)) /\
    (forall d, d < List.length h -> dict_at h' d = dict_at h d).
Proof.
  intros h o SV IN. destruct (getstate_spec (o_class o) SV h o eq_refl) as [ND [EN [GD GS]]].
  set (st := getstate vnone T order h o) in *. rewrite Forall_forall in EN.
  assert (HA : forall n d, In (n, AD d) st -> n = "__dict__" /\ o_dict o = Some d) by (intros n d I; exact (EN _ I)).
  destruct (new_spec h (o_class o)) as [h2 [l2 [o2 [NW [H2 [C2 [S2 [D2 [E2 F2]]]]]]]]].
  assert (EN' : List.Forall (ent (o_class o2)) st).
  { apply Forall_forall. intros [n [v|d]] I; unfold ent; cbn [fst snd].
    - apply EN in I. unfold entry_ok in I. cbn [fst snd] in I. destruct I as [I1 [I2 [k [I3 _]]]].
      split; [exact I1|]. split; [exact I2|]. exists k. rewrite C2. exact I3.
    - apply HA in I. apply I. }
  assert (HD : forall d, In ("__dict__", AD d) st -> o_dict o2 <> None).
  { intros d I. apply HA in I. destruct I as [_ I]. unfold instance in IN. rewrite I in IN. apply D2. apply IN. }
  destruct (setstate_spec st h2 o2 ND EN' HD) as [o' [SS [C' [DD [DN [SA SB]]]]]].
  assert (CC : o_class o' = o_class o) by congruence.
  assert (OD' : o_dict o' = o_dict o).
  { destruct (o_dict o) as [d|] eqn:OD.
    - apply DD. apply GD. reflexivity.
    - rewrite DN; [|intros d I; apply HA in I; destruct I; discriminate]. apply F2. unfold instance in IN. rewrite OD in IN. exact IN. }
  exists h2, o'. split; [|split; [exact CC|split; [exact OD'|split]]].
  - unfold shallow. fold st. rewrite NW. exact SS.
  - intros n OI.
    destruct OI as [N1 [N2 NA]]. unfold getattr. rewrite CC.
    rewrite (proj2 (String.eqb_neq _ _) N1), (proj2 (String.eqb_neq _ _) N2).
    destruct (lookup T (mro T (o_class o)) n) as [k|a|] eqn:L.
    + assert (SE : o_slots o' k n = o_slots o k n).
      { destruct (o_slots o k n) as [v|] eqn:S.
        - apply (SA n k); [exact (GS n k v L S)|rewrite C2; exact L].
        - rewrite SB; [apply S2|]. intros w I. apply EN in I. unfold entry_ok in I. cbn [fst snd] in I.
          destruct I as [_ [_ [k' [L' S']]]]. congruence. }
      rewrite SE. destruct (o_slots o k n); reflexivity.
    + destruct (NA a eq_refl) as [[v ->] [d [w [OD I]]]]. unfold in_dict. rewrite OD', OD.
      assert (LT : d < List.length h) by (unfold instance in IN; rewrite OD in IN; apply IN).
      rewrite H2, (dict_at_app _ _ _ LT). destruct (assoc n (dict_at h d)) eqn:Q; [reflexivity|].
      exfalso. exact (assoc_none _ _ Q w I).
    + unfold in_dict. rewrite OD'. destruct (o_dict o) as [d|] eqn:OD; [|reflexivity].
      assert (LT : d < List.length h) by (unfold instance in IN; rewrite OD in IN; apply IN).
      rewrite H2, (dict_at_app _ _ _ LT). destruct (assoc n (dict_at h d)); reflexivity.
  - intros d LT. rewrite H2. apply dict_at_app. exact LT.
Qed.
End Proofs.

(** * Examples and counterexamples *)

(** UFloat (0), Variable (1, core.py 2726), and subclasses of Variable: without __slots__ (2), with a name
    as __slots__ (3), both (4; slot __x__); then subclasses of UFloat with a private slot (5), an iterator
    as __slots__ (6), __weakref__ (7), a property instead of a slot (8), and no __slots__ (9). *)
Definition zoo (k : nat) : class nat :=
  match k with
  | 0 => mkClass "AffineScalarFunc" (Some (SNames ["_nominal_value"; "_linear_part"])) [("nominal_value", CProp 0)] [0]
  | 1 => mkClass "Variable" (Some (SNames ["_std_dev"; "tag"])) [("std_dev", CProp 0)] [1; 0]
  | 2 => mkClass "D" None [("unit", CPlain 7)] [2; 1; 0]
  | 3 => mkClass "S" (Some (SName "extra")) [] [3; 1; 0]
  | 4 => mkClass "B" (Some (SNames ["__x__"; "__"])) [] [4; 2; 3; 1; 0]
  | 5 => mkClass "P" (Some (SNames ["__key"])) [] [5; 0]
  | 6 => mkClass "I" (Some (SOnce ["key"])) [] [6; 0]
  | 7 => mkClass "W" (Some (SNames ["__weakref__"])) [] [7; 0]
  | 8 => mkClass "H" None [("_nominal_value", CProp 3)] [8; 0]
  | _ => mkClass "N" None [] [9; 0]
  end%nat.
(** [make c l d]: an instance of class [c] with slots [l] and dictionary [d]. *)
Definition make (c : nat) (l : list (nat * string * nat)) (d : option dloc) : obj nat :=
  mkObj c (fun k n => match find (fun x => Nat.eqb (fst (fst x)) k && String.eqb (snd (fst x)) n) l with Some x => Some (snd x) | None => None end) d.

(** Proofs that names are not private. *)
Ltac names := let x := fresh in let E := fresh in intros [x E];
  first [discriminate E | match goal with |- exists x, ?n = _ => exists (substring 0 (String.length n - 2) n); reflexivity end].
Lemma savable_B : savable zoo 4.
Proof.
  constructor.
  - intros k I. cbn in I. repeat (destruct I as [<-|I]; [eexists; reflexivity|]). destruct I.
  - intros k k' I I'. cbn in I. repeat (destruct I as [<-|I]; [cbn in I' |- *; tauto|]). destruct I.
  - intros k l I E. cbn in I. repeat (destruct I as [<-|I]; [discriminate E|]). destruct I.
  - intros k n I N. cbn in I. repeat (destruct I as [<-|I]; [cbn in N; repeat (destruct N as [<-|N]; [names|]); destruct N|]). destruct I.
  - intros k n I N. cbn in I. repeat (destruct I as [<-|I]; [cbn in N; repeat (destruct N as [<-|N]; [discriminate|]); destruct N|]). destruct I.
  - intros k n I N _. cbn in I. repeat (destruct I as [<-|I]; [cbn in N; repeat (destruct N as [<-|N]; [eexists; reflexivity|]); destruct N|]). destruct I.
Qed.
(** An instance of B with all kinds of attributes; its __dict__ has a key hidden by a slot. *)
Definition b_heap : heap nat := [[("x", 10); ("tag", 11); ("unit", 12)]].
Definition b_obj : obj nat := make 4 [((0, "_nominal_value"), 1); ((1, "tag"), 2); ((3, "extra"), 3); ((4, "__x__"), 4)] (Some 0).
Lemma ex_pickle : savable zoo (o_class b_obj) /\ instance zoo b_heap b_obj /\
  of_instance zoo b_heap b_obj "extra" /\ getattr 0 zoo b_heap b_obj "extra" = Ok (AV 3) /\
  of_instance zoo b_heap b_obj "__x__" /\ getattr 0 zoo b_heap b_obj "__x__" = Ok (AV 4) /\
  of_instance zoo b_heap b_obj "unit" /\ getattr 0 zoo b_heap b_obj "unit" = Ok (AV 12) /\
  of_instance zoo b_heap b_obj "x" /\ getattr 0 zoo b_heap b_obj "x" = Ok (AV 10) /\ getattr 0 zoo b_heap b_obj "tag" = Ok (AV 2).
Proof.
  split; [exact savable_B|]. split; [split; [reflexivity|cbn; lia]|].
  split; [split; [discriminate|split; [discriminate|intros a E; discriminate E]]|]. split; [reflexivity|].
  split; [split; [discriminate|split; [discriminate|intros a E; discriminate E]]|]. split; [reflexivity|].
  split; [split; [discriminate|split; [discriminate|intros a E]]|].
  { injection E as <-. split; [eexists; reflexivity|]. exists 0, 12. cbn. tauto. }
  split; [reflexivity|].
  split; [split; [discriminate|split; [discriminate|intros a E; discriminate E]]|]. split; reflexivity.
Qed.
(** Setting attributes: in a slot, in the __dict__ in spite of the attribute of a class; a
    property cannot be set. *)
Lemma ex_set : instance zoo b_heap b_obj /\
  (exists h o, setattr zoo b_heap b_obj "extra" (AV 5) = Ok (h, o)) /\
  (exists h o, setattr zoo b_heap b_obj "unit" (AV 5) = Ok (h, o)) /\
  setattr zoo b_heap b_obj "std_dev" (AV 5) = Err EAttr.
Proof.
  split; [split; [reflexivity|cbn; lia]|]. split; [do 2 eexists; reflexivity|]. split; [do 2 eexists; reflexivity|reflexivity].
Qed.

(** The conditions are necessary. *)
Lemma private_lost : let o := make 5 [((5, "_P__key"), 3)] None in
  instance zoo [] o /\ getattr 0 zoo [] o "_P__key" = Ok (AV 3) /\
  exists o', pickled 0 zoo (fun l => l) (fun v => v) [] o = Ok ([], o') /\ getattr 0 zoo [] o' "_P__key" = Err EAttr.
Proof. cbv zeta. split; [reflexivity|]. split; [reflexivity|]. eexists. split; reflexivity. Qed.
Lemma iterator_lost : let o := make 6 [((6, "key"), 3)] None in
  instance zoo [] o /\ getattr 0 zoo [] o "key" = Ok (AV 3) /\
  exists o', pickled 0 zoo (fun l => l) (fun v => v) [] o = Ok ([], o') /\ getattr 0 zoo [] o' "key" = Err EAttr.
Proof. cbv zeta. split; [reflexivity|]. split; [reflexivity|]. eexists. split; reflexivity. Qed.
Lemma weakref_raises : let o := make 7 [((0, "_nominal_value"), 3)] None in
  instance zoo [] o /\ pickled 0 zoo (fun l => l) (fun v => v) [] o = Err EAttr.
Proof. cbv zeta. split; reflexivity. Qed.
Lemma property_raises : let o := make 8 [((0, "_linear_part"), 3)] (Some 0) in
  instance zoo [[]] o /\ pickled 0 zoo (fun l => l) (fun v => v) [[]] o = Err EAttr.
Proof. cbv zeta. split; [split; [reflexivity|cbn; lia]|reflexivity]. Qed.

(** copy.copy(): the copy has the same __dict__ as the original. *)
Lemma copy_shares : let o := make 9 [((0, "_nominal_value"), 3)] (Some 0) in let h := [[("x", 1)]] in
  savable zoo (o_class o) /\ instance zoo h o /\ getattr 0 zoo h o "x" = Ok (AV 1) /\
  exists h1 o' h2 o2, shallow 0 zoo (fun l => l) h o = Ok (h1, o') /\ setattr zoo h1 o' "x" (AV 2) = Ok (h2, o2) /\
    getattr 0 zoo h2 o "x" = Ok (AV 2).
Proof.
  cbv zeta. split; [|split; [split; [reflexivity|cbn; lia]|split; [reflexivity|]]].
  - constructor.
    + intros k I. cbn in I. repeat (destruct I as [<-|I]; [eexists; reflexivity|]). destruct I.
    + intros k k' I I'. cbn in I. repeat (destruct I as [<-|I]; [cbn in I' |- *; tauto|]). destruct I.
    + intros k l I E. cbn in I. repeat (destruct I as [<-|I]; [discriminate E|]). destruct I.
    + intros k n I N. cbn in I. repeat (destruct I as [<-|I]; [cbn in N; repeat (destruct N as [<-|N]; [names|]); destruct N|]). destruct I.
    + intros k n I N. cbn in I. repeat (destruct I as [<-|I]; [cbn in N; repeat (destruct N as [<-|N]; [discriminate|]); destruct N|]). destruct I.
    + intros k n I N _. cbn in I. repeat (destruct I as [<-|I]; [cbn in N; repeat (destruct N as [<-|N]; [eexists; reflexivity|]); destruct N|]). destruct I.
  - do 4 eexists. split; [reflexivity|]. split; reflexivity.
Qed.
