(** The code updater preserves the meaning of programs: proofs. *)
From Coq Require Import String.
From Coq Require Import List Bool Arith Lia.
From Verif Require Import Base Fixer FixerSpec FixerProofs PyEval.
Import ListNotations.
Local Open Scope string_scope.
Local Open Scope list_scope.

Section PyThm.
Context (P : python) (uf fstr : pv P) (array number : pv P -> Prop) (L : library P uf fstr array number).
Notation mean := (mean (pv P) (ps P)).
Notation C := (C (ps P)).
Notation "m <=~ m'" := (same_if_ok P m m') (at level 70).
Notation refines := (refines P).

(** ** Calculations *)
Lemma bind_ok : forall A B (m : C A) (k : A -> C B) s r, cbind m k s = Ok r <-> exists a s', m s = Ok (a, s') /\ k a s' = Ok r.
Proof.
  intros A B m k s r. unfold cbind. destruct (m s) as [[a s']|e].
  - split; [intros H; exists a, s'; split; [reflexivity|exact H]|intros (a' & s2 & E & H)]. injection E as <- <-. exact H.
  - split; [discriminate|intros (a & s' & E & _); discriminate].
Qed.
Lemma bind_le : forall A B (m m' : C A) (k k' : A -> C B), m <=~ m' -> (forall a, k a <=~ k' a) -> cbind m k <=~ cbind m' k'.
Proof.
  intros A B m m' k k' H K s r R. apply bind_ok in R as (a & s' & R1 & R2). apply bind_ok. exists a, s'. split; [apply H, R1|apply K, R2].
Qed.
Lemma le_refl : forall A (m : C A), m <=~ m.
Proof. intros A m s r H. exact H. Qed.
Lemma le_trans : forall A (a b c : C A), a <=~ b -> b <=~ c -> a <=~ c.
Proof. intros A a b c H K s r R. apply K, H, R. Qed.
Lemma fail_le : forall A (m : C A), cfail <=~ m.
Proof. intros A m s r H. discriminate H. Qed.
Lemma refines_refl : forall m, refines m m.
Proof. intros []; constructor; intros; apply le_refl. Qed.
Lemma refines_trans : forall a b c, refines a b -> refines b c -> refines a c.
Proof.
  intros a b c H K. destruct H; inversion K; subst; constructor; intros; eapply le_trans; eauto.
Qed.

Lemma get_le : forall m m', refines m m' -> as_get P m <=~ as_get P m'.
Proof. intros m m' H. destruct H; cbn [as_get]; try apply le_refl; assumption. Qed.
Lemma set_le : forall m m' v, refines m m' -> as_set P m v <=~ as_set P m' v.
Proof. intros m m' v H. destruct H; cbn [as_set]; try apply le_refl; auto. Qed.
Lemma star_le : forall m m', refines m m' -> star P m <=~ star P m'.
Proof. intros m m' H. apply bind_le; [apply get_le, H|intros; apply le_refl]. Qed.
Lemma arguments_le : forall m m', refines m m' -> arguments P m <=~ arguments P m'.
Proof.
  intros m m' H. assert (G := get_le _ _ H). destruct H; cbn [arguments]; try assumption; apply bind_le; try apply G; intros; apply le_refl.
Qed.
Lemma tok_le : forall ty m m', refines m m' -> is_tok P ty m = is_tok P ty m'.
Proof. intros ty m m' H. destruct H; reflexivity. Qed.
(** The arguments after one of them. *)
Definition tail (r : list mean) : C (list (pv P) * list (string * pv P)) :=
  match r with [] => cret ([], []) | m :: r' => if is_tok P COMMA m then args P r' else cfail end.
Definition item (p : C (list (pv P) * list (string * pv P))) (r : list mean) : C (list (pv P) * list (string * pv P)) :=
  cbind p (fun p => cbind (tail r) (fun q => cret (fst p ++ fst q, snd p ++ snd q))).
Lemma args_cons : forall m r, args P (m :: r) =
  match m with
  | MLeaf _ v => if String.eqb v "*" then match r with x :: r' => item (cbind (star P x) (fun l => cret (l, []))) r' | [] => cfail end
                 else item (cbind (as_get P m) (fun v => cret ([v], []))) r
  | MArgs a => item a r
  | _ => item (cbind (as_get P m) (fun v => cret ([v], []))) r
  end.
Proof. intros m r. destruct m; reflexivity. Qed.
Lemma args_le : forall ms ms', Forall2 refines ms ms' -> args P ms <=~ args P ms'.
Proof.
  assert (X : forall n ms ms', length ms <= n -> Forall2 refines ms ms' -> args P ms <=~ args P ms').
  { induction n as [|n IH]; intros ms ms' Hn F; destruct F as [|m m' r r' H F]; try apply le_refl; cbn [length] in Hn; [lia|].
    assert (T : forall r r', length r <= n -> Forall2 refines r r' -> tail r <=~ tail r').
    { intros q q' Hq Fq. destruct Fq as [|x x' q q' Hx Fq]; [apply le_refl|]. unfold tail. rewrite <- (tok_le COMMA _ _ Hx).
      destruct (is_tok P COMMA x); [|apply le_refl]. apply IH; [cbn [length] in Hq; lia|exact Fq]. }
    assert (It : forall p p' r r', length r <= n -> Forall2 refines r r' -> p <=~ p' -> item p r <=~ item p' r').
    { intros p p' q q' Hq Fq Hp. apply bind_le; [exact Hp|intros a; apply bind_le; [apply T; assumption|intros; apply le_refl]]. }
    assert (Ge : cbind (as_get P m) (fun v => cret ([v], [])) <=~ cbind (as_get P m') (fun v => cret ([v], @nil (string * pv P)))).
    { apply bind_le; [apply get_le, H|intros; apply le_refl]. }
    rewrite !args_cons. destruct H; try (apply It; [lia|assumption|assumption]); try (apply It; [lia|assumption|apply Ge]).
    destruct (String.eqb v "*"); [|apply It; [lia|assumption|apply le_refl]]. destruct F as [|x x' r1 r1' Hx F]; [apply le_refl|].
    apply It; [cbn [length] in Hn; lia|exact F|]. apply bind_le; [apply star_le, Hx|intros; apply le_refl]. }
  intros ms ms' F. exact (X (length ms) ms ms' (le_n _) F).
Qed.
Lemma trail_le : forall ms ms', Forall2 refines ms ms' -> forall o, trail P ms o <=~ trail P ms' o.
Proof.
  intros ms ms' F. induction F as [|m m' r r' H F IH]; intros o; [apply le_refl|]. destruct H; cbn [trail]; try apply fail_le.
  - destruct F as [|e e' q q' He F]; [apply fail_le|]. destruct F; [|apply fail_le]. destruct (String.eqb v "**"); [|apply fail_le].
    apply bind_le; [apply get_le, He|intros; apply le_refl].
  - apply bind_le; auto.
Qed.
Lemma trail_set_le : forall ms ms', Forall2 refines ms ms' -> forall o v, trail_set P ms o v <=~ trail_set P ms' o v.
Proof.
  intros ms ms' F. induction F as [|m m' r r' H F IH]; intros o v; [apply le_refl|]. destruct H; cbn [trail_set]; try apply fail_le.
  destruct F as [|e e' q q' He F]; [auto|]. apply bind_le; auto.
Qed.
Lemma power_le : forall ms ms', Forall2 refines ms ms' -> refines (MExpr (power_get P ms) (power_set P ms)) (MExpr (power_get P ms') (power_set P ms')).
Proof.
  intros ms ms' F. constructor; [|intros v]; destruct F as [|m m' r r' H F]; try apply le_refl; cbn [power_get power_set]; apply bind_le;
    try (apply get_le; exact H); intros o; [apply trail_le|apply trail_set_le]; exact F.
Qed.
Lemma elements_le : forall ms ms', Forall2 refines ms ms' -> elements P ms <=~ elements P ms'.
Proof.
  assert (X : forall n ms ms', length ms <= n -> Forall2 refines ms ms' -> elements P ms <=~ elements P ms').
  { induction n as [|n IH]; intros ms ms' Hn F; destruct F as [|m m' r r' H F]; try apply le_refl; cbn [length] in Hn; [lia|].
    destruct F as [|e e' q q' He F]; cbn [elements].
    - apply bind_le; [apply get_le, H|intros; apply le_refl].
    - destruct He; try apply fail_le. destruct ty; try apply fail_le. apply bind_le; [apply get_le, H|]. intros x.
      apply bind_le; [apply IH; [cbn [length] in Hn; lia|exact F]|intros; apply le_refl]. }
  intros ms ms' F. exact (X (length ms) ms ms' (le_n _) F).
Qed.
Lemma other_le : forall ty ms ms', Forall2 refines ms ms' -> refines (other P ty ms) (other P ty ms').
Proof. intros ty ms ms' F. destruct (l_other _ _ _ _ _ L ty _ _ F) as (A & B). constructor; assumption. Qed.
Lemma trailer_other_le : forall ms ms', Forall2 refines ms ms' ->
  refines (MTrailer (fst (p_trailer P ms)) (snd (p_trailer P ms))) (MTrailer (fst (p_trailer P ms')) (snd (p_trailer P ms'))).
Proof. intros ms ms' F. destruct (l_trailer _ _ _ _ _ L _ _ F) as (A & B). constructor; assumption. Qed.

Lemma trailer_le : forall ms ms', Forall2 refines ms ms' -> refines (trailer_mean P ms) (trailer_mean P ms').
Proof.
  intros ms ms' F. assert (O := trailer_other_le _ _ F).
  destruct F as [|a a' r r' Ha F]; [exact O|]. destruct F as [|b b' r r' Hb F]; [exact O|].
  destruct F as [|c c' r r' Hc F]; [|destruct F as [|d d' r r' Hd F]; [|exact O]]; cbn [trailer_mean].
  - rewrite <- (tok_le DOT _ _ Ha), <- (tok_le LPAR _ _ Ha), <- (tok_le RPAR _ _ Hb). destruct (is_tok P DOT a).
    + destruct Hb as [ty v| | | | |]; try exact O. destruct ty; try exact O. apply refines_refl.
    + destruct (_ && _); [apply refines_refl|exact O].
  - rewrite <- (tok_le LPAR _ _ Ha), <- (tok_le RPAR _ _ Hc). destruct (_ && _); [|exact O].
    constructor; intros; [|apply le_refl]. apply bind_le; [apply arguments_le, Hb|intros; apply le_refl].
Qed.
Lemma argument_le : forall ms ms', Forall2 refines ms ms' -> refines (argument_mean P ms) (argument_mean P ms').
Proof.
  intros ms ms' F. assert (O := other_le argument _ _ F).
  destruct F as [|a a' r r' Ha F]; [exact O|].
  destruct Ha as [ty v| | | | |]; try exact O.
  destruct F as [|b b' r r' Hb F]; [destruct ty; exact O|].
  destruct F as [|c c' r r' Hc F].
  - assert (Q : refines (if String.eqb v "*" then MArgs (cbind (star P b) (fun l => cret (l, [])))
      else if String.eqb v "**" then MArgs (cbind (cbind (as_get P b) (p_mapping P)) (fun l => cret ([], l))) else other P argument [MLeaf ty v; b])
      (if String.eqb v "*" then MArgs (cbind (star P b') (fun l => cret (l, [])))
      else if String.eqb v "**" then MArgs (cbind (cbind (as_get P b') (p_mapping P)) (fun l => cret ([], l))) else other P argument [MLeaf ty v; b'])).
    { destruct (String.eqb v "*"); [|destruct (String.eqb v "**")].
      - constructor. apply bind_le; [apply star_le, Hb|intros; apply le_refl].
      - constructor. apply bind_le; [apply bind_le; [apply get_le, Hb|intros; apply le_refl]|intros; apply le_refl].
      - apply other_le. constructor; [constructor|]. constructor; [exact Hb|constructor]. }
    destruct ty; try exact Q; destruct Hb as [tb vb| | | | |]; try exact Q; destruct tb; exact Q.
  - assert (K : as_get P c <=~ as_get P c') by (apply get_le, Hc).
    assert (Q : refines (MArgs (cbind (as_get P c) (fun x => cret ([], [(v, x)])))) (MArgs (cbind (as_get P c') (fun x => cret ([], [(v, x)]))))).
    { constructor. apply bind_le; [exact K|intros; apply le_refl]. }
    destruct F as [|d d' r r' Hd F]; destruct ty; try exact O; destruct Hb as [tb vb| | | | |]; try exact O; destruct tb; try exact O; exact Q.
Qed.
Lemma assign_le : forall t t' v v', refines t t' -> refines v v' -> refines (MStmt (cbind (as_get P v) (as_set P t))) (MStmt (cbind (as_get P v') (as_set P t'))).
Proof. intros t t' v v' H K. constructor. apply bind_le; [apply get_le, K|intros; apply set_le, H]. Qed.
Lemma assignment_le : forall ms ms', Forall2 refines ms ms' -> refines (assignment_mean P ms) (assignment_mean P ms').
Proof.
  intros ms ms' F. assert (O := other_le expr_stmt _ _ F).
  destruct F as [|a a' r r' Ha F]; [exact O|]. destruct F as [|b b' r r' Hb F]; [exact O|]. 
  destruct Hb as [tb vb| | | | |]; try exact O. destruct F as [|c c' r r' Hc F]; [destruct tb; exact O|].
  destruct F; destruct tb; try exact O. apply assign_le; assumption.
Qed.
Lemma atom_le : forall ms ms', Forall2 refines ms ms' -> refines (atom_mean P ms) (atom_mean P ms').
Proof.
  intros ms ms' F. assert (O := other_le atom _ _ F).
  destruct F as [|a a' r r' Ha F]; [exact O|]. destruct F as [|b b' r r' Hb F]; [exact O|].
  destruct F as [|c c' r r' Hc F]; [exact O|]. destruct F as [|d d' r r' Hd F]; [|exact O].
  cbn [atom_mean]. rewrite <- (tok_le LPAR _ _ Ha), <- (tok_le RPAR _ _ Hc), <- (tok_le EQUAL _ _ Hb).
  destruct (_ && _); [|destruct (is_tok P EQUAL b); [apply assign_le; assumption|exact O]].
  assert (Q : refines (MExpr (as_get P b) (as_set P b)) (MExpr (as_get P b') (as_set P b'))) by (constructor; intros; [apply get_le|apply set_le]; exact Hb).
  destruct Hb; try exact Q. constructor; [apply bind_le; [assumption|intros; apply le_refl]|intros; apply le_refl].
Qed.
Lemma statements_le : forall ms ms', Forall2 refines ms ms' -> statements P ms <=~ statements P ms'.
Proof.
  intros ms ms' F. induction F as [|m m' r r' H F IH]; [apply le_refl|]. destruct H; cbn [statements]; try apply fail_le.
  - destruct ty; try exact IH; (apply bind_le; [apply le_refl|intros; exact IH]).
  - apply bind_le; [assumption|intros; exact IH].
  - apply bind_le; [assumption|intros; exact IH].
Qed.
Lemma combine_le : forall ty ms ms', Forall2 refines ms ms' -> refines (combine P ty ms) (combine P ty ms').
Proof.
  intros ty ms ms' F. destruct ty; cbn [combine].
  - apply power_le, F.
  - apply trailer_le, F.
  - apply atom_le, F.
  - constructor. apply elements_le, F.
  - constructor. apply args_le, F.
  - apply argument_le, F.
  - apply assignment_le, F.
  - destruct (_ || _); [constructor; apply statements_le, F|apply other_le, F].
Qed.

(** ** The meaning of calls *)
Notation sem t := (meaning P t).
Notation get t := (as_get P (meaning P t)).
Definition tget (m : mean) : pv P -> C (pv P) := match m with MTrailer g _ => g | _ => fun _ => cfail end.
Lemma m_attr : forall f t, attr f t -> (sem t) = MTrailer (fun o => p_attr P o f) (fun o => p_setattr P o f).
Proof. intros f t (p & q & ->). reflexivity. Qed.
Lemma m_call0 : forall c, parens trailer [] c -> (sem c) = MTrailer (fun f => p_call P f [] []) (fun _ => no_set P).
Proof. intros c (p & q & ->). reflexivity. Qed.
Definition called (a : C (list (pv P) * list (string * pv P))) : mean :=
  MTrailer (fun f => cbind a (fun q => p_call P f (fst q) (snd q))) (fun _ => no_set P).
Lemma m_parens : forall x c, parens trailer [x] c -> (sem c) = called (arguments P (sem x)).
Proof. intros x c (p & q & ->). reflexivity. Qed.
Lemma m_arglist : forall ts c, parens trailer [Node arglist ts] c -> (sem c) = called (args P (map (meaning P) ts)).
Proof. intros ts c H. rewrite (m_parens _ _ H). reflexivity. Qed.
Lemma m_call1 : forall a c, call [a] c -> (sem c) = called (arguments P (sem a)).
Proof. intros a c H. apply call1_parens in H as (H & _). apply m_parens, H. Qed.
Lemma m_call2 : forall a b c, call [a; b] c -> (sem c) = called (args P [sem a; MLeaf COMMA ","; sem b]).
Proof.
  intros a b c H. inversion H as [| |a' b' l ts t Hc Hp]; subst. apply commas2 in Hc as (k & (p & ->) & ->).
  exact (m_arglist _ _ Hp).
Qed.
Lemma m_pair : forall a b t, pair a b t -> exists v,
  (sem t) = MExpr (cbind (elements P [sem a; MLeaf COMMA v; sem b]) (fun l => cret (p_tuple P l))) (no_set P).
Proof.
  intros a b t (ts & (p & q & ->) & Hc). apply commas2 in Hc as (k & (r & ->) & ->). exists ",". reflexivity.
Qed.
Lemma pair_ok : forall a b t s v s', pair a b t -> get t s = Ok (v, s') ->
  exists x s1 y, get a s = Ok (x, s1) /\ get b s1 = Ok (y, s') /\ v = p_tuple P [x; y].
Proof.
  intros a b t s v s' H E. destruct (m_pair _ _ _ H) as (k & M). rewrite M in E. cbn [as_get elements] in E.
  apply bind_ok in E as (l & s1 & E & R). apply bind_ok in E as (x & s2 & Ex & E). apply bind_ok in E as (l' & s3 & E & R').
  apply bind_ok in E as (y & s4 & Ey & E). injection E as <- <-. injection R' as <- <-. injection R as <- <-. exists x, s2, y. auto.
Qed.
(** An expression that has a value is an argument. *)
Lemma item_ok : forall m r s v s1 q s2, as_get P m s = Ok (v, s1) -> tail r s1 = Ok (q, s2) ->
  args P (m :: r) s = Ok ((v :: fst q, snd q), s2).
Proof.
  intros m r s v s1 q s2 G T. rewrite args_cons.
  assert (I : item (cbind (as_get P m) (fun v => cret ([v], []))) r s = Ok ((v :: fst q, snd q), s2)).
  { apply bind_ok. exists ([v], []), s1. split; [apply bind_ok; exists v, s1; split; [exact G|reflexivity]|].
    apply bind_ok. exists q, s2. split; [exact T|reflexivity]. }
  destruct m; try exact I; try discriminate G. cbn [as_get] in G. destruct (String.eqb v0 "*"); [discriminate G|exact I].
Qed.
Lemma tail_nil : forall s, tail [] s = Ok (([], []), s).
Proof. reflexivity. Qed.
Lemma tail_comma : forall v r, tail (MLeaf COMMA v :: r) = args P r.
Proof. reflexivity. Qed.
Lemma arguments_ok : forall m s v s1, as_get P m s = Ok (v, s1) -> arguments P m s = Ok (([v], []), s1).
Proof. intros m s v s1 G. destruct m; try discriminate G; cbn [arguments]; apply bind_ok; exists v, s1; (split; [exact G|reflexivity]). Qed.
(** The last argument. *)
Definition no_comma (m : mean) : Prop := is_tok P COMMA m = false.
Lemma last_ok : forall m s q s', arguments P m s = Ok (q, s') -> args P [m] s = Ok (q, s').
Proof.
  intros m s q s' A. rewrite args_cons.
  assert (I : forall p, p s = Ok (q, s') -> item p [] s = Ok (q, s')).
  { intros p Hp. apply bind_ok. exists q, s'. split; [exact Hp|]. apply bind_ok. exists ([], []), s'. split; [reflexivity|].
    cbn. rewrite !app_nil_r. destruct q; reflexivity. }
  destruct m; try (apply I; exact A). cbn [arguments] in A. destruct (String.eqb v "*") eqn:E; [|apply I, A].
  apply bind_ok in A as (x & s1 & A & _). cbn [as_get] in A. rewrite E in A. discriminate A.
Qed.
Lemma last_inv : forall m s q s', args P [m] s = Ok (q, s') -> arguments P m s = Ok (q, s').
Proof.
  intros m s q s' A. rewrite args_cons in A.
  assert (I : forall p, item p [] s = Ok (q, s') -> p s = Ok (q, s')).
  { intros p Hp. apply bind_ok in Hp as (q1 & s1 & E & R). apply bind_ok in R as (q2 & s2 & R & K). injection R as <- <-. injection K as <- <-.
    cbn in E. rewrite !app_nil_r. rewrite E. destruct q1; reflexivity. }
  destruct m; try (apply I in A; exact A). destruct (String.eqb v "*"); [discriminate A|]. apply I in A. exact A.
Qed.
(** A first argument that is an expression. *)
Definition plain (m : mean) : Prop := match m with MArgs _ => False | MLeaf _ v => String.eqb v "*" = false | _ => True end.
Lemma item_inv : forall m k r s q s', plain m -> args P (m :: MLeaf COMMA k :: r) s = Ok (q, s') ->
  exists v s1 q1, as_get P m s = Ok (v, s1) /\ args P r s1 = Ok (q1, s') /\ q = (v :: fst q1, snd q1).
Proof.
  intros m k r s q s' Pl A. rewrite args_cons in A.
  assert (I : item (cbind (as_get P m) (fun v => cret ([v], []))) (MLeaf COMMA k :: r) s = Ok (q, s')).
  { destruct m; try exact A; try contradiction. cbn [plain] in Pl. rewrite Pl in A. exact A. }
  apply bind_ok in I as (p & s1 & I & R). apply bind_ok in I as (v & s2 & G & E). injection E as <- <-.
  apply bind_ok in R as (q1 & s3 & R & E). injection E as <- <-. exists v, s2, q1. auto.
Qed.

(** ** Beginnings of expressions *)
Lemma power_start : forall f fs c rest ch g, starts f fs c rest ch -> (sem c) = MTrailer g (fun _ => no_set P) -> forall s r,
  power_get P (map (meaning P) ch) s = Ok r <-> exists h s1 x s2,
    power_get P (map (meaning P) fs) s = Ok (h, s1) /\ g h s1 = Ok (x, s2) /\ trail P (map (meaning P) rest) x s2 = Ok r.
Proof.
  intros f fs c rest ch g H Hc s r. destruct H as [n c rest (p & ->)|m x a c rest (p & ->) Ha]; cbn [map].
  - rewrite Hc. cbn [power_get trail]. rewrite bind_ok. split.
    + intros (h & s1 & G & R). apply bind_ok in R as (y & s2 & R1 & R2). exists h, s1, y, s2. split; [|auto].
      apply bind_ok. exists h, s1. split; [exact G|reflexivity].
    + intros (h & s1 & y & s2 & G & R1 & R2). apply bind_ok in G as (h' & s1' & G & E). injection E as <- <-. exists h', s1'. split; [exact G|].
      apply bind_ok. exists y, s2. auto.
  - rewrite Hc, (m_attr _ _ Ha). cbn [power_get trail]. rewrite bind_ok. split.
    + intros (h & s1 & G & R). apply bind_ok in R as (y & s2 & R1 & R2). apply bind_ok in R2 as (z & s3 & R2 & R3).
      exists y, s2, z, s3. split; [|auto]. apply bind_ok. exists h, s1. split; [exact G|]. apply bind_ok. exists y, s2. split; [exact R1|reflexivity].
    + intros (h & s1 & y & s2 & G & R1 & R2). apply bind_ok in G as (o & s0 & G & E). apply bind_ok in E as (h' & s1' & E & E2). injection E2 as <- <-.
      exists o, s0. split; [exact G|]. apply bind_ok. exists h', s1'. split; [exact E|]. apply bind_ok. exists y, s2. auto.
Qed.
Lemma power_start_set : forall f fs c rest ch g v, starts f fs c rest ch -> (sem c) = MTrailer g (fun _ => no_set P) -> forall s r,
  power_set P (map (meaning P) ch) v s = Ok r <-> exists h s1 x s2,
    power_get P (map (meaning P) fs) s = Ok (h, s1) /\ g h s1 = Ok (x, s2) /\ trail_set P (map (meaning P) rest) x v s2 = Ok r.
Proof.
  intros f fs c rest ch g v H Hc s r.
  assert (TS : forall h s1, trail_set P ((sem c) :: map (meaning P) rest) h v s1 = Ok r <->
    exists x s2, g h s1 = Ok (x, s2) /\ trail_set P (map (meaning P) rest) x v s2 = Ok r).
  { intros h s1. rewrite Hc. cbn [trail_set]. destruct rest as [|y rest]; cbn [map].
    - split; [discriminate|]. intros (x & s2 & _ & E). discriminate E.
    - rewrite bind_ok. reflexivity. }
  destruct H as [n c rest (p & ->)|m x a c rest (p & ->) Ha]; cbn [map].
  - cbn [power_get power_set trail]. rewrite bind_ok. split.
    + intros (h & s1 & G & R). apply TS in R as (y & s2 & R1 & R2). exists h, s1, y, s2. split; [|auto].
      apply bind_ok. exists h, s1. split; [exact G|reflexivity].
    + intros (h & s1 & y & s2 & G & R1 & R2). apply bind_ok in G as (h' & s1' & G & E). injection E as <- <-. exists h', s1'. split; [exact G|].
      apply TS. exists y, s2. auto.
  - rewrite (m_attr _ _ Ha). cbn [power_get power_set trail trail_set]. rewrite bind_ok. split.
    + intros (h & s1 & G & R). apply bind_ok in R as (y & s2 & R1 & R2). apply TS in R2 as (z & s3 & R2 & R3).
      exists y, s2, z, s3. split; [|auto]. apply bind_ok. exists h, s1. split; [exact G|]. apply bind_ok. exists y, s2. split; [exact R1|reflexivity].
    + intros (h & s1 & y & s2 & G & R1 & R2). apply bind_ok in G as (o & s0 & G & E). apply bind_ok in E as (h' & s1' & E & E2). injection E2 as <- <-.
      exists o, s0. split; [exact G|]. apply bind_ok. exists h', s1'. split; [exact E|]. apply TS. exists y, s2. auto.
Qed.
(** Replacement of the function and of its arguments. *)
Lemma start_refines : forall f fs0 c0 rest0 ch0 g0 f' fs1 c1 rest1 ch1 g1,
  starts f fs0 c0 rest0 ch0 -> (sem c0) = MTrailer g0 (fun _ => no_set P) ->
  starts f' fs1 c1 rest1 ch1 -> (sem c1) = MTrailer g1 (fun _ => no_set P) ->
  Forall2 refines (map (meaning P) rest0) (map (meaning P) rest1) ->
  (forall s h s1 r, power_get P (map (meaning P) fs0) s = Ok (h, s1) -> g0 h s1 = Ok r ->
     exists h', power_get P (map (meaning P) fs1) s = Ok (h', s1) /\ g1 h' s1 = Ok r) ->
  refines (sem (Node power ch0)) (sem (Node power ch1)).
Proof.
  intros f fs0 c0 rest0 ch0 g0 f' fs1 c1 rest1 ch1 g1 S0 M0 S1 M1 Fr K. cbn [meaning combine]. constructor.
  - intros s r R. apply (power_start _ _ _ _ _ _ S0 M0) in R as (h & s1 & x & s2 & H1 & H2 & H3).
    destruct (K _ _ _ _ H1 H2) as (h' & K1 & K2). apply (power_start _ _ _ _ _ _ S1 M1). exists h', s1, x, s2. split; [exact K1|]. split; [exact K2|].
    apply (trail_le _ _ Fr). exact H3.
  - intros v s r R. apply (power_start_set _ _ _ _ _ _ v S0 M0) in R as (h & s1 & x & s2 & H1 & H2 & H3).
    destruct (K _ _ _ _ H1 H2) as (h' & K1 & K2). apply (power_start_set _ _ _ _ _ _ v S1 M1). exists h', s1, x, s2. split; [exact K1|]. split; [exact K2|].
    apply (trail_set_le _ _ Fr). exact H3.
Qed.
Lemma head_ufloat : forall fs c rest ch s h s1, starts "ufloat" fs c rest ch -> power_get P (map (meaning P) fs) s = Ok (h, s1) -> h = uf.
Proof.
  intros fs0 c rest ch s h s1 H G. destruct H as [n c rest (p & ->)|m x a c rest (p & ->) Ha]; cbn [map] in G.
  - apply bind_ok in G as (o & s0 & G & E). injection E as <- <-. cbn [meaning as_get] in G. unfold lift in G. cbn in G.
    destruct (p_name P "ufloat" s) as [f|e] eqn:N; [|discriminate G]. injection G as <- <-. apply (l_name _ _ _ _ _ L) in N as (N & _). exact N.
  - rewrite (m_attr _ _ Ha) in G. apply bind_ok in G as (o & s0 & G & E). cbn [trail] in E. apply bind_ok in E as (h' & s1' & E & E2). injection E2 as <- <-.
    apply (l_attr _ _ _ _ _ L) in E as (E & _). exact E.
Qed.
Lemma head_fromstr : forall fs0 c rest ch fs1 c1 rest1 ch1 s h s1, starts "ufloat" fs0 c rest ch -> starts "ufloat_fromstr" fs1 c1 rest1 ch1 ->
  tl (rev fs1) = tl (rev fs0) -> power_get P (map (meaning P) fs0) s = Ok (h, s1) -> power_get P (map (meaning P) fs1) s = Ok (fstr, s1).
Proof.
  intros fs0 c rest ch fs1 c1 rest1 ch1 s h s1 H H1 Tl G.
  destruct H as [n c rest (p & ->)|m x a c rest (p & ->) Ha]; destruct H1 as [n1 c1 rest1 (p1 & ->)|m1 x1 a1 c1 rest1 (p1 & ->) Ha1]; cbn in Tl; try discriminate Tl.
  - cbn [map] in *. apply bind_ok in G as (o & s0 & G & E). injection E as <- <-. cbn [meaning as_get] in G. unfold lift in G. cbn in G.
    destruct (p_name P "ufloat" s) as [f|e] eqn:N; [|discriminate G]. injection G as <- <-. apply (l_name _ _ _ _ _ L) in N as (_ & N).
    apply bind_ok. exists fstr, s. split; [|reflexivity]. cbn [meaning as_get]. unfold lift. cbn. rewrite N. reflexivity.
  - cbn [map] in *. rewrite (m_attr _ _ Ha) in G. rewrite (m_attr _ _ Ha1). injection Tl as -> ->.
    apply bind_ok in G as (o & s0 & G & E). cbn [trail] in E. apply bind_ok in E as (h' & s1' & E & E2). injection E2 as <- <-.
    apply (l_attr _ _ _ _ _ L) in E as (_ & E). apply bind_ok. exists o, s0. split; [exact G|]. cbn [trail]. apply bind_ok. exists fstr, s1'. split; [exact E|reflexivity].
Qed.
Lemma head_array : forall f fs c rest ch s h s1, f = "uarray" \/ f = "umatrix" -> starts f fs c rest ch -> power_get P (map (meaning P) fs) s = Ok (h, s1) -> array h.
Proof.
  intros f fs0 c rest ch s h s1 Hf H G. destruct H as [n c rest (p & ->)|m x a c rest (p & ->) Ha]; cbn [map] in G.
  - apply bind_ok in G as (o & s0 & G & E). injection E as <- <-. cbn [meaning as_get] in G. unfold lift in G.
    destruct (String.eqb f "*"); [discriminate G|]. destruct (p_name P f s) as [g|e] eqn:N; [|discriminate G]. injection G as <- <-.
    apply (l_array_name _ _ _ _ _ L _ _ _ Hf N).
  - rewrite (m_attr _ _ Ha) in G. apply bind_ok in G as (o & s0 & G & E). cbn [trail] in E. apply bind_ok in E as (h' & s1' & E & E2). injection E2 as <- <-.
    apply (l_array_attr _ _ _ _ _ L _ _ _ _ _ Hf E).
Qed.

(** ** Trees updated in all their parts *)
Inductive dr : tree -> tree -> Prop :=
| dr_leaf : forall ty p v, dr (Leaf ty p v) (Leaf ty p v)
| dr_node : forall ty ch ch', ty <> power -> ty <> simple_stmt -> Forall2 dr ch ch' ->
    refines (sem (Node ty ch)) (sem (Node ty ch')) -> dr (Node ty ch) (Node ty ch')
| dr_stmt : forall ch ch', refines (sem (Node simple_stmt ch)) (sem (Node simple_stmt ch')) -> dr (Node simple_stmt ch) (Node simple_stmt ch')
| dr_power : forall ch ch', refines (sem (Node power ch)) (sem (Node power ch')) -> dr (Node power ch) (Node power ch').
Lemma dr_refines : forall t t', dr t t' -> refines (sem t) (sem t').
Proof. intros t t' H. destruct H; try assumption. apply refines_refl. Qed.
Lemma drs_refines : forall l l', Forall2 dr l l' -> Forall2 refines (map (meaning P) l) (map (meaning P) l').
Proof. intros l l' F. induction F; cbn [map]; constructor; auto. apply dr_refines; assumption. Qed.
Lemma dr_token : forall t0 ty p v, dr t0 (Leaf ty p v) -> t0 = Leaf ty p v.
Proof. intros t0 ty p v H. inversion H; auto. Qed.
Lemma dr_tokens : forall ts0 ty p v, Forall2 dr ts0 [Leaf ty p v] -> ts0 = [Leaf ty p v].
Proof. intros ts0 ty p v H. inversion H as [|x y l l' Hx Hl]; subst. inversion Hl; subst. now rewrite (dr_token _ _ _ _ Hx). Qed.
Lemma dr_sym : forall t0 ty ch, dr t0 (Node ty ch) -> ty <> power -> ty <> simple_stmt -> exists ch0, t0 = Node ty ch0 /\ Forall2 dr ch0 ch.
Proof. intros t0 ty ch H Hp Ha. inversion H; subst; try contradiction. eauto. Qed.
Lemma dr_attr : forall f t0 t, dr t0 t -> attr f t -> t0 = t.
Proof.
  intros f t0 t H (p & q & ->). apply dr_sym in H as (ch & -> & H); try discriminate.
  inversion H as [|x y l l' Hx Hl]; subst. apply dr_token in Hx as ->. apply dr_tokens in Hl as ->. reflexivity.
Qed.
Lemma dr_parens : forall ty l t0 t, ty <> power -> ty <> simple_stmt -> dr t0 t -> parens ty l t -> exists l0, parens ty l0 t0 /\ Forall2 dr l0 l.
Proof.
  intros ty l t0 t N1 N2 H (p & q & ->). apply dr_sym in H as (ch & -> & H); auto.
  inversion H as [|x y l1 l2 Hx Hl]; subst. apply dr_token in Hx as ->.
  apply Forall2_app_inv_r in Hl as (l0 & e & H0 & He & ->). apply dr_tokens in He as ->. exists l0. split; [do 2 eexists; reflexivity|auto].
Qed.
Lemma dr_one : forall l0 a, Forall2 dr l0 [a] -> exists a0, l0 = [a0] /\ dr a0 a.
Proof. intros l0 a H. inversion H as [|x y l l' Hx Hl]; subst. inversion Hl; subst. eauto. Qed.
Lemma dr_commas : forall l ts, commas l ts -> forall ts0, Forall2 dr ts0 ts -> exists l0, commas l0 ts0 /\ Forall2 dr l0 l.
Proof.
  intros l ts H. induction H as [a|a c l ts (p & ->) H IH]; intros ts0 F.
  - apply dr_one in F as (a0 & -> & F). exists [a0]. split; constructor; auto.
  - inversion F as [|x y l1 l2 Hx Hl]; subst. inversion Hl as [|x' y' l1' l2' Hx' Hl']; subst. apply dr_token in Hx' as ->.
    destruct (IH _ Hl') as (l0 & Hc & Hf). exists (x :: l0). split; constructor; auto. eexists; reflexivity.
Qed.
Lemma dr_pair : forall a b t0 t, dr t0 t -> pair a b t -> exists a0 b0, pair a0 b0 t0 /\ dr a0 a /\ dr b0 b.
Proof.
  intros a b t0 t H (ts & Pa & Cm). destruct (dr_parens atom [Node testlist_gexp ts] t0 t) as (l0 & P0 & F); try discriminate; try assumption. apply dr_one in F as (x & -> & F).
  apply dr_sym in F as (ts0 & -> & F); try discriminate. destruct (dr_commas _ _ Cm _ F) as (l0 & C0 & F0).
  inversion F0 as [|a0 y l1 l2 Ha F1]; subst. inversion F1 as [|b0 y l3 l4 Hb F2]; subst. inversion F2; subst.
  exists a0, b0. split; [exists ts0; auto|auto].
Qed.
Lemma dr_call : forall l t0 t, dr t0 t -> call l t -> exists l0, call l0 t0 /\ Forall2 dr l0 l.
Proof.
  intros l t0 t H Cl. inversion Cl as [t' Pa|a t' Ha Pa|a b l' ts t' Hc Pa]; subst.
  - destruct (dr_parens trailer [] t0 t) as (l0 & P0 & F); try discriminate; auto. inversion F; subst. exists []. split; auto. now constructor.
  - destruct (dr_parens trailer [a] t0 t) as (l0 & P0 & F); try discriminate; auto. apply dr_one in F as (a0 & -> & F). exists [a0].
    split; [|constructor; auto]. constructor; auto. intros ch ->. inversion F; subst. eapply Ha; reflexivity.
  - destruct (dr_parens trailer [Node arglist ts] t0 t) as (l0 & P0 & F); try discriminate; auto. apply dr_one in F as (x & -> & F).
    apply dr_sym in F as (ts0 & -> & F); try discriminate. destruct (dr_commas _ _ Hc _ F) as (l0 & C0 & F0).
    exists l0. split; auto. inversion F0 as [|a0 y l1 l2 Fa F1]; subst. inversion F1 as [|b0 y l3 l4 Fb F2]; subst.
    econstructor; eauto.
Qed.
Lemma dr_call1 : forall a t0 t, dr t0 t -> call [a] t -> exists a0, call [a0] t0 /\ dr a0 a.
Proof. intros a t0 t H Cl. destruct (dr_call _ _ _ H Cl) as (l0 & C0 & F). apply dr_one in F as (a0 & -> & F). eauto. Qed.
Lemma dr_call2 : forall a b t0 t, dr t0 t -> call [a; b] t -> exists a0 b0, call [a0; b0] t0 /\ dr a0 a /\ dr b0 b.
Proof.
  intros a b t0 t H Cl. destruct (dr_call _ _ _ H Cl) as (l0 & C0 & F).
  inversion F as [|a0 y l1 l2 Fa F1]; subst. apply dr_one in F1 as (b0 & -> & Fb). eauto.
Qed.
Lemma dr_special : forall t0 t, dr t0 t -> special t0 -> special t.
Proof. intros t0 t H (ch & ->). inversion H; subst; eexists; reflexivity. Qed.
Lemma dr_string : forall t0 t, dr t0 t -> string_literal t -> t0 = t.
Proof. intros t0 t H (p & s & ->). apply dr_token in H. exact H. Qed.
Lemma dr_starts : forall f fs c rest ch0 ch, Forall2 dr ch0 ch -> starts f fs c rest ch ->
  exists c0 rest0, starts f fs c0 rest0 ch0 /\ dr c0 c /\ Forall2 dr rest0 rest.
Proof.
  intros f fs c rest ch0 ch F H. destruct H as [n c rest Hn|m x a c rest Hm Ha].
  - inversion F as [|n0 y l1 l2 F0 F1]; subst. inversion F1 as [|c0 y l3 l4 Fc F2]; subst.
    assert (n0 = n) as -> by (destruct Hn as (p & ->); apply dr_token in F0; exact F0). exists c0, l3. split; [constructor; exact Hn|auto].
  - inversion F as [|n0 y l1 l2 F0 F1]; subst. inversion F1 as [|a0 y l3 l4 Fa F2]; subst. inversion F2 as [|c0 y l5 l6 Fc F3]; subst.
    assert (n0 = m) as -> by (destruct Hm as (p & ->); apply dr_token in F0; exact F0). rewrite (dr_attr _ _ _ Fa Ha).
    exists c0, l5. split; [econstructor; eassumption|auto].
Qed.

Lemma positional_args : forall t s q s', positional t -> arguments P (sem t) s = Ok (q, s') -> exists w, get t s = Ok (w, s') /\ q = ([w], []).
Proof.
  intros t s q s' (Hs & Ha) A.
  assert (I : cbind (get t) (fun v => cret ([v], [])) s = Ok (q, s') -> exists w, get t s = Ok (w, s') /\ q = ([w], [])).
  { intros B. apply bind_ok in B as (w & s1 & G & E). injection E as <- <-. exists w. auto. }
  destruct t as [ty p v|ty ch]; [exact (I A)|]. destruct ty; try exact (I A).
  - apply I. cbn [meaning combine] in *. unfold trailer_mean in *. repeat match goal with |- context[match ?x with _ => _ end] => destruct x end; exact A.
  - apply I. cbn [meaning combine] in *. unfold atom_mean, other in *. repeat match goal with |- context[match ?x with _ => _ end] => destruct x end; exact A.
  - exfalso. eapply Ha. reflexivity.
  - exfalso. apply Hs. eexists. reflexivity.
  - apply I. cbn [meaning combine] in *. unfold assignment_mean, other in *. repeat match goal with |- context[match ?x with _ => _ end] => destruct x end; exact A.
  - apply I. cbn [meaning combine] in *. unfold other in *. destruct (_ || _); exact A.
Qed.

(** ** Obsolete calls at the beginning *)
Definition careful_start (ch : list tree) : Prop :=
  forall fs c rest a tag, starts "ufloat" fs c rest ch -> call [a; tag] c ->
     (string_literal a \/ exists x y, pair x y a) ->
     tag_keyword tag \/ positional tag /\
       (string_literal a -> forall s v s', get tag s = Ok (v, s') -> ~ number v).
Lemma dr_get : forall t0 t s r, dr t0 t -> get t0 s = Ok r -> get t s = Ok r.
Proof. intros t0 t s r D. apply get_le, dr_refines, D. Qed.
Lemma new_args : forall l c, new_call l c -> exists ts, commas l ts /\ sem c = called (args P (map (meaning P) ts)).
Proof. intros l c (ts & Hc & Hp). exists ts. split; [exact Hc|]. apply m_arglist, Hp. Qed.
Lemma commas3 : forall a b c ts, commas [a; b; c] ts -> exists k k', is_comma k /\ is_comma k' /\ ts = [a; k; b; k'; c].
Proof.
  intros a b c ts H. inversion H as [|x k l ts' Hk H']; subst. apply commas2 in H' as (k' & Hk' & ->). exists k, k'. auto.
Qed.
Lemma keyword_args : forall t s q s', tag_keyword t -> arguments P (sem t) s = Ok (q, s') -> exists w, q = ([], [("tag", w)]).
Proof.
  intros t s q s' (p & k & r & x & ->) A. cbn in A. apply bind_ok in A as (w & s1 & _ & E). injection E as <- <-. exists w. reflexivity.
Qed.
Lemma start_ok : forall ch0 ch1 ch2, Forall2 dr ch0 ch1 -> new_start ch1 ch2 -> careful_start ch0 ->
  refines (sem (Node power ch0)) (sem (Node power ch2)).
Proof.
  intros ch0 ch1 ch2 F N Ca. destruct N as [ch Ho|fs c c' rest ch t a b Hs Hc Hp Hn|fs c c' rest ch t a b tag Hs Hc Hp Hn
    |fs fs' c c' rest ch ch' st Hs Hc Hst Hn Hs' Tl|fs fs' c c' rest ch ch' st tag Hs Hc Hst Hn Hs' Tl
    |f fs c c' rest ch t a b Hf Hs Hc Hp Hn|f fs c c' rest ch t Hf Hs Hc Hsp Hnp Hst].
  - cbn [meaning combine]. apply power_le, drs_refines, F.
  - (* ufloat((a, b)) *)
    destruct (dr_starts _ _ _ _ _ _ F Hs) as (c0 & rest0 & Hs0 & Dc & Fr). destruct (dr_call1 _ _ _ Dc Hc) as (t0 & Hc0 & Dt).
    destruct (dr_pair _ _ _ _ Dt Hp) as (a0 & b0 & Hp0 & Da & Db). destruct (new_args _ _ Hn) as (ts & Hts & Mc').
    apply commas2 in Hts as (k & (pk & ->) & ->).
    eapply (start_refines _ _ _ _ _ _ _ _ _ _ _ _ Hs0 (m_call1 _ _ Hc0) (starts_put _ _ _ _ _ _ Hs) Mc'); [apply drs_refines, Fr|].
    intros s h s1 r H1 H2. exists h. split; [exact H1|]. rewrite (head_ufloat _ _ _ _ _ _ _ Hs0 H1) in *. clear H1.
    apply bind_ok in H2 as (q & s2 & A & K). destruct (m_pair _ _ _ Hp0) as (kk & Mt). rewrite Mt in A. cbn [arguments] in A. rewrite <- Mt in A.
    apply bind_ok in A as (v & s3 & A & E). injection E as <- <-.
    destruct (pair_ok _ _ _ _ _ _ Hp0 A) as (x & s4 & y & G1 & G2 & ->).
    apply bind_ok. exists ([x; y], []), s3. split; [|cbn in *; apply (l_tuple _ _ _ _ _ L); exact K].
    cbn [map].
    assert (T : args P [sem b] s4 = Ok (([y], []), s3)) by (apply last_ok, arguments_ok; apply (dr_get _ _ _ _ Db), G2).
    exact (item_ok _ (MLeaf COMMA "," :: [sem b]) _ _ _ _ _ (dr_get _ _ _ _ Da G1) T).
  - (* ufloat((a, b), tag) *)
    destruct (dr_starts _ _ _ _ _ _ F Hs) as (c0 & rest0 & Hs0 & Dc & Fr). destruct (dr_call2 _ _ _ _ Dc Hc) as (t0 & tag0 & Hc0 & Dt & Dg).
    destruct (dr_pair _ _ _ _ Dt Hp) as (a0 & b0 & Hp0 & Da & Db). destruct (new_args _ _ Hn) as (ts & Hts & Mc').
    apply commas3 in Hts as (k & k' & (pk & ->) & (pk' & ->) & ->). assert (Mc0 := m_call2 _ _ _ Hc0).
    eapply (start_refines _ _ _ _ _ _ _ _ _ _ _ _ Hs0 Mc0 (starts_put _ _ _ _ _ _ Hs) Mc'); [apply drs_refines, Fr|].
    intros s h s1 r H1 H2. exists h. split; [exact H1|]. rewrite (head_ufloat _ _ _ _ _ _ _ Hs0 H1) in *. clear H1.
    apply bind_ok in H2 as (q & s2 & A & K). destruct (m_pair _ _ _ Hp0) as (kk & Mt).
    apply item_inv in A as (v & s3 & q1 & A & B & ->); [|rewrite Mt; exact I]. apply last_inv in B.
    destruct (pair_ok _ _ _ _ _ _ Hp0 A) as (x & s4 & y & G1 & G2 & ->).
    assert (B' : args P [sem tag] s3 = Ok (q1, s2)) by (apply last_ok; apply (arguments_le _ _ (dr_refines _ _ Dg)), B).
    apply bind_ok. exists (x :: y :: fst q1, snd q1), s2. split.
    + cbn [map]. assert (T : args P [sem b; MLeaf COMMA ","; sem tag] s4 = Ok ((y :: fst q1, snd q1), s2)).
      { exact (item_ok _ (MLeaf COMMA "," :: [sem tag]) _ _ _ _ _ (dr_get _ _ _ _ Db G2) B'). }
      exact (item_ok _ (MLeaf COMMA "," :: [sem b; MLeaf COMMA ","; sem tag]) _ _ _ _ _ (dr_get _ _ _ _ Da G1) T).
    + cbn [fst snd] in *. destruct (Ca _ _ _ _ _ Hs0 Hc0) as [Kw|(Po & _)]; [right; eauto| |].
      * destruct (keyword_args _ _ _ _ Kw B) as (w & ->). cbn [fst snd] in *. apply (l_tuple_kw _ _ _ _ _ L). exact K.
      * destruct (positional_args _ _ _ _ Po B) as (w & _ & ->). cbn [fst snd] in *. apply (l_tuple_tag _ _ _ _ _ L). exact K.
  - (* ufloat('...') *)
    destruct (dr_starts _ _ _ _ _ _ F Hs) as (c0 & rest0 & Hs0 & Dc & Fr). destruct (dr_call1 _ _ _ Dc Hc) as (t0 & Hc0 & Dt).
    rewrite (dr_string _ _ Dt Hst) in *. destruct Hst as (p & lit & ->). destruct (new_args _ _ Hn) as (ts & Hts & Mc').
    inversion Hts as [x|x k l ts' Hk Hts']; subst; [|inversion Hts'].
    eapply (start_refines _ _ _ _ _ _ _ _ _ _ _ _ Hs0 (m_call1 _ _ Hc0) Hs' Mc'); [apply drs_refines, Fr|].
    intros s h s1 r H1 H2. exists fstr. split; [exact (head_fromstr _ _ _ _ _ _ _ _ _ _ _ Hs0 Hs' Tl H1)|].
    rewrite (head_ufloat _ _ _ _ _ _ _ Hs0 H1) in *. apply bind_ok in H2 as (q & s2 & A & K).
    apply bind_ok. exists q, s2. split; [apply last_ok, A|]. cbn [meaning arguments] in A. apply bind_ok in A as (x & s3 & A & E). injection E as <- <-.
    cbn [as_get] in A. destruct (String.eqb lit "*"); [discriminate A|]. unfold lift in A. destruct (p_lit P lit s1) as [y|] eqn:Li; [|discriminate A]. injection A as <- <-.
    cbn [fst snd] in *. apply (l_string _ _ _ _ _ L _ _ _ Li). exact K.
  - (* ufloat('...', tag) *)
    destruct (dr_starts _ _ _ _ _ _ F Hs) as (c0 & rest0 & Hs0 & Dc & Fr). destruct (dr_call2 _ _ _ _ Dc Hc) as (t0 & tag0 & Hc0 & Dt & Dg).
    assert (Hst0 := Hst). rewrite (dr_string _ _ Dt Hst) in *. destruct Hst as (p & lit & ->). destruct (new_args _ _ Hn) as (ts & Hts & Mc').
    apply commas2 in Hts as (k & (pk & ->) & ->). assert (Mc0 := m_call2 _ _ _ Hc0).
    eapply (start_refines _ _ _ _ _ _ _ _ _ _ _ _ Hs0 Mc0 Hs' Mc'); [apply drs_refines, Fr|].
    intros s h s1 r H1 H2. exists fstr. split; [exact (head_fromstr _ _ _ _ _ _ _ _ _ _ _ Hs0 Hs' Tl H1)|].
    rewrite (head_ufloat _ _ _ _ _ _ _ Hs0 H1) in *. apply bind_ok in H2 as (q & s2 & A & K).
    assert (Pl : plain (sem (Leaf STRING p lit))).
    { cbn [meaning plain]. destruct (String.eqb lit "*") eqn:E; [|reflexivity]. exfalso. rewrite args_cons in A. cbn [meaning] in A. rewrite E in A. discriminate A. }
    apply (item_inv _ _ _ _ _ _ Pl) in A as (v & s3 & q1 & A & B & ->). apply last_inv in B.
    assert (B' : args P [sem tag] s3 = Ok (q1, s2)) by (apply last_ok; apply (arguments_le _ _ (dr_refines _ _ Dg)), B).
    apply bind_ok. exists (v :: fst q1, snd q1), s2. split.
    + exact (item_ok _ (MLeaf COMMA "," :: [sem tag]) _ _ _ _ _ A B').
    + cbn [meaning as_get] in A. destruct (String.eqb lit "*"); [discriminate A|]. unfold lift in A. destruct (p_lit P lit s1) as [y|] eqn:Li; [|discriminate A]. injection A as <- <-.
      cbn [fst snd] in *. destruct (Ca _ _ _ _ _ Hs0 Hc0) as [Kw|(Po & Nn)]; [left; exact Hst0| |].
      * destruct (keyword_args _ _ _ _ Kw B) as (w & ->). cbn [fst snd] in *. apply (l_string_kw _ _ _ _ _ L _ _ _ _ Li). exact K.
      * destruct (positional_args _ _ _ _ Po B) as (w & G & ->). cbn [fst snd] in *. apply (l_string_tag _ _ _ _ _ L _ _ _ _ Li); [|exact K].
        exact (Nn Hst0 _ _ _ G).
  - (* uarray((a, b)) *)
    destruct (dr_starts _ _ _ _ _ _ F Hs) as (c0 & rest0 & Hs0 & Dc & Fr). destruct (dr_call1 _ _ _ Dc Hc) as (t0 & Hc0 & Dt).
    destruct (dr_pair _ _ _ _ Dt Hp) as (a0 & b0 & Hp0 & Da & Db). destruct (new_args _ _ Hn) as (ts & Hts & Mc').
    apply commas2 in Hts as (k & (pk & ->) & ->).
    eapply (start_refines _ _ _ _ _ _ _ _ _ _ _ _ Hs0 (m_call1 _ _ Hc0) (starts_put _ _ _ _ _ _ Hs) Mc'); [apply drs_refines, Fr|].
    intros s h s1 r H1 H2. exists h. split; [exact H1|]. assert (Ha := head_array _ _ _ _ _ _ _ _ Hf Hs0 H1).
    apply bind_ok in H2 as (q & s2 & A & K). destruct (m_pair _ _ _ Hp0) as (kk & Mt). rewrite Mt in A. cbn [arguments] in A. rewrite <- Mt in A.
    apply bind_ok in A as (v & s3 & A & E). injection E as <- <-.
    destruct (pair_ok _ _ _ _ _ _ Hp0 A) as (x & s4 & y & G1 & G2 & ->).
    apply bind_ok. exists ([x; y], []), s3. split.
    + cbn [map]. assert (T : args P [sem b] s4 = Ok (([y], []), s3)) by (apply last_ok, arguments_ok; apply (dr_get _ _ _ _ Db), G2).
      exact (item_ok _ (MLeaf COMMA "," :: [sem b]) _ _ _ _ _ (dr_get _ _ _ _ Da G1) T).
    + cbn [fst snd] in *. apply (l_array _ _ _ _ _ L _ _ _ _ Ha) in K as (l & s' & It & K). rewrite (l_iter _ _ _ _ _ L) in It. injection It as <- <-. exact K.
  - (* uarray(t) *)
    destruct (dr_starts _ _ _ _ _ _ F Hs) as (c0 & rest0 & Hs0 & Dc & Fr). destruct (dr_call1 _ _ _ Dc Hc) as (t0 & Hc0 & Dt).
    destruct Hst as (ty & p & Hp). assert (Mc' := m_arglist _ _ Hp).
    eapply (start_refines _ _ _ _ _ _ _ _ _ _ _ _ Hs0 (m_call1 _ _ Hc0) (starts_put _ _ _ _ _ _ Hs) Mc'); [apply drs_refines, Fr|].
    intros s h s1 r H1 H2. exists h. split; [exact H1|]. assert (Ha := head_array _ _ _ _ _ _ _ _ Hf Hs0 H1).
    apply bind_ok in H2 as (q & s2 & A & K).
    assert (Po : positional t0). { split; [intros S0; apply Hsp; eapply dr_special; eauto|]. apply call1_parens in Hc0 as (_ & Hc0). exact Hc0. }
    destruct (positional_args _ _ _ _ Po A) as (w & G & ->). cbn [fst snd] in *.
    apply (l_array _ _ _ _ _ L _ _ _ _ Ha) in K as (l & s' & It & K).
    apply bind_ok. exists (l, []), s'. split; [|exact K]. cbn [map meaning]. rewrite args_cons. cbn [String.eqb Ascii.eqb Bool.eqb].
    apply bind_ok. exists (l, []), s'. split.
    + apply bind_ok. exists l, s'. split; [|reflexivity]. apply bind_ok. exists w, s2. split; [exact (dr_get _ _ _ _ Dt G)|exact It].
    + apply bind_ok. exists ([], []), s'. split; [reflexivity|]. cbn. rewrite app_nil_r. reflexivity.
Qed.

(** ** Obsolete calls at the end *)
Definition is_trailer (m : mean) : Prop := match m with MTrailer _ _ => True | _ => False end.
Lemma trail_app : forall r g f q o s x, trail P (r ++ MTrailer g f :: q) o s = Ok x ->
  Forall is_trailer r /\ exists o' s', trail P r o s = Ok (o', s') /\ trail P (MTrailer g f :: q) o' s' = Ok x.
Proof.
  induction r as [|m r IH]; intros g f q o s x H.
  - split; [constructor|]. exists o, s. split; [reflexivity|exact H].
  - cbn [app] in H. destruct m; cbn [trail] in H; try discriminate H.
    + destruct r as [|m' r]; cbn [app] in H.
      * destruct q; [|discriminate H]. destruct (String.eqb v "**"); [|discriminate H]. apply bind_ok in H as (a & s1 & H & _). discriminate H.
      * destruct r; discriminate H.
    + apply bind_ok in H as (a & s1 & H1 & H2). destruct (IH _ _ _ _ _ _ H2) as (Fr & o' & s' & K1 & K2). split; [constructor; [exact I|exact Fr]|].
      exists o', s'. split; [|exact K2]. cbn [trail]. apply bind_ok. exists a, s1. auto.
Qed.
Lemma trail_then : forall r r' o s o' s', Forall is_trailer r -> trail P r o s = Ok (o', s') -> forall x,
  trail P r' o' s' = Ok x -> trail P (r ++ r') o s = Ok x.
Proof.
  induction r as [|m r IH]; intros r' o s o' s' Fr H x K.
  - injection H as <- <-. exact K.
  - inversion Fr as [|? ? Hm Fr']; subst. destruct m; try contradiction. cbn [app trail] in *.
    apply bind_ok in H as (a & s1 & H1 & H2). apply bind_ok. exists a, s1. split; [exact H1|]. eapply IH; eauto.
Qed.
Lemma trail_set_then : forall r m o s o' s' v, Forall is_trailer r -> trail P r o s = Ok (o', s') -> forall x,
  trail_set P [m] o' v s' = Ok x -> trail_set P (r ++ [m]) o v s = Ok x.
Proof.
  induction r as [|m' r IH]; intros m o s o' s' v Fr H x K.
  - injection H as <- <-. exact K.
  - inversion Fr as [|? ? Hm Fr']; subst. destruct m'; try contradiction. cbn [app trail trail_set] in *.
    apply bind_ok in H as (a & s1 & H1 & H2). destruct (r ++ [m]) as [|y l] eqn:E; [destruct r; discriminate E|]. rewrite <- E.
    apply bind_ok. exists a, s1. split; [exact H1|]. eapply IH; eauto.
Qed.
Lemma trail_set_call : forall r a g o v s x, trail_set P (r ++ [a; MTrailer g (fun _ => no_set P)]) o v s = Ok x -> False.
Proof.
  induction r as [|m r IH]; intros a g o v s x H; cbn [app trail_set] in H.
  - destruct a; try discriminate H. apply bind_ok in H as (o' & s' & _ & H). discriminate H.
  - destruct m; try discriminate H. destruct (r ++ [a; MTrailer g (fun _ => no_set P)]) as [|y l] eqn:E; [destruct r; discriminate E|].
    rewrite <- E in H. apply bind_ok in H as (o' & s' & _ & H). eapply IH; eauto.
Qed.
Lemma map_last2 : forall before a c, map (meaning P) (before ++ [a; c]) = map (meaning P) before ++ [sem a; sem c].
Proof. intros before a c. apply map_app. Qed.
Lemma get_end : forall f before a c, f = "std_dev" \/ f = "std_devs" -> attr f a -> call [] c ->
  refines (sem (Node power (before ++ [a; c]))) (sem (Node power (before ++ [a]))).
Proof.
  intros f before a c Hf Ha Hc. apply call0_parens in Hc. cbn [meaning combine]. rewrite map_last2, map_app, (m_attr _ _ Ha), (m_call0 _ Hc).
  cbn [map]. rewrite (m_attr _ _ Ha). set (A := MTrailer _ (fun o => p_setattr P o f)). constructor.
  - intros s r H. destruct before as [|m before]; [discriminate H|]. cbn [map app power_get] in *.
    apply bind_ok in H as (o & s1 & H1 & H2). apply bind_ok. exists o, s1. split; [exact H1|].
    unfold A in H2. destruct (trail_app _ _ _ _ _ _ _ H2) as (Fr & o' & s' & K1 & K2). apply (trail_then _ _ _ _ _ _ Fr K1).
    cbn [trail] in *. unfold A. apply bind_ok in K2 as (v & s2 & K2 & K3). apply bind_ok in K3 as (w & s3 & K3 & E). injection E as <-.
    rewrite (l_get _ _ _ _ _ L _ _ _ _ _ _ Hf K2 K3). apply bind_ok. exists v, s2. split; [exact K2|reflexivity].
  - intros v s r H. exfalso. destruct before as [|m before]; [discriminate H|]. cbn [map app power_set] in *.
    apply bind_ok in H as (o & s1 & _ & H2). eapply trail_set_call; eauto.
Qed.

(** A statement instead of an expression. *)
Definition drops (m m' : mean) : Prop :=
  exists g f g', m = MExpr g f /\ m' = MStmt g' /\ forall s v s', g s = Ok (v, s') -> g' s = Ok (tt, s').
Lemma statements_drop : forall ms ms', Forall2 (fun m m' => refines m m' \/ drops m m') ms ms' -> statements P ms <=~ statements P ms'.
Proof.
  intros ms ms' F. induction F as [|m m' r r' H F IH]; [apply le_refl|]. destruct H as [H|(g & f & g' & -> & -> & H)].
  - destruct H; cbn [statements]; try apply fail_le.
    + destruct ty; try exact IH; (apply bind_le; [apply le_refl|intros; exact IH]).
    + apply bind_le; [assumption|intros; exact IH].
    + apply bind_le; [assumption|intros; exact IH].
  - cbn [statements as_get]. intros s q Q. apply bind_ok in Q as (v & s1 & Q1 & Q2). apply bind_ok. exists tt, s1. split; [exact (H _ _ _ Q1)|apply IH, Q2].
Qed.
Lemma bare_meaning : forall t, sem (bare t) = sem t.
Proof.
  intros t. induction t as [ty p v|ty ch IH] using tree_all; [reflexivity|]. cbn [bare meaning]. f_equal.
  induction IH as [|c ch Hc _ IHc]; [reflexivity|]. cbn [map]. f_equal; assumption.
Qed.
Lemma Forall2_trailers : forall l l', Forall2 refines l l' -> Forall is_trailer l -> Forall is_trailer l'.
Proof.
  intros l l' F. induction F as [|m m' r r' H F IH]; intros A; [constructor|]. inversion A; subst. constructor; [|apply IH; assumption].
  destruct H; assumption.
Qed.
Lemma set_end : forall before0 before a c0 v0 v v' a' e, attr "set_std_dev" a -> attr "std_dev" a' -> parens trailer [v0] c0 -> positional v0 ->
  Forall2 dr before0 before -> dr v0 v -> bare v' = bare v -> (exists p, e = Leaf EQUAL p "=") ->
  independent P (power_get P (map (meaning P) before0)) (get v0) ->
  drops (sem (Node power (before0 ++ [a; c0]))) (sem (Node atom [Node power (before ++ [a']); e; v'])).
Proof.
  intros before0 before a c0 v0 v v' a' e Ha Ha' Hc Po Fb Dv Hb (pe & ->) Ind.
  exists (power_get P (map (meaning P) (before0 ++ [a; c0]))), (power_set P (map (meaning P) (before0 ++ [a; c0]))),
    (cbind (get v') (power_set P (map (meaning P) (before ++ [a'])))). split; [reflexivity|]. split; [reflexivity|].
  intros s r s' H. rewrite map_last2, (m_attr _ _ Ha), (m_parens _ _ Hc) in H. unfold called in H.
  destruct before0 as [|m before0]; [discriminate H|]. inversion Fb as [|? m' ? before' Dm Fb']; subst. cbn [map app power_get] in *.
  apply bind_ok in H as (o & s1 & H1 & H2). destruct (trail_app _ _ _ _ _ _ _ H2) as (Fr & x & s2 & K1 & K2). clear H2.
  cbn [trail] in K2. apply bind_ok in K2 as (mt & s3 & K2 & K3). apply bind_ok in K3 as (z & s4 & K3 & E). injection E as <- <-.
  apply bind_ok in K3 as (q & s5 & K3 & K4). destruct (positional_args _ _ _ _ Po K3) as (w & G & ->). cbn [fst snd] in K4.
  apply (l_set _ _ _ _ _ L) in K2 as (-> & K2). apply K2 in K4.
  destruct (Ind s x s2 w s5) as (s6 & I1 & I2); [apply bind_ok; exists o, s1; auto|exact G|].
  apply bind_ok. exists w, s6. split.
  - rewrite <- bare_meaning, Hb, bare_meaning. apply (dr_get _ _ _ _ Dv), I1.
  - apply bind_ok in I2 as (o2 & s7 & I2 & I3). rewrite map_app. cbn [map power_set].
    apply bind_ok. exists o2, s7. split; [apply (dr_get _ _ _ _ Dm), I2|]. rewrite (m_attr _ _ Ha').
    apply (trail_set_then _ _ _ _ x s5); [apply (Forall2_trailers _ _ (drs_refines _ _ Fb') Fr)|apply (trail_le _ _ (drs_refines _ _ Fb')), I3|].
    cbn [trail_set]. exact K4.
Qed.

(** ** The whole program *)
Lemma updated_from : forall t t', updated t t' -> from t t'.
Proof.
  intros t. induction t as [ty p v|ty ch IH] using tree_all; intros t' H; inversion H; subst; try (constructor; fail).
  constructor; [assumption|]. match goal with F : Forall2 updated _ _ |- _ => clear H; revert IH; induction F as [|x y l l' Hx F IHF]; intros IH; constructor; inversion IH; subst; auto end.
Qed.
Lemma new_start_cases : forall ch ch', new_start ch ch' -> ch' = ch \/ obsolete_start ch.
Proof.
  intros ch ch' H. inversion H; subst; try (left; reflexivity); right.
  - eapply os_tuple; eauto.
  - eapply os_tuple_tag; eauto.
  - eapply os_string; eauto.
  - eapply os_string_tag; eauto.
  - eapply os_array; eauto. intros (x & ->). match goal with Hp : pair _ _ _ |- _ => destruct Hp as (ts & (p & q & E) & _); discriminate end.
  - eapply os_array; eauto.
Qed.
Lemma sets_node : forall ty ch, sets_in_statements (Node ty ch) <->
  (ty <> simple_stmt -> Forall (fun c => ~ set_call c) ch) /\ Forall sets_in_statements ch.
Proof.
  intros ty ch. cbn [sets_in_statements].
  assert (E : fold_right (fun c Q => sets_in_statements c /\ Q) True ch <-> Forall sets_in_statements ch).
  { induction ch as [|c ch IH]; cbn; [split; auto|]. rewrite IH. split; [intros (A & B); constructor; auto|intros H; inversion H; auto]. }
  now rewrite E.
Qed.
Theorem updated_means : forall t t', updated t t' -> everywhere treated t -> everywhere (careful P number) t -> sets_in_statements t ->
  dr t t' \/ set_call t /\ drops (sem t) (sem t').
Proof.
  intros t. induction t as [ty p v|ty ch IH] using tree_all; intros t' H T Ca St; [inversion H; subst; left; constructor|].
  apply everywhere_node in T as (T & Ts). apply everywhere_node in Ca as (Ca & Cs). apply sets_node in St as (St & Ss).
  assert (Ch : forall ch', Forall2 updated ch ch' -> Forall2 (fun c c' => dr c c' \/ set_call c /\ drops (sem c) (sem c')) ch ch').
  { clear - IH Ts Cs Ss. intros ch' F. induction F as [|x y l l' Hx F IHF]; constructor; inversion IH; inversion Ts; inversion Cs; inversion Ss; subst; auto. }
  assert (Dr : forall ch', ty <> simple_stmt -> Forall2 updated ch ch' -> Forall2 dr ch ch').
  { intros ch' Hn F. specialize (St Hn). apply Ch in F. clear - F St. induction F as [|x y l l' [Hx|(Hx & _)] F IHF]; inversion St; subst; constructor; auto. contradiction. }
  inversion H as [|? ? ch' Hp F|? ch1 ch2 F Ho N|f ? before a c ch2 F Hf Ha Hc N|? before a c v ch2 a' e v' F Ha Hc Hsp Ha' N Hb He]; subst; clear H.
  - left. destruct (sym_eq_dec ty simple_stmt) as [->|Hn].
    + apply dr_stmt. cbn [meaning combine simple_stmt Nat.eqb orb]. constructor. apply statements_drop. apply Ch in F. clear - F.
      induction F as [|x y l l' [Hx|(_ & Hx)] F IHF]; cbn [map]; constructor; auto. left. apply dr_refines, Hx.
    + apply dr_node; auto. cbn [meaning]. apply combine_le, drs_refines, Dr; auto.
  - left. apply dr_power. apply (start_ok ch ch1 ch2); [apply Dr; [discriminate|exact F]|exact N|]. destruct (Ca eq_refl) as (C1 & _). exact C1.
  - left. apply dr_power. assert (D := Dr _ ltac:(discriminate) F). apply Forall2_app_inv_r in D as (b0 & e & Db & De & ->).
    inversion De as [|a0 y l1 l2 Fa F1]; subst. apply dr_one in F1 as (c0 & -> & Fc). rewrite (dr_attr _ _ _ Fa Ha) in *. clear Fa.
    destruct (dr_call _ _ _ Fc Hc) as (l0 & Hc0 & Fl). inversion Fl; subst. destruct (Ca eq_refl) as (C1 & _).
    eapply refines_trans; [apply (get_end _ b0 a c0 Hf Ha Hc0)|]. apply (start_ok _ (before ++ [a])); [|exact N|].
    + apply Forall2_app; [exact Db|]. constructor; [|constructor]. destruct Ha as (p1 & p2 & ->). apply dr_node; try discriminate; [|apply refines_refl].
      constructor; [constructor|]. constructor; [constructor|constructor].
    + intros fs c1 rest x tag Hs. apply (C1 fs c1 (rest ++ [c0])).
      assert (E : b0 ++ [a; c0] = (b0 ++ [a]) ++ [c0]) by (rewrite <- app_assoc; reflexivity). rewrite E. apply starts_app, Hs.
  - right. assert (D := Dr _ ltac:(discriminate) F). assert (Fm : Forall2 from ch (before ++ [a; c])).
    { clear - F. induction F; constructor; auto. apply updated_from; assumption. }
    apply Forall2_app_inv_r in D as (b0 & x & Db & De & ->).
    inversion De as [|a0 y l1 l2 Fa F1]; subst. apply dr_one in F1 as (c0 & -> & Fc). rewrite (dr_attr _ _ _ Fa Ha) in *. clear Fa.
    destruct (dr_call1 _ _ _ Fc Hc) as (v0 & Hc0 & Dv). apply call1_parens in Hc0 as (Hp0 & Hl0).
    destruct (T eq_refl) as (_ & T2). destruct (T2 b0 a c0 v0 eq_refl Ha Hp0) as (Sp0 & _ & No).
    assert (ch2 = before ++ [a']) as ->.
    { destruct (new_start_cases _ _ N) as [E|O]; [exact E|]. exfalso. apply No. eapply from_obsolete; [exact Fm|]. eapply obsolete_extend; eauto. }
    split; [exists b0, a, c0, v0; auto|]. destruct (Ca eq_refl) as (_ & C2).
    eapply set_end; eauto. split; assumption.
Qed.
(** The updated program does the same as the original one. *)
Theorem updated_same : forall t t', everywhere treated t -> everywhere (careful P number) t -> sets_in_statements t -> refactor t = Some t' ->
  forall s s', execute P t s = Ok s' -> execute P t' s = Ok s'.
Proof.
  intros t t' T Ca St R s s' E. assert (U := updater_updates _ _ T R). destruct (updated_means _ _ U T Ca St) as [D|(_ & g & f & g' & E1 & _)].
  - apply dr_refines in D. unfold execute in *. destruct D; try discriminate E. destruct (g s) as [[u s1]|] eqn:G; [|discriminate E]. injection E as <-. rewrite (H _ _ G). reflexivity.
  - unfold execute in E. rewrite E1 in E. discriminate E.
Qed.
End PyThm.
