(** Proofs about the code updater. *)
From Coq Require Import String.
From Coq Require Import List Bool Arith Lia.
From Verif Require Import Fixer FixerSpec.
Import ListNotations.
Local Open Scope string_scope.
Local Open Scope list_scope.

(** ** Induction on trees *)
Fixpoint tree_all (P : tree -> Prop) (HL : forall ty p v, P (Leaf ty p v))
  (HN : forall ty ch, Forall P ch -> P (Node ty ch)) (t : tree) : P t :=
  match t with
  | Leaf ty p v => HL ty p v
  | Node ty ch => HN ty ch ((fix go l : Forall P l :=
      match l with [] => Forall_nil P | c :: l' => Forall_cons c (tree_all P HL HN c) (go l') end) ch)
  end.

(** ** Patterns *)
Fixpoint seqm (ps : list pat) (ts : list tree) {struct ps} : option results :=
  match ps with
  | [] => match ts with [] => Some [] | _ => None end
  | q :: ps' =>
      match q with
      | PStar =>
          (fix skip (ts : list tree) : option results :=
             match seqm ps' ts with
             | Some r => Some r
             | None => match ts with [] => None | _ :: ts' => skip ts' end
             end) ts
      | _ =>
          match ts with
          | [] => None
          | t :: ts' =>
              match pmatch q t with
              | Some r => match seqm ps' ts' with Some r' => Some (r ++ r') | None => None end
              | None => None
              end
          end
      end
  end.
Lemma sym_eqb_refl : forall s, sym_eqb s s = true.
Proof. intros. unfold sym_eqb. destruct (sym_eq_dec s s); congruence. Qed.
Lemma tok_eqb_refl : forall s, tok_eqb s s = true.
Proof. intros. unfold tok_eqb. destruct (tok_eq_dec s s); congruence. Qed.
Lemma pmatch_node : forall ty ps ty' ch, pmatch (PNode ty ps) (Node ty' ch) = if sym_eqb ty ty' then seqm ps ch else None.
Proof. reflexivity. Qed.
Definition one (p : pat) : Prop := p <> PStar.
Lemma seqm_cons : forall q ps t ts, one q -> seqm (q :: ps) (t :: ts) =
  match pmatch q t with Some r => match seqm ps ts with Some r' => Some (r ++ r') | None => None end | None => None end.
Proof. intros [] ps t ts H; try reflexivity. congruence. Qed.
Lemma seqm_nil : forall q ps, one q -> seqm (q :: ps) [] = None.
Proof. intros [] ps H; try reflexivity. congruence. Qed.
Lemma seqm_star : forall ts, seqm [PStar] ts = Some [].
Proof. induction ts as [|t ts IH]; [reflexivity|]. cbn in *. exact IH. Qed.
Lemma star_cons : forall ps ts, seqm (PStar :: ps) ts =
  match seqm ps ts with Some r => Some r | None => match ts with [] => None | _ :: ts' => seqm (PStar :: ps) ts' end end.
Proof. intros ps [|t ts]; reflexivity. Qed.
Lemma seqm_end : forall p q ts r, one p -> one q ->
  (seqm [PStar; p; q] ts = Some r <-> exists before x y rx ry, ts = before ++ [x; y] /\ pmatch p x = Some rx /\
     pmatch q y = Some ry /\ r = rx ++ ry).
Proof.
  intros p q ts r Hp Hq.
  assert (E2 : forall ts r, seqm [p; q] ts = Some r <-> exists x y rx ry, ts = [x; y] /\ pmatch p x = Some rx /\
     pmatch q y = Some ry /\ r = rx ++ ry).
  { clear ts r. intros ts r. split.
    - destruct ts as [|x ts]; [rewrite seqm_nil by auto; discriminate|]. rewrite seqm_cons by auto.
      destruct (pmatch p x) as [rx|] eqn:Ex; [|discriminate].
      destruct ts as [|y ts]; [rewrite seqm_nil by auto; discriminate|]. rewrite seqm_cons by auto.
      destruct (pmatch q y) as [ry|] eqn:Ey; [|discriminate]. destruct ts; [|discriminate].
      cbn. intros H. injection H; intros <-. exists x, y, rx, ry. rewrite app_nil_r. auto.
    - intros (x & y & rx & ry & -> & Ex & Ey & ->). rewrite !seqm_cons, Ex, Ey by auto. cbn. now rewrite app_nil_r. }
  induction ts as [|t ts IH].
  - rewrite star_cons. split.
    + destruct (seqm [p; q] []) eqn:E; [|discriminate]. apply E2 in E as (x & y & rx & ry & E & _). discriminate.
    + intros (b & x & y & rx & ry & E & _). destruct b; discriminate.
  - rewrite star_cons. destruct (seqm [p; q] (t :: ts)) as [r0|] eqn:E.
    + apply E2 in E as (x & y & rx & ry & E & Ex & Ey & ->). injection E; intros -> ->. split.
      * intros H. injection H; intros <-. exists [], x, y, rx, ry. auto.
      * intros (b & x' & y' & rx' & ry' & E' & Ex' & Ey' & ->).
        destruct b as [|b0 [|b1 b]]; [|discriminate|destruct b; discriminate]. injection E'; intros -> ->. congruence.
    + rewrite IH. split.
      * intros (b & x & y & rx & ry & -> & H). exists (t :: b), x, y, rx, ry. auto.
      * intros (b & x & y & rx & ry & E' & Ex & Ey & Er). destruct b as [|b0 b].
        { exfalso. assert (seqm [p; q] (t :: ts) = Some r) by (apply E2; exists x, y, rx, ry; auto). congruence. }
        injection E'; intros -> ->. exists b, x, y, rx, ry. auto.
Qed.

Lemma leaf_iff : forall ty s nm t r, pmatch (PLeaf ty (Some s) nm) t = Some r <->
  exists p, t = Leaf ty p s /\ r = named nm t.
Proof.
  intros. split.
  - destruct t as [ty' p v|]; [|discriminate]. cbn. unfold tok_eqb. destruct (tok_eq_dec ty ty') as [->|]; [|discriminate].
    destruct (String.eqb_spec s v) as [->|]; [|discriminate]. intros H. injection H; intros <-. eauto.
  - intros (p & -> & ->). cbn. rewrite tok_eqb_refl, String.eqb_refl. reflexivity.
Qed.
Lemma token_iff : forall ty nm t r, pmatch (PLeaf ty None nm) t = Some r <->
  exists p s, t = Leaf ty p s /\ r = named nm t.
Proof.
  intros. split.
  - destruct t as [ty' p v|]; [|discriminate]. cbn. unfold tok_eqb. destruct (tok_eq_dec ty ty') as [->|]; [|discriminate].
    intros H. injection H; intros <-. eauto.
  - intros (p & s & -> & ->). cbn. rewrite tok_eqb_refl. reflexivity.
Qed.
Lemma node_iff : forall ty ps t r, pmatch (PNode ty ps) t = Some r <-> exists ch, t = Node ty ch /\ seqm ps ch = Some r.
Proof.
  intros ty ps [ty' p v|ty' ch] r; split.
  - discriminate.
  - intros (ch & E & _). discriminate.
  - rewrite pmatch_node. unfold sym_eqb. destruct (sym_eq_dec ty ty') as [->|]; [|discriminate]. eauto.
  - intros (ch' & E & H). injection E; intros -> ->. now rewrite pmatch_node, sym_eqb_refl.
Qed.
Lemma cons_iff : forall q ps ts r, one q -> (seqm (q :: ps) ts = Some r <->
  exists t ts' r1 r2, ts = t :: ts' /\ pmatch q t = Some r1 /\ seqm ps ts' = Some r2 /\ r = r1 ++ r2).
Proof.
  intros q ps ts r Hq. split.
  - destruct ts as [|t ts]; [rewrite seqm_nil by auto; discriminate|]. rewrite seqm_cons by auto.
    destruct (pmatch q t) as [r1|] eqn:E1; [|discriminate]. destruct (seqm ps ts) as [r2|] eqn:E2; [|discriminate].
    intros H. injection H; intros <-. exists t, ts, r1, r2. auto.
  - intros (t & ts' & r1 & r2 & -> & E1 & E2 & ->). now rewrite seqm_cons, E1, E2 by auto.
Qed.
Lemma nil_iff : forall ts r, seqm [] ts = Some r <-> ts = [] /\ r = [].
Proof.
  intros [|t ts] r; cbn; split.
  - intros H. injection H; intros <-. auto.
  - intros (_ & ->). reflexivity.
  - discriminate.
  - intros (H & _). discriminate.
Qed.
Lemma any_iff : forall nm t r, pmatch (PAny nm) t = Some r <-> r = named nm t.
Proof. intros. cbn. split; congruence. Qed.
Ltac one := unfold one; discriminate.

Lemma attr_iff : forall f t r, pmatch (attr_pat f) t = Some r <-> attr f t /\ r = [].
Proof.
  intros f t r. unfold attr_pat, attr. rewrite node_iff. split.
  - intros (ch & -> & H). apply cons_iff in H as (a & ts & r1 & r2 & -> & E1 & H & ->); [|one].
    apply cons_iff in H as (b & ts' & r3 & r4 & -> & E2 & H & ->); [|one]. apply nil_iff in H as (-> & ->).
    apply leaf_iff in E1 as (p & -> & ->). apply leaf_iff in E2 as (q & -> & ->). split; [do 2 eexists; reflexivity|reflexivity].
  - intros ((p & q & ->) & ->). eexists. split; [reflexivity|].
    apply cons_iff; [one|]. eexists _, _, [], []. split; [reflexivity|]. split; [apply leaf_iff; eauto|]. split; auto.
    apply cons_iff; [one|]. eexists _, _, [], []. split; [reflexivity|]. split; [apply leaf_iff; eauto|]. split; reflexivity.
Qed.
Lemma call0_iff : forall t r, pmatch (PNode trailer [lpar; rpar]) t = Some r <-> parens trailer [] t /\ r = [].
Proof.
  intros t r. unfold parens. rewrite node_iff. split.
  - intros (ch & -> & H). apply cons_iff in H as (a & ts & r1 & r2 & -> & E1 & H & ->); [|one].
    apply cons_iff in H as (b & ts' & r3 & r4 & -> & E2 & H & ->); [|one]. apply nil_iff in H as (-> & ->).
    apply leaf_iff in E1 as (p & -> & ->). apply leaf_iff in E2 as (q & -> & ->). split; [do 2 eexists; reflexivity|reflexivity].
  - intros ((p & q & ->) & ->). eexists. split; [reflexivity|].
    apply cons_iff; [one|]. eexists _, _, [], []. split; [reflexivity|]. split; [apply leaf_iff; eauto|]. split; auto.
Qed.
Lemma call1_iff : forall ty p t r, one p -> (pmatch (PNode ty [lpar; p; rpar]) t = Some r <->
  exists x, parens ty [x] t /\ pmatch p x = Some r).
Proof.
  intros ty p t r Hp. unfold parens. rewrite node_iff. split.
  - intros (ch & -> & H). apply cons_iff in H as (a & ts & r1 & r2 & -> & E1 & H & ->); [|one].
    apply cons_iff in H as (x & ts' & r3 & r4 & -> & Ex & H & ->); [|auto].
    apply cons_iff in H as (b & ts'' & r5 & r6 & -> & E2 & H & ->); [|one]. apply nil_iff in H as (-> & ->).
    apply leaf_iff in E1 as (q & -> & ->). apply leaf_iff in E2 as (q' & -> & ->). exists x.
    cbn. rewrite app_nil_r. split; [do 2 eexists; reflexivity|assumption].
  - intros (x & (q & q' & ->) & Ex). eexists. split; [reflexivity|].
    apply cons_iff; [one|]. eexists _, _, [], r. split; [reflexivity|]. split; [apply leaf_iff; eauto|]. split; auto.
    apply cons_iff; [auto|]. eexists _, _, r, []. split; [reflexivity|]. split; auto. split; [|now rewrite app_nil_r].
    apply cons_iff; [one|]. eexists _, _, [], []. split; [reflexivity|]. split; [apply leaf_iff; eauto|]. split; reflexivity.
Qed.
Lemma three_iff : forall ty p q ch r, one p -> one q -> (pmatch (PNode ty [p; comma; q]) (Node ty ch) = Some r <->
  exists x c y rx ry, is_comma c /\ ch = [x; c; y] /\ pmatch p x = Some rx /\ pmatch q y = Some ry /\ r = rx ++ ry).
Proof.
  intros ty p q ch r Hp Hq. rewrite pmatch_node, sym_eqb_refl. split.
  - intros H. apply cons_iff in H as (x & ts & r1 & r2 & -> & E1 & H & ->); [|auto].
    apply cons_iff in H as (c & ts' & r3 & r4 & -> & Ec & H & ->); [|one].
    apply cons_iff in H as (y & ts'' & r5 & r6 & -> & E2 & H & ->); [|auto]. apply nil_iff in H as (-> & ->).
    apply leaf_iff in Ec as (pc & -> & ->). eexists x, _, y, r1, r5. unfold is_comma. rewrite app_nil_r.
    split; [eauto|]. auto.
  - intros (x & c & y & rx & ry & (pc & ->) & -> & Ex & Ey & ->).
    apply cons_iff; [auto|]. eexists _, _, rx, ry. split; [reflexivity|]. split; [auto|]. split; auto.
    apply cons_iff; [one|]. eexists _, _, [], ry. split; [reflexivity|]. split; [apply leaf_iff; eauto|]. split; auto.
    apply cons_iff; [auto|]. eexists _, _, ry, []. split; [reflexivity|]. split; [auto|]. split; [apply nil_iff; auto|].
    now rewrite app_nil_r.
Qed.
Lemma commas2 : forall a b ts, commas [a; b] ts <-> exists c, is_comma c /\ ts = [a; c; b].
Proof.
  intros a b ts. split.
  - intros H. inversion H as [|? c ? ts' Hc Hts]; subst. inversion Hts as [|? ? ? ? ? Hn]; subst; [eauto|inversion Hn].
  - intros (c & Hc & ->). constructor; auto. constructor.
Qed.
Lemma tuple_iff : forall t r, pmatch tuple_pat t = Some r <-> exists a b, pair a b t /\ r = [("arg0", a); ("arg1", b)].
Proof.
  intros t r. unfold tuple_pat. rewrite call1_iff by one. unfold pair. split.
  - intros (x & Hp & H). destruct x as [|ty ch]; [discriminate|].
    pose proof H as H0. rewrite pmatch_node in H0. unfold sym_eqb in H0. destruct (sym_eq_dec testlist_gexp ty) as [<-|]; [|discriminate].
    apply three_iff in H as (a & c & b & ra & rb & Hc & -> & Ea & Eb & ->); [|one|one].
    apply any_iff in Ea as ->. apply any_iff in Eb as ->. exists a, b. split; auto.
    eexists. split; [eauto|]. apply commas2. eauto.
  - intros (a & b & (ts & Hp & Hc) & ->). apply commas2 in Hc as (c & Hc & ->). eexists. split; [eauto|].
    apply three_iff; [one|one|]. exists a, c, b, [("arg0", a)], [("arg1", b)]. auto.
Qed.
Lemma tag_iff : forall p t r, one p -> (pmatch (PNode trailer [lpar; PNode arglist [p; comma; any_ "tag"]; rpar]) t = Some r <->
  exists x tag rx, call [x; tag] t /\ pmatch p x = Some rx /\ r = rx ++ [("tag", tag)]).
Proof.
  intros p t r Hp. rewrite call1_iff by one. split.
  - intros (n & Hn & H). destruct n as [|ty ch]; [discriminate|].
    pose proof H as H0. rewrite pmatch_node in H0. unfold sym_eqb in H0. destruct (sym_eq_dec arglist ty) as [<-|]; [|discriminate].
    apply three_iff in H as (x & c & y & rx & ry & Hc & -> & Ex & Ey & ->); [|auto|one].
    apply any_iff in Ey as ->. exists x, y, rx. split; auto. eapply call_list; [|exact Hn]. apply commas2. eauto.
  - intros (x & tag & rx & H & Ex & ->). inversion H as [| |? ? ? ts ? Hc Hn]; subst.
    apply commas2 in Hc as (c & Hc & ->). eexists. split; [exact Hn|]. apply three_iff; [auto|one|].
    eexists x, c, tag, rx, _. split; auto. split; auto. split; auto. split; [apply any_iff; reflexivity|reflexivity].
Qed.

(** ** Beginning of a power expression *)
Lemma name_start : forall f q t r, one q -> (pmatch (PNode power [lit f; q; PStar]) t = Some r <->
  exists n c rest, name f n /\ t = Node power (n :: c :: rest) /\ pmatch q c = Some r).
Proof.
  intros f q t r Hq. rewrite node_iff. split.
  - intros (ch & -> & H). apply cons_iff in H as (n & ts & r1 & r2 & -> & E1 & H & ->); [|one].
    apply cons_iff in H as (c & rest & r3 & r4 & -> & Ec & H & ->); [|auto]. rewrite seqm_star in H. injection H; intros <-.
    apply leaf_iff in E1 as (p & -> & ->). eexists _, c, rest. split; [eexists; reflexivity|]. cbn. rewrite app_nil_r. auto.
  - intros (n & c & rest & (p & ->) & -> & Ec). eexists. split; [reflexivity|].
    apply cons_iff; [one|]. eexists _, _, [], r. split; [reflexivity|]. split; [apply leaf_iff; eauto|]. split; auto.
    apply cons_iff; [auto|]. eexists _, _, r, []. split; [reflexivity|]. split; auto. rewrite seqm_star, app_nil_r. auto.
Qed.
Lemma attr_start : forall f q t r, one q -> (pmatch (PNode power [object; attr_pat f; q; PStar]) t = Some r <->
  exists m a c rest x r', name x m /\ attr f a /\ t = Node power (m :: a :: c :: rest) /\ pmatch q c = Some r' /\
    r = ("object", m) :: r').
Proof.
  intros f q t r Hq. rewrite node_iff. split.
  - intros (ch & -> & H). apply cons_iff in H as (n & ts & r1 & r2 & -> & E1 & H & ->); [|one].
    apply cons_iff in H as (a & ts' & r3 & r4 & -> & Ea & H & ->); [|one].
    apply cons_iff in H as (c & rest & r5 & r6 & -> & Ec & H & ->); [|auto]. rewrite seqm_star in H. injection H; intros <-.
    apply token_iff in E1 as (p & x & -> & ->). apply attr_iff in Ea as (Ha & ->).
    eexists _, a, c, rest, x, r5. split; [eexists; reflexivity|]. cbn. rewrite app_nil_r. auto.
  - intros (m & a & c & rest & x & r' & (p & ->) & Ha & -> & Ec & ->). eexists. split; [reflexivity|].
    apply cons_iff; [one|]. eexists _, _, [("object", Leaf NAME p x)], r'. split; [reflexivity|]. split; [apply token_iff; eauto|].
    split; auto. apply cons_iff; [one|]. eexists _, _, [], r'. split; [reflexivity|]. split; [apply attr_iff; auto|]. split; auto.
    apply cons_iff; [auto|]. eexists _, _, r', []. split; [reflexivity|]. split; auto. rewrite seqm_star, app_nil_r. auto.
Qed.
(** The two forms together. *)
Definition obj_of (fs : list tree) : results :=
  match fs with [m; _] => [("object", m)] | _ => [] end.
Lemma start_iff : forall f q t r, one q ->
  (pmatch (PNode power [lit f; q; PStar]) t = Some r \/ pmatch (PNode power [object; attr_pat f; q; PStar]) t = Some r) <->
  exists fs c rest ch r', t = Node power ch /\ starts f fs c rest ch /\ pmatch q c = Some r' /\ r = obj_of fs ++ r'.
Proof.
  intros f q t r Hq. rewrite name_start, attr_start by auto. split.
  - intros [(n & c & rest & Hn & -> & Ec)|(m & a & c & rest & x & r' & Hm & Ha & -> & Ec & ->)].
    + eexists _, c, rest, _, r. split; [reflexivity|]. split; [constructor; eauto|]. auto.
    + eexists _, c, rest, _, r'. split; [reflexivity|]. split; [econstructor; eauto|]. auto.
  - intros (fs & c & rest & ch & r' & -> & Hs & Ec & ->). inversion Hs; subst.
    + left. do 3 eexists. split; [eassumption|]. split; [reflexivity|]. exact Ec.
    + right. do 6 eexists. split; [eassumption|]. split; [eassumption|]. split; [reflexivity|]. split; [exact Ec|reflexivity].
Qed.

Lemma first_some : forall ps t r, first_match ps t = Some r -> exists p, In p ps /\ pmatch p t = Some r.
Proof.
  induction ps as [|p ps IH]; cbn; intros t r H; [discriminate|].
  destruct (pmatch p t) eqn:E; [injection H; intros <-; eauto|]. apply IH in H as (q & Hq & E'). eauto.
Qed.
Lemma first_none : forall ps t p, first_match ps t = None -> In p ps -> pmatch p t = None.
Proof.
  induction ps as [|p ps IH]; cbn; intros t q H Hq; [contradiction|].
  destruct (pmatch p t) eqn:E; [discriminate|]. destruct Hq as [->|Hq]; eauto.
Qed.
Lemma first_app : forall ps qs t, first_match (ps ++ qs) t =
  match first_match ps t with Some r => Some r | None => first_match qs t end.
Proof. induction ps as [|p ps IH]; cbn; intros; auto. destruct (pmatch p t); auto. Qed.

(** ** Shapes *)
Lemma attr_parens : forall f ty l t, attr f t -> parens ty l t -> False.
Proof. intros f ty l t (p & q & ->) (p' & q' & E). discriminate. Qed.
Lemma parens_inj : forall ty x y t, parens ty [x] t -> parens ty [y] t -> x = y.
Proof. intros ty x y t (p & q & ->) (p' & q' & E). injection E; auto. Qed.
Lemma parens_01 : forall ty x t, parens ty [] t -> parens ty [x] t -> False.
Proof. intros ty x t (p & q & ->) (p' & q' & E). discriminate. Qed.
Lemma attr_inj : forall f g t, attr f t -> attr g t -> f = g.
Proof. intros f g t (p & q & ->) (p' & q' & E). injection E; auto. Qed.
Lemma name_inj : forall f g t, name f t -> name g t -> f = g.
Proof. intros f g t (p & ->) (p' & E). injection E; auto. Qed.
Lemma call_parens : forall l t, call l t -> exists l', parens trailer l' t.
Proof. intros l t H. inversion H; subst; eauto. Qed.
Lemma call1_parens : forall a t, call [a] t <-> parens trailer [a] t /\ forall ch, a <> Node arglist ch.
Proof.
  intros a t. split.
  - intros H. inversion H; subst; auto.
  - intros (H & Ha). constructor; auto.
Qed.
Lemma call0_parens : forall t, call [] t <-> parens trailer [] t.
Proof. intros t. split; intros H; [inversion H; auto|constructor; auto]. Qed.
Lemma starts_inj : forall f g fs gs c c' rest rest' l l' ch, starts f fs c rest ch -> starts g gs c' rest' ch ->
  parens trailer l c -> parens trailer l' c' -> f = g /\ fs = gs /\ c = c' /\ rest = rest'.
Proof.
  intros f g fs gs c c' rest rest' l l' ch H1 H2 P1 P2.
  inversion H1; subst; inversion H2; subst; try (exfalso; eapply attr_parens; eassumption).
  - split; auto. eapply name_inj; eauto.
  - split; auto. eapply attr_inj; eauto.
Qed.
Lemma starts_app : forall f fs c rest ch tl, starts f fs c rest ch -> starts f fs c (rest ++ tl) (ch ++ tl).
Proof. intros f fs c rest ch tl H. inversion H; subst; [now constructor|econstructor; eauto]. Qed.
Lemma starts_eq : forall f fs c rest ch, starts f fs c rest ch -> ch = fs ++ c :: rest.
Proof. intros f fs c rest ch H. inversion H; subst; reflexivity. Qed.
Lemma starts_put : forall f fs c c' rest ch, starts f fs c rest ch -> starts f fs c' rest (fs ++ c' :: rest).
Proof. intros f fs c c' rest ch H. inversion H; subst; cbn; [now constructor|econstructor; eauto]. Qed.
(** The call is not the last attribute. *)
Lemma starts_before : forall f fs c rest before x g l, starts f fs c rest (before ++ [x]) -> parens trailer l c ->
  attr g x -> exists rest', rest = rest' ++ [x] /\ starts f fs c rest' before.
Proof.
  intros f fs c rest before x g l H P Hx. remember (before ++ [x]) as ch eqn:E.
  destruct H as [n c rest Hn|m y a c rest Hm Ha]; symmetry in E.
  - destruct before as [|b0 [|b1 before]]; cbn in E.
    + discriminate.
    + injection E; intros; subst. exfalso. eapply attr_parens; eassumption.
    + injection E; intros; subst. exists before. split; auto. now constructor.
  - destruct before as [|b0 [|b1 [|b2 before]]]; cbn in E; try discriminate.
    + injection E; intros; subst. exfalso. eapply attr_parens; eassumption.
    + injection E; intros; subst. exists before. split; auto. econstructor; eauto.
Qed.
Lemma obsolete_extend : forall before x g tl, obsolete_start (before ++ [x]) -> attr g x -> obsolete_start (before ++ tl).
Proof.
  intros before x g tl H Hx.
  assert (K : forall f fs c rest l, starts f fs c rest (before ++ [x]) -> call l c ->
    exists rest', starts f fs c rest' (before ++ tl)).
  { intros f fs c rest l Hs Hc. destruct (call_parens _ _ Hc) as (l' & P).
    destruct (starts_before _ _ _ _ _ _ _ _ Hs P Hx) as (rest' & -> & Hs'). eexists. apply starts_app; eauto. }
  inversion H; subst; match goal with Hs : starts _ _ _ _ _, Hc : call _ _ |- _ => destruct (K _ _ _ _ _ Hs Hc) as (r' & K') end.
  - eapply os_tuple; eauto.
  - eapply os_tuple_tag; eauto.
  - eapply os_string; eauto.
  - eapply os_string_tag; eauto.
  - eapply os_array; eauto.
Qed.

(** ** Each fixer on a power expression *)
Definition step (f : fixer) (node : tree) : option (tree * option tree) :=
  match first_match (f_pattern f) node with None => Some (node, None) | Some r => f_transform f node r end.
Definition ends (f : string) (l : list tree) (ch : list tree) (before : list tree) (a c : tree) : Prop :=
  ch = before ++ [a; c] /\ attr f a /\ parens trailer l c.
Lemma last2 : forall (b b' : list tree) x y x' y', b ++ [x; y] = b' ++ [x'; y'] -> b = b' /\ x = x' /\ y = y'.
Proof.
  intros b b' x y x' y' E.
  replace (b ++ [x; y]) with ((b ++ [x]) ++ [y]) in E by (now rewrite <- app_assoc).
  replace (b' ++ [x'; y']) with ((b' ++ [x']) ++ [y']) in E by (now rewrite <- app_assoc).
  apply app_inj_tail in E as (E & ->). apply app_inj_tail in E as (-> & ->). auto.
Qed.
Lemma removelast2 : forall (b : list tree) x y, removelast (b ++ [x; y]) = b ++ [x].
Proof. intros. replace (b ++ [x; y]) with ((b ++ [x]) ++ [y]) by (now rewrite <- app_assoc). apply removelast_last. Qed.

Lemma end_iff : forall f q t r, one q -> (pmatch (PNode power [PStar; attr_pat f; q]) t = Some r <->
  exists before a c, t = Node power (before ++ [a; c]) /\ attr f a /\ pmatch q c = Some r).
Proof.
  intros f q t r Hq. rewrite node_iff. split.
  - intros (ch & -> & H). apply seqm_end in H as (b & x & y & rx & ry & -> & Ex & Ey & ->); [|one|auto].
    apply attr_iff in Ex as (Ha & ->). exists b, x, y. auto.
  - intros (b & a & c & -> & Ha & Ec). eexists. split; [reflexivity|]. apply seqm_end; [one|auto|].
    exists b, a, c, [], r. split; auto. split; [apply attr_iff; auto|]. auto.
Qed.
Lemma std_devs_step : forall ch, 
  (exists before a c, ends "std_devs" [] ch before a c /\
     step fix_std_devs (Node power ch) = Some (Node power (before ++ [a]), None)) \/
  (forall before a c, ~ ends "std_devs" [] ch before a c) /\ step fix_std_devs (Node power ch) = Some (Node power ch, None).
Proof.
  intros ch. unfold step, fix_std_devs. cbn [f_pattern f_transform first_match].
  destruct (pmatch _ (Node power ch)) as [r|] eqn:E.
  - left. apply end_iff in E as (b & a & c & E & Ha & Ec); [|one]. injection E; intros ->.
    apply call0_iff in Ec as (Hc & ->). exists b, a, c. split; [split; auto|]. cbn. now rewrite removelast2.
  - right. split; auto. intros b a c (-> & Ha & Hc).
    assert (pmatch (PNode power [PStar; attr_pat "std_devs"; PNode trailer [lpar; rpar]]) (Node power (b ++ [a; c])) = Some []).
    { apply end_iff; [one|]. exists b, a, c. split; auto. split; auto. apply call0_iff; auto. }
    congruence.
Qed.
Lemma std_dev_step : forall ch, 
  (exists before a c, ends "std_dev" [] ch before a c /\
     step fix_std_dev (Node power ch) = Some (Node power (before ++ [a]), None)) \/
  (exists before a c v a', ends "set_std_dev" [v] ch before a c /\ attr "std_dev" a' /\
     step fix_std_dev (Node power ch) = Some (Node power (before ++ [a']), Some (Assign (Node power (before ++ [a'])) v))) \/
  (forall before a c, ~ ends "std_dev" [] ch before a c) /\ (forall before a c v, ~ ends "set_std_dev" [v] ch before a c) /\
  step fix_std_dev (Node power ch) = Some (Node power ch, None).
Proof.
  intros ch. unfold step, fix_std_dev. cbn [f_pattern f_transform std_dev_pattern first_match].
  destruct (pmatch _ (Node power ch)) as [r|] eqn:E.
  - left. apply end_iff in E as (b & a & c & E & Ha & Ec); [|one]. injection E; intros ->.
    apply call0_iff in Ec as (Hc & ->). exists b, a, c. split; [split; auto|]. cbn. now rewrite removelast2.
  - destruct (pmatch (PNode power [PStar; attr_pat "set_std_dev"; PNode trailer [lpar; any_ "set_arg"; rpar]]) (Node power ch)) as [r|] eqn:E2.
    + right. left. apply end_iff in E2 as (b & a & c & E2 & Ha & Ec); [|one]. injection E2; intros ->.
      apply call1_iff in Ec as (v & Hc & Ev); [|one]. apply any_iff in Ev as ->.
      destruct Ha as (p & q & ->). exists b, (Node trailer [Leaf DOT p "."; Leaf NAME q "set_std_dev"]), c, v, (Node trailer [Leaf DOT p "."; Name "std_dev"]).
      split; [split; auto; split; auto; do 2 eexists; reflexivity|]. split; [do 2 eexists; reflexivity|].
      unfold std_dev_transform. cbn [lookup named any_ String.eqb Ascii.eqb Bool.eqb]. cbn [children].
      rewrite rev_app_distr. cbn [rev app]. cbn [put children option_map set_children Name].
      cbn [rev]. rewrite rev_involutive. reflexivity.
    + right. right. split; [|split; auto].
      * intros b a c (-> & Ha & Hc).
        assert (pmatch (PNode power [PStar; attr_pat "std_dev"; PNode trailer [lpar; rpar]]) (Node power (b ++ [a; c])) = Some []).
        { apply end_iff; [one|]. exists b, a, c. split; auto. split; auto. apply call0_iff; auto. }
        congruence.
      * intros b a c v (-> & Ha & Hc).
        assert (pmatch (PNode power [PStar; attr_pat "set_std_dev"; PNode trailer [lpar; any_ "set_arg"; rpar]]) (Node power (b ++ [a; c])) = Some [("set_arg", v)]).
        { apply end_iff; [one|]. exists b, a, c. split; auto. split; auto. apply call1_iff; [one|]. exists v. split; auto. }
        congruence.
Qed.

Lemma array_match : forall f ch,
  match first_match (array_pattern f) (Node power ch) with
  | Some r => exists fs c rest x, starts f fs c rest ch /\ parens trailer [x] c /\
      ((exists a b, pair a b x /\ r = obj_of fs ++ [("arg0", a); ("arg1", b)]) \/
       (forall a b, ~ pair a b x) /\ r = obj_of fs ++ [("args", x)])
  | None => forall fs c rest x, starts f fs c rest ch -> parens trailer [x] c -> False
  end.
Proof.
  intros f ch. unfold array_pattern. cbn [first_match].
  assert (Q : forall q r, one q ->
    pmatch (PNode power [lit f; PNode trailer [lpar; q; rpar]; PStar]) (Node power ch) = Some r \/
    pmatch (PNode power [object; attr_pat f; PNode trailer [lpar; q; rpar]; PStar]) (Node power ch) = Some r ->
    exists fs c rest x r', starts f fs c rest ch /\ parens trailer [x] c /\ pmatch q x = Some r' /\ r = obj_of fs ++ r').
  { intros q r Hq H. apply start_iff in H as (fs & c & rest & ch' & r' & E & Hs & Ec & ->); [|one]. injection E; intros <-.
    apply call1_iff in Ec as (x & Hc & Ex); [|auto]. exists fs, c, rest, x, r'. auto. }
  assert (Q' : forall q fs c rest x r, one q -> starts f fs c rest ch -> parens trailer [x] c -> pmatch q x = Some r ->
    pmatch (PNode power [lit f; PNode trailer [lpar; q; rpar]; PStar]) (Node power ch) = Some (obj_of fs ++ r) \/
    pmatch (PNode power [object; attr_pat f; PNode trailer [lpar; q; rpar]; PStar]) (Node power ch) = Some (obj_of fs ++ r)).
  { intros q fs c rest x r Hq Hs Hp Hr. apply start_iff; [one|]. exists fs, c, rest, ch, r. split; auto. split; auto. split; auto.
    apply call1_iff; eauto. }
  assert (T : forall r, pmatch (PNode power [lit f; tuple_call; PStar]) (Node power ch) = Some r \/
    pmatch (PNode power [object; attr_pat f; tuple_call; PStar]) (Node power ch) = Some r ->
    exists fs c rest x, starts f fs c rest ch /\ parens trailer [x] c /\
      ((exists a b, pair a b x /\ r = obj_of fs ++ [("arg0", a); ("arg1", b)]) \/
       (forall a b, ~ pair a b x) /\ r = obj_of fs ++ [("args", x)])).
  { intros r H. apply Q in H as (fs & c & rest & x & r' & Hs & Hp & Hx & ->); [|one].
    apply tuple_iff in Hx as (a & b & Hab & ->). exists fs, c, rest, x. eauto 10. }
  destruct (pmatch (PNode power [lit f; tuple_call; PStar]) (Node power ch)) as [r|] eqn:E1; [apply T; auto|].
  destruct (pmatch (PNode power [object; attr_pat f; tuple_call; PStar]) (Node power ch)) as [r|] eqn:E2; [apply T; auto|].
  assert (T' : forall fs c rest x, starts f fs c rest ch -> parens trailer [x] c -> forall a b, ~ pair a b x).
  { intros fs c rest x Hs Hp a b Hab.
    destruct (Q' tuple_pat fs c rest x [("arg0", a); ("arg1", b)]) as [E|E]; auto; try one; try congruence.
    - apply tuple_iff. eauto.
    - unfold tuple_call in E1. congruence.
    - unfold tuple_call in E2. congruence. }
  assert (T'' : forall r, pmatch (PNode power [lit f; PNode trailer [lpar; any_ "args"; rpar]; PStar]) (Node power ch) = Some r \/
    pmatch (PNode power [object; attr_pat f; PNode trailer [lpar; any_ "args"; rpar]; PStar]) (Node power ch) = Some r ->
    exists fs c rest x, starts f fs c rest ch /\ parens trailer [x] c /\
      ((exists a b, pair a b x /\ r = obj_of fs ++ [("arg0", a); ("arg1", b)]) \/
       (forall a b, ~ pair a b x) /\ r = obj_of fs ++ [("args", x)])).
  { intros r H. apply Q in H as (fs & c & rest & x & r' & Hs & Hp & Hx & ->); [|one].
    apply any_iff in Hx as ->. exists fs, c, rest, x. split; auto. split; auto. right. split; [eapply T'; eauto|reflexivity]. }
  destruct (pmatch (PNode power [lit f; PNode trailer [lpar; any_ "args"; rpar]; PStar]) (Node power ch)) as [r|] eqn:E3; [apply T''; auto|].
  destruct (pmatch (PNode power [object; attr_pat f; PNode trailer [lpar; any_ "args"; rpar]; PStar]) (Node power ch)) as [r|] eqn:E4; [apply T''; auto|].
  intros fs c rest x Hs Hp. destruct (Q' (any_ "args") fs c rest x [("args", x)]) as [E|E]; auto; try one; try reflexivity; congruence.
Qed.

Lemma lookup_obj : forall n m x r, lookup n (("object", m) :: x :: r) =
  if String.eqb n "object" then Some m else lookup n (x :: r).
Proof. reflexivity. Qed.
(** Results found after the object. *)
Lemma lookup_after : forall n fs r, n <> "object" -> lookup n (obj_of fs ++ r) = lookup n r.
Proof.
  intros n fs r H. destruct fs as [|m [|a [|]]]; try reflexivity. cbn.
  destruct (String.eqb_spec n "object"); [congruence|reflexivity].
Qed.
Lemma array_put : forall f fs c rest ch r new, starts f fs c rest ch -> lookup "object" r = None ->
  nth_error ch (match lookup "object" (obj_of fs ++ r) with Some _ => 2 | None => 1 end) = Some c /\
  put ch (match lookup "object" (obj_of fs ++ r) with Some _ => 2 | None => 1 end) new = Some (fs ++ new :: rest).
Proof.
  intros f fs c rest ch r new H Hr. inversion H; subst; cbn [obj_of app].
  - rewrite Hr. auto.
  - cbn. auto.
Qed.
Lemma array_step : forall ch,
  (exists f fs c rest x a b, (f = "uarray" \/ f = "umatrix") /\ starts f fs c rest ch /\ call [x] c /\ pair a b x /\
     step fix_uarray_umatrix (Node power ch) = Some (Node power (fs ++ ArgList [a; Comma; b] :: rest), None)) \/
  (exists f fs c rest x, (f = "uarray" \/ f = "umatrix") /\ starts f fs c rest ch /\ call [x] c /\ (forall a b, ~ pair a b x) /\
     step fix_uarray_umatrix (Node power ch) = Some (Node power (fs ++ ArgList [String_ "*"; x] :: rest), None)) \/
  (forall f fs c rest x, f = "uarray" \/ f = "umatrix" -> starts f fs c rest ch -> call [x] c -> False) /\
  step fix_uarray_umatrix (Node power ch) = Some (Node power ch, None).
Proof.
  intros ch. unfold step, fix_uarray_umatrix. cbn [f_pattern f_transform]. rewrite first_app.
  pose proof (array_match "uarray" ch) as M1. pose proof (array_match "umatrix" ch) as M2.
  assert (K : forall f r, (f = "uarray" \/ f = "umatrix") ->
    (exists fs c rest x, starts f fs c rest ch /\ parens trailer [x] c /\
      ((exists a b, pair a b x /\ r = obj_of fs ++ [("arg0", a); ("arg1", b)]) \/
       (forall a b, ~ pair a b x) /\ r = obj_of fs ++ [("args", x)])) ->
    (exists f fs c rest x a b, (f = "uarray" \/ f = "umatrix") /\ starts f fs c rest ch /\ call [x] c /\ pair a b x /\
     array_transform (Node power ch) r = Some (Node power (fs ++ ArgList [a; Comma; b] :: rest), None)) \/
    (exists f fs c rest x, (f = "uarray" \/ f = "umatrix") /\ starts f fs c rest ch /\ call [x] c /\ (forall a b, ~ pair a b x) /\
     array_transform (Node power ch) r = Some (Node power (fs ++ ArgList [String_ "*"; x] :: rest), None)) \/
    (forall f fs c rest x, f = "uarray" \/ f = "umatrix" -> starts f fs c rest ch -> call [x] c -> False) /\
    array_transform (Node power ch) r = Some (Node power ch, None)).
  { intros f r Hf (fs & c & rest & x & Hs & Hp & [(a & b & Hab & ->)|(Hab & ->)]).
    - left. exists f, fs, c, rest, x, a, b. split; auto. split; auto. split.
      { apply call1_parens. split; auto. destruct Hab as (ts & (p & q & ->) & _). discriminate. }
      split; auto. unfold array_transform. cbn [children].
      destruct (array_put f fs c rest ch [("arg0", a); ("arg1", b)] (ArgList [a; Comma; b]) Hs eq_refl) as (E1 & E2).
      rewrite E1, (lookup_after "args") by discriminate. try rewrite (lookup_after "arg0"), (lookup_after "arg1") by discriminate.
      cbn [lookup String.eqb Ascii.eqb Bool.eqb]. rewrite E2. reflexivity.
    - unfold array_transform. cbn [children].
      destruct (array_put f fs c rest ch [("args", x)] (ArgList [String_ "*"; x]) Hs eq_refl) as (E1 & E2).
      rewrite E1, (lookup_after "args") by discriminate. try rewrite (lookup_after "arg0"), (lookup_after "arg1") by discriminate.
      cbn [lookup String.eqb Ascii.eqb Bool.eqb].
      assert (Hd : (exists l, x = Node arglist l) \/ forall l, x <> Node arglist l).
      { destruct x as [|[] l]; try (right; discriminate). left. eauto. }
      destruct Hd as [(l & ->)|Hn].
      + right. right. split; auto. intros f' fs' c' rest' x' Hf' Hs' Hc'.
        apply call1_parens in Hc' as (Hp' & Hn'). destruct (starts_inj _ _ _ _ _ _ _ _ _ _ _ Hs Hs' Hp Hp') as (_ & _ & <- & _).
        pose proof (parens_inj _ _ _ _ Hp Hp') as <-. eapply Hn'; reflexivity.
      + right. left. exists f, fs, c, rest, x. split; auto. split; auto. split; [apply call1_parens; auto|]. split; auto.
        destruct Hp as (p & q & ->). cbn [children nth_error app].
        destruct x as [ty px vx|[] l]; try (rewrite E2; reflexivity). exfalso. eapply Hn; reflexivity. }
  destruct (first_match (array_pattern "uarray") (Node power ch)) as [r|]; [apply (K "uarray"); auto|].
  destruct (first_match (array_pattern "umatrix") (Node power ch)) as [r|]; [apply (K "umatrix"); auto|].
  right. right. split; auto. intros f fs c rest x [-> | ->] Hs Hc; apply call1_parens in Hc as (Hp & _); eauto.
Qed.

(** The same expression with another function name. *)
Lemma rename : forall f g fs c c' rest ch, starts f fs c rest ch -> exists fs',
  starts g fs' c' rest (fs' ++ c' :: rest) /\ tl (rev fs') = tl (rev fs) /\ (g = f -> fs' = fs) /\
  forall (r r' : results) nm args, r = obj_of fs ++ r' -> lookup "object" r' = None ->
   (match lookup "string" r with
         | Some s => Some ("ufloat_fromstr", [s])
         | None =>
             match lookup "arg0" r, lookup "arg1" r with
             | Some a, Some b => Some ("ufloat", [a; Comma; b])
             | _, _ => None
             end
         end) = Some (nm, args) -> nm = g ->
   c' = ArgList (match lookup "tag" r with Some t => args ++ [Comma; t] | None => args end) ->
   ufloat_transform (Node power ch) r = Some (Node power (fs' ++ c' :: rest), None).
Proof.
  intros f g fs c c' rest ch H. destruct H as [n c rest (p & ->)|m x a c rest Hm (p & q & ->)].
  - exists [Leaf NAME p g]. split; [constructor; eexists; reflexivity|]. split; [reflexivity|]. split; [intros ->; reflexivity|].
    intros r r' nm args Er Hr Hn <- ->. unfold ufloat_transform. rewrite Hn. subst r. cbn [obj_of app]. rewrite Hr. reflexivity.
  - exists [m; Node trailer [Leaf DOT p "."; Leaf NAME q g]].
    split; [econstructor; [exact Hm|do 2 eexists; reflexivity]|]. split; [reflexivity|]. split; [intros ->; reflexivity|].
    intros r r' nm args Er Hr Hn <- ->. unfold ufloat_transform. rewrite Hn. subst r. cbn [obj_of app lookup].
    rewrite String.eqb_refl. reflexivity.
Qed.
Lemma ufloat_step : forall ch,
  (exists fs c rest x a b, starts "ufloat" fs c rest ch /\ call [x] c /\ pair a b x /\
     step fix_ufloat (Node power ch) = Some (Node power (fs ++ ArgList [a; Comma; b] :: rest), None)) \/
  (exists fs c rest x a b tag, starts "ufloat" fs c rest ch /\ call [x; tag] c /\ pair a b x /\
     step fix_ufloat (Node power ch) = Some (Node power (fs ++ ArgList [a; Comma; b; Comma; tag] :: rest), None)) \/
  (exists fs fs' c rest s, starts "ufloat" fs c rest ch /\ call [s] c /\ string_literal s /\
     starts "ufloat_fromstr" fs' (ArgList [s]) rest (fs' ++ ArgList [s] :: rest) /\ tl (rev fs') = tl (rev fs) /\
     step fix_ufloat (Node power ch) = Some (Node power (fs' ++ ArgList [s] :: rest), None)) \/
  (exists fs fs' c rest s tag, starts "ufloat" fs c rest ch /\ call [s; tag] c /\ string_literal s /\
     starts "ufloat_fromstr" fs' (ArgList [s; Comma; tag]) rest (fs' ++ ArgList [s; Comma; tag] :: rest) /\
     tl (rev fs') = tl (rev fs) /\
     step fix_ufloat (Node power ch) = Some (Node power (fs' ++ ArgList [s; Comma; tag] :: rest), None)) \/
  (forall fs c rest x a b tag, starts "ufloat" fs c rest ch -> call [x] c \/ call [x; tag] c ->
     pair a b x \/ string_literal x -> False) /\
  step fix_ufloat (Node power ch) = Some (Node power ch, None).
Proof.
  intros ch. unfold step, fix_ufloat. cbn [f_pattern f_transform].
  destruct (first_match ufloat_pattern (Node power ch)) as [r|] eqn:E.
  - apply first_some in E as (p & Hp & E). unfold ufloat_pattern in Hp. cbn [In] in Hp.
    assert (Q : forall q, one q -> p = PNode power [lit "ufloat"; q; PStar] \/ p = PNode power [object; attr_pat "ufloat"; q; PStar] ->
      exists fs c rest r', starts "ufloat" fs c rest ch /\ pmatch q c = Some r' /\ r = obj_of fs ++ r').
    { intros q Hq Hpq. assert (E' : pmatch (PNode power [lit "ufloat"; q; PStar]) (Node power ch) = Some r \/
        pmatch (PNode power [object; attr_pat "ufloat"; q; PStar]) (Node power ch) = Some r) by (destruct Hpq as [-> | ->]; auto).
      apply start_iff in E' as (fs & c & rest & ch' & r' & E' & Hs & Ec & Er); auto. injection E'; intros <-. exists fs, c, rest, r'. auto. }
    assert (C : (p = PNode power [lit "ufloat"; tuple_call; PStar] \/ p = PNode power [object; attr_pat "ufloat"; tuple_call; PStar]) \/
      (p = PNode power [lit "ufloat"; tuple_any_call; PStar] \/ p = PNode power [object; attr_pat "ufloat"; tuple_any_call; PStar]) \/
      (p = PNode power [lit "ufloat"; PNode trailer [lpar; string_pat; rpar]; PStar] \/
       p = PNode power [object; attr_pat "ufloat"; PNode trailer [lpar; string_pat; rpar]; PStar]) \/
      (p = PNode power [lit "ufloat"; PNode trailer [lpar; PNode arglist [string_pat; comma; any_ "tag"]; rpar]; PStar] \/
       p = PNode power [object; attr_pat "ufloat"; PNode trailer [lpar; PNode arglist [string_pat; comma; any_ "tag"]; rpar]; PStar])).
    { repeat destruct Hp as [Hp|Hp]; try contradiction; subst p; auto 10. }
    clear Hp. destruct C as [C|[C|[C|C]]].
    + left. apply Q in C as (fs & c & rest & r' & Hs & Ec & Er); [|one]. apply call1_iff in Ec as (x & Hc & Ex); [|one].
      apply tuple_iff in Ex as (a & b & Hab & ->). exists fs, c, rest, x, a, b. split; auto.
      split. { apply call1_parens. split; auto. destruct Hab as (ts & (u & w & ->) & _). discriminate. } split; auto.
      destruct (rename "ufloat" "ufloat" fs c (ArgList [a; Comma; b]) rest ch Hs) as (fs' & _ & _ & Ef & T).
      rewrite <- (Ef eq_refl). eapply T; [exact Er|reflexivity| |reflexivity|].
      * subst r. rewrite !lookup_after by discriminate. reflexivity.
      * subst r. rewrite !lookup_after by discriminate. reflexivity.
    + right. left. apply Q in C as (fs & c & rest & r' & Hs & Ec & Er); [|one]. apply tag_iff in Ec as (x & tag & rx & Hc & Ex & ->); [|one].
      apply tuple_iff in Ex as (a & b & Hab & ->). exists fs, c, rest, x, a, b, tag. split; auto. split; auto. split; auto.
      destruct (rename "ufloat" "ufloat" fs c (ArgList [a; Comma; b; Comma; tag]) rest ch Hs) as (fs' & _ & _ & Ef & T).
      rewrite <- (Ef eq_refl). eapply T; [exact Er|reflexivity| |reflexivity|].
      * subst r. rewrite !lookup_after by discriminate. reflexivity.
      * subst r. rewrite !lookup_after by discriminate. reflexivity.
    + right. right. left. apply Q in C as (fs & c & rest & r' & Hs & Ec & Er); [|one]. apply call1_iff in Ec as (x & Hc & Ex); [|one].
      apply token_iff in Ex as (u & w & -> & ->). 
      destruct (rename "ufloat" "ufloat_fromstr" fs c (ArgList [Leaf STRING u w]) rest ch Hs) as (fs' & Hs' & Ht & _ & T).
      exists fs, fs', c, rest, (Leaf STRING u w). split; auto. split; [apply call1_parens; split; auto; discriminate|].
      split; [do 2 eexists; reflexivity|]. split; auto. split; auto.
      eapply T; [exact Er|reflexivity| |reflexivity|].
      * subst r. rewrite !lookup_after by discriminate. reflexivity.
      * subst r. rewrite !lookup_after by discriminate. reflexivity.
    + right. right. right. left. apply Q in C as (fs & c & rest & r' & Hs & Ec & Er); [|one].
      apply tag_iff in Ec as (x & tag & rx & Hc & Ex & ->); [|one].
      apply token_iff in Ex as (u & w & -> & ->). 
      destruct (rename "ufloat" "ufloat_fromstr" fs c (ArgList [Leaf STRING u w; Comma; tag]) rest ch Hs) as (fs' & Hs' & Ht & _ & T).
      exists fs, fs', c, rest, (Leaf STRING u w), tag. split; auto. split; auto.
      split; [do 2 eexists; reflexivity|]. split; auto. split; auto.
      eapply T; [exact Er|reflexivity| |reflexivity|].
      * subst r. rewrite !lookup_after by discriminate. reflexivity.
      * subst r. rewrite !lookup_after by discriminate. reflexivity.
  - right. right. right. right. split; auto.
    assert (Q : forall q fs c rest r, one q -> starts "ufloat" fs c rest ch -> pmatch q c = Some r ->
      In (PNode power [lit "ufloat"; q; PStar]) ufloat_pattern -> In (PNode power [object; attr_pat "ufloat"; q; PStar]) ufloat_pattern -> False).
    { intros q fs c rest r Hq Hs Er I1 I2. apply (first_none _ _ _ E) in I1. apply (first_none _ _ _ E) in I2.
      assert (X : pmatch (PNode power [lit "ufloat"; q; PStar]) (Node power ch) = Some (obj_of fs ++ r) \/
        pmatch (PNode power [object; attr_pat "ufloat"; q; PStar]) (Node power ch) = Some (obj_of fs ++ r)).
      { apply start_iff; auto. exists fs, c, rest, ch, r. auto. }
      destruct X; congruence. }
    intros fs c rest x a b tag Hs [Hc|Hc] [Hx|Hx].
    + eapply (Q tuple_call); eauto; [one| |cbn; auto 10|cbn; auto 10].
      apply call1_iff; [one|]. exists x. apply call1_parens in Hc as (Hc & _). split; auto. apply tuple_iff. eauto.
    + destruct Hx as (u & w & ->). eapply (Q (PNode trailer [lpar; string_pat; rpar])); eauto; [one| |cbn; auto 10|cbn; auto 10].
      apply call1_iff; [one|]. eexists. apply call1_parens in Hc as (Hc & _). split; [exact Hc|]. apply token_iff. eauto.
    + eapply (Q tuple_any_call); eauto; [one| |cbn; auto 10|cbn; auto 10].
      apply tag_iff; [one|]. exists x, tag, [("arg0", a); ("arg1", b)]. split; auto. split; auto. apply tuple_iff. eauto.
    + destruct Hx as (u & w & ->). eapply (Q (PNode trailer [lpar; PNode arglist [string_pat; comma; any_ "tag"]; rpar])); eauto; [one| |cbn; auto 10|cbn; auto 10].
      apply tag_iff; [one|]. eexists _, tag, _. split; [exact Hc|]. split; [apply token_iff; eauto|reflexivity].
Qed.

(** ** All the fixers on a power expression *)
Lemma fix_step : forall f fs node new, fix_node (f :: fs) node new =
  match step f node with
  | None => None
  | Some (node', None) => fix_node fs node' new
  | Some (node', Some t) => match new with Some _ => None | None => fix_node fs node' (Some t) end
  end.
Proof. intros. unfold step. cbn [fix_node]. destruct (first_match _ _); reflexivity. Qed.
Lemma array_list : forall args, exists l, parens trailer l (ArgList args).
Proof. intros args. exists [Node arglist args]. do 2 eexists. reflexivity. Qed.
Lemma uf_array : forall f, f = "uarray" \/ f = "umatrix" -> "ufloat" <> f.
Proof. intros f [-> | ->]; discriminate. Qed.
(** The arguments of uarray() and umatrix(). *)
Definition array_ok (ch : list tree) : Prop :=
  forall f fs c rest a, f = "uarray" \/ f = "umatrix" -> starts f fs c rest ch -> call [a] c -> ~ special a.
Lemma ufloat_none : forall f fs c rest ch, "ufloat" <> f -> starts f fs c rest ch -> (exists l, parens trailer l c) ->
  step fix_ufloat (Node power ch) = Some (Node power ch, None).
Proof.
  intros f fs c rest ch Hf Hs (l & Hl).
  assert (K : forall gs c' rest' l', starts "ufloat" gs c' rest' ch -> call l' c' -> False).
  { intros gs c' rest' l' Hg Hc. destruct (call_parens _ _ Hc) as (l'' & P).
    destruct (starts_inj _ _ _ _ _ _ _ _ _ _ _ Hg Hs P Hl) as (E & _). contradiction. }
  destruct (ufloat_step ch) as [H|[H|[H|[H|(_ & H)]]]]; [| | | |exact H].
  - destruct H as (gs & c' & r' & x & a & b & H1 & H2 & _). exfalso; eauto.
  - destruct H as (gs & c' & r' & x & a & b & tag & H1 & H2 & _). exfalso; eauto.
  - destruct H as (gs & gs' & c' & r' & s & H1 & H2 & _). exfalso; eauto.
  - destruct H as (gs & gs' & c' & r' & s & tag & H1 & H2 & _). exfalso; eauto.
Qed.
Lemma new_call_list : forall l ts, commas l ts -> new_call l (ArgList ts).
Proof. intros l ts H. exists ts. split; auto. do 2 eexists. reflexivity. Qed.
Lemma comma_is : is_comma Comma.
Proof. eexists. reflexivity. Qed.
#[local] Hint Resolve comma_is new_call_list : fix_db.
#[local] Hint Constructors commas : fix_db.
Lemma start_steps : forall ch, exists ch2, (array_ok ch -> new_start ch ch2) /\
  forall new, fix_node [fix_uarray_umatrix; fix_ufloat] (Node power ch) new =
    Some (match new with Some t => t | None => Node power ch2 end).
Proof.
  intros ch. destruct (array_step ch) as [H|[H|(Hn & H)]].
  - destruct H as (f & fs & c & rest & x & a & b & Hf & Hs & Hc & Hab & H).
    exists (fs ++ ArgList [a; Comma; b] :: rest). split.
    + intros _. eapply ns_array_tuple; eauto with fix_db.
    + intros new. rewrite fix_step, H, fix_step.
      rewrite (ufloat_none f fs (ArgList [a; Comma; b]) rest); [reflexivity|now apply uf_array|eapply starts_put; eauto|apply array_list].
  - destruct H as (f & fs & c & rest & x & Hf & Hs & Hc & Hab & H).
    exists (fs ++ ArgList [String_ "*"; x] :: rest). split.
    + intros Hok. eapply ns_array; eauto with fix_db. exists STRING, "". do 2 eexists. reflexivity.
    + intros new. rewrite fix_step, H, fix_step.
      rewrite (ufloat_none f fs (ArgList [String_ "*"; x]) rest); [reflexivity|now apply uf_array|eapply starts_put; eauto|apply array_list].
  - destruct (ufloat_step ch) as [G|[G|[G|[G|(Gn & G)]]]].
    + destruct G as (gs & c' & r' & x & a & b & H1 & H2 & H3 & G). eexists. split; [|intros new; rewrite fix_step, H, fix_step, G; reflexivity].
      intros _. eapply ns_tuple; eauto with fix_db.
    + destruct G as (gs & c' & r' & x & a & b & tag & H1 & H2 & H3 & G). eexists. split; [|intros new; rewrite fix_step, H, fix_step, G; reflexivity].
      intros _. eapply ns_tuple_tag; eauto with fix_db.
    + destruct G as (gs & gs' & c' & r' & s & H1 & H2 & H3 & H4 & H5 & G). eexists. split; [|intros new; rewrite fix_step, H, fix_step, G; reflexivity].
      intros _. eapply ns_string; eauto with fix_db.
    + destruct G as (gs & gs' & c' & r' & s & tag & H1 & H2 & H3 & H4 & H5 & G). eexists. split; [|intros new; rewrite fix_step, H, fix_step, G; reflexivity].
      intros _. eapply ns_string_tag; eauto with fix_db.
    + exists ch. split; [|intros new; rewrite fix_step, H, fix_step, G; reflexivity].
      intros _. constructor. intros O. inversion O; subst; try (eapply Gn; eauto; fail). eapply Hn; eauto.
      Unshelve. all: exact Comma.
Qed.

(** The update of a power expression whose parts are updated. *)
Inductive power_update (ch : list tree) : tree -> Prop :=
| pu_none : forall ch2, ~ obsolete_end ch -> new_start ch ch2 -> power_update ch (Node power ch2)
| pu_get : forall f before a c ch2, ch = before ++ [a; c] -> f = "std_dev" \/ f = "std_devs" -> attr f a -> call [] c ->
    new_start (before ++ [a]) ch2 -> power_update ch (Node power ch2)
| pu_set : forall before a c v ch2 a' eq v', ch = before ++ [a; c] ->
    attr "set_std_dev" a -> call [v] c -> ~ special v -> attr "std_dev" a' -> new_start (before ++ [a']) ch2 ->
    bare v' = bare v -> (exists p, eq = Leaf EQUAL p "=") -> power_update ch (Node atom [Node power ch2; eq; v']).
Lemma bare_prefix : forall p t, bare (with_prefix p t) = bare t.
Proof.
  intros p t. induction t as [ty q v|ty ch IH] using tree_all; [reflexivity|].
  destruct ch as [|c cs]; [reflexivity|]. cbn [with_prefix bare map]. inversion IH; subst. congruence.
Qed.
Lemma ends_attr : forall f l before x g b a c, ends f l (before ++ [x]) b a c -> attr g x -> False.
Proof.
  intros f l before x g b a c (E & _ & P) Hx.
  assert (x = c). { replace (b ++ [a; c]) with ((b ++ [a]) ++ [c]) in E by (now rewrite <- app_assoc). apply app_inj_tail in E as (_ & E). exact E. }
  subst. eapply attr_parens; eauto.
Qed.
Lemma array_ok_before : forall before x g tl, array_ok (before ++ tl) -> attr g x -> array_ok (before ++ [x]).
Proof.
  intros before x g tl H Hx f fs c rest a Hf Hs Hc. destruct (call_parens _ _ Hc) as (l & P).
  destruct (starts_before _ _ _ _ _ _ _ _ Hs P Hx) as (rest' & -> & Hs'). eapply H; eauto. eapply starts_app; eauto.
Qed.
Lemma fix_power : forall ch, exists t, fix_node fixers (Node power ch) None = Some t /\
  (treated ch -> power_update ch t) /\
  ((exists ch', t = Node power ch') \/ exists ch' x y, t = Node atom [Node power ch'; x; y]).
Proof.
  intros ch. unfold fixers. destruct (std_dev_step ch) as [H|[H|(Hn & Hm & H)]].
  - destruct H as (b & a & c & (-> & Ha & Hc) & H).
    destruct (std_devs_step (b ++ [a])) as [G|(_ & G)].
    { destruct G as (b' & a' & c' & G & _). exfalso. eapply ends_attr; eauto. }
    destruct (start_steps (b ++ [a])) as (ch2 & Hs & F). exists (Node power ch2). split.
    { rewrite fix_step, H, fix_step, G, F. reflexivity. }
    split; [|left; eauto]. intros (T & _). eapply (pu_get _ "std_dev"); eauto; [apply call0_parens; auto|].
    apply Hs. eapply array_ok_before; eauto.
  - destruct H as (b & a & c & v & a' & (-> & Ha & Hc) & Ha' & H).
    destruct (std_devs_step (b ++ [a'])) as [G|(_ & G)].
    { destruct G as (b' & a'' & c' & G & _). exfalso. eapply ends_attr; eauto. }
    destruct (start_steps (b ++ [a'])) as (ch2 & Hs & F). eexists. split.
    { rewrite fix_step, H, fix_step, G, F. reflexivity. }
    split; [|right; unfold Assign; eauto]. intros (_ & T). destruct (T b a c v eq_refl Ha Hc) as (T1 & T2 & T3).
    eapply pu_set; eauto; [apply call1_parens; auto| |apply bare_prefix].
    constructor. intros O. apply T3. eapply obsolete_extend; eauto.
  - destruct (std_devs_step ch) as [G|(Gn & G)].
    + destruct G as (b & a & c & (-> & Ha & Hc) & G).
      destruct (start_steps (b ++ [a])) as (ch2 & Hs & F). exists (Node power ch2). split.
      { rewrite fix_step, H, fix_step, G, F. reflexivity. }
      split; [|left; eauto]. intros (T & _). eapply (pu_get _ "std_devs"); eauto; [apply call0_parens; auto|].
      apply Hs. eapply array_ok_before; eauto.
    + destruct (start_steps ch) as (ch2 & Hs & F). exists (Node power ch2). split.
      { rewrite fix_step, H, fix_step, G, F. reflexivity. }
      split; [|left; eauto]. intros (T & _). constructor; [|apply Hs; exact T].
      intros O. inversion O as [f b a c Hf Ha Hc E|b a c v Ha Hc Hv E]; subst.
      * apply call0_parens in Hc. destruct Hf as [-> | ->]; [eapply Hn|eapply Gn]; repeat split; eauto.
      * apply call1_parens in Hc as (Hc & _). eapply Hm. repeat split; eauto.
Qed.

(** ** The whole tree *)
(** What the updater leaves of a tree. *)
Inductive from : tree -> tree -> Prop :=
| from_leaf : forall ty p v, from (Leaf ty p v) (Leaf ty p v)
| from_node : forall ty ch ch', ty <> power -> Forall2 from ch ch' -> from (Node ty ch) (Node ty ch')
| from_power : forall ch ch', from (Node power ch) (Node power ch')
| from_set : forall ch ch' x y, from (Node power ch) (Node atom [Node power ch'; x; y]).
Lemma all_some : forall A (l : list (option A)) l', all_or_none l = Some l' <-> l = map Some l'.
Proof.
  intros A l. induction l as [|[a|] l IH]; intros l'; cbn [all_or_none].
  - split; [intros [= <-]; reflexivity|destruct l'; [reflexivity|discriminate]].
  - destruct (all_or_none l) as [m|] eqn:E; cbn [option_map].
    + split; [intros [= <-]; cbn; f_equal; now apply IH|].
      destruct l' as [|b l']; [discriminate|]. cbn. intros [= <- H]. apply IH in H. congruence.
    + split; [discriminate|]. destruct l' as [|b l']; [discriminate|]. cbn. intros [= <- H]. apply IH in H. discriminate.
  - split; [discriminate|]. destruct l'; discriminate.
Qed.
Lemma refactor_node : forall ty ch t', refactor (Node ty ch) = Some t' <->
  exists ch', Forall2 (fun a b => refactor a = Some b) ch ch' /\
    (ty <> power /\ t' = Node ty ch' \/ ty = power /\ fix_node fixers (Node power ch') None = Some t').
Proof.
  intros ty ch t'. cbn [refactor].
  assert (F : forall ch', map refactor ch = map Some ch' <-> Forall2 (fun a b => refactor a = Some b) ch ch').
  { clear. induction ch as [|a ch IH]; intros [|b ch']; cbn; split; intros H; try discriminate; try inversion H; subst; auto.
    - constructor; auto. now apply IH.
    - f_equal; auto. now apply IH. }
  destruct (all_or_none (map refactor ch)) as [ch'|] eqn:E.
  - apply all_some in E. pose proof (proj1 (F _) E) as E'. split.
    + intros H. exists ch'. split; auto. destruct ty; try (left; split; [discriminate|congruence]). right. auto.
    + intros (ch2 & H2 & H). assert (ch2 = ch') as ->. { apply F in H2. rewrite E in H2. revert H2. clear. revert ch2.
        induction ch' as [|a ch' IH]; intros [|b c2]; cbn; try discriminate; auto. intros [= -> H]. f_equal. now apply IH. }
      destruct H as [(Hp & ->)|(-> & H)]; auto. destruct ty; try reflexivity. contradiction.
  - split; [discriminate|]. intros (ch2 & H2 & _). apply F in H2. apply all_some in H2. congruence.
Qed.
Lemma total : forall t, exists t', refactor t = Some t'.
Proof.
  intros t. induction t as [ty p v|ty ch IH] using tree_all; [eexists; reflexivity|].
  assert (F : exists ch', Forall2 (fun a b => refactor a = Some b) ch ch').
  { induction IH as [|a ch (b & Hb) _ (ch' & IH)]; [exists []; constructor|exists (b :: ch'); constructor; auto]. }
  destruct F as (ch' & F). destruct (sym_eq_dec ty power) as [->|Hn].
  - destruct (fix_power ch') as (t & Ht & _). exists t. apply refactor_node. eauto.
  - exists (Node ty ch'). apply refactor_node. eauto.
Qed.
Lemma refactor_from : forall t t', refactor t = Some t' -> from t t'.
Proof.
  intros t. induction t as [ty p v|ty ch IH] using tree_all; intros t' H; [injection H; intros <-; constructor|].
  apply refactor_node in H as (ch' & F & [(Hn & ->)|(-> & H)]).
  - constructor; auto. revert IH F. clear. intros IH F. induction F; constructor; inversion IH; subst; auto.
  - destruct (fix_power ch') as (t & Ht & _ & Hs). assert (t = t') as -> by congruence.
    destruct Hs as [(c & ->)|(c & x & y & ->)]; [apply from_power|apply from_set].
Qed.

(** Forms of the original code and of the updated code. *)
Lemma from_token : forall t0 ty p v, from t0 (Leaf ty p v) -> t0 = Leaf ty p v.
Proof. intros t0 ty p v H. inversion H; auto. Qed.
Lemma from_tokens : forall ts0 ty p v, Forall2 from ts0 [Leaf ty p v] -> ts0 = [Leaf ty p v].
Proof. intros ts0 ty p v H. inversion H as [|x y l l' Hx Hl]; subst. inversion Hl; subst. now rewrite (from_token _ _ _ _ Hx). Qed.
Lemma from_sym : forall t0 ty ch, from t0 (Node ty ch) -> ty <> power -> ty <> atom ->
  exists ch0, t0 = Node ty ch0 /\ Forall2 from ch0 ch.
Proof. intros t0 ty ch H Hp Ha. inversion H; subst; try contradiction. eauto. Qed.
Lemma from_name : forall f t0 t, from t0 t -> name f t -> name f t0.
Proof. intros f t0 t H (p & ->). apply from_token in H as ->. eexists; reflexivity. Qed.
Lemma from_attr : forall f t0 t, from t0 t -> attr f t -> attr f t0.
Proof.
  intros f t0 t H (p & q & ->). apply from_sym in H as (ch & -> & H); try discriminate.
  inversion H as [|x y l l' Hx Hl]; subst. apply from_token in Hx as ->. apply from_tokens in Hl as ->. do 2 eexists; reflexivity.
Qed.
Lemma from_parens_list : forall ts0 l p q, Forall2 from ts0 (Leaf LPAR p "(" :: l ++ [Leaf RPAR q ")"]) ->
  exists l0, Forall2 from l0 l /\ ts0 = Leaf LPAR p "(" :: l0 ++ [Leaf RPAR q ")"].
Proof.
  intros ts0 l p q H. inversion H as [|x y l1 l2 Hx Hl]; subst. apply from_token in Hx as ->.
  apply Forall2_app_inv_r in Hl as (l0 & e & H0 & He & ->). apply from_tokens in He as ->. eauto.
Qed.
Lemma from_parens : forall l t0 t, from t0 t -> parens trailer l t -> exists l0, parens trailer l0 t0 /\ Forall2 from l0 l.
Proof.
  intros l t0 t H (p & q & ->). apply from_sym in H as (ch & -> & H); try discriminate.
  apply from_parens_list in H as (l0 & H & ->). exists l0. split; auto. do 2 eexists; reflexivity.
Qed.
Lemma from_atom : forall l t0 t, from t0 t -> parens atom l t -> exists l0, parens atom l0 t0 /\ Forall2 from l0 l.
Proof.
  intros l t0 t H (p & q & ->). inversion H as [|ty ch ch' Hp F| |]; subst.
  apply from_parens_list in F as (l0 & F & ->). exists l0. split; auto. do 2 eexists; reflexivity.
Qed.
Lemma from_one : forall l0 a, Forall2 from l0 [a] -> exists a0, l0 = [a0] /\ from a0 a.
Proof. intros l0 a H. inversion H as [|x y l l' Hx Hl]; subst. inversion Hl; subst. eauto. Qed.
Lemma from_commas : forall l ts, commas l ts -> forall ts0, Forall2 from ts0 ts -> exists l0, commas l0 ts0 /\ Forall2 from l0 l.
Proof.
  intros l ts H. induction H as [a|a c l ts (p & ->) H IH]; intros ts0 F.
  - apply from_one in F as (a0 & -> & F). exists [a0]. split; constructor; auto.
  - inversion F as [|x y l1 l2 Hx Hl]; subst. inversion Hl as [|x' y' l1' l2' Hx' Hl']; subst. apply from_token in Hx' as ->.
    destruct (IH _ Hl') as (l0 & Hc & Hf). exists (x :: l0). split; constructor; auto. eexists; reflexivity.
Qed.
Lemma from_pair : forall a b t0 t, from t0 t -> pair a b t -> exists a0 b0, pair a0 b0 t0.
Proof.
  intros a b t0 t H (ts & P & C). destruct (from_atom _ _ _ H P) as (l0 & P0 & F). apply from_one in F as (x & -> & F).
  apply from_sym in F as (ts0 & -> & F); try discriminate. destruct (from_commas _ _ C _ F) as (l0 & C0 & F0).
  inversion F0 as [|a0 y l1 l2 Ha F1]; subst. inversion F1 as [|b0 y l3 l4 Hb F2]; subst. inversion F2; subst.
  exists a0, b0, ts0. auto.
Qed.
Lemma from_string : forall t0 t, from t0 t -> string_literal t -> string_literal t0.
Proof. intros t0 t H (p & s & ->). apply from_token in H as ->. do 2 eexists; reflexivity. Qed.
Lemma from_special : forall t0 t, from t0 t -> special t -> special t0.
Proof. intros t0 t H (ch & ->). apply from_sym in H as (c & -> & _); try discriminate. eexists; reflexivity. Qed.
Lemma from_special_to : forall t0 t, from t0 t -> special t0 -> special t.
Proof. intros t0 t H (ch & ->). inversion H; subst; eexists; reflexivity. Qed.
Lemma from_arglist_to : forall t0 t ch, from t0 t -> t0 = Node arglist ch -> exists ch', t = Node arglist ch'.
Proof. intros t0 t ch H ->. inversion H; subst; eexists; reflexivity. Qed.
Lemma from_call : forall l t0 t, from t0 t -> call l t -> exists l0, call l0 t0 /\ Forall2 from l0 l.
Proof.
  intros l t0 t H C. inversion C as [t' P|a t' Ha P|a b l' ts t' Hc P]; subst.
  - destruct (from_parens _ _ _ H P) as (l0 & P0 & F). inversion F; subst. exists []. split; auto. now constructor.
  - destruct (from_parens _ _ _ H P) as (l0 & P0 & F). apply from_one in F as (a0 & -> & F). exists [a0].
    split; [|constructor; auto]. constructor; auto. intros ch E. destruct (from_arglist_to _ _ _ F E) as (ch' & E'). eapply Ha; eauto.
  - destruct (from_parens _ _ _ H P) as (l0 & P0 & F). apply from_one in F as (x & -> & F).
    apply from_sym in F as (ts0 & -> & F); try discriminate. destruct (from_commas _ _ Hc _ F) as (l0 & C0 & F0).
    exists l0. split; auto. inversion F0 as [|a0 y l1 l2 Fa F1]; subst. inversion F1 as [|b0 y l3 l4 Fb F2]; subst.
    econstructor; eauto.
Qed.
Lemma from_starts : forall f fs c rest ch0 ch, Forall2 from ch0 ch -> starts f fs c rest ch ->
  exists fs0 c0 rest0, starts f fs0 c0 rest0 ch0 /\ from c0 c.
Proof.
  intros f fs c rest ch0 ch F H. destruct H as [n c rest Hn|m x a c rest Hm Ha].
  - inversion F as [|n0 y l1 l2 F0 F1]; subst. inversion F1 as [|c0 y l3 l4 Fc F2]; subst.
    exists [n0], c0, l3. split; auto. constructor. eapply from_name; eauto.
  - inversion F as [|n0 y l1 l2 F0 F1]; subst. inversion F1 as [|a0 y l3 l4 Fa F2]; subst. inversion F2 as [|c0 y l5 l6 Fc F3]; subst.
    exists [n0; a0], c0, l5. split; auto. econstructor; [eapply from_name|eapply from_attr]; eauto.
Qed.
Lemma from_call1 : forall a t0 t, from t0 t -> call [a] t -> exists a0, call [a0] t0 /\ from a0 a.
Proof. intros a t0 t H C. destruct (from_call _ _ _ H C) as (l0 & C0 & F). apply from_one in F as (a0 & -> & F). eauto. Qed.
Lemma from_call2 : forall a b t0 t, from t0 t -> call [a; b] t -> exists a0 b0, call [a0; b0] t0 /\ from a0 a.
Proof.
  intros a b t0 t H C. destruct (from_call _ _ _ H C) as (l0 & C0 & F).
  inversion F as [|a0 y l1 l2 Fa F1]; subst. apply from_one in F1 as (b0 & -> & _). eauto.
Qed.
Lemma from_obsolete : forall ch0 ch, Forall2 from ch0 ch -> obsolete_start ch -> obsolete_start ch0.
Proof.
  intros ch0 ch F O. inversion O; subst;
    match goal with Hs : starts _ _ _ _ _ |- _ => destruct (from_starts _ _ _ _ _ _ F Hs) as (fs0 & c0 & rest0 & Hs0 & Fc) end;
    match goal with
    | Hc : call [_] _ |- _ => destruct (from_call1 _ _ _ Fc Hc) as (a0 & Hc0 & Fa)
    | Hc : call [_; _] _ |- _ => destruct (from_call2 _ _ _ _ Fc Hc) as (a0 & b0 & Hc0 & Fa)
    end;
    try match goal with Hp : pair _ _ _ |- _ => destruct (from_pair _ _ _ _ Fa Hp) as (p0 & q0 & Hp0) end;
    try match goal with Hp : string_literal _ |- _ => pose proof (from_string _ _ Fa Hp) end.
  - eapply os_tuple; eauto.
  - eapply os_tuple_tag; eauto.
  - eapply os_string; eauto.
  - eapply os_string_tag; eauto.
  - eapply os_array; eauto. intros S1. eapply from_special_to in S1; eauto.
Qed.
Lemma from_treated : forall ch0 ch, Forall2 from ch0 ch -> treated ch0 -> treated ch.
Proof.
  intros ch0 ch F (T1 & T2). split.
  - intros f fs c rest a Hf Hs Hc Ha. destruct (from_starts _ _ _ _ _ _ F Hs) as (fs0 & c0 & rest0 & Hs0 & Fc).
    destruct (from_call1 _ _ _ Fc Hc) as (a0 & Hc0 & Fa). eapply T1; eauto. eapply from_special; eauto.
  - intros before a c v -> Ha Hc. apply Forall2_app_inv_r in F as (b0 & e & Fb & Fe & ->).
    inversion Fe as [|a0 y l1 l2 Fa F1]; subst. apply from_one in F1 as (c0 & -> & Fc).
    destruct (from_parens _ _ _ Fc Hc) as (l0 & P0 & Fv). apply from_one in Fv as (v0 & -> & Fv).
    destruct (T2 b0 a0 c0 v0 eq_refl (from_attr _ _ _ Fa Ha) P0) as (V1 & V2 & V3).
    split; [intros V; eapply V1; eapply from_special; eauto|]. split.
    + intros l ->. apply from_sym in Fv as (l' & E & _); try discriminate. eapply V2; eauto.
    + intros O. apply V3. eapply from_obsolete; eauto. apply Forall2_app; auto.
Qed.

Lemma everywhere_node : forall P ty ch, everywhere P (Node ty ch) <-> (ty = power -> P ch) /\ Forall (everywhere P) ch.
Proof.
  intros P ty ch. cbn [everywhere].
  assert (E : fold_right (fun c Q => everywhere P c /\ Q) True ch <-> Forall (everywhere P) ch).
  { induction ch as [|c ch IH]; cbn; [split; auto|]. rewrite IH. split; [intros (A & B); constructor; auto|intros H; inversion H; auto]. }
  now rewrite E.
Qed.
(** *** C52 *)
Theorem updater_updates : forall t t', everywhere treated t -> refactor t = Some t' -> updated t t'.
Proof.
  intros t. induction t as [ty p v|ty ch IH] using tree_all; intros t' T H; [injection H; intros <-; constructor|].
  apply everywhere_node in T as (T & Ts). apply refactor_node in H as (ch' & F & H).
  assert (U : Forall2 updated ch ch' /\ Forall2 from ch ch').
  { clear H T. induction F as [|a b l l' Hab F IHF]; [split; constructor|].
    inversion IH; subst. inversion Ts; subst. destruct IHF; auto. split; constructor; auto. now apply refactor_from. }
  destruct U as (U & Ff). destruct H as [(Hn & ->)|(-> & H)]; [constructor; auto|].
  destruct (fix_power ch') as (t & Ht & Hu & _). assert (t = t') as -> by congruence.
  specialize (Hu (from_treated _ _ Ff (T eq_refl))). inversion Hu; subst.
  - eapply up_power; eauto.
  - eapply up_get; eauto.
  - eapply up_set; eauto.
Qed.
Theorem updater_total : forall t, exists t', refactor t = Some t'.
Proof.
  exact total.
Qed.
Theorem updater_keeps_current : forall t, everywhere treated t -> current t -> refactor t = Some t.
Proof.
  intros t. unfold current. induction t as [ty p v|ty ch IH] using tree_all; intros T C; [reflexivity|].
  apply everywhere_node in T as (T & Ts). apply everywhere_node in C as (C & Cs).
  apply refactor_node. exists ch. split.
  - revert IH Ts Cs. clear. induction ch as [|c ch IHc]; intros IH Ts Cs; constructor; inversion IH; inversion Ts; inversion Cs; subst; auto.
  - destruct (sym_eq_dec ty power) as [->|Hn]; [right|left; auto]. split; auto.
    destruct (C eq_refl) as (C1 & C2). destruct (fix_power ch) as (t & Ht & Hu & _). rewrite Ht. f_equal.
    specialize (Hu (T eq_refl)). inversion Hu as [ch2 _ H|f b a c ch2 E Hf Ha Hc _|b a c v ch2 a' e v' E Ha Hc Hv]; subst.
    + destruct H; try reflexivity; exfalso; apply C1.
      * eapply os_tuple; eauto.
      * eapply os_tuple_tag; eauto.
      * eapply os_string; eauto.
      * eapply os_string_tag; eauto.
      * eapply os_array; eauto. intros (x & ->). destruct H2 as (ts & (p & q & E) & _). discriminate.
      * eapply os_array; eauto.
    + exfalso. apply C2. eapply oe_get; eauto.
    + exfalso. apply C2. eapply oe_set; eauto.
Qed.
