(** What the parsing of numbers with uncertainties accepts: the whole strings. *)
From Coq Require Import String.
From Coq Require Import ZArith List Bool Lia.
From Verif Require Import Base Str FmtOps Format Parse StrProofs FmtSpec SpecProofs FixedProofs FormatProofs ParseSpec ReadProofs ParseProofs LangSpec LangProofs.
Import ListNotations.
Local Open Scope Z_scope.
Local Open Scope res_scope.

Section Lang.
Context (U : Unicode) (L : UniLaws U).

(** ** Uncertainties in parentheses *)
Definition words : list str := [lit "nan"; lit "NAN"; lit "inf"; lit "INF"].
(** A number in the expression, with its integer and decimal parts. *)
Inductive raw : str -> option str -> option str -> Prop :=
| raw_int : forall i, digits U i -> raw i (Some i) None
| raw_point : forall i f, digits U i -> digits U f -> raw (i ++ 46 :: f) (Some i) (Some (46 :: f))
| raw_word : forall w, In w words -> raw w None None.
Definition add_group (k : nat) (x : option str) (c : caps) : caps := match x with Some s => (k, s) :: c | None => c end.
Lemma dig_digits : forall s, Forall (fun x => is_digit U x = true) s -> digits U s.
Proof. intros s F. eapply Forall_impl; [|exact F]. intros a H. apply is_digit_some, H. Qed.
Lemma number_inv : forall k s c s' c', In (s', c') (matches (number_re U k) s c) ->
  exists a x y, s = a ++ s' /\ raw a x y /\ c' = (k, a) :: add_group (k + 2) y (add_group (k + 1) x c).
Proof.
  intros k s c s' c' H. unfold number_re in H. apply in_group in H. destruct H as (c1 & H & ->).
  apply in_alt in H. destruct H as [H|H].
  - apply in_seq_re in H. destruct H as (s1 & c2 & H1 & H). apply in_group in H1. destruct H1 as (c3 & H1 & ->).
    apply in_star in H1. destruct H1 as (i & -> & Fi & ->). apply dig_digits in Fi. rewrite consumed_app in H.
    apply in_opt in H. destruct H as [H|H].
    + apply in_group in H. destruct H as (c4 & H & ->). apply in_seq_re in H. destruct H as (s2 & c5 & H2 & H).
      apply in_set in H2. destruct H2 as (x & -> & E & ->). unfold ch in E. apply Z.eqb_eq in E. subst x.
      apply in_star in H. destruct H as (f & -> & Ff & ->). apply dig_digits in Ff.
      exists (i ++ 46 :: f), (Some i), (Some (46 :: f)). split; [rewrite <- app_assoc; reflexivity|].
      split; [constructor; assumption|]. cbn [add_group].
      replace (i ++ 46 :: f ++ s') with ((i ++ 46 :: f) ++ s') by (rewrite <- app_assoc; reflexivity).
      rewrite consumed_app. change (46 :: f ++ s') with ((46 :: f) ++ s'). rewrite consumed_app. reflexivity.
    + inversion H; subst. exists i, (Some i), None. split; [reflexivity|]. split; [constructor; assumption|].
      rewrite consumed_app. reflexivity.
  - assert (W : exists w, In w words /\ s = w ++ s' /\ c1 = c).
    { unfold words. repeat (apply in_alt in H; destruct H as [H|H]); apply in_rlit in H; destruct H as (-> & ->);
        eexists; (split; [|split; reflexivity]); simpl; tauto. }
    destruct W as (w & Hw & -> & ->). exists w, None, None. split; [reflexivity|]. split; [constructor; exact Hw|].
    rewrite consumed_app. reflexivity.
Qed.

Lemma paren_inv : forall s c, re_match (paren_re U) s = Some c -> exists sg neg a x y p e nl,
  s = sg ++ a ++ p ++ e ++ nl /\ sign_of sg neg /\ raw a x y /\ opt_newline nl /\
  grp c 1 = sg /\ grp c 2 = a /\ group c 4 = y /\
  ((p = [] /\ group c 5 = None /\ group c 7 = None) \/
   exists u x' y', p = lit "(" ++ u ++ lit ")" /\ raw u x' y' /\ group c 5 = Some u /\ group c 6 = x' /\ group c 7 = y') /\
  ((e = [] /\ group c 8 = None) \/ exists i b, e = i ++ b /\ intro U i /\ one_line b /\ group c 8 = Some b).
Proof.
  intros s c H. rewrite re_match_bt in H. apply bt_inv in H. destruct H as (s0 & c0 & H & E). inversion E; subst c0; clear E.
  unfold paren_re in H. cbn [rseq] in H.
  apply in_seq_re in H. destruct H as (s1 & c1 & H1 & H).
  assert (A1 : exists sg neg, s = sg ++ s1 /\ sign_of sg neg /\ (c1 = [(1%nat, sg)] \/ sg = [] /\ c1 = [])).
  { apply in_opt in H1. destruct H1 as [H1|H1].
    - apply in_group in H1. destruct H1 as (c2 & H1 & ->). apply in_set in H1. destruct H1 as (x & -> & E & ->).
      change (x :: s1) with ([x] ++ s1). rewrite consumed_app. apply oneof_in in E. simpl in E.
      destruct E as [<-|[<-|[]]]; eexists _, _; (split; [reflexivity|]); (split; [|left; reflexivity]); constructor.
    - inversion H1; subst. exists [], false. split; [reflexivity|]. split; [constructor|]. right; auto. }
  destruct A1 as (sg & neg & -> & Hsg & Hc1).
  apply in_seq_re in H. destruct H as (s2 & c2 & H2 & H). apply number_inv in H2. destruct H2 as (a & x & y & -> & Ra & ->).
  apply in_seq_re in H. destruct H as (s3 & c3 & H3 & H).
  set (c2 := (2%nat, a) :: add_group (2 + 2) y (add_group (2 + 1) x c1)) in *.
  assert (A3 : (s2 = s3 /\ c3 = c2) \/ exists u x' y', s2 = (lit "(" ++ u ++ lit ")") ++ s3 /\ raw u x' y' /\
              c3 = (5%nat, u) :: add_group 7 y' (add_group 6 x' c2)).
  { apply in_opt in H3. destruct H3 as [H3|H3]; [right|left; inversion H3; auto].
    cbn [rseq] in H3. apply in_seq_re in H3. destruct H3 as (t1 & d1 & G1 & H3). apply in_set in G1. destruct G1 as (z & -> & E & ->).
    unfold ch in E. apply Z.eqb_eq in E. subst z.
    apply in_seq_re in H3. destruct H3 as (t2 & d2 & G2 & H3). apply number_inv in G2. destruct G2 as (u & x' & y' & -> & Ru & ->).
    apply in_set in H3. destruct H3 as (z & -> & E & ->). unfold ch in E. apply Z.eqb_eq in E. subst z.
    exists u, x', y'. split; [cbn [lit app]; rewrite <- app_assoc; reflexivity|]. split; [exact Ru|reflexivity]. }
  apply in_seq_re in H. destruct H as (s4 & c4 & H4 & H). apply in_end in H. destruct H as (Hnl & E). inversion E; subst s0 c; clear E.
  assert (A4 : (s3 = s4 /\ c4 = c3) \/ exists i b, s3 = (i ++ b) ++ s4 /\ intro U i /\ one_line b /\ c4 = (8%nat, b) :: c3).
  { apply in_opt in H4. destruct H4 as [H4|H4]; [right|left; inversion H4; auto].
    apply in_seq_re in H4. destruct H4 as (t1 & d1 & G1 & H4). apply intro_inv in G1. destruct G1 as (i & Hi & -> & ->).
    apply in_group in H4. destruct H4 as (d2 & G2 & ->). apply in_star in G2. destruct G2 as (b & -> & Fb & ->).
    rewrite consumed_app. exists i, b. split; [rewrite <- app_assoc; reflexivity|]. split; [exact Hi|].
    split; [apply dots_line, Fb|reflexivity]. }
  assert (Gx : forall k, (k <> 3)%nat -> (k <> 4)%nat -> group (add_group 4 y (add_group 3 x c1)) k = group c1 k).
  { intros k N3 N4. unfold group, add_group. destruct x, y; cbn [find fst snd];
      repeat (match goal with |- context [Nat.eqb ?u k] => destruct (Nat.eqb_spec u k); [congruence|] end); reflexivity. }
  assert (C1 : grp c1 1 = sg /\ forall k, (k <> 1)%nat -> group c1 k = None).
  { destruct Hc1 as [->|(-> & ->)]; split; try reflexivity. intros k N. unfold group. cbn [find fst snd].
    destruct (Nat.eqb_spec 1 k); [congruence|reflexivity]. }
  destruct C1 as (C11 & C1).
  assert (C2 : grp c2 1 = sg /\ grp c2 2 = a /\ group c2 4 = y /\ group c2 5 = None /\ group c2 6 = None /\ group c2 7 = None /\ group c2 8 = None).
  { assert (G2 : forall k, (k <> 2)%nat -> group c2 k = group (add_group 4 y (add_group 3 x c1)) k).
    { intros k N. unfold c2, group at 1. cbn [find fst]. destruct (Nat.eqb_spec 2 k); [congruence|reflexivity]. }
    repeat split.
    - unfold grp. rewrite G2, Gx by lia. exact C11.
    - rewrite G2 by lia. destruct y as [y|]; [reflexivity|]. unfold add_group at 1. destruct x as [x|].
      + unfold add_group, group. cbn [find fst snd Nat.eqb]. apply C1. lia.
      + apply C1. lia.
    - rewrite G2, Gx by lia. apply C1. lia.
    - rewrite G2, Gx by lia. apply C1. lia.
    - rewrite G2, Gx by lia. apply C1. lia.
    - rewrite G2, Gx by lia. apply C1. lia. }
  clearbody c2. destruct C2 as (B1 & B2 & B4 & B5 & B6 & B7 & B8).
  assert (C3 : grp c3 1 = sg /\ grp c3 2 = a /\ group c3 4 = y /\ group c3 8 = None).
  { destruct A3 as [(_ & ->)|(u & x' & y' & _ & _ & ->)]; [auto|].
    unfold grp, group in *. destruct x', y'; cbn [add_group find fst snd Nat.eqb] in *; auto. }
  assert (P3 : ((s2 = s3 /\ group c3 5 = None /\ group c3 7 = None) \/
   exists u x' y', s2 = (lit "(" ++ u ++ lit ")") ++ s3 /\ raw u x' y' /\ group c3 5 = Some u /\ group c3 6 = x' /\ group c3 7 = y')).
  { destruct A3 as [(-> & ->)|(u & x' & y' & -> & Ru & ->)]; [left; auto|right].
    exists u, x', y'. split; [reflexivity|]. split; [exact Ru|].
    unfold group in *. destruct x', y'; cbn [add_group find fst snd Nat.eqb] in *; auto. }
  destruct C3 as (D1 & D2 & D4 & D8).
  assert (C4 : grp c4 1 = sg /\ grp c4 2 = a /\ group c4 4 = y /\ group c4 5 = group c3 5 /\ group c4 6 = group c3 6 /\ group c4 7 = group c3 7).
  { destruct A4 as [(_ & ->)|(i & b & _ & _ & _ & ->)]; [repeat split; assumption|].
    unfold grp, group in *. cbn [find fst snd Nat.eqb] in *. repeat split; assumption. }
  destruct C4 as (E1 & E2 & E4 & E5 & E6 & E7).
  assert (exists p, s2 = p ++ s3 /\ ((p = [] /\ group c4 5 = None /\ group c4 7 = None) \/
   exists u x' y', p = lit "(" ++ u ++ lit ")" /\ raw u x' y' /\ group c4 5 = Some u /\ group c4 6 = x' /\ group c4 7 = y')) as (p & -> & Hp).
  { rewrite E5, E6, E7. destruct P3 as [(-> & ? & ?)|(u & x' & y' & -> & Hu)].
    - exists []. split; [reflexivity|]. left; auto.
    - exists (lit "(" ++ u ++ lit ")"). split; [reflexivity|]. right. exists u, x', y'. tauto. }
  assert (exists e, s3 = e ++ s4 /\ ((e = [] /\ group c4 8 = None) \/ exists i b, e = i ++ b /\ intro U i /\ one_line b /\ group c4 8 = Some b)) as (e & -> & He).
  { destruct A4 as [(-> & ->)|(i & b & -> & Hi & Hb & ->)].
    - exists []. split; [reflexivity|]. left; auto.
    - exists (i ++ b). split; [reflexivity|]. right. exists i, b. auto. }
  exists sg, neg, a, x, y, p, e, s4. split; [reflexivity|]. split; [exact Hsg|]. split; [exact Ra|]. split; [exact Hnl|].
  split; [exact E1|]. split; [exact E2|]. split; [exact E4|]. split; [exact Hp|exact He].
Qed.

Context {K : FmtOps}.
Notation lexf := (lex_fl (K := K)).
(** ** Their values *)
Lemma no_digit_float : forall sg neg a, sign_of sg neg -> a = [] \/ a = [46] -> py_float (K := K) U (sg ++ a) = Err EValue.
Proof.
  intros sg neg a Hs Ha.
  assert (forall c, 33 <= c < 128 -> u_spc U c = false) as Sp by apply (ascii_spc U L).
  assert (u_dig U 46 = None) as D by (apply (ascii_none U L); lia).
  destruct Hs, Ha; subst; try change (lit "+") with [43]; try change (lit "-") with [45];
    unfold py_float, strip; cbn;
    repeat (rewrite Sp by lia; cbn); rewrite ?D; cbn; try rewrite D; try reflexivity.
Qed.
Lemma words_lex : forall w, In w words -> exists l, nonfinite w l /\ (l = LNan \/ l = LInf false).
Proof.
  intros w H. unfold words in H. simpl in H. destruct H as [<-|[<-|[<-|[<-|[]]]]].
  - exists LNan. split; [constructor|auto].
  - exists LNan. split; [constructor|auto].
  - exists (LInf false). split; [constructor|auto].
  - exists (LInf false). split; [constructor|auto].
Qed.
Lemma words_float : forall sg neg w l, sign_of sg neg -> nonfinite w l ->
  py_float (K := K) U (sg ++ w) = Ok (lexf (match l with LInf _ => LInf neg | l => l end)) /\
  unsigned U neg w (match l with LInf _ => LInf neg | l => l end) 0.
Proof.
  intros sg neg w l Hs Hn. assert (E : sg ++ w = [] ++ (sg ++ w) ++ []) by (rewrite app_nil_r; reflexivity).
  split.
  - rewrite E. apply (py_float_text U L).
    destruct Hn; try (apply (ft_nan U [] sg neg _ []); [constructor|constructor|exact Hs|reflexivity]);
      (apply (ft_inf U [] sg neg _ []); [constructor|constructor|exact Hs|left; reflexivity]).
  - destruct Hn; try (apply un_nan; constructor); apply un_inf; constructor.
Qed.
Lemma raw_float : forall sg neg a x y (v : fl K), sign_of sg neg -> raw a x y -> py_float (K := K) U (sg ++ a) = Ok v ->
  exists l k, unsigned U neg a l k /\ v = lexf l /\ (match y with Some d => len d - 1 | None => 0 end) = Z.of_nat k.
Proof.
  intros sg neg a x y v Hs Ra H.
  assert (G : forall m k, decimal U a m k -> v = lexf (LDec neg m (- Z.of_nat k)) /\ unsigned U neg a (LDec neg m (- Z.of_nat k)) k).
  { intros m k Hd. split; [|constructor; exact Hd].
    pose proof (py_float_text U L (K := K) ([] ++ (sg ++ a ++ []) ++ []) (LDec neg m (0 - Z.of_nat k))) as E.
    cbn [app] in E. rewrite !app_nil_r in E. rewrite E in H.
    - inversion H; subst. unfold lex_fl. replace (0 - Z.of_nat k) with (- Z.of_nat k) by lia. reflexivity.
    - pose proof (ft_dec U [] sg neg a m k [] 0 []) as T. cbn [app] in T. rewrite !app_nil_r in T.
      apply T; [constructor|constructor|exact Hs|exact Hd|constructor]. }
  destruct Ra as [i Fi|i f Fi Ff|w Hw].
  - destruct i as [|c i].
    + rewrite (no_digit_float sg neg []) in H by auto. discriminate.
    + destruct (G _ _ (de_int U (c :: i) Fi ltac:(discriminate))) as (Ev & Hu).
      eexists _, 0%nat. split; [exact Hu|]. split; [exact Ev|reflexivity].
  - destruct i as [|c i], f as [|d f];
      try (change ([] ++ [46]) with ([46] : str) in H; rewrite (no_digit_float sg neg [46]) in H by auto; discriminate);
      (match type of G with context [decimal U (?i ++ 46 :: ?f)] =>
         destruct (G _ _ (de_point U i f Fi Ff ltac:(simpl; discriminate))) as (Ev & Hu) end);
      (eexists _, _; split; [exact Hu|]; split; [exact Ev|]; unfold len; cbn [length]; lia).
  - destruct (words_lex w Hw) as (l & Hl & Hc). destruct (words_float sg neg w l Hs Hl) as (E & Hu).
    rewrite E in H. inversion H; subst. eexists _, 0%nat. split; [exact Hu|]. split; reflexivity.
Qed.
Lemma digits_no_word : forall i w, digits U i -> In w words -> str_eqb i w = false.
Proof.
  intros i w F Hw. destruct (str_eqb i w) eqn:E; [|reflexivity]. apply str_eqb_eq in E. subst i. exfalso.
  unfold words in Hw. simpl in Hw. destruct Hw as [<-|[<-|[<-|[<-|[]]]]]; inversion F; subst; apply H1, (ascii_none U L); simpl; lia.
Qed.
Lemma existsb_words : forall i, digits U i -> existsb (str_eqb i) words = false.
Proof.
  intros i F. destruct (existsb _ words) eqn:E; [|reflexivity]. apply existsb_exists in E. destruct E as (w & Hw & E).
  rewrite (digits_no_word i w F Hw) in E. discriminate.
Qed.
Lemma word_in : forall w, In w words -> existsb (str_eqb w) words = true.
Proof. intros w H. apply existsb_exists. exists w. split; [exact H|apply str_eqb_refl]. Qed.

Lemma parens_inv : forall s (v u : fl K), parse_error_in_parentheses (K := K) U s = Ok (v, u) ->
  exists m, paren_like U s m /\ meaning_fl (K := K) m = Ok (v, u).
Proof.
  intros s v u H. unfold parse_error_in_parentheses in H. destruct (re_match (paren_re U) s) as [c|] eqn:Em; [|discriminate].
  apply paren_inv in Em.
  destruct Em as (sg & neg & a & x & y & p & e & nl & -> & Hs & Ra & Hnl & G1 & G2 & G4 & Hp & He).
  rewrite G1, G2, G4 in H. fold words in H.
  (* the exponent *)
  assert (Hn : exists n, exp_like U e n /\
    (match group c 8 with
     | Some (x :: t) => n <- nrmlze_superscript U (x :: t) ;; (_ <- ten_to (K := K) n ;; Ok (Some n))
     | _ => Ok None
     end = Ok n) /\ power (K := K) n = Ok tt).
  { destruct He as [(-> & G8)|(i & b & -> & Hi & Hb & G8)]; rewrite G8 in *.
    - exists None. split; [constructor|]. split; reflexivity.
    - destruct b as [|z b].
      + exists None. rewrite app_nil_r. split; [apply el_empty, Hi|]. split; reflexivity.
      + destruct (nrmlze_superscript U (z :: b)) as [n|] eqn:En; [|discriminate]. cbn [rbind] in *.
        destruct (ten_to n) as [[]|] eqn:Et; [|discriminate]. exists (Some n).
        split; [apply el_int; [exact Hi|exact Hb|apply nrmlze_inv, En]|]. split; [reflexivity|].
        unfold ten_to in Et. exact Et. }
  destruct Hn as (n & Hn & E8 & Ep). rewrite E8 in H. cbn [rbind] in H. cbv zeta in H.
  destruct (py_float (K := K) U (sg ++ a)) as [v0|] eqn:Ef; [|discriminate]. cbn [rbind] in H.
  destruct (raw_float sg neg a x y v0 Hs Ra Ef) as (l & k & Hu & -> & Ek). rewrite Ek in H.
  change (match n with Some n0 => x_mul10 K (lexf l) n0 | None => Ok (lexf l) end) with (times (K := K) n (lexf l)) in H.
  destruct (times (K := K) n (lexf l)) as [v1|] eqn:Ev; [|discriminate]. cbn [rbind] in H.
  (* the uncertainty *)
  match type of H with rbind ?r _ = _ => destruct r as [u0|] eqn:Er end; [|discriminate]. cbn [rbind] in H.
  change (match n with Some n0 => x_mul10 K u0 n0 | None => Ok u0 end) with (times (K := K) n u0) in H.
  destruct (times (K := K) n u0) as [u1|] eqn:Eu; [|discriminate]. cbn [rbind] in H. inversion H; subst v1 u1.
  assert (Hw : exists w, in_paren U p w /\
    match w with
    | UNumber l => Ok (lexf l)
    | UUnits d => x <- x_of_Z K d ;; x_div10 K x (Z.of_nat k)
    | ULast => x <- x_of_Z K 1 ;; x_div10 K x (Z.of_nat k)
    end = Ok u0).
  { destruct Hp as [(-> & G5 & G7)|(q & x' & y' & -> & Rq & G5 & G6 & G7)].
    - rewrite G5, G7 in Er. cbn [orb] in Er. exists ULast. split; [constructor|].
      change (lit "1") with ([] ++ lit "1" ++ []) in Er.
      rewrite (py_int_text U L [] (lit "1") 1 []) in Er.
      + exact Er.
      + constructor.
      + constructor.
      + exists [], false, (lit "1"). split; [reflexivity|]. split; [constructor|].
        assert (u_dig U 49 = Some 1) as D by (apply (ul_digit U L); lia).
        change (lit "1") with [49].
        split; [constructor; [rewrite D; discriminate|constructor]|]. split; [discriminate|].
        unfold uval. cbn. rewrite D. reflexivity.
    - unfold grp in Er. rewrite G5, G6, G7 in Er. destruct Rq as [i Fi|i f Fi Ff|w Hw].
      + rewrite (existsb_words i Fi) in Er. cbn [orb] in Er.
        destruct i as [|z i]; [discriminate|].
        assert (Hi : integer U (z :: i) (uval U (z :: i))).
        { exists [], false, (z :: i). split; [reflexivity|]. split; [constructor|]. split; [exact Fi|]. split; [discriminate|reflexivity]. }
        pose proof (py_int_text U L [] (z :: i) _ [] ltac:(constructor) ltac:(constructor) Hi) as Ei.
        rewrite app_nil_r in Ei. change ([] ++ z :: i) with (z :: i) in Ei. rewrite Ei in Er. cbn [rbind] in Er.
        exists (UUnits (uval U (z :: i))). split; [apply ip_units; [exact Fi|discriminate]|exact Er].
      + cbn [orb] in Er.
        destruct (raw_float [] false (i ++ 46 :: f) (Some i) (Some (46 :: f)) u0 sg_none (raw_point i f Fi Ff) Er) as (l' & k' & Hu' & -> & Ek').
        assert (Hne : i ++ f <> []).
        { intros E. apply app_eq_nil in E. destruct E as (-> & ->).
          change ([] ++ [46]) with ([] ++ ([46] : str)) in Er. rewrite (no_digit_float [] false [46] sg_none) in Er by auto. discriminate. }
        exists (UNumber (LDec false (uval U (i ++ f)) (- len f))). split; [apply ip_point; assumption|].
        pose proof (py_float_text U L (K := K) ([] ++ ([] ++ (i ++ 46 :: f) ++ []) ++ []) (LDec false (uval U (i ++ f)) (0 - Z.of_nat (length f)))) as E.
        cbn [app] in E. rewrite !app_nil_r in E. rewrite E in Er.
        * rewrite <- Er. unfold lex_fl, len. replace (0 - Z.of_nat (length f)) with (- Z.of_nat (length f)) by lia. reflexivity.
        * pose proof (ft_dec U [] [] false (i ++ 46 :: f) (uval U (i ++ f)) (length f) [] 0 []) as T. cbn [app] in T. rewrite !app_nil_r in T.
          apply T; [constructor|constructor|constructor|constructor; assumption|constructor].
      + rewrite (word_in w Hw) in Er. cbn [orb] in Er.
        destruct (words_lex w Hw) as (l' & Hl & Hc). destruct (words_float [] false w l' sg_none Hl) as (E & _).
        cbn [app] in E. rewrite E in Er. exists (UNumber l'). split; [apply ip_word, Hl|].
        rewrite <- Er. destruct Hc; subst; reflexivity. }
  destruct Hw as (w & Hw & Ew).
  exists (MParen l k w n). split.
  - exists sg, neg, a, l, k, p, w, e, n, nl. repeat (split; [first [reflexivity|assumption]|]). reflexivity.
  - unfold meaning_fl. rewrite Ep. cbn [rbind]. rewrite Ev. cbn [rbind].
    match goal with |- rbind ?r _ = _ => assert (Er' : r = Ok u0) by (exact Ew); rewrite Er' end.
    cbn [rbind]. rewrite Eu. reflexivity.
Qed.

(** ** Whole strings *)
Lemma unparen_inv : forall s, unparen s = s \/ s = lit "(" ++ unparen s ++ lit ")".
Proof.
  intros [|c t]; [left; reflexivity|]. unfold unparen. destruct ((c =? 40) && last_is 41 (c :: t)) eqn:E; [|left; reflexivity].
  right. apply andb_true_iff in E. destruct E as (E1 & E2). apply Z.eqb_eq in E1. subst c.
  destruct t as [|d t] using rev_ind; [discriminate|]. clear IHt.
  unfold last_is in E2. change (40 :: t ++ [d]) with ((40 :: t) ++ [d]) in E2. rewrite rev_app_distr in E2. simpl in E2.
  apply Z.eqb_eq in E2. subst d. rewrite removelast_last. reflexivity.
Qed.
Lemma pair_one : forall a b : str, one_line (a ++ b) -> one_line a /\ one_line b.
Proof. intros a b H. split; intros Hi; apply H, in_or_app; auto. Qed.
Theorem str_inv : forall s (v u : fl K), str_to_number_with_uncert (K := K) U s = Ok (v, u) ->
  exists m f, text_like U (unparen s) m f /\ reading (K := K) m f = Ok (v, u).
Proof.
  intros s v u H. unfold str_to_number_with_uncert in H. cbv zeta in H. generalize dependent (unparen s). clear s. intros s H.
  destruct (re_match (global_exp_re U) s) as [c|] eqn:Eg.
  - apply global_inv in Eg. destruct Eg as (t & i & b & nl & -> & Hi & G1 & G2 & Nt & Nb & Hnl). rewrite G1, G2 in H.
    destruct (nrmlze_superscript U b) as [n|] eqn:En; [|discriminate]. cbn [rbind] in H.
    destruct (ten_to n) as [[]|] eqn:Et; [|discriminate]. cbn [rbind] in H. apply nrmlze_inv in En.
    change (power (K := K) (Some n) = Ok tt) in Et.
    destruct (re_match pm_re t) as [c'|] eqn:Ep.
    + apply pm_inv in Ep. destruct Ep as (a & pm & b' & rest & -> & Hpm & G1' & G2' & Na & Nb' & Hr). rewrite G1', G2' in H.
      assert (rest = []) as ->.
      { destruct Hr as [->|(r & ->)]; [reflexivity|]. exfalso. apply Nt.
        apply in_or_app; right. apply in_or_app; right. apply in_or_app; right. left; reflexivity. }
      rewrite app_nil_r in *.
      destruct (to_float U a) as [v0|] eqn:Ea; [|discriminate]. cbn [rbind] in H.
      apply to_float_inv in Ea; [|exact Na]. destruct Ea as (l & o & Hl & Ea).
      destruct (x_mul10 K v0 n) as [v1|] eqn:Ev; [|discriminate]. cbn [rbind] in H.
      destruct (to_float U b') as [u0|] eqn:Eb; [|discriminate]. cbn [rbind] in H.
      apply to_float_inv in Eb; [|exact Nb']. destruct Eb as (l' & o' & Hl' & Eb).
      destruct (x_mul10 K u0 n) as [u1|] eqn:Eu; [|discriminate]. cbn [rbind] in H. inversion H; subst.
      exists (MPair l o l' o' (Some n)), None. split.
      * apply tl_factor; assumption.
      * unfold reading. cbn [power rbind]. unfold meaning_fl. rewrite Et. cbn [rbind]. rewrite Ea. cbn [rbind].
        cbn [times]. rewrite Ev. cbn [rbind]. rewrite Eb. cbn [rbind]. rewrite Eu. reflexivity.
    + apply parens_inv in H. destruct H as (m & Hm & Er). exists m, (Some n). split; [apply tl_ignored; assumption|].
      unfold reading. rewrite Et. exact Er.
  - cbn [rbind] in H. destruct (re_match pm_re s) as [c'|] eqn:Ep.
    + apply pm_inv in Ep. destruct Ep as (a & pm & b' & rest & -> & Hpm & G1' & G2' & Na & Nb' & Hr). rewrite G1', G2' in H.
      destruct (to_float U a) as [v0|] eqn:Ea; [|discriminate]. cbn [rbind] in H.
      apply to_float_inv in Ea; [|exact Na]. destruct Ea as (l & o & Hl & Ea).
      destruct (to_float U b') as [u0|] eqn:Eb; [|discriminate]. cbn [rbind] in H.
      apply to_float_inv in Eb; [|exact Nb']. destruct Eb as (l' & o' & Hl' & Eb). inversion H; subst.
      exists (MPair l o l' o' None), None. split.
      * apply tl_pair; assumption.
      * unfold reading. cbn [power rbind]. unfold meaning_fl. cbn [power rbind]. rewrite Ea. cbn [rbind times].
        rewrite Eb. reflexivity.
    + apply parens_inv in H. destruct H as (m & Hm & Er). exists m, None. split; [apply tl_paren, Hm|]. exact Er.
Qed.
Theorem accepted_texts : forall s (v u : fl K) tag w, ufloat_fromstr (K := K) U s tag = Ok (v, u, tag, w) ->
  exists m f, accepted U s m f /\ reading (K := K) m f = Ok (v, u).
Proof.
  intros s v u tag w H. unfold ufloat_fromstr in H.
  destruct (str_to_number_with_uncert U (strip U s)) as [(v0 & u0)|] eqn:E; [|discriminate]. cbn [rbind fst snd] in H.
  unfold variable in H. cbn [rbind] in H. destruct (_ && _); [discriminate|]. inversion H; subst.
  apply str_inv in E. destruct E as (m & f & Ht & Er). exists m, f. split; [|exact Er].
  destruct (strip_inv U s) as (sp & sp' & F & F' & Es). rewrite Es.
  destruct (unparen_inv (strip U s)) as [Eu|Eu].
  - rewrite Eu in Ht. apply ac_plain; assumption.
  - rewrite Eu. apply ac_parens; assumption.
Qed.
End Lang.

(** For any arithmetic. *)
Theorem accepted_any : forall (K : FmtOps) (U : Unicode), UniLaws U ->
  forall s (v u : fl K) tag w, ufloat_fromstr (K := K) U s tag = Ok (v, u, tag, w) ->
  exists m f, accepted U s m f /\ reading (K := K) m f = Ok (v, u).
Proof. intros K U L. apply (accepted_texts U L). Qed.
(** Everything else is refused. *)
Theorem refused_any : forall (K : FmtOps) (U : Unicode), UniLaws U ->
  forall s tag, (forall m f, ~ accepted U s m f) -> exists e, ufloat_fromstr (K := K) U s tag = Err e.
Proof.
  intros K U L s tag H. destruct (ufloat_fromstr (K := K) U s tag) as [(((v & u) & t) & w)|e] eqn:E; [|eauto].
  exfalso. assert (t = tag) as ->.
  { unfold ufloat_fromstr in E. destruct (str_to_number_with_uncert U (strip U s)) as [(v0 & u0)|]; [|discriminate].
    cbn [rbind fst snd] in E. unfold variable in E. cbn [rbind] in E. destruct (_ && _); [discriminate|]. congruence. }
  destruct (accepted_any K U L s v u tag w E) as (m & f & Ha & _). exact (H m f Ha).
Qed.
