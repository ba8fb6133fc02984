(** Numbers followed by an uncertainty in parentheses, and whole representations. *)
From Coq Require Import String.
From Coq Require Import ZArith List Bool Lia.
From Verif Require Import Base Str FmtOps Format Parse StrProofs FmtSpec SpecProofs FixedProofs FormatProofs ParseSpec ReadProofs ParseProofs.
Import ListNotations.
Local Open Scope Z_scope.
Local Open Scope res_scope.

Section Notation.
Context (U : Unicode) (L : UniLaws U).
Notation dig := (is_digit U).

(** ** The parts of the regular expression *)
Lemma bt_number_int : forall X n i t c (k : str -> caps -> option X) x, digits U i -> hd_not dig t -> hd_not (ch 46) t ->
  k t ((n, i) :: ((n + 1)%nat, i) :: c) = Some x -> bt (number_re U n) (i ++ t) c k = Some x.
Proof.
  intros X n i t c k x Hi H1 H2 E. unfold number_re. rewrite bt_group, bt_alt.
  match goal with |- match ?b with _ => _ end = _ => assert (b = Some x) as ->; [|reflexivity] end.
  rewrite bt_seq, bt_group. apply bt_star_first; [apply digits_dig, Hi|exact H1|].
  rewrite bt_opt, bt_group, bt_seq, bt_set. rewrite !consumed_app.
  destruct t as [|y t]; [exact E|]. change (ch 46 y = false) in H2. rewrite H2. exact E.
Qed.
Lemma bt_number_point : forall X n i f t c (k : str -> caps -> option X) x, digits U i -> digits U f -> hd_not dig t ->
  k t ((n, i ++ 46 :: f) :: ((n + 2)%nat, 46 :: f) :: ((n + 1)%nat, i) :: c) = Some x ->
  bt (number_re U n) ((i ++ 46 :: f) ++ t) c k = Some x.
Proof.
  intros X n i f t c k x Hi Hf H1 E. unfold number_re. rewrite bt_group, bt_alt.
  match goal with |- match ?b with _ => _ end = _ => assert (b = Some x) as ->; [|reflexivity] end.
  rewrite bt_seq, bt_group. rewrite <- app_assoc at 1. apply bt_star_first; [apply digits_dig, Hi| |].
  { simpl. unfold is_digit. rewrite (ascii_none U L) by lia. reflexivity. }
  rewrite bt_opt.
  match goal with |- match ?b with _ => _ end = _ => assert (b = Some x) as ->; [|reflexivity] end.
  rewrite bt_group, bt_seq, bt_set. cbn [app]. unfold ch. rewrite Z.eqb_refl.
  apply bt_star_first; [apply digits_dig, Hf|exact H1|].
  rewrite consumed_app.
  change (46 :: f ++ t) with ((46 :: f) ++ t). rewrite consumed_app.
  replace ((i ++ 46 :: f) ++ t) with (i ++ (46 :: f) ++ t) by (rewrite <- app_assoc; reflexivity).
  rewrite consumed_app. exact E.
Qed.
Lemma bt_number_word : forall X n w l t c (k : str -> caps -> option X) x, nonfinite w l ->
  (forall c, k (w ++ t) c = None) -> k t ((n, w) :: c) = Some x -> bt (number_re U n) (w ++ t) c k = Some x.
Proof.
  intros X n w l t c k x Hw N E. unfold number_re. rewrite bt_group, bt_alt.
  assert (Hd : hd_not dig (w ++ t)).
  { destruct Hw; simpl; unfold is_digit; rewrite (ascii_none U L) by lia; reflexivity. }
  rewrite bt_seq, bt_group, bt_star_nil by exact Hd. rewrite bt_opt, bt_group, bt_seq, bt_set.
  assert (Hp : exists y u, w ++ t = y :: u /\ ch 46 y = false) by (destruct Hw; simpl; eexists _, _; split; reflexivity).
  destruct Hp as (y & u & Ey & Ep). rewrite Ey at 1. rewrite Ep, N. rewrite bt_alt.
  assert (C : consumed (w ++ t) t = w) by apply consumed_app.
  destruct Hw;
    repeat first [ rewrite bt_rlit, C, E; reflexivity
                 | rewrite bt_rlit_none with (a := 110) (r := lit "an"); [|reflexivity|reflexivity]
                 | rewrite bt_rlit_none with (a := 78) (r := lit "AN"); [|reflexivity|reflexivity]
                 | rewrite bt_rlit_none with (a := 105) (r := lit "nf"); [|reflexivity|reflexivity]
                 | rewrite bt_alt ].
Qed.

(** The end of the text: an optional exponent. *)
Notation last := (fun (_ : str) (c : caps) => Some c).
Definition exp_tail : re := RSeq (ROpt (RSeq (exp_intro U) (RGroup 8 (RStar dot)))) REnd.
Lemma exp_tail_match : forall e n, opt_exp U e n -> exists g,
  (forall c, bt exp_tail e c last = Some (match g with Some b => (8%nat, b) :: c | None => c end)) /\
  match g, n with
  | Some b, Some n => b <> [] /\ nrmlze_superscript U b = Ok n
  | None, None => True
  | _, _ => False
  end.
Proof.
  intros e n [|s m H].
  - exists None. split; [|exact I]. intros c. unfold exp_tail. rewrite bt_seq, bt_opt.
    rewrite bt_seq. unfold exp_intro. rewrite bt_alt, bt_set. cbn [rseq].
    rewrite bt_seq, bt_star_nil by exact I. rewrite bt_seq, bt_set. rewrite bt_end. reflexivity.
  - destruct (exp_intro_match U L _ _ H) as (i & b & Ee & Nb & Qb & En & _ & _ & _ & _ & M).
    exists (Some b). split; [|split; assumption]. intros c. unfold exp_tail. rewrite bt_seq, bt_opt.
    rewrite (M _ _ _ _ ((8%nat, b) :: c)); [reflexivity|].
    apply bt_rest; [apply quiet_all_dot, Qb|]. rewrite bt_end. reflexivity.
Qed.
Lemma exp_tail_none : forall y t c, oneof "eE" y = false -> u_spc U y = false -> y <> 215 -> y <> 10 ->
  bt exp_tail (y :: t) c last = None.
Proof.
  intros y t c A B C D. unfold exp_tail. rewrite bt_seq, bt_opt. rewrite bt_seq. unfold exp_intro.
  rewrite bt_alt, bt_set, A. cbn [rseq]. rewrite bt_seq, bt_star_nil by exact B.
  rewrite bt_seq, bt_set. assert (ch 215 y = false) as -> by (unfold ch; destruct (Z.eqb_spec 215 y); congruence).
  rewrite bt_end_k, k_end_cons. destruct (Z.eqb_spec y 10); [congruence|]. reflexivity.
Qed.
Lemma opt_exp_hd : forall e n, opt_exp U e n -> hd_not dig e /\ hd_not (ch 46) e /\ hd_not (ch 40) e /\ Forall quiet e.
Proof.
  intros e n [|s m H]; [repeat split; constructor|].
  destruct (exp_intro_match U L _ _ H) as (i & b & _ & _ & _ & _ & A & B & C & _).
  split; [|split; [|split]]; try assumption. apply (exponent_quiet U L _ _ H).
Qed.

(** What the end of the text needs to satisfy: how its exponent is read. *)
Definition tail_ok (e : str) (n : option Z) : Prop := exists g,
  (forall c, bt exp_tail e c last = Some (match g with Some b => (8%nat, b) :: c | None => c end)) /\
  match g, n with
  | Some b, Some n => b <> [] /\ nrmlze_superscript U b = Ok n
  | Some b, None => b = []
  | None, None => True
  | None, Some _ => False
  end /\ hd_not dig e /\ hd_not (ch 46) e /\ hd_not (ch 40) e.
Lemma opt_exp_tail : forall e n, opt_exp U e n -> tail_ok e n.
Proof.
  intros e n H. destruct (opt_exp_hd _ _ H) as (A & B & C & _). destruct (exp_tail_match _ _ H) as (g & G1 & G2).
  exists g. split; [exact G1|]. split; [destruct g, n; tauto|auto].
Qed.

(** The uncertainty in parentheses: the groups that it sets. *)
Definition paren_part : re := ROpt (rseq [RSet (ch 40); number_re U 5; RSet (ch 41)]).
Inductive u_groups : uncert -> caps -> Prop :=
| ug_units : forall ds, digits U ds -> ds <> [] -> u_groups (UUnits (uval U ds)) [(5%nat, ds); (6%nat, ds)]
| ug_point : forall i f, digits U i -> digits U f -> i ++ f <> [] ->
    u_groups (UNumber (LDec false (uval U (i ++ f)) (- len f))) [(5%nat, i ++ 46 :: f); (7%nat, 46 :: f); (6%nat, i)]
| ug_word : forall w l, nonfinite w l -> u_groups (UNumber l) [(5%nat, w)]
| ug_none : u_groups ULast [].
Lemma paren_match : forall p u e n, in_paren U p u -> tail_ok e n -> exists g,
  u_groups u g /\
  forall c x, bt exp_tail e (g ++ c) last = Some x -> bt (RSeq paren_part exp_tail) (p ++ e) c last = Some x.
Proof.
  intros p u e n Hp He. destruct He as (_ & _ & _ & E1 & E2 & E3).
  assert (H41 : forall t, hd_not dig (41 :: t)) by (intros t; simpl; unfold is_digit; rewrite (ascii_none U L) by lia; reflexivity).
  assert (St : forall ds g t, (forall (k : str -> caps -> option caps) x, k (41 :: e) (g ++ t) = Some x -> bt (number_re U 5) (ds ++ 41 :: e) t k = Some x) ->
    forall x, bt exp_tail e (g ++ t) last = Some x ->
    bt (RSeq paren_part exp_tail) ((lit "(" ++ ds ++ lit ")") ++ e) t last = Some x).
  { intros ds g t H x E. rewrite bt_seq. unfold paren_part. rewrite bt_opt. cbn [rseq].
    rewrite bt_seq, bt_set. rewrite <- !app_assoc. cbn [lit app]. change (ch 40 _) with true. cbv iota.
    rewrite bt_seq.
    match goal with |- context [ds ++ ?z :: e] => change z with 41 end.
    rewrite (H (fun s c => bt (RSet (ch 41)) s c (fun s' c' => bt exp_tail s' c' last)) x); [reflexivity|].
    rewrite bt_set. unfold ch. rewrite Z.eqb_refl. exact E. }
  destruct Hp as [ds Hd Nd|i f Hi Hf Nif|w l Hw|].
  - exists [(5%nat, ds); (6%nat, ds)]. split; [constructor; assumption|]. intros c x E. apply (St _ _ _) with (2 := E).
    intros k y Ek. apply bt_number_int; [assumption|apply H41|reflexivity|exact Ek].
  - eexists. split; [apply ug_point; assumption|]. intros c x E. apply (St _ _ _) with (2 := E).
    intros k y Ek. apply bt_number_point; [assumption|assumption|apply H41|exact Ek].
  - eexists. split; [apply ug_word; eassumption|]. intros c x E. rewrite bt_seq. unfold paren_part. rewrite bt_opt. cbn [rseq].
    rewrite bt_seq, bt_set. rewrite <- !app_assoc. cbn [lit app]. change (ch 40 _) with true. cbv iota.
    rewrite bt_seq.
    match goal with |- context [w ++ ?z :: e] => change z with 41 end.
    rewrite (bt_number_word _ 5 w l (41 :: e) c _ x Hw).
    + reflexivity.
    + intros c'. rewrite bt_set. destruct Hw; reflexivity.
    + rewrite bt_set. unfold ch. rewrite Z.eqb_refl. exact E.
  - exists []. split; [constructor|]. intros c x E. rewrite bt_seq. unfold paren_part. rewrite bt_opt. cbn [rseq].
    rewrite bt_seq, bt_set. destruct e as [|y e]; [exact E|]. change (ch 40 y = false) in E3. cbn [app]. rewrite E3. exact E.
Qed.
(** The main number. *)
Inductive m_groups (neg : bool) : lexed -> nat -> str -> caps -> Prop :=
| mg_int : forall i, digits U i -> i <> [] ->
    m_groups neg (LDec neg (uval U i) 0) 0 i [(2%nat, i); (3%nat, i)]
| mg_point : forall i f, digits U i -> digits U f -> i ++ f <> [] ->
    m_groups neg (LDec neg (uval U (i ++ f)) (- len f)) (length f) (i ++ 46 :: f)
      [(2%nat, i ++ 46 :: f); (4%nat, 46 :: f); (3%nat, i)]
| mg_nan : forall w, nonfinite w LNan -> m_groups neg LNan 0 w [(2%nat, w)]
| mg_inf : forall w, nonfinite w (LInf false) -> m_groups neg (LInf neg) 0 w [(2%nat, w)].
Lemma in_paren_hd : forall p u e n, in_paren U p u -> tail_ok e n -> hd_not dig (p ++ e) /\ hd_not (ch 46) (p ++ e).
Proof.
  intros p u e n Hp He. destruct He as (_ & _ & _ & E1 & E2 & _).
  destruct Hp; simpl; try (split; assumption); unfold is_digit; rewrite (ascii_none U L) by lia; split; reflexivity.
Qed.
Lemma main_match : forall neg s a k p u e n, unsigned U neg s a k -> in_paren U p u -> tail_ok e n -> exists g,
  m_groups neg a k s g /\
  forall c x, bt (RSeq paren_part exp_tail) (p ++ e) (g ++ c) last = Some x ->
    bt (RSeq (number_re U 2) (RSeq paren_part exp_tail)) (s ++ p ++ e) c last = Some x.
Proof.
  intros neg s a k p u e n Hs Hp He. destruct (in_paren_hd _ _ _ _ Hp He) as (H1 & H2).
  assert (W : forall w l, nonfinite w l -> forall c, bt (RSeq paren_part exp_tail) (w ++ p ++ e) c last = None).
  { intros w l Hw c. rewrite bt_seq. unfold paren_part. rewrite bt_opt. cbn [rseq]. rewrite bt_seq, bt_set.
    destruct Hw; cbn [lit app]; (match goal with |- context [ch 40 ?z] => change (ch 40 z) with false end); cbv iota;
      apply exp_tail_none; try reflexivity; try discriminate; apply (ascii_spc U L); simpl; lia. }
  destruct Hs as [a m k [i Hi Ni|i f Hi Hf Nif]|w Hw|w Hw].
  - eexists. split; [apply mg_int; assumption|]. intros c x E. rewrite bt_seq.
    apply bt_number_int; try assumption.
  - eexists. split; [apply mg_point; assumption|]. intros c x E. rewrite bt_seq.
    apply bt_number_point; try assumption.
  - eexists. split; [apply mg_nan; assumption|]. intros c x E. rewrite bt_seq.
    apply (bt_number_word _ _ _ LNan); try assumption. intros; apply (W _ _ Hw).
  - eexists. split; [apply mg_inf; assumption|]. intros c x E. rewrite bt_seq.
    apply (bt_number_word _ _ _ (LInf false)); try assumption. intros; apply (W _ _ Hw).
Qed.
Lemma main_nosign : forall neg s a k, unsigned U neg s a k -> exists y t, s = y :: t /\ oneof "+-" y = false /\ y <> 40.
Proof.
  intros neg s a k [a0 m k0 H|w Hw|w Hw].
  - destruct (decimal_chars U _ _ _ H) as (C & N). destruct a0 as [|y t]; [congruence|].
    exists y, t. split; [reflexivity|]. assert (D : dec_char U y) by (inversion C; assumption). split.
    + apply (dec_char_class U L _ "+-" D). reflexivity.
    + intros ->. destruct D as [D|D]; [|lia]. apply D, (ascii_none U L); lia.
  - inversion Hw; subst; eexists _, _; (split; [reflexivity|split; [reflexivity|discriminate]]).
  - inversion Hw; subst; eexists _, _; (split; [reflexivity|split; [reflexivity|discriminate]]).
Qed.
Lemma paren_re_match : forall sg neg s a k p u e n, sign_of sg neg -> unsigned U neg s a k -> in_paren U p u ->
  tail_ok e n -> exists mg ug b,
  m_groups neg a k s mg /\ u_groups u ug /\
  match b, n with
  | Some b, Some n => b <> [] /\ nrmlze_superscript U b = Ok n
  | Some b, None => b = []
  | None, None => True
  | None, Some _ => False
  end /\
  re_match (paren_re U) (sg ++ s ++ p ++ e) =
    Some (match b with Some b => [(8%nat, b)] | None => [] end ++ ug ++ mg ++ match sg with [] => [] | _ => [(1%nat, sg)] end).
Proof.
  intros sg neg s a k p u e n Hg Hs Hp He.
  pose proof He as (b & B1 & B2 & _).
  destruct (paren_match _ _ _ _ Hp He) as (ug & U1 & U2).
  destruct (main_match _ _ _ _ _ _ _ _ Hs Hp He) as (mg & M1 & M2).
  destruct (main_nosign _ _ _ _ Hs) as (y & t & Ey & Ny & _).
  exists mg, ug, b. split; [exact M1|]. split; [exact U1|]. split; [exact B2|].
  assert (R : forall c, bt (RSeq (number_re U 2) (RSeq paren_part exp_tail)) (s ++ p ++ e) c last =
    Some (match b with Some b => [(8%nat, b)] | None => [] end ++ ug ++ mg ++ c)).
  { intros c. apply M2, U2. rewrite B1. destruct b; reflexivity. }
  rewrite re_match_bt. change (paren_re U) with
    (RSeq (ROpt (RGroup 1 (RSet (oneof "+-")))) (RSeq (number_re U 2) (RSeq paren_part exp_tail))).
  rewrite bt_seq, bt_opt, bt_group, bt_set.
  destruct Hg.
  - rewrite Ey at 1. cbn [app]. rewrite Ny. cbn [app]. apply R.
  - change (lit "+" ++ s ++ p ++ e) with (43 :: s ++ p ++ e). change (oneof "+-" 43) with true. cbv iota.
    change (consumed (43 :: s ++ p ++ e) (s ++ p ++ e)) with (consumed ([43] ++ s ++ p ++ e) (s ++ p ++ e)).
    rewrite consumed_app, R. reflexivity.
  - change (lit "-" ++ s ++ p ++ e) with (45 :: s ++ p ++ e). change (oneof "+-" 45) with true. cbv iota.
    change (consumed (45 :: s ++ p ++ e) (s ++ p ++ e)) with (consumed ([45] ++ s ++ p ++ e) (s ++ p ++ e)).
    rewrite consumed_app, R. reflexivity.
Qed.

(** ** Values *)
Context {K : FmtOps}.
Notation lexf := (lex_fl (K := K)).
Lemma nonfinite_word : forall w l, nonfinite w l ->
  match l with LNan => word_of "nan" w | LInf neg => neg = false /\ word_of "inf" w | LDec _ _ _ => False end.
Proof. intros w l []; try (split; [reflexivity|]); reflexivity. Qed.
Lemma main_value : forall sg neg s a k g, sign_of sg neg -> m_groups neg a k s g ->
  py_float (K := K) U (sg ++ s) = Ok (lexf a).
Proof.
  intros sg neg s a k g Hg Hm. apply (py_float_text U L).
  replace (sg ++ s) with ([] ++ (sg ++ s) ++ []) by (rewrite app_nil_r; reflexivity).
  assert (N : blanks U []) by constructor.
  destruct Hm as [i Hi Ni|i f Hi Hf Nif|w Hw|w Hw].
  - replace (sg ++ i) with (sg ++ i ++ []) by (rewrite app_nil_r; reflexivity).
    apply (ft_dec U [] sg neg i _ 0 [] 0 []); try assumption; constructor; assumption.
  - replace (sg ++ i ++ 46 :: f) with (sg ++ (i ++ 46 :: f) ++ []) by (rewrite app_nil_r; reflexivity).
    apply (ft_dec U [] sg neg _ _ (length f) [] 0 []); try assumption; constructor; assumption.
  - apply (ft_nan U [] sg neg w []); try assumption. apply (nonfinite_word _ _ Hw).
  - apply (ft_inf U [] sg neg w []); try assumption. left. apply (nonfinite_word _ _ Hw).
Qed.
Lemma len_point : forall f, len (46 :: f) - 1 = Z.of_nat (length f).
Proof. intros. unfold len. cbn [length]. lia. Qed.
Lemma not_words : forall ds, digits U ds -> ds <> [] ->
  existsb (str_eqb ds) [lit "nan"; lit "NAN"; lit "inf"; lit "INF"] = false.
Proof.
  intros ds Hd Nd. destruct Hd as [|c t Hc _]; [congruence|]. cbn [existsb].
  assert (E : forall w a r, lit w = a :: r -> 58 <= a < 128 -> str_eqb (c :: t) (lit w) = false).
  { intros w a r Ew R. destruct (str_eqb _ _) eqn:E; [|reflexivity]. apply str_eqb_eq in E. rewrite Ew in E.
    exfalso. apply Hc. replace c with a by congruence. apply (ascii_none U L); lia. }
  rewrite (E "nan"%string 110 (lit "an")), (E "NAN"%string 78 (lit "AN")), (E "inf"%string 105 (lit "nf")), (E "INF"%string 73 (lit "NF"))
    by (try reflexivity; lia). reflexivity.
Qed.
Lemma point_value : forall i f, digits U i -> digits U f -> i ++ f <> [] ->
  py_float (K := K) U (i ++ 46 :: f) = Ok (lexf (LDec false (uval U (i ++ f)) (- len f))).
Proof.
  intros i f Hi Hf N. eapply (main_value [] false _ _ (length f)); [apply sg_none|]. apply mg_point; assumption.
Qed.
Lemma word_value : forall w l, nonfinite w l -> py_float (K := K) U w = Ok (lexf l).
Proof.
  intros w l Hw. assert (N : blanks U []) by constructor.
  apply (py_float_text U L). replace w with ([] ++ ([] ++ w) ++ []) by (simpl; apply app_nil_r).
  pose proof (nonfinite_word _ _ Hw) as H. destruct l as [| neg |]; [tauto| |].
  - destruct H as (-> & H). apply (ft_inf U [] [] false w []); try assumption; try constructor. exact H.
  - apply (ft_nan U [] [] false w []); try assumption; constructor.
Qed.
Lemma units_value : forall ds, digits U ds -> ds <> [] -> py_int U ds = Ok (uval U ds).
Proof.
  intros ds Hd Nd. replace ds with ([] ++ ds ++ []) at 1 by (rewrite app_nil_r; reflexivity).
  apply (py_int_text U L); try constructor. exists [], false, ds. repeat split; try constructor; assumption.
Qed.
Theorem paren_tail_value : forall sg neg s a k p u e n, sign_of sg neg -> unsigned U neg s a k -> in_paren U p u ->
  tail_ok e n ->
  parse_error_in_parentheses (K := K) U (sg ++ s ++ p ++ e) = meaning_fl (MParen a k u n).
Proof.
  intros sg neg s a k p u e n Hg Hs Hp He.
  destruct (paren_re_match _ _ _ _ _ _ _ _ _ Hg Hs Hp He) as (mg & ug & b & M & G & B & E).
  unfold parse_error_in_parentheses. rewrite E. clear E.
  match goal with |- context [group ?g 8] => set (c := g) end.
  assert (C1 : grp c 1 ++ grp c 2 = sg ++ s).
  { subst c. destruct b, M, G, Hg; reflexivity. }
  assert (C8 : group c 8 = b) by (subst c; destruct b, M, G, Hg; reflexivity).
  assert (C4 : match group c 4 with Some d => len d - 1 | None => 0 end = Z.of_nat k).
  { subst c. destruct b, M, G, Hg; try reflexivity; apply len_point. }
  rewrite C1, C8, C4, (main_value _ _ _ _ _ _ Hg M). clear C1 C8 C4.
  assert (Cu : (u <- (if match group c 7 with Some _ => true | None => false end
                   || match group c 5 with Some u => existsb (str_eqb u) [lit "nan"; lit "NAN"; lit "inf"; lit "INF"] | None => false end
                then py_float (K := K) U (grp c 5)
                else i <- py_int U (match group c 5 with Some _ => grp c 6 | None => lit "1" end) ;;
                     (x <- x_of_Z K i ;; x_div10 K x (Z.of_nat k))) ;; Ok u) =
          (u <- match u with
             | UNumber l => Ok (lexf l)
             | UUnits d => x <- x_of_Z K d ;; x_div10 K x (Z.of_nat k)
             | ULast => x <- x_of_Z K 1 ;; x_div10 K x (Z.of_nat k)
             end ;; Ok u)).
  { assert (Ex : exists r, c = match b with Some b => [(8%nat, b)] | None => [] end ++ ug ++ r /\
                          group r 5 = None /\ group r 6 = None /\ group r 7 = None).
    { subst c. eexists. split; [reflexivity|]. destruct M, Hg; repeat split; reflexivity. }
    destruct Ex as (r & Er & R5 & R6 & R7). clearbody c.
    destruct G as [ds Hd Nd|i f Hi Hf Nif|w l Hw|].
    - assert (H5 : group c 5 = Some ds) by (rewrite Er; destruct b; reflexivity).
      assert (H7 : group c 7 = None) by (rewrite Er; destruct b; exact R7).
      assert (H6 : grp c 6 = ds) by (rewrite Er; destruct b; reflexivity).
      rewrite H5, H7, H6, not_words by assumption. cbn [orb]. rewrite units_value by assumption. reflexivity.
    - assert (H7 : group c 7 = Some (46 :: f)) by (rewrite Er; destruct b; reflexivity).
      assert (H5 : grp c 5 = i ++ 46 :: f) by (rewrite Er; destruct b; reflexivity).
      rewrite H7, H5. cbn [orb]. rewrite point_value by assumption. reflexivity.
    - assert (H5 : group c 5 = Some w) by (rewrite Er; destruct b; reflexivity).
      assert (H5' : grp c 5 = w) by (rewrite Er; destruct b; reflexivity).
      rewrite H5, H5'.
      assert (existsb (str_eqb w) [lit "nan"; lit "NAN"; lit "inf"; lit "INF"] = true) as -> by (destruct Hw; reflexivity).
      rewrite orb_true_r, (word_value _ _ Hw). reflexivity.
    - assert (H5 : group c 5 = None) by (rewrite Er; destruct b; exact R5).
      assert (H7 : group c 7 = None) by (rewrite Er; destruct b; exact R7).
      rewrite H5, H7. cbn [orb].
      assert (py_int U (lit "1") = Ok 1) as ->; [|reflexivity].
      rewrite (units_value (lit "1")); [|constructor; [rewrite (ul_digit U L) by (simpl; lia); discriminate|constructor]|discriminate].
      simpl. rewrite (ul_digit U L) by (simpl; lia). reflexivity. }
  clear G M. clearbody c.
  assert (Rb : forall A (m : res A), (x <- m ;; Ok x) = m) by (intros A [|]; reflexivity).
  rewrite !Rb in Cu.
  unfold meaning_fl. destruct b as [b|], n as [n|]; try tauto.
  - destruct B as (Nb & En). destruct b as [|y b]; [congruence|]. rewrite En. cbn [rbind power].
    unfold ten_to. destruct (x_mul10 K (x_nan K) n) as [z|z]; [|reflexivity]. cbn [rbind times].
    destruct (x_mul10 K (lexf a) n); [|reflexivity]. cbn [rbind].
    etransitivity; [apply f_equal2; [exact Cu|reflexivity]|]. reflexivity.
  - subst b. cbn [rbind power times].
    etransitivity; [apply f_equal2; [exact Cu|reflexivity]|]. reflexivity.
  - cbn [rbind power times].
    etransitivity; [apply f_equal2; [exact Cu|reflexivity]|]. reflexivity.
Qed.
Theorem paren_value : forall sg neg s a k p u e n, sign_of sg neg -> unsigned U neg s a k -> in_paren U p u ->
  opt_exp U e n ->
  parse_error_in_parentheses (K := K) U (sg ++ s ++ p ++ e) = meaning_fl (MParen a k u n).
Proof. intros. eapply paren_tail_value; try eassumption. apply opt_exp_tail; assumption. Qed.

(** ** Whole representations *)
Lemma removelast_snoc : forall (s : str) c, removelast (s ++ [c]) = s.
Proof. intros. apply removelast_last. Qed.
Lemma unparen_parens : forall s, unparen (lit "(" ++ s ++ lit ")") = s.
Proof.
  intros s. change (lit "(" ++ s ++ lit ")") with (40 :: s ++ [41]). unfold unparen, last_is.
  change (40 :: s ++ [41]) with ((40 :: s) ++ [41]) at 1. rewrite rev_app_distr. cbn [rev app].
  cbn [Z.eqb Pos.eqb andb]. apply removelast_snoc.
Qed.
Lemma unparen_none : forall s, hd_not (ch 40) s \/ hd_not (ch 41) (rev s) -> unparen s = s.
Proof.
  intros s H. destruct s as [|c t]; [reflexivity|]. unfold unparen.
  destruct (Z.eqb_spec c 40) as [->|]; [|reflexivity]. destruct H as [H|H]; [discriminate H|].
  unfold last_is. destruct (rev (40 :: t)) as [|y r]; [reflexivity|].
  destruct (Z.eqb_spec y 41) as [->|]; [discriminate H|reflexivity].
Qed.
Lemma number_ne : forall s l x, number U s l x -> s <> [].
Proof.
  intros s l x0 [s0 l0 H|sp sg neg a m k x x' t n sp' F1 F2 F3 F4 Hs Ha Ht At].
  - destruct H as [sp sg neg a m k x n sp' F F' Hs Ha Hx|sp sg neg w sp' F F' Hs Hw|sp sg neg w sp' F F' Hs Hw].
    + destruct (decimal_chars U _ _ _ Ha) as (_ & N). destruct sp, sg, a; simpl; congruence.
    + destruct w; [discriminate|]. destruct sp, sg; discriminate.
    + destruct w; [destruct Hw; discriminate|]. destruct sp, sg; discriminate.
  - destruct sp, sg, a, x; discriminate.
Qed.
Lemma quiet_hd : forall c s t, Forall quiet s -> s <> [] -> In c [10; 40; 41; 47; 177] -> hd_not (ch c) (s ++ t).
Proof.
  intros c s t F N H. destruct F as [|y s Hy F]; [congruence|]. simpl. unfold ch.
  destruct (Z.eqb_spec c y); [|reflexivity]. subst. exfalso. apply Hy, H.
Qed.
(** After the removal of the outer parentheses. *)
Definition unwrapped (s : str) : res (fl K * fl K) :=
  r <- match re_match (global_exp_re U) s with
       | Some c =>
           n <- nrmlze_superscript U (grp c 2) ;; (_ <- ten_to (K := K) n ;; Ok (Some n, grp c 1))
       | None => Ok (None, s)
       end ;;
  (let (factor, s) := (r : option Z * str) in
   let times x := match factor with Some n => x_mul10 K x n | None => Ok x end in
   match re_match pm_re s with
   | Some c =>
       n <- to_float (K := K) U (grp c 1) ;;
       (n <- times n ;;
        (u <- to_float (K := K) U (grp c 2) ;;
         (u <- times u ;; Ok (n, u))))
   | None => parse_error_in_parentheses (K := K) U s
   end).
Lemma unwrapped_eq : forall s, str_to_number_with_uncert (K := K) U s = unwrapped (unparen s).
Proof. reflexivity. Qed.
Lemma in_paren_calm : forall p u, in_paren U p u -> Forall (fun c => c <> 177 /\ c <> 47) p.
Proof.
  assert (Hd : forall s, digits U s -> Forall (fun c => c <> 177 /\ c <> 47) s).
  { intros s F. eapply Forall_impl; [|exact F]. intros c H.
    split; intros ->; apply (quiet_digit U L) in H; apply H; simpl; tauto. }
  assert (Hl : forall s, Forall quiet s -> Forall (fun c => c <> 177 /\ c <> 47) s).
  { intros s F. eapply Forall_impl; [|exact F]. intros c H. split; intros ->; apply H; simpl; tauto. }
  assert (Hc : forall c s, c <> 177 -> c <> 47 -> Forall (fun c => c <> 177 /\ c <> 47) s -> Forall (fun c => c <> 177 /\ c <> 47) (c :: s)).
  { intros; constructor; [split; assumption|assumption]. }
  intros p u [ds Hd' _|i f Hi Hf _|w l Hw|]; [| | |constructor];
    (apply Hc; [discriminate|discriminate|]; apply Forall_app; split; [|apply Hc; [discriminate|discriminate|constructor]]).
  - apply Hd, Hd'.
  - apply Forall_app; split; [apply Hd, Hi|]. apply Hc; [discriminate|discriminate|]. apply Hd, Hf.
  - apply Hl. destruct Hw; simpl; repeat (constructor; [apply quiet_ascii; lia|]); constructor.
Qed.
Lemma unsigned_calm : forall neg s a k, unsigned U neg s a k -> Forall quiet s.
Proof.
  intros neg s a k [a0 m k0 H|w Hw|w Hw]; [apply (dec_quiet U L _ _ _ H)| |];
    inversion Hw; subst; simpl; repeat (constructor; [apply quiet_ascii; lia|]); constructor.
Qed.
Lemma quiet_cc : forall s, Forall quiet s -> Forall (fun c => c <> 177 /\ c <> 47) s.
Proof. intros s F. eapply Forall_impl; [|exact F]. intros c H. split; intros ->; apply H; simpl; tauto. Qed.
Lemma cc_calm : forall s, Forall (fun c => c <> 177 /\ c <> 47) s -> calm s.
Proof.
  intros s F. split; [eapply Forall_impl; [|exact F]; intros c H; apply H|].
  destruct F as [|c t _ F]; [constructor|]. simpl. eapply Forall_impl; [|exact F]; intros d H; apply H.
Qed.
Theorem simple_value : forall s m, simple_notation U s m -> unwrapped s = meaning_fl m.
Proof.
  intros s0 m [s a x pm t b y Hs Hp Ht|s a x pm t b y e n Hs Hp Ht He|sg neg s a k p u e n Hg Hs Hp He].
  - unfold unwrapped. rewrite (no_factor_match U).
    2:{ apply quiet_hd; [apply (number_quiet U L _ _ _ Hs)|apply (number_ne _ _ _ Hs)|simpl; tauto]. }
    cbn [rbind]. rewrite (pm_match s pm t) by (try assumption; eapply (number_quiet U L); eassumption).
    change (grp [(2%nat, t); (1%nat, s)] 1) with s. change (grp [(2%nat, t); (1%nat, s)] 2) with t.
    rewrite (to_float_text U L _ _ _ Hs), (to_float_text U L _ _ _ Ht). unfold meaning_fl. cbn [rbind power times].
    destruct (times x (lexf a)); [|reflexivity]. cbn [rbind]. destruct (times y (lexf b)); reflexivity.
  - unfold unwrapped.
    assert (Q : Forall quiet s /\ Forall quiet t) by (split; eapply (number_quiet U L); eassumption). destruct Q as (Qs & Qt).
    assert (Dv : Forall (fun c => dot c = true) (s ++ pm ++ t)).
    { split_app; try (apply quiet_all_dot; assumption). destruct Hp; subst; repeat constructor. }
    destruct (factor_match U L (s ++ pm ++ t) e n Dv He) as (v & E & En). rewrite E. clear E.
    change (grp [(2%nat, v); (1%nat, s ++ pm ++ t)] 1) with (s ++ pm ++ t).
    change (grp [(2%nat, v); (1%nat, s ++ pm ++ t)] 2) with v. rewrite En. unfold meaning_fl, power, ten_to. cbn [rbind].
    destruct (x_mul10 K (x_nan K) n); [|reflexivity]. cbn [rbind].
    rewrite (pm_match s pm t) by assumption.
    change (grp [(2%nat, t); (1%nat, s)] 1) with s. change (grp [(2%nat, t); (1%nat, s)] 2) with t.
    rewrite (to_float_text U L _ _ _ Hs), (to_float_text U L _ _ _ Ht). reflexivity.
  - unfold unwrapped.
    destruct (main_nosign _ _ _ _ Hs) as (y & r & Ey & _ & Ny).
    rewrite (no_factor_match U).
    2:{ destruct Hg; [|reflexivity|reflexivity]. rewrite Ey. cbn [app hd_not]. unfold ch. destruct (Z.eqb_spec 40 y); congruence. }
    cbn [rbind]. rewrite pm_none.
    2:{ apply cc_calm. split_app; [apply quiet_cc, (sign_quiet _ _ Hg)|apply quiet_cc, (unsigned_calm _ _ _ _ Hs)|
          apply (in_paren_calm _ _ Hp)|apply quiet_cc; apply (opt_exp_hd _ _ He)]. }
    apply paren_value with (neg := neg); assumption.
Qed.
Lemma notation_last : forall e n, exponent U e n -> forall s, hd_not (ch 41) (rev (s ++ e)).
Proof.
  intros e n He s. pose proof (exponent_quiet U L _ _ He) as Q.
  destruct (exp_intro_match U L _ _ He) as (i & b & _ & _ & _ & _ & _ & _ & _ & Ne & _).
  destruct (exists_last Ne) as (e' & y & ->). rewrite app_assoc, rev_app_distr. cbn [rev app hd_not].
  apply Forall_app in Q. destruct Q as (_ & Q). inversion Q; subst. unfold ch.
  destruct (Z.eqb_spec 41 y); [|reflexivity]. subst. exfalso. apply H1. simpl. tauto.
Qed.
Theorem notation_value : forall s m, notation U s m -> str_to_number_with_uncert (K := K) U s = meaning_fl m.
Proof.
  intros s0 m0 [s m H|s m H]; rewrite unwrapped_eq.
  - rewrite unparen_none; [apply simple_value, H|].
    destruct H as [s a x pm t b y Hs Hp Ht|s a x pm t b y e n Hs Hp Ht He|sg neg s a k p u e n Hg Hs Hp He].
    + left. apply quiet_hd; [apply (number_quiet U L _ _ _ Hs)|apply (number_ne _ _ _ Hs)|simpl; tauto].
    + right. replace (lit "(" ++ (s ++ pm ++ t) ++ lit ")" ++ e) with ((lit "(" ++ (s ++ pm ++ t) ++ lit ")") ++ e)
        by (rewrite <- !app_assoc; reflexivity). apply (notation_last _ _ He).
    + left. destruct (main_nosign _ _ _ _ Hs) as (y & r & Ey & _ & Ny).
      destruct Hg; [|reflexivity|reflexivity]. rewrite Ey. cbn [app hd_not]. unfold ch. destruct (Z.eqb_spec 40 y); congruence.
  - rewrite unparen_parens. apply simple_value, H.
Qed.
End Notation.
