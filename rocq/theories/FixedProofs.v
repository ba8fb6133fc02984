(** Fixed-point formats of Python: digits, commas, zero padding. *)
From Coq Require Import String.
From Coq Require Import ZArith List Bool Lia.
From Verif Require Import Base Str FmtOps Format FmtSpec StrProofs SpecProofs.
Import ListNotations.
Local Open Scope Z_scope.

Lemma dval_chars : forall ds, dval (chars ds) = val ds.
Proof.
  induction ds as [|d ds IH]; [reflexivity|]. change (chars (d :: ds)) with ((48 + d) :: chars ds).
  cbn [dval]. rewrite val_cons, IH. unfold len. rewrite chars_length. lia.
Qed.
Lemma chars_ascii : forall ds, Forall digit ds -> ascii_digits (chars ds).
Proof.
  intros ds F. unfold ascii_digits, chars. apply Forall_map. eapply Forall_impl; [|exact F].
  unfold digit. intros; lia.
Qed.
Lemma no_commas_ascii : forall s, ascii_digits s -> no_commas s = s.
Proof.
  induction s as [|c s IH]; intros F; [reflexivity|]. inversion F; subst. unfold no_commas in *. cbn [filter].
  destruct (Z.eqb_spec c 44); [lia|]. simpl. f_equal. apply IH. assumption.
Qed.
Lemma no_commas_app : forall a b, no_commas (a ++ b) = no_commas a ++ no_commas b.
Proof. intros. apply filter_app. Qed.
Lemma dval_app : forall a b, dval (a ++ b) = dval a * 10 ^ len b + dval b.
Proof.
  induction a as [|c a IH]; intros b; [simpl; lia|]. cbn [app dval]. rewrite IH. unfold len.
  rewrite app_length, Nat2Z.inj_add, Z.pow_add_r by lia. ring.
Qed.
Lemma dval_zeros : forall n s, dval (zeros n ++ s) = dval s.
Proof. induction n; intros; [reflexivity|]. cbn [zeros repeat app dval]. unfold zeros in IHn. rewrite IHn. lia. Qed.

Lemma no_padding_cons : forall d c r, c <> 48 -> no_padding d (c :: r).
Proof.
  intros d c r H. unfold no_padding.
  repeat (match goal with |- match ?p with _ => _ end => is_var p; destruct p; try exact I end);
    exfalso; apply H; reflexivity.
Qed.
Lemma no_padding_0 : forall d r, no_padding d (48 :: r) <-> match d with O => r = [] | _ => exists f, r = 46 :: f end.
Proof. intros. reflexivity. Qed.

(** The integer part and the decimals of fixed_str. *)
Lemma fixed_parts : forall n p, 0 <= n -> exists i f,
  fixed_str n p = chars i ++ match p with O => [] | _ => 46 :: chars f end /\
  length f = p /\ Forall digit i /\ Forall digit f /\ i <> [] /\ val (i ++ f) = n /\
  (exists d r, i = d :: r /\ (d = 0 -> r = [])).
Proof.
  intros n p Hn. unfold fixed_str.
  set (ds := repeat 0 (S p - length (digs n)) ++ digs n).
  assert (Lds : (length ds = Nat.max (S p) (length (digs n)))%nat).
  { unfold ds. rewrite app_length, repeat_length. lia. }
  exists (firstn (length ds - p) ds), (skipn (length ds - p) ds).
  assert (Fds : Forall digit ds).
  { apply Forall_app; split; [|apply digs_digit; lia]. apply Forall_forall. intros x Hx.
    apply repeat_spec in Hx. subst. unfold digit; lia. }
  assert (Sp := firstn_skipn (length ds - p) ds).
  assert (NE : firstn (length ds - p) ds <> []).
  { intros X. apply (f_equal (@length Z)) in X. rewrite firstn_length in X. simpl in X. lia. }
  split; [reflexivity|]. split; [rewrite skipn_length; lia|].
  rewrite <- Sp in Fds. apply Forall_app in Fds. destruct Fds as (F1 & F2).
  split; [exact F1|]. split; [exact F2|]. split; [exact NE|].
  split. { rewrite Sp. unfold ds. rewrite val_zeros. apply val_digs. lia. }
  destruct (le_lt_dec (S p) (length (digs n))) as [G|G].
  - assert (E : ds = digs n) by (unfold ds; replace (S p - length (digs n))%nat with O by lia; reflexivity).
    rewrite E in *. destruct (Z.eq_dec n 0) as [->|N].
    + rewrite digs_0 in *. simpl in G. assert (p = O) by lia. subst. exists 0, []. auto.
    + destruct (digs_head n ltac:(lia)) as (d & r & Ed & Hd). rewrite Ed in *. simpl in G.
      exists d, (firstn (length r - p) r). split.
      * cbn [length]. replace (S (length r) - p)%nat with (S (length r - p)) by lia. reflexivity.
      * intros ->. lia.
  - rewrite Lds, Nat.max_l by lia. replace (S p - p)%nat with 1%nat by lia.
    destruct ds as [|d r]; [exfalso; cbn [length] in Lds; lia|]. exists d, []. split; [reflexivity|auto].
Qed.

(** ** Commas *)
Definition gr (comma : bool) (s : str) : str := if comma then group3 s else s.
Lemma group3_cons : forall c s, group3 (c :: s) =
  c :: (if negb (isnil s) && (len s mod 3 =? 0) then 44 :: group3 s else group3 s).
Proof. reflexivity. Qed.
Lemma group3_spec : forall s, ascii_digits s -> s <> [] ->
  exists h gs, group3 s = h ++ flat_map (fun g => 44 :: g) gs /\ (1 <= length h <= 3)%nat /\ ascii_digits h /\
    Forall (fun g => length g = 3%nat /\ ascii_digits g) gs /\ (len s - Z.of_nat (length h)) mod 3 = 0.
Proof.
  induction s as [|c s IH]; intros F N; [congruence|]. inversion F as [|? ? Fc Fs]; subst.
  rewrite group3_cons. destruct s as [|c' s].
  - exists [c], []. split; [reflexivity|]. split; [simpl; lia|]. split; [exact F|]. split; [constructor|reflexivity].
  - destruct (IH Fs ltac:(discriminate)) as (h & gs & E & Lh & Fh & Fg & M).
    set (s0 := c' :: s) in *. assert (Ls : len (c :: s0) = len s0 + 1) by (unfold len; cbn [length]; lia).
    replace (isnil s0) with false by reflexivity. cbn [negb andb].
    destruct (Z.eqb_spec (len s0 mod 3) 0) as [Z0|Z0].
    + assert (length h = 3%nat).
      { assert (Z.of_nat (length h) mod 3 = 0).
        { replace (Z.of_nat (length h)) with (len s0 - (len s0 - Z.of_nat (length h))) by lia.
          rewrite Zminus_mod, Z0, M. reflexivity. }
        destruct (length h) as [|[|[|[|]]]]; simpl in *; try lia; discriminate. }
      exists [c], (h :: gs). rewrite E. split; [reflexivity|]. split; [simpl; lia|].
      split; [constructor; [exact Fc|constructor]|]. split; [constructor; auto|].
      rewrite Ls. simpl length. replace (len s0 + 1 - Z.of_nat 1) with (len s0) by lia. exact Z0.
    + assert (length h <> 3%nat).
      { intros X. rewrite X in M. apply Z0. replace (len s0) with ((len s0 - 3) + 1 * 3) by lia.
        rewrite Z.mod_add by lia. exact M. }
      exists (c :: h), gs. rewrite E. split; [reflexivity|]. split; [simpl; lia|].
      split; [constructor; [exact Fc|exact Fh]|]. split; [exact Fg|].
      rewrite Ls. cbn [length]. rewrite Nat2Z.inj_succ.
      replace (len s0 + 1 - Z.succ (Z.of_nat (length h))) with (len s0 - Z.of_nat (length h)) by lia. exact M.
Qed.
Lemma no_commas_group3 : forall s, ascii_digits s -> no_commas (group3 s) = s.
Proof.
  induction s as [|c s IH]; intros F; [reflexivity|]. inversion F as [|? ? Fc Fs]; subst.
  rewrite group3_cons. assert (E : no_commas (c :: (if negb (isnil s) && (len s mod 3 =? 0) then 44 :: group3 s else group3 s)) =
     c :: no_commas (group3 s)).
  { unfold no_commas at 1. cbn [filter]. destruct (Z.eqb_spec c 44); [lia|]. cbn [negb].
    f_equal. destruct (_ && _); reflexivity. }
  rewrite E, IH by assumption. reflexivity.
Qed.
Lemma group3_len : forall c s, len (group3 (c :: s)) <= len (group3 s) + 2 /\ len (group3 s) < len (group3 (c :: s)).
Proof. intros. rewrite group3_cons. unfold len. destruct (_ && _); cbn [length]; lia. Qed.
Lemma gr_len : forall comma c s, len (gr comma (c :: s)) <= len (gr comma s) + 1 + (if comma then 1 else 0) /\
  len (gr comma s) < len (gr comma (c :: s)).
Proof.
  intros [] c s; unfold gr; [|unfold len; cbn [length]; lia].
  assert (H := group3_len c s). lia.
Qed.

(** ** Zero padding *)
Lemma zeros_snoc : forall k s, zeros k ++ 48 :: s = zeros (S k) ++ s.
Proof. induction k; intros; [reflexivity|]. cbn [zeros repeat app]. f_equal. apply IHk. Qed.
Lemma zero_fill_spec : forall f comma w s, (Z.to_nat (w - len (gr comma s)) <= f)%nat ->
  exists k, zero_fill f comma w s = gr comma (zeros k ++ s) /\ w <= len (zero_fill f comma w s) /\
    (k <> O -> len (zero_fill f comma w s) <= w + (if comma then 1 else 0)).
Proof.
  induction f as [|f IH]; intros comma w s Hf.
  - exists O. cbn [zero_fill]. change (if comma then group3 s else s) with (gr comma s).
    split; [reflexivity|]. split; [lia|congruence].
  - cbn [zero_fill]. change (if comma then group3 s else s) with (gr comma s).
    destruct (Z.ltb_spec (len (gr comma s)) w) as [Hlt|Hge].
    + destruct (gr_len comma 48 s) as (G1 & G2).
      destruct (IH comma w (48 :: s)) as (k & E & W & B); [lia|].
      exists (S k). rewrite <- zeros_snoc. split; [exact E|]. split; [exact W|]. intros _.
      destruct (Nat.eq_dec k 0) as [->|N]; [|exact (B N)].
      rewrite E. cbn [zeros repeat app]. lia.
    + exists O. split; [reflexivity|]. split; [lia|congruence].
Qed.

(** ** Formats with type f or F *)
Definition dotted (p : nat) (f : str) : str := match p with O => [] | _ => 46 :: f end.
Lemma span_run : forall A (p : A -> bool) u s, Forall (fun x => p x = true) u ->
  match s with x :: _ => p x = false | [] => True end -> span p (u ++ s) = (u, s).
Proof.
  induction u as [|x u IH]; intros s F H; simpl.
  - destruct s; simpl; [reflexivity|]. rewrite H. reflexivity.
  - inversion F; subst. rewrite H2, IH by assumption. reflexivity.
Qed.
Lemma numeral_gr : forall comma i f p, ascii_digits i -> i <> [] -> ascii_digits f -> length f = p ->
  numeral comma (dval (i ++ f)) p (gr comma i ++ dotted p f).
Proof.
  intros comma i f p Fi Ni Ff Lf. exists (gr comma i), f. split; [reflexivity|]. split; [exact Lf|].
  split; [exact Ff|]. destruct comma; cbn [gr].
  - split. { destruct i as [|c i]; [congruence|]. rewrite group3_cons. discriminate. }
    split. { destruct (group3_spec i Fi Ni) as (h & gs & E & A & B & C & _). exists h, gs. auto. }
    rewrite no_commas_group3 by assumption. reflexivity.
  - split; [exact Ni|]. split; [exact Fi|]. rewrite no_commas_ascii by assumption. reflexivity.
Qed.
Lemma no_padding_gr : forall comma i f p d r, i = d :: r -> (d = 48 -> r = []) ->
  no_padding p (gr comma i ++ dotted p f).
Proof.
  intros comma i f p d r -> H.
  assert (X : exists t, gr comma (d :: r) = d :: t /\ (d = 48 -> t = [])).
  { destruct comma; cbn [gr].
    - rewrite group3_cons. eexists. split; [reflexivity|]. intros E. rewrite (H E). reflexivity.
    - eexists. split; [reflexivity|exact H]. }
  destruct X as (t & -> & Ht). cbn [app].
  destruct (Z.eq_dec d 48) as [->|N]; [|apply no_padding_cons; exact N].
  rewrite (Ht eq_refl). apply no_padding_0. destruct p; [reflexivity|]. exists f. reflexivity.
Qed.

Section Fixed.
Context {K : FmtOps} (U : Unicode).
Hypothesis L : UniLaws U.

Lemma sign_str_text : forall sg z w c pr ty neg, at_most_one "-+ " sg ->
  sign_str (mkFspec sg z w c pr ty) neg = sign_text sg neg.
Proof.
  intros sg z w c pr ty neg H. unfold sign_str, sign_text. cbn [fs_sign]. destruct neg; [reflexivity|].
  destruct H as [->|(x & I & ->)]; [reflexivity|]. cbn in I. destruct I as [<-|[<-|[<-|[]]]]; reflexivity.
Qed.

Lemma body_shown : forall (x : fl K) sg z w c pr ty n p,
  x_isnan K x = false -> body (mkFspec sg z w c pr ty) x = fixed_str n p -> 0 <= n ->
  at_most_one "-+ " sg -> (z = false -> w = 0) ->
  shown sg z c w (x_sign K x) n p (format_float (mkFspec sg z w c pr ty) x).
Proof.
  intros x sg z w c pr ty n p Hn B Hf Hsg Hw. unfold format_float.
  rewrite Hn, andb_true_r, (sign_str_text sg) by assumption. set (st := sign_text sg (x_sign K x)).
  rewrite B. clear B. destruct (fixed_parts n p Hf) as (i & f & E & Lf & Fi & Ff & Ni & V & d & r & Ei & Hd).
  rewrite E. change (match p with O => [] | _ => 46 :: chars f end) with (dotted p (chars f)).
  rewrite span_run.
  2: { eapply Forall_impl; [|exact (chars_ascii i Fi)]. intros a Ha. cbn beta in Ha. lia. }
  2: { destruct p; [exact I|reflexivity]. }
  cbn [fs_width fs_zero fs_comma].
  assert (Ai := chars_ascii i Fi). assert (Af := chars_ascii f Ff).
  assert (Lf' : length (chars f) = p) by (rewrite chars_length; exact Lf).
  assert (Nci : chars i <> []) by (rewrite Ei; discriminate).
  assert (Val : forall k, dval ((zeros k ++ chars i) ++ chars f) = n).
  { intros k. rewrite <- app_assoc, dval_zeros, <- chars_app, dval_chars. exact V. }
  assert (NP : forall cm, no_padding p (gr cm (chars i) ++ dotted p (chars f))).
  { intros cm. rewrite Ei. apply (no_padding_gr cm _ (chars f) p (48 + d) (chars r)); [reflexivity|].
    intros X. rewrite Hd by lia. reflexivity. }
  destruct z.
  - destruct (chars i) as [|a t] eqn:Ec; [congruence|]. rewrite <- Ec in *. clear Ec.
    set (w' := w - len st - len (dotted p (chars f))).
    destruct (zero_fill_spec (Z.to_nat w') c w' (chars i)) as (k & Ek & Wk & Bk).
    { assert (0 <= len (gr c (chars i))) by (unfold len; lia). lia. }
    eexists. split; [reflexivity|]. rewrite Ek in *.
    split. { rewrite <- (Val k). apply numeral_gr; try assumption.
             - apply Forall_app; split; [|exact Ai]. apply Forall_forall. intros y Hy. apply repeat_spec in Hy. lia.
             - destruct k; cbn; [exact Nci|discriminate]. }
    split; [discriminate|]. intros _.
    assert (Ll : len (st ++ gr c (zeros k ++ chars i) ++ dotted p (chars f)) =
                 len st + len (gr c (zeros k ++ chars i)) + len (dotted p (chars f))).
    { unfold len. rewrite !app_length. lia. }
    rewrite Ll. split; [unfold w' in Wk; lia|]. intros Hl.
    destruct (Nat.eq_dec k 0) as [->|Nk]; [apply NP|]. specialize (Bk Nk). unfold w' in Bk. lia.
  - rewrite (Hw eq_refl).
    replace (Z.to_nat (0 - len (st ++ (if c then group3 (chars i) else chars i) ++ dotted p (chars f)))) with O
      by (unfold len; lia).
    cbn [repeat app]. change (if c then group3 (chars i) else chars i) with (gr c (chars i)).
    eexists. split; [reflexivity|]. split.
    { rewrite <- (Val O). apply numeral_gr; assumption. }
    split; [intros _; apply NP|discriminate].
Qed.

Lemma fixed_shown : forall (x : fl K) sg z w c pr main,
  x_isnan K x = false -> x_isinf K x = false -> 0 <= x_fix K x pr -> (main = 102 \/ main = 70) ->
  at_most_one "-+ " sg -> (z = false -> w = 0) ->
  shown sg z c w (x_sign K x) (x_fix K x pr) (Z.to_nat pr)
    (format_float (mkFspec sg z w c (Some pr) [main]) x).
Proof.
  intros x sg z w c pr main Hn Hi Hf Hm Hsg Hw. apply body_shown; try assumption.
  unfold body. rewrite Hn, Hi. cbn [fs_type fs_prec]. destruct Hm as [-> | ->]; reflexivity.
Qed.

(** ** The specifications that the package gives to Python *)
Lemma digit_vals_chars : forall ds, Forall digit ds -> digit_vals U (chars ds) = ds.
Proof.
  induction ds as [|d ds IH]; intros F; [reflexivity|]. inversion F as [|? ? Fd Fs]; subst.
  unfold digit_vals, chars in *. cbn [map flat_map]. unfold digit in Fd.
  rewrite (ul_digit U L) by lia. cbn [app]. f_equal; [lia|apply IH; exact Fs].
Qed.
Lemma show_Z_nonneg : forall n, 0 <= n -> show_Z n = chars (digs n).
Proof. intros n H. unfold show_Z. destruct (Z.ltb_spec n 0); [lia|reflexivity]. Qed.
Lemma show_Z_val : forall n, 0 <= n -> val (digit_vals U (show_Z n)) = n.
Proof.
  intros n H. rewrite show_Z_nonneg, digit_vals_chars by (try lia; apply digs_digit; lia). apply val_digs. lia.
Qed.
Lemma show_Z_digits : forall n, 0 <= n -> Forall (fun c => is_digit U c = true) (show_Z n).
Proof.
  intros n H. rewrite show_Z_nonneg by lia. eapply Forall_impl; [|apply chars_ascii, digs_digit; exact H].
  intros a Ha. apply (ascii_dig U L). cbn beta in Ha. lia.
Qed.
Lemma digit_vals_app : forall a b, digit_vals U (a ++ b) = digit_vals U a ++ digit_vals U b.
Proof. intros. unfold digit_vals. apply flat_map_app. Qed.

Lemma take_opt_run : forall p u s, (u = [] \/ exists x, p x = true /\ u = [x]) -> (u = [] -> hd_not p s) ->
  take_opt p (u ++ s) = (u, s).
Proof.
  intros p u s [->|(x & E & ->)] H; cbn.
  - specialize (H eq_refl). destruct s; [reflexivity|]. cbn in H |- *. rewrite H. reflexivity.
  - rewrite E. reflexivity.
Qed.

(** sign, zero flag, width, comma, precision, type. *)
Lemma fspec_run : forall sg z w co pr main, at_most_one "-+ " sg -> at_most_one "0" z ->
  Forall (fun c => is_digit U c = true) w -> (z = [] -> w = []) -> at_most_one "," co ->
  0 <= pr -> (main = 102 \/ main = 70) ->
  parse_fspec U (sg ++ z ++ w ++ co ++ fixed_suffix pr main) =
    Ok (mkFspec sg (negb (isnil z)) (val (digit_vals U w)) (negb (isnil co)) (Some pr) [main]).
Proof.
  intros sg z w co pr main Hsg Hz Hw Hzw Hco Hpr Hm. unfold parse_fspec.
  assert (Nd : forall c, In c (lit "-+ ") -> is_digit U c = false).
  { intros c I. apply (ascii_nodig U L); cbn in I; lia. }
  assert (Cz : z = [] \/ exists x, ch 48 x = true /\ z = [x]) by (apply (opt_ch 48 "0" z eq_refl); exact Hz).
  assert (Cc : co = [] \/ exists x, ch 44 x = true /\ co = [x]) by (apply (opt_ch 44 "," co eq_refl); exact Hco).
  assert (N44 : is_digit U 44 = false) by (apply (ascii_nodig U L); lia).
  assert (N46 : is_digit U 46 = false) by (apply (ascii_nodig U L); lia).
  rewrite take_opt_run.
  2: { destruct Hsg as [->|(x & I & ->)]; [left; reflexivity|right]. exists x. split; [|reflexivity].
       cbn in I. destruct I as [<-|[<-|[<-|[]]]]; reflexivity. }
  2: { intros _. destruct Cz as [->|(x & Ex & ->)].
       - rewrite (Hzw eq_refl). cbn [app]. destruct Cc as [->|(y & Ey & ->)]; [reflexivity|].
         apply ch_in in Ey. subst y. reflexivity.
       - apply ch_in in Ex. subst x. reflexivity. }
  rewrite take_opt_run; [|exact Cz|].
  2: { intros ->. rewrite (Hzw eq_refl). cbn [app]. destruct Cc as [->|(y & Ey & ->)]; [reflexivity|].
       apply ch_in in Ey. subst y. reflexivity. }
  rewrite span_run; [|exact Hw|].
  2: { destruct Cc as [->|(y & Ey & ->)]; [exact N46|]. apply ch_in in Ey. subst y. exact N44. }
  rewrite take_opt_run; [|exact Cc|intros _; reflexivity].
  unfold fixed_suffix. cbn [take_opt app]. replace (ch 46 46) with true by reflexivity.
  rewrite span_run; [|apply show_Z_digits; exact Hpr|].
  2: { destruct Hm as [-> | ->]; apply (ascii_nodig U L); lia. }
  assert (T : take_opt (oneof "fFgG") [main] = ([main], [])) by (destruct Hm as [-> | ->]; reflexivity).
  rewrite T. rewrite (show_Z_val pr Hpr). 
  assert (NS : isnil (show_Z pr) = false).
  { rewrite show_Z_nonneg by lia. destruct (digs pr) eqn:E; [exfalso; apply (digs_nonnil pr); assumption|reflexivity]. }
  rewrite NS. reflexivity.
Qed.
End Fixed.
