(** The output of format_num(), for any arithmetic. *)
From Coq Require Import String.
From Coq Require Import ZArith List Bool Lia.
From Verif Require Import Base Str FmtOps Format FmtSpec StrProofs SpecProofs FixedProofs.
Import ListNotations.
Local Open Scope Z_scope.
Local Open Scope res_scope.

Lemma rbind_ok : forall A B (m : res A) (k : A -> res B) b, rbind m k = Ok b -> exists a, m = Ok a /\ k a = Ok b.
Proof. intros A B [a|e] k b H; [exists a; auto|discriminate]. Qed.

Lemma has_opt : forall o c, has o c = opt o c.
Proof.
  intros. unfold has, opt. destruct (in_dec Z.eq_dec c o) as [I|N].
  - apply existsb_exists. exists c. split; [exact I|apply Z.eqb_refl].
  - apply not_true_is_false. intros X. apply existsb_exists in X. destruct X as (y & I & E).
    apply Z.eqb_eq in E. subst. contradiction.
Qed.
Lemma has_pct : forall o (b : bool) c, c <> 37 -> has (if b then 37 :: o else o) c = opt o c.
Proof.
  intros o [] c H; rewrite <- has_opt; [|reflexivity]. unfold has. cbn [existsb].
  destruct (Z.eqb_spec c 37); [congruence|reflexivity].
Qed.
Lemma has_37 : forall o (b : bool), Forall (fun c => In c (lit "PSLp")) o -> has (if b then 37 :: o else o) 37 = b.
Proof.
  intros o [] F; [reflexivity|]. apply not_true_is_false. intros X. apply existsb_exists in X.
  destruct X as (y & I & E). apply Z.eqb_eq in E. subst y. rewrite Forall_forall in F.
  specialize (F 37 I). cbn in F. lia.
Qed.

Section Generic.
Context {K : FmtOps} (U : Unicode).
Hypothesis L : UniLaws U.
Notation fl := (fl K).

Lemma uval_val : forall s, Forall (fun c => u_dig U c <> None) s -> uval U s = val (digit_vals U s).
Proof.
  induction s as [|c s IH]; intros F; [reflexivity|]. inversion F as [|? ? Fc Fs]; subst.
  cbn [uval]. unfold digit_vals. cbn [flat_map]. destruct (u_dig U c) as [d|]; [|congruence].
  change ([d] ++ flat_map (fun c => match u_dig U c with Some d => [d] | None => [] end) s) with (d :: digit_vals U s).
  rewrite val_cons, IH by assumption. f_equal. f_equal. f_equal. unfold len. f_equal.
  clear - Fs. induction Fs as [|c s H F IH]; [reflexivity|]. unfold digit_vals in *. cbn [flat_map length].
  destruct (u_dig U c); [|congruence]. cbn [app length]. congruence.
Qed.
Lemma digit_vals_digit : forall s, Forall digit (digit_vals U s).
Proof.
  induction s as [|c s IH]; [constructor|]. unfold digit_vals in *. cbn [flat_map].
  destruct (u_dig U c) as [d|] eqn:E; [|exact IH]. cbn [app]. constructor; [|exact IH].
  exact (ul_range U L c d E).
Qed.
Lemma uval_nonneg : forall s, Forall (fun c => u_dig U c <> None) s -> 0 <= uval U s.
Proof. intros. rewrite uval_val by assumption. apply val_nonneg, digit_vals_digit. Qed.

(** Numbers in exponents. *)
Lemma numeral_digs : forall n, 0 <= n -> numeral false n 0 (chars (digs n)) /\ no_padding 0 (chars (digs n)).
Proof.
  intros n H. assert (F := digs_digit n H). split.
  - exists (chars (digs n)), []. split; [rewrite app_nil_r; reflexivity|]. split; [reflexivity|].
    split; [constructor|]. split. { intros X. apply map_eq_nil in X. apply (digs_nonnil n); assumption. }
    split; [apply chars_ascii; exact F|]. rewrite app_nil_r, no_commas_ascii, dval_chars by (apply chars_ascii; exact F).
    apply val_digs; exact H.
  - destruct (Z.eq_dec n 0) as [->|N]; [reflexivity|].
    destruct (digs_head n ltac:(lia)) as (d & r & E & Hd). rewrite E. apply no_padding_cons. lia.
Qed.
Lemma int_text_show : forall e, int_text e (show_Z e).
Proof.
  intros e. exists (chars (digs (Z.abs e))). split.
  - unfold show_Z. destruct (Z.ltb_spec e 0).
    + rewrite Z.abs_neq by lia. reflexivity.
    + rewrite Z.abs_eq by lia. reflexivity.
  - apply numeral_digs. lia.
Qed.
Lemma translate_sup : forall e, translate sup_table (show_Z e) = map sup_char (show_Z e).
Proof.
  intros e. unfold translate. apply map_ext_in. intros c I.
  assert (C : c = 45 \/ 48 <= c <= 57).
  { unfold show_Z in I.
    assert (D : forall n, 0 <= n -> In c (chars (digs n)) -> 48 <= c <= 57).
    { intros n Hn J. assert (A := chars_ascii _ (digs_digit n Hn)). unfold ascii_digits in A.
      rewrite Forall_forall in A. exact (A c J). }
    destruct (Z.ltb_spec e 0).
    - destruct I as [I|I]; [left; lia|right; apply (D (- e)); [lia|exact I]].
    - right. apply (D e); [lia|exact I]. }
  assert (X : c = 45 \/ c = 48 \/ c = 49 \/ c = 50 \/ c = 51 \/ c = 52 \/ c = 53 \/ c = 54 \/ c = 55 \/ c = 56 \/ c = 57) by lia.
  clear - X. repeat (destruct X as [X|X]; [subst c; reflexivity|]). subst c. reflexivity.
Qed.
Lemma show_exp_text : forall e, exists t, show_exp e = (if e <? 0 then 45 else 43) :: t /\
  numeral false (Z.abs e) 0 t /\ (2 <= length t)%nat /\ ((2 < length t)%nat -> no_padding 0 t).
Proof.
  intros e. unfold show_exp. eexists. split; [reflexivity|].
  set (n := Z.abs e). assert (Hn : 0 <= n) by (unfold n; lia).
  set (k := (2 - length (digs n))%nat).
  assert (Lt : length (repeat 0 k ++ digs n) = Nat.max 2 (length (digs n))).
  { rewrite app_length, repeat_length. unfold k. lia. }
  rewrite chars_length, Lt. split; [|split; [lia|]].
  - exists (chars (repeat 0 k ++ digs n)), []. split; [rewrite app_nil_r; reflexivity|]. split; [reflexivity|].
    split; [constructor|].
    assert (F : ascii_digits (chars (repeat 0 k ++ digs n))).
    { apply chars_ascii, Forall_app. split; [|apply digs_digit; exact Hn]. apply Forall_forall.
      intros x Hx. apply repeat_spec in Hx. subst. unfold digit; lia. }
    split. { intros X. apply (f_equal (@length Z)) in X. rewrite chars_length, Lt in X. cbn [length] in X. lia. }
    split; [exact F|]. rewrite app_nil_r, no_commas_ascii, dval_chars, val_zeros by exact F. apply val_digs; exact Hn.
  - intros H. assert (E : k = O) by (unfold k; lia). rewrite E. cbn [repeat app]. apply numeral_digs. exact Hn.
Qed.
Lemma exp_print_text : forall (o : str) (percent : bool) main (upper : bool) e,
  main = (if upper then 70 else 102) ->
  let opts := if percent then 37 :: o else o in
  exp_text o upper e (exp_print (if has opts 80 then Pretty else if has opts 76 then Latex else Default) main e).
Proof.
  intros o percent main upper e Hm opts. unfold opts, exp_text. rewrite !has_pct by lia.
  destruct (opt o 80); [|destruct (opt o 76)]; cbn [exp_print].
  - exists (show_Z e). split; [apply int_text_show|]. unfold to_superscript. rewrite translate_sup. reflexivity.
  - exists (show_Z e). split; [apply int_text_show|reflexivity].
  - destruct (show_exp_text e) as (t & E & H). exists t. rewrite E. split; [|exact H].
    rewrite Hm. destruct upper; reflexivity.
Qed.

(** Alignment. *)
Lemma align_ok : forall s p t, Forall (fun c => u_dig U c <> None) (p_width p) -> p_width p <> [] ->
  at_most_one "<>=^" (p_align p) ->
  robust_align U s (p_fill p) (match p_align p with [] => lit ">" | a => a end) (p_width p) = Ok t ->
  aligned (fill_of p) (p_align p) (uval U (p_width p)) s t.
Proof.
  intros s p t Hw Nw Ha H. unfold robust_align in H.
  destruct (str_eqb _ (lit "=")) eqn:Eq; [discriminate|]. cbv zeta in H.
  match type of H with Ok ?e = _ => assert (Ht : t = e) by congruence end. clear H. subst t.
  rewrite <- (uval_val _ Hw). set (w := uval U (p_width p)).
  assert (Ef : (match p_fill p with
                | c :: _ => c
                | [] => match p_width p with c :: _ => if c =? 48 then 48 else 32 | [] => 32 end
                end) = fill_of p).
  { unfold fill_of. destruct (p_fill p); [|reflexivity]. destruct (p_width p); [congruence|reflexivity]. }
  rewrite Ef. set (f := fill_of p). set (n := Z.to_nat (w - len s)).
  assert (Ln : Z.of_nat n = Z.max 0 (w - len s)) by (unfold n; lia).
  assert (Div : (Nat.div n 2 <= n - Nat.div n 2 <= S (Nat.div n 2))%nat).
  { assert (A := Nat.div_mod n 2 ltac:(lia)). assert (B := Nat.mod_upper_bound n 2 ltac:(lia)). lia. }
  assert (C : p_align p = [] \/ p_align p = lit "<" \/ p_align p = lit ">" \/ p_align p = lit "^").
  { destruct Ha as [E|(c & I & E)]; [left; exact E|right]. rewrite E in *. cbn in I.
    destruct I as [<-|[<-|[<-|[<-|[]]]]]; auto. exfalso. discriminate Eq. }
  destruct C as [E|[E|[E|E]]]; rewrite E in *;
    [ | change (match lit "<" with [] => lit ">" | z :: l => z :: l end) with (lit "<") in *
      | change (match lit ">" with [] => lit ">" | z :: l => z :: l end) with (lit ">") in *
      | change (match lit "^" with [] => lit ">" | z :: l => z :: l end) with (lit "^") in * ].
  - exists n, O. change (str_eqb (lit ">") (lit "<")) with false. change (str_eqb (lit ">") (lit "^")) with false.
    cbn iota. split; [cbn [repeat]; rewrite app_nil_r; reflexivity|].
    split. { unfold len in *. rewrite app_length, repeat_length. lia. }
    split; [reflexivity|]. split; discriminate.
  - exists O, n. change (str_eqb (lit "<") (lit "<")) with true. cbn iota. split; [reflexivity|].
    split. { unfold len in *. rewrite app_length, repeat_length. lia. }
    split; [intros [X|X]; discriminate|]. split; [reflexivity|discriminate].
  - exists n, O. change (str_eqb (lit ">") (lit "<")) with false. change (str_eqb (lit ">") (lit "^")) with false.
    cbn iota. split; [cbn [repeat]; rewrite app_nil_r; reflexivity|].
    split. { unfold len in *. rewrite app_length, repeat_length. lia. }
    split; [reflexivity|]. split; discriminate.
  - exists (Nat.div n 2), (n - Nat.div n 2)%nat. change (str_eqb (lit "^") (lit "<")) with false.
    change (str_eqb (lit "^") (lit "^")) with true. cbn iota. split; [reflexivity|].
    split. { unfold len in *. rewrite !app_length, !repeat_length. lia. }
    split; [intros [X|X]; discriminate|]. split; [discriminate|]. intros _. exact Div.
Qed.

(** What is given to Python's format(). *)
Definition prefix (sg : str) (p : parts) (w : Z) : str :=
  if pads p then sg ++ p_zero p ++ show_Z w ++ p_comma p else sg ++ p_comma p.
Definition nom_suffix (sm : fl) (p : parts) (prec main : Z) : str :=
  if (x_iszero K sm || isinfinite sm) && in_g (p_type p)
  then (match p_prec p with Some s => s | None => [] end) ++ p_type p else fixed_suffix prec main.
Definition err_suffix (nm sm : fl) (p : parts) (prec main : Z) : str :=
  if x_iszero K sm then lit ".0" ++ [main]
  else if isinfinite nm && in_g (p_type p)
  then (match p_prec p with Some s => s | None => [] end) ++ p_type p else fixed_suffix prec main.
Definition upper (p : parts) : bool := existsb (Z.eqb (hd 0 (p_type p))) (lit "EFG").

Lemma prefix_eq : forall sg p w, 
  (if negb (isnil (p_width p)) && negb (isnil (p_zero p))
   then sg ++ p_zero p ++ show_Z w ++ p_comma p else sg ++ p_comma p) = prefix sg p w.
Proof. intros. unfold prefix, pads. rewrite andb_comm. reflexivity. Qed.

Theorem format_num_laid_out : forall (nm sm : fl) (ce : option Z) (p : parts) (s0 : str) (prec main : Z) (percent : bool) (r : str),
  assembled U p s0 -> main = (if upper p then 70 else 102) ->
  format_num U nm sm ce p prec main (if percent then 37 :: p_opts p else p_opts p) = Ok r ->
  let o := p_opts p in
  exists x n0 es,
    let ns := if opt o 76 then latex_nom nm n0 else n0 in
    laid_out U p percent ce (negb (isinfinite nm)) (negb (x_iszero K sm || isinfinite sm)) x ns es r /\
    (if opt o 83 then
       py_format U nm (prefix (p_sign p) p (room U p (len (lit "(" ++ es ++ lit ")" ++ x ++ percent_text o percent)))
                       ++ nom_suffix sm p prec main) = Ok n0 /\
       shorthand_uncert U sm prec main (opt o 76) = Ok es
     else
       py_format U nm (prefix (p_sign p) p (room U p (if isinfinite nm then 0 else len x))
                       ++ nom_suffix sm p prec main) = Ok n0 /\
       exists e0, es = (if opt o 76 then latex_err sm e0 else e0) /\
         py_format U sm (prefix [] p (room U p (if x_iszero K sm || isinfinite sm then 0 else len x))
                       ++ err_suffix nm sm p prec main) = Ok e0).
Proof.
  intros nm sm ce p s0 prec main percent r A Hm H o.
  assert (Aw := as_width _ _ _ A). assert (Aa := as_align _ _ _ A). assert (Ao := as_opts _ _ _ A).
  assert (Up := uval_nonneg _ Aw).
  unfold format_num in H.
  rewrite !(has_pct _ _ 83), !(has_pct _ _ 112), !(has_pct _ _ 76), !(has_pct _ _ 80), !has_37 in H
    by (try lia; assumption).
  rewrite <- (uval_val _ Aw) in H. fold o in H.
  set (x := match ce with
            | Some e => exp_print (if opt o 80 then Pretty else if opt o 76 then Latex else Default) main e
            | None => []
            end) in H.
  assert (Hx : match ce with None => x = [] | Some e => exp_text o (upper p) e x end).
  { unfold x. destruct ce as [e|]; [|reflexivity].
    assert (X := exp_print_text o false main (upper p) e Hm). cbv zeta in X. cbn iota in X.
    rewrite !has_opt in X. exact X. }
  fold (percent_text o percent) in H.
  cbv zeta in H.
  unfold laid_out. fold o. fold (upper p).
  destruct (opt o 83).
  - (* shorthand *)
    apply rbind_ok in H. destruct H as (es & Hs & H).
    rewrite andb_comm, prefix_eq in H. apply rbind_ok in H. destruct H as (n0 & Hn & H).
    exists x, n0, es. cbv zeta. split; [split; [exact Hx|]|].
    + set (ns := if opt o 76 then latex_nom nm n0 else n0) in *.
      destruct (p_width p) as [|c w] eqn:Ew; cbn [isnil negb] in H.
      * injection H as <-. rewrite <- ?app_assoc. reflexivity.
      * assert (Nw : p_width p <> []) by (rewrite Ew; discriminate). rewrite <- Ew in H |- *.
        rewrite <- Ew in Aw.
        assert (AL := align_ok _ p _ Aw Nw Aa H). rewrite <- ?app_assoc in AL. exact AL.
    + split; [|exact Hs]. exact Hn.
  - (* +/- *)
    rewrite !prefix_eq in H.
    apply rbind_ok in H. destruct H as (n0 & Hn & H).
    apply rbind_ok in H. destruct H as (e0 & He & H).
    exists x, n0, (if opt o 76 then latex_err sm e0 else e0). cbv zeta.
    set (ns := if opt o 76 then latex_nom nm n0 else n0) in *.
    set (es := if opt o 76 then latex_err sm e0 else e0) in *.
    apply rbind_ok in H. destruct H as (a & Ha & H).
    apply rbind_ok in H. destruct H as (b & Hb & H).
    assert (Eg : group_symbols (if opt o 80 then Pretty else if opt o 76 then Latex else Default) =
      if opt o 76 && negb (opt o 80) then (lit "\left(", lit "\right)") else (lit "(", lit ")")).
    { destruct (opt o 80), (opt o 76); reflexivity. }
    rewrite Eg in H. fold (pm_text o) in H.
    assert (Wrap : forall v, in_parens o v =
      fst (if opt o 76 && negb (opt o 80) then (lit "\left(", lit "\right)") else (lit "(", lit ")")) ++ v ++
      snd (if opt o 76 && negb (opt o 80) then (lit "\left(", lit "\right)") else (lit "(", lit ")"))).
    { intros v. unfold in_parens. destruct (opt o 76 && negb (opt o 80)); reflexivity. }
    destruct (if opt o 76 && negb (opt o 80) then (lit "\left(", lit "\right)") else (lit "(", lit ")")) as (lg, rg) eqn:Eg2.
    cbn [fst snd] in Wrap.
    assert (Pct : negb (isnil (percent_text o percent)) = percent).
    { unfold percent_text. destruct percent; [|reflexivity]. destruct (opt o 76); reflexivity. }
    rewrite Pct in H. injection H as <-.
    destruct (p_width p) as [|c w] eqn:Ew; cbn [isnil negb andb] in *.
    + injection Ha as <-. injection Hb as <-. rewrite !app_nil_r.
      split; [split; [exact Hx|]|].
      * rewrite Wrap. destruct ce; [rewrite <- ?app_assoc; reflexivity|].
        destruct percent; [rewrite <- ?app_assoc; reflexivity|]. reflexivity.
      * assert (Pf : pads p = false) by (unfold pads; rewrite Ew, andb_false_r; reflexivity).
        unfold prefix in *. rewrite Pf in *. split; [exact Hn|]. exists e0. split; [reflexivity|].
        unfold err_suffix. destruct (x_iszero K sm); cbn [negb] in He; exact He.
    + assert (Nw : p_width p <> []) by (rewrite Ew; discriminate). rewrite <- Ew in Ha, Hb, Aw, Hn, He, Up |- *.
      assert (ALa := align_ok _ p _ Aw Nw Aa Ha). assert (ALb := align_ok _ p _ Aw Nw Aa Hb).
      split; [split; [exact Hx|]|].
      * exists a, b. split; [exact ALa|]. split; [exact ALb|]. cbv zeta. rewrite !Wrap.
        destruct percent; [rewrite <- ?app_assoc; reflexivity|].
        destruct (opt o 112); reflexivity.
      * assert (Pp : pads p = negb (isnil (p_zero p))) by (unfold pads; rewrite Ew; apply andb_true_r).
        assert (R0 : room U p 0 = uval U (p_width p)) by (unfold room; lia).
        split.
        -- rewrite <- Hn. do 2 f_equal. unfold prefix. rewrite ?Pp. destruct (isinfinite nm); cbn [negb]; [rewrite R0|]; reflexivity.
        -- exists e0. split; [reflexivity|]. rewrite <- He. f_equal. f_equal.
           ++ unfold prefix. rewrite Pp. destruct (x_iszero K sm || isinfinite sm); cbn [negb app]; [rewrite R0|]; reflexivity.
           ++ unfold err_suffix. destruct (x_iszero K sm); reflexivity.
Qed.
End Generic.
