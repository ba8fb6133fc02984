(** repr() of variables with a tag is never read as a number. *)
From Coq Require Import String.
From Coq Require Import ZArith List Bool Lia.
From Verif Require Import Base Str FmtOps Format Parse Repr StrProofs FmtSpec SpecProofs FixedProofs FormatProofs ParseSpec ReadProofs ParseProofs ErrThm LangSpec LangProofs LangThm ExFmt ExParse.
Import ListNotations.
Local Open Scope Z_scope.
Local Open Scope res_scope.

Section Tag.
Context (K : FmtOps) (U : Unicode) (L : UniLaws U).
(** No number starts with "<". *)
Lemma not_float : forall t l, ~ float_like U (60 :: t) l.
Proof.
  intros t l H. remember (60 :: t) as s eqn:E.
  assert (Sp : u_spc U 60 = false) by (apply (ascii_spc U L); lia).
  assert (D : u_dig U 60 = None) by (apply (ascii_none U L); lia).
  assert (Hsp : forall sp r, spaces U sp -> sp ++ r = 60 :: t -> r = 60 :: t).
  { intros [|c sp] r F Eq; [exact Eq|]. inversion F; subst. injection Eq as -> _. congruence. }
  assert (Hsg : forall sg neg r, sign_of sg neg -> sg ++ r = 60 :: t -> r = 60 :: t).
  { intros sg neg r Hs Eq. destruct Hs; [exact Eq| |]; discriminate. }
  assert (Hg : forall g ds r, grouped U g ds -> g ++ r = 60 :: t -> False).
  { intros g ds r Hg Eq. destruct Hg; injection Eq as -> _; congruence. }
  assert (Hw : forall w s r c q, word_of w s -> lit w = c :: q -> c <> 60 -> s ++ r = 60 :: t -> False).
  { intros w s0 r c q W El N Eq. unfold word_of in W. rewrite El in W. destruct s0 as [|x s0]; [discriminate|].
    injection Eq as -> _. simpl in W. injection W as Hx _. vm_compute in Hx. congruence. }
  destruct H as [sp sg neg i di f df x n sp' F F' Hs Hi Hf Hn Hx|sp sg neg w sp' F F' Hs W|sp sg neg w sp' F F' Hs W];
    apply Hsp in E; try exact F; rewrite <- app_assoc in E; apply (Hsg sg neg) in E; try exact Hs.
  - rewrite <- app_assoc in E. inversion Hi; subst.
    + cbn [app] in E. rewrite <- app_assoc in E. inversion Hf; subst; [now destruct Hn|discriminate].
    + eapply Hg; eassumption.
  - eapply Hw; [exact W|reflexivity| |exact E]. discriminate.
  - destruct W as [W|W]; (eapply Hw; [exact W|reflexivity| |exact E]; discriminate).
Qed.
Lemma float_error : forall s e, py_float (K := K) U s = Err e -> e = EValue.
Proof. intros s e H. eapply (float_err K U (fun e => e = EValue)); [reflexivity|exact H]. Qed.
Lemma lt_float : forall t, py_float (K := K) U (60 :: t) = Err EValue.
Proof.
  intros t. destruct (py_float U (60 :: t)) as [x|e] eqn:E; [|f_equal; eapply float_error, E].
  apply (py_float_inv U) in E. destruct E as (l & H & _). destruct (not_float _ _ H).
Qed.
Lemma empty_float : py_float (K := K) U [] = Err EValue. Proof. reflexivity. Qed.
Lemma lt_to_float : forall t, one_line (60 :: t) -> to_float (K := K) U (60 :: t) = Err EValue.
Proof.
  intros t N. unfold to_float. rewrite lt_float. destruct (re_match (pretty_re U) (60 :: t)) as [c|] eqn:Em; [|reflexivity].
  apply (pretty_inv U) in Em; [|exact N]. destruct Em as (a & sp & sp' & b & E & F & F' & G1 & G2). rewrite G1.
  destruct a as [|x a]; [rewrite empty_float; reflexivity|]. injection E as <- _. rewrite lt_float. reflexivity.
Qed.
Lemma lt_text : forall t, str_to_number_with_uncert (K := K) U (60 :: t) = Err EValue.
Proof.
  intros t. unfold str_to_number_with_uncert. change (unparen (60 :: t)) with (60 :: t). cbv zeta.
  destruct (re_match (global_exp_re U) (60 :: t)) as [c|] eqn:Eg.
  { apply (global_inv U) in Eg. destruct Eg as (v & i & b & nl & E & _). discriminate. }
  cbn [rbind]. destruct (re_match pm_re (60 :: t)) as [c|] eqn:Ep.
  - apply pm_inv in Ep. destruct Ep as (a & pm & b & rest & E & Hpm & G1 & G2 & N & _). rewrite G1.
    destruct a as [|x a]; [destruct Hpm; subst; discriminate|]. injection E as <- _. rewrite (lt_to_float a N). reflexivity.
  - unfold parse_error_in_parentheses. destruct (re_match (paren_re U) (60 :: t)) as [c|] eqn:Eq; [|reflexivity].
    exfalso. apply (paren_inv U) in Eq. destruct Eq as (sg & neg & a & x & y & p & e & nl & E & Hs & Ra & Hnl & _ & _ & _ & Hp & He).
    assert (D : u_dig U 60 = None) by (apply (ascii_none U L); lia).
    assert (Sp : u_spc U 60 = false) by (apply (ascii_spc U L); lia).
    assert (A : 60 :: t = a ++ p ++ e ++ nl) by (destruct Hs; [exact E| |]; discriminate).
    assert (B : a = [] /\ 60 :: t = p ++ e ++ nl).
    { destruct Ra as [i Fi|i f Fi Ff|w Hw].
      - destruct i; [auto|]. injection A as <- _. inversion Fi; congruence.
      - destruct i; [discriminate|]. injection A as <- _. inversion Fi; congruence.
      - simpl in Hw. destruct Hw as [<-|[<-|[<-|[<-|[]]]]]; discriminate. }
    destruct B as (_ & B). destruct Hp as [(-> & _)|(u & x' & y' & -> & _)]; [|discriminate]. cbn [app] in B.
    destruct He as [(-> & _)|(i & b & -> & Hi & _)].
    + destruct Hnl; subst; discriminate.
    + destruct Hi as [c0 [->| ->]|sp sp' F F']; try discriminate.
      destruct sp as [|z sp]; [discriminate|]. injection B as <- _. inversion F; subst. congruence.
Qed.
Theorem tagged_repr : forall t (nom s : fl K) tag, ufloat_fromstr (K := K) U (repr_variable (Some t) nom s) tag = Err EValue.
Proof.
  intros t nom s tag. unfold ufloat_fromstr.
  assert (E : exists r, strip U (repr_variable (Some t) nom s) = 60 :: r).
  { destruct (strip_inv U (repr_variable (Some t) nom s)) as (sp & sp' & F & F' & E).
    unfold repr_variable at 1 in E. change (lit "< ") with [60; 32] in E. cbn [app] in E.
    assert (Sp : u_spc U 60 = false) by (apply (ascii_spc U L); lia).
    destruct sp as [|c sp]; [|injection E as <- _; inversion F; congruence]. cbn [app] in E.
    destruct (strip U (repr_variable (Some t) nom s)) as [|c r]; [|injection E as <- _; eauto].
    cbn [app] in E. destruct sp' as [|c sp']; [discriminate|]. injection E as <- _. inversion F'; congruence. }
  destruct E as (r & ->). rewrite lt_text. reflexivity.
Qed.
End Tag.
Theorem untagged_repr : forall (K : FmtOps) (nom s : fl K), repr_variable None nom s = repr_ufloat nom s.
Proof. reflexivity. Qed.
Theorem tagged_any : forall (K : FmtOps) (U : Unicode), UniLaws U -> forall t (nom s : fl K) tag,
  repr_variable (Some t) nom s = lit "< " ++ t ++ lit " = " ++ repr_variable None nom s ++ lit " >" /\
  ufloat_fromstr (K := K) U (repr_variable (Some t) nom s) tag = Err EValue.
Proof. intros K U L t nom s tag. split; [reflexivity|apply tagged_repr, L]. Qed.
Lemma ex_tagged : repr_variable (K := DecOps) (Some (lit "x")) (DNum true 12345 (-2)) (DNum false 5 (-9)) = lit "< x = -123.45+/-5e-09 >" /\
  parsed (lit "< x = -123.45+/-5e-09 >") = Err EValue /\ parsed (lit "-123.45+/-5e-09") = Ok (DNum true 12345 (-2), DNum false 5 (-9), X, 0%nat).
Proof. repeat split; vm_compute; reflexivity. Qed.
