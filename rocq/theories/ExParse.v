(** Concrete cases for the theorems about parsing. *)
From Coq Require Import String.
From Coq Require Import ZArith List Bool Lia QArith Qabs Qminmax.
From Verif Require Import Base Str FmtOps Format Parse FmtSpec ParseSpec ErrThm ReprThm ExFmt ExReal.
Import ListNotations.
Local Open Scope Z_scope.

Definition tx : arg (K := DecOps) := AStr (lit "x").
(** What is created: value, uncertainty, tag and number of warnings. *)
Inductive label := TNone | TStr (s : str) | TNum (x : dec) | TOther.
Definition seen (r : res (made (K := DecOps))) : res (dec * dec * label * nat) :=
  match r with
  | Ok (v, u, t, n) => Ok (v, u, match t with ANone => TNone | AStr s => TStr s | ANum x => TNum x | _ => TOther end, n)
  | Err e => Err e
  end.
Definition X : label := TStr (lit "x").
Definition parsed (s : str) : res (dec * dec * label * nat) := seen (ufloat_fromstr (K := DecOps) uni s tx).

(** ** Formatting, then parsing *)
Lemma ex_round_trip :
  (real (DNum true 12345 3) /\ real (DNum false 96 3) /\ (0 < dq (DNum false 96 3))%Q /\
   exists p, parse_spec uni (lit "^15") = Ok p /\ (p_align p = lit "=" -> p_width p = []) /\ p_uncert p = [] /\
     p_type p <> lit "%" /\ p_comma p = [] /\ opt (p_opts p) 76 = false /\
     u_spc uni (fill_of p) = true /\ fill_of p <> 10) /\
  format_ufloat (K := DecOps) uni (DNum true 12345 3) (DNum false 96 3) (lit "^15") =
    Ok (lit "  -1.234e+07   +/-   0.010e+07   ") /\
  parsed (lit "  -1.234e+07   +/-   0.010e+07   ") = Ok (DNum true 1234 4, DNum false 10 4, X, 0%nat).
Proof.
  split; [|split; vm_compute; reflexivity]. split; [apply dnum_real; lia|]. split; [apply dnum_real; lia|].
  split; [reflexivity|]. exists (mkParts [] (lit "^") [] [] (lit "15") [] None [] [] []). split; [vm_compute; reflexivity|].
  repeat split; try reflexivity; discriminate.
Qed.
(** NaN padded with zeros, and an exponent that the type g gives to the nominal value only. *)
Lemma unreadable :
  (format_ufloat (K := DecOps) uni DNan (DNum false 1 0) (lit "010") = Ok (lit "0000000nan+/-00000001.0") /\
   parsed (lit "0000000nan+/-00000001.0") = Err EValue) /\
  (format_ufloat (K := DecOps) uni (DNum false 12345678 0) (DNum false 0 0) (lit ".9gS") = Ok (lit "1.23457e+07(0)") /\
   parsed (lit "1.23457e+07(0)") = Err EValue).
Proof. repeat split; vm_compute; reflexivity. Qed.

(** ** repr() *)
Lemma ex_repr : dgood (DNum true 12345 (-2)) /\ dgood (DNum false 5 (-9)) /\ ~ negative (DNum false 5 (-9)) /\
  refused DecOps (DNum false 5 (-9)) = false /\
  repr_ufloat (K := DecOps) (DNum true 12345 (-2)) (DNum false 5 (-9)) = lit "-123.45+/-5e-09" /\
  parsed (lit "-123.45+/-5e-09") = Ok (DNum true 12345 (-2), DNum false 5 (-9), X, 0%nat).
Proof.
  split; [simpl; lia|]. split; [simpl; lia|]. split; [intros (_ & H); vm_compute in H; discriminate|].
  repeat split; vm_compute; reflexivity.
Qed.

(** ** Notations *)
Ltac chars_ok := repeat (constructor; [solve [discriminate | split; [reflexivity|discriminate] | lia]|]); constructor.
Lemma ex_notations :
  notation uni (lit "(-1.23 +/- 0.4)e5") (MPair (LDec true 123 (-2)) None (LDec false 4 (-1)) None (Some 5)) /\
  notation uni (lit "-1.23(45)e5") (MParen (LDec true 123 (-2)) 2 (UUnits 45) (Some 5)) /\
  notation uni (lit "12.3(4.5)") (MParen (LDec false 123 (-1)) 1 (UNumber (LDec false 45 (-1))) None) /\
  notation uni (lit "(12.3)") (MParen (LDec false 123 (-1)) 1 ULast None).
Proof.
  assert (D123 : decimal uni (lit "1.23") 123 2).
  { apply (de_point uni (lit "1") (lit "23")); [chars_ok|chars_ok|discriminate]. }
  assert (D123' : decimal uni (lit "12.3") 123 1).
  { apply (de_point uni (lit "12") (lit "3")); [chars_ok|chars_ok|discriminate]. }
  assert (D4 : decimal uni (lit "0.4") 4 1).
  { apply (de_point uni (lit "0") (lit "4")); [chars_ok|chars_ok|discriminate]. }
  assert (I5 : integer uni (lit "5") 5).
  { exists [], false, (lit "5"). repeat split; [constructor|chars_ok|discriminate]. }
  assert (E5 : exponent uni (lit "e5") 5).
  { apply (ex_e uni 101 (lit "5") 5); [left; reflexivity|exact I5]. }
  split; [|split; [|split]].
  - apply no_simple. apply (no_factor uni (lit "-1.23 ") (LDec true 123 (-2)) None (lit "+/-") (lit " 0.4") (LDec false 4 (-1)) None (lit "e5") 5).
    + apply nu_float. apply (ft_dec uni [] (lit "-") true (lit "1.23") 123 2 [] 0 (lit " ")); try constructor; try assumption; try constructor; try reflexivity; try discriminate.
    + left. reflexivity.
    + apply nu_float. apply (ft_dec uni (lit " ") [] false (lit "0.4") 4 1 [] 0 []); try constructor; try assumption; try constructor; try reflexivity; try discriminate.
    + exact E5.
  - apply no_simple. apply (no_paren uni (lit "-") true (lit "1.23") (LDec true 123 (-2)) 2 (lit "(45)") (UUnits 45) (lit "e5") (Some 5)).
    + constructor.
    + apply (un_dec uni true (lit "1.23") 123 2 D123).
    + apply (ip_units uni (lit "45")); [chars_ok|discriminate].
    + constructor. exact E5.
  - apply no_simple. apply (no_paren uni [] false (lit "12.3") (LDec false 123 (-1)) 1 (lit "(4.5)") (UNumber (LDec false 45 (-1))) [] None).
    + constructor.
    + apply (un_dec uni false (lit "12.3") 123 1 D123').
    + apply (ip_point uni (lit "4") (lit "5")); [chars_ok|chars_ok|discriminate].
    + constructor.
  - apply (no_parens uni (lit "12.3")). apply (no_paren uni [] false (lit "12.3") (LDec false 123 (-1)) 1 [] ULast [] None).
    + constructor.
    + apply (un_dec uni false (lit "12.3") 123 1 D123').
    + constructor.
    + constructor.
Qed.
(** Their values; superscripts too. *)
Lemma ex_values :
  parsed (lit " (-1.23 +/- 0.4)e5 ") = Ok (DNum true 123 3, DNum false 4 4, X, 0%nat) /\
  parsed (lit "-1.23(45)e5") = Ok (DNum true 123 3, DNum false 45 3, X, 0%nat) /\
  parsed (lit "12.3(4.5)") = Ok (DNum false 123 (-1), DNum false 45 (-1), X, 0%nat) /\
  parsed (lit "(12.3)") = Ok (DNum false 123 (-1), DNum false 1 (-1), X, 0%nat) /\
  parsed (lit "(1.2" ++ [177] ++ lit "0.1)" ++ [215] ++ lit "10" ++ [8315; 178]) = Ok (DNum false 12 (-3), DNum false 1 (-3), X, 0%nat) /\
  parsed (lit "nan(inf)") = Ok (DNan, DInf false, X, 0%nat).
Proof. repeat split; vm_compute; reflexivity. Qed.

(** ** Exceptions *)
Lemma ex_errors : NoOverflow DecOps /\ OnlyOverflow DecOps /\
  parsed (lit "1+/-x") = Err EValue /\ parsed [] = Err EValue /\ parsed (lit "1(2") = Err EValue.
Proof. split; [apply exact_no_overflow|]. split; [split; intros; discriminate|]. repeat split; vm_compute; reflexivity. Qed.
(** A negative uncertainty is not a ValueError. *)
Lemma negative_error : parsed (lit "1+/--1") = Err ENegStd.
Proof. vm_compute. reflexivity. Qed.
(** If 10.**400 overflows, so does a string with this exponent, whatever the arithmetic. *)
Lemma overflow_error : forall (K : FmtOps), x_mul10 K (x_nan K) 400 = Err EOverflow -> forall tag,
  ufloat_fromstr (K := K) uni (lit "(1+/-1)e400") tag = Err EOverflow.
Proof.
  intros K H tag. unfold ufloat_fromstr.
  replace (strip uni (lit "(1+/-1)e400")) with (lit "(1+/-1)e400") by (vm_compute; reflexivity).
  unfold str_to_number_with_uncert.
  replace (unparen (lit "(1+/-1)e400")) with (lit "(1+/-1)e400") by (vm_compute; reflexivity).
  cbv zeta.
  replace (re_match (global_exp_re uni) (lit "(1+/-1)e400")) with (Some [(2%nat, lit "400"); (1%nat, lit "1+/-1")]) by (vm_compute; reflexivity).
  cbn [rbind]. replace (nrmlze_superscript uni _) with (Ok 400) by (vm_compute; reflexivity).
  cbn [rbind]. unfold ten_to. rewrite H. reflexivity.
Qed.
(** Texts that are not notations, and that are accepted: what follows a newline, or an empty exponent,
    or a factor, is ignored; a standard deviation of -inf. *)
Lemma strange_texts :
  parsed (lit "1+/-2" ++ [10] ++ lit "foo") = Ok (DNum false 1 0, DNum false 2 0, X, 0%nat) /\
  parsed (lit "1.2e") = Ok (DNum false 12 (-1), DNum false 1 (-1), X, 0%nat) /\
  parsed (lit "(1.23(4))e5") = Ok (DNum false 123 (-2), DNum false 4 (-2), X, 0%nat) /\
  parsed (lit "1+/--inf") = Ok (DNum false 1 0, DInf true, X, 0%nat).
Proof. repeat split; vm_compute; reflexivity. Qed.

(** ** Forms of ufloat() *)
Definition n3 : arg (K := DecOps) := ANum (K := DecOps) (DNum false 3 0).
Definition n1 : arg (K := DecOps) := ANum (K := DecOps) (DNum false 1 (-1)).
Definition T1 : label := TNum (DNum false 1 (-1)).
Definition new (a b c : arg (K := DecOps)) := seen (ufloat (K := DecOps) uni a b c).
Lemma ex_forms :
  new (ATup [n3; n1]) tx ANone = Ok (DNum false 3 0, DNum false 1 (-1), X, 1%nat) /\
  new (AStr (lit "3.0(1)")) tx ANone = Ok (DNum false 30 (-1), DNum false 1 (-1), X, 1%nat) /\
  ~ number_arg DecOps tx /\ ~ number_arg DecOps ANone /\
  new n3 ANone ANone = Err EAttr /\ new (ATup [n3]) ANone ANone = Err EIndex.
Proof.
  split; [vm_compute; reflexivity|]. split; [vm_compute; reflexivity|].
  split; [intros (x & H); discriminate|]. split; [intros (x & H); discriminate|]. split; vm_compute; reflexivity.
Qed.
(** A number as second argument: the string is the nominal value, or the number is the tag. *)
Lemma string_and_number :
  new (AStr (lit "3")) n1 ANone = Ok (DNum false 3 0, DNum false 1 (-1), TNone, 0%nat) /\
  seen (ufloat_fromstr (K := DecOps) uni (lit "3") n1) = Ok (DNum false 3 0, DNum false 1 0, T1, 0%nat) /\
  new (AStr (lit "1.2(3)")) n1 ANone = Ok (DNum false 12 (-1), DNum false 3 (-1), T1, 1%nat).
Proof. repeat split; vm_compute; reflexivity. Qed.
(** Nested tuples and longer tuples do not raise. *)
Lemma strange_tuples :
  new (ATup [ATup [n3; n1]; n3]) ANone ANone = Ok (DNum false 3 0, DNum false 1 (-1), TNum (DNum false 3 0), 2%nat) /\
  new (ATup [n3; n1; n3; n3]) ANone ANone = Ok (DNum false 3 0, DNum false 1 (-1), TNone, 1%nat).
Proof. repeat split; vm_compute; reflexivity. Qed.
