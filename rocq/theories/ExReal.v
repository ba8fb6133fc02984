(** Concrete cases for the theorems about the digits that are displayed. *)
From Coq Require Import String.
From Coq Require Import ZArith List Bool Lia QArith Qabs Qminmax.
From Verif Require Import Base Str FmtOps Format FmtSpec ExFmt ZeroFmt.
Import ListNotations.
Local Open Scope Z_scope.

Lemma dnum_real : forall s m e, 0 <= m -> real (DNum s m e).
Proof. intros s m e H. exists s, m, e. split; [reflexivity|exact H]. Qed.

(** 1.2345+/-0.0123: the nominal value is a tie. *)
Lemma ex_display : real (DNum false 12345 (-4)) /\ real (DNum false 123 (-4)) /\ (0 < dq (DNum false 123 (-4)))%Q /\
  parse_spec uni [] = Ok (mkParts [] [] [] [] [] [] None [] [] []) /\
  format_ufloat (K := DecOps) uni (DNum false 12345 (-4)) (DNum false 123 (-4)) [] = Ok (lit "1.234+/-0.012").
Proof.
  split; [apply dnum_real; lia|]. split; [apply dnum_real; lia|]. split; [reflexivity|]. split; [reflexivity|].
  vm_compute. reflexivity.
Qed.
(** One digit of 0.996 is 1, at the place of the units. *)
Lemma ex_carry : real (DNum false 12345 (-4)) /\ real (DNum false 996 (-3)) /\ (0 < dq (DNum false 996 (-3)))%Q /\
  parse_spec uni (lit ".1u") = Ok (mkParts [] [] [] [] [] [] (Some (lit "1")) (lit "u") [] []) /\ uval uni (lit "1") = 1 /\
  format_ufloat (K := DecOps) uni (DNum false 12345 (-4)) (DNum false 996 (-3)) (lit ".1u") = Ok (lit "1+/-1") /\
  format_ufloat (K := DecOps) uni (DNum false 12345 3) (DNum false 996 2) (lit ".1uf") = Ok (lit "12345000+/-99600").
Proof.
  split; [apply dnum_real; lia|]. split; [apply dnum_real; lia|]. split; [reflexivity|]. split; [reflexivity|].
  split; [reflexivity|]. split; vm_compute; reflexivity.
Qed.
(** The three rules of the Particle Data Group. *)
Lemma ex_pdg :
  format_ufloat (K := DecOps) uni (DNum false 12345678 (-7)) (DNum false 354 (-6)) [] = Ok (lit "1.23457+/-0.00035") /\
  format_ufloat (K := DecOps) uni (DNum false 12345678 (-7)) (DNum false 355 (-6)) [] = Ok (lit "1.2346+/-0.0004") /\
  format_ufloat (K := DecOps) uni (DNum false 12345678 (-7)) (DNum false 9499 (-7)) [] = Ok (lit "1.2346+/-0.0009") /\
  format_ufloat (K := DecOps) uni (DNum false 12345678 (-7)) (DNum false 950 (-6)) [] = Ok (lit "1.2346+/-0.0010").
Proof. repeat split; vm_compute; reflexivity. Qed.
(** A common exponent, with a carry: 9.996 is 10.00 and its exponent 1. *)
Lemma ex_exponent : real (DNum true 12345 3) /\ real (DNum false 9600 0) /\ (0 < dq (DNum false 9600 0))%Q /\
  parse_spec uni (lit "*^20") = Ok (mkParts (lit "*") (lit "^") [] [] (lit "20") [] None [] [] []) /\
  format_ufloat (K := DecOps) uni (DNum true 12345 3) (DNum false 9600 0) (lit "*^20") =
    Ok (lit "****-1.2345e+07*****+/-*****0.0010e+07*****") /\
  format_ufloat (K := DecOps) uni (DNum false 9996 (-3)) (DNum false 1 (-3)) (lit ".3e") = Ok (lit "(9.996+/-0.001)e+00") /\
  format_ufloat (K := DecOps) uni (DNum false 9996 (-3)) (DNum false 1 (-3)) (lit ".2e") = Ok (lit "(1.00+/-0.00)e+01").
Proof.
  split; [apply dnum_real; lia|]. split; [apply dnum_real; lia|]. split; [reflexivity|]. split; [reflexivity|].
  repeat split; vm_compute; reflexivity.
Qed.
(** An uncertainty of zero. *)
Lemma ex_zero : dzero (DNum false 0 0) /\
  parse_spec uni (lit "+.3e") = Ok (mkParts [] [] (lit "+") [] [] [] (Some (lit "3")) [] (lit "e") []) /\
  format_ufloat (K := DecOps) uni (DNum false 314159 (-5)) (DNum false 0 0) (lit "+.3e") = Ok (lit "(+3.142+/-0)e+00").
Proof. split; [exists 0; reflexivity|]. split; [reflexivity|]. vm_compute. reflexivity. Qed.
(** Another uncertainty shown as 0. *)
Lemma shown_zero : (0 < dq (DNum false 1 (-1)))%Q /\
  format_ufloat (K := DecOps) uni (DNum false 3 0) (DNum false 1 (-1)) (lit ".0f") = Ok (lit "3+/-0").
Proof. split; [reflexivity|]. vm_compute. reflexivity. Qed.
(** A precision that is used as a width, with the types g, G and none; ValueError with commas. *)
Lemma precision_lost :
  format_ufloat (K := DecOps) uni (DNum false 314159 (-5)) (DNum false 0 0) (lit ".3g") = Ok (lit "3.14159+/-0") /\
  format_ufloat (K := DecOps) uni (DNum false 314159 (-5)) (DNum false 0 0) (lit ".3") = Ok (lit "3.14159+/-0") /\
  format_ufloat (K := DecOps) uni (DNum false 314159 (-5)) (DInf false) (lit ".3G") = Ok (lit "3.14159+/-INF") /\
  format_ufloat (K := DecOps) uni (DNum false 314159 (-5)) (DNum false 0 0) (lit ",.3g") = Err EValue /\
  format_ufloat (K := DecOps) uni (DNum false 314159 (-5)) (DNum false 0 0) (lit ".9g") = Ok (lit "  3.14159+/-0").
Proof. repeat split; vm_compute; reflexivity. Qed.
(** Alignment after the sign. *)
Lemma sign_align_error :
  parse_spec uni (lit "=10") = Ok (mkParts [] (lit "=") [] [] (lit "10") [] None [] [] []) /\
  format_ufloat (K := DecOps) uni (DNum false 314159 (-5)) (DNum false 1 0) (lit "=10") = Err EValue.
Proof. split; [reflexivity|]. vm_compute. reflexivity. Qed.
Lemma ex_width :
  parse_spec uni (lit "+010") = Ok (mkParts [] [] (lit "+") (lit "0") (lit "10") [] None [] [] []) /\
  format_ufloat (K := DecOps) uni (DNum false 314159 (-5)) (DNum false 1 0) (lit "+010") = Ok (lit "+0000003.1+/-00000001.0").
Proof. split; [reflexivity|]. vm_compute. reflexivity. Qed.
(** A comma and a precision with NaN: shorthand notation only. *)
Lemma ex_acceptable : let p := mkParts [] [] [] [] [] (lit ",") (Some (lit "2")) (lit "u") [] (lit "S") in
  nonreal DNan /\ std_like (DNum false 25 (-1)) /\ parse_spec uni (lit ",.2uS") = Ok p /\
  acceptable uni p DNan (DNum false 25 (-1)) /\
  format_ufloat (K := DecOps) uni DNan (DNum false 25 (-1)) (lit ",.2uS") = Ok (lit "nan(2.5)").
Proof.
  split; [right; reflexivity|]. split; [left; split; [apply dnum_real; lia|discriminate]|]. split; [reflexivity|]. split; [|vm_compute; reflexivity].
  split; [discriminate|]. split; [intros _ d [= <-]; discriminate|]. intros _ _ _. split; [apply dnum_real; lia|]. split; [reflexivity|]. right. reflexivity.
Qed.
Lemma ex_not_acceptable : let p := mkParts [] [] [] [] [] (lit ",") (Some (lit "2")) (lit "u") [] [] in
  parse_spec uni (lit ",.2u") = Ok p /\ ~ acceptable uni p DNan (DNum false 25 (-1)) /\
  format_ufloat (K := DecOps) uni DNan (DNum false 25 (-1)) (lit ",.2u") = Err EValue.
Proof.
  split; [reflexivity|]. split; [|vm_compute; reflexivity]. intros (_ & _ & X).
  destruct (X ltac:(discriminate) ltac:(discriminate) ltac:(left; reflexivity)) as (_ & _ & [(s & m & e & Y & _)|Y]); discriminate Y.
Qed.
(** No digit of the uncertainty. *)
Lemma ex_value_error : format_ufloat (K := DecOps) uni (DNum false 1 0) (DNum false 25 (-1)) (lit ".0u") = Err EValue /\
  format_ufloat (K := DecOps) uni (DNum false 1 0) (DNum false 25 (-1)) (lit ".0") = Ok (lit "1+/-2").
Proof. split; vm_compute; reflexivity. Qed.
(** Infinite numbers and NaN. *)
Lemma ex_words : let p := mkParts [] [] (lit "+") [] [] [] None [] (lit "E") (lit "L") in
  nonreal (DInf true) /\ std_like DNan /\ nonreal DNan /\ parse_spec uni (lit "+EL") = Ok p /\ pads p = false /\
  format_ufloat (K := DecOps) uni (DInf true) DNan (lit "+EL") = Ok (lit "-\infty \pm \mathrm{NAN}") /\
  word_text p (p_sign p) (DInf true) = lit "-\infty" /\ word_text p [] DNan = lit "\mathrm{NAN}" /\
  format_ufloat (K := DecOps) uni (DInf false) (DNum false 12345 3) (lit "*^+12") = Ok (lit "****+inf****+/-*12345000.0*").
Proof.
  split; [left; exists true; reflexivity|]. split; [right; right; reflexivity|]. split; [right; reflexivity|].
  repeat split; vm_compute; reflexivity.
Qed.
(** Zeros before NaN, and a precision that is used as a width. *)
Lemma words_padded :
  format_ufloat (K := DecOps) uni DNan DNan (lit "06") = Ok (lit "000nan+/-000nan") /\
  format_ufloat (K := DecOps) uni DNan DNan (lit ".5g") = Ok (lit "  nan+/-  nan").
Proof. split; vm_compute; reflexivity. Qed.
(** The exponent depends on 12 digits without type, 6 with g, and 7 with e. *)
Lemma ex_special_exponent :
  special (DNum false 0 0) /\ special DNan /\
  format_ufloat (K := DecOps) uni (DNum false 123456789123 0) (DNum false 0 0) [] = Ok (lit "123456789123.0+/-0") /\
  format_ufloat (K := DecOps) uni (DNum false 1234567891234 0) (DNum false 0 0) [] = Ok (lit "(1.234567891234+/-0)e+12") /\
  format_ufloat (K := DecOps) uni (DNum false 1234567 0) DNan (lit "g") = Ok (lit "(1.23457+/-nan)e+06") /\
  format_ufloat (K := DecOps) uni (DNum false 12345678 0) DNan (lit "e") = Ok (lit "(1.234568+/-nan)e+07") /\
  format_ufloat (K := DecOps) uni DNan (DNum false 1234567 0) (lit "g") = Ok (lit "(nan+/-1.23457)e+06") /\
  format_ufloat (K := DecOps) uni (DNum false 0 0) DNan (lit "e") = Ok (lit "(0.000000+/-nan)e+00").
Proof.
  split; [left; exists 0; reflexivity|]. split; [right; right; reflexivity|]. repeat split; vm_compute; reflexivity.
Qed.

(** Types g and none, without uncertainty. *)
Lemma ex_general :
  real (DNum true 1500 (-3)) /\ special (DNum false 0 0) /\
  parse_spec uni [] = Ok (mkParts [] [] [] [] [] [] None [] [] []) /\
  ~ ((p10 (-4) - 5 * p10 (-16) <= Qabs (dq (DNum true 1500 (-3))))%Q /\ (Qabs (dq (DNum true 1500 (-3))) < p10 (-4))%Q) /\
  format_ufloat (K := DecOps) uni (DNum true 1500 (-3)) (DNum false 0 0) [] = Ok (lit "-1.5+/-0") /\
  format_ufloat (K := DecOps) uni (DNum true 150 1) DNan (lit "S") = Ok (lit "-1500.0(nan)") /\
  format_ufloat (K := DecOps) uni (DNum false 120001 (-3)) (DInf false) (lit "g") = Ok (lit "120.001+/-inf") /\
  format_ufloat (K := DecOps) uni (DNum false 120000400 (-6)) (DInf false) (lit "g") = Ok (lit "120+/-inf") /\
  format_ufloat (K := DecOps) uni (DNum false 1200000 0) (DInf false) (lit ",g") = Ok (lit "(1.2+/-inf)e+06") /\
  format_ufloat (K := DecOps) uni (DNum false 0 0) (DInf false) (lit "G") = Ok (lit "0+/-INF").
Proof.
  split; [apply dnum_real; lia|]. split; [left; exists 0; reflexivity|]. split; [reflexivity|].
  split. { intros (_ & X). vm_compute in X. discriminate X. }
  repeat split; vm_compute; reflexivity.
Qed.
(** Just below 1e-4 the digits that decide on the exponent are rounded, those that are shown are not:
    the exponent of the nominal value is not the exponent of the output. *)
Lemma no_letter : forall a b s rest, ~ In 43 a -> ~ In 101 s -> s ++ 43 :: rest <> a ++ 101 :: b.
Proof.
  induction a as [|c a IH]; intros b s rest Ha Hs E.
  - destruct s as [|d s]; [discriminate|]. injection E as -> _. apply Hs. left. reflexivity.
  - destruct s as [|d s].
    + injection E as <- _. apply Ha. left. reflexivity.
    + injection E as -> E. apply (IH b s rest); [intros X; apply Ha; right; exact X|intros X; apply Hs; right; exact X|exact E].
Qed.
Lemma own_exponent : exists nom s p r, real nom /\ special s /\ parse_spec uni [] = Ok p /\
  format_ufloat (K := DecOps) uni nom s [] = Ok r /\ r = lit "9.99999999999999e-05+/-0" /\
  forall e nx ex x ns es w n d, laid_out uni p false e nx ex x ns es r -> ~ shown (p_sign p) (pads p) (commas p) w (signbit nom) n d ns.
Proof.
  exists (DNum false 999999999999999 (-19)), (DNum false 0 0), (mkParts [] [] [] [] [] [] None [] [] []), (lit "9.99999999999999e-05+/-0").
  split; [apply dnum_real; lia|]. split; [left; exists 0; reflexivity|]. split; [reflexivity|]. split; [vm_compute; reflexivity|].
  split; [reflexivity|].
  intros e nx ex x ns es w n d (_ & H) (t & Es & (i & f & Et & _ & Ff & _ & Gi & _) & _).
  cbn [p_opts opt in_dec p_width] in H. destruct e as [e|]; [discriminate H|].
  assert (Ns : ~ In 101 ns).
  { cbn in Es. subst ns. rewrite Et. intros X. apply in_app_or in X. 
    destruct X as [X|X].
    - assert (G2 : Forall (fun c : Z => 48 <= c <= 57) i) by exact Gi. clear Gi. rename G2 into Gi. rewrite Forall_forall in Gi. specialize (Gi _ X). lia.
    - destruct d; [destruct X|]. destruct X as [X|X]; [discriminate|]. unfold ascii_digits in Ff. rewrite Forall_forall in Ff. specialize (Ff _ X). lia. }
  assert (H2 : ns ++ 43 :: lit "/-" ++ es = lit "9.99999999999999e-05+/-0") by (symmetry; exact H). revert H2. change (lit "9.99999999999999e-05+/-0") with (lit "9.99999999999999" ++ 101 :: lit "-05+/-0").
  apply no_letter; [|exact Ns]. intros X. cbn in X. repeat (destruct X as [X|X]; [discriminate|]). destruct X.
Qed.
