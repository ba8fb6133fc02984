(** Concrete cases for the theorems about formatting and parsing numbers that are not real. *)
From Coq Require Import String.
From Coq Require Import ZArith List Bool Lia QArith Qabs.
From Verif Require Import Base Str FmtOps Format Parse FmtSpec ParseSpec ExFmt ExReal ExParse.
Import ListNotations.
Local Open Scope Z_scope.

(** The conditions of the theorems. *)
Definition plain_spec (spec : str) : Prop := exists p, parse_spec uni spec = Ok p /\
  p_type p <> lit "%" /\ p_comma p = [] /\ opt (p_opts p) 76 = false /\ p_align p <> lit "=" /\ pads p = false /\
  (p_width p = [] \/ (u_spc uni (fill_of p) = true /\ fill_of p <> 10)).
Lemma ex_special_trip : (plain_spec (lit "<14.2e") /\
   exists p, parse_spec uni (lit "<14.2e") = Ok p /\ ~ gen_type (p_type p)) /\
  real (DNum true 12345 3) /\ special_std DNan /\ special_std (DNum false 0 0) /\
  format_ufloat (K := DecOps) uni (DNum true 12345 3) DNan (lit "<14.2e") = Ok (lit "-1.23e+07     +/-nan           ") /\
  parsed (lit "-1.23e+07     +/-nan           ") = Ok (DNum true 123 5, DNan, X, 0%nat) /\
  format_ufloat (K := DecOps) uni (DNum true 12345 3) (DNum false 0 0) (lit ".2eSP") = Ok (lit "-1.23(0)" ++ 215 :: lit "10" ++ [8311]) /\
  parsed (lit "-1.23(0)" ++ 215 :: lit "10" ++ [8311]) = Ok (DNum true 123 5, DNum false 0 5, X, 0%nat).
Proof.
  split; [split|].
  - exists (mkParts [] (lit "<") [] [] (lit "14") [] (Some (lit "2")) [] (lit "e") []). split; [vm_compute; reflexivity|].
    repeat split; try discriminate; try (vm_compute; reflexivity). right. split; [reflexivity|vm_compute; discriminate].
  - exists (mkParts [] (lit "<") [] [] (lit "14") [] (Some (lit "2")) [] (lit "e") []). split; [vm_compute; reflexivity|].
    intros [X|[X|X]]; discriminate X.
  - split; [apply dnum_real; lia|]. split; [right; right; reflexivity|]. split; [left; exists 0; reflexivity|].
    repeat split; vm_compute; reflexivity.
Qed.
Lemma ex_word_trip : plain_spec (lit "+10") /\ plain_spec (lit "S") /\
  nonreal (DInf true) /\ special_std DNan /\
  format_ufloat (K := DecOps) uni (DInf true) DNan (lit "+10") = Ok (lit "      -inf+/-       nan") /\
  parsed (lit "      -inf+/-       nan") = Ok (DInf true, DNan, X, 0%nat) /\
  format_ufloat (K := DecOps) uni (DInf true) DNan (lit "S") = Ok (lit "-inf(nan)") /\
  parsed (lit "-inf(nan)") = Ok (DInf true, DNan, X, 0%nat).
Proof.
  split; [|split].
  - exists (mkParts [] [] (lit "+") [] (lit "10") [] None [] [] []). split; [vm_compute; reflexivity|].
    repeat split; try discriminate; try (vm_compute; reflexivity). right. split; [reflexivity|vm_compute; discriminate].
  - exists (mkParts [] [] [] [] [] [] None [] [] (lit "S")). split; [vm_compute; reflexivity|].
    repeat split; try discriminate; try (vm_compute; reflexivity). left. reflexivity.
  - split; [left; eexists; reflexivity|]. split; [right; right; reflexivity|]. repeat split; vm_compute; reflexivity.
Qed.
Lemma ex_general_trip : plain_spec [] /\ real (DNum true 314159265358979 (-5)) /\ special_std (DInf false) /\
  format_ufloat (K := DecOps) uni (DNum true 314159265358979 (-5)) (DInf false) [] = Ok (lit "-3141592653.58979+/-inf") /\
  parsed (lit "-3141592653.58979+/-inf") = Ok (DNum true 314159265358979 (-5), DInf false, X, 0%nat) /\
  plain_spec (lit "g") /\
  format_ufloat (K := DecOps) uni (DNum true 314159265358979 (-5)) (DInf false) (lit "g") = Ok (lit "(-3.14159+/-inf)e+09") /\
  parsed (lit "(-3.14159+/-inf)e+09") = Ok (DNum true 314159 4, DInf false, X, 0%nat).
Proof.
  split; [|split; [apply dnum_real; lia|split; [right; left; reflexivity|]]].
  - exists (mkParts [] [] [] [] [] [] None [] [] []). split; [vm_compute; reflexivity|].
    repeat split; try discriminate; try (vm_compute; reflexivity). left. reflexivity.
  - split; [vm_compute; reflexivity|]. split; [vm_compute; reflexivity|]. split.
    + exists (mkParts [] [] [] [] [] [] None [] (lit "g") []). split; [vm_compute; reflexivity|].
      repeat split; try discriminate; try (vm_compute; reflexivity). left. reflexivity.
    + split; vm_compute; reflexivity.
Qed.
Lemma ex_word_real_trip : plain_spec (lit ".3e") /\ nonreal DNan /\ real (DNum false 12344 (-3)) /\ (0 < dq (DNum false 12344 (-3)))%Q /\
  format_ufloat (K := DecOps) uni DNan (DNum false 12344 (-3)) (lit ".3e") = Ok (lit "(nan+/-1.234)e+01") /\
  parsed (lit "(nan+/-1.234)e+01") = Ok (DNan, DNum false 1234 (-2), X, 0%nat).
Proof.
  split; [|split; [right; reflexivity|split; [apply dnum_real; lia|split; [reflexivity|]]]].
  - exists (mkParts [] [] [] [] [] [] (Some (lit "3")) [] (lit "e") []). split; [vm_compute; reflexivity|].
    repeat split; try discriminate; try (vm_compute; reflexivity). left. reflexivity.
  - split; vm_compute; reflexivity.
Qed.
(** In shorthand notation, the uncertainty of NaN is shown in units of a digit that is not there. *)
Lemma word_units : plain_spec (lit "S") /\
  format_ufloat (K := DecOps) uni DNan (DNum false 1 (-1)) (lit "S") = Ok (lit "nan(100000000000)") /\
  parsed (lit "nan(100000000000)") = Ok (DNan, DNum false 100000000000 0, X, 0%nat).
Proof.
  split; [|split; vm_compute; reflexivity].
  exists (mkParts [] [] [] [] [] [] None [] [] (lit "S")). split; [vm_compute; reflexivity|].
  repeat split; try discriminate; try (vm_compute; reflexivity). left. reflexivity.
Qed.
