(** Concrete cases for the theorem about the accepted texts. *)
From Coq Require Import String.
From Coq Require Import ZArith List Bool Lia.
From Verif Require Import Base Str FmtOps Format Parse FmtSpec ParseSpec LangSpec ExFmt ExParse.
Import ListNotations.
Local Open Scope Z_scope.

(** An exponent that is not applied; underscores, and text after a newline. *)
Lemma ex_accepted :
  (accepted uni (lit " (10.5(2))e-3") (MParen (LDec false 105 (-1)) 1 (UUnits 2) None) (Some (-3)) /\
   parsed (lit " (10.5(2))e-3") = Ok (DNum false 105 (-1), DNum false 2 (-1), X, 0%nat)) /\
  (accepted uni (lit "1_0+/-2" ++ [10] ++ lit "metres") (MPair (LDec false 10 0) None (LDec false 2 0) None None) None /\
   parsed (lit "1_0+/-2" ++ [10] ++ lit "metres") = Ok (DNum false 10 0, DNum false 2 0, X, 0%nat)).
Proof.
  split; (split; [|vm_compute; reflexivity]).
  - apply (ac_plain uni (lit " ") (lit "(10.5(2))e-3") []); [constructor; [reflexivity|constructor]|constructor|].
    apply (tl_ignored uni (lit "10.5(2)") _ (lit "e") (lit "-3") (-3) []).
    + exists [], false, (lit "10.5"), (LDec false 105 (-1)), 1%nat, (lit "(2)"), (UUnits 2), [], None, [].
      split; [reflexivity|]. split; [constructor|]. split.
      { apply (un_dec uni false (lit "10.5") 105 1). apply (de_point uni (lit "10") (lit "5")); [chars_ok|chars_ok|discriminate]. }
      split; [apply (ip_units uni (lit "2")); [chars_ok|discriminate]|]. split; [constructor|]. split; [left; reflexivity|reflexivity].
    + intros H. vm_compute in H. intuition discriminate.
    + constructor. left; reflexivity.
    + intros H. vm_compute in H. intuition discriminate.
    + exists (lit "-3"). split; [repeat (constructor; [left; reflexivity|]); constructor|].
      apply (it_sign uni [] (lit "-") true (lit "3") [3] []); try constructor. reflexivity.
    + left; reflexivity.
  - apply (ac_plain uni [] (lit "1_0+/-2" ++ [10] ++ lit "metres") []); [constructor|constructor|].
    apply (tl_pair uni (lit "1_0") _ None (lit "+/-") (lit "2") _ None ([10] ++ lit "metres")).
    + apply nl_float. apply (fl_dec uni [] [] false (lit "1_0") [1; 0] [] [] [] 0 []); try (constructor; fail); try constructor.
      * apply gr_under; [reflexivity|]. constructor. reflexivity.
      * discriminate.
    + left. reflexivity.
    + apply nl_float. apply (fl_dec uni [] [] false (lit "2") [2] [] [] [] 0 []); try (constructor; fail); try constructor.
      * constructor. reflexivity.
      * discriminate.
    + intros H. vm_compute in H. intuition discriminate.
    + intros H. vm_compute in H. intuition discriminate.
    + right. exists (lit "metres"). reflexivity.
Qed.
