(** Property theorems about formatting. *)
From Coq Require Import String.
From Coq Require Import ZArith List Bool QArith Qabs.
From Verif Require Import Base Str FmtOps Format FmtSpec SpecProofs ExFmt.
Import ListNotations.
Local Open Scope Z_scope.

(** ** C36 *)
(** C36: every specification of the documented form is accepted, and its parts are those that were assembled. *)
Theorem C36_accepted : forall (U : Unicode), UniLaws U -> forall s p, assembled U p s -> zero_apart p -> fill_aligned p ->
  parse_spec U s = Ok p.
Proof. exact spec_assembled. Qed.
Print Assumptions C36_accepted.
Example C36_accepted_example : assembled uni full_parts (lit "*^+010,.2ufSL") /\ zero_apart full_parts /\ fill_aligned full_parts.
Proof. exact full_assembled. Qed.
(** C36, converse: an accepted specification is assembled from the parts found (a final newline is ignored). *)
Theorem C36_parts : forall (U : Unicode), UniLaws U -> forall s p, parse_spec U s = Ok p ->
  (assembled U p s \/ exists t, s = t ++ [10] /\ assembled U p t) /\ zero_apart p.
Proof. exact spec_parts. Qed.
Print Assumptions C36_parts.
Example C36_parts_example : parse_spec uni (lit "*^+010,.2ufSL") = Ok full_parts.
Proof. exact full_spec. Qed.
(** C36: everything else is a ValueError. *)
Theorem C36_refused : forall (U : Unicode), UniLaws U -> forall s,
  (forall p, ~ assembled U p s /\ forall t, s = t ++ [10] -> ~ assembled U p t) -> parse_spec U s = Err EValue.
Proof. exact spec_refused. Qed.
Print Assumptions C36_refused.
Example C36_refused_example : forall p, ~ assembled uni p (lit "10d") /\ forall t, lit "10d" = t ++ [10] -> ~ assembled uni p t.
Proof. exact no_spec. Qed.
(** Contrary to the documented form, a fill character is accepted without alignment... *)
Theorem C36_fill_refuted : parse_spec uni (lit "x.2f") = Ok x2f /\ ~ fill_aligned x2f.
Proof. exact junk_fill. Qed.
Print Assumptions C36_fill_refuted.
(** ... and so is a newline at the end. *)
Theorem C36_newline_refuted : parse_spec uni (lit ".2f" ++ [10]) = parse_spec uni (lit ".2f") /\
  forall p, ~ assembled uni p (lit ".2f" ++ [10]).
Proof. exact trailing_newline. Qed.
Print Assumptions C36_newline_refuted.
