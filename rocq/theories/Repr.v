(** repr() of variables, which shows their tags. *)
From Coq Require Import String.
From Coq Require Import ZArith List Bool.
From Verif Require Import Base Str FmtOps Format.
Import ListNotations.

(** core.py 2798-2805: Variable.__repr__(); the tag is given by its str(), None if there is none. *)
Definition repr_variable {K : FmtOps} (tag : option str) (nom s : fl K) : str :=
  match tag with
  | None => repr_ufloat nom s
  | Some t => lit "< " ++ t ++ lit " = " ++ repr_ufloat nom s ++ lit " >"
  end.
