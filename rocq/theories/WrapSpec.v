(** Documented choice of derivatives by wrap() (core.py 464-517). *)
From Coq Require Import ZArith List Bool.
From Verif Require Import Base Heap Affine Wrap.
Import ListNotations.

(** Element number [n] of an iterable: None if it is shorter. *)
Fixpoint element {A} (it : nat -> option (option A)) (n : nat) : option A :=
  match it 0%nat with
  | None => None
  | Some v => match n with O => v | S n' => element (fun k => it (S k)) n' end
  end.

(** Position of a name in a list of names. *)
Fixpoint position (k : nat) (names : list nat) : option nat :=
  match names with
  | [] => None
  | k' :: names' => if Nat.eqb k k' then Some 0%nat else option_map S (position k names')
  end.

Section Select.
Context {N : NumOps}.
Variables (f : pyfun N) (dargs : iterator (pyder N)) (dkw : list (nat * option (pyder N)))
  (params : option (list nat)).

(** Positional argument number [i]. *)
Definition documented_pos (i : nat) : pyder N :=
  match element dargs i with Some d => d | None => partial_derivative f (APos i) end.

(** Keyword argument [k]: the derivative of the positional parameter of that name if there is
    one, otherwise the derivative given in derivatives_kwargs. *)
Definition documented_kw (k : nat) : pyder N :=
  match match params with Some ps => position k ps | None => None end with
  | Some i => match element dargs i with Some d => d | None => partial_derivative f (AName k) end
  | None => match dget dkw k with Some (Some d) => d | _ => partial_derivative f (AName k) end
  end.
End Select.
