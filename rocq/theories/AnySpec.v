(** Specification of uncertainties in any arithmetic, in terms of what is read. *)
From Coq Require Import ZArith List Bool.
From Verif Require Import Base Heap Affine Ops UMath Machine.
Import ListNotations.

Section AnySpec.
Context {N : NumOps}.

(** Contribution of a variable of standard deviation [s] with respect to which the derivative is [x]:
    the int 0 for a zero standard deviation, whatever the derivative. *)
Definition component (s x : num N) : pynum N :=
  if n_eq N s (n_zero N) then PZ 0 else PF (n_abs N (n_mul N x s)).
(** The square root of the sum of the squares, from the left, as Python calculates it. *)
Definition root_of_squares (l : list (pynum N)) : res (num N) :=
  rbind (fold_left (fun acc c => rbind acc (fun a => rbind (pn_square c) (pn_add a))) l (Ok (PZ 0))) pn_sqrt.
Definition as_number (r : res (num N)) : out N := match r with Ok x => ONum x | Err e => OExn e end.
End AnySpec.

Section AnyCov.
Context {N : NumOps}.
(** The sum over the variables [vs], from the left, of the products of the two derivatives and of the
    square of the standard deviation. *)
Definition covariance_sum (sd : varid -> num N) (d d' : dict N) (vs : list varid) : res (num N) :=
  fold_left (fun acc v => rbind acc (fun c => rbind (n_powf (sd v) (n_two N)) (fun s2 =>
    match dget d v, dget d' v with
    | Some x, Some y => Ok (n_add N c (n_mul N (n_mul N x y) s2))
    | _, _ => Err EKey
    end))) vs (Ok (n_zero N)).
(** The variables of both numbers. *)
Definition both (d d' : dict N) : list varid := filter (fun v => existsb (Nat.eqb v) (dkeys d')) (dkeys d).
End AnyCov.
