(** Specification: arithmetic whose operations end. The model marks with [EFuel] an execution
    that was cut short; a computation that never ends gives it for every amount of fuel. *)
From Verif Require Import Base.

(** The arithmetic operations that reads rely on end: int/float conversions, divisions
    (Python and NumPy), powers and square roots. *)
Record ends (N : NumOps) : Prop := mkEnds {
  ends_of_Z : forall z, n_of_Z N z <> Err EFuel;
  ends_divZ : forall x y, n_divZ N x y <> Err EFuel;
  ends_div : forall x y, n_div N x y <> Err EFuel;
  ends_pow : forall x y, n_pow N x y <> Err EFuel;
  ends_sqrt : forall x, n_fun1 N F_sqrt x <> Err EFuel;
  ends_nan : n_nan N <> Err EFuel;
  ends_npdiv : forall x y, n_npdiv N x y <> Err EFuel }.
