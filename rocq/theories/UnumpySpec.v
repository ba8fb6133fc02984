(** Vocabulary for statements about arrays. Specification only. *)
From Coq Require Import String.
From Coq Require Import ZArith List Bool Reals Arith.
From Verif Require Import Base Heap Affine NumR HeapSpec Machine History CovSpec Unumpy.
Import ListNotations.

(** ** Arrays *)
(** Indices of an array: one non-negative integer per dimension, below that dimension. *)
Definition valid (sh idx : list nat) : Prop := Forall2 lt idx sh.
(** Position of an index: the last component varies fastest. *)
Fixpoint rank (sh idx : list nat) : nat :=
  match sh, idx with n :: sh', i :: idx' => i * count sh' + rank sh' idx' | _, _ => 0 end.
(** a[idx]. *)
Definition elem {A} (a : arr A) (idx : list nat) : option A := nth_error (a_flat a) (rank (a_shape a) idx).
(** Two arrays of the same shape whose elements are related. *)
Definition elementwise {A B} (P : A -> B -> Prop) (a : arr A) (b : arr B) : Prop :=
  a_shape b = a_shape a /\
  forall idx, valid (a_shape a) idx -> exists x y, elem a idx = Some x /\ elem b idx = Some y /\ P x y.

(** NumPy's broadcasting: dimensions are compared from the last one; missing dimensions count
    as 1; a dimension 1 adapts to the other one. *)
Definition dim_from_end (sh : list nat) (k : nat) : nat := nth k (rev sh) 1.
Definition broadcasts (s1 s2 sh : list nat) : Prop :=
  List.length sh = max (List.length s1) (List.length s2) /\
  forall k, let d1 := dim_from_end s1 k in let d2 := dim_from_end s2 k in
    (d1 = d2 \/ d1 = 1 \/ d2 = 1) /\ dim_from_end sh k = if Nat.eqb d1 1 then d2 else d1.
(** The index, in an array of shape [sa], of the element shown at index [idx] of the broadcast
    array: extra leading components are dropped, and dimensions 1 have a single index. *)
Definition shown (sa idx : list nat) : list nat :=
  map (fun p => if Nat.eqb (fst p) 1 then 0 else snd p)
      (combine sa (skipn (List.length idx - List.length sa) idx)).

(** ** Matrices of real numbers, as functions of the row and the column *)
Local Open Scope R_scope.
Definition mx := nat -> nat -> R.
Definition mprod (n : nat) (A B : mx) : mx := fun i j => Sum n (fun k => A i k * B k j).
Definition madd (A B : mx) : mx := fun i j => A i j + B i j.
Definition mscal (c : R) (A : mx) : mx := fun i j => c * A i j.
Definition mtr (A : mx) : mx := fun i j => A j i.
(** Equality of m x n matrices. *)
Definition meq (m n : nat) (A B : mx) : Prop := forall i j, (i < m)%nat -> (j < n)%nat -> A i j = B i j.
(** B is the inverse of the n x n matrix A. *)
Definition is_inverse (n : nat) (A B : mx) : Prop :=
  meq n n (mprod n A B) kron /\ meq n n (mprod n B A) kron.
(** P is the Moore-Penrose inverse of the m x n matrix A: the four Penrose equations. *)
Definition is_pinv (m n : nat) (A P : mx) : Prop :=
  meq m n (mprod m (mprod n A P) A) A /\ meq n m (mprod n (mprod m P A) P) P /\
  meq m m (mtr (mprod n A P)) (mprod n A P) /\ meq n n (mtr (mprod m P A)) (mprod m P A).

(** NumPy's name of a function of the math module, if it has that function. NumPy's reference,
    "Mathematical functions". *)
Definition numpy_name (s : string) : option string :=
  match (find (fun p => String.eqb s (fst p))
    [("acos", "arccos"); ("acosh", "arccosh"); ("asin", "arcsin"); ("asinh", "arcsinh");
     ("atan", "arctan"); ("atan2", "arctan2"); ("atanh", "arctanh"); ("ceil", "ceil");
     ("copysign", "copysign"); ("cos", "cos"); ("cosh", "cosh"); ("degrees", "degrees");
     ("exp", "exp"); ("expm1", "expm1"); ("fabs", "fabs"); ("floor", "floor"); ("fmod", "fmod");
     ("frexp", "frexp"); ("hypot", "hypot"); ("isinf", "isinf"); ("isnan", "isnan");
     ("ldexp", "ldexp"); ("log", "log"); ("log10", "log10"); ("log1p", "log1p"); ("modf", "modf");
     ("pow", "power"); ("radians", "radians"); ("sin", "sin"); ("sinh", "sinh"); ("sqrt", "sqrt");
     ("tan", "tan"); ("tanh", "tanh"); ("trunc", "trunc")])%string with
  | Some p => Some (snd p) | None => None end.

