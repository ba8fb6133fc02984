(** Specification vocabulary for heaps: dependence, well-formedness, denotation in the reals.
    Independent of the expansion algorithm. *)
From Coq Require Import ZArith List Bool Reals Arith.
From Verif Require Import Base Heap NumR.
Import ListNotations.

Section HeapSpec.
Context {N : NumOps}.

(** A linear combination depends on a variable: some path leads to a dict with that key. *)
Inductive dep (h : heap N) : loc -> varid -> Prop :=
| dep_dict : forall l d v, get_lc h l = LDict d -> In v (dkeys d) -> dep h l v
| dep_list : forall l its c l' v,
    get_lc h l = LList its -> In (IPair c l') its -> dep h l' v -> dep h l v.

(** Well-formed object at location [l]: pairs only, coefficients satisfying [P], references to
    older objects only, no duplicate key, only existing variables as keys. *)
Definition item_ok (P : pynum N -> Prop) (l : loc) (it : item N) : Prop :=
  match it with IPair c l' => P c /\ (l' < l)%nat | _ => False end.
Definition lc_ok (P : pynum N -> Prop) (nv : nat) (l : loc) (x : lc N) : Prop :=
  match x with
  | LDict d => NoDup (dkeys d) /\ (forall v, In v (dkeys d) -> (v < nv)%nat)
  | LList its => forall it, In it its -> item_ok P l it
  end.
(** Well-formed heap. *)
Record wf (P : pynum N -> Prop) (h : heap N) : Prop := {
  wf_lc : forall l, (l < length (h_lc h))%nat -> lc_ok P (length (h_var h)) l (get_lc h l);
  wf_var : forall v o, get_var h v = Some o ->
      (v_lp o < length (h_lc h))%nat /\ get_lc h (v_lp o) = LDict [(v, n_one N)]
}.

(** Coefficients that multiply and convert to float without error. *)
Record coef_class (P : pynum N -> Prop) : Prop := {
  cc_mul : forall a b, P a -> P b -> exists p, pn_mul a b = Ok p /\ P p;
  cc_float : forall a, P a -> exists x, pn_float a = Ok x
}.

(** Unfolded size of a linear combination: number of nodes of the tree obtained by
    unsharing; bounded recursion on locations. *)
Fixpoint usize (n : nat) (h : heap N) (l : loc) : nat :=
  match n with
  | O => 1%nat
  | S n' =>
      match get_lc h l with
      | LDict _ => 1%nat
      | LList its => S (list_sum (map (fun it => match it with
                                                 | IPair _ l' => usize n' h l'
                                                 | _ => 0%nat end) its))
      end
  end.

End HeapSpec.

Section Den.
Context {g lg : R -> R}.
Notation RN := (ROps g lg).
Open Scope R_scope.

Definition pval (c : pynum RN) : R := match c with PZ z => IZR z | PF x => x end.

(** Value of a dict at a variable: 0 for an absent key. *)
Definition dval (d : dict RN) (v : varid) : R :=
  match dget d v with Some x => x | None => 0 end.

Fixpoint Rsum (l : list R) : R := match l with [] => 0 | x :: l' => x + Rsum l' end.

(** Coefficient of the differential of [v] in the linear combination [l]: the sum over all
    paths of the products of coefficients. *)
Fixpoint uden (n : nat) (h : heap RN) (l : loc) (v : varid) : R :=
  match get_lc h l with
  | LDict d => dval d v
  | LList its =>
      match n with
      | O => 0
      | S n' => Rsum (map (fun it => match it with
                                     | IPair c l' => pval c * uden n' h l' v
                                     | _ => 0 end) its)
      end
  end.
Definition den (h : heap RN) (l : loc) (v : varid) : R := uden l h l v.
End Den.
