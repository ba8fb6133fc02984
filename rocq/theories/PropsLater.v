(** Property theorems: calculations can be repeated, in any arithmetic. *)
From Coq Require Import ZArith List Bool.
From Verif Require Import Base NumF Heap HeapSpec Affine Ops UMath Machine Cov Calls Unumpy UMatrix History FRefute DepSpec TwinSpec StaySpec Stay StayF LaterSpec Later LaterMore ExLater.
Import ListNotations.

(** ** C80 *)
(** C80: a program that uses numbers of which the derivatives have been read gives the same results when it is run later (same outcomes, exceptions included; same nominal values), if the standard deviations of their variables are the same then; only the variables that it creates have other names. Any arithmetic. *)
Theorem C80_repeat : forall (N : NumOps), forall (st st' : state N) prog k st1 os, reachable st -> afterwards st st' -> uses_settled st st' prog -> run k st prog = (st1, os) ->
  let m := length (st_env st) in let m' := length (st_env st') in
  exists rho st1', (forall v, existing st v -> rho v = v) /\ (forall v w, rho v = rho w -> v = w) /\
    run k st' (map (rename (shifted m m')) prog) = (st1', map (out_as rho) os) /\
    forall j, option_map (@nominal_value N) (nth_error (st_env st1') (m' + j)) = option_map (@nominal_value N) (nth_error (st_env st1) (m + j)).
Proof. exact @later_same. Qed.
Print Assumptions C80_repeat.
(** z = x*y has been read; w = z + y is calculated and read, compared with z, and a variable is created, before or after t = z*z. *)
Example C80_example : reachable zr /\ afterwards zr zq /\ uses_settled zr zq again /\ (length (st_env zr) < length (st_env zq))%nat /\
  map (fun o : out FN => match o with ODict d => length d | _ => 0%nat end) (snd (run 40 zr again)) = [0; 2; 0; 0]%nat.
Proof. exact ex_again. Qed.
(** ... Comparisons of such numbers do not change. *)
Theorem C80_comparison : forall (N : NumOps), forall (st st' : state N) c i j b, reachable st -> afterwards st st' -> settled st i -> settled st j ->
  same_deviations st st' i -> same_deviations st st' j -> reads st (ICmp c i j) (OBool b) -> reads st' (ICmp c i j) (OBool b).
Proof. exact @comparison_stays. Qed.
Print Assumptions C80_comparison.
(** ... Truth values do not change. *)
Theorem C80_truth : forall (N : NumOps), forall (st st' : state N) i b, reachable st -> afterwards st st' -> settled st i -> same_deviations st st' i ->
  reads st (IBool i) (OBool b) -> reads st' (IBool i) (OBool b).
Proof. exact @truth_stays. Qed.
Print Assumptions C80_truth.
(** z == y and bool(z). *)
Example C80_compared_example : settled zr 1 /\ settled zr 2 /\ same_deviations zr zq 1 /\ same_deviations zr zq 2 /\ reads zr (ICmp Ceq 2 1) (OBool false) /\ reads zr (IBool 2) (OBool true).
Proof. exact ex_compared. Qed.
(** ... This is so for any number after its derivatives have been read (for instance in C79_example) ... *)
Theorem C80_read_settles : forall (N : NumOps), forall (st0 st st' : state N) i u d, reachable st0 -> is_number st0 i u -> does st0 (IDeriv i) st (ODict d) -> readable st i d -> afterwards st st' -> settled st' i.
Proof. exact @read_settles. Qed.
Print Assumptions C80_read_settles.
(** ... and for variables (for instance in C13_binary64_example). *)
Theorem C80_variable : forall (N : NumOps), forall (st st1 st' : state N) n s tag, does st (INew n s tag) st1 ONone -> afterwards st1 st' -> settled st' (length (st_env st)).
Proof. exact @variable_settled. Qed.
Print Assumptions C80_variable.
(** ** C79 *)
(** C79: the standard deviation and the tag of a variable do not change, unless its standard deviation is set. *)
Theorem C79_deviations : forall (N : NumOps), forall (st : state N) ins st' o v, does st ins st' o -> existing st v ->
  (forall i s u, ins = ISet i s -> is_number st i u -> uf_var u <> Some v) -> sd st' v = sd st v /\ vtag st' v = vtag st v.
Proof. exact @deviations_stay. Qed.
Print Assumptions C79_deviations.
(** x.std_dev = 2, and the variable y. *)
Example C79_deviations_example : does zr (ISet 0 (PZ 2)) zl ONone /\ existing zr 1%nat /\ forall i s u, @ISet FN 0 (PZ 2) = ISet i s -> is_number zr i u -> uf_var u <> Some 1%nat.
Proof. exact ex_deviation. Qed.
