(** Property theorems about histories of API calls, over exact (real) arithmetic. *)
From Coq Require Import ZArith List Bool Reals Lra.
From Coquelicot Require Import Coquelicot.
From Verif Require Import Base Heap Affine Ops UMath NumR HeapSpec Machine Plain Regular Prim
  History HistoryProofs PrimReg Examples ExFacts.
Import ListNotations.
Local Open Scope R_scope.

(** C02. After any program whose elementary steps are differentiable where they are used, with
    any reads and updates in between, the derivatives of a result are the partial derivatives
    of the function that the program computes. *)
Theorem C02_true_derivatives : forall (g lg : R -> R) (prog : list (instr (ROps g lg))) st os i u d,
  runs init prog st os -> defined_ok prog os ->
  regular (x0_of (N:=ROps g lg) prog) pinit prog -> is_number st i u ->
  reads st (IDeriv i) (ODict d) ->
  result prog i (x0_of (N:=ROps g lg) prog) = Some (uf_nom u) /\
  (forall v, (v < length (noms (N:=ROps g lg) prog))%nat ->
   is_derive (fun t => match result prog i (upd (x0_of (N:=ROps g lg) prog) v t) with
                       | Some y => y | None => 0 end) (x0_of (N:=ROps g lg) prog v) (dval d v)) /\
  (forall v, In v (dkeys d) -> (v < length (noms (N:=ROps g lg) prog))%nat).
Proof. exact @derivatives_true. Qed.
Print Assumptions C02_true_derivatives.

(** C02, C21, C22, C23, C30. The same for programs made of the package's own operators and math
    functions, used in the interior of their domains: nothing is assumed about derivatives. *)
Theorem C02_builtin_derivatives : forall (g lg : R -> R) (prog : list (instr (ROps g lg))) st os i u d,
  runs init prog st os -> defined_ok prog os ->
  in_domain (x0_of (N:=ROps g lg) prog) pinit prog -> is_number st i u ->
  reads st (IDeriv i) (ODict d) ->
  result prog i (x0_of (N:=ROps g lg) prog) = Some (uf_nom u) /\
  (forall v, (v < length (noms (N:=ROps g lg) prog))%nat ->
   is_derive (fun t => match result prog i (upd (x0_of (N:=ROps g lg) prog) v t) with
                       | Some y => y | None => 0 end) (x0_of (N:=ROps g lg) prog v) (dval d v)) /\
  (forall v, In v (dkeys d) -> (v < length (noms (N:=ROps g lg) prog))%nat).
Proof. exact @builtin_derivatives. Qed.
Print Assumptions C02_builtin_derivatives.
(** (x+y)*x at x = 1, y = 2: derivatives 4 and 1. *)
Example C02_example : forall g lg : R -> R,
  runs (N:=ROps g lg) init ex_prog0 ex_st ex_os /\ defined_ok (N:=ROps g lg) ex_prog0 ex_os /\
  in_domain (g:=g) (lg:=lg) (x0_of (N:=ROps g lg) ex_prog0) pinit ex_prog0 /\
  is_number (N:=ROps g lg) ex_st 3 (mkUF (N:=ROps g lg) ((1 + 2) * 1) 3%nat None) /\
  exists d, reads ex_st (IDeriv 3) (ODict (N:=ROps g lg) d) /\ dval d 0%nat = 4 /\ dval d 1%nat = 1.
Proof. exact @ex_C02. Qed.
(** sin((x+y)*x) and x**2 are in the domain as well. *)
Example C02_example_umath : forall g lg : R -> R,
  in_domain (g:=g) (lg:=lg) (x0_of (N:=ROps g lg) ex_prog) pinit ex_prog.
Proof. exact @ex_in_domain. Qed.

(** C03. Linear error propagation, with the current standard deviations. *)
Theorem C03_std_dev_formula : forall (g lg : R -> R) (st : state (ROps g lg)) i u d,
  reachable st -> is_number st i u -> reads st (IDeriv i) (ODict d) ->
  reads st (IStd i) (ONum (N:=ROps g lg)
    (sqrt (Rsum (map (fun p => (snd p * sd st (fst p)) ^ 2) d)))).
Proof. exact @std_dev_formula. Qed.
Print Assumptions C03_std_dev_formula.
(** x + y with standard deviations 3 and 4. *)
Example C03_example : forall g lg : R -> R, reachable (N:=ROps g lg) ex_st /\
  is_number (N:=ROps g lg) ex_st 2 (mkUF (N:=ROps g lg) (1 + 2) 2%nat None) /\
  reads ex_st (IStd 2) (ONum (N:=ROps g lg) 5) /\ reads ex_st (IStd 3) (ONum (N:=ROps g lg) (sqrt 160)).
Proof. exact @ex_C03. Qed.

(** C04. A read inserted anywhere in a history changes nothing later. *)
Theorem C04_laziness_invisible : forall (g lg : R -> R) (st : state (ROps g lg)) r st' o prog st1 os1 st2 os2,
  reachable st -> is_read r = true -> does st r st' o ->
  runs st prog st1 os1 -> runs st' prog st2 os2 ->
  Forall2 same_out os1 os2 /\ map nominal_value (st_env st1) = map nominal_value (st_env st2).
Proof. exact @laziness_invisible. Qed.
Print Assumptions C04_laziness_invisible.
(** The read really changes the heap (the linear part is expanded). *)
Example C04_example : forall g lg : R -> R, exists st', does ex_st (IDeriv 3) st'
    (snd (step 9 ex_st (IDeriv (N:=ROps g lg) 3))) /\ st' <> ex_st.
Proof. exact @ex_C04. Qed.

(** C05. Every read of every number with uncertainty of any reachable state succeeds. *)
Theorem C05_reads_succeed : forall (g lg : R -> R) (st : state (ROps g lg)) i u,
  reachable st -> is_number st i u ->
  (exists d, reads st (IDeriv i) (ODict d) /\ NoDup (dkeys d)) /\
  (exists x, reads st (IStd i) (ONum x)) /\ (exists x, reads st (IStdS i) (ONum x)) /\
  (exists l, reads st (IErrs i) (OErrs l)) /\ (exists b, reads st (IBool i) (OBool b)) /\
  (forall c j b, nth_error (st_env st) j = Some b ->
     (is_uf b = true \/ exists p, b = VNum p) -> exists t, reads st (ICmp c i j) (OBool t)).
Proof. exact @reads_succeed. Qed.
Print Assumptions C05_reads_succeed.
Example C05_example : forall g lg : R -> R, exists d,
  reads ex_st (IDeriv 3) (ODict (N:=ROps g lg) d) /\ dval d 0%nat = 4 /\ dval d 1%nat = 1
  /\ dkeys d = [0; 1]%nat.
Proof. exact @ex_deriv3. Qed.

(** C06. Two calculations of the same function of the variables compare equal. *)
Theorem C06_same_function_equal : forall (g lg : R -> R) (prog : list (instr (ROps g lg))) st os i u j u',
  runs init prog st os -> defined_ok prog os ->
  regular (x0_of (N:=ROps g lg) prog) pinit prog -> is_number st i u -> is_number st j u' ->
  (exists e, 0 < e /\ forall x, (forall k, Rabs (x k - x0_of (N:=ROps g lg) prog k) < e) ->
     result prog i x = result prog j x) ->
  reads st (ICmp Ceq i j) (OBool true).
Proof. exact @same_function_equal. Qed.
Print Assumptions C06_same_function_equal.
(** ... and their difference is exactly 0 +/- 0. *)
Theorem C06_difference_vanishes : forall (g lg : R -> R) (st : state (ROps g lg)) i u j u' st' w,
  reachable st -> is_number st i u -> is_number st j u' ->
  does st (IBin Bsub i j) st' ONone -> is_number st' (length (st_env st)) w ->
  (reads st (ICmp Ceq i j) (OBool true) <->
   uf_nom w = 0 /\ reads st' (IStd (length (st_env st))) (ONum (N:=ROps g lg) 0)).
Proof. exact @eq_difference. Qed.
Print Assumptions C06_difference_vanishes.
(** x*y and y*x, calculated separately. *)
Example C06_example : forall g lg : R -> R, 
  runs (N:=ROps g lg) init ex_prog2 ex_st2 (snd (run 0 init ex_prog2)) /\
  regular (g:=g) (lg:=lg) (x0_of (N:=ROps g lg) ex_prog2) pinit ex_prog2 /\
  (exists e, 0 < e /\ forall x, (forall k, Rabs (x k - x0_of (N:=ROps g lg) ex_prog2 k) < e) ->
     result (g:=g) (lg:=lg) ex_prog2 2 x = result (g:=g) (lg:=lg) ex_prog2 3 x) /\
  reads (N:=ROps g lg) ex_st2 (ICmp Ceq 2 3) (OBool true).
Proof. exact @ex_C06. Qed.

(** C07. Different variables depend only on themselves and are equal only if both are exact. *)
Theorem C07_variables_independent : forall (g lg : R -> R) (st : state (ROps g lg)) i u v j u' w,
  reachable st -> i <> j -> is_number st i u -> uf_var u = Some v ->
  is_number st j u' -> uf_var u' = Some w ->
  v <> w /\ reads st (IDeriv i) (ODict (N:=ROps g lg) [(v, 1)]) /\
  reads st (IDeriv j) (ODict (N:=ROps g lg) [(w, 1)]) /\
  (reads st (ICmp Ceq i j) (OBool true) -> sd st v = 0 /\ sd st w = 0 /\ uf_nom u = uf_nom u').
Proof. exact @variables_independent. Qed.
Print Assumptions C07_variables_independent.
(** Nothing that exists before depends on a new variable. *)
Theorem C07_fresh_independent : forall (g lg : R -> R) (st : state (ROps g lg)) n s tag st' u v j w d,
  reachable st -> does st (INew n s tag) st' ONone ->
  is_number st' (length (st_env st)) u -> uf_var u = Some v ->
  is_number st j w -> reads st' (IDeriv j) (ODict d) ->
  is_number st' j w /\ dget d v = None /\
  reads st' (IDeriv (length (st_env st))) (ODict (N:=ROps g lg) [(v, 1)]).
Proof. exact @fresh_independent. Qed.
Print Assumptions C07_fresh_independent.
(** Two ufloat(1, 3), results number 0 and 4, are different; two ufloat(1, 0) are equal. *)
Example C07_example : forall g lg : R -> R, reachable (N:=ROps g lg) ex_st2 /\
  reads (N:=ROps g lg) ex_st2 (ICmp Ceq 0 4) (OBool false) /\
  reads (N:=ROps g lg) ex_st2 (ICmp Ceq 5 6) (OBool true).
Proof. exact @ex_C07. Qed.

(** C08. Updating a standard deviation: seen by all numbers, and nothing else changes. *)
Theorem C08_std_update : forall (g lg : R -> R) (st : state (ROps g lg)) i u v s st' j w d,
  reachable st -> is_number st i u -> uf_var u = Some v -> 0 <= pval s ->
  does st (ISet i s) st' ONone -> is_number st j w -> reads st (IDeriv j) (ODict d) ->
  is_number st' j w /\
  (exists d', reads st' (IDeriv j) (ODict d') /\ forall k, dget d' k = dget d k) /\
  (forall k, sd st' k = if Nat.eqb k v then pval s else sd st k) /\
  reads st' (IStd j) (ONum (N:=ROps g lg) (sqrt (Rsum (map (fun p =>
     (snd p * (if Nat.eqb (fst p) v then pval s else sd st (fst p))) ^ 2) d)))).
Proof. exact @std_update. Qed.
Print Assumptions C08_std_update.
(** x.std_dev = 0: x + y goes from 5 to 4. *)
Example C08_example : forall g lg : R -> R,
  reads ex_st (IStd 2) (ONum (N:=ROps g lg) 5) /\
  does ex_st (ISet 0 (PZ 0)) ex_set (ONone (N:=ROps g lg)) /\
  reads ex_set (IStd 2) (ONum (N:=ROps g lg) 4).
Proof. exact @ex_C08. Qed.

(** C10. Equality: same nominal value and same dependence on every uncertain variable. *)
Theorem C10_eq_spec : forall (g lg : R -> R) (st : state (ROps g lg)) i u j u' d d' b,
  reachable st -> is_number st i u -> is_number st j u' ->
  reads st (IDeriv i) (ODict d) -> reads st (IDeriv j) (ODict d') ->
  reads st (ICmp Ceq i j) (OBool b) ->
  (b = true <-> uf_nom u = uf_nom u' /\ forall v, (dval d v - dval d' v) * sd st v = 0).
Proof. exact @eq_spec. Qed.
Print Assumptions C10_eq_spec.
Theorem C10_eq_refl : forall (g lg : R -> R) (st : state (ROps g lg)) i u,
  reachable st -> is_number st i u -> reads st (ICmp Ceq i i) (OBool true).
Proof. exact @eq_refl_thm. Qed.
Print Assumptions C10_eq_refl.
Theorem C10_eq_sym : forall (g lg : R -> R) (st : state (ROps g lg)) i u j u' b,
  reachable st -> is_number st i u -> is_number st j u' ->
  reads st (ICmp Ceq i j) (OBool b) -> reads st (ICmp Ceq j i) (OBool b).
Proof. exact @eq_sym_thm. Qed.
Print Assumptions C10_eq_sym.
Theorem C10_eq_trans : forall (g lg : R -> R) (st : state (ROps g lg)) i u j u' k u'',
  reachable st -> is_number st i u -> is_number st j u' -> is_number st k u'' ->
  reads st (ICmp Ceq i j) (OBool true) -> reads st (ICmp Ceq j k) (OBool true) ->
  reads st (ICmp Ceq i k) (OBool true).
Proof. exact @eq_trans_thm. Qed.
Print Assumptions C10_eq_trans.
Theorem C10_ne_spec : forall (g lg : R -> R) (st : state (ROps g lg)) i u j u' b,
  reachable st -> is_number st i u -> is_number st j u' ->
  reads st (ICmp Ceq i j) (OBool b) <-> reads st (ICmp Cne i j) (OBool (negb b)).
Proof. exact @ne_spec. Qed.
Print Assumptions C10_ne_spec.
Example C10_example : forall g lg : R -> R, reachable (N:=ROps g lg) ex_st2 /\
  reads (N:=ROps g lg) ex_st2 (ICmp Ceq 2 3) (OBool true) /\
  reads (N:=ROps g lg) ex_st2 (ICmp Ceq 0 4) (OBool false).
Proof. exact @ex_C10. Qed.

(** C11. Orderings. *)
Theorem C11_order_spec : forall (g lg : R -> R) (st : state (ROps g lg)) i u j u' b,
  reachable st -> is_number st i u -> is_number st j u' ->
  (reads st (ICmp Cgt i j) (OBool b) <-> b = (if Rlt_dec (uf_nom u') (uf_nom u) then true else false)) /\
  (reads st (ICmp Clt i j) (OBool b) <-> b = (if Rlt_dec (uf_nom u) (uf_nom u') then true else false)) /\
  (forall e, reads st (ICmp Ceq i j) (OBool e) ->
     (reads st (ICmp Cge i j) (OBool b) <->
        b = orb (if Rlt_dec (uf_nom u') (uf_nom u) then true else false) e) /\
     (reads st (ICmp Cle i j) (OBool b) <->
        b = orb (if Rlt_dec (uf_nom u) (uf_nom u') then true else false) e)).
Proof. exact @order_spec. Qed.
Print Assumptions C11_order_spec.
(** >= and <= are partial orders for ==. *)
Theorem C11_partial_order : forall (g lg : R -> R) (st : state (ROps g lg)) i u j u' k u'',
  reachable st -> is_number st i u -> is_number st j u' -> is_number st k u'' ->
  reads st (ICmp Cge i i) (OBool true) /\
  (reads st (ICmp Cge i j) (OBool true) -> reads st (ICmp Cge j i) (OBool true) ->
   reads st (ICmp Ceq i j) (OBool true)) /\
  (reads st (ICmp Cge i j) (OBool true) -> reads st (ICmp Cge j k) (OBool true) ->
   reads st (ICmp Cge i k) (OBool true)) /\
  (forall b, reads st (ICmp Cge i j) (OBool b) <-> reads st (ICmp Cle j i) (OBool b)).
Proof. exact @order_partial. Qed.
Print Assumptions C11_partial_order.
(** Different uncertain variables with the same nominal value are incomparable. *)
Theorem C11_incomparable : forall (g lg : R -> R) (st : state (ROps g lg)) i u v j u' w,
  reachable st -> i <> j -> is_number st i u -> uf_var u = Some v ->
  is_number st j u' -> uf_var u' = Some w -> uf_nom u = uf_nom u' -> sd st v <> 0 ->
  forall c, c <> Cne -> reads st (ICmp c i j) (OBool false).
Proof. exact @order_incomparable. Qed.
Print Assumptions C11_incomparable.
Example C11_example : forall g lg : R -> R, reachable (N:=ROps g lg) ex_st2 /\
  reads (N:=ROps g lg) ex_st2 (ICmp Cgt 1 0) (OBool true) /\
  reads (N:=ROps g lg) ex_st2 (ICmp Cge 0 4) (OBool false).
Proof. exact @ex_C11. Qed.

(** C12. *)
Theorem C12_bool_spec : forall (g lg : R -> R) (st : state (ROps g lg)) i u s b,
  reachable st -> is_number st i u -> reads st (IStd i) (ONum s) -> reads st (IBool i) (OBool b) ->
  (b = false <-> uf_nom u = 0 /\ s = 0).
Proof. exact @bool_spec. Qed.
Print Assumptions C12_bool_spec.
(** 0*x is false, x is true. *)
Example C12_example : forall g lg : R -> R, reachable (N:=ROps g lg) ex_st3 /\
  reads (N:=ROps g lg) ex_st3 (IBool 2) (OBool false) /\
  reads (N:=ROps g lg) ex_st3 (IBool 0) (OBool true).
Proof. exact @ex_C12. Qed.

(** C15. *)
Theorem C15_error_components : forall (g lg : R -> R) (st : state (ROps g lg)) i u d,
  reachable st -> is_number st i u -> reads st (IDeriv i) (ODict d) ->
  exists l, reads st (IErrs i) (OErrs l) /\ NoDup (dkeys l) /\
    (forall v, In v (dkeys l) <-> In v (dkeys d)) /\
    (forall v c, dget l v = Some c -> pval c = Rabs (dval d v * sd st v)) /\
    (forall x, reads st (IStd i) (ONum x) -> x ^ 2 = Rsum (map (fun p => pval (snd p) ^ 2) l)).
Proof. exact @error_components_spec. Qed.
Print Assumptions C15_error_components.
Example C15_example : forall g lg : R -> R, reachable (N:=ROps g lg) ex_st /\
  exists l c c', reads ex_st (IErrs 3) (OErrs (N:=ROps g lg) l) /\
  dget l 0%nat = Some c /\ pval c = 12 /\ dget l 1%nat = Some c' /\ pval c' = 4.
Proof. exact @ex_C15. Qed.

(** C16. *)
Theorem C16_s_is_std_dev : forall (g lg : R -> R) (st : state (ROps g lg)) i u x,
  reachable st -> is_number st i u ->
  reads st (IStd i) (ONum x) <-> reads st (IStdS i) (ONum x).
Proof. exact @s_is_std_dev. Qed.
Print Assumptions C16_s_is_std_dev.
Example C16_example : forall g lg : R -> R, reachable (N:=ROps g lg) ex_st /\
  reads ex_st (IStdS 2) (ONum (N:=ROps g lg) 5) /\ reads ex_st (IStdS 0) (ONum (N:=ROps g lg) 3).
Proof. exact @ex_C16. Qed.

(** C53. *)
Theorem C53_std_score : forall (g lg : R -> R) (st : state (ROps g lg)) i u x p,
  reachable st -> is_number st i u -> reads st (IStd i) (ONum x) ->
  reads st (IScore i p) (if Req_EM_T x 0 then OExn EValue
                         else ONum (N:=ROps g lg) ((pval p - uf_nom u) / x)).
Proof. exact @std_score_spec. Qed.
Print Assumptions C53_std_score.
(** (13 - 3)/5 *)
Example C53_example : forall g lg : R -> R, reachable (N:=ROps g lg) ex_st /\
  reads ex_st (IScore 2 (PZ 13)) (ONum (N:=ROps g lg) 2).
Proof. exact @ex_C53. Qed.
