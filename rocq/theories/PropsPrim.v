(** Property theorems about single operations: wrapped functions, operators, math functions,
    creation and update of variables. *)
From Coq Require Import ZArith List Bool Reals.
From Coquelicot Require Import Coquelicot.
From Flocq Require Import Core BinarySingleNaN.
From Verif Require Import Base Heap Affine Ops UMath NumR NumF HeapSpec Machine Calls Plain Regular Prim
  History PrimReg ChainProofs ExPrim GenProofs RealFacts NumDeriv FFacts FRefute ExGen UMathNum PlainThm.
Import ListNotations.
Local Open Scope R_scope.

(** ** C09 *)
(** C09. ufloat() with a negative standard deviation: NegativeStdDev, nothing else happens. *)
Theorem C09_new_negative : forall (N : NumOps), forall fuel (st : state N) n s tag x,
  pn_float n = Ok x -> pn_lt0 s = true -> pn_isinfinite s = Ok false ->
  step fuel st (INew n s tag) = (mkState (st_heap st) (st_env st ++ [none]), OExn ENegStd).
Proof. exact @new_negative. Qed.
Print Assumptions C09_new_negative.
Theorem C09_set_negative : forall (N : NumOps), forall fuel (st : state N) i u v s,
  is_number st i u -> uf_var u = Some v -> pn_lt0 s = true -> pn_isinfinite s = Ok false ->
  step fuel st (ISet i s) = (st, OExn ENegStd).
Proof. exact @set_negative. Qed.
Print Assumptions C09_set_negative.
(** Any other value, NaN included, is accepted as it is. *)
Theorem C09_new_accepted : forall (N : NumOps), forall fuel (st : state N) n s tag x y,
  pn_float n = Ok x -> pn_lt0 s = false -> pn_float s = Ok y ->
  exists st' w v, step fuel st (INew n s tag) = (st', ONone) /\
    is_number st' (length (st_env st)) w /\ uf_nom w = x /\ uf_var w = Some v /\ sd st' v = y /\
    step fuel st' (IStd (length (st_env st))) = (st', ONum y).
Proof. exact @new_accepted. Qed.
Print Assumptions C09_new_accepted.
Theorem C09_set_accepted : forall (N : NumOps), forall fuel (st : state N) i u v s y,
  is_number st i u -> uf_var u = Some v -> (v < length (h_var (st_heap st)))%nat ->
  pn_lt0 s = false -> pn_float s = Ok y ->
  exists st', step fuel st (ISet i s) = (st', ONone) /\ st_env st' = st_env st /\
    h_lc (st_heap st') = h_lc (st_heap st) /\ sd st' v = y /\ forall w, w <> v -> sd st' w = sd st w.
Proof. exact @set_accepted. Qed.
Print Assumptions C09_set_accepted.
(** No history leads to a negative standard deviation. *)
Theorem C09_never_negative : forall (g lg : R -> R), forall (st : state (ROps g lg)) v, reachable st -> 0 <= sd st v.
Proof. exact @sd_nonneg. Qed.
Print Assumptions C09_never_negative.
(** -1 is rejected, NaN accepted; in binary64. *)
Example C09_example : pn_lt0 (fl (-1) 0) = true /\ pn_isinfinite (fl (-1) 0) = Ok false /\
  reads (init (N:=FN)) (INew (fl 1 0) (fl (-1) 0) None) (OExn ENegStd) /\
  pn_lt0 (PF (N:=FN) fnan) = false /\
  exists st', does (init (N:=FN)) (INew (fl 1 0) (PF (N:=FN) fnan) None) st' ONone /\
    reads st' (IStd 0) (ONum (N:=FN) fnan) /\ reads st' (ISet 0 (fl (-1) 0)) (OExn ENegStd).
Proof. exact ex_C09. Qed.
(** Minus infinity is accepted (core.py 2783: only finite values are tested). *)
Example C09_example_infinity : exists st', does (init (N:=FN)) (INew (fl 1 0) (PF (N:=FN) (finf true)) None) st' ONone /\
  reads st' (IStd 0) (ONum (N:=FN) (finf true)).
Proof. exact f_minus_infinity. Qed.
(** ** C10, C16, C05, C54 in binary64: what rounding and overflow break *)
(** C10, C04. In binary64, 0.1*v + 0.2*v + 0.3*v is not equal to itself, and becomes equal to itself after its standard deviation has been read. *)
Theorem C10_binary64_refuted : exists u, reachable (after tenths) /\ is_number (after tenths) 8 u /\
  reads (after tenths) (ICmp Ceq 8 8) (OBool false) /\
  exists st' x, does (after tenths) (IStd 8) st' (ONum x) /\ reads st' (ICmp Ceq 8 8) (OBool true).
Proof. exact f_not_reflexive. Qed.
Print Assumptions C10_binary64_refuted.
(** C10. Numbers with an infinite standard deviation or an infinite or NaN nominal value are not equal to themselves. *)
Theorem C10_infinite_refuted : exists u1 u2 u3, reachable (after infs) /\ is_number (after infs) 0 u1 /\
  is_number (after infs) 1 u2 /\ is_number (after infs) 2 u3 /\
  reads (after infs) (ICmp Ceq 0 0) (OBool false) /\ reads (after infs) (ICmp Ceq 1 1) (OBool false) /\
  reads (after infs) (ICmp Ceq 2 2) (OBool false).
Proof. exact f_infinite_not_equal. Qed.
Print Assumptions C10_infinite_refuted.
(** C16, C10. A standard deviation of 2**-660: x.s is 0, and x + 0 == 1 is true. *)
Theorem C16_binary64_refuted : exists x, reachable (after tiny) /\ reads (after tiny) (IStd 0) (ONum (N:=FN) x) /\
  Bltb f0 x = true /\ reads (after tiny) (IStdS 0) (ONum (N:=FN) f0) /\
  reads (after tiny) (IStd 2) (ONum (N:=FN) f0) /\ reads (after tiny) (ICmp Ceq 2 3) (OBool true).
Proof. exact f_tiny. Qed.
Print Assumptions C16_binary64_refuted.
(** C05. Numbers made of finite variables whose uncertainty cannot be read: OverflowError. *)
Theorem C05_binary64_refuted : exists u u', reachable (after huge) /\ is_number (after huge) 2 u /\ is_number (after huge) 4 u' /\
  reads (after huge) (IStd 2) (OExn EOverflow) /\ reads (after huge) (IStd 4) (OExn EOverflow) /\
  reads (after huge) (IDeriv 4) (OExn EOverflow).
Proof. exact f_huge. Qed.
Print Assumptions C05_binary64_refuted.
(** ** C13 *)
(** C13, for a variable with a non-zero standard deviation. *)
Theorem C13_equal_same_hash : forall (g lg : R -> R), forall (st : state (ROps g lg)) i u v j u' w, reachable st ->
  is_number st i u -> uf_var u = Some v -> is_number st j u' -> uf_var u' = Some w ->
  sd st v <> 0 \/ sd st w <> 0 ->
  reads st (ICmp Ceq i j) (OBool true) -> py_hash u = py_hash u'.
Proof. exact @equal_same_hash. Qed.
Print Assumptions C13_equal_same_hash.
(** C13. Two variables 1+/-0 are equal and have different hashes. *)
Theorem C13_hash_refuted : exists u u', reachable (after twins) /\ is_number (after twins) 0 u /\
  is_number (after twins) 1 u' /\ reads (after twins) (ICmp Ceq 0 1) (OBool true) /\
  py_hash u <> py_hash u'.
Proof. exact f_hash. Qed.
Print Assumptions C13_hash_refuted.
(** A variable is equal to itself. *)
Example C13_example : forall (g lg : R -> R), exists u, reachable (N:=ROps g lg) (xy_st (g:=g) (lg:=lg)) /\ is_number (N:=ROps g lg) (xy_st (g:=g) (lg:=lg)) 0 u /\ uf_var u = Some 0%nat /\
  sd (N:=ROps g lg) (xy_st (g:=g) (lg:=lg)) 0%nat <> 0 /\ reads (N:=ROps g lg) (xy_st (g:=g) (lg:=lg)) (ICmp Ceq 0 0) (OBool true).
Proof. exact @ex_C13. Qed.
(** ** C14 *)
(** C14. The component of an exact variable is the int 0, whatever the derivative. *)
Theorem C14_exact_component : forall (N : NumOps), forall fuel (st : state N) i u st' l v o,
  is_number st i u -> step fuel st (IErrs i) = (st', OErrs l) ->
  get_var (st_heap st') v = Some o -> n_eq N (v_std o) (n_zero N) = true -> In v (dkeys l) ->
  dget l v = Some (PZ 0).
Proof. exact @exact_component. Qed.
Print Assumptions C14_exact_component.
(** C14. A calculated number all of whose variables are exact. *)
Theorem C14_exact_std_dev : forall (N : NumOps), forall fuel (st : state N) i u st' d,
  is_number st i u -> uf_var u = None -> step fuel st (IDeriv i) = (st', ODict d) ->
  (forall v, In v (dkeys d) -> exists o, get_var (st_heap st') v = Some o /\
                                         n_eq N (v_std o) (n_zero N) = true) ->
  step fuel st (IStd i) =
    match pn_sqrt (PZ (N:=N) 0) with Ok x => (st', ONum x) | Err e => (st', OExn e) end.
Proof. exact @exact_std_dev. Qed.
Print Assumptions C14_exact_std_dev.
(** 0**0.5 and sqrt(0): NaN for 0+/-1 and 0 for 0+/-0. *)
Example C14_example : reachable (after roots) /\
  reads (after roots) (IStd 3) (ONum (N:=FN) fnan) /\ reads (after roots) (IStd 4) (ONum (N:=FN) f0) /\
  reads (after roots) (IStd 5) (ONum (N:=FN) fnan) /\ reads (after roots) (IStd 6) (ONum (N:=FN) f0).
Proof. exact f_roots. Qed.
(** ** C21, C22 *)
(** C21, C22. a op b with any mixture of exact and uncertain operands: value, and derivatives by the chain rule from the true partial derivatives of the operator. *)
Theorem C21_operators : forall (g lg : R -> R), forall (st : state (ROps g lg)) op i j p q st' w d,
  reachable st -> has_nominal st i p -> has_nominal st j q ->
  does st (IBin op i j) st' ONone ->
  is_number st' (length (st_env st)) w -> reads st' (IDeriv (length (st_env st))) (ODict d) ->
  float_op (N:=ROps g lg) op (pval p) (pval q) = Ok (PNum (PF (N:=ROps g lg) (uf_nom w))) /\
  exists cx cy,
    (uncertain st i -> op_dom op true false (pval p) (pval q) ->
       is_derive (fun t => op_value (g:=g) (lg:=lg) op t (pval q)) (pval p) cx) /\
    (uncertain st j -> op_dom op false true (pval p) (pval q) ->
       is_derive (fun t => op_value (g:=g) (lg:=lg) op (pval p) t) (pval q) cy) /\
    forall v Dx Dy, deriv_is st i v Dx -> deriv_is st j v Dy -> dval d v = cx * Dx + cy * Dy.
Proof. exact @operator_chain. Qed.
Print Assumptions C21_operators.
(** C21. abs, -, +, trunc. *)
Theorem C21_unary_operators : forall (g lg : R -> R), forall (st : state (ROps g lg)) op j u st' w d,
  reachable st -> is_number st j u -> unop_dom op (uf_nom u) ->
  does st (ICall (unop_fun op) (unop_pos op) no_kw [j] []) st' ONone ->
  is_number st' (length (st_env st)) w -> reads st' (IDeriv (length (st_env st))) (ODict d) ->
  uf_nom w = value1 (g:=g) (lg:=lg) (unop_fun op) (uf_nom u) /\
  exists c, is_derive (value1 (g:=g) (lg:=lg) (unop_fun op)) (uf_nom u) c /\
    forall v D, deriv_is st j v D -> dval d v = c * D.
Proof. exact @unop_chain. Qed.
Print Assumptions C21_unary_operators.
(** The statement is the call of the unary operator. *)
Theorem C21_unary_call : forall (N : NumOps), forall fuel (st : state N) op j u,
  nth_error (st_env st) j = Some (VUF u) ->
  step fuel st (ICall (unop_fun op) (unop_pos op) no_kw [j] []) = push st (py_unop op u (st_heap st)).
Proof. exact @unop_call. Qed.
Print Assumptions C21_unary_call.
Example C21_example : forall (g lg : R -> R), reachable (xy_st (g:=g) (lg:=lg)) /\ has_nominal (xy_st (g:=g) (lg:=lg)) 0 (PF (N:=ROps g lg) 1) /\ has_nominal (xy_st (g:=g) (lg:=lg)) 1 (PF (N:=ROps g lg) 2) /\
  uncertain (xy_st (g:=g) (lg:=lg)) 0 /\ uncertain (xy_st (g:=g) (lg:=lg)) 1 /\
  op_dom Btruediv true false 1 2 /\ op_dom Btruediv false true 1 2 /\ op_dom Bfloordiv true false 1 2 /\
  exists st' w d, does (xy_st (g:=g) (lg:=lg)) (IBin Bmul 0 1) st' ONone /\
  is_number st' (length (st_env (xy_st (g:=g) (lg:=lg)))) w /\ reads st' (IDeriv (length (st_env (xy_st (g:=g) (lg:=lg))))) (ODict d) /\
  uf_nom w = 2 /\ dval d 0%nat = 2 /\ dval d 1%nat = 1.
Proof. exact @ex_C21. Qed.
(** C22. Where the value exists and the derivative does not: NaN. *)
Theorem C22_undefined_x : forall (g lg : R -> R), forall (x : R) q r, Rpow_py x (pval q) = Ok (Some r) ->
  ~ pow_dom true false x (pval q) -> op_der_x Bpow (PF (N:=ROps g lg) x) q = Err ENaN.
Proof. exact @pow_nan_x. Qed.
Print Assumptions C22_undefined_x.
Theorem C22_undefined_y : forall (g lg : R -> R), forall p (y r : R), Rpow_py (pval p) y = Ok (Some r) ->
  ~ pow_dom false true (pval p) y -> op_der_y Bpow p (PF (N:=ROps g lg) y) = Err ENaN.
Proof. exact @pow_nan_y. Qed.
Print Assumptions C22_undefined_y.
Example C22_example : pow_dom true false (-2) 3 /\ pow_dom false true 2 (-3) /\ pow_dom true false 0 0 /\
  ~ pow_dom true false 0 (/ 2) /\ Rpow_py 0 (/ 2) = Ok (Some 0) /\
  ~ pow_dom false true (-2) 3 /\ Rpow_py (-2) 3 = Ok (Some (-8)).
Proof. exact ex_C22. Qed.
(** ** C23 *)
(** C23. Functions of one argument. *)
Theorem C23_umath1 : forall (g lg : R -> R), forall (st : state (ROps g lg)) f j u st' w d,
  reachable st -> is_number st j u -> m1_dom f (uf_nom u) ->
  does st (ICall (m1_fun f) (m1_pos f) (m1_kw f) [j] []) st' ONone ->
  is_number st' (length (st_env st)) w -> reads st' (IDeriv (length (st_env st))) (ODict d) ->
  n_fun1 (ROps g lg) f (uf_nom u) = Ok (uf_nom w) /\
  exists c, is_derive (fun t => match n_fun1 (ROps g lg) f t with Ok y => y | Err _ => 0 end) (uf_nom u) c /\
    forall v D, deriv_is st j v D -> dval d v = c * D.
Proof. exact @umath1_chain. Qed.
Print Assumptions C23_umath1.
(** C23. Functions of two arguments, each of them exact or uncertain. *)
Theorem C23_umath2 : forall (g lg : R -> R), forall (st : state (ROps g lg)) f i j p q st' w d,
  reachable st -> has_nominal st i p -> has_nominal st j q ->
  does st (ICall (m2_fun f) (m2_pos f) (m2_kw f) [i; j] []) st' ONone ->
  is_number st' (length (st_env st)) w -> reads st' (IDeriv (length (st_env st))) (ODict d) ->
  n_fun2 (ROps g lg) f (pval p) (pval q) = Ok (uf_nom w) /\
  exists cx cy,
    (uncertain st i -> m2_dom f true false (pval p) (pval q) ->
       is_derive (fun t => match n_fun2 (ROps g lg) f t (pval q) with Ok y => y | Err _ => 0 end) (pval p) cx) /\
    (uncertain st j -> m2_dom f false true (pval p) (pval q) ->
       is_derive (fun t => match n_fun2 (ROps g lg) f (pval p) t with Ok y => y | Err _ => 0 end) (pval q) cy) /\
    forall v Dx Dy, deriv_is st i v Dx -> deriv_is st j v Dy -> dval d v = cx * Dx + cy * Dy.
Proof. exact @umath2_chain. Qed.
Print Assumptions C23_umath2.
(** These statements are the calls of umath.f. *)
Theorem C23_call1 : forall (N : NumOps), forall fuel (st : state N) f j a,
  nth_error (st_env st) j = Some a ->
  step fuel st (ICall (m1_fun f) (m1_pos f) (m1_kw f) [j] []) = push st (umath1 f a (st_heap st)).
Proof. exact @umath1_call. Qed.
Print Assumptions C23_call1.
Theorem C23_call2 : forall (N : NumOps), forall fuel (st : state N) f i j a b,
  nth_error (st_env st) i = Some a -> nth_error (st_env st) j = Some b ->
  step fuel st (ICall (m2_fun f) (m2_pos f) (m2_kw f) [i; j] []) = push st (umath2 f a b (st_heap st)).
Proof. exact @umath2_call. Qed.
Print Assumptions C23_call2.
(** umath.fmod, whose derivatives are numerical: exact (1, and minus the quotient) if the quotient is constant over the step. *)
Theorem C23_fmod : forall (g lg : R -> R), forall (st : state (ROps g lg)) i j p q st' w d,
  reachable st -> has_nominal st i p -> has_nominal st j q ->
  does st (ICall (m2_fun G_fmod) (m2_pos G_fmod) (m2_kw G_fmod) [i; j] []) st' ONone ->
  is_number st' (length (st_env st)) w -> reads st' (IDeriv (length (st_env st))) (ODict d) ->
  let x := pval p in let y := pval q in
  y <> 0 /\ uf_nom w = x - y * IZR (Ztrunc (x / y)) /\
  exists cx cy,
    (uncertain st i -> (forall t, Rabs (t - x) <= step_at x -> Ztrunc (t / y) = Ztrunc (x / y)) -> cx = 1) /\
    (uncertain st j -> (forall t, Rabs (t - y) <= step_at y -> Ztrunc (x / t) = Ztrunc (x / y)) -> cy = - IZR (Ztrunc (x / y))) /\
    forall v Dx Dy, deriv_is st i v Dx -> deriv_is st j v Dy -> dval d v = cx * Dx + cy * Dy.
Proof. exact @fmod_chain. Qed.
Print Assumptions C23_fmod.
(** fmod(1+/-3, 2+/-4). *)
Example C23_fmod_example : forall (g lg : R -> R), reachable (xy_st (g:=g) (lg:=lg)) /\ has_nominal (xy_st (g:=g) (lg:=lg)) 0 (PF (N:=ROps g lg) 1) /\ has_nominal (xy_st (g:=g) (lg:=lg)) 1 (PF (N:=ROps g lg) 2) /\
  uncertain (xy_st (g:=g) (lg:=lg)) 0 /\ uncertain (xy_st (g:=g) (lg:=lg)) 1 /\
  (exists st' w d, does (xy_st (g:=g) (lg:=lg)) (ICall (m2_fun G_fmod) (m2_pos G_fmod) (m2_kw G_fmod) [0; 1]%nat []) st' ONone /\
     is_number st' (length (st_env (xy_st (g:=g) (lg:=lg)))) w /\ reads st' (IDeriv (length (st_env (xy_st (g:=g) (lg:=lg))))) (ODict d)) /\
  (forall t, Rabs (t - 1) <= step_at 1 -> Ztrunc (t / 2) = Ztrunc (1 / 2)) /\ (forall t, Rabs (t - 2) <= step_at 2 -> Ztrunc (1 / t) = Ztrunc (1 / 2)).
Proof. exact @ex_fmod. Qed.
(** umath.gamma and umath.lgamma, whose derivatives are numerical: the error is at most h^2/6 times a bound on the third derivative. *)
Theorem C23_gamma : forall (g lg : R -> R), forall (st : state (ROps g lg)) f j u st' w d F F1 F2 F3 M,
  reachable st -> is_number st j u -> f = F_gamma \/ f = F_lgamma ->
  does st (ICall (m1_fun f) (m1_pos f) (m1_kw f) [j] []) st' ONone ->
  is_number st' (length (st_env st)) w -> reads st' (IDeriv (length (st_env st))) (ODict d) ->
  let x := uf_nom u in
  (forall t, Rabs (t - x) <= step_at x -> n_fun1 (ROps g lg) f t = Ok (F t) /\
     is_derive F t (F1 t) /\ is_derive F1 t (F2 t) /\ is_derive F2 t (F3 t) /\ Rabs (F3 t) <= M) ->
  uf_nom w = F x /\
  exists c, Rabs (c - F1 x) <= step_at x ^ 2 / 6 * M /\ forall v D, deriv_is st j v D -> dval d v = c * D.
Proof. exact @gamma_chain. Qed.
Print Assumptions C23_gamma.
(** With the square in the place of the gamma function. *)
Example C23_gamma_example : forall lg : R -> R, reachable (square_xy lg) /\ is_number (square_xy lg) 0 (mkUF (N:=ROps (fun t => t ^ 2) lg) 1 0%nat (Some 0%nat)) /\
  (exists st' w d, does (square_xy lg) (ICall (m1_fun F_gamma) (m1_pos F_gamma) (m1_kw F_gamma) [0%nat] []) st' ONone /\
     is_number st' (length (st_env (square_xy lg))) w /\ reads st' (IDeriv (length (st_env (square_xy lg)))) (ODict d)) /\
  (forall t, Rabs (t - 1) <= step_at 1 -> n_fun1 (ROps (fun t => t ^ 2) lg) F_gamma t = Ok (t ^ 2) /\
     is_derive (fun t => t ^ 2) t (2 * t) /\ is_derive (fun t => 2 * t) t 2 /\ is_derive (fun _ => 2) t 0 /\ Rabs 0 <= 0).
Proof. exact ex_gamma. Qed.
Example C23_example : forall (g lg : R -> R), reachable (xy_st (g:=g) (lg:=lg)) /\ m1_dom F_sin 1 /\ m1_dom F_log 1 /\ m2_dom G_hypot true false 1 2 /\
  exists st' w d, does (xy_st (g:=g) (lg:=lg)) (ICall (m1_fun F_sin) (m1_pos F_sin) (m1_kw F_sin) [0%nat] []) st' ONone /\
  is_number st' (length (st_env (xy_st (g:=g) (lg:=lg)))) w /\ reads st' (IDeriv (length (st_env (xy_st (g:=g) (lg:=lg))))) (ODict d) /\
  uf_nom w = sin 1 /\ dval d 0%nat = cos 1.
Proof. exact @ex_C23. Qed.
(** ** C24 *)
(** C24. A math function with a derivative that fails: NaN derivatives; NaN standard deviation unless all variables are exact. *)
Theorem C24_umath_nan : forall (lm : Libm), forall (st : state (FOps lm)) f d j u dd y e,
  is_number st j u -> (uf_lp u < length (h_lc (st_heap st)))%nat ->
  get_lc (st_heap st) (uf_lp u) = LDict dd -> NoDup (dkeys dd) ->
  (forall v, In v (dkeys dd) -> get_var (st_heap st) v <> None) ->
  m1_der (N:=FOps lm) f = Some d -> n_fun1 (FOps lm) f (uf_nom u) = Ok y ->
  d (uf_nom u) = Err e -> arith e = true ->
  exists st1 w, (forall fuel, step fuel st (ICall (m1_fun f) (m1_pos f) (m1_kw f) [j] []) = (st1, ONone)) /\
    is_number st1 (length (st_env st)) w /\ uf_nom w = y /\
    forall fuel, (2 <= fuel)%nat -> exists st2,
      step fuel st1 (IDeriv (length (st_env st))) = (st2, ODict (N:=FOps lm) (map (fun p => (fst p, fnan)) dd)) /\
      step fuel st1 (IStd (length (st_env st))) =
        (st2, ONum (N:=FOps lm) (if forallb (fun p => is_exact lm (st_heap st) (fst p)) dd then f0 else fnan)).
Proof. exact umath_nan. Qed.
Print Assumptions C24_umath_nan.
Theorem C24_pow_nan : forall (lm : Libm), forall (st : state (FOps lm)) j u k q dd z e,
  is_number st j u -> (uf_lp u < length (h_lc (st_heap st)))%nat ->
  get_lc (st_heap st) (uf_lp u) = LDict dd -> NoDup (dkeys dd) ->
  (forall v, In v (dkeys dd) -> get_var (st_heap st) v <> None) ->
  nth_error (st_env st) k = Some (VNum q) ->
  float_method Bpow [PNum (PF (uf_nom u)); PNum q] [] = Ok (PNum (PF (N:=FOps lm) z)) ->
  (pow_deriv_0 (PF (uf_nom u)) q = Err e /\ arith e = true) \/
    pow_deriv_0 (PF (uf_nom u)) q = Ok (PF (N:=FOps lm) fnan) ->
  exists st1 w, (forall fuel, step fuel st (IBin Bpow j k) = (st1, ONone)) /\
    is_number st1 (length (st_env st)) w /\ uf_nom w = z /\
    forall fuel, (2 <= fuel)%nat -> exists st2,
      step fuel st1 (IDeriv (length (st_env st))) = (st2, ODict (N:=FOps lm) (map (fun p => (fst p, fnan)) dd)) /\
      step fuel st1 (IStd (length (st_env st))) =
        (st2, ONum (N:=FOps lm) (if forallb (fun p => is_exact lm (st_heap st) (fst p)) dd then f0 else fnan)).
Proof. exact pow_nan. Qed.
Print Assumptions C24_pow_nan.
Theorem C24_other_exception : forall (lm : Libm), forall (st : state (FOps lm)) f d j u y e fuel,
  is_number st j u -> m1_der (N:=FOps lm) f = Some d -> n_fun1 (FOps lm) f (uf_nom u) = Ok y ->
  d (uf_nom u) = Err e -> arith e = false ->
  step fuel st (ICall (m1_fun f) (m1_pos f) (m1_kw f) [j] []) =
    (mkState (st_heap st) (st_env st ++ [VPlain (POther 0)]), OExn e).
Proof. exact umath_other_exception. Qed.
Print Assumptions C24_other_exception.
Theorem C24_own_exception : forall (lm : Libm), forall (st : state (FOps lm)) f j u e fuel,
  is_number st j u -> n_fun1 (FOps lm) f (uf_nom u) = Err e ->
  step fuel st (ICall (m1_fun f) (m1_pos f) (m1_kw f) [j] []) =
    (mkState (st_heap st) (st_env st ++ [VPlain (POther 0)]), OExn e).
Proof. exact umath_own_exception. Qed.
Print Assumptions C24_own_exception.
Theorem C24_nan_if_exception : forall (N : NumOps), forall r : res (pynum N),
  (forall c, r = Ok c -> nan_if_exception r = Ok c) /\
  (forall e, r = Err e -> arith e = true -> nan_if_exception r = rmap PF (n_nan N)) /\
  (forall e, r = Err e -> arith e = false -> nan_if_exception r = Err e).
Proof. exact @nan_if_exception_spec. Qed.
Print Assumptions C24_nan_if_exception.
(** sqrt(0+/-1). *)
Example C24_example : exists u dd d,
  is_number (after zero_one) 0 u /\ (uf_lp u < length (h_lc (st_heap (after zero_one))))%nat /\
  get_lc (st_heap (after zero_one)) (uf_lp u) = LDict dd /\ NoDup (dkeys dd) /\ dkeys dd = [0%nat] /\
  (forall v, In v (dkeys dd) -> get_var (st_heap (after zero_one)) v <> None) /\
  m1_der (N:=FN) F_sqrt = Some d /\ n_fun1 FN F_sqrt (uf_nom u) = Ok f0 /\
  d (uf_nom u) = Err EZeroDiv /\ arith EZeroDiv = true.
Proof. exact ex_C24. Qed.
(** ** C25 *)
(** C25. The function raises: so does the wrapped one. *)
Theorem C25_raises : forall (N : NumOps), forall fuel (st : state N) f pos kwd args kw a k e,
  get_args (st_env st) args = Some a -> get_kwargs (st_env st) kw = Some k ->
  f (map nominal_value a) (kw_map nominal_value k) = Err e ->
  step fuel st (ICall f pos kwd args kw) =
    (mkState (st_heap st) (st_env st ++ [none]), OExn e).
Proof. exact @wrap_raises. Qed.
Print Assumptions C25_raises.
(** C25. Without uncertain argument: the same result. *)
Theorem C25_plain : forall (N : NumOps), forall fuel (st : state N) f pos kwd args kw a k r,
  get_args (st_env st) args = Some a -> get_kwargs (st_env st) kw = Some k ->
  any_uncertain a k = false ->
  f (map nominal_value a) (kw_map nominal_value k) = Ok r ->
  step fuel st (ICall f pos kwd args kw) =
    (mkState (st_heap st) (st_env st ++ [VPlain r]), ONone).
Proof. exact @wrap_plain. Qed.
Print Assumptions C25_plain.
(** The function is then called with the arguments themselves. *)
Theorem C25_plain_args : forall (N : NumOps), forall (a : args_t N) (k : kwargs_t N), any_uncertain a k = false ->
  map VPlain (map nominal_value a) = a /\
  map (fun p => (fst p, VPlain (snd p))) (kw_map nominal_value k) = k.
Proof. exact @wrap_plain_args. Qed.
Print Assumptions C25_plain_args.
(** C25. A result that is not a number: NotImplemented. *)
Theorem C25_not_number : forall (N : NumOps), forall fuel (st : state N) f pos kwd args kw a k r,
  get_args (st_env st) args = Some a -> get_kwargs (st_env st) kw = Some k ->
  any_uncertain a k = true ->
  f (map nominal_value a) (kw_map nominal_value k) = Ok r ->
  (forall p, r <> PNum p) -> r <> PComplex ->
  step fuel st (ICall f pos kwd args kw) =
    (mkState (st_heap st) (st_env st ++ [VNotImpl]), ONone).
Proof. exact @wrap_not_number. Qed.
Print Assumptions C25_not_number.
(** C25. Some uncertain argument and a numerical result. *)
Theorem C25_number : forall (N : NumOps), forall fuel (st : state N) f pos kwd args kw a k p x,
  get_args (st_env st) args = Some a -> get_kwargs (st_env st) kw = Some k ->
  any_uncertain a k = true ->
  let av := map nominal_value a in let kv := kw_map nominal_value k in
  f av kv = Ok (PNum p) -> pn_float p = Ok x ->
  (forall i u, nth_error a i = Some (VUF u) -> exists c, pos i av kv = Ok c) ->
  (forall i n u, nth_error k i = Some (n, VUF u) -> exists c, kwd n av kv = Ok c) ->
  exists st' w, step fuel st (ICall f pos kwd args kw) = (st', ONone) /\
    is_number st' (length (st_env st)) w /\ uf_nom w = x /\ uf_var w = None.
Proof. exact @wrap_number. Qed.
Print Assumptions C25_number.
Example C25_example : exists a b, get_args (st_env (after one_two)) [0%nat] = Some a /\
  get_args (st_env (after one_two)) [1%nat] = Some b /\
  any_uncertain a [] = true /\ any_uncertain b [] = false /\
  reads (after one_two) (ICall f_num d_one d_one [0%nat] []) ONone /\
  reads (after one_two) (ICall f_str d_one d_one [0%nat] []) ONone /\
  reads (after one_two) (ICall f_raise d_one d_one [0%nat] []) (OExn EUser) /\
  reads (after one_two) (ICall f_str d_one d_one [1%nat] []) ONone.
Proof. exact ex_C25. Qed.
(** ** C27 *)
(** C27. Any wrapped function of any number of positional and keyword arguments. *)
Theorem C27_chain_rule : forall (g lg : R -> R), forall (st : state (ROps g lg)) f pos kwd args kw st' w d a k,
  reachable st -> does st (ICall f pos kwd args kw) st' ONone ->
  is_number st' (length (st_env st)) w -> reads st' (IDeriv (length (st_env st))) (ODict d) ->
  get_args (st_env st) args = Some a -> get_kwargs (st_env st) kw = Some k ->
  let av := map nominal_value a in
  let kv := kw_map nominal_value k in
  exists p (cp ck : nat -> R), f av kv = Ok (PNum p) /\ uf_nom w = pval p /\
    (forall i j, nth_error args i = Some j -> uncertain st j ->
       exists q, pos i av kv = Ok q /\ pval q = cp i) /\
    (forall i n j, nth_error kw i = Some (n, j) -> uncertain st j ->
       exists q, kwd n av kv = Ok q /\ pval q = ck i) /\
    (forall v (D E : nat -> R),
       (forall i j, nth_error args i = Some j -> deriv_is st j v (D i)) ->
       (forall i n j, nth_error kw i = Some (n, j) -> deriv_is st j v (E i)) ->
       dval d v = Rsum (map (fun i => cp i * D i) (seq 0 (length args))) +
                  Rsum (map (fun i => ck i * E i) (seq 0 (length kw)))).
Proof. exact @chain_rule. Qed.
Print Assumptions C27_chain_rule.
Example C27_example : forall (g lg : R -> R), reachable (xy_st (g:=g) (lg:=lg)) /\ deriv_is (xy_st (g:=g) (lg:=lg)) 0 0%nat 1 /\ deriv_is (xy_st (g:=g) (lg:=lg)) 1 0%nat 0 /\
  exists st' w d, does (xy_st (g:=g) (lg:=lg)) user_ins st' ONone /\
  is_number st' (length (st_env (xy_st (g:=g) (lg:=lg)))) w /\ reads st' (IDeriv (length (st_env (xy_st (g:=g) (lg:=lg))))) (ODict d) /\
  uf_nom w = 3 /\ dval d 0%nat = 2 /\ dval d 1%nat = 1.
Proof. exact @ex_C27. Qed.
(** ** C29 *)
(** C29. Symmetric differences: exact for quadratic functions, error at most h^2/6 times a bound on the third derivative. *)
Theorem C29_numerical_derivative : forall (g lg : R -> R), forall (f : pyfun (ROps g lg)) r args kw p (F : R -> R),
  arg_get r args kw = Some (PNum p) ->
  let x := pval p in
  let h := (if Reqb x 0 then 1 else Rabs x) / 2 ^ 26 in
  (forall t, Rabs (t - x) <= h ->
     exists y, (let (a, k) := arg_set r args kw (PNum (PF (N:=ROps g lg) t)) in f a k) = Ok (PNum y) /\ pval y = F t) ->
  exists c, partial_derivative f r args kw = Ok c /\ 0 < h /\
    pval c = (F (x + h) - F (x - h)) / (2 * h) /\
    (forall a b k, (forall t, F t = a + b * t + k * t ^ 2) -> is_derive F x (pval c)) /\
    (forall F1 F2 F3 M,
       (forall t, Rabs (t - x) <= h -> is_derive F t (F1 t) /\ is_derive F1 t (F2 t) /\
                                       is_derive F2 t (F3 t) /\ Rabs (F3 t) <= M) ->
       Rabs (pval c - F1 x) <= h ^ 2 / 6 * M).
Proof. exact @numerical_derivative. Qed.
Print Assumptions C29_numerical_derivative.
(** C29. Only the designated argument is varied. *)
Theorem C29_only_argument : forall (N : NumOps) r args kw (a : plain N),
  let (args', kw') := arg_set r args kw a in
  (forall p, arg_get r args kw = Some p -> arg_get r args' kw' = Some a) /\
  forall r', r' <> r -> arg_get r' args' kw' = arg_get r' args kw.
Proof. exact only_argument. Qed.
Print Assumptions C29_only_argument.
(** The second argument of x*y. *)
Example C29_example : forall (g lg : R -> R), arg_get (APos 1) [PNum (PF (N:=ROps g lg) 3); PNum (PF (N:=ROps g lg) 2)] [] = Some (PNum (PF (N:=ROps g lg) 2)) /\
  forall t, (let (a, k) := arg_set (APos 1) [PNum (PF (N:=ROps g lg) 3); PNum (PF (N:=ROps g lg) 2)] [] (PNum (PF (N:=ROps g lg) t))
             in float_method Bmul a k) = Ok (PNum (PF (N:=ROps g lg) (3 * t))) /\ 3 * t = 0 + 3 * t + 0 * t ^ 2.
Proof. exact @ex_C29. Qed.
(** ** C30 *)
(** C30. fsum. *)
Theorem C30_fsum : forall (g lg : R -> R), forall (st : state (ROps g lg)) args st' w d,
  reachable st ->
  does st (ICall flat_fsum fsum_pos fsum_kw
            args []) st' ONone ->
  is_number st' (length (st_env st)) w -> reads st' (IDeriv (length (st_env st))) (ODict d) ->
  (forall P, (forall i j, nth_error args i = Some j -> exists p, has_nominal st j p /\ pval p = P i) ->
     uf_nom w = Rsum (map P (seq 0 (length args)))) /\
  (forall v D, (forall i j, nth_error args i = Some j -> deriv_is st j v (D i)) ->
     dval d v = Rsum (map D (seq 0 (length args)))).
Proof. exact @fsum_chain. Qed.
Print Assumptions C30_fsum.
(** The statement is the call of umath.fsum. *)
Theorem C30_fsum_call : forall (N : NumOps), forall fuel (st : state N) is l,
  get_args (st_env st) is = Some l ->
  step fuel st (ICall flat_fsum fsum_pos fsum_kw is []) = push st (umath_fsum l (st_heap st)).
Proof. exact @fsum_call. Qed.
Print Assumptions C30_fsum_call.
(** C30. modf(x)[0]. *)
Theorem C30_modf : forall (g lg : R -> R), forall (st : state (ROps g lg)) j u st' w d,
  reachable st -> is_number st j u -> does st (IModf j) st' ONone ->
  is_number st' (length (st_env st)) w -> reads st' (IDeriv (length (st_env st))) (ODict d) ->
  uf_nom w = uf_nom u - IZR (Flocq.Core.Raux.Ztrunc (uf_nom u)) /\
  forall v D, deriv_is st j v D -> dval d v = D.
Proof. exact @modf_chain. Qed.
Print Assumptions C30_modf.
(** C30. ldexp(x, i). *)
Theorem C30_ldexp : forall (g lg : R -> R), forall (st : state (ROps g lg)) j u e st' w d,
  reachable st -> is_number st j u -> does st (ILdexp j e) st' ONone ->
  is_number st' (length (st_env st)) w -> reads st' (IDeriv (length (st_env st))) (ODict d) ->
  uf_nom w = uf_nom u * Flocq.Core.Raux.bpow Zaux.radix2 e /\
  forall v D, deriv_is st j v D -> dval d v = Flocq.Core.Raux.bpow Zaux.radix2 e * D.
Proof. exact @ldexp_chain. Qed.
Print Assumptions C30_ldexp.
(** C30. Exact arguments. *)
Theorem C30_exact : forall (N : NumOps), forall (h : heap N) x i,
  umath_frexp (VNum (PF x)) h = (Ok (VNum (PF (fst (n_frexp N x))), snd (n_frexp N x)), snd (to_affine_scalar (VNum (PF x)) h)) /\
  umath_ldexp (VNum (PF x)) i h = (rmap (fun r => VNum (PF r)) (n_ldexp N x i), snd (to_affine_scalar (VNum (PF x)) h)) /\
  umath_modf (VNum (PF x)) h = (Ok (VNum (PF (fst (n_modf N x))), snd (n_modf N x)), snd (to_affine_scalar (VNum (PF x)) h)).
Proof. exact @exact_float_functions. Qed.
Print Assumptions C30_exact.
Example C30_example : forall (g lg : R -> R), reachable (xy_st (g:=g) (lg:=lg)) /\
  exists st' w d, does (xy_st (g:=g) (lg:=lg)) (ICall flat_fsum fsum_pos fsum_kw [0; 1; 0]%nat []) st' ONone /\
  is_number st' (length (st_env (xy_st (g:=g) (lg:=lg)))) w /\ reads st' (IDeriv (length (st_env (xy_st (g:=g) (lg:=lg))))) (ODict d) /\
  uf_nom w = 4 /\ dval d 0%nat = 2 /\ dval d 1%nat = 1.
Proof. exact @ex_C30. Qed.
Example C30_example_modf : forall (g lg : R -> R), reachable (xy_st (g:=g) (lg:=lg)) /\
  exists st' w d, does (xy_st (g:=g) (lg:=lg)) (IModf 0) st' ONone /\
  is_number st' (length (st_env (xy_st (g:=g) (lg:=lg)))) w /\ reads st' (IDeriv (length (st_env (xy_st (g:=g) (lg:=lg))))) (ODict d) /\
  dval d 0%nat = 1.
Proof. exact @ex_C30_modf. Qed.
Example C30_example_ldexp : forall (g lg : R -> R), reachable (xy_st (g:=g) (lg:=lg)) /\
  exists st' w d, does (xy_st (g:=g) (lg:=lg)) (ILdexp 0 3) st' ONone /\
  is_number st' (length (st_env (xy_st (g:=g) (lg:=lg)))) w /\ reads st' (IDeriv (length (st_env (xy_st (g:=g) (lg:=lg))))) (ODict d) /\
  uf_nom w = 8 /\ dval d 0%nat = 8.
Proof. exact @ex_C30_ldexp. Qed.
(** C30. Whatever the number x, the uncertainty and the derivatives of frexp(x)[0] cannot be read: TypeError. *)
Theorem C30_frexp_refuted : forall (N : NumOps), forall (h : heap N) x w e h' fuel, umath_frexp (VUF x) h = (Ok (w, e), h') ->
  exists u, w = VUF u /\ uf_nom u = fst (n_frexp N (uf_nom x)) /\
    fst (derivatives (S fuel) u h') = Err EType /\ fst (std_dev (S fuel) u h') = Err EType.
Proof. exact @frexp_reads_raise. Qed.
Print Assumptions C30_frexp_refuted.
(** C30, C05. The second read raises again; the third one succeeds and finds no derivative at all. *)
Theorem C30_frexp_later_refuted : forall (N : NumOps), forall (h : heap N) x u e h' fuel, umath_frexp (VUF x) h = (Ok (VUF u, e), h') ->
  let h1 := snd (derivatives (S fuel) u h') in
  let h2 := snd (derivatives (S fuel) u h1) in
  fst (derivatives (S fuel) u h1) = Err EType /\ fst (derivatives (S fuel) u h2) = Ok [].
Proof. exact @frexp_later_reads. Qed.
Print Assumptions C30_frexp_later_refuted.
(** C30, C05. Numbers calculated from frexp(x)[0]: the first read raises TypeError, the second one finds no derivative. *)
Theorem C30_frexp_derived_refuted : forall (N : NumOps), forall (h : heap N) x u e h1 f pos kwd y h2 fuel,
  umath_frexp (VUF x) h = (Ok (VUF u, e), h1) -> wcall f pos kwd [VUF u] [] h1 = (Ok (VUF y), h2) ->
  fst (derivatives (S fuel) y h2) = Err EType /\
  fst (derivatives (S fuel) y (snd (derivatives (S fuel) y h2))) = Ok [].
Proof. exact @frexp_then_derived. Qed.
Print Assumptions C30_frexp_derived_refuted.
(** frexp(ufloat(3, 1)) returns such a number. *)
Example C30_example_frexp : exists u w h, is_number (after three) 0 u /\
  umath_frexp (VUF u) (st_heap (after three)) = (Ok (w, 2%Z), h).
Proof. exact ex_frexp. Qed.
(** ** C31 *)
(** C31. The math function at the nominal value. *)
Theorem C31_locally_constant : forall (N : NumOps), forall f (u : uf N), umath_cst f (VUF u) =
  match f with
  | K_ceil => n_ceil N (uf_nom u) | K_floor => n_floor N (uf_nom u) | K_trunc => n_trunc N (uf_nom u)
  | K_isinf => Ok (if n_isinf N (uf_nom u) then 1%Z else 0%Z)
  | K_isnan => Ok (if n_isnan N (uf_nom u) then 1%Z else 0%Z)
  end.
Proof. exact @locally_constant. Qed.
Print Assumptions C31_locally_constant.
(** In binary64 these are the mathematical functions. *)
Theorem C31_floor : forall x : f64, is_finite x = true -> f_floor x = Ok (Zfloor (B2R x)).
Proof. exact floor_exact. Qed.
Print Assumptions C31_floor.
Theorem C31_ceil : forall x : f64, is_finite x = true -> f_ceil x = Ok (Zceil (B2R x)).
Proof. exact ceil_exact. Qed.
Print Assumptions C31_ceil.
Theorem C31_trunc : forall x : f64, is_finite x = true -> f_trunc x = Ok (Ztrunc (B2R x)).
Proof. exact trunc_exact. Qed.
Print Assumptions C31_trunc.
(** Plain arguments: integers of any size, *)
Theorem C31_plain_integer : forall (N : NumOps), forall f z, f = K_ceil \/ f = K_floor \/ f = K_trunc -> umath_cst f (VPlain (PNum (PZ (N:=N) z))) = Ok z.
Proof. exact @plain_integer. Qed.
Print Assumptions C31_plain_integer.
(** floats, *)
Theorem C31_plain_float : forall (N : NumOps), forall f x (u : uf N), uf_nom u = x ->
  umath_cst f (VPlain (PNum (PF x))) = umath_cst f (VUF u).
Proof. exact @plain_float. Qed.
Print Assumptions C31_plain_float.
(** and tests of integers. *)
Theorem C31_plain_tests : forall (N : NumOps), forall z, (forall x, n_of_Z N z = Ok x ->
    umath_cst K_isnan (VPlain (PNum (PZ (N:=N) z))) = Ok (if n_isnan N x then 1%Z else 0%Z) /\
    umath_cst K_isinf (VPlain (PNum (PZ (N:=N) z))) = Ok (if n_isinf N x then 1%Z else 0%Z)) /\
  (forall e, n_of_Z N z = Err e -> umath_cst K_isnan (VPlain (PNum (PZ (N:=N) z))) = Err e /\
    umath_cst K_isinf (VPlain (PNum (PZ (N:=N) z))) = Err e).
Proof. exact @plain_tests. Qed.
Print Assumptions C31_plain_tests.
(** trunc of 10**400, which is too large for isnan; isnan of 3. *)
Example C31_plain_example : umath_cst K_trunc (VPlain (PNum (PZ (N:=FN) (10 ^ 400)))) = Ok (10 ^ 400)%Z /\
  n_of_Z FN (10 ^ 400) = Err EOverflow /\ umath_cst K_isnan (VPlain (PNum (PZ (N:=FN) (10 ^ 400)))) = Err EOverflow /\
  umath_cst K_isnan (VPlain (PNum (PZ (N:=FN) 3))) = Ok 0%Z.
Proof. exact ex_plain. Qed.
(** floor, ceil and trunc of -2.5+/-1. *)
Example C31_example : f_floor (fnorm (-5) (-1)) = Ok (-3)%Z /\ f_ceil (fnorm (-5) (-1)) = Ok (-2)%Z /\
  f_trunc (fnorm (-5) (-1)) = Ok (-2)%Z.
Proof. exact ex_C31. Qed.
(** ** C54 *)
(** C54 over exact arithmetic; missing: binary64, where it is false. *)
Theorem C54_exact_partial : forall (g lg : R -> R), forall (st : state (ROps g lg)) op i j p q st' e,
  reachable st -> has_nominal st i p -> has_nominal st j q -> uncertain st i \/ uncertain st j ->
  does st (IBin op i j) st' (OExn e) -> arith e = true ->
  float_op (N:=ROps g lg) op (pval p) (pval q) = Err e.
Proof. exact @operator_raises. Qed.
Print Assumptions C54_exact_partial.
(** 1/0. *)
Example C54_example : forall (g lg : R -> R), reachable (st_x0 (g:=g) (lg:=lg)) /\ has_nominal (st_x0 (g:=g) (lg:=lg)) 0 (PF (N:=ROps g lg) 1) /\ has_nominal (st_x0 (g:=g) (lg:=lg)) 1 (PZ (N:=ROps g lg) 0) /\
  uncertain (st_x0 (g:=g) (lg:=lg)) 0 /\ reads (st_x0 (g:=g) (lg:=lg)) (IBin Btruediv 0 1) (OExn EZeroDiv) /\ arith EZeroDiv = true.
Proof. exact @ex_C54. Qed.
(** C54. In binary64, x/y raises for y = 2**-660 and y = 2**660, 1/y being finite: y**2 underflows or overflows. *)
Theorem C54_binary64_refuted : reachable (after quotients) /\
  (exists z, f_div (fnorm 1 0) (fnorm 1 (-660)) = Ok z /\ is_finite z = true) /\
  reads (after quotients) (IBin Btruediv 0 1) (OExn EZeroDiv) /\
  (exists z, f_div (fnorm 1 0) (fnorm 1 660) = Ok z /\ is_finite z = true) /\
  reads (after quotients) (IBin Btruediv 0 2) (OExn EOverflow).
Proof. exact f_quotients. Qed.
Print Assumptions C54_binary64_refuted.
(** ** C56 *)
Theorem C56_access_functions : forall (N : NumOps), forall (a : value N) fuel h,
  (forall u, a = VUF u -> nominal_value a = PNum (PF (uf_nom u)) /\
     any_std_dev fuel a h = std_dev fuel u h) /\
  (forall p, a = VPlain p -> nominal_value a = p /\ any_std_dev fuel a h = (Ok (n_zero N), h)).
Proof. exact @access_functions. Qed.
Print Assumptions C56_access_functions.
(** ** C57 *)
(** C57. An operand that is not a number. *)
Theorem C57_unsupported_operand : forall (N : NumOps), forall fuel (st : state N) op i j u k,
  is_number st i u -> nth_error (st_env st) j = Some (VPlain (POther k)) ->
  step fuel st (IBin op i j) = (mkState (st_heap st) (st_env st ++ [none]), OExn EType) /\
  step fuel st (IBin op j i) = (mkState (st_heap st) (st_env st ++ [none]), OExn EType).
Proof. exact @unsupported_operand. Qed.
Print Assumptions C57_unsupported_operand.
(** C57. Comparisons with an object that is not a number. *)
Theorem C57_unsupported_comparison : forall (N : NumOps), forall fuel (st : state N) i j u k,
  is_number st i u -> nth_error (st_env st) j = Some (VPlain (POther k)) ->
  step fuel st (ICmp Ceq i j) = (st, OBool false) /\ step fuel st (ICmp Cne i j) = (st, OBool true) /\
  forall c, In c [Cgt; Cge; Clt; Cle] -> step fuel st (ICmp c i j) = (st, OExn EType).
Proof. exact @unsupported_comparison. Qed.
Print Assumptions C57_unsupported_comparison.
Example C57_example : exists u, reachable (after with_none) /\ is_number (after with_none) 0 u /\
  nth_error (st_env (after with_none)) 1 = Some (VPlain (POther 0)) /\
  reads (after with_none) (IBin Badd 0 1) (OExn EType) /\
  reads (after with_none) (ICmp Ceq 0 1) (OBool false).
Proof. exact ex_C57. Qed.
(** 5 % x with an int raises TypeError, 5. % x does not. *)
Example C57_example_mod : exists u, reachable (after mods) /\ is_number (after mods) 0 u /\
  reads (after mods) (IBin Bmod 1 0) (OExn EType) /\ reads (after mods) (IBin Bmod 2 0) ONone.
Proof. exact f_int_mod. Qed.
(** C57. float(x), int(x) and complex(x). *)
Theorem C57_conversions : forall (N : NumOps), forall (st : state N) i u, is_number st i u -> coerce u = Err EType.
Proof. exact @conversions. Qed.
Print Assumptions C57_conversions.
(** ** C75 *)
(** C75. Variables have a hash, results have none. *)
Theorem C75_hashes : forall (N : NumOps), forall (st : state N) i u, is_number st i u ->
  (forall v, uf_var u = Some v -> py_hash u = Ok v) /\ (uf_var u = None -> py_hash u = Err EType).
Proof. exact @hashes. Qed.
Print Assumptions C75_hashes.
(** C75. The hash of a variable never changes: the number under a given name stays what it is, whatever the program does next, *)
Theorem C75_kept : forall (N : NumOps), forall fuel prog (st st' : state N) os i u, run fuel st prog = (st', os) -> is_number st i u ->
  is_number st' i u.
Proof. exact @same_hash_later. Qed.
Print Assumptions C75_kept.
(** including copies, pickling and correlated values. *)
Theorem C75_kept_call : forall (N : NumOps), forall (st : state N) c i u, is_number st i u -> is_number (fst (call_step st c)) i u.
Proof. exact @same_hash_call. Qed.
Print Assumptions C75_kept_call.
(** x and x + x. *)
Example C75_example : exists u w, is_number (after x_twice) 0 u /\ is_number (after x_twice) 1 w /\
  uf_var u = Some 0%nat /\ uf_var w = None.
Proof. exact ex_hash. Qed.
