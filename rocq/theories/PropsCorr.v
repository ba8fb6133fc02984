(** Property theorems: correlated values in any arithmetic; matrices that are calculated again, or in binary64. *)
From Coq Require Import ZArith List Bool.
From Flocq Require Import Core BinarySingleNaN.
From Verif Require Import Base NumF Heap HeapSpec Affine Ops UMath Machine Cov Copy Calls Unumpy UMatrix History FRefute DepSpec TwinSpec StaySpec Stay StayF LaterSpec Later LaterMore ExLater LaterCov ExLaterCov CorrAny ExCorrAny OutcomeSpec Outcome ExOutcome OutcomeMat ExOutcomeMat OutcomeBool ExOutcomeBool.
Import ListNotations.

(** ** C19 *)
(** C19: whatever the arithmetic and whatever eigh returns, correlated_values_norm() returns numbers with exactly the given nominal values, that depend on new variables: one for each eigenvalue, with its square root (0 for a negative eigenvalue) as standard deviation, and with the given tag. The derivatives are exactly coordinate * standard deviation. *)
Theorem C19_any_arithmetic : forall (N : NumOps), forall (st : state N) eigh vals corr tags lam rows st', eigh corr = Ok (lam, rows) -> length lam = length vals -> tags_ok (length vals) tags ->
  call_step st (CCorrNorm eigh vals corr tags) = (st', ONone) ->
  length (st_env st') = (length (st_env st) + length vals)%nat /\
  exists vs, length vs = length vals /\ NoDup vs /\
  (forall b v x, nth_error vs b = Some v -> nth_error lam b = Some x -> ~ existing st v /\ existing st' v /\
     (exists s, n_fun1 N F_sqrt (if n_lt N x (n_zero N) then n_zero N else x) = Ok s /\ check_std (PF s) = Ok (sd st' v)) /\
     vtag st' v = match tags with Some t => nth b t None | None => None end) /\
  (forall a x s row, nth_error vals a = Some (x, s) -> nth_error rows a = Some row ->
     exists u, is_number st' (length (st_env st) + a) u /\ uf_nom u = x /\ uf_var u = None /\
       does st' (IDeriv (length (st_env st) + a)) st' (ODict (combine vs (map (fun c => n_mul N c s) row)))).
Proof. exact @correlated_norm_any. Qed.
Print Assumptions C19_any_arithmetic.
(** Two values in binary64, with an eigenvalue of -2**-60, and a tag. *)
Example C19_any_arithmetic_example : exists st' lam rows, eigh_f ones_f = Ok (lam, rows) /\ length lam = length vals_f /\ tags_ok (length vals_f) (Some [None; Some 4%nat]) /\
  call_step init (CCorrNorm eigh_f vals_f ones_f (Some [None; Some 4%nat])) = (st', ONone).
Proof. exact ex_correlated_norm. Qed.
(** ... correlated_values() does the same as correlated_values_norm() with the square roots of the diagonal as standard deviations, and the covariances divided by them (by 1 instead of 0). *)
Theorem C19_any_arithmetic_covariances : forall (N : NumOps), forall (st : state N) eigh noms cov tags st', length cov = length noms -> call_step st (CCorr eigh noms cov tags) = (st', ONone) ->
  exists vals corr, map fst vals = noms /\ call_step st (CCorrNorm eigh vals corr tags) = (st', ONone) /\
  (forall a x s, nth_error vals a = Some (x, s) -> np_sqrt (entry cov a a) = Ok s) /\
  forall a b x y s t, nth_error vals a = Some (x, s) -> nth_error vals b = Some (y, t) ->
    let unit r := if n_eq N r (n_zero N) then n_one N else r in
    rbind (np_div (entry cov a b) (unit t)) (fun q => np_div q (unit s)) = Ok (entry corr a b).
Proof. exact @correlated_any. Qed.
Print Assumptions C19_any_arithmetic_covariances.
(** The covariance matrix ((4, 6), (6, 9)) in binary64. *)
Example C19_any_arithmetic_covariances_example : exists st', length cov_f = length [fnorm 10 0; fnorm 20 0] /\ call_step init (CCorr eigh_f ([fnorm 10 0; fnorm 20 0] : list f64) cov_f None) = (st', ONone).
Proof. exact ex_correlated. Qed.
(** ** C80 *)
(** C80: covariance and correlation matrices of numbers of which the derivatives have been read are the same later (entries and exceptions), if the standard deviations of their variables are the same. *)
Theorem C80_matrices : forall (N : NumOps), forall order (st st' st1 : state N) is r, reachable st -> afterwards st st' -> (forall i, In i is -> settled st i /\ same_deviations st st' i) ->
  (covariance order st is r st1 -> st1 = st /\ covariance order st' is r st') /\ (correlation order st is r st1 -> st1 = st /\ correlation order st' is r st').
Proof. exact @matrices_stay. Qed.
Print Assumptions C80_matrices.
(** The covariance matrix of z = x*y and y. *)
Example C80_matrices_example : exists m st1, reachable zr /\ afterwards zr zq /\ (forall i, In i [2; 1]%nat -> settled zr i /\ same_deviations zr zq i) /\
  covariance (fun l => l) zr [2; 1]%nat (Ok m) st1 /\ Bltb f0 (entry (N:=FN) m 0 1 : f64) = true.
Proof. exact ex_matrix. Qed.
(** ** C81 *)
(** C81: in binary64 a covariance or correlation matrix of such numbers is always calculated, or OverflowError is raised. *)
Theorem C81_matrices : forall lm, squares_not_negative lm -> forall order (st : state (FOps lm)) L is, (forall l v, In v (order l) -> In v l) -> reachable st -> history st L ->
  (forall i, In i is -> exists u vs, is_number st i u /\ nth_error L i = Some (Some vs)) ->
  (exists r st', covariance order st is r st' /\ (r = Err EOverflow \/ exists m, r = Ok m)) /\
  (exists r st', correlation order st is r st' /\ (r = Err EOverflow \/ exists m, r = Ok m)).
Proof. exact matrices_or_overflow. Qed.
Print Assumptions C81_matrices.
(** x and y of C81_overflow_example, in which the square of the uncertainty of x is too large (for a matrix that is calculated, see C81_variances_example). *)
Example C81_matrices_example : (forall l v, In v ((fun l : list varid => l) l) -> In v l) /\ (forall i, In i [0; 1]%nat -> exists u vs, is_number e3 i u /\ nth_error o_known i = Some (Some vs)) /\
  exists st', covariance (fun l => l) e3 [0; 1]%nat (Err EOverflow) st'.
Proof. exact ex_matrices. Qed.
(** C81: std_score() gives a number or raises OverflowError, or ValueError if the uncertainty is zero. *)
Theorem C81_score : forall lm, squares_not_negative lm -> forall (st : state (FOps lm)) L i vs u p, reachable st -> history st L -> nth_error L i = Some (Some vs) -> is_number st i u ->
  exists o, reads st (IScore i p) o /\ (o = OExn EOverflow \/ (exists x, o = ONum x) \/ (o = OExn EValue /\ exists s : f64, reads st (IStd i) (ONum (N:=FOps lm) s) /\ Beqb s f0 = true)).
Proof. exact score_or_error. Qed.
Print Assumptions C81_score.
(** y.std_score(0) and z.std_score(0). *)
Example C81_score_example : (exists x, reads e3 (IScore 1 (PZ 0)) (ONum (N:=FN) x)) /\ reads e3 (IScore 2 (PZ 0)) (OExn EOverflow).
Proof. exact ex_scores. Qed.
(** C81: bool(x) and comparisons with ints and floats give a boolean or raise OverflowError. *)
Theorem C81_truth : forall lm, squares_not_negative lm -> forall (st : state (FOps lm)) L i vs x, reachable st -> history st L -> nth_error L i = Some (Some vs) -> is_number st i x ->
  (exists o, reads st (IBool i) o /\ (o = OExn EOverflow \/ exists b, o = OBool b)) /\
  (forall c j p, nth_error (st_env st) j = Some (VNum p) -> exists o, reads st (ICmp c i j) o /\ (o = OExn EOverflow \/ exists b, o = OBool b)).
Proof. exact truth_or_overflow. Qed.
Print Assumptions C81_truth.
(** With y, c = 2**1030 and d = 1.0: bool(y), y > d, and y == c, which raises OverflowError. *)
Example C81_truth_example : reachable e5 /\ history e5 ((o_known ++ [None]) ++ [None]) /\ nth_error ((o_known ++ [None]) ++ [None]) 1 = Some (Some [1]%nat) /\ is_number e5 1 (uf_at e5 1) /\
  reads e5 (IBool 1) (OBool true) /\ (exists p, nth_error (st_env e5) 3 = Some (VNum p)) /\ (exists p, nth_error (st_env e5) 4 = Some (VNum p)) /\
  reads e5 (ICmp Cgt 1 4) (OBool true) /\ reads e5 (ICmp Ceq 1 3) (OExn EOverflow).
Proof. exact ex_truth. Qed.
