(** Property theorems about derivatives in binary64. *)
From Coq Require Import ZArith List Bool Reals Permutation Relations.Relation_Operators.
From Flocq Require Import Core BinarySingleNaN.
From Verif Require Import Base Heap HeapSpec NumF Affine Ops UMath Machine Cov Calls Unumpy UMatrix History FRefute BinStd GradSpec BinGradThm GradStd BinSqrt ExGrad BinCov ExBinCov FmtF BinProofs BinEq BinOrd ExBinOrd.
Import ListNotations.
Local Open Scope R_scope.

(** ** C72 *)
(** C72: derivatives in binary64, for any history. *)
Theorem C72_derivatives : forall (lm : Libm), forall st L i a, traced lm st L -> nth_error L i = Some (Some a) -> in_range a ->
  exists d, reads st (IDeriv i) (ODict d) /\ NoDup (dkeys d) /\ (forall v x, dget d v = Some x -> is_finite (x : f64) = true) /\
    forall v, Rabs (fval lm d v - grad a v) <= INR (roundings a) / 2 ^ 52 * paths a v.
Proof. exact derivatives_accurate. Qed.
Print Assumptions C72_derivatives.
(** x = ufloat(3, 1); y = x*x; z = y - x. The state e3 results from a read of y.derivatives in between. *)
Example C72_example : exists L, traced lm0 g3 L /\ traced lm0 e3 L /\ nth_error L 2%nat = Some (Some lin_z) /\
  in_range lin_z /\ grad lin_z 0%nat = 5 /\ paths lin_z 0%nat = 7 /\ roundings lin_z = 24%nat /\ get_lc (st_heap g3) 1%nat <> get_lc (st_heap e3) 1%nat.
Proof. exact ex_grad. Qed.
(** The same calculation in two programs that read different things. *)
Theorem C72_repeatable : forall (lm : Libm), forall st1 L1 i1 st2 L2 i2 a d1 d2, traced lm st1 L1 -> traced lm st2 L2 ->
  nth_error L1 i1 = Some (Some a) -> nth_error L2 i2 = Some (Some a) -> in_range a ->
  reads st1 (IDeriv i1) (ODict d1) -> reads st2 (IDeriv i2) (ODict d2) ->
  forall v, Rabs (fval lm d1 v - fval lm d2 v) <= INR (roundings a) / 2 ^ 51 * paths a v.
Proof. exact derivatives_repeatable. Qed.
Print Assumptions C72_repeatable.
(** What is differentiated by + - and *: the exact rules. *)
Theorem C72_arithmetic : forall lm (st : state (FOps lm)) L op i j u w a b st' r, traced lm st L ->
  is_number st i u -> is_number st j w -> nth_error L i = Some (Some a) -> nth_error L j = Some (Some b) ->
  is_finite (uf_nom u : f64) = true -> is_finite (uf_nom w : f64) = true ->
  does st (IBin op i j) st' ONone -> is_number st' (length (st_env st)) r ->
  let x := B2R (uf_nom u : f64) in let y := B2R (uf_nom w : f64) in
  match op with
  | Badd => traced lm st' (L ++ [Some (call_lin [(1, a); (1, b)])])
  | Bsub => traced lm st' (L ++ [Some (call_lin [(1, a); (-1, b)])])
  | Bmul => traced lm st' (L ++ [Some (call_lin [(y, a); (x, b)])])
  | _ => True
  end.
Proof. exact arithmetic_traced. Qed.
Print Assumptions C72_arithmetic.
(** The standard deviation against the exact propagation of uncertainties. *)
Theorem C72_standard_deviation : forall (lm : Libm), squares_ok lm -> forall (st : state (FOps lm)) L i a u d ec ins vs, traced lm st L -> nth_error L i = Some (Some a) -> in_range a ->
  is_number st i u -> reads st (IDeriv i) (ODict d) -> reads st (IErrs i) (OErrs ec) ->
  List.Forall (entry_ok lm st) d -> (length d <= 1000)%nat -> NoDup vs -> incl (dkeys d) vs ->
  ins = IStdS i \/ (ins = IStd i /\ uf_var u = None) ->
  let sigma := fun v => B2R (sd st v : f64) in
  exists s : f64, reads st ins (ONum (N:=FOps lm) s) /\ is_finite s = true /\
    Rabs (B2R s - sqrt (Rsum (map (fun v => (grad a v * sigma v) ^ 2) vs)))
      <= INR (length d + 8 + 2 * roundings a) / 2 ^ 53 * sqrt (Rsum (map (fun v => (paths a v * sigma v) ^ 2) vs)).
Proof. exact std_exact. Qed.
Print Assumptions C72_standard_deviation.
(** ufloat(3, 1)**2 - x, with x*x for the square. *)
Example C72_standard_deviation_example : exists L u, squares_ok lm0 /\ traced lm0 g3 L /\ nth_error L 2%nat = Some (Some lin_z) /\ in_range lin_z /\
  is_number g3 2 u /\ uf_var u = None /\ reads g3 (IDeriv 2) (ODict (N:=FN) g_dict) /\ reads g3 (IErrs 2) (OErrs g_errs) /\
  List.Forall (entry_ok lm0 g3) g_dict /\ length g_dict = 1%nat /\ incl (dkeys g_dict) [0%nat] /\
  B2R (sd g3 0%nat : f64) = 1 /\ grad lin_z 0%nat * 1 = 5.
Proof. exact ex_std_exact. Qed.
(** ** C16 *)
(** C16 in binary64: the s of a variable is its standard deviation, if this is 0x1p-500 to 0x1p500 and if the C library squares correctly. *)
Theorem C16_variable_binary64 : forall (lm : Libm), exact_squares lm -> forall st0 n s tag st1 st x, does st0 (INew n s tag) st1 ONone -> later lm st1 st ->
  let i := length (st_env st0) in reads st (IStd i) (ONum (N:=FOps lm) x) ->
  is_finite (x : f64) = true -> / 2 ^ 500 <= B2R (x : f64) <= 2 ^ 500 -> reads st (IStdS i) (ONum (N:=FOps lm) x).
Proof. exact variable_s. Qed.
Print Assumptions C16_variable_binary64.
(** s of ufloat(3, 1). *)
Example C16_variable_binary64_example : exists x, exact_squares lm0 /\ does (init (N:=FN)) (INew (fl 3 0) (fl 1 0) None) g1 ONone /\ later lm0 g1 g2 /\
  reads g2 (IStd 0) (ONum (N:=FN) x) /\ is_finite (x : f64) = true /\ / 2 ^ 500 <= B2R (x : f64) <= 2 ^ 500.
Proof. exact ex_variable_s. Qed.
(** The s of a number that is not a variable is its std_dev. *)
Theorem C16_calculated_binary64 : forall (lm : Libm), forall (st : state (FOps lm)) i u o, is_number st i u -> uf_var u = None ->
  (reads st (IStd i) o <-> reads st (IStdS i) o).
Proof. exact calculated_s. Qed.
Print Assumptions C16_calculated_binary64.
(** ** C73 *)
(** C73: covariances in binary64, for any history. *)
Theorem C73_covariance : forall lm, squares_ok lm -> forall order (st : state (FOps lm)) L is m st' p q i j a b vs,
  (forall l, Permutation (order l) l) -> traced lm st L -> covariance order st is (Ok m) st' ->
  nth_error is p = Some i -> nth_error is q = Some j -> nth_error L i = Some (Some a) -> nth_error L j = Some (Some b) ->
  small_lin a -> small_lin b -> (forall v, usual (sd st v)) ->
  let sigma := fun v => B2R (sd st v : f64) in
  NoDup vs -> (forall v, paths a v <> 0 -> paths b v <> 0 -> sigma v <> 0 -> In v vs) -> (Z.of_nat (length vs) <= 1000000)%Z ->
  let x := entry (N:=FOps lm) m p q : f64 in
  is_finite x = true /\
  Rabs (B2R x - Rsum (map (fun v => grad a v * grad b v * sigma v ^ 2) vs))
    <= INR (roundings a + roundings b + 2 * length vs + 6) / 2 ^ 52 * Rsum (map (fun v => paths a v * paths b v * sigma v ^ 2) vs).
Proof. exact covariance_accurate. Qed.
Print Assumptions C73_covariance.
(** x = ufloat(3, 1); z = x*x - x: the covariance of z and x is 5. *)
Example C73_covariance_example : exists L m st', squares_ok lm0 /\ traced lm0 g3 L /\ covariance (fun l => l) g3 [2; 0]%nat (Ok m) st' /\
  nth_error L 2%nat = Some (Some lin_z) /\ nth_error L 0%nat = Some (Some (var_lin 0%nat)) /\ small_lin lin_z /\ small_lin (var_lin 0%nat) /\
  (forall v, usual (sd g3 v : f64)) /\ (forall v, paths lin_z v <> 0 -> paths (var_lin 0%nat) v <> 0 -> In v [0%nat]) /\
  Rsum (map (fun v => grad lin_z v * grad (var_lin 0%nat) v * B2R (sd g3 v : f64) ^ 2) [0%nat]) = 5 /\ B2R (entry (N:=FN) m 0 1 : f64) = 5.
Proof. exact ex_covariance. Qed.
(** Correlations, from the covariances. *)
Theorem C73_correlation : forall lm order (st st' : state (FOps lm)) is m, covariance order st is (Ok m) st' ->
  exists c, correlation order st is (Ok c) st' /\
    forall a b, (a < length m)%nat -> (b < length m)%nat ->
      let cov := fun i j => entry (N:=FOps lm) m i j : f64 in
      is_finite (cov a b) = true -> is_finite (cov a a) = true -> is_finite (cov b b) = true ->
      moderate (B2R (cov a a)) -> moderate (B2R (cov b b)) -> B2R (cov a b) = 0 \/ moderate (Rabs (B2R (cov a b))) ->
      let rho := B2R (cov a b) / sqrt (B2R (cov a a) * B2R (cov b b)) in
      let x := entry (N:=FOps lm) c a b : f64 in
      is_finite x = true /\ Rabs (B2R x - rho) <= 5 / 2 ^ 53 * Rabs rho.
Proof. exact correlation_accurate. Qed.
Print Assumptions C73_correlation.
(** The correlation of z and x is 1. *)
Example C73_correlation_example : exists m st', covariance (fun l => l) g3 [2; 0]%nat (Ok m) st' /\ length m = 2%nat /\
  let cov := fun i j => entry (N:=FN) m i j : f64 in
  is_finite (cov 0%nat 1%nat) = true /\ is_finite (cov 0%nat 0%nat) = true /\ is_finite (cov 1%nat 1%nat) = true /\
  moderate (B2R (cov 0%nat 0%nat)) /\ moderate (B2R (cov 1%nat 1%nat)) /\ moderate (Rabs (B2R (cov 0%nat 1%nat))) /\
  B2R (cov 0%nat 1%nat) / sqrt (B2R (cov 0%nat 0%nat) * B2R (cov 1%nat 1%nat)) = 1.
Proof. exact ex_correlation. Qed.
(** ** C11 *)
(** C11 in any arithmetic: > and < compare nominal values and never raise; >= and <= are > or ==, < or ==, and == is not calculated if the nominal values decide. *)
Theorem C11_any_arithmetic : forall (N : NumOps), forall (st : state N) i j u w, is_number st i u -> is_number st j w ->
  (forall o, reads st (ICmp Cgt i j) o <-> o = OBool (n_lt N (uf_nom w) (uf_nom u))) /\
  (forall o, reads st (ICmp Clt i j) o <-> o = OBool (n_lt N (uf_nom u) (uf_nom w))) /\
  (forall o, reads st (ICmp Cge i j) o <-> if n_lt N (uf_nom w) (uf_nom u) then o = OBool true else reads st (ICmp Ceq i j) o) /\
  (forall o, reads st (ICmp Cle i j) o <-> if n_lt N (uf_nom u) (uf_nom w) then o = OBool true else reads st (ICmp Ceq i j) o).
Proof. exact @order_any. Qed.
Print Assumptions C11_any_arithmetic.
(** C11 in binary64, infinities and NaN included: > is a strict order on the nominal values, and < is its mirror image. *)
Theorem C11_binary64 : forall (lm : Libm) (st : state (FOps lm)) i j k u w x, is_number st i u -> is_number st j w -> is_number st k x ->
  (reads st (ICmp Cgt i j) (OBool true) <-> below (uf_nom w) (uf_nom u)) /\
  (forall o, reads st (ICmp Cgt i j) o <-> reads st (ICmp Clt j i) o) /\
  (forall o, reads st (ICmp Cge i j) o <-> reads st (ICmp Cgt i j) (OBool true) /\ o = OBool true \/ reads st (ICmp Cgt i j) (OBool false) /\ reads st (ICmp Ceq i j) o) /\
  (forall o, reads st (ICmp Cle i j) o <-> reads st (ICmp Clt i j) (OBool true) /\ o = OBool true \/ reads st (ICmp Clt i j) (OBool false) /\ reads st (ICmp Ceq i j) o) /\
  reads st (ICmp Cgt i i) (OBool false) /\
  (reads st (ICmp Cgt i j) (OBool true) -> reads st (ICmp Cgt j k) (OBool true) -> reads st (ICmp Cgt i k) (OBool true)).
Proof. exact order_binary64. Qed.
Print Assumptions C11_binary64.
(** 1+/-0.125, -inf+/-1 and nan+/-1. *)
Example C11_binary64_example : exists u w x, is_number (after mixed) 0 u /\ is_number (after mixed) 1 w /\ is_number (after mixed) 2 x /\
  reads (after mixed) (ICmp Cgt 0 1) (OBool true) /\ reads (after mixed) (ICmp Cge 0 1) (OBool true) /\
  reads (after mixed) (ICmp Cgt 0 2) (OBool false) /\ reads (after mixed) (ICmp Clt 0 2) (OBool false) /\ reads (after mixed) (ICmp Cge 2 2) (OBool false).
Proof. exact ex_order. Qed.
(** ** C12 *)
(** C12 in binary64, for a number of which the derivatives have been read, if the contributions of the variables are zero or do not underflow when squared. *)
Theorem C12_read_binary64 : forall lm, squares_ok lm -> forall (st : state (FOps lm)) i u d e, reachable st -> is_number st i u ->
  known_dict lm st i d -> reads st (IErrs i) (OErrs e) -> NoDup (dkeys d) -> List.Forall (entry_ok lm st) d -> INR (length d) <= 1000000 ->
  is_finite (uf_nom u : f64) = true ->
  exists b, reads st (IBool i) (OBool b) /\ (b = false <-> B2R (uf_nom u : f64) = 0 /\ List.Forall (fun p => prod lm st p = 0) d).
Proof. exact bool_binary64. Qed.
Print Assumptions C12_read_binary64.
(** x - x is false and x is true. *)
Example C12_read_example : exists u (e : list (varid * pynum FN)), squares_ok lm0 /\ reachable st_z /\ is_number st_z 1 u /\ known_dict lm0 st_z 1 (dict_at st_z 1) /\ reads st_z (IErrs 1) (OErrs e) /\
  NoDup (dkeys (dict_at st_z 1)) /\ List.Forall (entry_ok lm0 st_z) (dict_at st_z 1) /\ INR (length (dict_at st_z 1)) <= 1000000 /\ is_finite (uf_nom u : f64) = true /\
  reads st_z (IBool 1) (OBool false) /\ reads st_z (IBool 0) (OBool true).
Proof. exact ex_bool. Qed.
(** ufloat(0, 2**-600) is false although its standard deviation is not zero. *)
Theorem C12_binary64_refuted : reachable (after tiny0) /\ reads (after tiny0) (IStd 0) (ONum (N:=FN) (fnorm 1 (-600))) /\ 0 < B2R (fnorm 1 (-600)) /\
  reads (after tiny0) (IBool 0) (OBool false).
Proof. exact bool_tiny. Qed.
Print Assumptions C12_binary64_refuted.
(** ** C53 *)
(** C53 in binary64: ValueError for a standard deviation of zero; else the score within three roundings. *)
Theorem C53_binary64 : forall (lm : Libm) (st : state (FOps lm)) i u (s x : f64), is_number st i u -> reads st (IStd i) (ONum (N:=FOps lm) s) ->
  is_finite s = true -> is_finite (uf_nom u : f64) = true -> is_finite x = true ->
  (B2R s = 0 -> reads st (IScore i (PF (N:=FOps lm) x)) (OExn EValue)) /\
  (let d := B2R x - B2R (uf_nom u : f64) in Rabs d <= r10 300 -> B2R s <> 0 -> d = 0 \/ r10 (-299) <= Rabs (d / B2R s) <= r10 299 ->
    exists r : f64, reads st (IScore i (PF (N:=FOps lm) x)) (ONum (N:=FOps lm) r) /\ is_finite r = true /\
      Rabs (B2R r - d / B2R s) <= 3 / 2 ^ 53 * Rabs (d / B2R s)).
Proof. exact score_binary64. Qed.
Print Assumptions C53_binary64.
(** (16 - 6)/5. *)
Example C53_binary64_example : exists u, is_number g3 2 u /\ is_finite (uf_nom u : f64) = true /\ B2R (uf_nom u : f64) = 6 /\
  reads g3 (IStd 2) (ONum (N:=FN) g_std) /\ is_finite g_std = true /\ B2R g_std = 5 /\
  is_finite (fnorm 16 0) = true /\ B2R (fnorm 16 0) = 16 /\ exists r : f64, reads g3 (IScore 2 (fl 16 0)) (ONum (N:=FN) r) /\ B2R r = 2.
Proof. exact ex_score. Qed.
Example C53_binary64_zero_example : reads (after exact_one) (IScore 0 (fl 16 0)) (OExn EValue).
Proof. exact ex_score_zero. Qed.
(** ** C18 *)
(** C18 in binary64, for any history: the variance given by covariance_matrix() is the square of the standard deviation up to rounding errors. *)
Theorem C18_binary64 : forall lm, squares_ok lm -> forall order (st : state (FOps lm)) L is m st' p i a u d ec ins vs,
  (forall l, Permutation (order l) l) -> traced lm st L -> covariance order st is (Ok m) st' ->
  nth_error is p = Some i -> nth_error L i = Some (Some a) -> small_lin a -> (forall v, usual (sd st v)) ->
  is_number st i u -> reads st (IDeriv i) (ODict d) -> reads st (IErrs i) (OErrs ec) -> List.Forall (entry_ok lm st) d -> (length d <= 1000)%nat ->
  ins = IStdS i \/ (ins = IStd i /\ uf_var u = None) ->
  let sigma := fun v => B2R (sd st v : f64) in
  NoDup vs -> incl (dkeys d) vs -> (forall v, paths a v <> 0 -> sigma v <> 0 -> In v vs) -> (length vs <= 1000)%nat ->
  let x := entry (N:=FOps lm) m p p : f64 in
  exists s : f64, reads st ins (ONum (N:=FOps lm) s) /\ is_finite s = true /\ is_finite x = true /\
    Rabs (B2R x - B2R s ^ 2) <= INR (5 * roundings a + 4 * length vs + 18) / 2 ^ 52 * Rsum (map (fun v => (paths a v * sigma v) ^ 2) vs).
Proof. exact diagonal_binary64. Qed.
Print Assumptions C18_binary64.
(** z = x*x - x for x = ufloat(3, 1): 25 and 5. *)
Example C18_binary64_example : exists L m st' u, squares_ok lm0 /\ traced lm0 g3 L /\ covariance (fun l => l) g3 [2; 0]%nat (Ok m) st' /\
  nth_error L 2%nat = Some (Some lin_z) /\ small_lin lin_z /\ (forall v, usual (sd g3 v : f64)) /\
  is_number g3 2 u /\ uf_var u = None /\ reads g3 (IDeriv 2) (ODict (N:=FN) g_dict) /\ reads g3 (IErrs 2) (OErrs g_errs) /\
  List.Forall (entry_ok lm0 g3) g_dict /\ length g_dict = 1%nat /\ incl (dkeys g_dict) [0%nat] /\ (forall v, paths lin_z v <> 0 -> In v [0%nat]) /\
  B2R (entry (N:=FN) m 0 0 : f64) = 25 /\ reads g3 (IStd 2) (ONum (N:=FN) g_std) /\ B2R g_std = 5.
Proof. exact ex_diagonal. Qed.
