(** Property theorems: larger standard deviations. *)
From Coq Require Import ZArith List Bool Relations Reals.
From Flocq Require Import Core BinarySingleNaN.
From Verif Require Import Base NumF Heap HeapSpec Affine Ops UMath Machine Cov Copy Calls Unumpy UMatrix History FRefute DepSpec TwinSpec StaySpec BiggerSpec Bigger BiggerLater ExBigger Parts ExParts Opposite ExOpposite.
Import ListNotations.

(** ** C82 *)
(** C82: after x.std_dev = p with a larger p, the uncertainty of no number is smaller than before (unless one of the two is NaN). *)
Theorem C82_set : forall lm, squares_grow lm -> forall (st : state (FOps lm)) j w v p st' i u ins s t,
  is_number st j w -> uf_var w = Some v -> does st (ISet j p) st' ONone -> Bleb f0 (sd st v) = true -> Bleb (sd st v) (sd st' v) = true ->
  is_number st i u -> ins = IStdS i \/ (ins = IStd i /\ uf_var u = None) -> reads st ins (ONum (N:=FOps lm) s) -> reads st' ins (ONum (N:=FOps lm) t) ->
  is_nanf s = false -> is_nanf t = false -> Bleb s t = true.
Proof. exact larger_deviation. Qed.
Print Assumptions C82_set.
(** x = ufloat(1, 0.1); y = ufloat(2, 0.3); z = x*y; x.std_dev = 0.2. *)
Example C82_example : squares_grow lm0 /\ is_number b3 0 (uf_at b3 0) /\ uf_var (uf_at b3 0) = Some 0%nat /\ does b3 (ISet 0 (fl 3602879701896397 (-54))) b4 ONone /\
  Bleb f0 (sd b3 0%nat) = true /\ Bleb (sd b3 0%nat) (sd b4 0%nat) = true /\ is_number b3 2 (uf_at b3 2) /\ uf_var (uf_at b3 2) = None /\
  exists s t : f64, reads b3 (IStd 2) (ONum (N:=FN) s) /\ reads b4 (IStd 2) (ONum (N:=FN) t) /\ is_nanf s = false /\ is_nanf t = false /\ Bltb s t = true.
Proof. exact ex_larger. Qed.
(** ... The same for several standard deviations, and whatever else happens, for a number of which the derivatives have been read. *)
Theorem C82_later : forall lm, squares_grow lm -> forall (st0 st st' : state (FOps lm)) i u d ins s t, reachable st0 -> is_number st0 i u -> does st0 (IDeriv i) st (ODict d) -> afterwards st st' ->
  (forall v, In v (dkeys d) -> sd st' v = sd st v \/ (Bleb f0 (sd st v) = true /\ Bleb (sd st v) (sd st' v) = true)) ->
  ins = IStdS i \/ (ins = IStd i /\ uf_var u = None) -> reads st ins (ONum (N:=FOps lm) s) -> reads st' ins (ONum (N:=FOps lm) t) ->
  is_nanf s = false -> is_nanf t = false -> Bleb s t = true.
Proof. exact larger_deviations. Qed.
Print Assumptions C82_later.
(** The derivatives of z are read before x.std_dev = 0.2. *)
Example C82_later_example : exists d, reachable b3 /\ is_number b3 2 (uf_at b3 2) /\ does b3 (IDeriv 2) b5 (ODict d) /\ afterwards b5 b6 /\
  (forall v, In v (dkeys d) -> sd b6 v = sd b5 v \/ (Bleb f0 (sd b5 v) = true /\ Bleb (sd b5 v) (sd b6 v) = true)) /\
  exists s t : f64, reads b5 (IStd 2) (ONum (N:=FN) s) /\ reads b6 (IStd 2) (ONum (N:=FN) t) /\ is_nanf s = false /\ is_nanf t = false /\ Bltb s t = true.
Proof. exact ex_larger_later. Qed.
(** ... The hypothesis on squares is true if x**2 is the exact square rounded to the nearest float (for instance for the library lm0 of the examples). *)
Theorem C82_squares : forall lm, exact_squares lm -> squares_grow lm.
Proof. exact exact_squares_grow. Qed.
Print Assumptions C82_squares.
(** ** C83 *)
(** C83: std_dev is at least each component of error_components() that is zero or between 2**-500 and 2**500. *)
Theorem C83_parts : forall lm, exact_squares lm -> forall (st : state (FOps lm)) i u ins e s v c, is_number st i u -> ins = IStdS i \/ (ins = IStd i /\ uf_var u = None) ->
  reads st (IErrs i) (OErrs e) -> reads st ins (ONum (N:=FOps lm) s) -> is_nanf s = false -> In (v, PF c) e -> (B2R (c : f64) = 0 \/ / 2 ^ 500 <= B2R (c : f64) <= 2 ^ 500)%R -> Bleb c s = true.
Proof. exact parts_below. Qed.
Print Assumptions C83_parts.
(** z = x*y, x = ufloat(1, 0.1), y = ufloat(2, 0.3). *)
Example C83_example : exact_squares lm0 /\ is_number b3 2 (uf_at b3 2) /\ uf_var (uf_at b3 2) = None /\
  exists e v (c s : f64), reads b3 (IErrs 2) (OErrs e) /\ reads b3 (IStd 2) (ONum (N:=FN) s) /\ is_nanf s = false /\ In (v, PF (c : num FN)) e /\ (/ 2 ^ 500 <= B2R c <= 2 ^ 500)%R /\ Bltb c s = true.
Proof. exact ex_parts. Qed.
(** ... Outside of this range it can be smaller: the square of a tiny component is 0 (y = x + x, x = ufloat(1, 2**-600)). *)
Theorem C83_tiny_refuted : reachable tiny_sum /\ is_number tiny_sum 1 (uf_at tiny_sum 1) /\
  exists e v (c s : f64), reads tiny_sum (IErrs 1) (OErrs e) /\ reads tiny_sum (IStd 1) (ONum (N:=FN) s) /\ is_nanf s = false /\ In (v, PF (c : num FN)) e /\ Bltb s c = true.
Proof. exact parts_refuted. Qed.
Print Assumptions C83_tiny_refuted.
(** ** C84 *)
(** C84: -x, +x and abs(x) have exactly the error components and the uncertainty of x, if the derivatives of x have been read. *)
Theorem C84_signs : forall (lm : Libm), forall (st0 st st' : state (FOps lm)) i u d op, reachable st0 -> is_number st0 i u -> does st0 (IDeriv i) st (ODict d) -> NoDup (dkeys d) ->
  op = Uneg \/ op = Upos \/ op = Uabs -> does st (ICall (unop_fun op) (unop_pos op) no_kw [i] []) st' ONone ->
  exists w, is_number st' (length (st_env st)) w /\
    (forall e, reads st (IErrs i) (OErrs e) -> reads st' (IErrs (length (st_env st))) (OErrs e)) /\
    (forall s, reads st (IStdS i) (ONum s) -> reads st' (IStd (length (st_env st))) (ONum s) /\ reads st' (IStdS (length (st_env st))) (ONum s)).
Proof. exact same_uncertainty. Qed.
Print Assumptions C84_signs.
(** -z, z = x*y, x = ufloat(1, 0.1), y = ufloat(2, 0.3). *)
Example C84_example : exists d, reachable b3 /\ is_number b3 2 (uf_at b3 2) /\ does b3 (IDeriv 2) b5 (ODict d) /\ NoDup (dkeys d) /\
  does b5 (ICall (unop_fun Uneg) (unop_pos Uneg) no_kw [2%nat] []) b7 ONone /\
  exists s : f64, reads b5 (IStdS 2) (ONum (N:=FN) s) /\ Bltb f0 s = true.
Proof. exact ex_opposite. Qed.
(** ... The same holds for x + c, c + x, x - c, c - x and x % c with a constant c. *)
Theorem C84_shifts : forall (lm : Libm), forall (st0 st st' : state (FOps lm)) i u d j p ins, reachable st0 -> is_number st0 i u -> does st0 (IDeriv i) st (ODict d) -> NoDup (dkeys d) ->
  nth_error (st_env st) j = Some (VPlain p) -> In ins [IBin Badd i j; IBin Badd j i; IBin Bsub i j; IBin Bsub j i; IBin Bmod i j] -> does st ins st' ONone ->
  exists w, is_number st' (length (st_env st)) w /\
    (forall e, reads st (IErrs i) (OErrs e) -> reads st' (IErrs (length (st_env st))) (OErrs e)) /\
    (forall s, reads st (IStdS i) (ONum s) -> reads st' (IStd (length (st_env st))) (ONum s) /\ reads st' (IStdS (length (st_env st))) (ONum s)).
Proof. exact same_shifted. Qed.
Print Assumptions C84_shifts.
(** z + 3. *)
Example C84_shifts_example : exists d, reachable c3 /\ is_number c3 2 (uf_at c3 2) /\ does c3 (IDeriv 2) c4 (ODict d) /\ NoDup (dkeys d) /\
  nth_error (st_env c4) 3 = Some (VPlain (PNum (PZ 3))) /\ does c4 (IBin Badd 2 3) c5 ONone /\
  exists s : f64, reads c4 (IStdS 2) (ONum (N:=FN) s) /\ Bltb f0 s = true.
Proof. exact ex_shifted. Qed.
(** ... and for umath.fabs(x) ... *)
Theorem C84_fabs : forall (lm : Libm), forall (st0 st st' : state (FOps lm)) i u d, reachable st0 -> is_number st0 i u -> does st0 (IDeriv i) st (ODict d) -> NoDup (dkeys d) ->
  does st (ICall (m1_fun F_fabs) (m1_pos F_fabs) (m1_kw F_fabs) [i] []) st' ONone ->
  exists w, is_number st' (length (st_env st)) w /\
    (forall e, reads st (IErrs i) (OErrs e) -> reads st' (IErrs (length (st_env st))) (OErrs e)) /\
    (forall s, reads st (IStdS i) (ONum s) -> reads st' (IStd (length (st_env st))) (ONum s) /\ reads st' (IStdS (length (st_env st))) (ONum s)).
Proof. exact same_fabs. Qed.
Print Assumptions C84_fabs.
(** umath.fabs(z). *)
Example C84_fabs_example : exists d, reachable b3 /\ is_number b3 2 (uf_at b3 2) /\ does b3 (IDeriv 2) b5 (ODict d) /\ NoDup (dkeys d) /\
  does b5 (ICall (m1_fun F_fabs) (m1_pos F_fabs) (m1_kw F_fabs) [2%nat] []) b8 ONone.
Proof. exact ex_fabs. Qed.
(** ... and for products by a constant that is 1 or -1. *)
Theorem C84_units : forall (lm : Libm), forall (st0 st st' : state (FOps lm)) i u d j p ins, reachable st0 -> is_number st0 i u -> does st0 (IDeriv i) st (ODict d) -> NoDup (dkeys d) ->
  nth_error (st_env st) j = Some (VPlain (PNum p)) -> pn_float p = Ok fone \/ pn_float p = Ok (fneg fone) -> ins = IBin Bmul i j \/ ins = IBin Bmul j i -> does st ins st' ONone ->
  exists w, is_number st' (length (st_env st)) w /\
    (forall e, reads st (IErrs i) (OErrs e) -> reads st' (IErrs (length (st_env st))) (OErrs e)) /\
    (forall s, reads st (IStdS i) (ONum s) -> reads st' (IStd (length (st_env st))) (ONum s) /\ reads st' (IStdS (length (st_env st))) (ONum s)).
Proof. exact same_times. Qed.
Print Assumptions C84_units.
(** -1 * z. *)
Example C84_units_example : exists d, reachable m3 /\ is_number m3 2 (uf_at m3 2) /\ does m3 (IDeriv 2) m4 (ODict d) /\ NoDup (dkeys d) /\
  nth_error (st_env m4) 3 = Some (VPlain (PNum (PZ (-1)))) /\ pn_float (PZ (N:=FN) (-1)) = Ok (fneg fone) /\ does m4 (IBin Bmul 3 2) m5 ONone.
Proof. exact ex_times. Qed.
