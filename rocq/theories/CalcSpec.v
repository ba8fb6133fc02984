(** Derivatives in binary64 against those of differential calculus. Specification only. *)
From Coq Require Import ZArith List Bool Reals.
From Coquelicot Require Import Coquelicot.
From Flocq Require Import Core BinarySingleNaN.
From Verif Require Import Base Heap HeapSpec Affine Ops UMath Machine Cov Calls Unumpy UMatrix History NumR NumF GradSpec Prim.
Import ListNotations.
Local Open Scope R_scope.

(** A local derivative within 32 roundings of [c']. *)
Definition about (c c' : R) : Prop := Rabs (c - c') <= / 2 ^ 48 * Rabs c'.
(** The chain rule with exact local derivatives; 33 more roundings for each of them. *)
Definition exact_lin (l : list (R * lin)) : lin := mkLin
  (fun v => Rsum (map (fun p => fst p * grad (snd p) v) l))
  (fun v => Rsum (map (fun p => Rabs (fst p) * paths (snd p) v) l))
  (list_sum (map (fun p => roundings (snd p) + 39) l)%nat)
  (fold_right (fun p r => Rmax (size (fst p) * range (snd p)) r) 1 l).
Definition well_in_range (a : lin) : Prop := (Z.of_nat (roundings a) <= 1000000000)%Z /\ range a <= 2 ^ 899.

Section Calc.
Variable lm : Libm.
Notation FN := (FOps lm).
(** Exact local derivatives of the uncertain arguments, near those that are computed. *)
Inductive about_terms (st : state FN) (L : list (option lin)) : list (res (pynum FN) * nat) -> list (R * lin) -> Prop :=
| about_nil : about_terms st L [] []
| about_plain : forall r j a ds l, nth_error (st_env st) j = Some (VPlain a) -> about_terms st L ds l ->
    about_terms st L ((r, j) :: ds) l
| about_number : forall c c' j u a ds l, is_number st j u -> cfinite lm c = true -> about (cval lm c) c' ->
    nth_error L j = Some (Some a) -> about_terms st L ds l -> about_terms st L ((Ok c, j) :: ds) ((c', a) :: l).
(** Histories, as in GradSpec, with differentials made of exact local derivatives. *)
Inductive calculated : state FN -> list (option lin) -> Prop :=
| calc_init : calculated init []
| calc_new : forall st L n s tag st' u v, calculated st L -> does st (INew n s tag) st' ONone ->
    is_number st' (length (st_env st)) u -> uf_var u = Some v -> calculated st' (L ++ [Some (var_lin v)])
| calc_operator : forall st L op i j st' a b p q u l, calculated st L -> does st (IBin op i j) st' ONone ->
    is_number st' (length (st_env st)) u ->
    nth_error (st_env st) i = Some a -> nth_error (st_env st) j = Some b ->
    nominal_value a = PNum p -> nominal_value b = PNum q ->
    about_terms st L [(op_der_x op p q, i); (op_der_y op p q, j)] l -> calculated st' (L ++ [Some (exact_lin l)])
| calc_function : forall st L f pos kwd args kw st' a k u l, calculated st L ->
    does st (ICall f pos kwd args kw) st' ONone -> is_number st' (length (st_env st)) u ->
    get_args (st_env st) args = Some a -> get_kwargs (st_env st) kw = Some k ->
    let av := map nominal_value a in let kv := map (fun p => (fst p, nominal_value (snd p))) k in
    about_terms st L (combine (map (fun n => pos n av kv) (seq 0 (length args))) args ++
                     map (fun p => (kwd (fst p) av kv, snd p)) kw) l ->
    calculated st' (L ++ [Some (exact_lin l)])
| calc_other : forall st L st', calculated st L -> acts lm st st' ->
    calculated st' (L ++ repeat None (length (st_env st') - length (st_env st))).
End Calc.

(** Operators as functions of two real numbers. *)
Definition real_op (op : binop) (x y : R) : R :=
  match op with
  | Badd => x + y | Bsub => x - y | Bmul => x * y | Btruediv => x / y
  | Bfloordiv => IZR (Zfloor (x / y)) | Bmod => x - y * IZR (Zfloor (x / y)) | Bpow => Rpower x y
  end.
(** Functions of the math module, as functions of a real number (0 outside of their domain). *)
Definition real_fun (f : mfun1) (x : R) : R := match Rfun1 (fun _ => 0) (fun _ => 0) f x with Ok y => y | Err _ => 0 end.
(** Zero, or neither too large nor too small. *)
Definition tame (x : R) : Prop := x = 0 \/ moderate (Rabs x).
(** A C library whose functions are accurate to two units in the last place, apart from
    underflows. *)
Definition accurate (r : f64) (y : R) : Prop := is_finite r = true /\
  Rabs (B2R r - y) <= / 2 ^ 51 * Rabs y + / 10 ^ 300 /\ (y = 0 \/ / 10 ^ 280 <= Rabs y -> Rabs (B2R r - y) <= / 2 ^ 51 * Rabs y).
Definition in_libm (f : mfun1) : bool := match f with F_sqrt | F_fabs | F_gamma | F_lgamma => false | _ => true end.
Definition libm_ok (lm : Libm) : Prop :=
  (forall f (x : f64) y, in_libm f = true -> is_finite x = true -> Rfun1 (fun _ => 0) (fun _ => 0) f (B2R x) = Ok y ->
     Rabs y <= 10 ^ 280 -> exists r, lm_fun1 lm f x = Ok r /\ accurate r y) /\
  (forall x y : f64, is_finite x = true -> is_finite y = true -> 0 < B2R x ->
     Rpower (B2R x) (B2R y) <= 10 ^ 280 -> accurate (lm_pow lm x y) (Rpower (B2R x) (B2R y))).
(** Functions of two arguments: math.log(x, base) is a quotient of two logarithms. *)
Definition from_libm2 (f : mfun2) : bool := match f with G_hypot | G_log | G_pow => true | _ => false end.
Definition libm2_ok (lm : Libm) : Prop := forall f (x y : f64) z, from_libm2 f = true -> is_finite x = true -> is_finite y = true ->
  Rfun2 f (B2R x) (B2R y) = Ok z -> z = 0 \/ / 10 ^ 280 <= Rabs z <= 10 ^ 280 ->
  exists r, lm_fun2 lm f x y = Ok r /\ is_finite r = true /\ Rabs (B2R r - z) <= / 2 ^ 49 * Rabs z.
Definition real_fun2 (f : mfun2) (x y : R) : R := match Rfun2 f x y with Ok z => z | Err _ => 0 end.
(** Functions whose derivative is computed without cancellation. *)
Definition steady (f : mfun1) : bool :=
  match f with
  | F_sin | F_cos | F_tan | F_atan | F_exp | F_expm1 | F_log | F_log10 | F_log1p | F_sqrt | F_sinh | F_cosh | F_asinh
  | F_fabs | F_degrees | F_radians => true
  | _ => false
  end.
(** Where the derivative of a function is computed without much cancellation. *)
Definition settled (f : mfun1) (x : R) : Prop :=
  match f with
  | F_acos | F_asin | F_atanh => x ^ 2 <= 3 / 4
  | F_acosh => 5 / 4 <= x
  | F_tanh => Rabs x <= 3 / 4
  | F_erf | F_erfc => Rabs x <= 7 / 4
  | F_gamma | F_lgamma => False
  | _ => True
  end.
(** Exactly a float. *)
Definition representable (y : R) : Prop := exists z : f64, is_finite z = true /\ B2R z = y.
Definition settled2 (f : mfun2) (x y : R) : Prop := match f with G_pow => representable (y - 1) | _ => True end.
(** Operands for which the derivatives of an operator exist and are computed without overflow
    or underflow. *)
Definition op_dom (op : binop) (x y : R) : Prop :=
  match op with
  | Badd | Bsub | Bmul => True
  | Btruediv => y <> 0 /\ tame x /\ tame y
  | Bpow => 0 < x /\ tame x /\ tame y /\ representable x /\ representable y /\ representable (y - 1)
  | Bfloordiv | Bmod => False
  end.

(** Histories of the four operations, powers and math functions, with the derivatives of
    differential calculus at the nominal values of the operands. *)
Section Analytic.
Variable lm : Libm.
Notation FN := (FOps lm).
Inductive exact_args (st : state FN) (L : list (option lin)) : list (R * nat) -> list (R * lin) -> Prop :=
| ea_nil : exact_args st L [] []
| ea_plain : forall c j a cs l, nth_error (st_env st) j = Some (VPlain a) -> exact_args st L cs l -> exact_args st L ((c, j) :: cs) l
| ea_number : forall c j u a cs l, is_number st j u -> nth_error L j = Some (Some a) -> exact_args st L cs l ->
    exact_args st L ((c, j) :: cs) ((c, a) :: l).
Inductive analytic : state FN -> list (option lin) -> Prop :=
| an_init : analytic init []
| an_new : forall st L n s tag st' u v, analytic st L -> does st (INew n s tag) st' ONone ->
    is_number st' (length (st_env st)) u -> uf_var u = Some v -> analytic st' (L ++ [Some (var_lin v)])
| an_operator : forall st L op i j st' a b p q u cx cy l, analytic st L -> does st (IBin op i j) st' ONone ->
    is_number st' (length (st_env st)) u ->
    nth_error (st_env st) i = Some a -> nth_error (st_env st) j = Some b ->
    nominal_value a = PNum p -> nominal_value b = PNum q -> cfinite lm p = true -> cfinite lm q = true ->
    op_dom op (cval lm p) (cval lm q) ->
    is_derive (fun t => real_op op t (cval lm q)) (cval lm p) cx -> is_derive (fun t => real_op op (cval lm p) t) (cval lm q) cy ->
    tame cx -> tame cy -> exact_args st L [(cx, i); (cy, j)] l -> analytic st' (L ++ [Some (exact_lin l)])
| an_power : forall st L i j st' x q n u w c l, analytic st L -> does st (IBin Bpow i j) st' ONone ->
    is_number st' (length (st_env st)) u -> is_number st i w -> uf_nom w = x ->
    nth_error (st_env st) j = Some (VPlain (PNum q)) -> is_finite (x : f64) = true -> B2R (x : f64) <> 0 -> tame (B2R (x : f64)) ->
    cfinite lm q = true -> cval lm q = IZR n -> tame (IZR n) -> representable (IZR n) -> representable (IZR n - 1) ->
    is_derive (fun t => powerRZ t n) (B2R (x : f64)) c -> tame c -> exact_args st L [(c, i)] l -> analytic st' (L ++ [Some (exact_lin l)])
| an_function : forall st L f i st' x u w c l, analytic st L ->
    does st (ICall (m1_fun f) (m1_pos f) (m1_kw f) [i] []) st' ONone -> is_number st' (length (st_env st)) u ->
    is_number st i w -> uf_nom w = x -> settled f (B2R (x : f64)) -> is_finite (x : f64) = true -> m1_dom f (B2R (x : f64)) -> tame (B2R (x : f64)) ->
    is_derive (real_fun f) (B2R (x : f64)) c -> tame c -> exact_args st L [(c, i)] l -> analytic st' (L ++ [Some (exact_lin l)])
| an_function2 : forall st L f i j st' a b p q u cx cy l, analytic st L ->
    does st (ICall (m2_fun f) (m2_pos f) (m2_kw f) [i; j] []) st' ONone -> is_number st' (length (st_env st)) u ->
    nth_error (st_env st) i = Some a -> nth_error (st_env st) j = Some b ->
    nominal_value a = PNum p -> nominal_value b = PNum q -> cfinite lm p = true -> cfinite lm q = true ->
    representable (cval lm p) -> representable (cval lm q) -> m2_dom f true true (cval lm p) (cval lm q) ->
    tame (cval lm p) -> tame (cval lm q) -> settled2 f (cval lm p) (cval lm q) ->
    is_derive (fun t => real_fun2 f t (cval lm q)) (cval lm p) cx -> is_derive (fun t => real_fun2 f (cval lm p) t) (cval lm q) cy ->
    tame cx -> tame cy -> exact_args st L [(cx, i); (cy, j)] l -> analytic st' (L ++ [Some (exact_lin l)])
| an_other : forall st L st', analytic st L -> acts lm st st' ->
    analytic st' (L ++ repeat None (length (st_env st') - length (st_env st))).
End Analytic.
