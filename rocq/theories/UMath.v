(** umath: math functions on numbers with uncertainties. No proofs in this file. *)
From Coq Require Import ZArith List Bool.
From Verif Require Import Base Heap Affine Ops.
Import ListNotations.

Section UMath.
Context {N : NumOps}.
Open Scope res_scope.
Notation one := (n_one N).
Notation "a +. b" := (n_add N a b) (at level 50, left associativity).
Notation "a -. b" := (n_sub N a b) (at level 50, left associativity).
Notation "a *. b" := (n_mul N a b) (at level 40, left associativity).

(** x**2 in the derivative formulas. *)
Definition sq (x : num N) : res (num N) := n_powf x (n_two N).

(** umath_core.py 178: erf_coef. *)
Definition erf_coef : res (num N) := s <- n_fun1 N F_sqrt (n_pi N) ;; n_div N (n_two N) s.

(** umath_core.py 180-213: derivatives of the functions of one argument; [None] for the
    functions of umath_core.py 62-72 that are differentiated numerically. *)
Definition m1_der (f : mfun1) : option (num N -> res (pynum N)) :=
  let fl (r : num N -> res (num N)) := Some (fun x => rmap PF (r x)) in
  match f with
  | F_acos => fl (fun x => a <- sq x ;; s <- n_fun1 N F_sqrt (one -. a) ;;
                           n_div N (n_neg N one) s)
  | F_acosh => fl (fun x => a <- sq x ;; s <- n_fun1 N F_sqrt (a -. one) ;; n_div N one s)
  | F_asin => fl (fun x => a <- sq x ;; s <- n_fun1 N F_sqrt (one -. a) ;; n_div N one s)
  | F_asinh => fl (fun x => a <- sq x ;; s <- n_fun1 N F_sqrt (one +. a) ;; n_div N one s)
  | F_atan => fl (fun x => a <- sq x ;; n_div N one (one +. a))
  | F_atanh => fl (fun x => a <- sq x ;; n_div N one (one -. a))
  | F_cos => fl (fun x => s <- n_fun1 N F_sin x ;; Ok (n_neg N s))
  | F_cosh => fl (n_fun1 N F_sinh)
  | F_degrees => fl (fun _ => n_fun1 N F_degrees one)
  | F_erf => fl (fun x => a <- sq x ;; e <- n_fun1 N F_exp (n_neg N a) ;;
                          k <- erf_coef ;; Ok (e *. k))
  | F_erfc => fl (fun x => a <- sq x ;; e <- n_fun1 N F_exp (n_neg N a) ;;
                           k <- erf_coef ;; Ok (n_neg N e *. k))
  | F_exp => fl (n_fun1 N F_exp)
  | F_expm1 => fl (n_fun1 N F_exp)
  | F_fabs => Some (fun x => Ok (if n_le N (n_zero N) x then PZ 1%Z else PZ (-1)%Z))
  | F_log => fl (fun x => n_div N one x)
  | F_log10 => fl (fun x => a <- n_div N one x ;; l <- n_fun1 N F_log (n_ten N) ;;
                            n_div N a l)
  | F_log1p => fl (fun x => n_div N one (one +. x))
  | F_radians => fl (fun _ => n_fun1 N F_radians one)
  | F_sin => fl (n_fun1 N F_cos)
  | F_sinh => fl (n_fun1 N F_cosh)
  | F_sqrt => fl (fun x => s <- n_fun1 N F_sqrt x ;; n_div N (n_half N) s)
  | F_tan => fl (fun x => t <- n_fun1 N F_tan x ;; a <- sq t ;; Ok (one +. a))
  | F_tanh => fl (fun x => t <- n_fun1 N F_tanh x ;; a <- sq t ;; Ok (one -. a))
  | F_gamma | F_lgamma => None
  end.

(** math.f as a Python function of one argument. Keyword arguments are refused. *)
Definition m1_fun (f : mfun1) : pyfun N :=
  fun args kw =>
  match args, kw with
  | [PNum a], [] => x <- pn_float a ;; y <- n_fun1 N f x ;; Ok (PNum (PF y))
  | _, _ => Err EType
  end.

(** Derivatives handed to wrap() by umath_core.py 257-260: those of fixed_derivatives through
    nan_if_exception; the missing ones are numerical (core.py 548-552). *)
Definition m1_pos (f : mfun1) (i : nat) : pyder N :=
  fun args kw =>
  match m1_der f, i with
  | Some d, 0%nat =>
      match args, kw with
      | [PNum a], [] => nan_if_exception (x <- pn_float a ;; d x)
      | _, _ => Err EType
      end
  | _, _ => partial_derivative (m1_fun f) (APos i) args kw
  end.
Definition m1_kw (f : mfun1) (k : nat) : pyder N :=
  partial_derivative (m1_fun f) (AName k).

(** umath.f(x). *)
Definition umath1 (f : mfun1) (a : value N) : M N (value N) :=
  wcall (m1_fun f) (m1_pos f) (m1_kw f) [a] [].

(** umath_core.py 164-170: _deriv_pow_0, on floats. *)
Definition mpow_der0 (x y : num N) : res (num N) :=
  if n_eq N y (n_zero N) then Ok (n_zero N)
  else if negb (n_eq N x (n_zero N)) || pn_integral (PF y) then
    r <- n_fun2 N G_pow x (y -. one) ;; Ok (y *. r)
  else n_nan N.
(** umath_core.py 172-176: _deriv_pow_1. *)
Definition mpow_der1 (x y : num N) : res (num N) :=
  if n_eq N x (n_zero N) && n_lt N (n_zero N) y then Ok (n_zero N)
  else l <- n_fun1 N F_log x ;; r <- n_fun2 N G_pow x y ;; Ok (l *. r).

(** umath_core.py 152-156 and 180-213: derivatives of the functions of two arguments. The
    two arguments are named as in math: atan2(y, x) receives y first. Simplification: int
    arguments are converted to float first. *)
Definition m2_der0 (f : mfun2) : option (num N -> num N -> res (pynum N)) :=
  let fl (r : num N -> num N -> res (num N)) := Some (fun x y => rmap PF (r x y)) in
  match f with
  | G_atan2 => fl (fun y x => a <- sq x ;; b <- sq y ;; n_div N x (a +. b))
  | G_copysign => fl (fun x y =>
      c <- n_fun2 N G_copysign one y ;;
      Ok (if n_le N (n_zero N) x then c else n_neg N c))
  | G_hypot => fl (fun x y => r <- n_fun2 N G_hypot x y ;; n_div N x r)
  | G_log => fl (fun x y => a <- n_div N one x ;; l <- n_fun1 N F_log y ;; n_div N a l)
  | G_pow => fl mpow_der0
  | G_fmod => None
  end.
Definition m2_der1 (f : mfun2) : option (num N -> num N -> res (pynum N)) :=
  let fl (r : num N -> num N -> res (num N)) := Some (fun x y => rmap PF (r x y)) in
  match f with
  | G_atan2 => fl (fun y x => a <- sq x ;; b <- sq y ;; n_div N (n_neg N y) (a +. b))
  | G_copysign => Some (fun x y => Ok (PZ 0%Z))
  | G_hypot => fl (fun x y => r <- n_fun2 N G_hypot x y ;; n_div N y r)
  | G_log => fl (fun x y => r <- n_fun2 N G_log x y ;;
                            a <- n_div N (n_neg N r) y ;;
                            l <- n_fun1 N F_log y ;; n_div N a l)
  | G_pow => fl mpow_der1
  | G_fmod => None
  end.

Definition m2_fun (f : mfun2) : pyfun N :=
  fun args kw =>
  match args, kw with
  | [PNum a; PNum b], [] =>
      x <- pn_float a ;; y <- pn_float b ;; r <- n_fun2 N f x y ;; Ok (PNum (PF r))
  | _, _ => Err EType
  end.

Definition m2_pos (f : mfun2) (i : nat) : pyder N :=
  fun args kw =>
  let fixed (d : num N -> num N -> res (pynum N)) :=
    match args, kw with
    | [PNum a; PNum b], [] =>
        nan_if_exception (x <- pn_float a ;; y <- pn_float b ;; d x y)
    | _, _ => Err EType
    end in
  match i with
  | 0%nat => match m2_der0 f with
         | Some d => fixed d
         | None => partial_derivative (m2_fun f) (APos 0) args kw
         end
  | 1%nat => match m2_der1 f with
         | Some d => fixed d
         | None => partial_derivative (m2_fun f) (APos 1) args kw
         end
  | _ => partial_derivative (m2_fun f) (APos i) args kw
  end.
Definition m2_kw (f : mfun2) (k : nat) : pyder N :=
  partial_derivative (m2_fun f) (AName k).

(** umath.f(x, y). *)
Definition umath2 (f : mfun2) (a b : value N) : M N (value N) :=
  wcall (m2_fun f) (m2_pos f) (m2_kw f) [a; b] [].

(** umath_core.py 74-81 and 220-237: locally constant functions. *)
Inductive cfun := K_ceil | K_floor | K_isinf | K_isnan | K_trunc.
(** Results: an int for ceil, floor and trunc, a bool (as the int 0 or 1) for the tests. *)
Definition math_cfun (f : cfun) (x : num N) : res Z :=
  match f with
  | K_ceil => n_ceil N x
  | K_floor => n_floor N x
  | K_trunc => n_trunc N x
  | K_isinf => Ok (if n_isinf N x then 1 else 0)%Z
  | K_isnan => Ok (if n_isnan N x then 1 else 0)%Z
  end.
Definition umath_cst (f : cfun) (a : value N) : res Z :=
  match nominal_value a, f with
  | PNum (PZ z), (K_ceil | K_floor | K_trunc) => Ok z       (* int.__ceil__()... *)
  | PNum p, _ => x <- pn_float p ;; math_cfun f x
  | _, _ => Err EType
  end.

(** umath_core.py 294-317: fsum. *)
Fixpoint floats_of (l : list (plain N)) : res (list (num N)) :=
  match l with
  | [] => Ok []
  | PNum p :: l' => x <- pn_float p ;; r <- floats_of l' ;; Ok (x :: r)
  | _ :: _ => Err EType
  end.
Definition flat_fsum : pyfun N :=
  fun args kw => match kw with
                 | [] => l <- floats_of args ;; s <- n_fsum N l ;; Ok (PNum (PF s))
                 | _ => Err EType
                 end.
(** The derivatives are itertools.repeat(lambda *fsum_args: 1) (umath_core.py 307-308). *)
Definition fsum_pos (i : nat) : pyder N := fun _ _ => Ok (PZ 1%Z).
Definition fsum_kw (k : nat) : pyder N := partial_derivative flat_fsum (AName k).
Definition umath_fsum (l : list (value N)) : M N (value N) :=
  wcall flat_fsum fsum_pos fsum_kw l [].

(** umath_core.py 329-351: modf(x). *)
Definition umath_modf (a : value N) : M N (value N * num N) :=
  bind (to_affine_scalar a) (fun u h =>
    let (fr, ip) := n_modf N (uf_nom u) in
    if lc_truth (get_lc h (uf_lp u))
    then (Ok (VUF (mkUF fr (uf_lp u) None), ip), h)
    else (Ok (VNum (PF fr), ip), h)).

(** 2**i: an int for i >= 0, a float otherwise (2**-1100 is 0.0, not an error). *)
Definition two_power (i : Z) : res (pynum N) :=
  if (0 <=? i)%Z then Ok (PZ (2 ^ i)%Z)
  else match n_of_Z N i with
       | Ok x => rmap PF (n_powf (n_two N) x)
       | Err e => Err e
       end.

(** umath_core.py 354-375: ldexp(x, i). *)
Definition umath_ldexp (a : value N) (i : Z) : M N (value N) :=
  bind (to_affine_scalar a) (fun u h =>
    if lc_truth (get_lc h (uf_lp u)) then
      match n_ldexp N (uf_nom u) i with
      | Err e => (Err e, h)
      | Ok x =>
          match two_power i with
          | Err e => (Err e, h)
          | Ok c =>
              let (l, h') := alloc_lc h (LList [IPair c (uf_lp u)]) in
              (Ok (VUF (mkUF x l None)), h')
          end
      end
    else
      match a with
      | VNum p => (x <- pn_float p ;; r <- n_ldexp N x i ;; Ok (VNum (PF r)), h)
      | _ => (Err EType, h)   (* math.ldexp(x, i) on a UFloat: float(x) raises *)
      end).

(** umath_core.py 378-406: frexp(x). The list given to LinearCombination is not a list of
    pairs; it is stored last element first. *)
Definition umath_frexp (a : value N) : M N (value N * Z) :=
  bind (to_affine_scalar a) (fun u h =>
    let (m, e) := n_frexp N (uf_nom u) in
    if lc_truth (get_lc h (uf_lp u)) then
      match two_power (- e) with
      | Err ex => (Err ex, h)
      | Ok c =>
          let (l, h') := alloc_lc h (LList [ILC (uf_lp u); INum c]) in
          (Ok (VUF (mkUF m l None), e), h')
      end
    else
      match a with
      | VNum p => (Ok (VNum (PF m), e), h)
      | _ => (Err EType, h)   (* math.frexp(x) on a UFloat: float(x) raises *)
      end).

End UMath.
