(** What formatting should do with binary64 numbers: the rules of FmtSpec for numbers within a
    relative error of 10^-11. *)
From Coq Require Import String.
From Coq Require Import ZArith List Bool QArith Qabs Qminmax.
From Flocq Require Import BinarySingleNaN.
From Verif Require Import Base Str NumF FmtOps FmtF FmtSpec Format.
Import ListNotations.
Local Open Scope Z_scope.

(** The exact value of a float. *)
Definition fval (x : f64) : Q := dq (fdec x).
(** The C library: the first digit according to log10 is wrong only for numbers close to a power
    of ten, and right for the floats nearest to powers of ten; the sign of log10 is right; powers of
    ten are accurate. *)
Record LibmLaws (lm : Libm10) : Prop := mkLibmLaws {
  ll_log : forall x : f64, is_finite x = true -> (0 < fval x)%Q ->
    (p10 (lg10 lm x) * (1 - (1 # 1000000000000)) <= fval x)%Q /\
    (fval x < p10 (lg10 lm x + 1) * (1 + (1 # 1000000000000)))%Q;
  ll_exact : forall j, -300 <= j <= 300 -> lg10 lm (fdecimal false 1 j) = j;
  ll_sign : forall x : f64, is_finite x = true -> (0 < fval x)%Q -> (0 <= lg10 lm x <-> (1 <= fval x)%Q);
  ll_pow : forall n, -300 <= n <= 300 -> is_finite (pw10 lm n) = true /\
    (Qabs (fval (pw10 lm n) - p10 n) <= (1 # 1000000000000000) * p10 n)%Q }.

(** [b] is close to [a]. *)
Definition near (a b : Q) : Prop := (Qabs (b - a) <= (1 # 100000000000) * Qabs a)%Q.
Definition sig_limit_near (v : Q) (n l : Z) : Prop := exists v', near v v' /\ sig_limit v' n l.
Definition pdg_rule_near (S0 S : Q) (k : Z) : Prop :=
  exists S1 f D, near S0 S1 /\ (p10 f <= S1)%Q /\ (S1 < p10 (f + 1))%Q /\
    (inject_Z D <= S1 * p10 (2 - f))%Q /\ (S1 * p10 (2 - f) < inject_Z (D + 1))%Q /\
    ((100 <= D <= 354 /\ near S0 S /\ sig_limit_near S0 2 k) \/
     (355 <= D <= 949 /\ near S0 S /\ sig_limit_near S0 1 k) \/
     (950 <= D <= 999 /\ near (p10 (f + 1)) S /\ sig_limit_near (p10 (f + 1)) 2 k)).
Definition last_place_near (U : Unicode) (p : parts) (V S0 S : Q) (k : Z) : Prop :=
  match p_prec p with
  | None => pdg_rule_near S0 S k
  | Some d =>
      near S0 S /\
      (p_uncert p <> [] -> sig_limit_near S0 (uval U d) k) /\
      (p_uncert p = [] ->
        (fixed_type (p_type p) -> k = - uval U d) /\
        (exp_type (p_type p) -> sig_limit_near (Qmax (Qabs V) S0) (uval U d + 1) k) /\
        (gen_type (p_type p) -> sig_limit_near (Qmax (Qabs V) S0) (Z.max 1 (uval U d)) k))
  end.
Definition common_exponent_near (ty : str) (M : Q) (k : Z) (e : option Z) : Prop :=
  exists M', near M M' /\ common_exponent ty M' k e.
(** Numbers that are neither too large nor too small. *)
Definition medium (q : Q) : Prop := (p10 (-90) <= q)%Q /\ (q <= p10 90)%Q.
