(** What the parsing of numbers with uncertainties should do: the notations, as texts, and the
    numbers that they denote. Nothing here refers to the functions of the model. *)
From Coq Require Import String.
From Coq Require Import ZArith List Bool QArith Qabs.
From Verif Require Import Base Str FmtOps FmtSpec.
Import ListNotations.
Local Open Scope Z_scope.

(** ** Texts of numbers *)
Definition digits (U : Unicode) (s : str) : Prop := Forall (fun c => u_dig U c <> None) s.
(** White space, without newlines. *)
Definition blanks (U : Unicode) (s : str) : Prop := Forall (fun c => u_spc U c = true /\ c <> 10) s.
Definition spaces (U : Unicode) (s : str) : Prop := Forall (fun c => u_spc U c = true) s.
Inductive sign_of : str -> bool -> Prop :=
| sg_none : sign_of [] false
| sg_plus : sign_of (lit "+") false
| sg_minus : sign_of (lit "-") true.
Definition signed (neg : bool) (n : Z) : Z := if neg then - n else n.
(** An integer. *)
Definition integer (U : Unicode) (s : str) (n : Z) : Prop :=
  exists sg neg ds, s = sg ++ ds /\ sign_of sg neg /\ digits U ds /\ ds <> [] /\ n = signed neg (uval U ds).
(** A decimal number without sign: m * 10^-k. *)
Inductive decimal (U : Unicode) : str -> Z -> nat -> Prop :=
| de_int : forall i, digits U i -> i <> [] -> decimal U i (uval U i) 0
| de_point : forall i f, digits U i -> digits U f -> i ++ f <> [] ->
    decimal U (i ++ 46 :: f) (uval U (i ++ f)) (length f).
(** Characters raised to superscripts. *)
Definition raised (c : Z) : Z := if c =? 43 then 8314 else sup_char c.
Definition ascii_int (s : str) : Prop := Forall (fun c => 48 <= c <= 57 \/ c = 43 \/ c = 45) s.
(** An exponent: e, E, or a multiplication sign, 10 and superscripts. *)
Inductive exponent (U : Unicode) : str -> Z -> Prop :=
| ex_e : forall c t n, c = 101 \/ c = 69 -> integer U t n -> exponent U (c :: t) n
| ex_x : forall sp sp' t n, blanks U sp -> blanks U sp' -> integer U t n -> ascii_int t ->
    exponent U (sp ++ 215 :: sp' ++ lit "10" ++ map raised t) n.
(** The exponent of floats. *)
Inductive float_exp (U : Unicode) : str -> Z -> Prop :=
| fe_none : float_exp U [] 0
| fe_e : forall c t n, c = 101 \/ c = 69 -> integer U t n -> float_exp U (c :: t) n.

(** What a text denotes: a number +/- m*10^e, possibly multiplied by a power of ten, an infinity,
    or no number. *)
Inductive lexed := LDec (neg : bool) (m e : Z) | LInf (neg : bool) | LNan.
Definition word_of (w : string) (s : str) : Prop := map lower s = lit w.
Inductive float_text (U : Unicode) : str -> lexed -> Prop :=
| ft_dec : forall sp sg neg a m k x n sp', blanks U sp -> blanks U sp' -> sign_of sg neg ->
    decimal U a m k -> float_exp U x n ->
    float_text U (sp ++ (sg ++ a ++ x) ++ sp') (LDec neg m (n - Z.of_nat k))
| ft_nan : forall sp sg neg w sp', blanks U sp -> blanks U sp' -> sign_of sg neg ->
    word_of "nan" w -> float_text U (sp ++ (sg ++ w) ++ sp') LNan
| ft_inf : forall sp sg neg w sp', blanks U sp -> blanks U sp' -> sign_of sg neg ->
    (word_of "inf" w \/ word_of "infinity" w) -> float_text U (sp ++ (sg ++ w) ++ sp') (LInf neg).
(** A number, alone or with a power of ten in pretty-print notation. *)
Inductive number (U : Unicode) : str -> lexed -> option Z -> Prop :=
| nu_float : forall s l, float_text U s l -> number U s l None
| nu_pretty : forall sp sg neg a m k x x' t n sp', blanks U sp -> blanks U x -> blanks U x' ->
    blanks U sp' -> sign_of sg neg -> decimal U a m k -> integer U t n -> ascii_int t ->
    number U (sp ++ sg ++ a ++ x ++ 215 :: x' ++ lit "10" ++ map raised t ++ sp')
           (LDec neg m (- Z.of_nat k)) (Some n).

(** ** Notations *)
(** Two numbers, or a number followed by an uncertainty in parentheses; and a power of ten. *)
Inductive uncert := UUnits (d : Z) | UNumber (l : lexed) | ULast.
Inductive meaning :=
| MPair (a : lexed) (x : option Z) (b : lexed) (y : option Z) (n : option Z)
| MParen (a : lexed) (k : nat) (u : uncert) (n : option Z).
Definition pm_sign (s : str) : Prop := s = lit "+/-" \/ s = [177].
Inductive nonfinite : str -> lexed -> Prop :=
| nf_nan : nonfinite (lit "nan") LNan
| nf_NAN : nonfinite (lit "NAN") LNan
| nf_inf : nonfinite (lit "inf") (LInf false)
| nf_INF : nonfinite (lit "INF") (LInf false).
Inductive unsigned (U : Unicode) (neg : bool) : str -> lexed -> nat -> Prop :=
| un_dec : forall a m k, decimal U a m k -> unsigned U neg a (LDec neg m (- Z.of_nat k)) k
| un_nan : forall a, nonfinite a LNan -> unsigned U neg a LNan 0
| un_inf : forall a, nonfinite a (LInf false) -> unsigned U neg a (LInf neg) 0.
(** The uncertainty in parentheses: in units of the last digit if there is no decimal point. *)
Inductive in_paren (U : Unicode) : str -> uncert -> Prop :=
| ip_units : forall ds, digits U ds -> ds <> [] -> in_paren U (lit "(" ++ ds ++ lit ")") (UUnits (uval U ds))
| ip_point : forall i f, digits U i -> digits U f -> i ++ f <> [] ->
    in_paren U (lit "(" ++ (i ++ 46 :: f) ++ lit ")") (UNumber (LDec false (uval U (i ++ f)) (- len f)))
| ip_word : forall w l, nonfinite w l -> in_paren U (lit "(" ++ w ++ lit ")") (UNumber l)
| ip_none : in_paren U [] ULast.
Inductive opt_exp (U : Unicode) : str -> option Z -> Prop :=
| oe_none : opt_exp U [] None
| oe_some : forall s n, exponent U s n -> opt_exp U s (Some n).

Inductive simple_notation (U : Unicode) : str -> meaning -> Prop :=
| no_pair : forall s a x pm t b y, number U s a x -> pm_sign pm -> number U t b y ->
    simple_notation U (s ++ pm ++ t) (MPair a x b y None)
| no_factor : forall s a x pm t b y e n, number U s a x -> pm_sign pm -> number U t b y ->
    exponent U e n ->
    simple_notation U (lit "(" ++ (s ++ pm ++ t) ++ lit ")" ++ e) (MPair a x b y (Some n))
| no_paren : forall sg neg s a k p u e n, sign_of sg neg -> unsigned U neg s a k -> in_paren U p u ->
    opt_exp U e n ->
    simple_notation U (sg ++ s ++ p ++ e) (MParen a k u n).
(** The notations, with optional parentheses around them, and white space around the whole. *)
Inductive notation (U : Unicode) : str -> meaning -> Prop :=
| no_simple : forall s m, simple_notation U s m -> notation U s m
| no_parens : forall s m, simple_notation U s m -> notation U (lit "(" ++ s ++ lit ")") m.

(** ** Values *)
(** The exact decimal number denoted, as a rational number if it is one. *)
Definition qsigned (neg : bool) (q : Q) : Q := if neg then Qopp q else q.
Definition is_value (x : dec) (l : lexed) (n : Z) : Prop :=
  match l with
  | LDec neg m e => real x /\ (dq x == qsigned neg (inject_Z m * p10 (e + n)))%Q
  | LInf neg => x = DInf neg
  | LNan => x = DNan
  end.
Definition oz (n : option Z) : Z := match n with Some n => n | None => 0 end.
Definition denoted (m : meaning) (v u : dec) : Prop :=
  match m with
  | MPair a x b y n => is_value v a (oz x + oz n) /\ is_value u b (oz y + oz n)
  | MParen a k w n =>
      is_value v a (oz n) /\
      match w with
      | UUnits d => is_value u (LDec false d (- Z.of_nat k)) (oz n)
      | UNumber l => is_value u l (oz n)
      | ULast => is_value u (LDec false 1 (- Z.of_nat k)) (oz n)
      end
  end.
(** A standard deviation that is refused: a negative number. *)
Definition negative (u : dec) : Prop := real u /\ (dq u < 0)%Q.

(** Standard deviations that are zero, infinite or NaN, and what should be read for them. *)
Definition special_std (s : dec) : Prop := dzero s \/ s = DInf false \/ s = DNan.
Definition special_read (s u : dec) : Prop :=
  (nonreal s -> u = s) /\ (dzero s -> real u /\ (dq u == 0)%Q).

(** ** Floating-point numbers *)
(** The same notations, in the arithmetic [K]: decimal texts are read as the nearest floats, and
    powers of ten are factors; computing them may overflow. *)
Section Floats.
Context {K : FmtOps}.
Local Open Scope res_scope.
Definition lex_fl (l : lexed) : fl K :=
  match l with LDec neg m e => x_dec K neg m e | LInf neg => x_inf K neg | LNan => x_nan K end.
Definition times (n : option Z) (x : fl K) : res (fl K) := match n with Some n => x_mul10 K x n | None => Ok x end.
Definition power (n : option Z) : res unit :=
  match n with Some n => _ <- x_mul10 K (x_nan K) n ;; Ok tt | None => Ok tt end.
Definition meaning_fl (m : meaning) : res (fl K * fl K) :=
  match m with
  | MPair a x b y n =>
      _ <- power n ;;
      (v <- times x (lex_fl a) ;;
       (v <- times n v ;;
        (u <- times y (lex_fl b) ;;
         (u <- times n u ;; Ok (v, u)))))
  | MParen a k w n =>
      _ <- power n ;;
      (v <- times n (lex_fl a) ;;
       (u <- match w with
             | UNumber l => Ok (lex_fl l)
             | UUnits d => x <- x_of_Z K d ;; x_div10 K x (Z.of_nat k)
             | ULast => x <- x_of_Z K 1 ;; x_div10 K x (Z.of_nat k)
             end ;;
        (u <- times n u ;; Ok (v, u))))
  end.
End Floats.
