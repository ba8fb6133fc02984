(** The texts that are accepted as numbers with uncertainties, documented or not, and what they
    denote. The texts of [ParseSpec.v] are among them. Nothing here refers to the functions of the
    model. *)
From Coq Require Import String.
From Coq Require Import ZArith List Bool.
From Verif Require Import Base Str FmtOps FmtSpec ParseSpec.
Import ListNotations.
Local Open Scope Z_scope.

(** ** What int() and float() read *)
(** Digits, possibly with single underscores between them, and their values. *)
Inductive grouped (U : Unicode) : str -> list Z -> Prop :=
| gr_one : forall c d, u_dig U c = Some d -> grouped U [c] [d]
| gr_more : forall c d s ds, u_dig U c = Some d -> grouped U s ds -> grouped U (c :: s) (d :: ds)
| gr_under : forall c d s ds, u_dig U c = Some d -> grouped U s ds -> grouped U (c :: 95 :: s) (d :: ds).
Inductive opt_grouped (U : Unicode) : str -> list Z -> Prop :=
| og_none : opt_grouped U [] []
| og_some : forall s ds, grouped U s ds -> opt_grouped U s ds.
(** An integer, with white space around it. *)
Inductive int_text (U : Unicode) : str -> Z -> Prop :=
| it_sign : forall sp sg neg g ds sp', spaces U sp -> spaces U sp' -> sign_of sg neg -> grouped U g ds ->
    int_text U (sp ++ (sg ++ g) ++ sp') (signed neg (val ds)).
(** The end of a float: nothing, or e, a sign and digits. *)
Inductive exp_text (U : Unicode) : str -> Z -> Prop :=
| et_none : exp_text U [] 0
| et_e : forall c sg neg g ds, c = 101 \/ c = 69 -> sign_of sg neg -> grouped U g ds ->
    exp_text U (c :: sg ++ g) (signed neg (val ds)).
(** A decimal point with its digits, or nothing. *)
Inductive fraction (U : Unicode) : str -> list Z -> Prop :=
| fr_none : fraction U [] []
| fr_point : forall f df, opt_grouped U f df -> fraction U (46 :: f) df.
Inductive float_like (U : Unicode) : str -> lexed -> Prop :=
| fl_dec : forall sp sg neg i di f df x n sp', spaces U sp -> spaces U sp' -> sign_of sg neg ->
    opt_grouped U i di -> fraction U f df -> di ++ df <> [] -> exp_text U x n ->
    float_like U (sp ++ (sg ++ i ++ f ++ x) ++ sp') (LDec neg (val (di ++ df)) (n - Z.of_nat (length df)))
| fl_nan : forall sp sg neg w sp', spaces U sp -> spaces U sp' -> sign_of sg neg ->
    word_of "nan" w -> float_like U (sp ++ (sg ++ w) ++ sp') LNan
| fl_inf : forall sp sg neg w sp', spaces U sp -> spaces U sp' -> sign_of sg neg ->
    (word_of "inf" w \/ word_of "infinity" w) -> float_like U (sp ++ (sg ++ w) ++ sp') (LInf neg).

(** ** Exponents *)
(** An integer of which some characters may be superscripts. *)
Definition maybe_raised (c d : Z) : Prop := d = c \/ (48 <= c <= 57 \/ c = 43 \/ c = 45) /\ d = raised c.
Definition sup_int (U : Unicode) (s : str) (n : Z) : Prop := exists t, Forall2 maybe_raised t s /\ int_text U t n.
(** What introduces an exponent. *)
Inductive intro (U : Unicode) : str -> Prop :=
| in_e : forall c, c = 101 \/ c = 69 -> intro U [c]
| in_x : forall sp sp', spaces U sp -> spaces U sp' -> intro U (sp ++ 215 :: sp' ++ lit "10").

(** ** Numbers with uncertainties *)
Definition one_line (s : str) : Prop := ~ In 10 s.
Inductive number_like (U : Unicode) : str -> lexed -> option Z -> Prop :=
| nl_float : forall s l, float_like U s l -> number_like U s l None
| nl_pretty : forall a l sp sp' b n, float_like U a l -> spaces U sp -> spaces U sp' -> sup_int U b n ->
    number_like U (a ++ (sp ++ 215 :: sp' ++ lit "10") ++ b) l (Some n).
(** The exponent after a number with an uncertainty in parentheses; it may have no digits, and is
    then ignored. *)
Inductive exp_like (U : Unicode) : str -> option Z -> Prop :=
| el_none : exp_like U [] None
| el_empty : forall i, intro U i -> exp_like U i None
| el_int : forall i b n, intro U i -> one_line b -> sup_int U b n -> exp_like U (i ++ b) (Some n).
(** One newline at the end is ignored. *)
Definition opt_newline (s : str) : Prop := s = [] \/ s = [10].
Definition paren_like (U : Unicode) (s : str) (m : meaning) : Prop :=
  exists sg neg a l k p u e n nl, s = sg ++ a ++ p ++ e ++ nl /\ sign_of sg neg /\ unsigned U neg a l k /\
    in_paren U p u /\ exp_like U e n /\ opt_newline nl /\ m = MParen l k u n.
(** A text, what it denotes, and an exponent that is read and then ignored. *)
Inductive text_like (U : Unicode) : str -> meaning -> option Z -> Prop :=
| tl_pair : forall s a x pm t b y rest, number_like U s a x -> pm_sign pm -> number_like U t b y ->
    one_line s -> one_line t -> (rest = [] \/ exists r, rest = 10 :: r) ->
    text_like U (s ++ pm ++ t ++ rest) (MPair a x b y None) None
| tl_factor : forall s a x pm t b y i e n nl, number_like U s a x -> pm_sign pm -> number_like U t b y ->
    one_line s -> one_line t -> intro U i -> one_line e -> sup_int U e n -> opt_newline nl ->
    text_like U (lit "(" ++ (s ++ pm ++ t) ++ lit ")" ++ i ++ e ++ nl) (MPair a x b y (Some n)) None
| tl_paren : forall s m, paren_like U s m -> text_like U s m None
| tl_ignored : forall s m i e n nl, paren_like U s m -> one_line s ->
    intro U i -> one_line e -> sup_int U e n -> opt_newline nl ->
    text_like U (lit "(" ++ s ++ lit ")" ++ i ++ e ++ nl) m (Some n).
(** The whole: white space and parentheses around such a text. *)
Inductive accepted (U : Unicode) : str -> meaning -> option Z -> Prop :=
| ac_plain : forall sp s sp' m f, spaces U sp -> spaces U sp' -> text_like U s m f ->
    accepted U (sp ++ s ++ sp') m f
| ac_parens : forall sp s sp' m f, spaces U sp -> spaces U sp' -> text_like U s m f ->
    accepted U (sp ++ (lit "(" ++ s ++ lit ")") ++ sp') m f.

(** What is calculated. *)
Definition reading {K : FmtOps} (m : meaning) (f : option Z) : res (fl K * fl K) :=
  rbind (power (K := K) f) (fun _ => meaning_fl m).
