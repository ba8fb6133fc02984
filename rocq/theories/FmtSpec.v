(** What formatting and parsing should do: notions that do not refer to the functions of the
    model. *)
From Coq Require Import String.
From Coq Require Import ZArith List Bool QArith Qabs Qminmax.
From Verif Require Import Base Str FmtOps Format.
Import ListNotations.
Local Open Scope Z_scope.

(** The facts about Python's Unicode tables that are used: ASCII digits and white space are as
    usual, and the symbols of the pretty-print notation are neither. *)
Definition sups : list Z := [8314; 8315; 8304; 185; 178; 179; 8308; 8309; 8310; 8311; 8312; 8313].
Record UniLaws (U : Unicode) : Prop := mkUniLaws {
  ul_digit : forall c, 48 <= c <= 57 -> u_dig U c = Some (c - 48);
  ul_range : forall c d, u_dig U c = Some d -> 0 <= d <= 9;
  ul_ascii : forall c, 0 <= c < 128 -> ~ (48 <= c <= 57) -> u_dig U c = None;
  ul_symbol : forall c, In c (177 :: 215 :: sups) -> u_dig U c = None /\ u_spc U c = false;
  ul_space : forall c, 0 <= c < 128 -> u_spc U c = true <-> (9 <= c <= 13 \/ 28 <= c <= 32);
  ul_disjoint : forall c, u_dig U c <> None -> u_spc U c = false }.

(** ** Format specifications *)
(** Nothing or one of the given characters. *)
Definition at_most_one (l : string) (s : str) : Prop := s = [] \/ exists c, In c (lit l) /\ s = [c].
(** [s] is the specification made of these parts:
    [fill][align][sign][0][width][,][.precision][u][type][options]. *)
Record assembled (U : Unicode) (p : parts) (s : str) : Prop := mkAssembled {
  as_whole : s = p_fill p ++ p_align p ++ p_sign p ++ p_zero p ++ p_width p ++ p_comma p ++
                 match p_prec p with Some d => 46 :: d | None => [] end ++
                 p_uncert p ++ p_type p ++ p_opts p;
  as_fill : p_fill p = [] \/ exists c, p_fill p = [c] /\ c <> 123 /\ c <> 125;   (* not { or } *)
  as_align : at_most_one "<>=^" (p_align p);
  as_sign : at_most_one "-+ " (p_sign p);
  as_zero : at_most_one "0" (p_zero p);
  as_width : Forall (fun c => u_dig U c <> None) (p_width p);
  as_comma : at_most_one "," (p_comma p);
  as_prec : forall d, p_prec p = Some d -> d <> [] /\ Forall (fun c => u_dig U c <> None) d;
  as_uncert : at_most_one "u" (p_uncert p);
  as_type : at_most_one "eEfFgG%" (p_type p);
  as_opts : Forall (fun c => In c (lit "PSLp")) (p_opts p) }.
(** The zero flag is not hidden in the width, and a fill character comes with an alignment. *)
Definition zero_apart (p : parts) : Prop := p_zero p = [] -> hd 0 (p_width p) <> 48.
Definition fill_aligned (p : parts) : Prop := p_fill p <> [] -> p_align p <> [].

(** ** Decimal notation *)
Definition ten : Q := 10 # 1.
Definition p10 (k : Z) : Q := Qpower ten k.
(** [n] is [x] rounded to an integer, half to even. *)
Definition half_even (x : Q) (n : Z) : Prop :=
  (Qabs (x - inject_Z n) < 1 # 2)%Q \/
  ((Qabs (x - inject_Z n) == 1 # 2)%Q /\ Z.Even n).

Definition ascii_digits (s : str) : Prop := Forall (fun c => 48 <= c <= 57) s.
(** The number written with these digits. *)
Fixpoint dval (s : str) : Z :=
  match s with [] => 0 | c :: r => (c - 48) * 10 ^ len r + dval r end.
Definition no_commas (s : str) : str := filter (fun c => negb (c =? 44)) s.
(** Groups of three digits, the first of one to three. *)
Definition grouped (s : str) : Prop :=
  exists h gs, s = h ++ flat_map (fun g => 44 :: g) gs /\ (1 <= length h <= 3)%nat /\ ascii_digits h /\
    Forall (fun g => length g = 3%nat /\ ascii_digits g) gs.
(** [s] is n * 10^-d in decimal notation: digits, and d decimals after a point. *)
Definition numeral (comma : bool) (n : Z) (d : nat) (s : str) : Prop :=
  exists i f, s = i ++ match d with O => [] | _ => 46 :: f end /\
    length f = d /\ ascii_digits f /\
    i <> [] /\ (if comma then grouped i else ascii_digits i) /\ dval (no_commas i ++ f) = n.
(** No zero in front, except that of 0.1. *)
Definition no_padding (d : nat) (s : str) : Prop :=
  match s with
  | 48 :: r => match d with O => r = [] | _ => exists f, r = 46 :: f end
  | _ => True
  end.
Definition sign_text (flag : str) (neg : bool) : str :=
  if neg then lit "-" else match flag with [45] => [] | _ => flag end.
(** A number displayed for a flag of sign, a flag of zero padding, a flag of commas and a minimum
    width, which only counts with zero padding. *)
Definition shown (flag : str) (zero comma : bool) (w : Z) (neg : bool) (n : Z) (d : nat) (s : str) : Prop :=
  exists t, s = sign_text flag neg ++ t /\ numeral comma n d t /\
    (zero = false -> no_padding d t) /\
    (zero = true -> w <= len s /\ (w + (if comma then 1 else 0) < len s -> no_padding d t)).

(** [t] is [s] aligned in a field of width w. *)
Definition aligned (fill : Z) (align : str) (w : Z) (s t : str) : Prop :=
  exists a b : nat, t = repeat fill a ++ s ++ repeat fill b /\ len t = Z.max w (len s) /\
    ((align = [] \/ align = lit ">") -> b = O) /\ (align = lit "<" -> a = O) /\
    (align = lit "^" -> (a <= b <= S a)%nat).

(** ** Layout of the output *)
Definition opt (o : str) (c : Z) : bool := if in_dec Z.eq_dec c o then true else false.
(** The number written with digits of any script. *)
Fixpoint uval (U : Unicode) (s : str) : Z :=
  match s with
  | [] => 0
  | c :: r => match u_dig U c with Some d => d * 10 ^ len r + uval U r | None => uval U r end
  end.
(** An integer without superfluous zeros. *)
Definition int_text (n : Z) (s : str) : Prop :=
  exists t, s = (if n <? 0 then lit "-" else []) ++ t /\ numeral false (Z.abs n) 0 t /\ no_padding 0 t.
Definition sup_char (c : Z) : Z :=
  if c =? 45 then 8315 else nth (Z.to_nat (c - 48)) [8304; 185; 178; 179; 8308; 8309; 8310; 8311; 8312; 8313] c.
(** The text of an exponent, for the options [o]: x10 and superscripts with P, LaTeX with L, the
    notation of floats otherwise. *)
Definition exp_text (o : str) (upper : bool) (e : Z) (s : str) : Prop :=
  if opt o 80 then exists t, int_text e t /\ s = 215 :: lit "10" ++ map sup_char t
  else if opt o 76 then exists t, int_text e t /\ s = lit " \times 10^{" ++ t ++ lit "}"
  else exists t, s = (if upper then 69 else 101) :: (if e <? 0 then 45 else 43) :: t /\
         numeral false (Z.abs e) 0 t /\ (2 <= length t)%nat /\ ((2 < length t)%nat -> no_padding 0 t).
Definition pm_text (o : str) : str :=
  if opt o 80 then [177] else if opt o 76 then lit " \pm " else lit "+/-".
Definition percent_text (o : str) (percent : bool) : str :=
  if percent then (if opt o 76 then lit " \%" else lit "%") else [].
Definition in_parens (o : str) (s : str) : str :=
  if opt o 76 && negb (opt o 80) then lit "\left(" ++ s ++ lit "\right)" else lit "(" ++ s ++ lit ")".
Definition fill_of (p : parts) : Z :=
  match p_fill p with c :: _ => c | [] => if hd 32 (p_width p) =? 48 then 48 else 32 end.

(** The whole output, from the texts of the two numbers and the exponent. Without a width the
    exponent is a common factor; with one it follows each number ([nx] and [ex] tell whether it
    does), and each number is aligned. The shorthand notation is aligned as a whole. *)
Definition laid_out (U : Unicode) (p : parts) (percent : bool) (e : option Z) (nx ex : bool)
  (x ns es r : str) : Prop :=
  let o := p_opts p in
  let pct := percent_text o percent in
  (match e with
   | None => x = []
   | Some e => exp_text o (existsb (Z.eqb (hd 0 (p_type p))) (lit "EFG")) e x
   end) /\
  if opt o 83 then
    let whole := ns ++ lit "(" ++ es ++ lit ")" ++ x ++ pct in
    match p_width p with
    | [] => r = whole
    | w => aligned (fill_of p) (p_align p) (uval U w) whole r
    end
  else
    match p_width p with
    | [] =>
        let v := ns ++ pm_text o ++ es in
        r = match e with
            | Some _ => in_parens o v ++ x ++ pct
            | None => if percent then in_parens o v ++ pct else if opt o 112 then in_parens o v else v
            end
    | w =>
        exists a b,
          aligned (fill_of p) (p_align p) (uval U w) (ns ++ if nx then x else []) a /\
          aligned (fill_of p) (p_align p) (uval U w) (es ++ if ex then x else []) b /\
          let v := a ++ pm_text o ++ b in
          r = if percent then in_parens o v ++ pct else if opt o 112 then in_parens o v else v
    end.
(** The room for a number, with zero padding: the width minus what follows in the field. *)
Definition room (U : Unicode) (p : parts) (rest : Z) : Z := Z.max (uval U (p_width p) - rest) 0.
Definition pads (p : parts) : bool := negb (isnil (p_zero p)) && negb (isnil (p_width p)).
Definition commas (p : parts) : bool := negb (isnil (p_comma p)).

(** ** Which digits are displayed *)
(** The value of an exact decimal number, and those that are real numbers. *)
Definition dq (x : dec) : Q :=
  match x with DNum s m e => (if s then - (inject_Z m * p10 e) else inject_Z m * p10 e)%Q | _ => 0%Q end.
Definition real (x : dec) : Prop := exists s m e, x = DNum s m e /\ 0 <= m.
Definition signbit (x : dec) : bool := match x with DNum s _ _ | DInf s => s | DNan => false end.

(** 10^l is the place of the last digit that shows [v] with [n] significant digits: rounded there,
    [v] has n digits, and one place further to the right it has more. *)
Definition sig_limit (v : Q) (n l : Z) : Prop :=
  exists M M', half_even (v * p10 (- l)) M /\ 10 ^ (n - 1) <= M < 10 ^ n /\
    half_even (v * p10 (1 - l)) M' /\ 10 ^ n <= M'.
(** The rule of the Particle Data Group: [D] is made of the three highest digits of the standard
    deviation [S0], and [S] is displayed, with digits down to 10^k. *)
Definition pdg_rule (S0 S : Q) (k : Z) : Prop :=
  exists f D, (p10 f <= S0)%Q /\ (S0 < p10 (f + 1))%Q /\
    (inject_Z D <= S0 * p10 (2 - f))%Q /\ (S0 * p10 (2 - f) < inject_Z (D + 1))%Q /\
    ((100 <= D <= 354 /\ (S == S0)%Q /\ sig_limit S 2 k) \/
     (355 <= D <= 949 /\ (S == S0)%Q /\ sig_limit S 1 k) \/
     (950 <= D <= 999 /\ (S == p10 (f + 1))%Q /\ sig_limit S 2 k)).
Definition fixed_type (ty : str) : Prop := ty = lit "f" \/ ty = lit "F" \/ ty = lit "%".
Definition exp_type (ty : str) : Prop := ty = lit "e" \/ ty = lit "E".
Definition gen_type (ty : str) : Prop := ty = [] \/ ty = lit "g" \/ ty = lit "G".
(** The place 10^k of the last digit, for the nominal value [V] and the standard deviation [S0], of
    which [S] is displayed. *)
Definition last_place (U : Unicode) (p : parts) (V S0 S : Q) (k : Z) : Prop :=
  match p_prec p with
  | None => pdg_rule S0 S k
  | Some d =>
      (S == S0)%Q /\
      (p_uncert p <> [] -> sig_limit S (uval U d) k) /\
      (p_uncert p = [] ->
        (fixed_type (p_type p) -> k = - uval U d) /\
        (exp_type (p_type p) -> sig_limit (Qmax (Qabs V) S0) (uval U d + 1) k) /\
        (gen_type (p_type p) -> sig_limit (Qmax (Qabs V) S0) (Z.max 1 (uval U d)) k))
  end.
(** The common exponent: the larger number [M] is R*10^k, its exponent is [X] and it has X-k+1
    significant digits. *)
Definition common_exponent (ty : str) (M : Q) (k : Z) (e : option Z) : Prop :=
  (fixed_type ty -> e = None) /\
  (~ fixed_type ty -> exists R X, half_even (M * p10 (- k)) R /\
     (p10 X <= inject_Z R * p10 k)%Q /\ (inject_Z R * p10 k < p10 (X + 1))%Q /\
     (exp_type ty -> e = Some X) /\
     (gen_type ty -> e = if (-4 <=? X) && (X <? X - k + 1) then None else Some X)).
(** The uncertainty in shorthand notation: with a decimal point if it has an integer part. *)
Definition short_text (m : Z) (d : nat) (s : str) : Prop :=
  if (0 <? Z.of_nat d) && ((m =? 0) || (10 ^ Z.of_nat d <=? m)) then numeral false m d s /\ no_padding d s
  else if m =? 0 then s = lit "0."
  else numeral false m 0 s /\ no_padding 0 s.

(** ** The whole output, for a real nominal value V and a real uncertainty *)
(** Both numbers are divided by the common power of ten and rounded, half to even, to [d] decimals:
    [n] and [m] are the digits. [S] is the uncertainty that is displayed, and 10^k the place of the
    last digit that is asked for; digits up to the units are always displayed. [neg] is the sign bit
    of the nominal value. *)
Record output (U : Unicode) (p : parts) (V S : Q) (neg : bool) (k : Z) (e : option Z) (d : nat) (n m : Z) (r : str) : Prop := mkOutput {
  out_decimals : Z.of_nat d = Z.max (match e with Some X => X - k | None => - k end) 0;
  out_nominal : half_even (Qabs V * p10 (Z.of_nat d - match e with Some X => X | None => 0 end)) n;
  out_uncert : half_even (S * p10 (Z.of_nat d - match e with Some X => X | None => 0 end)) m;
  out_text : exists x ns es,
    let o := p_opts p in
    let percent := str_eqb (p_type p) (lit "%") in
    laid_out U p percent e true true x ns es r /\
    if opt o 83 then
      shown (p_sign p) (pads p) (commas p)
        (room U p (len (lit "(" ++ es ++ lit ")" ++ x ++ percent_text o percent))) neg n d ns /\
      short_text m d es
    else
      shown (p_sign p) (pads p) (commas p) (room U p (len x)) neg n d ns /\
      shown [] (pads p) (commas p) (room U p (len x)) false m d es }.
(** The factor of percentages. *)
Definition unit_of (p : parts) : Q := if str_eqb (p_type p) (lit "%") then 100%Q else 1%Q.

(** ** Uncertainties and nominal values which are not real numbers *)
Definition dzero (s : dec) : Prop := exists e, s = DNum false 0 e.
(** Zero, infinite or NaN. *)
Definition special (s : dec) : Prop := dzero s \/ (exists b, s = DInf b) \/ s = DNan.
Definition nonreal (x : dec) : Prop := (exists b, x = DInf b) \/ x = DNan.
(** The text of an infinite number or NaN, for a flag of sign: upper case letters with E, F and G;
    LaTeX with L. *)
Definition word_text (p : parts) (flag : str) (x : dec) : str :=
  let upper := existsb (Z.eqb (hd 0 (p_type p))) (lit "EFG") in
  match x with
  | DNan =>
      let t := sign_text flag false ++ lit (if upper then "NAN" else "nan") in
      if opt (p_opts p) 76 then lit "\mathrm{" ++ t ++ lit "}" else t
  | DInf b =>
      if opt (p_opts p) 76 then lit (if b then "-\infty" else "\infty")
      else sign_text flag b ++ lit (if upper then "INF" else "inf")
  | DNum _ _ _ => []
  end.
(** The standard deviations that are possible. *)
Definition std_like (s : dec) : Prop := (real s /\ (0 <= dq s)%Q) \/ s = DInf false \/ s = DNan.
(** When formatting is possible: the alignment is not '=' with a width; at least one significant
    digit is asked for if the digits of the uncertainty are; there is no comma together with a
    precision for the types g, G and none, if one of the numbers has to be written like Python does. *)
Definition acceptable (U : Unicode) (p : parts) (nom s : dec) : Prop :=
  (p_align p = lit "=" -> p_width p = []) /\
  (p_uncert p <> [] -> forall d, p_prec p = Some d -> uval U d = 0 -> ~ (real s /\ (0 < dq s)%Q)) /\
  (p_comma p <> [] -> p_prec p <> None -> gen_type (p_type p) ->
     real s /\ (0 < dq s)%Q /\ (real nom \/ opt (p_opts p) 83 = true)).
(** The number of significant digits that decides of the exponent, when the uncertainty is not a
    positive real number or the nominal value is not a real number. *)
Definition ref_digits (U : Unicode) (p : parts) : Z :=
  let ty := p_type p in
  let exp := str_eqb ty (lit "e") || str_eqb ty (lit "E") in
  match p_prec p with
  | Some d => if exp then uval U d + 1 else Z.max 1 (uval U d)
  | None => if exp then 7 else match ty with [] => 12 | _ => 6 end
  end.
