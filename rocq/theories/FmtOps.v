(** Python's conversions between floats and strings, over a record of primitive operations; the
    instance of exact decimal numbers. No proofs in this file. *)
From Coq Require Import String.
From Coq Require Import ZArith List Bool.
From Verif Require Import Base Str.
Import ListNotations.
Local Open Scope Z_scope.
Local Open Scope res_scope.

(** What formatting and parsing do with floats. Powers of ten only occur as factors and
    divisors. Operations only, no laws. *)
Record FmtOps := mkFmtOps {
  fl :> Type;
  x_nan : fl;                          (* float('nan') *)
  x_inf : bool -> fl;                  (* -inf for [true] *)
  x_isnan : fl -> bool;                (* math.isnan *)
  x_isinf : fl -> bool;                (* math.isinf *)
  x_sign : fl -> bool;                 (* sign bit: a '-' is shown *)
  x_lt : fl -> fl -> bool;             (* <  *)
  x_iszero : fl -> bool;               (* == 0 *)
  x_abs : fl -> fl;
  x_mul : fl -> fl -> fl;
  x_of_Z : Z -> res fl;                (* float(int): OverflowError *)
  x_div10 : fl -> Z -> res fl;         (* x / 10.**n: ZeroDivisionError, OverflowError *)
  x_mul10 : fl -> Z -> res fl;         (* x * 10.**n: OverflowError *)
  x_log : fl -> res Z;                 (* int(math.floor(math.log10(x))), x not 0 *)
  x_trunc : fl -> res Z;               (* int(x) *)
  x_dec : bool -> Z -> Z -> fl;        (* the float nearest to +/- m*10**e *)
  x_fix : fl -> Z -> Z;                (* abs(x)*10**p rounded to an integer, half to even *)
  x_sci : fl -> nat -> Z * Z;          (* (d, e): d*10**(e-n+1) is abs(x) rounded to n digits *)
  x_short : fl -> Z * Z                (* (m, e): shortest decimal m*10**e that converts to abs(x) *)
}.

Section Conv.
Context {K : FmtOps} (U : Unicode).

(** core.py 29-33. *)
Definition isinfinite (x : fl K) : bool := x_isinf K x || x_isnan K x.

(** ** Printing *)
(** A format specification of Python for floats, as far as the package produces them:
    [sign][0][width][,][.precision][type]. *)
Record fspec := mkFspec { fs_sign : str; fs_zero : bool; fs_width : Z; fs_comma : bool;
                          fs_prec : option Z; fs_type : str }.

Definition digit_val (c : Z) : option Z := u_dig U c.
Definition is_digit (c : Z) : bool := match u_dig U c with Some _ => true | None => false end.
Fixpoint span {A} (p : A -> bool) (s : list A) : list A * list A :=
  match s with
  | c :: s' => if p c then let (a, b) := span p s' in (c :: a, b) else ([], s)
  | [] => ([], [])
  end.
Definition digit_vals (s : str) : list Z :=
  flat_map (fun c => match u_dig U c with Some d => [d] | None => [] end) s.

(** The parsing of such a specification by Python (parse_internal_render_format_spec of
    CPython's formatter_unicode.c); ValueError if it is not one. *)
Definition take_opt (p : Z -> bool) (s : str) : str * str :=
  match s with c :: s' => if p c then ([c], s') else ([], s) | [] => ([], []) end.
Definition parse_fspec (s : str) : res fspec :=
  let (sign, s) := take_opt (oneof "+- ") s in
  let (zero, s) := take_opt (ch 48) s in
  let (width, s) := span is_digit s in
  let (comma, s) := take_opt (ch 44) s in
  let (point, s) := take_opt (ch 46) s in
  let (prec, s) := match point with [] => ([], s) | _ => span is_digit s end in
  let (type, s) := take_opt (oneof "fFgG") s in
  match s with
  | [] =>
      if negb (isnil point) && isnil prec then Err EValue else
      Ok (mkFspec sign (negb (isnil zero)) (val (digit_vals width)) (negb (isnil comma))
                  (match point with [] => None | _ => Some (val (digit_vals prec)) end) type)
  | _ => Err EValue
  end.

(** Removal of the trailing zeros of a fractional part, and of the point. *)
Fixpoint strip_zeros (s : str) : str :=
  match s with
  | [] => []
  | c :: s' => match strip_zeros s' with
               | [] => if (c =? 48) then [] else [c]
               | t => c :: t
               end
  end.
Definition strip_frac (s : str) : str :=
  let (i, f) := span (fun c => negb (c =? 46)) s in
  match f with
  | [] => i
  | _ :: f' => match strip_zeros f' with [] => i | f'' => i ++ 46 :: f'' end
  end.
(** The exponent of e and g formats and of repr(): sign and at least two digits; '%+03d' % e. *)
Definition show_exp (e : Z) : str :=
  (if e <? 0 then 45 else 43) ::
  (let ds := digs (Z.abs e) in chars (repeat 0 (2 - length ds) ++ ds)).
(** Digits d of a number d*10**(e - (number of digits) + 1), in scientific notation. *)
Definition sci_str (ds : list Z) (e : Z) (E : Z) : str :=
  chars (firstn 1 ds) ++ match skipn 1 ds with [] => [] | f => 46 :: chars f end ++ E :: show_exp e.

(** The digits of abs(x), without sign, for the presentation types f, F, g, G and none. *)
Definition body (fs : fspec) (x : fl K) : str :=
  if x_isnan K x then (if str_eqb (fs_type fs) (lit "F") || str_eqb (fs_type fs) (lit "G") then lit "NAN" else lit "nan")
  else if x_isinf K x then (if str_eqb (fs_type fs) (lit "F") || str_eqb (fs_type fs) (lit "G") then lit "INF" else lit "inf")
  else if str_eqb (fs_type fs) (lit "f") || str_eqb (fs_type fs) (lit "F") then
    let p := match fs_prec fs with Some p => p | None => 6 end in
    fixed_str (x_fix K x p) (Z.to_nat p)
  else
    match fs_type fs, fs_prec fs with
    | [], None =>
        (* like repr() *)
        let (m, e) := x_short K x in
        let ds := digs m in
        let X := e + Z.of_nat (length ds) - 1 in
        if (-4 <=? X) && (X <? 16) then
          if 0 <=? e then fixed_str (m * 10 ^ e * 10) 1 else fixed_str m (Z.to_nat (- e))
        else sci_str ds X 101
    | ty, pr =>
        (* g: 6 digits by default; the package never combines a precision with the type none *)
        let n := match pr with Some 0 => 1 | Some p => p | None => 6 end in
        let (d, X) := x_sci K x (Z.to_nat n) in
        if (-4 <=? X) && (X <? n) then strip_frac (fixed_str (x_fix K x (n - 1 - X)) (Z.to_nat (n - 1 - X)))
        else
          let f := strip_zeros (chars (skipn 1 (digs d))) in
          chars (firstn 1 (digs d)) ++ match f with [] => [] | _ => 46 :: f end ++
          (if str_eqb ty (lit "G") then 69 else 101) :: show_exp X
    end.

(** Thousands separators: ',' between groups of three digits, counted from the right. *)
Fixpoint group3 (ds : str) : str :=
  match ds with
  | [] => []
  | c :: ds' => c :: (if negb (isnil ds') && (len ds' mod 3 =? 0) then 44 :: group3 ds' else group3 ds')
  end.
(** Zeros added on the left of the integer part, for a minimum total width of the integer part,
    separators included; fuel exceeds the number of zeros. *)
Fixpoint zero_fill (fuel : nat) (comma : bool) (w : Z) (ds : str) : str :=
  let s := if comma then group3 ds else ds in
  match fuel with
  | O => s
  | S f => if len s <? w then zero_fill f comma w (48 :: ds) else s
  end.

(** format(x, spec) for a float and such a specification. *)
Definition sign_str (fs : fspec) (neg : bool) : str :=
  if neg then lit "-" else if str_eqb (fs_sign fs) (lit "-") then [] else fs_sign fs.
Definition format_float (fs : fspec) (x : fl K) : str :=
  let sg := sign_str fs (x_sign K x && negb (x_isnan K x)) in
  let b := body fs x in
  let (i, f) := span (fun c => (48 <=? c) && (c <=? 57)) b in
  let w := fs_width fs - len sg - len f in
  if fs_zero fs then
    match i with
    | [] => sg ++ zeros (Z.to_nat (fs_width fs - len sg - len f)) ++ f
    | _ => sg ++ zero_fill (Z.to_nat w) (fs_comma fs) w i ++ f
    end
  else
    let s := sg ++ (if fs_comma fs then group3 i else i) ++ f in
    repeat 32 (Z.to_nat (fs_width fs - len s)) ++ s.   (* numbers are aligned to the right *)
Definition py_format (x : fl K) (spec : str) : res str :=
  fs <- parse_fspec spec ;; Ok (format_float fs x).

(** repr(x). *)
Definition py_repr (x : fl K) : str := format_float (mkFspec [] false 0 false None []) x.

(** round(x, n), n an int. *)
Definition py_round (x : fl K) (n : Z) : fl K :=
  if isinfinite x then x else x_dec K (x_sign K x) (x_fix K x n) (- n).

(** ** Parsing *)
(** Sign, then the rest. *)
Definition take_sign (s : str) : bool * str :=
  match s with
  | c :: s' => if c =? 45 then (true, s') else if c =? 43 then (false, s') else (false, s)
  | [] => (false, [])
  end.
Fixpoint lstrip (s : str) : str :=
  match s with c :: s' => if u_spc U c then lstrip s' else s | [] => [] end.
(** s.strip(). *)
Definition strip (s : str) : str := rev (lstrip (rev (lstrip s))).

(** Digits, with single underscores between digits (PEP 515): the values of the digits and what
    follows; [us] tells whether an underscore is allowed now. *)
Fixpoint digit_run (us : bool) (s : str) : list Z * str :=
  match s with
  | [] => ([], [])
  | c :: s' =>
      match u_dig U c with
      | Some d => let (ds, t) := digit_run true s' in (d :: ds, t)
      | None =>
          if us && (c =? 95) then
            match s' with
            | c' :: s'' =>
                match u_dig U c' with
                | Some d => let (ds, t) := digit_run true s'' in (d :: ds, t)
                | None => ([], s)
                end
            | [] => ([], s)
            end
          else ([], s)
      end
  end.
(** int(s). *)
Definition py_int (s : str) : res Z :=
  let (neg, t) := take_sign (strip s) in
  match digit_run false t with
  | ([], _) | (_, _ :: _) => Err EValue
  | (ds, []) => Ok (if neg then - val ds else val ds)
  end.

(** The words that float() accepts, whatever the case of their letters. *)
Definition lower (c : Z) : Z := if (65 <=? c) && (c <=? 90) then c + 32 else c.
Definition is_word (s : str) (w : string) : bool := str_eqb (map lower s) (lit w).
(** An exponent e[+-]digits, or nothing. *)
Definition exponent_of (s : str) : option Z :=
  match s with
  | [] => Some 0
  | c :: s' =>
      if (c =? 101) || (c =? 69) then
        let (neg, t) := take_sign s' in
        match digit_run false t with
        | ([], _) | (_, _ :: _) => None
        | (ds, []) => Some (if neg then - val ds else val ds)
        end
      else None
  end.
(** float(s). *)
Definition py_float (s : str) : res (fl K) :=
  let (neg, t) := take_sign (strip s) in
  if is_word t "nan" then Ok (x_nan K)
  else if is_word t "inf" || is_word t "infinity" then Ok (x_inf K neg)
  else
    let (i, t1) := digit_run false t in
    let (f, t2) := match t1 with
                   | c :: t' => if c =? 46 then digit_run false t' else ([], t1)
                   | [] => ([], [])
                   end in
    match exponent_of t2 with
    | Some e =>
        if isnil i && isnil f then Err EValue
        else Ok (x_dec K neg (val (i ++ f)) (e - Z.of_nat (length f)))
    | None => Err EValue
    end.
End Conv.

(** ** Exact decimal numbers *)
(** Sign, m >= 0 and e: +/- m * 10^e. Every binary64 number is such a number. *)
Inductive dec := DNum (s : bool) (m e : Z) | DInf (s : bool) | DNan.

(** Number of digits minus one, plus e: the exponent of scientific notation. *)
Definition dexp (m e : Z) : Z := e + Z.of_nat (length (digs m)) - 1.
(** m * 10^k rounded to an integer, half to even. *)
Definition dfix (m k : Z) : Z := if 0 <=? k then m * 10 ^ k else rhe m (10 ^ (- k)).
Definition dsci (m e : Z) (n : nat) : Z * Z :=
  if m =? 0 then (0, 0) else
  let X := dexp m e in
  let d := dfix m (e + Z.of_nat n - 1 - X) in
  if d =? 10 ^ Z.of_nat n then (d / 10, X + 1) else (d, X).
Definition dlt (x y : dec) : bool :=
  match x, y with
  | DNan, _ | _, DNan => false
  | DInf s, DInf s' => s && negb s'
  | DInf s, _ => s
  | _, DInf s => negb s
  | DNum s m e, DNum s' m' e' =>
      let k := Z.min e e' in
      (if s then - m else m) * 10 ^ (e - k) <? (if s' then - m' else m') * 10 ^ (e' - k)
  end.
(** Trailing zeros of m moved to the exponent; fuel exceeds their number. *)
Fixpoint dnorm (fuel : nat) (m e : Z) : Z * Z :=
  match fuel with
  | O => (m, e)
  | S f => if (m mod 10 =? 0) && negb (m =? 0) then dnorm f (m / 10) (e + 1) else (m, e)
  end.
Definition DecOps : FmtOps := {|
  fl := dec;
  x_nan := DNan;
  x_inf := DInf;
  x_isnan := fun x => match x with DNan => true | _ => false end;
  x_isinf := fun x => match x with DInf _ => true | _ => false end;
  x_sign := fun x => match x with DNum s _ _ | DInf s => s | DNan => false end;
  x_lt := dlt;
  x_iszero := fun x => match x with DNum _ m _ => m =? 0 | _ => false end;
  x_abs := fun x => match x with DNum _ m e => DNum false m e | DInf _ => DInf false | DNan => DNan end;
  x_mul := fun x y =>
    match x, y with
    | DNan, _ | _, DNan => DNan
    | DNum s m e, DNum s' m' e' => DNum (xorb s s') (m * m') (e + e')
    | DInf s, DInf s' => DInf (xorb s s')
    | DInf s, DNum s' m _ | DNum s' m _, DInf s => if m =? 0 then DNan else DInf (xorb s s')
    end;
  x_of_Z := fun z => Ok (DNum (z <? 0) (Z.abs z) 0);
  x_div10 := fun x n => Ok (match x with DNum s m e => DNum s m (e - n) | _ => x end);
  x_mul10 := fun x n => Ok (match x with DNum s m e => DNum s m (e + n) | _ => x end);
  x_log := fun x =>
    match x with
    | DNum s m e => if s || (m =? 0) then Err EValue else Ok (dexp m e)
    | DInf s => if s then Err EValue else Err EOverflow
    | DNan => Err EValue
    end;
  x_trunc := fun x =>
    match x with
    | DNum s m e => let q := if 0 <=? e then m * 10 ^ e else m / 10 ^ (- e) in Ok (if s then - q else q)
    | DInf _ => Err EOverflow
    | DNan => Err EValue
    end;
  x_dec := DNum;
  x_fix := fun x p => match x with DNum _ m e => dfix m (e + p) | _ => 0 end;
  x_sci := fun x n => match x with DNum _ m e => dsci m e n | _ => (0, 0) end;
  x_short := fun x =>
    match x with
    | DNum _ m e => if m =? 0 then (0, 0) else dnorm (length (digs m)) m e
    | _ => (0, 0)
    end
|}.
