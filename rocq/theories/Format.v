(** Formatting of numbers with uncertainties: core.py 875-1485 and 1840-2333. No proofs in this
    file. *)
From Coq Require Import String.
From Coq Require Import ZArith List Bool.
From Verif Require Import Base Str FmtOps.
Import ListNotations.
Local Open Scope Z_scope.
Local Open Scope res_scope.

(** core.py 1985-1998: the groups of the regular expression of __format__. *)
Record parts := mkParts {
  p_fill : str; p_align : str; p_sign : str; p_zero : str; p_width : str; p_comma : str;
  p_prec : option str; p_uncert : str; p_type : str; p_opts : str }.

Section Format.
Context {K : FmtOps} (U : Unicode).
Notation fl := (fl K).

(** core.py 1985-1998. *)
Definition not_brace : Z -> bool := fun x => negb ((x =? 123) || (x =? 125)).
Definition spec_re : re := rseq [
  RGroup 1 (RLazy (RSet not_brace)); RGroup 2 (ROpt (RSet (oneof "<>=^")));
  RGroup 3 (ROpt (RSet (oneof "-+ ")));
  RGroup 4 (ROpt (RSet (ch 48)));
  RGroup 5 (RStar (is_digit U));
  RGroup 6 (ROpt (RSet (ch 44)));
  ROpt (RSeq (RSet (ch 46)) (RGroup 7 (RSeq (RSet (is_digit U)) (RStar (is_digit U)))));
  RGroup 8 (ROpt (RSet (ch 117)));
  RGroup 9 (RLazy (RSet (oneof "eEfFgG%")));
  RGroup 10 (RStar (oneof "PSLp"));
  REnd ].
Definition grp (c : caps) (k : nat) : str := match group c k with Some s => s | None => [] end.
Definition parts_of (c : caps) : parts :=
  mkParts (grp c 1) (grp c 2) (grp c 3) (grp c 4) (grp c 5) (grp c 6) (group c 7) (grp c 8)
          (grp c 9) (grp c 10).
(** core.py 1985-2007: the match, or ValueError. *)
Definition parse_spec (s : str) : res parts :=
  match re_match spec_re s with Some c => Ok (parts_of c) | None => Err EValue end.

(** core.py 874-887. The zero case is the ValueError of log10(0); int(floor(nan)) raises
    ValueError too. *)
Definition first_digit (x : fl) : res Z :=
  if x_iszero K x then Ok 0
  else match x_log K (x_abs K x) with Err EValue => Ok 0 | r => r end.

(** core.py 889-927: number of digits and the standard deviation to be displayed. *)
Definition PDG_precision (s : fl) : res (Z * fl) :=
  e <- first_digit s ;;
  (let (e, big) := if 0 <=? e then (e - 2, true) else (e + 1, false) in
   q <- x_div10 K s e ;;
   (f1000 <- x_of_Z K 1000 ;;
    (digits <- x_trunc K (if big then q else x_mul K q f1000) ;;   (* factor 1, or 1000 *)
     (if digits <=? 354 then Ok (2, s)
      else if digits <=? 949 then Ok (1, s)
      else
        c <- x_of_Z K (if big then 1000 else 1) ;;       (* 1000/factor *)
        (r <- x_mul10 K c e ;; Ok (2, r)))))).

(** core.py 1458-1485. *)
Definition signif_dgt_to_limit (x : fl) (n : Z) : res Z :=
  f <- first_digit x ;;
  (let limit := f - n + 1 in
   fr <- first_digit (py_round x (- limit)) ;;
   Ok (if f <? fr then limit + 1 else limit)).

(** core.py 954-970: format(str, fill+align+width). A leading 0 of the width is Python's zero
    flag, which is the fill character if none is given; '=' is not allowed for strings. *)
Definition robust_align (s fill align width : str) : res str :=
  if str_eqb align (lit "=") then Err EValue else
  let f := match fill with
           | c :: _ => c
           | [] => match width with c :: _ => if c =? 48 then 48 else 32 | [] => 32 end
           end in
  let n := Z.to_nat (val (digit_vals U width) - len s) in
  Ok (if str_eqb align (lit "<") then s ++ repeat f n
      else if str_eqb align (lit "^") then repeat f (Nat.div n 2) ++ s ++ repeat f (n - Nat.div n 2)
      else repeat f n ++ s).

(** core.py 974-1003: superscripts. *)
Definition sup_table : list (Z * Z) :=
  [(43, 8314); (45, 8315); (48, 8304); (49, 185); (50, 178); (51, 179); (52, 8308); (53, 8309);
   (54, 8310); (55, 8311); (56, 8312); (57, 8313)].
Definition translate (t : list (Z * Z)) (s : str) : str :=
  map (fun c => match find (fun p => fst p =? c) t with Some p => snd p | None => c end) s.
Definition to_superscript (n : Z) : str := translate sup_table (show_Z n).

(** core.py 1026-1040. *)
Inductive print_type := Pretty | Latex | Default.
Definition exp_print (t : print_type) (main : Z) (e : Z) : str :=
  match t with
  | Default => (if main =? 70 then 69 else 101) :: show_exp e   (* EXP_LETTERS, '%+03d' *)
  | Pretty => 215 :: lit "10" ++ to_superscript e
  | Latex => lit " \times 10^{" ++ show_Z e ++ lit "}"
  end.
Definition group_symbols (t : print_type) : str * str :=
  match t with Latex => (lit "\left(", lit "\right)") | _ => (lit "(", lit ")") end.

Definition has (opts : str) (c : Z) : bool := existsb (Z.eqb c) opts.
Definition in_g (ty : str) : bool :=
  isnil ty || str_eqb ty (lit "g") || str_eqb ty (lit "G").   (* type in ('', 'g', 'G') *)
Definition mathrm (s : str) : str := lit "\mathrm{" ++ s ++ lit "}".
Definition fixed_suffix (prec main : Z) : str := 46 :: show_Z prec ++ [main].   (* '.%d%s' *)

(** core.py 1196-1236: the uncertainty in the shorthand notation. *)
Definition shorthand_uncert (err : fl) (prec main : Z) (latex : bool) : res str :=
  if x_iszero K err then Ok (lit "0")
  else if x_isnan K err then
    s <- py_format U err [main] ;; Ok (if latex then mathrm s else s)
  else if x_isinf K err then
    if latex then Ok (lit "\infty") else py_format U err [main]
  else
    let u := py_round err prec in
    f <- first_digit u ;;
    (if (0 <=? f) && (0 <? prec) then
       (* '%.*f' % (prec, uncert) *)
       Ok ((if x_sign K u then lit "-" else []) ++ fixed_str (x_fix K u prec) (Z.to_nat prec))
     else if negb (x_iszero K u) then
       y <- x_mul10 K u prec ;;
       Ok (show_Z (if x_sign K y then - x_fix K y 0 else x_fix K y 0))
     else Ok (lit "0.")).

(** core.py 1260-1274, 1353-1369: LaTeX forms of NaN and infinities. *)
Definition latex_nom (nom : fl) (s : str) : str :=
  if x_isnan K nom then mathrm s
  else if x_isinf K nom then (if x_sign K nom then lit "-\infty" else lit "\infty") else s.
Definition latex_err (err : fl) (s : str) : str :=
  if x_isnan K err then mathrm s else if x_isinf K err then lit "\infty" else s.

(** core.py 1042-1456. [main] is the code of 'f' or 'F'. *)
Definition format_num (nom err : fl) (common_exp : option Z) (p : parts) (prec main : Z)
  (opts : str) : res str :=
  let ptype := if has opts 80 then Pretty else if has opts 76 then Latex else Default in
  let latex := has opts 76 in
  let exp_str := match common_exp with None => [] | Some e => exp_print ptype main e end in
  let percent_str := if has opts 37 then (if latex then lit " \%" else lit "%") else [] in
  let special := x_iszero K err || isinfinite err in
  let prec_str := match p_prec p with Some s => s | None => [] end in
  let suffix_n := if special && in_g (p_type p) then prec_str ++ p_type p
                  else fixed_suffix prec main in
  let width := val (digit_vals U (p_width p)) in
  let wide := negb (isnil (p_width p)) in
  let zero := negb (isnil (p_zero p)) in
  if has opts 83 then
    (* Shorthand notation *)
    u <- shorthand_uncert err prec main latex ;;
    (let value_end := lit "(" ++ u ++ lit ")" ++ exp_str ++ percent_str in
     let prefix_n :=
       if zero && wide then
         p_sign p ++ p_zero p ++ show_Z (Z.max (width - len value_end) 0) ++ p_comma p
       else p_sign p ++ p_comma p in
     n <- py_format U nom (prefix_n ++ suffix_n) ;;
     (let value_str := (if latex then latex_nom nom n else n) ++ value_end in
      if wide then
        robust_align value_str (p_fill p) (match p_align p with [] => lit ">" | a => a end) (p_width p)
      else Ok value_str))
  else
    let factored := negb wide in
    let error_has_exp := negb factored && negb special in
    let nom_has_exp := negb factored && negb (isinfinite nom) in
    let remaining := Z.max (width - len exp_str) 0 in
    let prefix_n :=
      if wide && zero then
        p_sign p ++ p_zero p ++ show_Z (if nom_has_exp then remaining else width) ++ p_comma p
      else p_sign p ++ p_comma p in
    let prefix_e :=
      if wide && zero then
        p_zero p ++ show_Z (if error_has_exp then remaining else width) ++ p_comma p
      else p_comma p in
    n <- py_format U nom (prefix_n ++ suffix_n) ;;
    (let suffix_e :=
       if negb (x_iszero K err) then
         if isinfinite nom && in_g (p_type p) then prec_str ++ p_type p
         else fixed_suffix prec main
       else lit ".0" ++ [main] in
     e <- py_format U err (prefix_e ++ suffix_e) ;;
     (let n := (if latex then latex_nom nom n else n) ++ (if nom_has_exp then exp_str else []) in
      let e := (if latex then latex_err err e else e) ++ (if error_has_exp then exp_str else []) in
      let align := match p_align p with [] => lit ">" | a => a end in
      n <- (if wide then robust_align n (p_fill p) align (p_width p) else Ok n) ;;
      (e <- (if wide then robust_align e (p_fill p) align (p_width p) else Ok e) ;;
       (let pm := if has opts 80 then [177] else if latex then lit " \pm " else lit "+/-" in
        let (lg, rg) := group_symbols ptype in
        let v := n ++ pm ++ e in
        Ok (if factored && match common_exp with Some _ => true | None => false end then
              lg ++ v ++ rg ++ exp_str ++ percent_str
            else if negb (isnil percent_str) then lg ++ v ++ rg ++ percent_str
            else if has opts 112 then lg ++ v ++ rg
            else v))))).

(** core.py 2063-2064, 2079: the real values among abs(nominal value) and standard deviation, and
    the larger one. *)
Definition real_values (nom s : fl) : list fl :=
  filter (fun x => negb (isinfinite x)) [x_abs K nom; s].
Definition max_value (l : list fl) : option fl :=
  match l with
  | [] => None
  | [a] => Some a
  | a :: b :: _ => Some (if x_lt K a b then b else a)
  end.

Definition is_f (ty : str) : bool := str_eqb ty (lit "f") || str_eqb ty (lit "F").
Definition is_e (ty : str) : bool := str_eqb ty (lit "e") || str_eqb ty (lit "E").

(** core.py 2090-2208: the position of the last digit, the standard deviation to be displayed and
    the number [prec], which is only used if there is no limit. [ty] is the presentation type,
    '' for None. *)
Definition digits_limit (nom s : fl) (p : parts) (ty : str) : res (option Z * fl * Z) :=
  let rv := real_values nom s in
  if ((match p_prec p with None => true | Some _ => false end && (Nat.eqb (List.length rv) 2))
      || negb (isnil (p_uncert p)))
     && negb (x_iszero K s) && negb (isinfinite s) then
    match p_prec p with
    | Some d =>
        let n := val (digit_vals U d) in
        if n =? 0 then Err EValue
        else l <- signif_dgt_to_limit s n ;; Ok (Some l, s, 0)
    | None =>
        r <- PDG_precision s ;;
        (l <- signif_dgt_to_limit (snd r) (fst r) ;; Ok (Some l, snd r, 0))
    end
  else
    let prec := match p_prec p with
                | Some d => val (digit_vals U d)
                | None => if isnil ty then 12 else 6
                end in
    if is_f ty then Ok (Some (- prec), s, prec)
    else
      let n := if is_e ty then prec + 1 else if prec =? 0 then 1 else prec in
      match max_value rv with
      | Some x => l <- signif_dgt_to_limit x n ;; Ok (Some l, s, prec)
      | None => Ok (None, s, prec)
      end.

(** core.py 2209-2265: the common exponent, if any. [x] is exp_ref_value. *)
Definition use_exponent (ty : str) (x : option fl) (limit : option Z) : res (option Z) :=
  if is_f ty then Ok None
  else
    match x, limit with
    | Some x, Some l =>
        e <- first_digit (py_round x (- l)) ;;
        Ok (if is_e ty then Some e
            else if (-4 <=? e) && (e <? e - l + 1) then None else Some e)
    | _, _ => Ok None
    end.

(** core.py 1865-2333: __format__(spec) of a number with the given nominal value and standard
    deviation. *)
Definition format_ufloat (nom s : fl) (spec : str) : res str :=
  p <- parse_spec spec ;;
  (f100 <- x_of_Z K 100 ;;
   (let percent := str_eqb (p_type p) (lit "%") in
    let s := if percent then x_mul K s f100 else s in
    let nom := if percent then x_mul K nom f100 else nom in
    let ty := if percent then lit "f" else p_type p in
    let opts := if percent then 37 :: p_opts p else p_opts p in
    let ref := max_value (real_values nom s) in
    dl <- digits_limit nom s p ty ;;
    (let '(limit, s, prec0) := dl in
     ce <- use_exponent ty ref limit ;;
     (nm <- match ce with Some e => x_div10 K nom e | None => Ok nom end ;;
      (sm <- match ce with Some e => x_div10 K s e | None => Ok s end ;;
       (let prec :=
          match limit with
          | Some l =>
              let sl := match ce with Some e => l - e | None => l end in
              Z.max (- sl) (if isnil ty && x_iszero K s then 1 else 0)
          | None => prec0
          end in
        let main := if str_eqb ty (lit "E") || str_eqb ty (lit "F") || str_eqb ty (lit "G") then 70 else 102 in
        format_num nm sm ce p prec main opts)))))).

(** core.py 1840-1857: repr(). *)
Definition repr_ufloat (nom s : fl) : str :=
  py_repr nom ++ lit "+/-" ++ (if x_iszero K s then lit "0" else py_repr s).
End Format.
