(** Parsing of numbers with uncertainties, and the forms of ufloat(): core.py 974-1022,
    2711-2830 and 2948-3307. No proofs in this file. *)
From Coq Require Import String.
From Coq Require Import ZArith List Bool.
From Verif Require Import Base Str FmtOps Format.
Import ListNotations.
Local Open Scope Z_scope.
Local Open Scope res_scope.

Section Parse.
Context {K : FmtOps} (U : Unicode).
Notation fl := (fl K).

(** ** Regular expressions *)
(** core.py 2956: POSITIVE_DECIMAL_UNSIGNED_OR_NON_FINITE; its groups have the numbers k, k+1 and
    k+2. *)
Definition number_re (k : nat) : re :=
  RGroup k
    (RAlt (RSeq (RGroup (k + 1) (RStar (is_digit U)))
                (ROpt (RGroup (k + 2) (RSeq (RSet (ch 46)) (RStar (is_digit U))))))
    (RAlt (rlit "nan") (RAlt (rlit "NAN") (RAlt (rlit "inf") (rlit "INF"))))).
(** [eE] or a multiplication sign, with optional white space, and 10 (2968, 2983). *)
Definition exp_intro : re :=
  RAlt (RSet (oneof "eE")) (rseq [RStar (u_spc U); RSet (ch 215); RStar (u_spc U); rlit "10"]).
(** core.py 2964-2975: groups 1 sign, 2 main, 3 its integer part, 4 its decimal part, 5 uncert,
    6 its integer part, 7 its decimal part, 8 exponent. *)
Definition paren_re : re := rseq [
  ROpt (RGroup 1 (RSet (oneof "+-")));
  number_re 2;
  ROpt (rseq [RSet (ch 40); number_re 5; RSet (ch 41)]);
  ROpt (RSeq exp_intro (RGroup 8 (RStar dot)));
  REnd ].
(** core.py 2980-2986: groups 1 simple_num_with_uncert, 2 exp_value. *)
Definition global_exp_re : re := rseq [
  RSet (ch 40); RGroup 1 (RStar dot); RSet (ch 41); exp_intro; RGroup 2 (RStar dot); REnd ].
(** core.py 3058. *)
Definition pretty_re : re := rseq [
  RGroup 1 (RStarL dot); RStar (u_spc U); RSet (ch 215); RStar (u_spc U); rlit "10";
  RGroup 2 (RStar dot) ].
(** core.py 3142. *)
Definition pm_re : re := rseq [
  RGroup 1 (RStar dot); RAlt (rlit "+/-") (RSet (ch 177)); RGroup 2 (RStar dot) ].

(** ** Conversions *)
(** core.py 993-994, 1005-1022. *)
Definition from_sup : list (Z * Z) := map (fun p => (snd p, fst p)) sup_table.
Definition nrmlze_superscript (s : str) : res Z := py_int U (translate from_sup s).
(** 10.**n, which can overflow. *)
Definition ten_to (n : Z) : res unit := _ <- x_mul10 K (x_nan K) n ;; Ok tt.

(** core.py 2995-3056. The factor is 1 if there is no exponent. *)
Definition parse_error_in_parentheses (s : str) : res (fl * fl) :=
  match re_match paren_re s with
  | None => Err EValue                                  (* NotParenUncert *)
  | Some c =>
      factor <- match group c 8 with
                | Some (x :: t) => n <- nrmlze_superscript (x :: t) ;; (_ <- ten_to n ;; Ok (Some n))
                | _ => Ok None
                end ;;
      (let times x := match factor with Some n => x_mul10 K x n | None => Ok x end in
       v <- py_float (K := K) U (grp c 1 ++ grp c 2) ;;
       (value <- times v ;;
        (let explicit := match group c 7 with Some _ => true | None => false end
           || match group c 5 with
              | Some u => existsb (str_eqb u) [lit "nan"; lit "NAN"; lit "inf"; lit "INF"]
              | None => false
              end in
         u <- (if explicit then py_float (K := K) U (grp c 5)
               else
                 let digits := match group c 4 with Some d => len d - 1 | None => 0 end in
                 i <- py_int U (match group c 5 with Some _ => grp c 6 | None => lit "1" end) ;;
                 (x <- x_of_Z K i ;; x_div10 K x digits)) ;;
         (uncert <- times u ;; Ok (value, uncert)))))
  end.

(** core.py 3060-3089. Only the ValueErrors are caught. *)
Definition to_float (s : str) : res fl :=
  match py_float (K := K) U s with
  | Ok x => Ok x
  | Err EValue =>
      match re_match pretty_re s with
      | Some c =>
          x <- py_float (K := K) U (grp c 1) ;;
          (n <- nrmlze_superscript (grp c 2) ;; x_mul10 K x n)
      | None => Err EValue
      end
  | Err e => Err e
  end.

(** core.py 3111-3114: parentheses around the whole representation are removed. *)
Definition last_is (c : Z) (s : str) : bool := match rev s with x :: _ => x =? c | [] => false end.
Definition unparen (s : str) : str :=
  match s with
  | c :: t => if (c =? 40) && last_is 41 s then removelast t else s
  | [] => []
  end.

(** core.py 3099-3163. *)
Definition str_to_number_with_uncert (s : str) : res (fl * fl) :=
  let s := unparen s in
  r <- match re_match global_exp_re s with
       | Some c =>
           n <- nrmlze_superscript (grp c 2) ;; (_ <- ten_to n ;; Ok (Some n, grp c 1))
       | None => Ok (None, s)
       end ;;
  (let (factor, s) := (r : option Z * str) in
   let times x := match factor with Some n => x_mul10 K x n | None => Ok x end in
   match re_match pm_re s with
   | Some c =>
       n <- to_float (grp c 1) ;;
       (n <- times n ;;
        (u <- to_float (grp c 2) ;;
         (u <- times u ;; Ok (n, u))))
   | None => parse_error_in_parentheses s           (* the factor is not applied *)
   end).

(** ** Creation of variables *)
(** Arguments of ufloat(): numbers, strings, tuples, None, other objects. *)
Inductive arg := ANum (x : fl) | AStr (s : str) | ATup (l : list arg) | ANone | AObj.

(** A new variable: nominal value, standard deviation and tag; and the number of deprecation
    warnings. *)
Definition made : Type := fl * fl * arg * nat.

(** core.py 2725-2795: Variable(value, std_dev, tag). *)
Definition variable (value std_dev tag : arg) : res made :=
  v <- match value with
       | ANum x => Ok x
       | AStr s => py_float (K := K) U s                (* float(value) *)
       | _ => Err EType
       end ;;
  match std_dev with
  | ANum s =>
      if x_sign K s && negb (x_iszero K s) && negb (isinfinite s) then Err ENegStd
      else Ok (v, s, tag, 0%nat)
  | _ => Err EType                                      (* std_dev < 0 *)
  end.

(** core.py 3165-3227. ufloat() of two floats is Variable(). *)
Definition ufloat_fromstr (s : str) (tag : arg) : res made :=
  r <- str_to_number_with_uncert (strip U s) ;;
  variable (ANum (fst r)) (ANum (snd r)) tag.

(** core.py 3229-3307: ufloat(nominal_value, std_dev, tag) and ufloat_obsolete(). *)
Fixpoint ufloat (nom std_dev tag : arg) : res made :=
  match variable nom std_dev tag with
  | Err EType | Err EValue =>
      let tag_arg := match tag with ANone => std_dev | _ => tag end in
      r <- match nom with
           | ATup l =>
               match l with
               | a :: b :: _ => ufloat a b tag_arg
               | _ => Err EIndex                        (* representation[0], [1] *)
               end
           | AStr s => ufloat_fromstr s tag_arg
           | _ => Err EAttr                             (* representation.strip *)
           end ;;
      Ok (fst r, S (snd r))                             (* deprecation() *)
  | r => r
  end.
End Parse.
