(** Python strings as lists of code points, decimal digits, and the backtracking matching of
    regular expressions (Python's re module). No proofs in this file. *)
From Coq Require Import String Ascii.
From Coq Require Import ZArith List Bool.
Import ListNotations.
Local Open Scope Z_scope.

(** A string is the list of its code points. *)
Definition str := list Z.
Fixpoint lit (s : string) : str :=
  match s with
  | EmptyString => []
  | String a s' => Z.of_nat (nat_of_ascii a) :: lit s'
  end.
Definition str_eqb (a b : str) : bool := if list_eq_dec Z.eq_dec a b then true else false.
Definition len (s : str) : Z := Z.of_nat (length s).
Definition isnil {A} (s : list A) : bool := match s with [] => true | _ => false end.

(** The part of the Unicode tables that Python consults: decimal digits (\d, int(), float())
    and white space (\s, str.strip(), int(), float()). *)
Record Unicode := mkU { u_dig : Z -> option Z; u_spc : Z -> bool }.

(** ** Digits *)
(** The decimal digits of n >= 0, most significant first; [fuel] exceeds their number. *)
Fixpoint digs_aux (fuel : nat) (n : Z) : list Z :=
  match fuel with
  | O => []
  | S f => if n <? 10 then [n] else digs_aux f (n / 10) ++ [n mod 10]
  end.
Definition digs (n : Z) : list Z := digs_aux (S (Z.to_nat (Z.log2 n))) n.
Definition chars (ds : list Z) : str := map (fun d => 48 + d) ds.
Definition val (ds : list Z) : Z := fold_left (fun a d => 10 * a + d) ds 0.
(** '%d' % n. *)
Definition show_Z (n : Z) : str := if n <? 0 then 45 :: chars (digs (- n)) else chars (digs n).

(** Rounding of m/d, m >= 0, d > 0, half to even. *)
Definition rhe (m d : Z) : Z :=
  let q := m / d in
  let r := m mod d in
  if 2 * r <? d then q else if d <? 2 * r then q + 1 else if Z.even q then q else q + 1.

Definition zeros (n : nat) : str := repeat 48 n.
(** The decimal notation of n * 10^-p, n >= 0: at least one digit before the point, [p] after
    it, no point for p = 0. *)
Definition fixed_str (n : Z) (p : nat) : str :=
  let ds := digs n in
  let ds := repeat 0 (S p - length ds) ++ ds in
  let i := firstn (length ds - p) ds in
  let f := skipn (length ds - p) ds in
  chars i ++ match p with O => [] | _ => 46 :: chars f end.

(** ** Regular expressions: the constructs that the package uses. *)
Inductive re :=
| REps                            (* nothing *)
| RSet (p : Z -> bool)            (* one character of a class *)
| RSeq (a b : re)
| RAlt (a b : re)                 (* a|b *)
| ROpt (a : re)                   (* (a)? *)
| RLazy (a : re)                  (* (a)?? *)
| RStar (p : Z -> bool)           (* [...]*  *)
| RStarL (p : Z -> bool)          (* [...]*? *)
| RGroup (k : nat) (a : re)
| REnd.                           (* $ *)

(** The rests of [s] after a run of characters of the class, longest run first. *)
Fixpoint star (p : Z -> bool) (s : str) : list str :=
  match s with
  | c :: s' => if p c then star p s' ++ [s] else [s]
  | [] => [[]]
  end.

Definition caps := list (nat * str).
Definition group (c : caps) (k : nat) : option str :=
  match find (fun p => Nat.eqb (fst p) k) c with Some p => Some (snd p) | None => None end.
Definition consumed (s s' : str) : str := firstn (length s - length s') s.

(** All the ways to match a prefix, in the order in which Python tries them: what is left of
    the string and the groups, latest first. *)
Fixpoint matches (r : re) (s : str) (c : caps) : list (str * caps) :=
  match r with
  | REps => [(s, c)]
  | RSet p => match s with x :: s' => if p x then [(s', c)] else [] | [] => [] end
  | RSeq a b => flat_map (fun m => matches b (fst m) (snd m)) (matches a s c)
  | RAlt a b => matches a s c ++ matches b s c
  | ROpt a => matches a s c ++ [(s, c)]
  | RLazy a => (s, c) :: matches a s c
  | RStar p => map (fun s' => (s', c)) (star p s)
  | RStarL p => map (fun s' => (s', c)) (rev (star p s))
  | RGroup k a => map (fun m => (fst m, (k, consumed s (fst m)) :: snd m)) (matches a s c)
  | REnd => match s with [] | [10] => [(s, c)] | _ => [] end
  end.
(** re.match(r, s): the groups. *)
Definition re_match (r : re) (s : str) : option caps :=
  match matches r s [] with m :: _ => Some (snd m) | [] => None end.

Fixpoint rseq (l : list re) : re :=
  match l with [] => REps | [r] => r | r :: l' => RSeq r (rseq l') end.
Definition ch (x : Z) : Z -> bool := Z.eqb x.
Definition oneof (s : string) : Z -> bool := fun x => existsb (Z.eqb x) (lit s).
Definition rlit (s : string) : re := rseq (map (fun x => RSet (ch x)) (lit s)).
(** [.]: any character but a newline. *)
Definition dot : Z -> bool := fun x => negb (x =? 10).
