(** Python programs with the functions of the library: an instance of PyEval. Values are None, numbers,
    strings, tuples, variables, arrays and matrices with one dimension, and functions of the library.
    The names of the library are not bound by the program. Deprecation warnings are not part of the
    state. No proofs in this file. *)
From Coq Require Import String Ascii.
From Coq Require Import ZArith List Bool.
From Verif Require Import Base Str FmtOps Format Parse Fixer FixerSpec PyEval.
Import ListNotations.
Local Open Scope string_scope.
Local Open Scope list_scope.
Local Open Scope res_scope.

Section Lib.
Context {K : FmtOps} (U : Unicode).
Notation fl := (fl K).
Notation arg := (arg (K := K)).

Inductive value :=
| VNone | VNum (x : fl) | VStr (s : str) | VTup (l : list value)
| VVar (i : nat)                            (* Variable *)
| VStdDev (x : fl)                          (* CallableStdDev, core.py 935-948 *)
| VSetStdDev (i : nat)                      (* x.set_std_dev *)
| VArray (matrix : bool) (l : list nat)     (* array of variables, or unumpy.matrix *)
| VStdDevs (l : list fl)                    (* CallableStdDevs, unumpy/core.py 576-596 *)
| VUfloat | VFromstr | VUarray (matrix : bool)
| VUncertainties | VUnumpy                  (* modules *)
| VPop.                                     (* the pop() method of a list of the program *)
(** Variables (nominal value, standard deviation, tag), names, and the list that pop() empties. *)
Record state := mkState { vars : list (fl * fl * arg); names : list (string * value); items : list value }.

Fixpoint to_arg (v : value) : arg :=
  match v with
  | VNone => ANone
  | VNum x | VStdDev x => ANum x            (* a CallableStdDev is a float: core.py 935 *)
  | VStr s => AStr s
  | VTup l => ATup (map to_arg l)
  | _ => AObj
  end.

(** ** Names and literals *)
Definition library_name (n : string) : option value :=
  if String.eqb n "ufloat" then Some VUfloat
  else if String.eqb n "ufloat_fromstr" then Some VFromstr
  else if String.eqb n "uarray" then Some (VUarray false)
  else if String.eqb n "umatrix" then Some (VUarray true)
  else if String.eqb n "uncertainties" then Some VUncertainties
  else if String.eqb n "unumpy" then Some VUnumpy
  else None.
Fixpoint assoc {A} (n : string) (l : list (string * A)) : option A :=
  match l with [] => None | (m, v) :: r => if String.eqb n m then Some v else assoc n r end.
Definition l_name (n : string) (s : state) : res value :=
  match library_name n with
  | Some v => Ok v
  | None =>
      if String.eqb n "None" then Ok VNone else if String.eqb n "pop" then Ok VPop
      else match assoc n (names s) with Some v => Ok v | None => Err EUser end
  end.
Definition l_bind (n : string) (v : value) : C state unit := fun s =>
  match library_name n with
  | Some _ => Err EUser
  | None => Ok (tt, mkState (vars s) ((n, v) :: names s) (items s))
  end.
(** Literals without prefix or backslash. *)
Definition quote : ascii := "039".
Fixpoint unquoted (t : string) : option string :=
  match t with
  | EmptyString => None
  | String c r =>
      if Ascii.eqb c quote then match r with EmptyString => Some EmptyString | _ => None end
      else if Ascii.eqb c "\" then None
      else match unquoted r with Some x => Some (String c x) | None => None end
  end.
Definition l_lit (t : string) (s : state) : res value :=
  match t with
  | String c r =>
      if Ascii.eqb c quote then match unquoted r with Some x => Ok (VStr (Str.lit x)) | None => Err EUser end
      else x <- py_float (K := K) U (Str.lit t) ;; Ok (VNum x)
  | EmptyString => Err EUser
  end.

(** ** Calls *)
(** The arguments of a function with these parameters. *)
Definition remove (n : string) {A} (l : list (string * A)) := filter (fun p => negb (String.eqb n (fst p))) l.
Fixpoint bind_args (params : list string) (pos : list value) (kw : list (string * value)) : res (list (option value)) :=
  match params with
  | [] => match pos, kw with [], [] => Ok [] | _, _ => Err EType end
  | n :: params =>
      match pos with
      | v :: pos =>
          match assoc n kw with
          | Some _ => Err EType
          | None => r <- bind_args params pos kw ;; Ok (Some v :: r)
          end
      | [] => r <- bind_args params [] (remove n kw) ;; Ok (assoc n kw :: r)
      end
  end.
Definition default (o : option value) : value := match o with Some v => v | None => VNone end.

(** A new variable in the state. *)
Definition alloc (r : res (made (K := K))) : C state value := fun s =>
  match r with
  | Ok (v, u, tag, _) => Ok (VVar (length (vars s)), mkState (vars s ++ [(v, u, tag)]) (names s) (items s))
  | Err e => Err e
  end.
Definition l_iter (v : value) : C state (list value) := fun s =>
  match v with
  | VTup l => Ok (l, s)
  | VArray _ l => Ok (map VVar l, s)
  | _ => Err EType
  end.
(** unumpy/core.py 290-296: Variable() for all the elements, in order; equal lengths. *)
Fixpoint elements_of (ns us : list value) : C state (list nat) :=
  match ns, us with
  | [], [] => cret []
  | n :: ns, u :: us =>
      cbind (alloc (variable (K := K) U (to_arg n) (to_arg u) ANone)) (fun v =>
      cbind (elements_of ns us) (fun l => match v with VVar i => cret (i :: l) | _ => cfail end))
  | _, _ => cfail
  end.
(** unumpy/core.py 272-296 and 644-659: uarray(), umatrix(). *)
Definition uarray (matrix : bool) (n u : value) : C state value :=
  cbind (match u with
         | VNone => cbind (l_iter n) (fun l => match l with [n; u] => cret (n, u) | _ => cfail end)
         | _ => cret (n, u)
         end) (fun p =>
  match p with
  | (VTup ns, VTup us) => cbind (elements_of ns us) (fun l => cret (VArray matrix l))
  | _ => cfail
  end).
(** core.py 2777-2790: the setter of std_dev. *)
Definition set_nth {A} (i : nat) (a : A) (l : list A) : list A := firstn i l ++ a :: skipn (S i) l.
Definition set_std_dev (i : nat) (u : value) : C state unit := fun s =>
  match nth_error (vars s) i, to_arg u with
  | Some (v, _, tag), ANum x =>
      if x_sign K x && negb (x_iszero K x) && negb (isinfinite x) then Err ENegStd
      else Ok (tt, mkState (set_nth i (v, x, tag) (vars s)) (names s) (items s))
  | Some _, _ => Err EType
  | None, _ => Err EUser
  end.
Definition l_call (f : value) (pos : list value) (kw : list (string * value)) : C state value := fun s =>
  match f with
  | VUfloat =>                                            (* core.py 3255-3307 *)
      a <- bind_args ["nominal_value"; "std_dev"; "tag"] pos kw ;;
      match a with
      | [Some n; u; t] => alloc (ufloat (K := K) U (to_arg n) (to_arg (default u)) (to_arg (default t))) s
      | _ => Err EType
      end
  | VFromstr =>                                           (* core.py 3165-3227 *)
      a <- bind_args ["representation"; "tag"] pos kw ;;
      match a with
      | [Some (VStr r); t] => alloc (ufloat_fromstr (K := K) U r (to_arg (default t))) s
      | [Some _; _] => Err EAttr
      | _ => Err EType
      end
  | VUarray matrix =>
      a <- bind_args ["nominal_values"; "std_devs"] pos kw ;;
      match a with
      | [Some n; u] => uarray matrix n (default u) s
      | _ => Err EType
      end
  | VStdDev x => _ <- bind_args [] pos kw ;; Ok (VStdDev x, s)          (* core.py 945-948 *)
  | VStdDevs l => _ <- bind_args [] pos kw ;; Ok (VStdDevs l, s)        (* unumpy/core.py 593-596 *)
  | VSetStdDev i =>                                                     (* core.py 2792-2795 *)
      a <- bind_args ["value"] pos kw ;;
      match a with
      | [Some u] => cbind (set_std_dev i u) (fun _ => cret VNone) s
      | _ => Err EType
      end
  | VPop =>
      _ <- bind_args [] pos kw ;;
      match items s with
      | v :: r => Ok (v, mkState (vars s) (names s) r)
      | [] => Err EIndex
      end
  | _ => Err EType
  end.

(** ** Attributes *)
Definition l_attr (o : value) (a : string) : C state value := fun s =>
  match o with
  | VVar i =>
      match nth_error (vars s) i with
      | Some (v, u, _) =>
          if String.eqb a "nominal_value" then Ok (VNum v, s)
          else if String.eqb a "std_dev" then Ok (VStdDev u, s)         (* core.py 2768-2770, 2790 *)
          else if String.eqb a "set_std_dev" then Ok (VSetStdDev i, s)
          else Err EAttr
      | None => Err EUser
      end
  | VArray true l =>
      if String.eqb a "std_devs" then                                   (* unumpy/core.py 640-642 *)
        Ok (VStdDevs (flat_map (fun i => match nth_error (vars s) i with Some (_, u, _) => [u] | None => [] end) l), s)
      else Err EAttr
  | VUncertainties =>
      if String.eqb a "ufloat" then Ok (VUfloat, s)
      else if String.eqb a "ufloat_fromstr" then Ok (VFromstr, s)
      else if String.eqb a "unumpy" then Ok (VUnumpy, s)
      else Err EAttr
  | VUnumpy =>
      if String.eqb a "uarray" then Ok (VUarray false, s)
      else if String.eqb a "umatrix" then Ok (VUarray true, s)
      else Err EAttr
  | _ => Err EAttr
  end.
Definition l_setattr (o : value) (a : string) (v : value) : C state unit :=
  match o with
  | VVar i => if String.eqb a "std_dev" then set_std_dev i v else cfail
  | _ => cfail
  end.

(** Python with this library. Other constructs raise. *)
Definition Library : python := mkPython value state VNone l_name l_bind l_lit l_attr l_setattr l_call VTup l_iter
  (fun _ => cfail) (fun _ _ => cfail) (fun _ => (fun _ => cfail, fun _ _ => cfail)) (fun _ _ => (cfail, fun _ => cfail)).
Definition is_array (f : value) : Prop := exists m, f = VUarray m.
Definition is_number (v : value) : Prop := exists x, to_arg v = ANum x.
End Lib.
