(** Specification of histories over exact numbers: no heap, no laziness, no sharing. A number
    with uncertainty is a nominal value with the vector of its partial derivatives with respect
    to all variables. Independent of the expansion algorithm and of the object heap. *)
From Coq Require Import ZArith List Bool Reals.
From Verif Require Import Base Heap Affine Ops UMath NumR HeapSpec Machine.
From Flocq Require Import Core.
Import ListNotations.

Section Spec.
Context {g lg : R -> R}.
Notation RN := (ROps g lg).
Local Open Scope R_scope.
Local Open Scope res_scope.

(** Values: plain ones, and numbers with uncertainty: nominal value, gradient, variables it was
    calculated from, and the variable it is, if any. *)
Inductive sval :=
| SPlain (a : plain RN)
| SUF (n : R) (gr : varid -> R) (deps : list varid) (var : option varid).

(** Current standard deviation of each variable, in order of creation. *)
Definition svars := list R.
Record sstate := mkS { ss_vars : svars; ss_env : list sval }.
Definition sinit : sstate := mkS [] [].

Definition sigma (vs : svars) (v : varid) : R := nth v vs 0.
Definition delta (v w : varid) : R := if Nat.eqb w v then 1 else 0.

(** First-order error propagation for independent variables. *)
Definition svariance (vs : svars) (gr : varid -> R) : R :=
  Rsum (map (fun v => (gr v * sigma vs v) ^ 2) (seq 0 (length vs))).
Definition sstd (vs : svars) (gr : varid -> R) : R := sqrt (svariance vs gr).

Definition snom (a : sval) : plain RN :=
  match a with SPlain a => a | SUF n _ _ _ => PNum (PF (N:=RN) n) end.
Definition is_suf (a : sval) : bool := match a with SUF _ _ _ _ => true | _ => false end.
Definition sgrad (a : sval) (v : varid) : R :=
  match a with SPlain _ => 0 | SUF _ gr _ _ => gr v end.
Definition sdeps (a : sval) : list varid :=
  match a with SPlain _ => [] | SUF _ _ ds _ => ds end.

(** Chain rule: derivatives of f at the nominal values times gradients of the uncertain
    arguments; plain arguments contribute nothing. *)
Fixpoint spos (pos : nat -> pyder RN) (i : nat) (rest : list sval)
  (av : pargs_t RN) (kv : pkwargs_t RN) : res (list (R * sval)) :=
  match rest with
  | [] => Ok []
  | a :: rest' =>
      if is_suf a then
        c <- pos i av kv ;; t <- spos pos (S i) rest' av kv ;; Ok ((pval c, a) :: t)
      else spos pos (S i) rest' av kv
  end.
Fixpoint skws (kwd : nat -> pyder RN) (rest : list (nat * sval))
  (av : pargs_t RN) (kv : pkwargs_t RN) : res (list (R * sval)) :=
  match rest with
  | [] => Ok []
  | (k, a) :: rest' =>
      if is_suf a then
        c <- kwd k av kv ;; t <- skws kwd rest' av kv ;; Ok ((pval c, a) :: t)
      else skws kwd rest' av kv
  end.
Definition lin_grad (ts : list (R * sval)) (v : varid) : R :=
  Rsum (map (fun t => fst t * sgrad (snd t) v) ts).
Definition lin_deps (ts : list (R * sval)) : list varid := flat_map (fun t => sdeps (snd t)) ts.

Definition scall (f : pyfun RN) (pos kwd : nat -> pyder RN) (args : list sval)
  (kw : list (nat * sval)) : res sval :=
  let av := map snom args in
  let kv := map (fun p => (fst p, snom (snd p))) kw in
  if existsb is_suf args || existsb (fun p => is_suf (snd p)) kw then
    r <- f av kv ;;
    match r with
    | PNum p =>
        tp <- spos pos 0 args av kv ;;
        tk <- skws kwd kw av kv ;;
        Ok (SUF (pval p) (lin_grad (tp ++ tk)) (lin_deps (tp ++ tk)) None)
    | PComplex =>
        tp <- spos pos 0 args av kv ;; tk <- skws kwd kw av kv ;; Err EType
    | _ => Ok (SPlain PNotImpl)
    end
  else rmap SPlain (f av kv).

(** a op b: the operator of floats applied to the nominal values. *)
Definition sbin (op : binop) (a b : sval) : res sval :=
  r <- (if is_suf a then scall (float_method op) (op_pos op) no_kw [a; b] []
        else if is_suf b then scall (float_rmethod op) (rop_pos op) no_kw [b; a] []
        else Err EType) ;;
  match r with SPlain PNotImpl => Err EType | _ => Ok r end.

Definition smodf (a : sval) : res sval :=
  match a with
  | SUF n gr ds _ => Ok (SUF (n - IZR (Ztrunc n)) gr ds None)
  | SPlain (PNum p) => Ok (SPlain (PNum (PF (N:=RN) (pval p - IZR (Ztrunc (pval p))))))
  | SPlain PComplex => Err EType
  | _ => Err ENotUpcast
  end.
Definition sldexp (a : sval) (e : Z) : res sval :=
  match a with
  | SUF n gr ds _ =>
      Ok (SUF (n * bpow radix2 e) (fun v => bpow radix2 e * gr v) ds None)
  | SPlain (PNum p) => Ok (SPlain (PNum (PF (N:=RN) (pval p * bpow radix2 e))))
  | SPlain PComplex => Err EType
  | _ => Err ENotUpcast
  end.

(** Observations. Dictionaries are observed as finite maps from variables. *)
Inductive sout :=
| SNone | SDict (f : varid -> option R) | SErrs (f : varid -> option R) | SNumO (x : R) | SBoolO (b : bool) | SExn (e : exn).

Definition restrict (ds : list varid) (f : varid -> R) (v : varid) : option R :=
  if existsb (Nat.eqb v) ds then Some (f v) else None.

(** Equality: same nominal value and no uncertainty on the difference. *)
Definition seq_uf (vs : svars) (n1 n2 : R) (g1 g2 : varid -> R) : bool :=
  Reqb n1 n2 &&
  forallb (fun v => Reqb ((g1 v - g2 v) * sigma vs v) 0) (seq 0 (length vs)).
Definition scmp (vs : svars) (c : cmpop) (n1 n2 : R) (g1 g2 : varid -> R) : bool :=
  match c with
  | Ceq => seq_uf vs n1 n2 g1 g2
  | Cne => negb (seq_uf vs n1 n2 g1 g2)
  | Cgt => Rltb n2 n1
  | Clt => Rltb n1 n2
  | Cge => Rltb n2 n1 || seq_uf vs n1 n2 g1 g2
  | Cle => Rltb n1 n2 || seq_uf vs n1 n2 g1 g2
  end.
Definition scmp_val (vs : svars) (c : cmpop) (n1 : R) (g1 : varid -> R) (b : sval) : sout :=
  match b with
  | SUF n2 g2 _ _ => SBoolO (scmp vs c n1 n2 g1 g2)
  | SPlain (PNum p) => SBoolO (scmp vs c n1 (pval p) g1 (fun _ => 0))
  | SPlain PComplex => SExn EType
  | SPlain _ => match c with Ceq => SBoolO false | Cne => SBoolO true | _ => SExn EType end
  end.

Definition spush (ss : sstate) (r : res sval) : sstate * sout :=
  match r with
  | Ok a => (mkS (ss_vars ss) (ss_env ss ++ [a]), SNone)
  | Err e => (mkS (ss_vars ss) (ss_env ss ++ [SPlain (POther 0)]), SExn e)
  end.
(** Access to operands: the same conventions as the machine for undefined names and for
    attributes of plain numbers. *)
Definition swith (ss : sstate) (i : nat) (k : sval -> sstate * sout) : sstate * sout :=
  match nth_error (ss_env ss) i with Some a => k a | None => (ss, SExn EUser) end.
Definition swith_uf (ss : sstate) (i : nat)
  (k : R -> (varid -> R) -> list varid -> option varid -> sstate * sout) : sstate * sout :=
  swith ss i (fun a => match a with
                       | SUF n gr ds v => k n gr ds v
                       | _ => (ss, SExn EAttr) end).
Fixpoint sargs (env : list sval) (is : list nat) : option (list sval) :=
  match is with
  | [] => Some []
  | i :: is' =>
      match nth_error env i, sargs env is' with
      | Some a, Some l => Some (a :: l)
      | _, _ => None
      end
  end.
Fixpoint skwargs (env : list sval) (ks : list (nat * nat)) : option (list (nat * sval)) :=
  match ks with
  | [] => Some []
  | (k, i) :: ks' =>
      match nth_error env i, skwargs env ks' with
      | Some a, Some l => Some ((k, a) :: l)
      | _, _ => None
      end
  end.

Definition sstep (ss : sstate) (ins : instr RN) : sstate * sout :=
  let vs := ss_vars ss in
  match ins with
  | INew n s _ =>
      if Rltb (pval s) 0 then spush ss (Err ENegStd)
      else let v := length vs in
           (mkS (vs ++ [pval s]) (ss_env ss ++ [SUF (pval n) (delta v) [v] (Some v)]), SNone)
  | IConst p => spush ss (Ok (SPlain (PNum p)))
  | IBin op i j =>
      match sargs (ss_env ss) [i; j] with
      | Some [a; b] => spush ss (sbin op a b)
      | _ => spush ss (Err EUser)
      end
  | ICall f pos kwd args kw =>
      match sargs (ss_env ss) args, skwargs (ss_env ss) kw with
      | Some a, Some k => spush ss (scall f pos kwd a k)
      | _, _ => spush ss (Err EUser)
      end
  | IModf i =>
      match nth_error (ss_env ss) i with
      | Some a => spush ss (smodf a)
      | None => spush ss (Err EUser)
      end
  | ILdexp i e =>
      match nth_error (ss_env ss) i with
      | Some a => spush ss (sldexp a e)
      | None => spush ss (Err EUser)
      end
  | IDeriv i => swith_uf ss i (fun _ gr ds _ => (ss, SDict (restrict ds gr)))
  | IStd i | IStdS i => swith_uf ss i (fun _ gr _ _ => (ss, SNumO (sstd vs gr)))
  | IErrs i => swith_uf ss i (fun _ gr ds _ =>
      (ss, SErrs (restrict ds (fun v => Rabs (gr v * sigma vs v)))))
  | ISet i s =>
      swith_uf ss i (fun _ _ _ var =>
        match var with
        | Some v => if Rltb (pval s) 0 then (ss, SExn ENegStd)
                    else (mkS (list_set vs v (pval s)) (ss_env ss), SNone)
        | None => (ss, SExn EAttr)
        end)
  | ICmp c i j =>
      swith_uf ss i (fun n gr _ _ => swith ss j (fun b => (ss, scmp_val vs c n gr b)))
  | IBool i => swith_uf ss i (fun n gr _ _ =>
      (ss, SBoolO (negb (seq_uf vs n 0 gr (fun _ => 0)))))
  | IScore i p => swith_uf ss i (fun n gr _ _ =>
      (ss, if Reqb (sstd vs gr) 0 then SExn EValue else SNumO ((pval p - n) / sstd vs gr)))
  end.

Fixpoint srun (ss : sstate) (prog : list (instr RN)) : sstate * list sout :=
  match prog with
  | [] => (ss, [])
  | ins :: prog' =>
      let (s1, o) := sstep ss ins in
      let (s2, os) := srun s1 prog' in
      (s2, o :: os)
  end.

(** A machine output shows what the specification says: dictionaries are compared as maps,
    without duplicate keys. *)
Definition out_ok (o : out RN) (so : sout) : Prop :=
  match o, so with
  | ONone, SNone => True
  | ODict d, SDict f => NoDup (dkeys d) /\ forall v, dget d v = f v
  | OErrs l, SErrs f => NoDup (dkeys l) /\ forall v, option_map pval (dget l v) = f v
  | ONum x, SNumO y => x = y
  | OBool b, SBoolO b' => b = b'
  | OExn e, SExn e' => e = e'
  | _, _ => False
  end.
End Spec.
Arguments sval g lg : clear implicits.
Arguments sstate g lg : clear implicits.
