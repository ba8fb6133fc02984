(** Vocabulary for statements about histories of API calls. Specification only. *)
From Coq Require Import ZArith List Bool Reals Permutation.
From Verif Require Import Base Heap Affine Ops UMath NumR HeapSpec Machine Cov Calls Unumpy UMatrix.
Import ListNotations.

Section History.
Context {N : NumOps}.

(** Running a statement, or a program, to completion: the result for any large enough fuel. *)
Definition does (st : state N) (ins : instr N) (st' : state N) (o : out N) : Prop :=
  exists k, forall fuel, (k <= fuel)%nat -> step fuel st ins = (st', o).
Definition runs (st : state N) (prog : list (instr N)) (st' : state N) (os : list (out N))
  : Prop :=
  exists k, forall fuel, (k <= fuel)%nat -> run fuel st prog = (st', os).

(** Well-formed calls of the functions of [Calls]: the shapes that the documentation asks for,
    and no repeated number in a pickled list (it would be the same object under two names). *)
Definition square (n : nat) (m : matrix N) : Prop :=
  length m = n /\ Forall (fun r => length r = n) m.
Definition eigh_shape (eigh : matrix N -> res (list (num N) * matrix N)) : Prop :=
  forall n m lam V, square n m -> eigh m = Ok (lam, V) -> length lam = n /\ square n V.
Definition tags_ok (n : nat) (tags : option (list (option nat))) : Prop :=
  match tags with None => True | Some t => length t = n end.
Definition call_ok (c : call N) : Prop :=
  match c with
  | CCopy _ | CDeepcopy _ => True
  | CPickle is => NoDup is
  | CCorr eigh noms cov tags =>
      eigh_shape eigh /\ square (length noms) cov /\ tags_ok (length noms) tags
  | CCorrNorm eigh vals corr tags =>
      eigh_shape eigh /\ square (length vals) corr /\ tags_ok (length vals) tags
  end.

(** covariance_matrix() and correlation_matrix() of the results numbered [is]; [order] is the
    iteration order of Python sets of variables. *)
Definition observes {A} (f : nat -> list (value N) -> M N A) (st : state N) (is : list nat)
  (r : res A) (st' : state N) : Prop :=
  exists l k, get_args (st_env st) is = Some l /\ st_env st' = st_env st /\
    forall fuel, (k <= fuel)%nat -> f fuel l (st_heap st) = (r, st_heap st').
Definition covariance (order : list varid -> list varid) := observes (covariance_matrix order).
Definition correlation (order : list varid -> list varid) := observes (correlation_matrix order).

(** What a statement observes in a state. *)
Definition reads (st : state N) (ins : instr N) (o : out N) : Prop :=
  exists st', does st ins st' o.

(** Arrays of results of a program. Number of elements of an array of a given shape; a NumPy
    array has as many elements as its shape says. *)
Fixpoint count (sh : list nat) : nat := match sh with [] => 1 | n :: sh' => n * count sh' end.
Definition wf_arr {A} (a : arr A) : Prop := List.length (a_flat a) = count (a_shape a).
(** The results of a program numbered as in [ia] form the array [a]. *)
Definition array_of (st : state N) (ia : arr nat) (a : arr (value N)) : Prop :=
  a_cls a = a_cls ia /\ a_shape a = a_shape ia /\ get_args (st_env st) (a_flat ia) = Some (a_flat a).
(** A call of a function on an array of results: the elements of the array that it returns are
    appended to the results. *)
Definition array_call (f : nat -> arr (value N) -> M N (arr (value N))) (st : state N) (ia : arr nat)
  (r : res (arr nat)) (st' : state N) : Prop :=
  exists a k, wf_arr ia /\ array_of st ia a /\
  match r with
  | Ok ir => exists b, array_of st' ir b /\ st_env st' = st_env st ++ a_flat b /\
      a_flat ir = seq (List.length (st_env st)) (List.length (a_flat b)) /\
      forall fuel, (k <= fuel)%nat -> f fuel a (st_heap st) = (Ok b, st_heap st')
  | Err e => st_env st' = st_env st /\
      forall fuel, (k <= fuel)%nat -> f fuel a (st_heap st) = (Err e, st_heap st')
  end.
(** The same for a function of two arrays. *)
Definition array_call2 (f : arr (value N) -> arr (value N) -> M N (arr (value N))) (st : state N) (ia ja : arr nat)
  (r : res (arr nat)) (st' : state N) : Prop :=
  exists a b, wf_arr ia /\ wf_arr ja /\ array_of st ia a /\ array_of st ja b /\
  match r with
  | Ok ir => exists c, array_of st' ir c /\ st_env st' = st_env st ++ a_flat c /\
      a_flat ir = seq (List.length (st_env st)) (List.length (a_flat c)) /\
      f a b (st_heap st) = (Ok c, st_heap st')
  | Err e => st_env st' = st_env st /\ f a b (st_heap st) = (Err e, st_heap st')
  end.
(** No element of the array has an empty dictionary of derivatives. *)
Definition dependent (st : state N) (ir : arr nat) : Prop :=
  forall k, In k (a_flat ir) -> ~ reads st (IDeriv k) (ODict []).

(** States that some user program leads to: statements of [Machine], calls of [Calls],
    calls of covariance_matrix() and correlation_matrix(), calls of functions of matrices such
    as unumpy.ulinalg.inv() and pinv(), and of functions wrapped by wrap_array_func(), that do
    not return a number with an empty dictionary of derivatives, operators on arrays and products
    of matrices. *)
Inductive reachable : state N -> Prop :=
| reach_init : reachable init
| reach_runs : forall st prog st' os, reachable st -> runs st prog st' os -> reachable st'
| reach_call : forall st c, reachable st -> call_ok c -> reachable (fst (call_step st c))
| reach_cov : forall order st is r st', reachable st -> covariance order st is r st' -> reachable st'
| reach_corr : forall order st is r st', reachable st -> correlation order st is r st' -> reachable st'
| reach_array : forall order fw st ia r st', reachable st -> (forall l, Permutation (order l) l) ->
    array_call (uncert_func order fw) st ia r st' -> (forall ir, r = Ok ir -> dependent st' ir) ->
    reachable st'
| reach_wrapped : forall order f st ia r st', reachable st -> (forall l, Permutation (order l) l) ->
    array_call (wrap_array_func order f) st ia r st' -> (forall ir, r = Ok ir -> dependent st' ir) ->
    reachable st'
| reach_operator : forall op st ia ja r st', reachable st -> array_call2 (array_op op) st ia ja r st' -> reachable st'
| reach_product : forall st ia ja r st', reachable st -> array_call2 obj_matmul st ia ja r st' -> reachable st'.

(** Statements that only observe. *)
Definition is_read (ins : instr N) : bool :=
  match ins with
  | IDeriv _ | IStd _ | IStdS _ | IErrs _ | ICmp _ _ _ | IBool _ | IScore _ _ => true
  | _ => false
  end.

(** Result number [i] of the program is the number with uncertainty [u]. *)
Definition is_number (st : state N) (i : nat) (u : uf N) : Prop :=
  nth_error (st_env st) i = Some (VUF u).

(** Current standard deviation of a variable: its attribute. *)
Definition sd (st : state N) (v : varid) : num N :=
  match get_var (st_heap st) v with Some o => v_std o | None => n_zero N end.
End History.

Section HistoryR.
Context {g lg : R -> R}.
Notation RN := (ROps g lg).
Local Open Scope R_scope.
(** Linear error propagation: sqrt of the sum over the entries of a derivatives dictionary of
    (derivative * standard deviation)^2. *)
Definition prop_std (st : state RN) (d : dict RN) : R :=
  sqrt (Rsum (map (fun p => (snd p * sd st (fst p)) ^ 2) d)).
(** The same observation: dictionaries are compared as finite maps
    (an int 0 and a float 0.0 are the same number). *)
Definition same_out (o o' : out RN) : Prop :=
  match o, o' with
  | ODict d, ODict d' => forall v, dget d v = dget d' v
  | OErrs d, OErrs d' => forall v, option_map pval (dget d v) = option_map pval (dget d' v)
  | _, _ => o = o'
  end.

(** Derivative of result number [j] with respect to the variable [v]: 0 for plain numbers. *)
Definition deriv_is (st : state RN) (j : nat) (v : varid) (x : R) : Prop :=
  match nth_error (st_env st) j with
  | Some (VUF _) => exists d, reads st (IDeriv j) (ODict d) /\ dval d v = x
  | Some (VPlain _) => x = 0
  | None => False
  end.
(** Result number [j] is, or has as nominal value, the number [p]. *)
Definition has_nominal (st : state RN) (j : nat) (p : pynum RN) : Prop :=
  exists a, nth_error (st_env st) j = Some a /\ nominal_value a = PNum p.
Definition uncertain (st : state RN) (j : nat) : Prop := exists u, is_number st j u.
End HistoryR.
