(** copy.copy, copy.deepcopy and pickling of numbers with uncertainties. No proofs in this
    file.

    Traversal of the object graph is the work of Python's copy and pickle modules: every object
    reachable from the copied one is created again exactly once (their memo), with the
    references renamed. Model: the set of the reachable objects is listed, then the copies are
    appended to the heap, in the order of the originals. The order of creation cannot be
    observed (objects are only compared by identity). *)
From Coq Require Import ZArith List Bool.
From Verif Require Import Base Heap Affine.
Import ListNotations.

Section Copy.
Context {N : NumOps}.

(** Linear combinations reachable from [l], with repetitions; lists only refer to older
    objects, so that a recursion depth of [l] is enough. core.py 1578-1584: the state of a
    LinearCombination is its list or dict. *)
Fixpoint reach_lcs (h : heap N) (n : nat) (l : loc) : list loc :=
  l :: match n, get_lc h l with
       | S n', LList its =>
           flat_map (fun it => match it with
                               | IPair _ l' | ILC l' => reach_lcs h n' l'
                               | INum _ => []
                               end) its
       | _, _ => []
       end.

(** Variables used as keys of the dicts among them. *)
Definition keys_of (h : heap N) (ls : list loc) : list varid :=
  flat_map (fun l => match get_lc h l with LDict d => dkeys d | LList _ => [] end) ls.

Definition mem (x : nat) (l : list nat) : bool := existsb (Nat.eqb x) l.
(** The objects of [s], without repetition, in increasing order. *)
Definition listed (n : nat) (s : list nat) : list nat := filter (fun x => mem x s) (seq 0 n).

(** New identity of [x]: its rank in [l], after [base] existing objects. *)
Fixpoint rank (l : list nat) (x : nat) : nat :=
  match l with [] => 0%nat | y :: l' => if Nat.eqb x y then 0%nat else S (rank l' x) end.
Definition renamed (base : nat) (l : list nat) (x : nat) : nat := (base + rank l x)%nat.

Definition copy_item (fl : loc -> loc) (it : item N) : item N :=
  match it with IPair c l => IPair c (fl l) | INum c => INum c | ILC l => ILC (fl l) end.
Definition copy_lc (fl : loc -> loc) (fv : varid -> varid) (x : lc N) : lc N :=
  match x with
  | LDict d => LDict (map (fun p => (fv (fst p), snd p)) d)
  | LList its => LList (map (copy_item fl) its)
  end.

(** copy.copy(x). A calculated number has no __copy__ method: the copy has the same attributes
    (core.py 2376-2451), hence the same LinearCombination object. Variable.__copy__ (core.py
    2815-2831) creates a Variable with the same nominal value, standard deviation and tag. *)
Definition py_copy (a : value N) : M N (value N) :=
  match a with
  | VPlain p => ret (VPlain p)
  | VUF u =>
      match uf_var u with
      | None => ret (VUF (mkUF (uf_nom u) (uf_lp u) None))
      | Some v => fun h =>
          match get_var h v with
          | None => (Err EAttr, h)
          | Some o =>
              match new_var (PF (uf_nom u)) (PF (v_std o)) (v_tag o) h with
              | (Ok u', h') => (Ok (VUF u'), h')
              | (Err e, h') => (Err e, h')
              end
          end
      end
  end.

(** The attributes of the variables of [vs]; all of them exist. *)
Definition var_objects (h : heap N) (vs : list varid) : list (varobj N) :=
  flat_map (fun v => match get_var h v with Some o => [o] | None => [] end) vs.

(** copy.deepcopy(x). core.py 2364-2375: a new number with a deep copy of the linear part, made
    with a new memo. The variables met are replaced by new ones (Variable.__deepcopy__, core.py
    2833-2846: __copy__), each with its own linear part. Simplification: the check of the
    standard deviation is not repeated (it was made when the original was created). *)
Definition py_deepcopy (a : value N) : M N (value N) :=
  match a with
  | VPlain p => ret (VPlain p)
  | VUF u =>
      match uf_var u with
      | Some _ => py_copy a
      | None => fun h =>
          let nl := length (h_lc h) in
          let nv := length (h_var h) in
          let ls := listed nl (reach_lcs h (uf_lp u) (uf_lp u)) in
          let vs := listed nv (keys_of h ls) in
          let fl := renamed nl ls in
          let fv := renamed nv vs in
          let copies := map (fun l => copy_lc fl fv (get_lc h l)) ls in
          let os := var_objects h vs in
          let base := (nl + length copies)%nat in
          let news := map (fun k => LDict [((nv + k)%nat, n_one N)]) (seq 0 (length os)) in
          let objs := map (fun p => mkVar (v_nom (snd p)) (base + fst p)%nat (v_std (snd p))
                                          (v_tag (snd p)))
                          (combine (seq 0 (length os)) os) in
          (Ok (VUF (mkUF (uf_nom u) (fl (uf_lp u)) None)),
           mkHeap (h_lc h ++ copies ++ news) (h_var h ++ objs))
      end
  end.

(** pickle.loads(pickle.dumps(l)) for a list or tuple [l] of numbers: one memo for the whole
    list. The state of a variable (core.py 2376-2451) includes its linear part, which refers
    back to the variable. *)
Definition lp_of (a : value N) : list loc := match a with VUF u => [uf_lp u] | VPlain _ => [] end.
Definition var_of (a : value N) : list varid :=
  match a with VUF u => match uf_var u with Some v => [v] | None => [] end | VPlain _ => [] end.
Definition py_pickle (l : list (value N)) : M N (list (value N)) :=
  fun h =>
  let nl := length (h_lc h) in
  let nv := length (h_var h) in
  let ls0 := flat_map (fun r => reach_lcs h r r) (flat_map lp_of l) in
  let vs := listed nv (flat_map var_of l ++ keys_of h ls0) in
  let os := var_objects h vs in
  let ls := listed nl (ls0 ++ map v_lp os) in
  let fl := renamed nl ls in
  let fv := renamed nv vs in
  let copies := map (fun l => copy_lc fl fv (get_lc h l)) ls in
  let objs := map (fun o => mkVar (v_nom o) (fl (v_lp o)) (v_std o) (v_tag o)) os in
  (Ok (map (fun a => match a with
                     | VPlain p => VPlain p
                     | VUF u => VUF (mkUF (uf_nom u) (fl (uf_lp u)) (option_map fv (uf_var u)))
                     end) l),
   mkHeap (h_lc h ++ copies) (h_var h ++ objs)).
End Copy.
