(** Further API calls that create numbers with uncertainties, as steps of the machine. No
    proofs in this file. *)
From Coq Require Import ZArith List Bool.
From Verif Require Import Base Heap Affine Machine Cov Copy.
Import ListNotations.

Section Calls.
Context {N : NumOps}.

Inductive call :=
| CCopy (i : nat)                       (* x = copy.copy(a) *)
| CDeepcopy (i : nat)                   (* x = copy.deepcopy(a) *)
| CPickle (is : list nat)               (* x, ... = pickle.loads(pickle.dumps([a, ...])) *)
| CCorr (eigh : matrix N -> res (list (num N) * matrix N)) (noms : list (num N))
    (cov : matrix N) (tags : option (list (option nat)))
                                        (* x, ... = correlated_values([...], cov, tags) *)
| CCorrNorm (eigh : matrix N -> res (list (num N) * matrix N)) (vals : list (num N * num N))
    (corr : matrix N) (tags : option (list (option nat))).
                                        (* x, ... = correlated_values_norm([...], corr, tags) *)

(** The results are appended; a call that raises leaves its single target undefined. *)
Definition push_list (st : state N) (r : res (list (value N)) * heap N) : state N * out N :=
  match r with
  | (Ok l, h) => (mkState h (st_env st ++ l), ONone)
  | (Err e, h) => (mkState h (st_env st), OExn e)
  end.
Definition as_values (r : res (list (uf N)) * heap N) : res (list (value N)) * heap N :=
  match r with (Ok l, h) => (Ok (map VUF l), h) | (Err e, h) => (Err e, h) end.
Definition call_step (st : state N) (c : call) : state N * out N :=
  let h := st_heap st in
  match c with
  | CCopy i =>
      match nth_error (st_env st) i with
      | Some a => push st (py_copy a h)
      | None => push st (Err EUser, h)
      end
  | CDeepcopy i =>
      match nth_error (st_env st) i with
      | Some a => push st (py_deepcopy a h)
      | None => push st (Err EUser, h)
      end
  | CPickle is =>
      match get_args (st_env st) is with
      | Some l => push_list st (py_pickle l h)
      | None => push_list st (Err EUser, h)
      end
  | CCorr eigh noms cov tags => push_list st (as_values (correlated_values eigh noms cov tags h))
  | CCorrNorm eigh vals corr tags =>
      push_list st (as_values (correlated_values_norm eigh vals corr tags h))
  end.
End Calls.
Arguments call N : clear implicits.
