(** IndexableIter and wrap() with their caches: which derivative a wrapped function uses for
    each argument, over any history of calls. No proofs in this file. *)
From Coq Require Import ZArith List Bool.
From Verif Require Import Base Heap Affine.
Import ListNotations.

Section Indexable.
Context {A : Type}.

(** Python iterator: [it n] is what the (n+1)-th call of next() gives: [None] for
    StopIteration, [Some None] for the value None, [Some (Some a)] for another value. *)
Definition iterator := nat -> option (option A).
(** iter(list). *)
Definition iter_list (l : list (option A)) : iterator := fun n => nth_error l n.
(** itertools.chain(it, itertools.repeat(None)), core.py 555-559. *)
Definition chain_none (it : iterator) : iterator :=
  fun n => if existsb (fun k => match it k with None => true | _ => false end) (seq 0 (S n))
           then Some None else it n.

(** core.py 380-408: an IndexableIter object. The number of elements already taken from the
    iterable is the length of returned_elements. *)
Record iiter := mkII {
  ii_iter : iterator;               (* iterable *)
  ii_elems : list (option A);       (* returned_elements *)
  ii_conv : nat -> option A         (* none_converter *)
}.
Definition ii_new (it : iterator) (conv : nat -> option A) : iiter := mkII it [] conv.

(** list[index] in Python, with negative indices. *)
Definition py_index (l : list (option A)) (i : Z) : option (option A) :=
  if (0 <=? i)%Z then nth_error l (Z.to_nat i)
  else if (- i <=? Z.of_nat (length l))%Z then nth_error l (Z.to_nat (Z.of_nat (length l) + i))
  else None.

(** core.py 420-427: [n] turns of the loop. *)
Fixpoint ii_fill (n : nat) (x : iiter) : res unit * iiter :=
  match n with
  | O => (Ok tt, x)
  | S n' =>
      let pos := length (ii_elems x) in
      match ii_iter x pos with
      | None => (Err EStop, x)
      | Some v =>
          let v := match v with None => ii_conv x pos | Some a => Some a end in
          ii_fill n' (mkII (ii_iter x) (ii_elems x ++ [v]) (ii_conv x))
      end
  end.

(** core.py 410-429: __getitem__. *)
Definition ii_get (x : iiter) (i : Z) : res (option A) * iiter :=
  match py_index (ii_elems x) i with
  | Some v => (Ok v, x)
  | None =>
      match ii_fill (Z.to_nat (i + 1 - Z.of_nat (length (ii_elems x)))) x with
      | (Err e, x') => (Err e, x')
      | (Ok _, x') =>
          match py_index (ii_elems x') i with
          | Some v => (Ok v, x')
          | None => (Err EIndex, x')
          end
      end
  end.

(** Any sequence of accesses, whether they raise or not. *)
Fixpoint ii_accesses (x : iiter) (is : list Z) : iiter :=
  match is with [] => x | i :: is' => ii_accesses (snd (ii_get x i)) is' end.
End Indexable.
Arguments iterator A : clear implicits.
Arguments iiter A : clear implicits.

Section Wrap.
Context {N : NumOps}.

(** The variables captured by the function that wrap() returns. *)
Record wrapped := mkW {
  w_fun : pyfun N;                      (* f *)
  w_args : iiter (pyder N);             (* derivatives_args_index *)
  w_kwargs : list (nat * pyder N)       (* derivatives_all_kwargs *)
}.

(** core.py 565-573: loop on derivatives_kwargs.items(). *)
Fixpoint kwargs_table (f : pyfun N) (dkw : list (nat * option (pyder N)))
  (t : list (nat * pyder N)) : list (nat * pyder N) :=
  match dkw with
  | [] => t
  | (k, d) :: dkw' =>
      kwargs_table f dkw'
        (dset t k (match d with None => partial_derivative f (AName k) | Some d => d end))
  end.

(** core.py 594-611: loop on the names of the positional parameters, from index [i]. *)
Fixpoint params_table (f : pyfun N) (i : nat) (params : list nat) (x : iiter (pyder N))
  (t : list (nat * pyder N)) : res (list (nat * pyder N)) * iiter (pyder N) :=
  match params with
  | [] => (Ok t, x)
  | k :: params' =>
      match ii_get x (Z.of_nat i) with
      | (Err e, x') => (Err e, x')
      | (Ok d, x') =>
          params_table f (S i) params' x'
            (dset t k (match d with None => partial_derivative f (AName k) | Some d => d end))
      end
  end.

(** core.py 617-622: None values of returned_elements, from index [i], replaced. *)
Fixpoint convert_none (conv : nat -> pyder N) (i : nat) (l : list (option (pyder N)))
  : list (option (pyder N)) :=
  match l with
  | [] => []
  | d :: l' => Some (match d with None => conv i | Some d => d end) :: convert_none conv (S i) l'
  end.

(** core.py 554-626: wrap(f, derivatives_args, derivatives_kwargs). [argspec] is
    getargspec(f).args, or None if getargspec raises TypeError. *)
Definition wrap (f : pyfun N) (dargs : iterator (pyder N)) (dkw : list (nat * option (pyder N)))
  (argspec : option (list nat)) : res wrapped :=
  let x := ii_new (chain_none dargs) (fun _ => None) in
  let t := kwargs_table f dkw [] in
  match match argspec with None => (Ok t, x) | Some ps => params_table f 0 ps x t end with
  | (Err e, _) => Err e
  | (Ok t, x) =>
      let conv := fun i => partial_derivative f (APos i) in
      Ok (mkW f (mkII (ii_iter x) (convert_none conv 0 (ii_elems x)) (fun i => Some (conv i))) t)
  end.

(** core.py 722-732: coefficients of the positional arguments, from index [i].
    derivatives_args_index[pos] is called: calling None raises TypeError. *)
Fixpoint pos_terms_w (x : iiter (pyder N)) (i : nat) (rest : args_t N)
  (av : pargs_t N) (kv : pkwargs_t N) : res (list (item N)) * iiter (pyder N) :=
  match rest with
  | [] => (Ok [], x)
  | VUF u :: rest' =>
      match ii_get x (Z.of_nat i) with
      | (Err e, x') => (Err e, x')
      | (Ok None, x') => (Err EType, x')
      | (Ok (Some d), x') =>
          match d av kv with
          | Err e => (Err e, x')
          | Ok c =>
              match pos_terms_w x' (S i) rest' av kv with
              | (Ok t, x'') => (Ok (IPair c (uf_lp u) :: t), x'')
              | (Err e, x'') => (Err e, x'')
              end
          end
      end
  | _ :: rest' => pos_terms_w x (S i) rest' av kv
  end.

(** core.py 734-747: coefficients of the keyword arguments, with the cache
    derivatives_all_kwargs.setdefault(name, partial_derivative(f, name)). *)
Fixpoint kw_terms_w (f : pyfun N) (t : list (nat * pyder N)) (rest : kwargs_t N)
  (av : pargs_t N) (kv : pkwargs_t N) : res (list (item N)) * list (nat * pyder N) :=
  match rest with
  | [] => (Ok [], t)
  | (k, VUF u) :: rest' =>
      let d := match dget t k with Some d => d | None => partial_derivative f (AName k) end in
      let t' := match dget t k with Some _ => t | None => dset t k d end in
      match d av kv with
      | Err e => (Err e, t')
      | Ok c =>
          match kw_terms_w f t' rest' av kv with
          | (Ok l, t'') => (Ok (IPair c (uf_lp u) :: l), t'')
          | (Err e, t'') => (Err e, t'')
          end
      end
  | _ :: rest' => kw_terms_w f t rest' av kv
  end.

(** core.py 646-752: a call of the wrapped function: the result, the heap, and the updated
    caches. *)
Definition wcall_w (w : wrapped) (args : args_t N) (kw : kwargs_t N) (h : heap N)
  : (res (value N) * heap N) * wrapped :=
  let f := w_fun w in
  let av := map nominal_value args in
  let kv := kw_map nominal_value kw in
  if negb (existsb is_uf args || existsb (fun p => is_uf (snd p)) kw)
  then ((rmap VPlain (f av kv), h), w)
  else
    match f av kv with
    | Err e => ((Err e, h), w)
    | Ok r =>
        match r with
        | PNum _ | PComplex =>
            match pos_terms_w (w_args w) 0 args av kv with
            | (Err e, x) => ((Err e, h), mkW f x (w_kwargs w))
            | (Ok tp, x) =>
                match kw_terms_w f (w_kwargs w) kw av kv with
                | (Err e, t) => ((Err e, h), mkW f x t)
                | (Ok tk, t) =>
                    (match r with
                     | PNum p =>
                         match pn_float p with
                         | Err e => (Err e, h)
                         | Ok y =>
                             let (l, h') := alloc_lc h (LList (rev (tp ++ tk))) in
                             (Ok (VUF (mkUF y l None)), h')
                         end
                     | _ => (Err EType, h)
                     end, mkW f x t)
                end
            end
        | _ => ((Ok (VPlain PNotImpl), h), w)
        end
    end.

(** The caches after any sequence of calls, whether they raise or not. *)
Fixpoint wcalls (w : wrapped) (cs : list (args_t N * kwargs_t N * heap N)) : wrapped :=
  match cs with
  | [] => w
  | (args, kw, h) :: cs' => wcalls (snd (wcall_w w args kw h)) cs'
  end.
End Wrap.
Arguments wrapped N : clear implicits.
