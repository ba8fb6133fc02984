(** Exact derivatives of the results of a program in binary64. Specification only: nothing here
    refers to the way in which linear combinations are stored or expanded. *)
From Coq Require Import ZArith List Bool Reals.
From Flocq Require Import Core BinarySingleNaN.
From Verif Require Import Base Heap HeapSpec Affine Ops UMath Machine Cov Calls Unumpy UMatrix History NumF.
Import ListNotations.
Local Open Scope R_scope.

(** The exact differential of a result, from the local derivatives used at each step:
    [grad] is the derivative with respect to each variable (sum over all paths of the products
    of local derivatives), [paths] the sum of the absolute values of these products, and
    [roundings] and [range] bound the number of roundings and the size of the products. *)
Record lin := mkLin { grad : varid -> R; paths : varid -> R; roundings : nat; range : R }.
(** How far from 1 a factor is. *)
Definition size (c : R) : R := if Req_EM_T c 0 then 1 else Rmax (Rabs c) (/ Rabs c).
(** A variable. *)
Definition var_lin (v : varid) : lin :=
  let one := fun w => if Nat.eqb w v then 1 else 0 in mkLin one one 0 1.
(** A function of results, with its local derivatives: the chain rule. *)
Definition call_lin (l : list (R * lin)) : lin := mkLin
  (fun v => Rsum (map (fun p => fst p * grad (snd p) v) l))
  (fun v => Rsum (map (fun p => Rabs (fst p) * paths (snd p) v) l))
  (list_sum (map (fun p => roundings (snd p) + 6) l)%nat)
  (fold_right (fun p r => Rmax (size (fst p) * range (snd p)) r) 1 l).
(** Far from overflows and underflows. *)
Definition in_range (a : lin) : Prop := (Z.of_nat (roundings a) <= 1000000000)%Z /\ range a <= 2 ^ 900.
(** Ranges of magnitudes, for covariances and correlations. *)
Definition small_lin (a : lin) : Prop := in_range a /\ range a <= 2 ^ 200.
Definition usual (s : f64) : Prop := is_finite s = true /\ (B2R s = 0 \/ / 2 ^ 200 <= B2R s <= 2 ^ 200).
Definition moderate (x : R) : Prop := / 10 ^ 100 <= x <= 10 ^ 100.

Section Grad.
Variable lm : Libm.
Notation FN := (FOps lm).

Definition cval (c : pynum FN) : R := match c with PZ z => IZR z | PF x => B2R (x : f64) end.
Definition cfinite (c : pynum FN) : bool := match c with PZ _ => true | PF x => is_finite (x : f64) end.
(** Entry of a dictionary of derivatives; 0 for an absent key. *)
Definition fval (d : dict FN) (v : varid) : R := match dget d v with Some x => B2R (x : f64) | None => 0 end.

(** Local derivatives and differentials of the uncertain arguments: [ds] gives, for each
    argument, what its derivative function returns. *)
Inductive terms (st : state FN) (L : list (option lin)) : list (res (pynum FN) * nat) -> list (R * lin) -> Prop :=
| terms_nil : terms st L [] []
| terms_plain : forall r j a ds l, nth_error (st_env st) j = Some (VPlain a) -> terms st L ds l ->
    terms st L ((r, j) :: ds) l
| terms_number : forall c j u a ds l, is_number st j u -> cfinite c = true -> nth_error L j = Some (Some a) ->
    terms st L ds l -> terms st L ((Ok c, j) :: ds) ((cval c, a) :: l).

(** Anything that a program can do: statements, calls, matrices and arrays, that complete
    ([EFuel] is not a Python exception). *)
Inductive acts : state FN -> state FN -> Prop :=
| act_statement : forall st ins st' o, does st ins st' o -> o <> OExn EFuel -> acts st st'
| act_call : forall st c, snd (call_step st c) <> OExn EFuel -> acts st (fst (call_step st c))
| act_covariance : forall order st is r st', covariance order st is r st' -> r <> Err EFuel -> acts st st'
| act_correlation : forall order st is r st', correlation order st is r st' -> r <> Err EFuel -> acts st st'
| act_array : forall order fw st ia r st', array_call (uncert_func order fw) st ia r st' -> r <> Err EFuel -> acts st st'
| act_wrapped : forall order f st ia r st', array_call (wrap_array_func order f) st ia r st' -> r <> Err EFuel -> acts st st'
| act_operator : forall op st ia ja r st', array_call2 (array_op op) st ia ja r st' -> r <> Err EFuel -> acts st st'
| act_product : forall st ia ja r st', array_call2 obj_matmul st ia ja r st' -> r <> Err EFuel -> acts st st'.

(** Histories, with the exact differentials of results: new variables, operators and wrapped
    functions of numbers with a known differential; whatever else happens in between. *)
Inductive traced : state FN -> list (option lin) -> Prop :=
| traced_init : traced init []
| traced_new : forall st L n s tag st' u v, traced st L -> does st (INew n s tag) st' ONone ->
    is_number st' (length (st_env st)) u -> uf_var u = Some v -> traced st' (L ++ [Some (var_lin v)])
| traced_operator : forall st L op i j st' a b p q u l, traced st L -> does st (IBin op i j) st' ONone ->
    is_number st' (length (st_env st)) u ->
    nth_error (st_env st) i = Some a -> nth_error (st_env st) j = Some b ->
    nominal_value a = PNum p -> nominal_value b = PNum q ->
    terms st L [(op_der_x op p q, i); (op_der_y op p q, j)] l -> traced st' (L ++ [Some (call_lin l)])
| traced_function : forall st L f pos kwd args kw st' a k u l, traced st L ->
    does st (ICall f pos kwd args kw) st' ONone -> is_number st' (length (st_env st)) u ->
    get_args (st_env st) args = Some a -> get_kwargs (st_env st) kw = Some k ->
    let av := map nominal_value a in let kv := map (fun p => (fst p, nominal_value (snd p))) k in
    terms st L (combine (map (fun n => pos n av kv) (seq 0 (length args))) args ++
                map (fun p => (kwd (fst p) av kv, snd p)) kw) l ->
    traced st' (L ++ [Some (call_lin l)])
| traced_other : forall st L st', traced st L -> acts st st' ->
    traced st' (L ++ repeat None (length (st_env st') - length (st_env st))).
End Grad.
