(** Copies in binary64. *)
From Coq Require Import ZArith List Bool Lia.
From Flocq Require Import Core BinarySingleNaN.
From Verif Require Import Base NumF Heap HeapSpec Affine Ops UMath Machine Cov Copy Calls Unumpy UMatrix History Fuel FRefute DepSpec AnySpec AnyArith TwinSpec Twin ExAny.
Import ListNotations.

Definition dict_of_read (st : state FN) (i : nat) : list (varid * f64) := match snd (step 40 st (IDeriv i)) with ODict d => d | _ => [] end.
Definition has_var (st : state FN) (v : varid) : bool := match get_var (st_heap st) v with Some _ => true | None => false end.
Definition is_readable (st : state FN) (i : nat) : bool :=
  match snd (step 40 st (IDeriv i)) with ODict d => forallb (has_var st) (dkeys d) | _ => false end &&
  match uf_var (uf_at st i) with Some v => has_var st v | None => true end && has_uf st i.
Lemma has_var_ex : forall st v, has_var st v = true -> existing st v.
Proof. intros st v H. unfold has_var, existing in *. destruct (get_var (st_heap st) v); [discriminate|discriminate H]. Qed.
Lemma readable_is : forall (st : state FN) i, is_readable st i = true -> readable st i (dict_of_read st i).
Proof.
  intros st i H. unfold is_readable in H. apply andb_true_iff in H as (H & H3). apply andb_true_iff in H as (H1 & H2).
  unfold readable, dict_of_read. destruct (snd (step 40 st (IDeriv i))) eqn:Q; try discriminate H1. split; [apply (reads_step 40); [exact Q|discriminate]|]. split.
  - apply Forall_forall. intros v Hv. rewrite forallb_forall in H1. now apply has_var_ex, H1.
  - intros u v U Hv. assert (X := has_uf_at st i H3). unfold is_number in *. rewrite X in U. injection U as <-. rewrite Hv in H2. now apply has_var_ex.
Qed.
(** t = y + a + b, of which the uncertainty has not been calculated: three variables. *)
Lemma ex_deepcopy_t : reachable (after cors) /\ is_number (after cors) 6 (uf_at (after cors) 6) /\ uf_var (uf_at (after cors) 6) = None /\
  readable (after cors) 6 (dict_of_read (after cors) 6) /\ length (dict_of_read (after cors) 6) = 3%nat.
Proof.
  split; [reach|]. split; [numb|]. split; [vm_compute; reflexivity|]. split; [apply readable_is; vm_cast_no_check (eq_refl true)|]. vm_compute; reflexivity.
Qed.
(** The derivatives of the copy: three new variables. *)
Lemma new_keys : forall (st st' : state FN) rho i k d, renews rho st st' (fun v => In v (dkeys d)) -> twin rho st st' i k -> reads st (IDeriv i) (ODict (N:=FN) d) ->
  exists d', reads st' (IDeriv k) (ODict (N:=FN) d') /\ Forall (fun v => existing st v -> False) (dkeys d') /\ length d' = length d.
Proof.
  intros st st' rho i k d (_ & Rn) (u & u' & _ & _ & _ & _ & T) R. specialize (T IDeriv _ (or_introl eq_refl) R). exists (keys_as rho d). split; [exact T|]. split.
  - apply Forall_forall. intros w Hw. unfold dkeys, keys_as in Hw. rewrite map_map in Hw. apply in_map_iff in Hw as (p & <- & Hp). cbn [fst].
    exact (proj1 (Rn (fst p) (in_map fst _ _ Hp))).
  - unfold keys_as. now rewrite map_length.
Qed.
Lemma ex_copied_keys : exists d, reads (fst (call_step (after cors) (CDeepcopy 6))) (IDeriv (length (st_env (after cors)))) (ODict (N:=FN) d) /\
  Forall (fun v => existing (after cors) v -> False) (dkeys d) /\ length d = length (dict_of_read (after cors) 6).
Proof.
  destruct ex_deepcopy_t as (R & U & V & Rd & _). destruct (deepcopy_twin (N:=FN) (after cors) 6 _ _ R U V Rd) as (rho & Rn & T).
  exact (new_keys _ _ rho _ _ _ Rn T (proj1 Rd)).
Qed.
(** copy.copy(x), for the variable x. *)
Lemma ex_copy_x : is_number (after cors) 0 (uf_at (after cors) 0) /\ uf_var (uf_at (after cors) 0) = Some 0%nat /\
  readable (after cors) 0 [(0%nat, n_one FN)] /\ snd (call_step (after cors) (CCopy 0)) = ONone.
Proof.
  split; [numb|]. split; [vm_compute; reflexivity|]. split.
  - assert (E : readable (after cors) 0 (dict_of_read (after cors) 0)) by (apply readable_is; vm_cast_no_check (eq_refl true)).
    assert (Y : match dict_of_read (after cors) 0 with
      | [(O, x)] => match B2SF (x : f64) with SpecFloat.S754_finite false m e => (m =? 4503599627370496)%positive && (e =? -52)%Z | _ => false end
      | _ => false end = true) by (vm_cast_no_check (eq_refl true)).
    destruct (dict_of_read (after cors) 0) as [|[[|v] x] [|p d]]; try discriminate Y.
    assert (X : x = fone).
    { apply B2SF_inj. destruct (B2SF x) as [| | |[] m e]; try discriminate Y. apply andb_true_iff in Y as (Y1 & Y2).
      apply Pos.eqb_eq in Y1. apply Z.eqb_eq in Y2. subst m e. vm_compute. reflexivity. }
    subst x. exact E.
  - assert (Y : match snd (call_step (after cors) (CCopy 0)) with ONone => true | _ => false end = true) by (vm_cast_no_check (eq_refl true)).
    destruct (snd (call_step (after cors) (CCopy 0))); try discriminate Y. reflexivity.
Qed.
(** pickle.loads(pickle.dumps((t, x, q))). *)
Lemma ex_pickle_t : reachable (after cors) /\ snd (call_step (after cors) (CPickle [6; 0; 2]%nat)) = ONone /\
  Forall (fun i => readable (after cors) i (dict_of_read (after cors) i)) [6; 0; 2]%nat.
Proof.
  split; [reach|]. split.
  - assert (Y : match snd (call_step (after cors) (CPickle [6; 0; 2]%nat)) with ONone => true | _ => false end = true) by (vm_cast_no_check (eq_refl true)).
    destruct (snd (call_step (after cors) (CPickle [6; 0; 2]%nat))); try discriminate Y. reflexivity.
  - apply Forall_cons; [|apply Forall_cons; [|apply Forall_cons; [|apply Forall_nil]]]; apply readable_is; vm_cast_no_check (eq_refl true).
Qed.
