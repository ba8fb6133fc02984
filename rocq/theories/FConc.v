(** Schedules of threads, and interruptions, that lose uncertainties (binary64 arithmetic). *)
From Coq Require Import ZArith List Bool Lia Reals.
From Flocq Require Import Core BinarySingleNaN.
From Verif Require Import Base Heap Affine Ops UMath Machine Cov History NumF Plain PlainProofs Fuel FRefute
  Copy Conc ConcSpec ConcProofs Ordered ConcThm.
Import ListNotations.
Local Open Scope Z_scope.

(** x = ufloat(1, 1); y = 2*x; z = 2*y. *)
Definition chain : list (instr FN) :=
  [INew (fl 1 0) (fl 1 0) None; IConst (PZ 2); IBin Bmul 1 0; IBin Bmul 1 2].
Definition num_at (i : nat) : uf FN := uf_at (after chain) i.
Definition runs_n (n t : nat) : list event := repeat (Run t) n.

Definition is_done (r : option (res (dict FN))) (p : option (loc * pc FN)) : bool :=
  match p, r with
  | Some (_, PDone (Ok [])), Some (Ok []) => true
  | Some (_, PDone (Err e)), Some (Err e') => exn_eqb e e'
  | _, _ => false
  end.
Lemma obtains_is : forall st us es t r,
  is_done (Some r) (nth_error (snd (threads_run (N:=FN) st us es)) t) = true -> obtains st us es t r.
Proof.
  intros st us es t r H. unfold obtains. destruct (nth_error _ t) as [[l p]|]; [|discriminate].
  destruct p as [| | | | | | | | | | | | | |[[|]|]]; try discriminate; destruct r as [[|]|]; try discriminate; auto.
  simpl in H. unfold exn_eqb in H. match type of H with (if ?c then _ else _) = _ => destruct c end; [now subst|discriminate].
Qed.

Ltac obt := apply obtains_is; vm_cast_no_check (eq_refl true).
Ltac no_int := intros t I; unfold interrupted in I; repeat (apply in_app_or in I as [I|I]);
  apply repeat_spec in I; discriminate.

Lemma positive_std : forall st i,
  match snd (step (N:=FN) 40 st (IStd i)) with ONum x => Bltb f0 x | _ => false end = true ->
  exists x, reads st (IStd i) (ONum (N:=FN) x) /\ Bltb f0 x = true.
Proof.
  intros st i H. destruct (snd (step 40 st (IStd i))) as [| | |x| |] eqn:E; try discriminate.
  exists x. split; [apply (reads_step 40); [exact E|discriminate]|exact H].
Qed.

(** Both y and z have a standard deviation, before the threads run. *)
Lemma chain_uncertain : reachable (after chain) /\ is_number (after chain) 2 (num_at 2) /\
  is_number (after chain) 3 (num_at 3) /\
  (exists x, reads (after chain) (IStd 2) (ONum (N:=FN) x) /\ Bltb f0 x = true) /\
  (exists x, reads (after chain) (IStd 3) (ONum (N:=FN) x) /\ Bltb f0 x = true).
Proof.
  split; [reach|]. split; [numb|]. split; [numb|].
  split; apply positive_std; vm_cast_no_check (eq_refl true).
Qed.

(** Two threads read y: one obtains {}, and y has lost its uncertainty for ever. *)
Definition both_y : list (uf FN) := [num_at 2; num_at 2].
Definition race : list event := runs_n 5 0 ++ runs_n 3 1 ++ runs_n 20 0 ++ runs_n 4 1.
Lemma f_race : (forall t, ~ interrupted t race) /\ obtains (after chain) both_y race 1 (Ok []) /\
  reads (afterwards (after chain) both_y race) (IStd 2) (ONum (N:=FN) f0).
Proof. split; [no_int|]. split; [obt|run_big]. Qed.
(** Another interleaving: IndexError in one of them. *)
Definition race_index : list event := runs_n 4 0 ++ runs_n 5 1 ++ runs_n 20 0.
Lemma f_race_index : (forall t, ~ interrupted t race_index) /\
  obtains (after chain) both_y race_index 0 (Err EIndex).
Proof. split; [no_int|obt]. Qed.
(** One thread reads z while another reads y: z has lost its uncertainty for ever. *)
Definition z_and_y : list (uf FN) := [num_at 3; num_at 2].
Definition race_shared : list event := runs_n 7 0 ++ runs_n 5 1 ++ runs_n 20 0 ++ runs_n 20 1.
Lemma f_race_shared : (forall t, ~ interrupted t race_shared) /\
  obtains (after chain) z_and_y race_shared 0 (Ok []) /\
  reads (afterwards (after chain) z_and_y race_shared) (IStd 3) (ONum (N:=FN) f0).
Proof. split; [no_int|]. split; [obt|run_big]. Qed.
(** The read of y is interrupted: y has lost its uncertainty for ever. *)
Definition stopped : list event := runs_n 5 0 ++ [Interrupt 0].
Lemma f_interrupted : obtains (after chain) [num_at 2] stopped 0 (Err EInterrupt) /\
  reads (afterwards (after chain) [num_at 2] stopped) (IStd 2) (ONum (N:=FN) f0).
Proof. split; [obt|run_big]. Qed.

(** A case that the positive theorems cover: w = 2*x also depends on x, and is not used by y. *)
Definition fork : list (instr FN) :=
  [INew (fl 1 0) (fl 1 0) None; IConst (PZ 2); IBin Bmul 1 0; IBin Bmul 1 0].
Lemma uses_reach : forall h : heap FN, pairs h -> forall l l', uses h l l' -> In l' (reach_lcs h l l).
Proof.
  intros h O. assert (Q : forall l1 l', uses h l1 l' -> forall l, In l1 (reach_lcs h l l) -> In l' (reach_lcs h l l)).
  { intros l1 l' U. induction U as [l0|l1 its c l2 l' G I U IH]; intros l H; auto.
    apply IH. exact (reach_step h O l l l1 its c l2 (le_n l) H G I). }
  intros l l' U. apply (Q _ _ U l). apply reach_in.
Qed.
Lemma ex_fork : exists u w d, reachable (after fork) /\ is_number (after fork) 2 u /\
  is_number (after fork) 3 w /\ expanded (get_lc (st_heap (after fork)) (uf_lp u)) = false /\
  unrelated (after fork) u [w] /\ unrelated (after fork) w [u] /\ reads (after fork) (IDeriv 2) (out_of (Ok d)).
Proof.
  assert (R : reachable (after fork)) by reach. pose proof (reachable_ok _ R) as [[O _] _].
  exists (uf_at (after fork) 2), (uf_at (after fork) 3),
    (match snd (step 40 (after fork) (IDeriv 2)) with ODict d => d | _ => [] end).
  split; [exact R|]. split; [numb|]. split; [numb|]. split; [vm_cast_no_check (eq_refl false)|].
  assert (U : forall i j, existsb (Nat.eqb (uf_lp (uf_at (after fork) j)))
    (reach_lcs (st_heap (after fork)) (uf_lp (uf_at (after fork) i)) (uf_lp (uf_at (after fork) i))) = false ->
    unrelated (after fork) (uf_at (after fork) i) [uf_at (after fork) j]).
  { intros i j H u' [<-|[]] Us. apply (uses_reach _ O) in Us.
    assert (X : existsb (Nat.eqb (uf_lp (uf_at (after fork) j)))
      (reach_lcs (st_heap (after fork)) (uf_lp (uf_at (after fork) i)) (uf_lp (uf_at (after fork) i))) = true).
    { apply existsb_exists. eexists. split; [exact Us|apply Nat.eqb_refl]. }
    congruence. }
  split; [apply U; vm_cast_no_check (eq_refl false)|]. split; [apply U; vm_cast_no_check (eq_refl false)|].
  apply (reads_step 40); [|discriminate].
  assert (H : match snd (step 40 (after fork) (IDeriv 2)) with ODict _ => true | _ => false end = true) by (vm_cast_no_check (eq_refl true)).
  destruct (snd (step 40 (after fork) (IDeriv 2))); try discriminate. reflexivity.
Qed.
