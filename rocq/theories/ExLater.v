(** A calculation that is repeated, in binary64. *)
From Coq Require Import ZArith List Bool Lia Relation_Operators.
From Flocq Require Import Core BinarySingleNaN.
From Verif Require Import Base NumF Heap HeapSpec Affine Ops UMath Machine Cov Copy Calls Unumpy UMatrix History Fuel FRefute BinStd BinEq DepSpec AnySpec AnyArith TwinSpec Twin ExAny ExTwin StaySpec Stay StayF LaterSpec Later LaterMore.
Import ListNotations.

Lemma same_dev : forall (N : NumOps) (st st' : state N) i, settled st i -> (forall v, existing st v -> sd st' v = sd st v) -> same_deviations st st' i.
Proof.
  intros N st st' i [(p & H)|(u0 & d0 & U0 & _ & (Rd & Ex & Ev))] Sd u d v U (s & k & R) Hv; [unfold is_number in U; congruence|].
  destruct Rd as (s0 & k0 & R0). specialize (R (k + k0)%nat ltac:(lia)). specialize (R0 (k + k0)%nat ltac:(lia)). assert (E : ODict d = ODict d0) by congruence. injection E as ->.
  apply Sd. destruct Hv as [Hv|Hv]; [rewrite Forall_forall in Ex; auto|exact (Ev u v U Hv)].
Qed.
(** z = x*y has been read; then t = z*z is calculated. *)
Definition zq := fst (step 40 zr (IBin Bmul 2 2)).
Definition again : list (instr FN) := [IBin Badd 2 1; IDeriv 3; ICmp Ceq 3 2; INew (fl 1 0) (fl 3 0) None].
Lemma settled_is : forall st : state FN, forall i, has_uf st i = true -> expanded (get_lc (st_heap st) (uf_lp (uf_at st i))) = true -> is_readable st i = true -> settled st i.
Proof.
  intros st i H X R. right. exists (uf_at st i), (dict_at st i). split; [now apply has_uf_at|]. assert (K := known_at st i H X). split; [exact K|].
  destruct (readable_is st i R) as (_ & Q). assert (E : dict_of_read st i = dict_at st i).
  { unfold dict_of_read. destruct K as (k & K). assert (X0 : step 40 st (IDeriv i) = (st, ODict (N:=FN) (dict_at st i))).
    { cbn [step]. unfold with_uf, with_val. apply has_uf_at in H. unfold is_number in H. rewrite H.
      unfold derivatives, lc_derivatives, dict_at. destruct (get_lc (st_heap st) (uf_lp (uf_at st i))) as [d|its]; [|discriminate X]. cbn [observe]. destruct st; reflexivity. }
    now rewrite X0. }
  rewrite E in Q. split; [now exists st|exact Q].
Qed.
Lemma ex_again : reachable zr /\ afterwards zr zq /\ uses_settled zr zq again /\ (length (st_env zr) < length (st_env zq))%nat /\
  map (fun o : out FN => match o with ODict d => length d | _ => 0%nat end) (snd (run 40 zr again)) = [0; 2; 0; 0]%nat.
Proof.
  destruct ex_stay as (R & U & D & _ & _). assert (Db : does zr (IBin Bmul 2 2) zq ONone) by (apply step_does; vm_cast_no_check (eq_refl true)).
  assert (S1 : settled zr 1) by (apply settled_is; vm_cast_no_check (eq_refl true)). assert (S2 : settled zr 2) by (apply settled_is; vm_cast_no_check (eq_refl true)).
  assert (Sd : forall v, existing zr v -> sd zq v = sd zr v) by (intros v Hv; apply (deviations_stay _ _ _ _ _ Db Hv); discriminate).
  split. { apply (reach_runs zs [IDeriv 2] _ [ODict (N:=FN) z_dict] R). destruct D as (k & D). exists k. intros f Hf. cbn [run]. now rewrite D. }
  split; [eapply rt1n_trans; [exact (h_statement _ _ _ _ Db)|constructor]|]. split.
  - intros ins i Hi Ho Hl. assert (Q : i = 1%nat \/ i = 2%nat).
    { assert (L : length (st_env zr) = 3%nat) by (vm_compute; reflexivity). rewrite L in Hl. destruct Hi as [<-|[<-|[<-|[<-|[]]]]]; cbn [operands] in Ho; repeat (destruct Ho as [<-|Ho]; [lia|]); destruct Ho. }
    destruct Q as [->| ->]; split; auto; apply same_dev; auto.
  - split; [apply Nat.ltb_lt; vm_cast_no_check (eq_refl true)|]. vm_compute. reflexivity.
Qed.
Lemma ex_compared : settled zr 1 /\ settled zr 2 /\ same_deviations zr zq 1 /\ same_deviations zr zq 2 /\ reads zr (ICmp Ceq 2 1) (OBool false) /\ reads zr (IBool 2) (OBool true).
Proof.
  destruct ex_again as (_ & _ & S & L & _). assert (X2 := S _ 2%nat (or_introl eq_refl) (or_introl eq_refl) ltac:(apply Nat.ltb_lt; vm_cast_no_check (eq_refl true))).
  assert (X1 := S _ 1%nat (or_introl eq_refl) (or_intror (or_introl eq_refl)) ltac:(apply Nat.ltb_lt; vm_cast_no_check (eq_refl true))).
  destruct X1, X2. do 4 (split; [assumption|]). split; run_big.
Qed.
(** x.std_dev = 2, and the variable y. *)
Lemma ex_deviation : does zr (ISet 0 (PZ 2)) zl ONone /\ existing zr 1%nat /\ forall i s u, @ISet FN 0 (PZ 2) = ISet i s -> is_number zr i u -> uf_var u <> Some 1%nat.
Proof.
  split; [apply step_does; vm_cast_no_check (eq_refl true)|]. split; [apply has_var_ex; vm_cast_no_check (eq_refl true)|].
  intros i s u E U. injection E as <- _. assert (V : uf_var (uf_at zr 0) = Some 0%nat) by (vm_compute; reflexivity).
  assert (X := has_uf_at zr 0 ltac:(vm_cast_no_check (eq_refl true))). unfold is_number in *. rewrite X in U. injection U as <-. rewrite V. discriminate.
Qed.
