(** Concrete histories in binary64 arithmetic: what the package does at the limits of
    floating-point numbers. *)
From Coq Require Import ZArith List Bool Lia Reals.
From Flocq Require Import Core BinarySingleNaN.
From Verif Require Import Base Heap Affine Ops UMath Machine Cov History NumF Plain PlainProofs Fuel.
Import ListNotations.
Local Open Scope Z_scope.

(** A C library whose pow(x, 2) is the correctly rounded square. *)
Definition exact_squares (lm : Libm) : Prop := forall x, lm_pow lm x ftwo = fmul x x.
Definition lm0 : Libm := mkLibm (fun _ _ => Err EValue) (fun _ _ _ => Err EValue)
  (fun x y => if Beqb y ftwo then fmul x x else fnan).
Lemma lm0_squares : exact_squares lm0.
Proof. intros x. reflexivity. Qed.

Notation FN := (FOps lm0).
Definition fl (m e : Z) : pynum FN := PF (N:=FN) (fnorm m e).
Definition after (prog : list (instr FN)) : state FN := fst (run 40 init prog).

(** 0.1*v + 0.2*v + 0.3*v for v = ufloat(1, 1). *)
Definition tenths : list (instr FN) :=
  [INew (fl 1 0) (fl 1 0) None; IConst (fl 3602879701896397 (-55)); IConst (fl 3602879701896397 (-54));
   IConst (fl 5404319552844595 (-54)); IBin Bmul 1 0; IBin Bmul 2 0; IBin Bmul 3 0; IBin Badd 4 5; IBin Badd 7 6].

Lemma after_runs : forall prog, forallb (fun o => negb (match o with OExn EFuel => true | _ => false end))
  (snd (run 40 (init (N:=FN)) prog)) = true -> reachable (after prog).
Proof.
  intros prog H. apply (reach_runs init prog _ (snd (run 40 init prog)) reach_init). apply runs_run. apply Forall_forall.
  intros o I. rewrite forallb_forall in H. specialize (H o I). intros ->. discriminate.
Qed.
Definition uf_at (st : state FN) (i : nat) : uf FN :=
  match nth_error (st_env st) i with Some (VUF u) => u | _ => mkUF (N:=FN) f0 0%nat None end.
Definition has_uf (st : state FN) (i : nat) : bool :=
  match nth_error (st_env st) i with Some (VUF _) => true | _ => false end.
Lemma has_uf_at : forall st i, has_uf st i = true -> is_number st i (uf_at st i).
Proof.
  intros st i. unfold has_uf, is_number, uf_at. destruct (nth_error (st_env st) i) as [[|u]|]; auto; discriminate.
Qed.
Lemma does_num : forall n (st : state FN) ins,
  match snd (step n st ins) with ONum _ => true | _ => false end = true ->
  exists x, does st ins (fst (step n st ins)) (ONum x).
Proof.
  intros n st ins H. destruct (snd (step n st ins)) as [| | |x| |] eqn:E; try discriminate H.
  exists x. apply does_step; [exact E|discriminate].
Qed.
Definition exn_eqb (a b : exn) : bool := if (ltac:(decide equality) : {a = b} + {a <> b}) then true else false.
Definition out_is (o o' : out FN) : bool :=
  match o, o' with
  | ONone, ONone => true
  | OBool b, OBool b' => Bool.eqb b b'
  | OExn e, OExn e' => exn_eqb e e'
  | ONum x, ONum y =>
      match x, y with
      | B754_zero s, B754_zero s' | B754_infinity s, B754_infinity s' => Bool.eqb s s'
      | B754_nan, B754_nan => true
      | _, _ => false
      end
  | _, _ => false
  end.
Lemma out_is_eq : forall o o', out_is o o' = true -> o = o'.
Proof.
  intros o o' H. destruct o as [| | |x|b|e], o' as [| | |y|b'|e']; cbn [out_is] in H; try discriminate H; auto.
  - destruct x, y; try discriminate H; try apply eqb_prop in H; subst; reflexivity.
  - apply eqb_prop in H. now subst.
  - unfold exn_eqb in H. match type of H with (if ?c then _ else _) = _ => destruct c end; [now subst|discriminate].
Qed.
Lemma reads_is : forall n (st : state FN) ins o, out_is (snd (step n st ins)) o = true ->
  o <> OExn EFuel -> reads st ins o.
Proof. intros n st ins o H. apply out_is_eq in H. now apply (reads_step n). Qed.
Ltac run_big := apply (reads_is 40); [vm_cast_no_check (eq_refl true)|discriminate].
Ltac reach := apply after_runs; vm_cast_no_check (eq_refl true).
Ltac numb := apply has_uf_at; vm_cast_no_check (eq_refl true).

(** C10: a calculated number is not equal to itself, until something reads its uncertainty. *)
Lemma f_not_reflexive : exists u, reachable (after tenths) /\ is_number (after tenths) 8 u /\
  reads (after tenths) (ICmp Ceq 8 8) (OBool false) /\
  exists st' x, does (after tenths) (IStd 8) st' (ONum x) /\ reads st' (ICmp Ceq 8 8) (OBool true).
Proof.
  eexists. split; [reach|]. split; [numb|]. split; [run_big|].
  destruct (does_num 40 (after tenths) (IStd 8)) as (x & D); [vm_cast_no_check (eq_refl true)|].
  exists (fst (step 40 (after tenths) (IStd 8))), x. split; [exact D|run_big].
Qed.

(** C10: infinite standard deviation, infinite or NaN nominal value. *)
Definition infs : list (instr FN) :=
  [INew (fl 1 0) (PF (N:=FN) (finf false)) None; INew (PF (N:=FN) (finf false)) (fl 1 0) None;
   INew (PF (N:=FN) fnan) (fl 1 0) None].
Lemma f_infinite_not_equal : exists u1 u2 u3, reachable (after infs) /\ is_number (after infs) 0 u1 /\
  is_number (after infs) 1 u2 /\ is_number (after infs) 2 u3 /\
  reads (after infs) (ICmp Ceq 0 0) (OBool false) /\ reads (after infs) (ICmp Ceq 1 1) (OBool false) /\
  reads (after infs) (ICmp Ceq 2 2) (OBool false).
Proof.
  eexists _, _, _. split; [reach|]. repeat (split; [numb|]).
  repeat split; run_big.
Qed.

(** C13: equal variables of zero standard deviation with different hashes. *)
Definition twins : list (instr FN) := [INew (fl 1 0) (fl 0 0) None; INew (fl 1 0) (fl 0 0) None].
Lemma f_hash : exists u u', reachable (after twins) /\ is_number (after twins) 0 u /\
  is_number (after twins) 1 u' /\ reads (after twins) (ICmp Ceq 0 1) (OBool true) /\
  py_hash u <> py_hash u'.
Proof.
  eexists _, _. split; [reach|]. repeat (split; [numb|]). split; [run_big|].
  vm_compute. discriminate.
Qed.

(** C16, C10: 1e-200 squared is 0: x.std_dev = 1e-200 and x.s = 0; x + 0 == 1. *)
Definition tiny : list (instr FN) :=
  [INew (fl 1 0) (fl 1 (-660)) None; IConst (PZ 0); IBin Badd 0 1; IConst (PZ 1)].
Lemma f_tiny : exists x, reachable (after tiny) /\ reads (after tiny) (IStd 0) (ONum (N:=FN) x) /\
  Bltb f0 x = true /\ reads (after tiny) (IStdS 0) (ONum (N:=FN) f0) /\
  reads (after tiny) (IStd 2) (ONum (N:=FN) f0) /\ reads (after tiny) (ICmp Ceq 2 3) (OBool true).
Proof.
  exists (fnorm 1 (-660)). split; [reach|]. split; [apply (reads_step 40); [reflexivity|discriminate]|].
  split; [reflexivity|]. repeat split; run_big.
Qed.

(** C05: finite variables whose derived quantities cannot be read: OverflowError. *)
Definition huge : list (instr FN) :=
  [INew (fl 1 0) (fl 1 660) None; IConst (PZ 0); IBin Badd 0 1; INew (fl 1 (-1000)) (fl 1 (-1000)) None; ILdexp 3 1500].
Lemma f_huge : exists u u', reachable (after huge) /\ is_number (after huge) 2 u /\ is_number (after huge) 4 u' /\
  reads (after huge) (IStd 2) (OExn EOverflow) /\ reads (after huge) (IStd 4) (OExn EOverflow) /\
  reads (after huge) (IDeriv 4) (OExn EOverflow).
Proof.
  eexists _, _. split; [reach|]. repeat (split; [numb|]). repeat split; run_big.
Qed.

(** C54: x / y raises although the division of the nominal values does not. *)
Definition quotients : list (instr FN) :=
  [INew (fl 1 0) (fl 1 0) None; INew (fl 1 (-660)) (fl 1 0) None; INew (fl 1 660) (fl 1 0) None].
Lemma f_quotients : reachable (after quotients) /\
  (exists z, f_div (fnorm 1 0) (fnorm 1 (-660)) = Ok z /\ is_finite z = true) /\
  reads (after quotients) (IBin Btruediv 0 1) (OExn EZeroDiv) /\
  (exists z, f_div (fnorm 1 0) (fnorm 1 660) = Ok z /\ is_finite z = true) /\
  reads (after quotients) (IBin Btruediv 0 2) (OExn EOverflow).
Proof.
  split; [reach|]. split; [eexists; split; [reflexivity|vm_cast_no_check (eq_refl true)]|]. split; [run_big|].
  split; [eexists; split; [reflexivity|vm_cast_no_check (eq_refl true)]|]. run_big.
Qed.

(** C09: minus infinity and NaN are accepted as standard deviations. *)
Lemma f_minus_infinity : exists st', does (init (N:=FN)) (INew (fl 1 0) (PF (N:=FN) (finf true)) None) st' ONone /\
  reads st' (IStd 0) (ONum (N:=FN) (finf true)).
Proof.
  eexists. split; [apply (does_step 40); [reflexivity|discriminate]|]. run_big.
Qed.

(** C57: 5 % x raises TypeError. *)
Definition mods : list (instr FN) :=
  [INew (fl 3 0) (fl 1 0) None; IConst (PZ 5); IConst (fl 5 0)].
Lemma f_int_mod : exists u, reachable (after mods) /\ is_number (after mods) 0 u /\
  reads (after mods) (IBin Bmod 1 0) (OExn EType) /\ reads (after mods) (IBin Bmod 2 0) ONone.
Proof.
  eexists. split; [reach|]. split; [numb|]. repeat split; run_big.
Qed.

(** C24: x**0.5 at 0 +/- 0, and sqrt at 0. *)
Definition roots : list (instr FN) :=
  [INew (fl 0 0) (fl 1 0) None; INew (fl 0 0) (fl 0 0) None; IConst (fl 1 (-1)); IBin Bpow 0 2; IBin Bpow 1 2;
   ICall (m1_fun F_sqrt) (m1_pos F_sqrt) (m1_kw F_sqrt) [0%nat] [];
   ICall (m1_fun F_sqrt) (m1_pos F_sqrt) (m1_kw F_sqrt) [1%nat] []].
Lemma f_roots : reachable (after roots) /\
  reads (after roots) (IStd 3) (ONum (N:=FN) fnan) /\ reads (after roots) (IStd 4) (ONum (N:=FN) f0) /\
  reads (after roots) (IStd 5) (ONum (N:=FN) fnan) /\ reads (after roots) (IStd 6) (ONum (N:=FN) f0).
Proof. split; [reach|]. repeat split; run_big. Qed.

(** C18: the variance of x**0.5 at 0 +/- 0 is NaN in the covariance matrix. *)
Definition mat_nan (r : res (matrix FN)) : bool :=
  match r with Ok [[B754_nan]] => true | _ => false end.
Lemma mat_nan_eq : forall r, mat_nan r = true -> r = Ok [[fnan]].
Proof.
  intros [[|[|[] []] []]|]; cbn; intros H; try discriminate H; reflexivity.
Qed.
Lemma f_cov_nan : exists u st', reachable (after roots) /\ is_number (after roots) 4 u /\
  reads (after roots) (IStd 4) (ONum (N:=FN) f0) /\
  covariance (fun l => l) (after roots) [4%nat] (Ok [[fnan]]) st'.
Proof.
  do 2 eexists. split; [reach|]. split; [numb|]. split; [run_big|].
  apply (covariance_step 40 (fun l => l) (after roots) [4%nat] [VUF (uf_at (after roots) 4)]).
  - assert (H : is_number (after roots) 4 (uf_at (after roots) 4)) by numb.
    unfold is_number in H. cbn [get_args]. rewrite H. reflexivity.
  - apply mat_nan_eq. vm_cast_no_check (eq_refl true).
  - discriminate.
Qed.

Lemma ok_outs : forall (l : list (instr FN)) (os : list (out FN)), length os = length l ->
  forallb (fun o => negb (is_exn o)) os = true ->
  Forall2 (fun ins o => defines ins = true -> is_exn o = false) l os.
Proof.
  induction l as [|i l IH]; intros [|o os] L H; try discriminate L; constructor.
  - intros _. simpl in H. apply andb_prop in H. destruct H as [H _]. now destruct (is_exn o).
  - apply IH; [simpl in L; congruence|]. simpl in H. now apply andb_prop in H.
Qed.
Lemma ex_C01 : forallb simple tenths = true /\ defined_ok tenths (snd (run 40 init tenths)).
Proof.
  split; [reflexivity|]. unfold defined_ok.
  assert (H : length (snd (run 40 init tenths)) = 9%nat /\ forallb (fun o => negb (is_exn o)) (snd (run 40 init tenths)) = true)
    by (split; [vm_cast_no_check (eq_refl 9%nat)|vm_cast_no_check (eq_refl true)]).
  destruct H as [L H]. change 9%nat with (length tenths) in L. apply ok_outs; assumption.
Qed.
