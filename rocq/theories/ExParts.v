(** Error components and uncertainties in binary64. *)
From Coq Require Import ZArith List Bool Lia Reals Lra.
From Flocq Require Import Core BinarySingleNaN.
From Verif Require Import Base NumF Heap HeapSpec Affine Ops UMath Machine Cov Calls Unumpy UMatrix History Fuel FRefute ExGen DepSpec TwinSpec StaySpec BiggerSpec Bigger BiggerLater ExBigger Parts.
Import ListNotations.

Lemma errs_and_number : forall (f : varid -> f64 -> f64 -> bool) (o o' : out FN),
  match o, o' with OErrs ((v, PF c) :: _), ONum s => negb (is_nanf (s : f64)) && f v c s | _, _ => false end = true ->
  exists e v (c s : f64), o = OErrs e /\ o' = ONum (N:=FN) s /\ is_nanf s = false /\ In (v, PF (c : num FN)) e /\ f v c s = true.
Proof.
  intros f o o' Y. destruct o as [| |e| | |]; try discriminate Y. destruct e as [|[v [z|c]] e]; try discriminate Y. destruct o' as [| | |s| |]; try discriminate Y.
  apply andb_prop in Y as (N & F). exists ((v, PF c) :: e), v, c, s. split; [reflexivity|]. split; [reflexivity|]. split; [now apply negb_true_iff|]. split; [now left|exact F].
Qed.
(** 2**-4 *)
Definition sixteenth : f64 := @B754_finite 53 1024 false 4503599627370496 (-56) eq_refl.
Lemma sixteenth_real : B2R sixteenth = (/ 16)%R.
Proof. unfold sixteenth, B2R, F2R. cbn. lra. Qed.
(** z = x*y of C82_example; the first component is between 2**-4 and 1, and z.std_dev is larger. *)
Lemma ex_parts : exact_squares lm0 /\ is_number b3 2 (uf_at b3 2) /\ uf_var (uf_at b3 2) = None /\
  exists e v (c s : f64), reads b3 (IErrs 2) (OErrs e) /\ reads b3 (IStd 2) (ONum (N:=FN) s) /\ is_nanf s = false /\ In (v, PF (c : num FN)) e /\ (/ 2 ^ 500 <= B2R c <= 2 ^ 500)%R /\ Bltb c s = true.
Proof.
  split; [exact lm0_squares|]. split; [numb|]. split; [vm_compute; reflexivity|].
  destruct (errs_and_number (fun v c s => is_finite c && Bleb (sixteenth) c && Bleb c fone && Bltb c s) (snd (step 40 b3 (IErrs 2))) (snd (step 40 b3 (IStd 2)))) as (e & v & c & s & E & E' & N & I & F); [vm_cast_no_check (eq_refl true)|].
  exists e, v, c, s. split; [exact (reads_step 40 _ _ _ E ltac:(discriminate))|]. split; [exact (reads_step 40 _ _ _ E' ltac:(discriminate))|]. split; [exact N|]. split; [exact I|].
  apply andb_prop in F as (F & L). apply andb_prop in F as (F & B). apply andb_prop in F as (Fc & A). split; [|exact L].
  apply (le_fin (sixteenth) c eq_refl Fc) in A. apply (le_fin c fone Fc eq_refl) in B. rewrite one_real in B.
  rewrite sixteenth_real in A.
  assert (P4 : (2 ^ 4 <= 2 ^ 500)%R) by (apply Rle_pow; [lra|lia]). assert (P : (0 < 2 ^ 4)%R) by (apply pow_lt; lra).
  assert (Q : (/ 2 ^ 500 <= / 2 ^ 4)%R) by (apply Rinv_le; assumption). replace (2 ^ 4)%R with 16%R in * by (cbn; lra). lra.
Qed.
(** y = x + x with x = ufloat(1, 2**-600): the square of the component underflows. *)
Definition tiny_sum : state FN := after [INew (fl 1 0) (fl 1 (-600)) None; IBin Badd 0 0].
Lemma parts_refuted : reachable tiny_sum /\ is_number tiny_sum 1 (uf_at tiny_sum 1) /\
  exists e v (c s : f64), reads tiny_sum (IErrs 1) (OErrs e) /\ reads tiny_sum (IStd 1) (ONum (N:=FN) s) /\ is_nanf s = false /\ In (v, PF (c : num FN)) e /\ Bltb s c = true.
Proof.
  split; [unfold tiny_sum; reach|]. split; [numb|].
  destruct (errs_and_number (fun v c s => Bltb s c) (snd (step 40 tiny_sum (IErrs 1))) (snd (step 40 tiny_sum (IStd 1)))) as (e & v & c & s & E & E' & N & I & F); [vm_cast_no_check (eq_refl true)|].
  exists e, v, c, s. split; [exact (reads_step 40 _ _ _ E ltac:(discriminate))|]. split; [exact (reads_step 40 _ _ _ E' ltac:(discriminate))|]. split; [exact N|]. split; [exact I|exact F].
Qed.
