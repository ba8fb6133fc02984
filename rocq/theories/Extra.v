(** Functions of umath; arrays built from tuples; correlations with numbers without uncertainty. *)
From Coq Require Import String ZArith List Bool Lia.
From Flocq Require Import Core BinarySingleNaN.
From Verif Require Import Base Heap Affine Machine History Cov Unumpy UnumpySpec NumF FRefute Fuel VecProofs UarrProofs.
Import ListNotations.

(** ** umath has the functions of the math module *)
Section Names.
Local Open Scope string_scope.
(** Functions of real numbers in the math module (Python 3.2 and later). *)
Definition circular : list string := ["cos"; "sin"; "tan"].
Definition real_functions : list string :=
  circular ++ map (fun s => "a" ++ s) circular ++ map (fun s => s ++ "h") circular ++ map (fun s => "a" ++ s ++ "h") circular ++
  ["atan2"; "hypot"; "degrees"; "radians"] ++ ["exp"; "expm1"; "log"; "log10"; "log1p"; "pow"; "sqrt"] ++
  ["erf"; "erfc"; "gamma"; "lgamma"] ++ ["copysign"; "fabs"; "fmod"; "fsum"; "modf"; "frexp"; "ldexp"] ++
  ["ceil"; "floor"; "trunc"; "isinf"; "isnan"; "factorial"].
Theorem umath_complete : forall dir_math s,
  In s (umath_all dir_math) <-> In s real_functions /\ (In s dir_math \/ In s ["modf"; "ldexp"; "factorial"; "fsum"; "frexp"]).
Proof.
  intros dm s. unfold umath_all, umath_names. rewrite !in_app_iff, filter_In, !orb_true_iff, !str_in_In.
  assert (A : forall l, (forall x, In x l -> In x real_functions) -> In s l -> In s real_functions) by auto.
  assert (C : forall l l', forallb (fun x => str_in x l') l = true -> forall x, In x l -> In x l').
  { intros l l' H x I. rewrite forallb_forall in H. apply str_in_In. auto. }
  split.
  - intros [[(H1 & H2)|H]|H].
    + split; [|auto]. destruct H2 as [[H2|H2]|H2]; [apply (C fixed_names real_functions eq_refl s H2)|apply (C num_deriv_names real_functions eq_refl s H2)|apply (C cst_names real_functions eq_refl s H2)].
    + split; [apply (C ["modf"; "ldexp"] real_functions eq_refl s H)|]. right. apply (C ["modf"; "ldexp"] ["modf"; "ldexp"; "factorial"; "fsum"; "frexp"] eq_refl s H).
    + split; [apply (C non_std_names real_functions eq_refl s H)|]. right. apply (C non_std_names ["modf"; "ldexp"; "factorial"; "fsum"; "frexp"] eq_refl s H).
  - intros (H1 & [H2|H2]).
    + apply (C real_functions (fixed_names ++ num_deriv_names ++ cst_names ++ ["modf"; "ldexp"] ++ non_std_names)%list eq_refl s) in H1.
      rewrite !in_app_iff in H1. tauto.
    + apply (C ["modf"; "ldexp"; "factorial"; "fsum"; "frexp"] (["modf"; "ldexp"] ++ non_std_names)%list eq_refl s) in H2. rewrite in_app_iff in H2. tauto.
Qed.
Lemma ex_umath_complete : In "gamma" (umath_all ["gamma"; "gcd"]) /\ ~ In "gcd" (umath_all ["gamma"; "gcd"]).
Proof. split; [vm_compute; tauto|]. intros H. apply umath_complete in H. destruct H as (H & _). vm_compute in H. repeat (destruct H as [H|H]; [discriminate H|]). exact H. Qed.
End Names.

(** ** uarray((a, b, ...), s) *)
Section Tuples.
Variable N : NumOps.
Implicit Types a b A : arr (pynum N).
Lemma flat_length : forall (l : list (arr (pynum N))) sh, List.Forall (fun b => wf_arr b /\ a_shape b = sh) l ->
  List.length (flat_map a_flat l) = List.length l * count sh.
Proof.
  intros l sh F. induction F as [|b l (W & S) F IH]; [reflexivity|]. cbn [flat_map]. rewrite app_length, IH. unfold wf_arr in W. rewrite W, S. reflexivity.
Qed.
Lemma flat_elem : forall (l : list (arr (pynum N))) sh k b j, List.Forall (fun b => wf_arr b /\ a_shape b = sh) l -> nth_error l k = Some b ->
  j < count sh -> nth_error (flat_map a_flat l) (k * count sh + j) = nth_error (a_flat b) j.
Proof.
  induction l as [|c l IH]; intros sh k b j F K J; [destruct k; discriminate K|]. inversion F as [|? ? (W & S) F']; subst. unfold wf_arr in W. cbn [flat_map].
  destruct k as [|k]; cbn [nth_error] in K.
  - injection K as ->. rewrite Nat.mul_0_l, Nat.add_0_l. apply nth_error_app1. lia.
  - rewrite nth_error_app2 by lia. replace (S k * count (a_shape c) + j - List.length (a_flat c)) with (k * count (a_shape c) + j) by lia. apply IH; assumption.
Qed.
Lemma rank_lt : forall sh idx, valid sh idx -> rank sh idx < count sh.
Proof.
  induction sh as [|n sh IH]; intros idx V; inversion V as [|i ? idx' ? L V']; subst; [cbn; lia|]. specialize (IH idx' V'). cbn [rank count]. nia.
Qed.
Theorem uarray_tuple : forall (l : list (arr (pynum N))) sh A s h, l <> [] -> List.Forall (fun b => wf_arr b /\ a_shape b = sh) l ->
  wf_arr A -> a_cls A = ANd -> a_shape A = List.length l :: sh ->
  (forall k b idx, nth_error l k = Some b -> valid sh idx -> elem A (k :: idx) = elem b idx) ->
  uarray (UTuple l) (Some s) h = uarray (UArr A) (Some s) h /\ uarray s (Some (UTuple l)) h = uarray s (Some (UArr A)) h.
Proof.
  intros l sh A s h Nl F W Cl Sh El.
  assert (E : stack_tuple (UTuple l) = Ok A).
  { destruct l as [|a l]; [contradiction|]. assert (F0 := F). inversion F as [|? ? (Wa & Sa) F']; subst. unfold stack_tuple.
    assert (Al : forallb (fun b => if list_eq_dec Nat.eq_dec (a_shape b) (a_shape a) then true else false) l = true).
    { apply forallb_forall. intros b I. rewrite List.Forall_forall in F'. destruct (F' b I) as (_ & Sb). rewrite Sb. destruct (list_eq_dec _ _ _); [reflexivity|contradiction]. }
    rewrite Al. f_equal. set (B := mkArr ANd (List.length (a :: l) :: a_shape a) (flat_map a_flat (a :: l))).
    assert (WB : wf_arr B). { unfold wf_arr, B. cbn [a_flat a_shape]. rewrite (flat_length _ _ F0). reflexivity. }
    assert (Fl : a_flat A = a_flat B).
    { apply flat_ext; [exact W|exact WB|rewrite Sh; reflexivity|]. intros idx V. rewrite Sh in V. inversion V as [|k ? idx' ? L V']; subst.
      destruct (nth_error (a :: l) k) as [b|] eqn:K; [|apply nth_error_None in K; exfalso; apply (Nat.lt_irrefl k), (Nat.lt_le_trans _ _ _ L K)]. rewrite (El k b idx' K V').
      rewrite List.Forall_forall in F0. destruct (F0 b (nth_error_In _ _ K)) as (_ & Sb). unfold elem. rewrite Sb. cbn [B a_shape a_flat rank].
      symmetry. apply flat_elem; [apply List.Forall_forall; exact F0|exact K|apply rank_lt; exact V']. }
    destruct A as [ca sa fa]. cbn [a_cls a_shape a_flat] in *. subst. reflexivity. }
  unfold uarray. unfold bind, lift. cbn [fst snd]. rewrite E. split; reflexivity.
Qed.
(** Elements of different shapes. *)
(** uarray((), ()): an empty array of one dimension, without any new variable. *)
Theorem uarray_empty : forall h, uarray (N:=N) (UTuple []) (Some (UTuple [])) h = (Ok (mkArr ANd [0] []), h).
Proof. reflexivity. Qed.
Theorem uarray_ragged : forall a b (l : list (arr (pynum N))) s h, In b l -> a_shape b <> a_shape a ->
  uarray (UTuple (a :: l)) (Some s) h = (Err EValue, h) /\
  (forall n, uarray (UArr n) (Some (UTuple (a :: l))) h = (Err EValue, h)).
Proof.
  intros a b l s h I D.
  assert (E : stack_tuple (UTuple (a :: l)) = Err EValue).
  { unfold stack_tuple. destruct (forallb _ l) eqn:F; [|reflexivity]. exfalso. rewrite forallb_forall in F. specialize (F b I).
    destruct (list_eq_dec Nat.eq_dec (a_shape b) (a_shape a)); [contradiction|discriminate F]. }
  unfold uarray, bind, lift. cbn [fst snd]. rewrite E. split; reflexivity.
Qed.

End Tuples.


(** ** Correlations with a number whose variance is zero *)
Section Zero.
Variable lm : Libm.
Notation FN := (FOps lm).
Lemma rmapM_total : forall A B (f : A -> res B) l, (forall x, In x l -> exists y, f x = Ok y) ->
  exists r, rmapM f l = Ok r /\ forall k x, nth_error l k = Some x -> exists y, f x = Ok y /\ nth_error r k = Some y.
Proof.
  intros A B f l. induction l as [|a l IH]; intros H.
  - exists []. split; [reflexivity|]. intros k x K. destruct k; discriminate K.
  - destruct (H a (or_introl eq_refl)) as (b & Eb). destruct IH as (r & Er & Hr); [intros x I; apply H; right; exact I|].
    exists (b :: r). cbn [rmapM]. rewrite Eb. cbn [rbind]. rewrite Er. split; [reflexivity|]. intros [|k] x K; cbn [nth_error] in *; [injection K as <-; exists b; auto|apply Hr; exact K].
Qed.
Lemma np_sqrt_ok : forall x : f64, exists y : f64, np_sqrt (N:=FN) x = Ok y /\ (Beqb x f0 = true -> Beqb y f0 = true).
Proof.
  intros x. unfold np_sqrt. change (n_lt FN x (n_zero FN)) with (Bltb x f0). destruct (Bltb x f0) eqn:L.
  - exists fnan. split; [reflexivity|]. intros Z. exfalso. destruct x as [[]|[]| |[]]; discriminate.
  - change (n_fun1 FN F_sqrt x) with (f_sqrt x). unfold f_sqrt. rewrite L. exists (Bsqrt mode_NE x). split; [reflexivity|].
    intros Z. destruct x as [[]|[]| |[]]; try discriminate Z; reflexivity.
Qed.
Lemma div_zero : forall x y : f64, Beqb y f0 = true -> is_finite (fdiv x y) = false /\ (Beqb x f0 = true -> is_nanf (fdiv x y) = true).
Proof. intros x y Hy. destruct y as [[]|[]| |[]]; try discriminate Hy; destruct x as [[]|[]| |[]]; split; intros; try discriminate; reflexivity. Qed.
Lemma div_special : forall x y : f64, is_finite x = false -> is_finite (fdiv x y) = false /\ (is_nanf x = true -> is_nanf (fdiv x y) = true).
Proof. intros x y Hx. destruct x as [[]|[]| |[]]; try discriminate Hx; destruct y as [[]|[]| |[]]; split; intros; try discriminate; reflexivity. Qed.
Lemma zero_div : forall x y : f64, Beqb x f0 = true -> Beqb (fdiv x y) f0 = true \/ is_nanf (fdiv x y) = true.
Proof. intros x y Hx. destruct x as [[]|[]| |[]]; try discriminate Hx; destruct y as [[]|[]| |[]]; auto. Qed.
(** The matrix is always calculated; in rows and columns of numbers whose variance is zero, the
    entries are NaN if the covariance is zero, and NaN or infinite otherwise. *)
Theorem correlation_zero : forall order (st st' : state FN) is m, covariance order st is (Ok m) st' ->
  exists c, correlation order st is (Ok c) st' /\
    forall a b, a < List.length m -> b < List.length m -> Beqb (entry m a a : f64) f0 = true ->
      is_finite (entry c a b : f64) = false /\ is_finite (entry c b a : f64) = false /\
      (Beqb (entry m a b : f64) f0 = true -> is_nanf (entry c a b) = true) /\ (Beqb (entry m b a : f64) f0 = true -> is_nanf (entry c b a) = true).
Proof.
  intros order st st' is m (l & k & G & E & H).
  destruct (rmapM_total _ _ (np_sqrt (N:=FN)) (diagonal m)) as (s & Es & Hs).
  { intros x _. destruct (np_sqrt_ok x) as (y & Y & _). exists y. exact Y. }
  set (row := fun i => rmapM (fun j => rbind (np_div (N:=FN) (entry m i j) (nth j s (n_zero FN))) (fun q => np_div (N:=FN) q (nth i s (n_zero FN)))) (seq 0 (List.length m))).
  assert (Row : forall i, exists r, row i = Ok r /\ forall j, j < List.length m -> nth_error r j = Some (fdiv (fdiv (entry m i j) (nth j s f0)) (nth i s f0))).
  { intros i. unfold row.
    destruct (rmapM_total _ _ (fun j => rbind (np_div (N:=FN) (entry m i j) (nth j s (n_zero FN))) (fun q => np_div (N:=FN) q (nth i s (n_zero FN)))) (seq 0 (List.length m))) as (r & Er & Hr).
    - intros j _. eexists. reflexivity.
    - exists r. split; [exact Er|]. intros j Hj. destruct (Hr j j) as (z & Z1 & Z2); [rewrite (nth_error_nth' _ 0) by (rewrite seq_length; exact Hj); rewrite seq_nth by exact Hj; reflexivity|].
      assert (Y : Ok (fdiv (fdiv (entry m i j) (nth j s f0)) (nth i s f0)) = Ok z) by exact Z1. injection Y as Y. rewrite Z2, <- Y. reflexivity. }
  destruct (rmapM_total _ _ row (seq 0 (List.length m))) as (c & Ec & Hc).
  { intros i _. destruct (Row i) as (r & R & _). exists r. exact R. }
  assert (En : normalize (N:=FN) m s = Ok c) by exact Ec.
  exists c. split.
  { exists l, k. split; [exact G|]. split; [exact E|]. intros fuel Hf. unfold correlation_matrix, bind. rewrite (H fuel Hf). unfold lift. rewrite Es. cbn [rbind]. rewrite En. reflexivity. }
  assert (Ent : forall i j, i < List.length m -> j < List.length m -> entry c i j = fdiv (fdiv (entry m i j) (nth j s f0)) (nth i s f0)).
  { intros i j Hi Hj. destruct (Hc i i) as (r & R1 & R2); [rewrite (nth_error_nth' _ 0) by (rewrite seq_length; exact Hi); rewrite seq_nth by exact Hi; reflexivity|].
    destruct (Row i) as (r' & R1' & Hr). assert (r' = r) by congruence. subst r'.
    unfold entry at 1. rewrite (nth_error_nth _ _ _ R2). rewrite (nth_error_nth _ _ _ (Hr j Hj)). reflexivity. }
  intros a b Ha Hb Z0.
  assert (Sa : Beqb (nth a s (n_zero FN) : f64) f0 = true).
  { destruct (Hs a (entry m a a)) as (y & Y1 & Y2).
    { unfold diagonal. rewrite nth_error_map. rewrite (nth_error_nth' _ 0) by (rewrite seq_length; exact Ha). rewrite seq_nth by exact Ha. reflexivity. }
    rewrite (nth_error_nth _ _ _ Y2). destruct (np_sqrt_ok (entry m a a)) as (y' & Y3 & Y4). assert (y' = y) by congruence. subst y'. apply Y4. exact Z0. }
  rewrite !Ent by assumption.
  change (Beqb (nth a s f0) f0 = true) in Sa.
  split; [apply div_zero; exact Sa|]. split; [apply div_special, div_zero; exact Sa|]. split.
  - intros Zab. destruct (zero_div (entry m a b) (nth b s f0) Zab) as [Q|Q]; [apply div_zero; assumption|]. apply div_special; [|exact Q]. destruct (fdiv _ _); try discriminate Q; reflexivity.
  - intros Zba. apply div_special; apply div_zero; assumption.
Qed.
End Zero.

(** ** uarray(([1, 2], [3, 4]), 1) and uarray(([1, 2], [3]), 1); correlations of ufloat(1, 0) and ufloat(2, 1) *)
Section Examples.
Variable N : NumOps.
Definition row (l : list Z) : arr (pynum N) := mkArr ANd [List.length l] (map PZ l).
Definition two_rows : arr (pynum N) := mkArr ANd [2; 2] (map PZ [1; 2; 3; 4]%Z).
Lemma ex_uarray_tuple : [row [1; 2]%Z; row [3; 4]%Z] <> [] /\ List.Forall (fun b => wf_arr b /\ a_shape b = [2]) [row [1; 2]%Z; row [3; 4]%Z] /\
  wf_arr two_rows /\ a_cls two_rows = ANd /\ a_shape two_rows = List.length [row [1; 2]%Z; row [3; 4]%Z] :: [2] /\
  (forall k b idx, nth_error [row [1; 2]%Z; row [3; 4]%Z] k = Some b -> valid [2] idx -> elem two_rows (k :: idx) = elem b idx).
Proof.
  split; [discriminate|]. split; [repeat constructor|]. split; [reflexivity|]. split; [reflexivity|]. split; [reflexivity|].
  intros k b idx K V. inversion V as [|i ? idx' ? L V']; subst. inversion V'; subst.
  destruct k as [|[|k]]; cbn [nth_error] in K; [| |destruct k; discriminate K]; injection K as <-; destruct i as [|[|i]]; try lia; reflexivity.
Qed.
Lemma ex_uarray_ragged : In (row [3]%Z) [row [3]%Z] /\ a_shape (row [3]%Z) <> a_shape (row [1; 2]%Z).
Proof. split; [left; reflexivity|discriminate]. Qed.
End Examples.
Arguments row {N}.
Arguments two_rows {N}.
Definition zero_one : list (instr FN) := [INew (fl 1 0) (fl 0 0) None; INew (fl 2 0) (fl 1 0) None].
Definition zo := after zero_one.
Definition zo_check : bool :=
  match get_args (st_env zo) [0; 1] with
  | Some l =>
      match covariance_matrix (fun l => l) 40 l (st_heap zo) with
      | (Ok m, _) => Nat.eqb (List.length m) 2 && Beqb (entry m 0 0 : f64) f0 && Beqb (entry m 1 1 : f64) fone
      | _ => false
      end
  | None => false
  end.
Lemma ex_correlation_zero : exists st' m, covariance (fun l => l) zo [0; 1] (Ok m) st' /\ List.length m = 2 /\ Beqb (entry m 0 0 : f64) f0 = true /\ Beqb (entry m 1 1 : f64) fone = true.
Proof.
  assert (C : zo_check = true) by (vm_compute; reflexivity). unfold zo_check in C. destruct (get_args (st_env zo) [0; 1]) as [l|] eqn:G; [|discriminate C].
  destruct (covariance_matrix (fun l => l) 40 l (st_heap zo)) as [[m|e] h'] eqn:E; [|discriminate C]. rewrite !andb_true_iff in C. destruct C as ((C1 & C2) & C3). apply Nat.eqb_eq in C1.
  exists (mkState h' (st_env zo)), m. split; [|auto]. exists l, 40. split; [exact G|]. split; [reflexivity|]. intros fuel Hf.
  replace fuel with (40 + (fuel - 40)) by lia. rewrite (fm_cov (N:=FN) (fun l => l) l 40 (fuel - 40) (st_heap zo)); [exact E|]. rewrite E. discriminate.
Qed.
(** The variance of x*2.**-560 underflows for x = ufloat(1, 1), its covariance with x does not. *)
Definition tiny : list (instr FN) := [INew (fl 1 0) (fl 1 0) None; IConst (fl 1 (-560)); IBin Ops.Bmul 0 1].
Definition tn := after tiny.
Definition tn_check : bool :=
  match get_args (st_env tn) [0; 2] with
  | Some l =>
      match correlation_matrix (fun l => l) 40 l (st_heap tn) with
      | (Ok c, _) => is_inf (entry c 0 1 : f64) && is_inf (entry c 1 0 : f64) && is_nanf (entry c 1 1 : f64) && Beqb (entry c 0 0 : f64) fone
      | _ => false
      end
  | None => false
  end.
Lemma ex_correlation_infinite : exists st' c, correlation (fun l => l) tn [0; 2] (Ok c) st' /\
  is_inf (entry c 0 1 : f64) = true /\ is_inf (entry c 1 0 : f64) = true /\ is_nanf (entry c 1 1 : f64) = true /\ Beqb (entry c 0 0 : f64) fone = true.
Proof.
  assert (C : tn_check = true) by (vm_compute; reflexivity). unfold tn_check in C. destruct (get_args (st_env tn) [0; 2]) as [l|] eqn:G; [|discriminate C].
  destruct (correlation_matrix (fun l => l) 40 l (st_heap tn)) as [[c|e] h'] eqn:E; [|discriminate C]. rewrite !andb_true_iff in C. destruct C as (((C1 & C2) & C3) & C4).
  exists (mkState h' (st_env tn)), c. split; [|auto]. exists l, 40. split; [exact G|]. split; [reflexivity|]. intros fuel Hf.
  unfold correlation_matrix, bind in E |- *.
  destruct (covariance_matrix (fun l => l) 40 l (st_heap tn)) as [[m|e] h1] eqn:E1; [|discriminate E].
  replace fuel with (40 + (fuel - 40)) by lia. rewrite (fm_cov (N:=FN) (fun l => l) l 40 (fuel - 40) (st_heap tn)); [|rewrite E1; discriminate]. rewrite E1. exact E.
Qed.
