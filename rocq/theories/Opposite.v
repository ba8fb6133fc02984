(** -x, +x and abs(x) have exactly the uncertainty of x, in binary64. *)
From Coq Require Import ZArith List Bool Arith Lia Reals Lra Relations.
From Flocq Require Import Core BinarySingleNaN.
From Verif Require Import Base NumF Heap HeapSpec Affine Ops UMath Machine Cov Copy Calls Unumpy UMatrix History FFacts AnySpec AnyArith DepSpec TwinSpec StaySpec Stay BiggerSpec Bigger.
Import ListNotations.

Lemma one_form : fone = @B754_finite 53 1024 false 4503599627370496 (-52) eq_refl.
Proof. apply B2SF_inj. vm_compute. reflexivity. Qed.
Lemma fone_fin : is_finite fone = true. Proof. rewrite one_form. reflexivity. Qed.
Lemma sign_one : Bsign fone = false. Proof. rewrite one_form. reflexivity. Qed.

Lemma inf_of : forall (r : f64) b, B2SF r = SpecFloat.S754_infinity b -> Babs r = B754_infinity false.
Proof. intros [] b H; try discriminate H. reflexivity. Qed.
Lemma int_one : f_of_Z 1 = Ok fone. Proof. reflexivity. Qed.
Lemma int_minus_one : f_of_Z (-1) = Ok (fneg fone).
Proof. assert (E : fnorm (-1) 0 = fneg fone) by (apply B2SF_inj; vm_compute; reflexivity). unfold f_of_Z. rewrite E, one_form. reflexivity. Qed.
(** Products of opposite factors *)
Lemma mul_opp : forall x s : f64, fabs (fmul (fneg x) s) = fabs (fmul x s).
Proof.
  intros x s. destruct x as [sx|sx| |sx mx ex bx]; destruct s as [ss|ss| |ss ms es bs]; try reflexivity.
  set (x := B754_finite sx mx ex bx). set (s := B754_finite ss ms es bs).
  assert (C := Bmult_correct 53 1024 _ _ mode_NE x s). assert (C' := Bmult_correct 53 1024 _ _ mode_NE (fneg x) s).
  assert (E : B2R (fneg x) = (- B2R x)%R) by (unfold fneg; apply B2R_Bopp). rewrite E in C'.
  replace (- B2R x * B2R s)%R with (- (B2R x * B2R s))%R in C' by ring. cbn [round_mode] in C, C'. rewrite round_NE_opp, Rabs_Ropp in C'.
  unfold fabs, fmul. destruct (Rlt_bool _ _).
  - destruct C as (R & F & _). destruct C' as (R' & F' & _). apply B2R_Bsign_inj.
    + rewrite is_finite_Babs, F'. reflexivity.
    + rewrite is_finite_Babs, F. reflexivity.
    + rewrite !B2R_Babs, R, R'. apply Rabs_Ropp.
    + clear - F F'. destruct (Bmult mode_NE x s), (Bmult mode_NE (fneg x) s); try discriminate F; try discriminate F'; reflexivity.
  - exact (eq_trans (inf_of _ _ C') (eq_sym (inf_of _ _ C))).
Qed.
Lemma mul_unit : forall (b : bool) (x : f64), fmul (if b then fone else fneg fone) x = if b then x else fneg x.
Proof.
  intros b x. 
  destruct x as [sx|sx| |sx mx ex bx]; try (destruct b, sx; rewrite one_form; reflexivity); try (destruct b; rewrite one_form; reflexivity).
  set (x := B754_finite sx mx ex bx). assert (C := Bmult_correct 53 1024 _ _ mode_NE (if b then fone else fneg fone) x).
  assert (E : B2R (if b then fone else fneg fone) = if b then 1%R else (-1)%R) by (destruct b; [exact one_real|unfold fneg; rewrite B2R_Bopp, one_real; lra]). rewrite E in C.
  assert (Y : exists y : f64, y = (if b then x else fneg x) /\ B2R y = ((if b then 1 else -1) * B2R x)%R /\ is_finite y = true /\ Bsign y = xorb (Bsign (if b then fone else fneg fone)) (Bsign x)).
  { eexists. split; [reflexivity|]. destruct b.
    - split; [lra|]. split; [reflexivity|]. rewrite sign_one. now destruct (Bsign x).
    - split; [unfold fneg; rewrite B2R_Bopp; lra|]. split; [reflexivity|]. unfold fneg. rewrite !Bsign_Bopp by (try rewrite one_form; reflexivity). rewrite sign_one. now destruct (Bsign x). }
  destruct Y as (y & <- & Ry & Fy & Sy). rewrite <- Ry in C. cbn [round_mode] in C. rewrite round_generic in C by (try apply valid_rnd_N; apply generic_format_B2R).
  rewrite Rlt_bool_true in C by apply abs_B2R_lt_emax. destruct C as (R & F & S). unfold fmul.
  assert (Fm : is_finite (Bmult mode_NE (if b then fone else fneg fone) x) = true) by (rewrite F; destruct b; rewrite one_form; reflexivity).
  apply B2R_Bsign_inj; [exact Fm|exact Fy|exact R|]. refine (eq_trans (S _) (eq_sym Sy)). destruct (Bmult mode_NE (if b then fone else fneg fone) x); try discriminate Fm; reflexivity.
Qed.
Lemma add_0 : forall y : f64, fadd f0 y = y \/ (B2R y = 0%R /\ is_finite y = true /\ fadd f0 y = f0).
Proof. intros [[]|[]| |[] m e b]; [right|left|left|left|left|left|left]; try split; try split; reflexivity. Qed.
Lemma mul_0 : forall s t : bool, forall x : f64, fabs (fmul (B754_zero s) x) = fabs (fmul (B754_zero t) x).
Proof. intros s t [[]|[]| |[] m e b]; reflexivity. Qed.
(** The derivative of +-x, times a standard deviation *)
Lemma opposite_component : forall (b : bool) (x s : f64), fabs (fmul (fadd f0 (fmul (if b then fone else fneg fone) x)) s) = fabs (fmul x s).
Proof.
  intros b x s. rewrite mul_unit. set (y := if b then x else fneg x). assert (Y : fabs (fmul y s) = fabs (fmul x s)) by (unfold y; destruct b; [reflexivity|apply mul_opp]).
  rewrite <- Y. destruct (add_0 y) as [->|(Z & F & ->)]; [reflexivity|]. destruct y as [sy|sy| |sy m e By]; try discriminate F; [apply (mul_0 false sy)|].
  exfalso. revert Z. cbn [B2R]. unfold F2R. cbn. intros Z. apply Rmult_integral in Z as [Z|Z]; [destruct sy; apply eq_IZR in Z; discriminate Z|]. assert (P := bpow_gt_0 radix2 e). change (bpow radix2 e = 0%R) in Z. lra.
Qed.

Section Opposite.
Variable lm : Libm.
Notation FN := (FOps lm).
Definition opposite_dict (b : bool) (d : dict FN) : dict FN := map (fun p => (fst p, fadd f0 (fmul (if b then fone else fneg fone) (snd p)))) d.
Lemma dset_new : forall (acc : dict FN) v z, dget acc v = None -> dset acc v z = acc ++ [(v, z)].
Proof. intros acc v z. induction acc as [|[w y] acc IH]; intros G; cbn [dget dset app] in *; [reflexivity|]. destruct (Nat.eqb v w); [discriminate G|]. now rewrite IH. Qed.
Lemma acc_unit : forall (b : bool) (c : pynum FN) (dd acc : dict FN), pn_float c = Ok (if b then fone else fneg fone) -> NoDup (dkeys dd) -> (forall v, In v (dkeys dd) -> ~ In v (dkeys acc)) ->
  acc_dict (N:=FN) c dd acc = Ok (acc ++ opposite_dict b dd).
Proof.
  intros b c dd acc Hc. revert acc. induction dd as [|[v f] dd IH]; intros acc ND Hd; cbn [acc_dict]; [cbn; now rewrite app_nil_r|].
  unfold cmul. rewrite Hc. cbn [rbind].
  assert (G : dget acc v = None).
  { assert (H : ~ In v (dkeys acc)) by (apply Hd; now left). clear - H.
    induction acc as [|[w y] acc IH]; cbn in *; auto. destruct (Nat.eqb_spec v w); subst; tauto. }
  rewrite G. set (z := n_add FN (n_zero FN) (n_mul FN (if b then fone else fneg fone) f)).
  assert (D : dset acc v z = acc ++ [(v, z)]) by (now apply dset_new).
  cbv zeta. match goal with |- acc_dict _ _ (dset acc v ?z') = _ => change z' with z end. rewrite D. inversion ND; subst. rewrite IH; auto.
  - now rewrite <- app_assoc.
  - intros w Hw. unfold dkeys. rewrite map_app. intros X. apply in_app_or in X. destruct X as [X|X].
    + apply (Hd w); [now right|exact X].
    + cbn in X. destruct X as [X|[]]. subst. contradiction.
Qed.
Lemma opposite_components : forall b (h h' : heap FN) d, h_var h' = h_var h -> components h' (opposite_dict b d) = components h d.
Proof.
  intros b h h' d V. induction d as [|[v x] d IH]; [reflexivity|]. unfold opposite_dict in *. cbn [map components fst snd]. unfold get_var. rewrite V. destruct (nth_error (h_var h) v) as [o|]; [|reflexivity].
  cbv zeta. rewrite IH. change (n_abs FN (n_mul FN (fadd f0 (fmul (if b then fone else fneg fone) x)) (v_std o))) with (fabs (fmul (fadd f0 (fmul (if b then fone else fneg fone) x)) (v_std o))). rewrite opposite_component. reflexivity.
Qed.
Definition signs (op : unop) : Prop := op = Uneg \/ op = Upos \/ op = Uabs.
Lemma sign_coefficient : forall op (x : f64), signs op -> exists b : bool, unop_der (N:=FN) op x = Ok (PF (N:=FN) (if b then fone else fneg fone)).
Proof.
  intros op x [->|[->| ->]]; cbn [unop_der].
  - exists false. reflexivity.
  - exists true. reflexivity.
  - change (n_le FN (n_zero FN) x) with (Bleb f0 x). exists (Bleb f0 x). reflexivity.
Qed.
(** A number with the linear part (+-1)*x, for a number x of which the derivatives have been read. *)
Lemma unit_core : forall (st st' : state FN) i u d (b : bool) (c : pynum FN) y, pn_float c = Ok (if b then fone else fneg fone) -> is_number st i u -> (uf_lp u < length (h_lc (st_heap st)))%nat -> get_lc (st_heap st) (uf_lp u) = LDict d -> NoDup (dkeys d) ->
  st' = mkState (mkHeap (h_lc (st_heap st) ++ [LList [IPair c (uf_lp u)]]) (h_var (st_heap st))) (st_env st ++ [VUF (mkUF y (length (h_lc (st_heap st))) None)]) ->
  exists w, is_number st' (length (st_env st)) w /\
    (forall e, reads st (IErrs i) (OErrs e) -> reads st' (IErrs (length (st_env st))) (OErrs e)) /\
    (forall s, reads st (IStdS i) (ONum s) -> reads st' (IStd (length (st_env st))) (ONum s) /\ reads st' (IStdS (length (st_env st))) (ONum s)).
Proof.
  intros st st' i u d b c y Hc U1 B G ND C. unfold is_number in U1.
  set (l := length (h_lc (st_heap st))). set (n := length (st_env st)).
  set (h := mkHeap (h_lc (st_heap st) ++ [LList [IPair c (uf_lp u)]]) (h_var (st_heap st))). set (w := mkUF y l None).
  assert (St : st' = mkState h (st_env st ++ [VUF w])) by exact C. rewrite St. clear C St.
  assert (W : nth_error (st_env st ++ [VUF w]) n = Some (VUF w)) by (unfold n; rewrite nth_error_app2, Nat.sub_diag by lia; reflexivity).
  assert (Gl : get_lc h l = LList [IPair c (uf_lp u)]) by (unfold get_lc, h, l; cbn [h_lc]; rewrite app_nth2, Nat.sub_diag by lia; reflexivity).
  assert (Gu : get_lc h (uf_lp u) = LDict d) by (unfold get_lc, h; cbn [h_lc]; rewrite app_nth1 by exact B; exact G).
  assert (Bl : (l < length (h_lc h))%nat) by (unfold h, l; cbn [h_lc]; rewrite app_length; cbn; lia).
  assert (Nl : l <> uf_lp u) by (unfold l; lia). set (d' := opposite_dict b d).
  assert (De : forall f, (2 <= f)%nat -> derivatives f w h = (Ok d', set_lc h l (LDict d'))).
  { intros f Hf. unfold derivatives, lc_derivatives. cbn [uf_lp w]. rewrite Gl. destruct f as [|[|f]]; try lia. cbn [expand_loop]. rewrite Gl. rewrite get_set_ne by exact Nl. rewrite Gu.
    rewrite (acc_unit b c d [] Hc ND ltac:(intros ? ? [])). cbn [app]. rewrite get_set by exact Bl. rewrite set_set, get_set by exact Bl. reflexivity. }
  assert (Er : forall e, reads st (IErrs i) (OErrs e) -> components (st_heap st) d = Ok e).
  { intros e (s1 & k1 & E). specialize (E k1 (le_n k1)). cbn [step] in E. unfold with_uf, with_val in E. rewrite U1 in E. unfold observe, error_components, bind, derivatives, lc_derivatives in E. rewrite G in E.
    destruct (components (st_heap st) d) as [e'|]; [|discriminate E]. injection E as _ ->. reflexivity. }
  assert (Ec : forall e, components (st_heap st) d = Ok e -> forall f, (2 <= f)%nat -> error_components f w h = (Ok e, set_lc h l (LDict d'))).
  { intros e E f Hf. unfold error_components, bind. rewrite (De f Hf). unfold d'. rewrite (opposite_components b (st_heap st) (set_lc h l (LDict (opposite_dict b d))) d eq_refl), E. reflexivity. }
  exists w. split; [exact W|]. split.
  - intros e E. exists (mkState (set_lc h l (LDict d')) (st_env st ++ [VUF w])), 2%nat. intros f Hf. cbn [step]. unfold with_uf, with_val. cbn [st_env]. rewrite W. cbn [st_heap]. rewrite (Ec e (Er e E) f Hf). reflexivity.
  - intros s (s1 & k1 & E). specialize (E k1 (le_n k1)). cbn [step] in E. unfold with_uf, with_val in E. rewrite U1 in E. unfold observe, std_dev_s, std_dev_affine, error_components, bind, derivatives, lc_derivatives in E. rewrite G in E.
    destruct (components (st_heap st) d) as [e'|] eqn:Ce; [|discriminate E]. destruct (rbind (sum_squares (PZ 0) (map snd e')) pn_sqrt) as [s'|] eqn:Sq; [|discriminate E]. injection E as _ ->.
    assert (X : forall f, (2 <= f)%nat -> std_dev_affine f w h = (Ok s, set_lc h l (LDict d'))).
    { intros f Hf. assert (Y : std_dev_affine f w h = (rbind (sum_squares (PZ 0) (map snd e')) pn_sqrt, set_lc h l (LDict d'))) by (unfold std_dev_affine, bind; rewrite (Ec e' eq_refl f Hf); reflexivity).
      rewrite Y, Sq. reflexivity. }
    split; exists (mkState (set_lc h l (LDict d')) (st_env st ++ [VUF w])), 2%nat; intros f Hf; cbn [step]; unfold with_uf, with_val; cbn [st_env]; rewrite W; cbn [st_heap]; unfold std_dev_s, std_dev; cbn [uf_var w]; rewrite (X f Hf); reflexivity.
Qed.
(** op x, for a number x of which the derivatives have been read. *)
Theorem same_uncertainty : forall (st0 st st' : state FN) i u d op, reachable st0 -> is_number st0 i u -> does st0 (IDeriv i) st (ODict d) -> NoDup (dkeys d) ->
  op = Uneg \/ op = Upos \/ op = Uabs -> does st (ICall (unop_fun op) (unop_pos op) no_kw [i] []) st' ONone ->
  exists w, is_number st' (length (st_env st)) w /\
    (forall e, reads st (IErrs i) (OErrs e) -> reads st' (IErrs (length (st_env st))) (OErrs e)) /\
    (forall s, reads st (IStdS i) (ONum s) -> reads st' (IStd (length (st_env st))) (ONum s) /\ reads st' (IStdS (length (st_env st))) (ONum s)).
Proof.
  intros st0 st st' i u d op R U D ND Op (k & C). destruct (read_dict _ _ _ _ _ R U D) as (U1 & B & G). specialize (C k (le_n k)). assert (U2 := U1). unfold is_number in U1.
  cbn [step get_args get_kwargs] in C. rewrite U1 in C. unfold wcall in C. cbn [map kw_map existsb is_uf orb negb nominal_value unop_fun pos_terms kw_terms unop_pos] in C.
  destruct (sign_coefficient op (uf_nom u) Op) as (b & Eb). rewrite Eb in C. cbn [rbind app rev] in C.
  assert (F : exists y : num FN, float_unop op (uf_nom u) = Ok (PNum (PF (N:=FN) y))) by (destruct Op as [->|[->| ->]]; eexists; reflexivity). destruct F as (y & Ey). rewrite Ey in C. cbn [pn_float alloc_lc push] in C.
  injection C as C. apply (unit_core st st' i u d b (PF (N:=FN) (if b then fone else fneg fone)) y eq_refl U2 B G ND). symmetry. exact C.
Qed.
(** x + c, c + x, x - c, c - x, x % c for a constant c. *)
Theorem same_shifted : forall (st0 st st' : state FN) i u d j p ins, reachable st0 -> is_number st0 i u -> does st0 (IDeriv i) st (ODict d) -> NoDup (dkeys d) ->
  nth_error (st_env st) j = Some (VPlain p) -> In ins [IBin Badd i j; IBin Badd j i; IBin Bsub i j; IBin Bsub j i; IBin Bmod i j] -> does st ins st' ONone ->
  exists w, is_number st' (length (st_env st)) w /\
    (forall e, reads st (IErrs i) (OErrs e) -> reads st' (IErrs (length (st_env st))) (OErrs e)) /\
    (forall s, reads st (IStdS i) (ONum s) -> reads st' (IStd (length (st_env st))) (ONum s) /\ reads st' (IStdS (length (st_env st))) (ONum s)).
Proof.
  intros st0 st st' i u d j p ins R U D ND J In5 (k & C). destruct (read_dict _ _ _ _ _ R U D) as (U1 & B & G). specialize (C k (le_n k)). assert (U2 := U1). unfold is_number in U1.
  assert (X : exists (b : bool) y, st' = mkState (mkHeap (h_lc (st_heap st) ++ [LList [IPair (PF (N:=FN) (if b then fone else fneg fone)) (uf_lp u)]]) (h_var (st_heap st))) (st_env st ++ [VUF (mkUF y (length (h_lc (st_heap st))) None)])).
  { destruct In5 as [<-|[<-|[<-|[<-|[<-|[]]]]]]; cbn [step get_args] in C; rewrite U1, J in C; unfold py_binop, method_op, method_rop, bind, wcall in C;
      cbn [map kw_map existsb is_uf orb negb nominal_value float_method float_rmethod pos_terms kw_terms op_pos rop_pos] in C;
      (destruct p as [q| | |]; [|discriminate C..]); (destruct (pn_float q) as [y|]; [|discriminate C]); cbn [rbind float_op op_der_x op_der_y app rev alloc_lc pn_float push ret raise] in C;
      try (destruct (n_mod FN (uf_nom u) y); [|discriminate C]; cbn [rbind app rev alloc_lc pn_float push ret raise] in C);
      injection C as <-; try (exists true; eexists; reflexivity); exists false; eexists; reflexivity. }
  destruct X as (b & y & X). exact (unit_core st st' i u d b (PF (N:=FN) (if b then fone else fneg fone)) y eq_refl U2 B G ND X).
Qed.
(** umath.fabs(x) *)
Theorem same_fabs : forall (st0 st st' : state FN) i u d, reachable st0 -> is_number st0 i u -> does st0 (IDeriv i) st (ODict d) -> NoDup (dkeys d) ->
  does st (ICall (m1_fun F_fabs) (m1_pos F_fabs) (m1_kw F_fabs) [i] []) st' ONone ->
  exists w, is_number st' (length (st_env st)) w /\
    (forall e, reads st (IErrs i) (OErrs e) -> reads st' (IErrs (length (st_env st))) (OErrs e)) /\
    (forall s, reads st (IStdS i) (ONum s) -> reads st' (IStd (length (st_env st))) (ONum s) /\ reads st' (IStdS (length (st_env st))) (ONum s)).
Proof.
  intros st0 st st' i u d R U D ND (k & C). destruct (read_dict _ _ _ _ _ R U D) as (U1 & B & G). specialize (C k (le_n k)). assert (U2 := U1). unfold is_number in U1.
  cbn [step get_args get_kwargs] in C. rewrite U1 in C. unfold wcall in C. cbn [map kw_map existsb is_uf orb negb nominal_value m1_fun pos_terms kw_terms m1_pos m1_der pn_float rbind] in C.
  change (n_le FN (n_zero FN) (uf_nom u)) with (Bleb f0 (uf_nom u)) in C. set (c := if Bleb f0 (uf_nom u) then PZ (N:=FN) 1 else PZ (-1)) in C.
  assert (Hc : pn_float c = Ok (if Bleb f0 (uf_nom u) then fone else fneg fone)).
  { unfold c. destruct (Bleb f0 (uf_nom u)); cbn [pn_float]; [exact int_one|exact int_minus_one]. }
  assert (Hf : n_fun1 FN F_fabs (uf_nom u) = Ok (fabs (uf_nom u))) by reflexivity. rewrite Hf in C. cbn [rbind nan_if_exception app rev pn_float alloc_lc push] in C.
  injection C as C. apply (unit_core st st' i u d (Bleb f0 (uf_nom u)) c (fabs (uf_nom u)) Hc U2 B G ND). symmetry. exact C.
Qed.
(** c*x and x*c for a constant c equal to 1 or -1 *)
Theorem same_times : forall (st0 st st' : state FN) i u d j p ins, reachable st0 -> is_number st0 i u -> does st0 (IDeriv i) st (ODict d) -> NoDup (dkeys d) ->
  nth_error (st_env st) j = Some (VPlain (PNum p)) -> pn_float p = Ok fone \/ pn_float p = Ok (fneg fone) -> ins = IBin Bmul i j \/ ins = IBin Bmul j i -> does st ins st' ONone ->
  exists w, is_number st' (length (st_env st)) w /\
    (forall e, reads st (IErrs i) (OErrs e) -> reads st' (IErrs (length (st_env st))) (OErrs e)) /\
    (forall s, reads st (IStdS i) (ONum s) -> reads st' (IStd (length (st_env st))) (ONum s) /\ reads st' (IStdS (length (st_env st))) (ONum s)).
Proof.
  intros st0 st st' i u d j p ins R U D ND J P In2 (k & C). destruct (read_dict _ _ _ _ _ R U D) as (U1 & B & G). specialize (C k (le_n k)). assert (U2 := U1). unfold is_number in U1.
  assert (Hp : exists b : bool, pn_float p = Ok (if b then fone else fneg fone)) by (destruct P as [P|P]; [exists true|exists false]; exact P). destruct Hp as (b & Hp).
  assert (X : exists y, st' = mkState (mkHeap (h_lc (st_heap st) ++ [LList [IPair p (uf_lp u)]]) (h_var (st_heap st))) (st_env st ++ [VUF (mkUF y (length (h_lc (st_heap st))) None)])).
  { destruct In2 as [->| ->]; cbn [step get_args] in C; rewrite U1, J in C; unfold py_binop, method_op, method_rop, bind, wcall in C;
      cbn [map kw_map existsb is_uf orb negb nominal_value float_method float_rmethod pos_terms kw_terms op_pos rop_pos] in C;
      rewrite Hp in C; cbn [rbind float_op op_der_x op_der_y app rev alloc_lc pn_float push ret raise] in C; injection C as <-; eexists; reflexivity. }
  destruct X as (y & X). exact (unit_core st st' i u d b p y Hp U2 B G ND X).
Qed.
End Opposite.
