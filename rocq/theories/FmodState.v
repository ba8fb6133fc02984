(** umath.fmod() in binary64. *)
From Coq Require Import ZArith List Bool Lia Reals Lra.
From Flocq Require Import Core BinarySingleNaN.
From Verif Require Import Base Heap HeapSpec NumF Affine Ops UMath Plain Machine History GenProofs FFacts FRefute BinProofs BinLibm BinStd NumFacts NumState.
Import ListNotations.
Local Open Scope R_scope.

Section Fmod.
Variable lm : Libm.
Notation FN := (FOps lm).

Lemma fmod_at : forall (p q : pynum FN) (x y : f64), pn_float p = Ok x -> pn_float q = Ok y ->
  m2_fun (N:=FN) G_fmod [PNum p; PNum q] [] = rbind (f_fun2 lm G_fmod x y) (fun r => Ok (PNum (PF (N:=FN) r))).
Proof. intros p q x y P Q. cbn [m2_fun]. rewrite P. cbn [rbind]. rewrite Q. reflexivity. Qed.

(** fmod(x, y) is exact: x - y*trunc(x/y). *)
Theorem fmod_value : forall (st : state FN) i j x y st', nominal_f st i x -> nominal_f st j y -> ~ (certain st i /\ certain st j) ->
  is_finite x = true -> is_finite y = true -> does st (ICall (m2_fun G_fmod) (m2_pos G_fmod) (m2_kw G_fmod) [i; j] []) st' ONone ->
  B2R y <> 0 /\ exists w, is_number st' (length (st_env st)) w /\ @is_finite 53 1024 (uf_nom w) = true /\
    @B2R 53 1024 (uf_nom w) = B2R x - B2R y * IZR (Ztrunc (B2R x / B2R y)).
Proof.
  intros st i j x y st' (a & p & Ha & Np & Px) (b & q & Hb & Nq & Py) U Fx Fy (k & H). specialize (H k (Nat.le_refl _)).
  cbn [step get_args get_kwargs] in H. rewrite Ha, Hb in H. unfold push in H.
  destruct (wcall _ _ _ [a; b] [] (st_heap st)) as [[v|e] h'] eqn:W; [|discriminate H]. injection H as <-.
  assert (IU : existsb is_uf [a; b] = true).
  { destruct a as [a|u]; [|reflexivity]. destruct b as [b|u]; [|reflexivity]. exfalso. apply U. split; intros (u & Hu); unfold is_number in Hu; congruence. }
  destruct (wcall_value _ _ _ _ _ _ _ _ _ W IU) as (r & Fr & V). cbn [map kw_map] in Fr. rewrite Np, Nq, (fmod_at p q x y Px Py) in Fr.
  unfold f_fun2 in Fr. replace (is_nanf x) with false in Fr by (destruct x; [reflexivity|reflexivity|discriminate Fx|reflexivity]). replace (is_nanf y) with false in Fr by (destruct y; [reflexivity|reflexivity|discriminate Fy|reflexivity]).
  replace (is_inf x) with false in Fr by (destruct x; [reflexivity|discriminate Fx|reflexivity|reflexivity]). cbn [orb] in Fr.
  assert (N0 : B2R y <> 0). { intros Z0. rewrite (Beqb_correct _ _ y f0 Fy eq_refl), Z0 in Fr. change (B2R f0) with 0 in Fr. rewrite Req_bool_true in Fr by reflexivity. discriminate Fr. }
  split; [exact N0|]. destruct (Beqb y f0); [discriminate Fr|]. cbn [rbind] in Fr. injection Fr as <-.
  destruct V as [->|(p' & x' & l & R & Q & ->)].
  { exfalso. clear - W IU. unfold wcall in W. rewrite IU in W. cbn [orb negb] in W. destruct (m2_fun G_fmod _ _) as [[]|] eqn:E; try discriminate W.
    - match type of W with context[match ?m with Ok _ => _ | Err _ => _ end] => destruct m; [|discriminate W] end. destruct (pn_float _); [|discriminate W]. destruct (alloc_lc _ _). discriminate W.
    - match type of W with context[match ?m with Ok _ => _ | Err _ => _ end] => destruct m; discriminate W end.
    - clear - E. unfold m2_fun in E. repeat match type of E with context[match ?m with _ => _ end] => destruct m; try discriminate E end; cbn [rbind] in E; repeat match type of E with rbind ?m _ = _ => destruct m; cbn [rbind] in E; try discriminate E end.
    - clear - E. unfold m2_fun in E. repeat match type of E with context[match ?m with _ => _ end] => destruct m; try discriminate E end; cbn [rbind] in E; repeat match type of E with rbind ?m _ = _ => destruct m; cbn [rbind] in E; try discriminate E end. }
  injection R as <-. cbn [pn_float] in Q. injection Q as <-. eexists. split; [unfold is_number; cbn [st_env]; rewrite nth_error_app2 by lia; rewrite Nat.sub_diag; reflexivity|].
  cbn [uf_nom]. exact (fmod_exact x y Fx Fy N0).
Qed.

(** fmod(x, y) raises ValueError if x is infinite or y zero, and the other is not NaN. *)
Theorem fmod_domain : forall (st : state FN) i j x y, nominal_f st i x -> nominal_f st j y -> is_nanf x = false -> is_nanf y = false -> is_inf x = true \/ B2R y = 0 /\ is_finite y = true ->
  exists st', does st (ICall (m2_fun G_fmod) (m2_pos G_fmod) (m2_kw G_fmod) [i; j] []) st' (OExn EValue).
Proof.
  intros st i j x y (a & p & Ha & Np & Px) (b & q & Hb & Nq & Py) Nx Ny D.
  assert (E : f_fun2 lm G_fmod x y = Err EValue).
  { unfold f_fun2. rewrite Nx, Ny. cbn [orb]. destruct D as [->|(Z0 & Fy)]; [reflexivity|]. rewrite (Beqb_correct _ _ y f0 Fy eq_refl), Z0. change (B2R f0) with 0. rewrite Req_bool_true by reflexivity. rewrite orb_true_r. reflexivity. }
  eexists. exists 0%nat. intros fuel _. cbn [step get_args get_kwargs]. rewrite Ha, Hb.
  assert (W : wcall (N:=FN) (m2_fun G_fmod) (m2_pos G_fmod) (m2_kw G_fmod) [a; b] [] (st_heap st) = (Err EValue, st_heap st)).
  { unfold wcall. cbn [map kw_map]. rewrite Np, Nq, (fmod_at p q x y Px Py), E. cbn [rbind]. destruct (negb _); reflexivity. }
  rewrite W. reflexivity.
Qed.

(** Derivatives of a function that is NaN around the arguments. *)
Lemma nan_quotient : forall (f : pyfun FN) i args (z : f64), nth_error args i = Some (PNum (PF (N:=FN) z)) ->
  (forall t : f64, (is_nanf z = true -> is_nanf t = true) -> f (list_set args i (PNum (PF (N:=FN) t))) [] = Ok (PNum (PF (N:=FN) fnan))) ->
  exists c, partial_derivative f (APos i) args [] = Ok c.
Proof.
  intros f i args z Z F. unfold partial_derivative. cbn [arg_get]. rewrite Z. cbn [as_num rbind pn_abs].
  set (h0 := fmul (fnorm 1 (-26)) (n_abs FN z)). assert (E0 : pn_mul (PF (N:=FN) (n_step FN)) (PF (N:=FN) (n_abs FN z)) = Ok (PF (N:=FN) h0)) by reflexivity. rewrite E0. cbn [rbind].
  assert (X : exists h : f64, (if pn_is0 (PF (N:=FN) h0) then PF (N:=FN) (n_step FN) else PF (N:=FN) h0) = PF (N:=FN) h /\ Beqb h f0 = false).
  { change (pn_is0 (PF (N:=FN) h0)) with (Beqb h0 f0). destruct (Beqb h0 f0) eqn:B; [|exists h0; auto]. exists (fnorm 1 (-26)). split; [reflexivity|]. vm_cast_no_check (eq_refl false). }
  destruct X as (h & Eh & Nh). cbv zeta. rewrite Eh. clear Eh. set (p1 := fadd z h). assert (E2 : pn_add (PF (N:=FN) z) (PF (N:=FN) h) = Ok (PF (N:=FN) p1)) by reflexivity. rewrite E2. cbn [rbind arg_set].
  assert (N1 : is_nanf z = true -> is_nanf p1 = true) by (intros T; unfold p1; destruct z; try discriminate T; reflexivity). rewrite (F p1 N1). cbn [rbind].
  set (h2 := fmul (fnorm 2 0) h). assert (E4 : pn_mul (PZ 2) (PF (N:=FN) h) = Ok (PF (N:=FN) h2)) by reflexivity. rewrite E4. cbn [rbind].
  set (p2 := fsub p1 h2). assert (E5 : pn_sub (PF (N:=FN) p1) (PF (N:=FN) h2) = Ok (PF (N:=FN) p2)) by reflexivity. rewrite E5. cbn [rbind].
  assert (N2 : is_nanf z = true -> is_nanf p2 = true) by (intros T; unfold p2; specialize (N1 T); destruct p1; try discriminate N1; reflexivity). rewrite (F p2 N2). cbn [rbind as_num].
  assert (E7 : pn_sub (PF (N:=FN) fnan) (PF (N:=FN) fnan) = Ok (PF (N:=FN) fnan)) by reflexivity. rewrite E7. cbn [rbind].
  assert (E8 : pn_div (PF (N:=FN) fnan) (PZ 2) = Ok (PF (N:=FN) fnan)) by reflexivity. rewrite E8. cbn [rbind].
  exists (PF (N:=FN) (fdiv fnan h)). unfold pn_div. cbn [pn_float rbind]. assert (E9 : n_div FN fnan h = Ok (fdiv fnan h)) by (cbn [n_div FOps]; unfold f_div; rewrite Nh; reflexivity). rewrite E9. reflexivity.
Qed.
(** fmod(x, y) is NaN if x or y is: there is no exception, even if x is infinite or y zero. *)
Theorem fmod_nan : forall (st : state FN) i j x y, nominal_f st i x -> nominal_f st j y -> is_nanf x = true \/ is_nanf y = true ->
  exists st', does st (ICall (m2_fun G_fmod) (m2_pos G_fmod) (m2_kw G_fmod) [i; j] []) st' ONone /\ exists r, nominal_f st' (length (st_env st)) r /\ is_nanf r = true.
Proof.
  intros st i j x y (a & p & Ha & Np & Px) (b & q & Hb & Nq & Py) D.
  assert (E : forall p q x y, pn_float (N:=FN) p = Ok x -> pn_float (N:=FN) q = Ok y -> is_nanf x = true \/ is_nanf y = true -> m2_fun (N:=FN) G_fmod [PNum p; PNum q] [] = Ok (PNum (PF (N:=FN) fnan))).
  { clear. intros p q x y P Q D. rewrite (fmod_at p q x y P Q). unfold f_fun2. replace (is_nanf x || is_nanf y) with true by (symmetry; apply orb_true_iff; exact D). reflexivity. }
  assert (C0 : forall u, a = VUF u -> exists c, m2_pos (N:=FN) G_fmod 0 [PNum p; PNum q] [] = Ok c).
  { intros u ->. cbn [nominal_value] in Np. injection Np as <-. cbn [pn_float] in Px. injection Px as <-. cbn [m2_pos m2_der0].
    apply (nan_quotient (m2_fun G_fmod) 0 [_; _] (uf_nom u) eq_refl). intros t T. cbn [list_set]. apply (E (PF (N:=FN) t) q t y eq_refl Py). destruct D as [D|D]; [left; now apply T|right; exact D]. }
  assert (C1 : forall u, b = VUF u -> exists c, m2_pos (N:=FN) G_fmod 1 [PNum p; PNum q] [] = Ok c).
  { intros u ->. cbn [nominal_value] in Nq. injection Nq as <-. cbn [pn_float] in Py. injection Py as <-. cbn [m2_pos m2_der1].
    apply (nan_quotient (m2_fun G_fmod) 1 [_; _] (uf_nom u) eq_refl). intros t T. cbn [list_set]. apply (E p (PF (N:=FN) t) x t Px eq_refl). destruct D as [D|D]; [left; exact D|right; now apply T]. }
  assert (W : exists v h', wcall (N:=FN) (m2_fun G_fmod) (m2_pos G_fmod) (m2_kw G_fmod) [a; b] [] (st_heap st) = (Ok v, h') /\ exists pv, nominal_value v = PNum pv /\ pn_float pv = Ok (fnan : num FN)).
  { unfold wcall. cbn [map kw_map]. rewrite Np, Nq, (E p q x y Px Py D).
    destruct a as [a|u]; destruct b as [b|w]; cbn [existsb is_uf orb negb pos_terms rmap].
    - exists (VPlain (PNum (PF (N:=FN) fnan))), (st_heap st). split; [reflexivity|]. eexists. split; reflexivity.
    - destruct (C1 w eq_refl) as (c & ->). cbn [rbind kw_terms app pn_float]. destruct (alloc_lc _ _) as [l h']. eexists _, h'. split; [reflexivity|]. eexists. split; reflexivity.
    - destruct (C0 u eq_refl) as (c & ->). cbn [rbind kw_terms app pn_float]. destruct (alloc_lc _ _) as [l h']. eexists _, h'. split; [reflexivity|]. eexists. split; reflexivity.
    - destruct (C0 u eq_refl) as (c & ->). destruct (C1 w eq_refl) as (c' & ->). cbn [rbind kw_terms app pn_float]. destruct (alloc_lc _ _) as [l h']. eexists _, h'. split; [reflexivity|]. eexists. split; reflexivity. }
  destruct W as (v & h' & W & pv & V1 & V2). exists (mkState h' (st_env st ++ [v])). split.
  { exists 0%nat. intros fuel _. cbn [step get_args get_kwargs]. rewrite Ha, Hb, W. reflexivity. }
  exists fnan. split; [|reflexivity]. exists v, pv. split; [cbn [st_env]; rewrite nth_error_app2 by lia; rewrite Nat.sub_diag; reflexivity|]. split; [exact V1|exact V2].
Qed.
End Fmod.
