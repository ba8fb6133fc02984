(** Nominal values of the results of operators and functions, in binary64. *)
From Coq Require Import ZArith List Bool Lia Reals Lra.
From Flocq Require Import Core BinarySingleNaN.
From Verif Require Import Base Heap HeapSpec NumF Affine Ops UMath Plain Machine History GenProofs FFacts FRefute BinProofs BinLibm BinStd NumFacts.
Import ListNotations.
Local Open Scope R_scope.

Section Value.
Variable N : NumOps.
(** A wrapped function returns the value of the function at the nominal values. *)
Lemma wcall_value : forall f pos kwd args kw h v h', wcall (N:=N) f pos kwd args kw h = (Ok v, h') -> existsb is_uf args = true ->
  exists r, f (map nominal_value args) (kw_map nominal_value kw) = Ok r /\
    (v = VPlain PNotImpl \/ exists p x l, r = PNum p /\ pn_float p = Ok x /\ v = VUF (mkUF x l None)).
Proof.
  intros f pos kwd args kw h v h' H U. unfold wcall in H. rewrite U in H. cbn [orb negb] in H.
  destruct (f (map nominal_value args) (kw_map nominal_value kw)) as [r|e]; [|discriminate H]. exists r. split; [reflexivity|].
  destruct r as [p| | |]; try (injection H as <- <-; left; reflexivity).
  - match type of H with context[match ?m with Ok _ => _ | Err _ => _ end] => destruct m as [terms|e]; [|discriminate H] end.
    destruct (pn_float p) as [x|e] eqn:E; [|discriminate H]. destruct (alloc_lc h (LList (rev terms))) as [l h''] eqn:A. injection H as <- <-. right. exists p, x, l. auto.
  - match type of H with context[match ?m with Ok _ => _ | Err _ => _ end] => destruct m as [terms|e]; discriminate H end.
Qed.
End Value.

Section Nominal.
Variable lm : Libm.
Notation FN := (FOps lm).
(** x is the nominal value of the object, as a float. *)
Definition nominal_f (st : state FN) (i : nat) (x : f64) : Prop :=
  exists a p, nth_error (st_env st) i = Some a /\ nominal_value a = PNum p /\ pn_float (N:=FN) p = Ok x.
Definition certain (st : state FN) (i : nat) : Prop := ~ exists u, is_number st i u.

Lemma operator_value : forall (st : state FN) op i j x y st', nominal_f st i x -> nominal_f st j y -> ~ (certain st i /\ certain st j) ->
  does st (IBin op i j) st' ONone ->
  exists w, is_number st' (length (st_env st)) w /\ float_op (N:=FN) op x y = Ok (PNum (PF (N:=FN) (uf_nom w))).
Proof.
  intros st op i j x y st' (a & p & Ha & Np & Px) (b & q & Hb & Nq & Py) U (k & H). specialize (H k (Nat.le_refl _)).
  cbn [step get_args] in H. rewrite Ha, Hb in H. unfold push in H.
  destruct (py_binop op a b (st_heap st)) as [[v|e'] h'] eqn:Eb; [|discriminate H]. injection H as <-.
  assert (FO : forall x y r, float_op (N:=FN) op x y = Ok r -> exists t : f64, r = PNum (PF (N:=FN) t)).
  { intros x0 y0 r F. destruct op; cbn [float_op] in F; try (injection F as <-; eexists; reflexivity).
    1-3: match type of F with rbind ?m _ = _ => destruct m; cbn [rbind] in F; [injection F as <-; eexists; reflexivity|discriminate F] end.
    match type of F with rbind ?m _ = _ => destruct m as [[z|]|]; cbn [rbind] in F; try discriminate F; injection F as <-; eexists; reflexivity end. }
  assert (G : exists w, v = VUF w /\ float_op (N:=FN) op x y = Ok (PNum (PF (N:=FN) (uf_nom w)))).
  { unfold py_binop in Eb. destruct a as [pa|u].
    - destruct b as [pb|w].
      { exfalso. apply U. split; intros (u & Hu); unfold is_number in Hu; congruence. }
      cbn [nominal_value] in Np. subst pa. unfold bind in Eb. destruct (method_rop op w (VPlain (PNum p)) (st_heap st)) as [[r|e] h2] eqn:Em; [|discriminate Eb].
      unfold method_rop in Em. destruct (wcall_value _ _ _ _ _ _ _ _ _ Em eq_refl) as (r' & Fr & [->|(pr & xr & l & -> & Pr & ->)]); [discriminate Eb|].
      injection Eb as <- <-. eexists. split; [reflexivity|]. cbn [map nominal_value kw_map float_rmethod uf_nom] in Fr |- *. rewrite Px in Fr. cbn [rbind] in Fr.
      injection Nq as <-. cbn [pn_float] in Py. injection Py as <-. rewrite Fr. destruct (FO _ _ _ Fr) as (t & T). injection T as ->. cbn [pn_float] in Pr. injection Pr as ->. reflexivity.
    - unfold bind in Eb. destruct (method_op op u b (st_heap st)) as [[r|e] h2] eqn:Em; [|discriminate Eb].
      unfold method_op in Em. destruct (wcall_value _ _ _ _ _ _ _ _ _ Em eq_refl) as (r' & Fr & [->|(pr & xr & l & -> & Pr & ->)]); [discriminate Eb|].
      injection Eb as <- <-. eexists. split; [reflexivity|]. cbn [map kw_map uf_nom] in Fr |- *. rewrite Nq in Fr. cbn [nominal_value float_method] in Fr. rewrite Py in Fr. cbn [rbind] in Fr.
      cbn [nominal_value] in Np. injection Np as <-. cbn [pn_float] in Px. injection Px as <-. rewrite Fr. destruct (FO _ _ _ Fr) as (t & T). injection T as ->. cbn [pn_float] in Pr. injection Pr as ->. reflexivity. }
  destruct G as (w & -> & F). exists w. split; [|exact F]. unfold is_number. cbn [st_env]. rewrite nth_error_app2 by lia. rewrite Nat.sub_diag. reflexivity.
Qed.

(** x % y *)
Theorem mod_value : forall (st : state FN) i j x y st', nominal_f st i x -> nominal_f st j y -> ~ (certain st i /\ certain st j) ->
  is_finite x = true -> is_finite y = true -> does st (IBin Bmod i j) st' ONone ->
  B2R y <> 0 /\ exists w, is_number st' (length (st_env st)) w /\ @is_finite 53 1024 (uf_nom w) = true /\
    @B2R 53 1024 (uf_nom w) = rnd64 (B2R x - B2R y * IZR (Zfloor (B2R x / B2R y))).
Proof.
  intros st i j x y st' Hx Hy U F G D. destruct (operator_value st Bmod i j x y st' Hx Hy U D) as (w & W & V).
  cbn [float_op] in V. change (n_mod FN x y) with (f_mod x y) in V.
  assert (N0 : B2R y <> 0).
  { intros Z0. unfold f_mod in V. rewrite (Beqb_correct _ _ y f0 G eq_refl), Z0 in V. change (B2R f0) with 0 in V. rewrite Req_bool_true in V by reflexivity. discriminate V. }
  split; [exact N0|]. exists w. split; [exact W|]. destruct (mod_rounded x y F G N0) as (r & R1 & R2 & R3). rewrite R1 in V. cbn [rbind] in V. injection V as <-. auto.
Qed.
(** x // y *)
Theorem floordiv_value : forall (st : state FN) i j x y st', nominal_f st i x -> nominal_f st j y -> ~ (certain st i /\ certain st j) ->
  is_finite x = true -> is_finite y = true -> does st (IBin Bfloordiv i j) st' ONone -> Rabs (B2R x / B2R y) <= 2 ^ 50 ->
  exists w, is_number st' (length (st_env st)) w /\ @is_finite 53 1024 (uf_nom w) = true /\
    @B2R 53 1024 (uf_nom w) = IZR (Zfloor (B2R x / B2R y)).
Proof.
  intros st i j x y st' Hx Hy U F G D L. destruct (operator_value st Bfloordiv i j x y st' Hx Hy U D) as (w & W & V).
  cbn [float_op] in V. change (n_floordiv FN x y) with (f_floordiv x y) in V.
  assert (N0 : B2R y <> 0).
  { intros Z0. unfold f_floordiv in V. rewrite (Beqb_correct _ _ y f0 G eq_refl), Z0 in V. change (B2R f0) with 0 in V. rewrite Req_bool_true in V by reflexivity. discriminate V. }
  exists w. split; [exact W|]. destruct (floordiv_exact x y F G N0 L) as (r & R1 & R2 & R3). rewrite R1 in V. cbn [rbind] in V. injection V as <-. auto.
Qed.
(** x ** y, x < 0: the sign, and complex results. *)
Theorem pow_value : forall (st : state FN) i j x y st' o, nominal_f st i x -> nominal_f st j y -> ~ (certain st i /\ certain st j) ->
  is_finite x = true -> is_finite y = true -> B2R x < 0 -> B2R y <> 0 -> does st (IBin Bpow i j) st' o ->
  ((~ exists z, B2R y = IZR z) -> o <> ONone) /\
  (o = ONone -> exists w z r, is_number st' (length (st_env st)) w /\ B2R y = IZR z /\ f_pow lm (fabs x) y = Ok (Some r) /\
     uf_nom w = if Z.odd z then fneg r else r).
Proof.
  intros st i j x y st' o Hx Hy U F G Nx Ny D.
  assert (V : o = ONone -> exists w, is_number st' (length (st_env st)) w /\ float_op (N:=FN) Bpow x y = Ok (PNum (PF (N:=FN) (uf_nom w)))).
  { intros ->. exact (operator_value st Bpow i j x y st' Hx Hy U D). }
  destruct (pow_negative lm x y F G Nx Ny) as (P1 & P2). split.
  - intros NI Ho. destruct (V Ho) as (w & _ & W). cbn [float_op] in W. change (n_pow FN x y) with (f_pow lm x y) in W. apply P1 in NI. rewrite NI in W. discriminate W.
  - intros Ho. destruct (V Ho) as (w & W0 & W). cbn [float_op] in W. change (n_pow FN x y) with (f_pow lm x y) in W.
    destruct (is_integral y) eqn:I.
    + apply (is_integral_spec y G) in I. destruct I as (z & Hz). specialize (P2 z Hz). rewrite P2 in W.
      destruct (f_pow lm (fabs x) y) as [[r|]|e]; cbn [rbind] in W; try discriminate W. injection W as W. exists w, z, r. auto.
    + exfalso. assert (NI : ~ exists z, B2R y = IZR z). { intros Q. apply (is_integral_spec y G) in Q. congruence. }
      apply P1 in NI. rewrite NI in W. discriminate W.
Qed.
(** umath.fsum() *)
Theorem fsum_value : forall (st : state FN) is xs st', Forall2 (nominal_f st) is xs -> (exists i, In i is /\ ~ certain st i) ->
  forallb (@is_finite 53 1024) xs = true -> does st (ICall flat_fsum fsum_pos fsum_kw is []) st' ONone ->
  exists w, is_number st' (length (st_env st)) w /\ @is_finite 53 1024 (uf_nom w) = true /\ @B2R 53 1024 (uf_nom w) = rnd64 (Rsum (map B2R xs)).
Proof.
  intros st is xs st' Hx (i & Hi & Un) F (k & H). specialize (H k (Nat.le_refl _)). cbn [step get_kwargs] in H.
  assert (A : exists l, get_args (st_env st) is = Some l /\ floats_of (N:=FN) (map nominal_value l) = Ok xs /\ Forall2 (fun i a => nth_error (st_env st) i = Some a) is l).
  { clear H Hi F. induction Hx as [|i0 x is xs (a & p & Ha & Np & Px) Hx IH]; [exists []; split; [reflexivity|split; [reflexivity|constructor]]|].
    destruct IH as (l & L1 & L2 & L3). exists (a :: l). cbn [get_args]. rewrite Ha, L1. split; [reflexivity|]. split; [|constructor; assumption].
    cbn [map]. rewrite Np. cbn [floats_of]. rewrite Px. cbn [rbind]. rewrite L2. reflexivity. }
  destruct A as (l & L1 & L2 & L3). rewrite L1 in H. unfold push in H.
  destruct (wcall flat_fsum fsum_pos fsum_kw l [] (st_heap st)) as [[v|e'] h'] eqn:Ew; [|discriminate H]. injection H as <-.
  assert (Ul : existsb is_uf l = true).
  { clear - Hi Un L3. induction L3 as [|i0 a is l Ha L3 IH]; [destruct Hi|]. cbn [existsb]. destruct a as [pa|u]; [|reflexivity]. cbn [is_uf orb].
    apply IH. destruct Hi as [->|Hi]; [|exact Hi]. exfalso. apply Un. intros (u & Hu). unfold is_number in Hu. congruence. }
  destruct (wcall_value _ _ _ _ _ _ _ _ _ Ew Ul) as (r & Fr & Cv). cbn [kw_map] in Fr. unfold flat_fsum in Fr. cbn [map] in Fr. rewrite L2 in Fr. cbn [rbind] in Fr.
  change (n_fsum FN xs) with (f_fsum xs) in Fr. destruct (fsum_rounded xs F) as [(z & R1 & R2 & R3 & _)|(R1 & _)]; rewrite R1 in Fr; [|discriminate Fr].
  cbn [rbind] in Fr. injection Fr as <-. destruct Cv as [->|(p & x & lp & Ep & Px & ->)].
  - exfalso. unfold wcall in Ew. rewrite Ul in Ew. cbn [orb negb kw_map map] in Ew. unfold flat_fsum at 1 in Ew. rewrite L2 in Ew. cbn [rbind] in Ew.
    change (n_fsum FN xs) with (f_fsum xs) in Ew. rewrite R1 in Ew. cbn [rbind] in Ew.
    match type of Ew with context[match ?m with Ok _ => _ | Err _ => _ end] => destruct m as [terms|e]; [|discriminate Ew] end.
    cbn [pn_float] in Ew. destruct (alloc_lc _ _). discriminate Ew.
  - injection Ep as <-. injection Px as <-. exists (mkUF (N:=FN) z lp None). split; [|split; [exact R2|exact R3]].
    unfold is_number. cbn [st_env]. rewrite nth_error_app2 by lia. rewrite Nat.sub_diag. reflexivity.
Qed.
(** umath.modf() and umath.ldexp() *)
Theorem modf_value : forall (st : state FN) i x st', nominal_f st i x -> is_finite x = true -> does st (IModf i) st' ONone ->
  exists r, nominal_f st' (length (st_env st)) r /\ is_finite r = true /\ B2R r = B2R x - IZR (Ztrunc (B2R x)) /\ Bsign r = Bsign x.
Proof.
  intros st i x st' (a & p & Ha & Np & Px) F (k & H). specialize (H k (Nat.le_refl _)). cbn [step] in H. rewrite Ha in H.
  destruct (modf_exact x F) as (M1 & _ & _ & M2 & M3 & _). exists (fst (f_modf x)). split; [|auto].
  assert (T : exists u h1, to_affine_scalar (N:=FN) a (st_heap st) = (Ok u, h1) /\ uf_nom u = x).
  { destruct a as [pa|u]; cbn [nominal_value] in Np.
    - subst pa. unfold to_affine_scalar. rewrite Px. destruct (alloc_lc (st_heap st) (LDict [])) as [l h1]. exists (mkUF (N:=FN) x l None), h1. split; reflexivity.
    - injection Np as <-. injection Px as <-. exists u, (st_heap st). split; reflexivity. }
  destruct T as (u & h1 & T & Nu). unfold umath_modf, bind in H. rewrite T, Nu in H. change (n_modf FN x) with (f_modf x) in H.
  destruct (f_modf x) as [fr ip]. cbn [fst].
  destruct (lc_truth (get_lc h1 (uf_lp u))); unfold push in H; injection H as <-;
  (eexists; eexists; split; [cbn [st_env]; rewrite nth_error_app2 by lia; rewrite Nat.sub_diag; reflexivity|split; reflexivity]).
Qed.
Theorem ldexp_value : forall (st : state FN) i e x st', nominal_f st i x -> is_finite x = true -> does st (ILdexp i e) st' ONone ->
  exists r, nominal_f st' (length (st_env st)) r /\ is_finite r = true /\ B2R r = rnd64 (B2R x * bpow radix2 e) /\ Bsign r = Bsign x.
Proof.
  intros st i e x st' (a & p & Ha & Np & Px) F (k & H). specialize (H k (Nat.le_refl _)). cbn [step] in H. rewrite Ha in H.
  assert (T : exists u h1, to_affine_scalar (N:=FN) a (st_heap st) = (Ok u, h1) /\ uf_nom u = x).
  { destruct a as [pa|u]; cbn [nominal_value] in Np.
    - subst pa. unfold to_affine_scalar. rewrite Px. destruct (alloc_lc (st_heap st) (LDict [])) as [l h1]. exists (mkUF (N:=FN) x l None), h1. split; reflexivity.
    - injection Np as <-. injection Px as <-. exists u, (st_heap st). split; reflexivity. }
  destruct T as (u & h1 & T & Nu). unfold umath_ldexp, bind in H. rewrite T, Nu in H. change (n_ldexp FN x e) with (f_ldexp x e) in H.
  assert (Done : forall r v h2, f_ldexp x e = Ok r -> nominal_value v = PNum (PF (N:=FN) r) -> st' = mkState h2 (st_env st ++ [v]) ->
    exists r, nominal_f st' (length (st_env st)) r /\ is_finite r = true /\ B2R r = rnd64 (B2R x * bpow radix2 e) /\ Bsign r = Bsign x).
  { intros r v h2 L Nv ->. exists r. split.
    - exists v, (PF (N:=FN) r). split; [cbn [st_env]; rewrite nth_error_app2 by lia; rewrite Nat.sub_diag; reflexivity|]. split; [exact Nv|reflexivity].
    - destruct (ldexp_rounded x e F) as [(r' & R1 & R2 & R3 & R4 & _)|(R1 & _)]; [|congruence]. assert (r' = r) by congruence. subst r'. auto. }
  destruct (lc_truth (get_lc h1 (uf_lp u))).
  - destruct (f_ldexp x e) as [r|] eqn:L; [|discriminate H]. destruct (two_power e) as [c|]; [|discriminate H].
    destruct (alloc_lc h1 (LList [IPair c (uf_lp u)])) as [l h2]. unfold push in H. injection H as <-. apply (Done r (VUF (mkUF (N:=FN) r l None)) h2); reflexivity.
  - destruct a as [pa|w]; [|discriminate H]. cbn [nominal_value] in Np. subst pa. rewrite Px in H. cbn [rbind] in H.
    change (n_ldexp FN x e) with (f_ldexp x e) in H. destruct (f_ldexp x e) as [r|] eqn:L; cbn [rbind] in H; [|discriminate H].
    unfold push in H. injection H as <-. apply (Done r (VPlain (PNum (PF (N:=FN) r))) h1); reflexivity.
Qed.
End Nominal.
Arguments nominal_f {lm}.
Arguments certain {lm}.

(** ** x % y, x // y, fsum([x, y]), modf(x), ldexp(x, 2) for x = ufloat(-7.5, 1), y = ufloat(2, 1); x**2 and x**0.5 *)
Definition sevens : list (instr FN) := [INew (fl (-15) (-1)) (fl 1 0) None; INew (fl 2 0) (fl 1 0) None; IConst (fl 2 0); IConst (fl 1 (-1))].
Definition sv := after sevens.
(** The step does not depend on the fuel; its result has the given nominal value. *)
Definition gives (ins : instr FN) (x : f64) : bool :=
  match step 0 sv ins with
  | (st, ONone) => match nth_error (st_env st) 4 with Some a => match nominal_value a with PNum (PF r) => is_finite (r : f64) && Beqb (r : f64) x | _ => false end | None => false end
  | _ => false
  end.
Lemma gives_does : forall ins x, gives ins x = true -> (forall fuel, step fuel sv ins = step 0 sv ins) -> is_finite x = true ->
  exists st' (r : f64), does sv ins st' ONone /\ nominal_f st' 4 r /\ B2R r = B2R x.
Proof.
  intros ins x H E F. unfold gives in H. destruct (step 0 sv ins) as [st' o] eqn:S. destruct o; try discriminate H.
  destruct (nth_error (st_env st') 4) as [a|] eqn:A; [|discriminate H]. destruct (nominal_value a) as [[z|r]| | |] eqn:Nv; try discriminate H.
  exists st', r. split; [exists 0%nat; intros fuel _; apply E|]. split; [exists a, (PF (N:=FN) r); auto|].
  apply andb_true_iff in H. destruct H as (H1 & H2). assert (Y := Beqb_correct _ _ (r : f64) x H1 F). assert (Y2 := eq_trans (eq_sym Y) H2).
  destruct (Req_bool_spec (B2R (r : f64)) (B2R x)) as [Y3|]; [exact Y3|discriminate Y2].
Qed.
Definition nominal_is (i : nat) (x : f64) : bool :=
  match nth_error (st_env sv) i with Some a => match nominal_value a with PNum (PF r) => is_finite (r : f64) && Beqb (r : f64) x | _ => false end | None => false end.
Lemma sv_nominal : forall i x, nominal_is i x = true -> is_finite x = true -> exists r, nominal_f sv i r /\ is_finite r = true /\ B2R r = B2R x.
Proof.
  intros i x H F. unfold nominal_is in H. destruct (nth_error (st_env sv) i) as [a|] eqn:A; [|discriminate H].
  destruct (nominal_value a) as [[z|r]| | |] eqn:Nv; try discriminate H. exists r. split; [exists a, (PF (N:=FN) r); auto|].
  apply andb_true_iff in H. destruct H as (H1 & H2). split; [exact H1|]. assert (Y := Beqb_correct _ _ (r : f64) x H1 F). assert (Y2 := eq_trans (eq_sym Y) H2).
  destruct (Req_bool_spec (B2R (r : f64)) (B2R x)) as [Y3|]; [exact Y3|discriminate Y2].
Qed.
Lemma ex_nominal_values :
  (exists x, nominal_f sv 0 x /\ is_finite x = true /\ B2R x = - 15 / 2) /\ (exists x, nominal_f sv 1 x /\ is_finite x = true /\ B2R x = 2) /\
  ~ certain sv 0 /\
  (exists st' (r : f64), does sv (IBin Bmod 0 1) st' ONone /\ nominal_f st' 4 r /\ B2R r = / 2) /\
  (exists st' (r : f64), does sv (IBin Bfloordiv 0 1) st' ONone /\ nominal_f st' 4 r /\ B2R r = -4) /\
  (exists st' (r : f64), does sv (ICall flat_fsum fsum_pos fsum_kw [0; 1]%nat []) st' ONone /\ nominal_f st' 4 r /\ B2R r = - 11 / 2) /\
  (exists st' (r : f64), does sv (IModf 0) st' ONone /\ nominal_f st' 4 r /\ B2R r = - / 2) /\
  (exists st' (r : f64), does sv (ILdexp 0 2) st' ONone /\ nominal_f st' 4 r /\ B2R r = -30) /\
  (exists st' (r : f64), does sv (IBin Bpow 0 2) st' ONone /\ nominal_f st' 4 r /\ B2R r = 225 / 4) /\
  reads sv (IBin Bpow 0 3) (OExn EValue).
Proof.
  assert (V : forall m e r, (m <> 0)%Z -> (Z.abs m < 2 ^ 53)%Z -> (-1074 <= e <= 971)%Z -> IZR m * bpow radix2 e = r -> B2R (fnorm m e) = r /\ is_finite (fnorm m e) = true).
  { intros m e r N Hm He <-. destruct (fnorm_exact m e N Hm He) as (P1 & P2 & _). auto. }
  assert (A : forall i m e r, nominal_is i (fnorm m e) = true -> (m <> 0)%Z -> (Z.abs m < 2 ^ 53)%Z -> (-1074 <= e <= 971)%Z -> IZR m * bpow radix2 e = r ->
    exists x, nominal_f sv i x /\ is_finite x = true /\ B2R x = r).
  { intros i m e r H N Hm He R. destruct (V m e r N Hm He R) as (V1 & V2). destruct (sv_nominal i _ H V2) as (q & Q1 & Q2 & Q3). exists q. rewrite Q3, V1. auto. }
  assert (G : forall ins m e r, gives ins (fnorm m e) = true -> (forall fuel, step fuel sv ins = step 0 sv ins) -> (m <> 0)%Z -> (Z.abs m < 2 ^ 53)%Z -> (-1074 <= e <= 971)%Z -> IZR m * bpow radix2 e = r ->
    exists st' (q : f64), does sv ins st' ONone /\ nominal_f st' 4 q /\ B2R q = r).
  { intros ins m e r H E N Hm He R. destruct (V m e r N Hm He R) as (V1 & V2). destruct (gives_does ins _ H E V2) as (st' & q & D & Q1 & Q2). exists st', q. rewrite Q2, V1. auto. }
  split; [apply (A _ (-15)%Z (-1)%Z); try lia; [vm_compute; reflexivity|simpl; lra]|].
  split; [apply (A _ 2%Z 0%Z); try lia; [vm_compute; reflexivity|simpl; lra]|].
  split. { intros C. apply C. exists (uf_at sv 0). apply has_uf_at. vm_compute. reflexivity. }
  split; [apply (G _ 1%Z (-1)%Z); try lia; [vm_compute; reflexivity|intros; reflexivity|simpl; lra]|].
  split; [apply (G _ (-4)%Z 0%Z); try lia; [vm_compute; reflexivity|intros; reflexivity|simpl; lra]|].
  split; [apply (G _ (-11)%Z (-1)%Z); try lia; [vm_compute; reflexivity|intros; reflexivity|simpl; lra]|].
  split; [apply (G _ (-1)%Z (-1)%Z); try lia; [vm_compute; reflexivity|intros; reflexivity|simpl; lra]|].
  split; [apply (G _ (-30)%Z 0%Z); try lia; [vm_compute; reflexivity|intros; reflexivity|simpl; lra]|].
  split; [apply (G _ 225%Z (-2)%Z); try lia; [vm_compute; reflexivity|intros; reflexivity|simpl; lra]|].
  apply (reads_is 40); [vm_compute; reflexivity|discriminate].
Qed.
