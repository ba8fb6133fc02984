(** Larger standard deviations give larger uncertainties, in binary64. *)
From Coq Require Import ZArith List Bool Arith Lia Reals Lra.
From Flocq Require Import Core IEEE754.BinarySingleNaN.
From Verif Require Import Base NumF Heap HeapProofs Affine Ops UMath Machine Cov Copy Calls Unumpy UMatrix History CallProofs Fuel FRefute Deps AnySpec AnyArith OutcomeSpec Outcome OutcomeCov BiggerSpec.
Import ListNotations.

(** ** Floats that are not negative *)
Definition le (x y : f64) : Prop := Bleb x y = true.
Definition pos (x : f64) : Prop := le f0 x.
Lemma top : forall x : f64, is_nanf x = false -> le x (B754_infinity false).
Proof. intros [s|[]| |[] m e b] H; try discriminate H; reflexivity. Qed.
Lemma le_refl_f : forall x : f64, is_nanf x = false -> le x x.
Proof.
  intros x H. destruct (is_finite x) eqn:F; [|destruct x as [s|[]| |s m e b]; try discriminate; reflexivity].
  unfold le. rewrite Bleb_correct by exact F. apply Rle_bool_true, Rle_refl.
Qed.
Lemma pos_nn : forall x : f64, is_nanf x = false -> ~ negative x -> pos x.
Proof. intros x H Q. rewrite negative_iff in Q. destruct x as [[]|[]| |[] m e b]; try discriminate H; try reflexivity; now elim Q. Qed.
Lemma nn_pos : forall x : f64, pos x -> ~ negative x.
Proof. intros x H. rewrite negative_iff. destruct x as [[]|[]| |[] m e b]; try discriminate H; try discriminate; intros []. Qed.
Lemma le_nan : forall x y : f64, le x y -> is_nanf x = false /\ is_nanf y = false.
Proof. intros [s|[]| |[] m e b] [t|[]| |[] m' e' b'] H; try discriminate H; auto. Qed.
Lemma le_fin : forall x y : f64, is_finite x = true -> is_finite y = true -> (le x y <-> (B2R x <= B2R y)%R).
Proof. intros x y X Y. unfold le. rewrite Bleb_correct by assumption. case Rle_bool_spec; intros; split; auto; [discriminate|lra]. Qed.
Lemma pos_cases : forall x : f64, pos x -> x = B754_infinity false \/ (is_finite x = true /\ (0 <= B2R x)%R).
Proof.
  intros x H. destruct (is_finite x) eqn:F; [right; split; [reflexivity|]; now apply (le_fin f0 x eq_refl F)|]. left. destruct x as [s|[]| |s m e b]; try discriminate; reflexivity.
Qed.
Lemma le_finite : forall x y : f64, pos x -> le x y -> is_finite y = true -> is_finite x = true.
Proof. intros x y P L F. destruct (pos_cases x P) as [->|(Q & _)]; [|exact Q]. destruct y as [t|[]| |[] m e b]; try discriminate F; discriminate L. Qed.

Lemma round_le_f : forall a b, (a <= b)%R -> (round radix2 (SpecFloat.fexp 53 1024) (round_mode mode_NE) a <= round radix2 (SpecFloat.fexp 53 1024) (round_mode mode_NE) b)%R.
Proof. intros a b H. apply round_le; [apply (fexp_correct 53 1024); reflexivity|apply valid_rnd_N|exact H]. Qed.
Lemma add_fin : forall x y : f64, is_finite (fadd x y) = true -> is_finite x = true /\ is_finite y = true.
Proof. intros [s|[]| |s m e b] [t|[]| |t m' e' b'] H; try discriminate H; auto. Qed.
Lemma grow_add : forall x x' y y' : f64, pos x -> pos y -> le x x' -> le y y' -> le (fadd x y) (fadd x' y').
Proof.
  intros x x' y y' Px Py Lx Ly.
  assert (P : forall a b, pos a -> le a b -> pos b).
  { intros a b Pa Lb. apply pos_nn; [exact (proj2 (le_nan _ _ Lb))|]. rewrite negative_iff. destruct a as [[]|[]| |[] m e c], b as [[]|[]| |[] m' e' c']; try discriminate Pa; try discriminate Lb; try discriminate; intros []. }
  assert (Px' := P _ _ Px Lx). assert (Py' := P _ _ Py Ly).
  assert (Nn : forall a b : f64, pos a -> pos b -> is_nanf (fadd a b) = false).
  { intros a b Pa Pb. destruct (pos_cases a Pa) as [->|(Fa & _)]; [destruct (pos_cases b Pb) as [->|(Fb & _)]; [reflexivity|]; destruct b; try discriminate Fb; reflexivity|].
    destruct (pos_cases b Pb) as [->|(Fb & _)]; [destruct a; try discriminate Fa; reflexivity|].
    pose proof (Bplus_correct 53 1024 prec_gt_0_64 prec_lt_emax_64 mode_NE a b Fa Fb) as C. fold (fadd a b) in C.
    revert C. case Rlt_bool; intros C; [destruct C as (_ & C & _); destruct (fadd a b); try discriminate C; reflexivity|]. destruct C as (C & _). destruct (fadd a b); try discriminate C; reflexivity. }
  assert (N1 := Nn _ _ Px Py). assert (N2 := Nn _ _ Px' Py').
  assert (Q := nn_add _ _ (nn_pos _ Px') (nn_pos _ Py')). destruct (pos_cases _ (pos_nn _ N2 Q)) as [E|(F & _)]; [rewrite E; now apply top|].
  destruct (add_fin _ _ F) as (Fx' & Fy'). assert (Fx := le_finite _ _ Px Lx Fx'). assert (Fy := le_finite _ _ Py Ly Fy').
  apply le_fin in Lx; [|assumption|assumption]. apply le_fin in Ly; [|assumption|assumption]. apply (le_fin f0 x eq_refl Fx) in Px. apply (le_fin f0 y eq_refl Fy) in Py. cbn [B2R f0] in Px, Py.
  pose proof (Bplus_correct 53 1024 prec_gt_0_64 prec_lt_emax_64 mode_NE x' y' Fx' Fy') as C'. fold (fadd x' y') in C'.
  pose proof (Bplus_correct 53 1024 prec_gt_0_64 prec_lt_emax_64 mode_NE x y Fx Fy) as C. fold (fadd x y) in C.
  assert (M := round_le_f (B2R x + B2R y) (B2R x' + B2R y') ltac:(lra)). assert (Z := round_nn (B2R x + B2R y) ltac:(change (B2R f0) with 0%R in *; lra)).
  revert C'. case Rlt_bool_spec; intros B' C'; [|destruct C' as (C' & _); destruct (fadd x' y'); try discriminate C'; discriminate F].
  destruct C' as (R' & _). rewrite Rlt_bool_true in C by (rewrite Rabs_pos_eq in * by lra; lra). destruct C as (Rr & Fr & _). apply le_fin; [exact Fr|exact F|]. rewrite Rr, R'. exact M.
Qed.
Lemma abs_nan : forall x : f64, is_nanf (fabs x) = is_nanf x.
Proof. intros [s|s| |s m e b]; reflexivity. Qed.
Lemma abs_fin : forall x : f64, is_finite (fabs x) = is_finite x.
Proof. intros [s|s| |s m e b]; reflexivity. Qed.
Lemma abs_real : forall x : f64, B2R (fabs x) = Rabs (B2R x).
Proof. intros x. unfold fabs. apply B2R_Babs. Qed.
Lemma abs_pos : forall x : f64, is_nanf x = false -> pos (fabs x).
Proof. intros x H. apply pos_nn; [now rewrite abs_nan|apply nn_abs]. Qed.
Lemma mul_fin : forall x y : f64, is_finite (fmul x y) = true -> is_finite x = true /\ is_finite y = true.
Proof. intros [s|s| |s m e b] [t|t| |t m' e' b'] H; try discriminate H; auto. Qed.
(** |x*s| <= |y*t| for |x| <= |y| and |s| <= |t|. *)
Lemma grow_mul : forall x y s t : f64, le (fabs x) (fabs y) -> le (fabs s) (fabs t) -> is_nanf (fmul x s) = false -> is_nanf (fmul y t) = false -> le (fabs (fmul x s)) (fabs (fmul y t)).
Proof.
  intros x y s t Lx Ls N1 N2. destruct (pos_cases _ (abs_pos _ N2)) as [E|(F & _)]; [rewrite E; apply top; now rewrite abs_nan|]. rewrite abs_fin in F.
  destruct (mul_fin _ _ F) as (Fy & Ft). destruct (le_nan _ _ Lx) as (Nx & _). destruct (le_nan _ _ Ls) as (Ns & _). rewrite abs_nan in Nx, Ns.
  assert (Fx : is_finite x = true) by (rewrite <- abs_fin; eapply le_finite; [apply abs_pos; exact Nx|exact Lx|now rewrite abs_fin]).
  assert (Fs : is_finite s = true) by (rewrite <- abs_fin; eapply le_finite; [apply abs_pos; exact Ns|exact Ls|now rewrite abs_fin]).
  apply le_fin in Lx; [|now rewrite abs_fin|now rewrite abs_fin]. apply le_fin in Ls; [|now rewrite abs_fin|now rewrite abs_fin]. rewrite !abs_real in Lx, Ls.
  pose proof (Bmult_correct 53 1024 prec_gt_0_64 prec_lt_emax_64 mode_NE x s) as C. fold (fmul x s) in C.
  pose proof (Bmult_correct 53 1024 prec_gt_0_64 prec_lt_emax_64 mode_NE y t) as C'. fold (fmul y t) in C'.
  assert (M : (Rabs (round radix2 (SpecFloat.fexp 53 1024) (round_mode mode_NE) (B2R x * B2R s)) <= Rabs (round radix2 (SpecFloat.fexp 53 1024) (round_mode mode_NE) (B2R y * B2R t)))%R).
  { rewrite <- !round_NE_abs by (apply (fexp_correct 53 1024); reflexivity). apply round_le_f. rewrite !Rabs_mult. apply Rmult_le_compat; auto using Rabs_pos. }
  revert C'. case Rlt_bool_spec; intros B' C'; [|destruct (fmul y t); try discriminate C'; discriminate F].
  destruct C' as (R' & _). rewrite Rlt_bool_true in C by (eapply Rle_lt_trans; [exact M|exact B']). destruct C as (Rr & Fr & _). rewrite Fx, Fs in Fr.
  apply le_fin; [now rewrite abs_fin|now rewrite abs_fin|]. rewrite !abs_real, Rr, R'. exact M.
Qed.
Lemma grow_sqrt : forall x y s t : f64, pos x -> le x y -> f_sqrt x = Ok s -> f_sqrt y = Ok t -> le s t.
Proof.
  intros x y s t P L S T. unfold f_sqrt in *. destruct (Bltb x f0) eqn:Ex; [discriminate S|]. destruct (Bltb y f0) eqn:Ey; [discriminate T|]. injection S as <-. injection T as <-.
  destruct (Bsqrt_correct 53 1024 prec_gt_0_64 prec_lt_emax_64 mode_NE x) as (Rx & Fx & _). destruct (Bsqrt_correct 53 1024 prec_gt_0_64 prec_lt_emax_64 mode_NE y) as (Ry & Fy & _).
  assert (Nx : is_nanf (Bsqrt mode_NE x) = false).
  { destruct (pos_cases x P) as [->|(F & _)]; [reflexivity|]. destruct x as [u| | |[] m e b]; try discriminate F; try discriminate P; [reflexivity|]. destruct (Bsqrt mode_NE (B754_finite false m e b)); try discriminate Fx; reflexivity. }
  destruct (is_finite y) eqn:F.
  - assert (Fx' := le_finite _ _ P L F). apply le_fin in L; [|assumption|assumption]. apply le_fin.
    + rewrite Fx. destruct x as [u| | |[] m e b]; try discriminate Fx'; try discriminate P; reflexivity.
    + rewrite Fy. destruct y as [u| | |[] m e b]; try discriminate F; try discriminate Ey; reflexivity.
    + rewrite Rx, Ry. apply round_le_f. now apply sqrt_le_1_alt.
  - destruct y as [u|[]| |u m e b]; try discriminate F; try discriminate Ey; [|destruct (proj2 (le_nan _ _ L)); discriminate]. apply top. exact Nx.
Qed.

(** ** Sums of squares *)
Section Sums.
Variables (lm : Libm) (SG : squares_grow lm).
Notation FN := (FOps lm).
Definition okp (p : pynum FN) : Prop := match p with PZ z => z = 0%Z | PF _ => True end.
Definition pv (p : pynum FN) : f64 := match p with PZ _ => f0 | PF x => x end.
Definition fine (p : pynum FN) : Prop := okp p /\ is_nanf (pv p) = false.
Definition below_p (p q : pynum FN) : Prop := okp p /\ okp q /\ pos (pv p) /\ le (pv p) (pv q).
Lemma square_value : forall p q, okp p -> pn_square p = Ok q -> okp q /\ f_pow lm (pv p) ftwo = Ok (Some (pv q)).
Proof.
  intros [z|x] q O H; cbn [pn_square okp pv] in *.
  - subst z. injection H as <-. split; reflexivity.
  - unfold n_powf in H. change (n_pow FN x (n_two FN)) with (f_pow lm x ftwo) in H. destruct (f_pow lm x ftwo) as [[r|]|] eqn:E; try discriminate H. injection H as <-. split; [exact I|reflexivity].
Qed.
Lemma add_value : forall p q r, okp p -> okp q -> pn_add p q = Ok r -> okp r /\ pv r = fadd (pv p) (pv q).
Proof. intros [z|x] [y|w] r X Y H; cbn [okp pv] in *; subst; unfold pn_add in H; rewrite ?(float_zero lm) in H; injection H as <-; split; (reflexivity || exact I). Qed.
Lemma square_zero : f_pow lm f0 ftwo = Ok (Some f0).
Proof. reflexivity. Qed.
Lemma square_below : forall p q p2 q2, below_p p q -> pn_square p = Ok p2 -> pn_square q = Ok q2 -> below_p p2 q2.
Proof.
  intros p q p2 q2 (Op & Oq & P & L) Hp Hq. destruct (square_value _ _ Op Hp) as (Op2 & Ep). destruct (square_value _ _ Oq Hq) as (Oq2 & Eq).
  split; [exact Op2|]. split; [exact Oq2|]. split; [exact (SG f0 (pv p) f0 (pv p2) eq_refl P square_zero Ep)|]. exact (SG (pv p) (pv q) (pv p2) (pv q2) P L Ep Eq).
Qed.
Lemma add_below : forall p q p' q' r r', below_p p p' -> below_p q q' -> pn_add p q = Ok r -> pn_add p' q' = Ok r' -> below_p r r'.
Proof.
  intros p q p' q' r r' (Op & Op' & P & L) (Oq & Oq' & P2 & L2) H H'. destruct (add_value _ _ _ Op Oq H) as (O & E). destruct (add_value _ _ _ Op' Oq' H') as (O' & E').
  split; [exact O|]. split; [exact O'|]. rewrite E, E'. assert (G := grow_add _ _ _ _ P P2 L L2). split; [|exact G]. apply pos_nn; [exact (proj1 (le_nan _ _ G))|]. apply nn_add; now apply nn_pos.
Qed.
Lemma sum_below : forall l l', Forall2 below_p l l' -> forall acc acc' r r', below_p acc acc' -> sum_squares acc l = Ok r -> sum_squares acc' l' = Ok r' -> below_p r r'.
Proof.
  intros l l' F. induction F as [|p p' l l' B F IH]; intros acc acc' r r' A H H'; cbn [sum_squares] in *; [injection H as <-; injection H' as <-; exact A|].
  destruct (pn_square p) as [s|] eqn:S; [|discriminate H]. destruct (pn_square p') as [s'|] eqn:S'; [|discriminate H']. cbn [rbind] in H, H'.
  destruct (pn_add acc s) as [a|] eqn:Q; [|discriminate H]. destruct (pn_add acc' s') as [a'|] eqn:Q'; [|discriminate H']. cbn [rbind] in H, H'.
  exact (IH _ _ _ _ (add_below _ _ _ _ _ _ A (square_below _ _ _ _ B S S') Q Q') H H').
Qed.
Lemma sum_fine : forall l acc r, Forall okp l -> okp acc -> sum_squares acc l = Ok r -> okp r /\ (is_nanf (pv r) = false -> is_nanf (pv acc) = false /\ Forall (fun p => is_nanf (pv p) = false) l).
Proof.
  induction l as [|p l IH]; intros acc r F A H; cbn [sum_squares] in H; [injection H as <-; split; auto|]. apply List.Forall_cons_iff in F as (Fp & F).
  destruct (pn_square p) as [s|] eqn:S; [|discriminate H]. cbn [rbind] in H. destruct (pn_add acc s) as [a|] eqn:Q; [|discriminate H]. cbn [rbind] in H.
  destruct (square_value _ _ Fp S) as (Os & Es). destruct (add_value _ _ _ A Os Q) as (Oa & Ea). destruct (IH _ _ F Oa H) as (Or & K). split; [exact Or|]. intros Nr.
  destruct (K Nr) as (Na & Nl). rewrite Ea in Na.
  assert (X : is_nanf (pv acc) = false /\ is_nanf (pv s) = false) by (destruct (pv acc) as [? |? | |? ? ? ?], (pv s) as [? |? | |? ? ? ?]; try discriminate Na; auto). destruct X as (X1 & X2). split; [exact X1|].
  constructor; [|exact Nl]. destruct (is_nanf (pv p)) eqn:Np; [|reflexivity]. destruct (pv p); try discriminate Np. injection Es as E. rewrite <- E in X2. discriminate X2.
Qed.
Lemma abs_le : forall s t : f64, pos s -> le s t -> le (fabs s) (fabs t).
Proof. intros [[]|[]| |[] m e b] [[]|[]| |[] m' e' b'] P L; try discriminate P; try discriminate L; try reflexivity; exact L. Qed.
Lemma zero_below : forall s t : f64, pos s -> le s t -> Beqb t f0 = true -> Beqb s f0 = true.
Proof. intros [[]|[]| |[] m e b] [[]|[]| |[] m' e' b'] P L E; try discriminate P; try discriminate L; try discriminate E; reflexivity. Qed.
Lemma mul_nan : forall x y : f64, is_nanf (fmul x y) = false -> is_nanf x = false /\ is_nanf y = false.
Proof. intros [s|s| |s m e b] [t|t| |t m' e' b'] H; try discriminate H; auto. Qed.
Lemma okp_component : forall s x : f64, okp (component (N:=FN) s x).
Proof. intros s x. unfold component. destruct (n_eq FN s (n_zero FN)); [reflexivity|exact I]. Qed.
Lemma component_below : forall x s t : f64, s = t \/ (pos s /\ le s t) -> is_nanf (pv (component (N:=FN) s x)) = false -> is_nanf (pv (component (N:=FN) t x)) = false ->
  below_p (component (N:=FN) s x) (component (N:=FN) t x).
Proof.
  intros x s t H Ns Nt. split; [apply okp_component|]. split; [apply okp_component|]. revert Ns Nt. unfold component. change (n_eq FN s (n_zero FN)) with (Beqb s f0). change (n_eq FN t (n_zero FN)) with (Beqb t f0).
  destruct (Beqb s f0) eqn:Es; cbn [pv].
  - intros _. destruct (Beqb t f0); cbn [pv]; [split; reflexivity|]. change (n_abs FN (n_mul FN x t)) with (fabs (fmul x t)). rewrite abs_nan. intros Nt. split; [reflexivity|]. now apply abs_pos.
  - destruct (Beqb t f0) eqn:Et; cbn [pv].
    + exfalso. destruct H as [->|(P & L)]; [congruence|]. rewrite (zero_below s t P L Et) in Es. discriminate Es.
    + change (n_abs FN (n_mul FN x s)) with (fabs (fmul x s)). change (n_abs FN (n_mul FN x t)) with (fabs (fmul x t)). rewrite !abs_nan. intros Ns Nt. split; [now apply abs_pos|].
      apply grow_mul; [|destruct H as [<-|(P & L)]; [|now apply abs_le]|exact Ns|exact Nt]; apply le_refl_f; rewrite abs_nan; now destruct (mul_nan _ _ Ns).
Qed.
Lemma sqrt_value : forall (p : pynum FN) s, okp p -> pn_sqrt p = Ok s -> f_sqrt (pv p) = Ok (s : f64).
Proof. intros [z|x] s O H; unfold pn_sqrt in H; cbn [okp] in O; subst; rewrite ?(float_zero lm) in H; exact H. Qed.
Lemma sqrt_nan : forall x s : f64, f_sqrt x = Ok s -> is_nanf s = false -> is_nanf x = false.
Proof. intros x s H Q. unfold f_sqrt in H. destruct (Bltb x f0); [discriminate H|]. injection H as <-. destruct x; try reflexivity. discriminate Q. Qed.
Lemma roots_below : forall (d : dict FN) (f g : varid -> f64) s t, (forall v, In v (dkeys d) -> f v = g v \/ (pos (f v) /\ le (f v) (g v))) ->
  root_of_squares (N:=FN) (map (fun p => component (N:=FN) (f (fst p)) (snd p)) d) = Ok s -> root_of_squares (N:=FN) (map (fun p => component (N:=FN) (g (fst p)) (snd p)) d) = Ok t ->
  is_nanf (s : f64) = false -> is_nanf (t : f64) = false -> le s t.
Proof.
  intros d f g s t H Hs Ht Ns Nt. unfold root_of_squares in Hs, Ht. rewrite sum_fold in Hs, Ht. cbn [rbind] in Hs, Ht.
  destruct (sum_squares (N:=FN) (PZ 0) (map (fun p => component (N:=FN) (f (fst p)) (snd p)) d)) as [q|] eqn:Q; [|discriminate Hs].
  destruct (sum_squares (N:=FN) (PZ 0) (map (fun p => component (N:=FN) (g (fst p)) (snd p)) d)) as [r|] eqn:R; [|discriminate Ht]. cbn [rbind] in Hs, Ht.
  assert (K : forall k : varid -> f64, Forall okp (map (fun p => component (N:=FN) (k (fst p)) (snd p)) d)).
  { intros k. apply List.Forall_forall. intros p Hp. apply in_map_iff in Hp as (x & <- & _). apply okp_component. }
  destruct (sum_fine _ (PZ 0) _ (K f) eq_refl Q) as (Oq & Kq). destruct (sum_fine _ (PZ 0) _ (K g) eq_refl R) as (Or & Kr).
  assert (Hs' := sqrt_value q s Oq Hs). assert (Ht' := sqrt_value r t Or Ht).
  destruct (Kq (sqrt_nan _ _ Hs' Ns)) as (_ & Fq). destruct (Kr (sqrt_nan _ _ Ht' Nt)) as (_ & Fr).
  assert (B : Forall2 below_p (map (fun p => component (N:=FN) (f (fst p)) (snd p)) d) (map (fun p => component (N:=FN) (g (fst p)) (snd p)) d)).
  { clear - H Fq Fr. induction d as [|[v x] d IH]; cbn [map] in *; [constructor|]. apply List.Forall_cons_iff in Fq as (A & Fq). apply List.Forall_cons_iff in Fr as (B & Fr).
    constructor; [|apply IH; auto; intros w Hw; apply H; now right]. cbn [fst snd] in *. apply component_below; [apply H; now left|exact A|exact B]. }
  assert (Z : below_p (PZ 0) (PZ 0)) by (split; [reflexivity|]; split; [reflexivity|]; split; reflexivity).
  destruct (sum_below _ _ B _ _ _ _ Z Q R) as (_ & _ & P & L). exact (grow_sqrt _ _ _ _ P L Hs' Ht').
Qed.

(** ** Reads *)
Lemma reads_one : forall (st : state FN) ins o o', reads st ins o -> reads st ins o' -> o = o'.
Proof. intros st ins o o' (s & k & H) (s' & k' & H'). specialize (H (k + k')%nat ltac:(lia)). specialize (H' (k + k')%nat ltac:(lia)). congruence. Qed.
Lemma deviation_formula : forall (st : state FN) i u ins s, is_number st i u -> ins = IStdS i \/ (ins = IStd i /\ uf_var u = None) -> reads st ins (ONum s) ->
  exists d, reads st (IDeriv i) (ODict d) /\ root_of_squares (N:=FN) (map (fun p => component (N:=FN) (sd st (fst p)) (snd p)) d) = Ok s.
Proof.
  intros st i u ins s U A Q. assert (Q0 := Q). destruct Q as (st' & k & Q). specialize (Q k (le_n _)). assert (U' := U). unfold is_number in U'.
  assert (X : observe st ONum (std_dev_affine k u (st_heap st)) = (st', ONum s)).
  { destruct A as [->|[-> V]]; cbn [step] in Q; unfold with_uf, with_val in Q; rewrite U' in Q; [exact Q|]. unfold std_dev in Q. now rewrite V in Q. }
  unfold observe in X. destruct (std_dev_affine k u (st_heap st)) as [[s0|] h'] eqn:D; [|discriminate X]. clear X. unfold std_dev_affine in D. apply bind_ok in D as (e & h1 & D & _).
  assert (E : reads st (IErrs i) (OErrs e)).
  { apply (reads_step k); [|discriminate]. cbn [step]. unfold with_uf, with_val. rewrite U'. unfold observe. now rewrite D. }
  unfold error_components in D. apply bind_ok in D as (d & h2 & D & _). assert (Rd := deriv_reads lm _ _ _ _ _ _ U D). exists d. split; [exact Rd|].
  assert (Y := std_any st i u e ins U E A). rewrite (components_any st i u d e U Rd E), map_map in Y. assert (Z := reads_one _ _ _ _ Q0 Y).
  destruct (root_of_squares (map _ d)) as [s1|] eqn:Er in Z; [|discriminate Z]. injection Z as <-. exact Er.
Qed.
End Sums.
Theorem larger_deviation : forall lm, squares_grow lm -> forall (st : state (FOps lm)) j w v p st' i u ins s t,
  is_number st j w -> uf_var w = Some v -> does st (ISet j p) st' ONone -> Bleb f0 (sd st v) = true -> Bleb (sd st v) (sd st' v) = true ->
  is_number st i u -> ins = IStdS i \/ (ins = IStd i /\ uf_var u = None) -> reads st ins (ONum (N:=FOps lm) s) -> reads st' ins (ONum (N:=FOps lm) t) ->
  is_nanf s = false -> is_nanf t = false -> Bleb s t = true.
Proof.
  intros lm SG st j w v p st' i u ins s t W V D P L U A Rs Rt Ns Nt. destruct (set_any st j w v p st' W V D) as (En & _ & Sd & Dr).
  assert (U' : is_number st' i u) by (unfold is_number in *; now rewrite En).
  destruct (deviation_formula lm st i u ins s U A Rs) as (d & Rd & Fs). destruct (deviation_formula lm st' i u ins t U' A Rt) as (d' & Rd' & Ft).
  assert (X := reads_one lm _ _ _ _ (proj1 (Dr i _) Rd) Rd'). injection X as <-.
  refine (roots_below lm SG d (sd st) (sd st') s t _ Fs Ft Ns Nt). intros x _. destruct (Nat.eq_dec x v) as [->|Hn]; [right; split; assumption|left; now rewrite Sd].
Qed.
Lemma one_real : B2R fone = 1%R.
Proof. cbv [fone]; cbn; unfold F2R; cbn; lra. Qed.
(** The square rounded to the nearest. *)
Theorem exact_squares_grow : forall lm, exact_squares lm -> squares_grow lm.
Proof.
  intros lm E a b x y P L X Y.
  assert (Q : forall a x : f64, pos a -> f_pow lm a ftwo = Ok (Some x) -> (x = fmul a a \/ (x = fone /\ Beqb (fabs a) fone = true)) /\ is_nanf x = false).
  { clear - E. intros a x P X. unfold f_pow in X. change (Beqb ftwo f0) with false in X. change (is_nanf ftwo) with false in X. change (is_inf ftwo) with false in X. change (is_odd_int ftwo) with false in X.
    change (is_integral ftwo) with true in X. change (Bltb f0 ftwo) with true in X. change (Bltb ftwo f0) with false in X. cbv zeta iota in X. rewrite !andb_false_r in X.
    destruct (is_nanf a) eqn:Na; [destruct a; try discriminate Na; discriminate P|]. destruct (is_inf a) eqn:Ia; [injection X as <-; destruct a as [|[]| |]; try discriminate Ia; try discriminate P; split; [now left|reflexivity]|].
    destruct (Beqb a f0) eqn:Za; [injection X as <-; destruct a as [[]|[]| |[] m e b]; try discriminate Za; split; [now left|reflexivity|now left|reflexivity]|].
    destruct (Beqb (fabs a) fone) eqn:Oa; [injection X as <-; split; [right; split; reflexivity|reflexivity]|].
    rewrite E in X. assert (Fa : fabs a = a) by (destruct a as [s|[]| |[] m e b]; try discriminate Za; try discriminate P; try discriminate Na; reflexivity). rewrite Fa in X.
    destruct (is_inf (fmul a a)); [discriminate X|]. injection X as <-. split; [now left|].
    pose proof (Bmult_correct 53 1024 prec_gt_0_64 prec_lt_emax_64 mode_NE a a) as C. fold (fmul a a) in C. assert (Fi : is_finite a = true) by (destruct a; try discriminate Ia; try discriminate Na; reflexivity).
    revert C. case Rlt_bool; intros C; [destruct C as (_ & C & _); rewrite Fi in C; destruct (fmul a a); try discriminate C; reflexivity|]. destruct (fmul a a); try discriminate C; reflexivity. }
  assert (Pb : pos b).
  { apply pos_nn; [exact (proj2 (le_nan _ _ L))|]. rewrite negative_iff. clear - P L. destruct a as [[]|[]| |[] m e c], b as [[]|[]| |[] m' e' c']; try discriminate P; try discriminate L; try discriminate; intros []. }
  assert (Z : forall a x : f64, pos a -> f_pow lm a ftwo = Ok (Some x) -> is_nanf (fmul a a) = false /\ le x (fmul a a) /\ le (fmul a a) x /\ pos x).
  { intros a0 x0 P0 X0. destruct (Q a0 x0 P0 X0) as ([->|(-> & O)] & N0).
    - split; [exact N0|]. split; [now apply le_refl_f|]. split; [now apply le_refl_f|]. apply pos_nn; [exact N0|apply nn_self].
    - assert (Fa : is_finite a0 = true) by (destruct a0 as [[]|[]| |[] m e c]; try discriminate O; reflexivity).
      assert (Ra : Rabs (B2R a0) = 1%R).
      { rewrite <- abs_real. assert (Fb : is_finite (fabs a0) = true) by now rewrite abs_fin. rewrite Beqb_correct in O by (exact Fb || reflexivity). revert O. case Req_bool_spec; intros O O'; [|discriminate O']. rewrite O. exact one_real. }
      pose proof (Bmult_correct 53 1024 prec_gt_0_64 prec_lt_emax_64 mode_NE a0 a0) as C. fold (fmul a0 a0) in C.
      assert (S1 : (B2R a0 * B2R a0 = 1)%R) by (rewrite <- Rabs_pos_eq with (x := (B2R a0 * B2R a0)%R); [rewrite Rabs_mult, Ra; lra|apply Rle_0_sqr]). rewrite S1 in C.
      assert (R1 : round radix2 (SpecFloat.fexp 53 1024) (round_mode mode_NE) 1 = 1%R).
      { apply round_generic; [apply valid_rnd_N|]. change 1%R with (bpow radix2 0). apply generic_format_bpow. cbv. discriminate. }
      rewrite R1 in C. rewrite Rlt_bool_true in C by (rewrite Rabs_R1; change 1%R with (bpow radix2 0); apply bpow_lt; reflexivity). destruct C as (C1 & C2 & _). rewrite Fa in C2.
      assert (F1 := one_real).
      split; [destruct (fmul a0 a0); try discriminate C2; reflexivity|]. split; [apply le_fin; [reflexivity|exact C2|rewrite C1, F1; lra]|]. split; [apply le_fin; [exact C2|reflexivity|rewrite C1, F1; lra]|reflexivity]. }
  destruct (Z a x P X) as (Na & A1 & A2 & Px). destruct (Z b y Pb Y) as (Nb & B1 & B2 & Py).
  assert (Pf : forall c : f64, is_nanf (fmul c c) = false -> pos (fmul c c)) by (intros c Nc; apply pos_nn; [exact Nc|apply nn_self]).
  assert (Ab : forall c : f64, pos c -> fabs c = c \/ (c = B754_zero true)) by (intros [[]|[]| |[] m e c] Pc; try discriminate Pc; auto).
  assert (M : le (fmul a a) (fmul b b)).
  { assert (G := grow_mul a b a b (abs_le a b P L) (abs_le a b P L) Na Nb). destruct (Ab _ (Pf a Na)) as [Ea|Ea]; destruct (Ab _ (Pf b Nb)) as [Eb|Eb]; rewrite ?Ea, ?Eb in *; exact G || (destruct (fmul a a), (fmul b b); exact G). }
  assert (T : forall u v w : f64, pos u -> le u v -> le v w -> le u w).
  { intros u v w Pu Lu Lv. destruct (le_nan _ _ Lu) as (Nu & _). destruct (is_finite w) eqn:Fw.
    - assert (Pv : pos v) by (apply pos_nn; [exact (proj2 (le_nan _ _ Lu))|]; rewrite negative_iff; clear - Pu Lu; destruct u as [[]|[]| |[] m e c], v as [[]|[]| |[] m' e' c']; try discriminate Pu; try discriminate Lu; try discriminate; intros []).
      assert (Fv := le_finite _ _ Pv Lv Fw). assert (Fu := le_finite _ _ Pu Lu Fv). apply le_fin in Lu; [|assumption|assumption]. apply le_fin in Lv; [|assumption|assumption]. apply le_fin; [assumption|assumption|lra].
    - destruct w as [|[]| |]; try discriminate Fw; [destruct v as [[]|[]| |[] m e c]; try discriminate Lv; destruct u as [[]|[]| |[] m e c]; try discriminate Lu; try discriminate Pu|now apply top|destruct v as [[]|[]| |[] m e c]; discriminate Lv]. }
  exact (T x (fmul b b) y Px (T x (fmul a a) (fmul b b) Px A1 M) B2).
Qed.
