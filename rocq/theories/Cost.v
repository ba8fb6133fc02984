(** The number of steps needed to read the uncertainty of a number. *)
From Coq Require Import String.
From Coq Require Import ZArith List Bool Arith Lia.
From Verif Require Import Base Heap Affine Ops HeapProofs.
Import ListNotations.

Section Cost.
Context {N : NumOps}.

(** * Specification *)

(** Reading the derivatives of [u] takes [n] iterations of the loop that expands linear combinations
    (the last test included): it is not finished with less, and finished with [n] or more. *)
Definition steps (h : heap N) (u : uf N) (n : nat) : Prop :=
  forall fuel, fst (derivatives fuel u h) = Err EFuel <-> (fuel < n)%nat.
(** At any time, at most [k] terms are waiting to be expanded. *)
Definition pending (h : heap N) (u : uf N) (k : nat) : Prop :=
  forall fuel h', derivatives fuel u h = (Err EFuel, h') ->
    exists its, get_lc h' (uf_lp u) = LList its /\ (length its <= k)%nat.
(** Variables, and numbers whose derivatives have been read. *)
Definition is_read (h : heap N) (u : uf N) : Prop :=
  (uf_lp u < length (h_lc h))%nat /\ exists d, get_lc h (uf_lp u) = LDict d.
(** The tree of a calculation, as made of the numbers that have not been read: a number used several times
    counts each time. *)
Inductive tree (h : heap N) : loc -> nat -> Prop :=
| tr_read : forall l d, get_lc h l = LDict d -> tree h l 1
| tr_unread : forall l its ns, get_lc h l = LList its ->
    Forall2 (fun it n => exists c l', it = IPair (PF c) l' /\ (l' < l)%nat /\ tree h l' n) its ns ->
    tree h l (S (list_sum ns)).
(** sum(us, a). *)
Fixpoint py_sum (a : value N) (us : list (uf N)) : M N (value N) :=
  match us with [] => ret a | u :: us' => bind (py_binop Badd a (VUF u)) (fun r => py_sum r us') end.
(** y = y op y, n times. *)
Fixpoint self_op (op : binop) (n : nat) (a : value N) : M N (value N) :=
  match n with O => ret a | S n' => bind (py_binop op a a) (fun r => self_op op n' r) end.

(** * Proofs *)
Definition tstack (h : heap N) (l : loc) (st : list (item N)) (ns : list nat) : Prop :=
  Forall2 (fun it n => exists c l', it = IPair (PF c) l' /\ (l' < l)%nat /\ tree h l' n) st ns.

Lemma tree_pos : forall h l n, tree h l n -> (1 <= n)%nat.
Proof. intros h l n H. destruct H; lia. Qed.
Lemma tree_set : forall h l x l' n, (l' < l)%nat -> tree h l' n -> tree (set_lc h l x) l' n.
Proof.
  intros h l x l'. induction l' as [l' IH] using lt_wf_ind. intros n Hl H. inversion H as [? d E|? its ns E F]; subst.
  - eapply tr_read. rewrite get_set_neq by lia. exact E.
  - eapply tr_unread; [rewrite get_set_neq by lia; exact E|]. clear E H. induction F as [|it n its ns (c & k & -> & Hk & T) F IHF]; constructor; [|exact IHF].
    exists c, k. split; [reflexivity|]. split; [exact Hk|]. apply IH; [exact Hk|lia|exact T].
Qed.
Lemma tstack_set : forall h l x l' st ns, (l' <= l)%nat -> tstack h l' st ns -> tstack (set_lc h l x) l' st ns.
Proof.
  intros h l x l' st ns Hl H. induction H as [|it n st ns (c & k & -> & Hk & T) F IHF]; constructor; [|exact IHF].
  exists c, k. split; [reflexivity|]. split; [exact Hk|]. apply tree_set; [lia|exact T].
Qed.
Lemma tstack_mono : forall h l l' st ns, (l' <= l)%nat -> tstack h l' st ns -> tstack h l st ns.
Proof.
  intros h l l' st ns Hl H. induction H as [|it n st ns (c & k & -> & Hk & T) F IHF]; constructor; [|exact IHF].
  exists c, k. split; [reflexivity|]. split; [lia|exact T].
Qed.
Lemma acc_float : forall c (d acc : dict N), exists acc', acc_dict (PF c) d acc = Ok acc'.
Proof. intros c d. induction d as [|(v & f) d IH]; intro acc; [exists acc; reflexivity|]. cbn [acc_dict]. unfold cmul. cbn [pn_float rbind]. apply IH. Qed.
Lemma push_float : forall h l c its ns st, tstack h l its ns -> exists its', push_items (PF c) its st = (rev its' ++ st, None) /\ tstack h l its' ns.
Proof.
  intros h l c its ns st H. revert st. induction H as [|it n its ns (c' & k & -> & Hk & T) F IH]; intro st.
  - exists []. split; [reflexivity|constructor].
  - cbn [push_items pn_mul pn_float rbind]. destruct (IH (IPair (PF (n_mul N c c')) k :: st)) as (its' & E & F').
    exists (IPair (PF (n_mul N c c')) k :: its'). split; [rewrite E; simpl; rewrite <- app_assoc; reflexivity|]. constructor; [|exact F'].
    exists (n_mul N c c'), k. auto.
Qed.
Lemma tstack_rev : forall h l st ns, tstack h l st ns -> tstack h l (rev st) (rev ns).
Proof. intros h l st ns H. apply Forall2_rev. exact H. Qed.
Lemma list_sum_rev : forall l, list_sum (rev l) = list_sum l.
Proof. induction l as [|a l IH]; [reflexivity|]. simpl. rewrite list_sum_app, IH. simpl. lia. Qed.

Lemma loop_steps : forall fuel (h : heap N) l st ns acc, (l < length (h_lc h))%nat -> get_lc h l = LList st -> tstack h l st ns ->
  ((fuel <= list_sum ns)%nat -> exists h', expand_loop fuel l acc h = (Err EFuel, h')) /\
  ((list_sum ns < fuel)%nat -> exists h' d, expand_loop fuel l acc h = (Ok tt, h') /\ get_lc h' l = LDict d).
Proof.
  induction fuel as [|fuel IH]; intros h l st ns acc Hl E T; cbn [expand_loop].
  - split; [eauto|lia].
  - rewrite E. inversion T as [|it n st' ns' (c & k & -> & Hk & Tk) F]; subst.
    + simpl. split; [lia|]. intros _. eexists _, acc. split; [reflexivity|]. rewrite get_set_eq by exact Hl. reflexivity.
    + cbv zeta. rewrite get_set_neq by lia. cbn [list_sum fold_right]. change (fold_right Nat.add 0%nat ns') with (list_sum ns').
      inversion Tk as [? d Ek|? its ms Ek G]; subst; rewrite Ek.
      * destruct (acc_float c d acc) as (acc' & ->).
        destruct (IH (set_lc h l (LList st')) l st' ns' acc') as (A & B); [rewrite set_lc_length; exact Hl|apply get_set_eq, Hl|apply tstack_set; [lia|exact F]|].
        split; intro X; [apply A|apply B]; lia.
      * destruct (push_float h k c (rev its) (rev ms) st' (tstack_rev _ _ _ _ G)) as (its' & -> & G'). rewrite set_set.
        destruct (IH (set_lc h l (LList (rev its' ++ st'))) l (rev its' ++ st') (ms ++ ns') acc) as (A & B); [rewrite set_lc_length; exact Hl|apply get_set_eq, Hl| |].
        { apply tstack_set; [lia|]. apply Forall2_app; [|exact F]. apply (tstack_mono h l k); [lia|]. rewrite <- (rev_involutive ms). apply tstack_rev. exact G'. }
        rewrite list_sum_app in A, B. split; intro X; [apply A|apply B]; lia.
Qed.

Theorem read_steps : forall (h : heap N) u n, (uf_lp u < length (h_lc h))%nat -> tree h (uf_lp u) n ->
  (is_read h u /\ steps h u 0) \/ (~ is_read h u /\ steps h u n).
Proof.
  intros h u n Hl T. unfold steps, derivatives, lc_derivatives. inversion T as [? d E|? its ns E F]; subst.
  - left. split; [split; [exact Hl|eauto]|]. intro fuel. rewrite E. cbn [fst]. split; [discriminate|lia].
  - right. split; [intros (_ & d & X); congruence|]. intro fuel. rewrite E.
    destruct (loop_steps fuel h _ its ns [] Hl E F) as (A & B). split.
    + intro X. destruct (Nat.lt_ge_cases fuel (S (list_sum ns))) as [|G]; [assumption|exfalso]. destruct (B G) as (h' & d & Eq & Eg). rewrite Eq, Eg in X. discriminate X.
    + intro X. destruct (A ltac:(lia)) as (h' & ->). reflexivity.
Qed.

(** Creation of numbers. *)
Definition grown (h : heap N) (x : lc N) : heap N := mkHeap (h_lc h ++ [x]) (h_var h).
Lemma grown_length : forall h x, length (h_lc (grown h x)) = S (length (h_lc h)).
Proof. intros. unfold grown. cbn [h_lc]. rewrite app_length. simpl. lia. Qed.
Lemma grown_old : forall h x l, (l < length (h_lc h))%nat -> get_lc (grown h x) l = get_lc h l.
Proof. intros h x l H. unfold get_lc, grown. cbn [h_lc]. apply app_nth1. exact H. Qed.
Lemma grown_new : forall h x, get_lc (grown h x) (length (h_lc h)) = x.
Proof. intros h x. unfold get_lc, grown. cbn [h_lc]. rewrite app_nth2 by lia. rewrite Nat.sub_diag. reflexivity. Qed.
Lemma tree_grown : forall h x l n, (l < length (h_lc h))%nat -> tree h l n -> tree (grown h x) l n.
Proof.
  intros h x l. induction l as [l IH] using lt_wf_ind. intros n Hl H. inversion H as [? d E|? its ns E F]; subst.
  - eapply tr_read. rewrite grown_old by exact Hl. exact E.
  - eapply tr_unread; [rewrite grown_old by exact Hl; exact E|]. clear E H. induction F as [|it n its ns (c & k & -> & Hk & T) F IHF]; constructor; [|exact IHF].
    exists c, k. split; [reflexivity|]. split; [exact Hk|]. apply IH; [exact Hk|lia|exact T].
Qed.
Lemma read_grown : forall h x u, is_read h u -> is_read (grown h x) u.
Proof. intros h x u (H & d & E). split; [rewrite grown_length; lia|]. exists d. rewrite grown_old by exact H. exact E. Qed.

(** Sums that are built term by term. *)
Inductive comb (h : heap N) : loc -> nat -> Prop :=
| cb_read : forall l d, get_lc h l = LDict d -> comb h l 1
| cb_first : forall l c l' d, get_lc h l = LList [IPair (PF c) l'] -> (l' < l)%nat -> get_lc h l' = LDict d -> comb h l 2
| cb_next : forall l c1 c2 lx d l' n, get_lc h l = LList [IPair (PF c2) lx; IPair (PF c1) l'] -> (lx < l)%nat -> (l' < l)%nat ->
    get_lc h lx = LDict d -> comb h l' n -> comb h l (n + 2).
Lemma comb_tree : forall h l n, comb h l n -> tree h l n.
Proof.
  intros h l n H. induction H as [l d E|l c l' d E Hl E'|l c1 c2 lx d l' n E Hx Hl Ex H IH].
  - eapply tr_read, E.
  - apply (tr_unread h l _ [1%nat] E). constructor; [|constructor]. exists c, l'. split; [reflexivity|]. split; [exact Hl|]. eapply tr_read, E'.
  - replace (n + 2)%nat with (S (list_sum [1%nat; n])) by (simpl; lia). apply (tr_unread h l _ _ E). constructor; [|constructor; [|constructor]].
    + exists c2, lx. split; [reflexivity|]. split; [exact Hx|]. eapply tr_read, Ex.
    + exists c1, l'. auto.
Qed.
Lemma comb_grown : forall h x l n, (l < length (h_lc h))%nat -> comb h l n -> comb (grown h x) l n.
Proof.
  intros h x l n Hl H. induction H as [l d E|l c l' d E Hl' E'|l c1 c2 lx d l' n E Hx Hl' Ex H IH].
  - eapply cb_read. rewrite grown_old by exact Hl. exact E.
  - eapply cb_first; [rewrite grown_old by exact Hl; exact E|exact Hl'|rewrite grown_old by lia; exact E'].
  - eapply cb_next; [rewrite grown_old by exact Hl; exact E|exact Hx|exact Hl'|rewrite grown_old by lia; exact Ex|]. apply IH. lia.
Qed.
Lemma comb_set : forall h k x l n, (l < k)%nat -> comb h l n -> comb (set_lc h k x) l n.
Proof.
  intros h k x l n Hl H. induction H as [l d E|l c l' d E Hl' E'|l c1 c2 lx d l' n E Hx Hl' Ex H IH].
  - eapply cb_read. rewrite get_set_neq by lia. exact E.
  - eapply cb_first; [rewrite get_set_neq by lia; exact E|exact Hl'|rewrite get_set_neq by lia; exact E'].
  - eapply cb_next; [rewrite get_set_neq by lia; exact E|exact Hx|exact Hl'|rewrite get_set_neq by lia; exact Ex|]. apply IH. lia.
Qed.
(** The terms that wait: nothing, the rest of the sum, or a number and the rest. *)
Inductive waiting (h : heap N) (l : loc) : list (item N) -> Prop :=
| wa_nil : waiting h l []
| wa_rest : forall c l' n, (l' < l)%nat -> comb h l' n -> waiting h l [IPair (PF c) l']
| wa_both : forall c1 c2 lx d l' n, (lx < l)%nat -> (l' < l)%nat -> get_lc h lx = LDict d -> comb h l' n -> waiting h l [IPair (PF c2) lx; IPair (PF c1) l'].
Lemma waiting_length : forall h l st, waiting h l st -> (length st <= 2)%nat.
Proof. intros h l st H. destruct H; simpl; lia. Qed.
Lemma waiting_set : forall h l x st, waiting h l st -> waiting (set_lc h l x) l st.
Proof.
  intros h l x st H. destruct H; [constructor|eapply wa_rest; [assumption|apply comb_set; eassumption]|].
  eapply wa_both; [assumption|assumption|rewrite get_set_neq by lia; eassumption|apply comb_set; eassumption].
Qed.
Lemma loop_waiting : forall fuel (h : heap N) l st acc h', (l < length (h_lc h))%nat -> get_lc h l = LList st -> waiting h l st ->
  expand_loop fuel l acc h = (Err EFuel, h') -> exists its, get_lc h' l = LList its /\ (length its <= 2)%nat.
Proof.
  induction fuel as [|fuel IH]; intros h l st acc h' Hl E W R; cbn [expand_loop] in R.
  - injection R as <-. exists st. split; [exact E|eapply waiting_length, W].
  - rewrite E in R. inversion W as [|c l' n Hl' C|c1 c2 lx d l' n Hx Hl' Ex C]; subst; [discriminate R| |]; cbv zeta in R; rewrite get_set_neq in R by lia.
    + inversion C as [? d E'|? c' k d E' Hk Ek|? c1 c2 lx d k n' E' Hx Hk Ex C']; subst; rewrite E' in R.
      * destruct (acc_float c d acc) as (acc' & Ea). rewrite Ea in R.
        refine (IH _ _ _ _ _ _ _ _ R); [rewrite set_lc_length; exact Hl|apply get_set_eq, Hl|constructor].
      * cbn [rev app push_items pn_mul pn_float rbind] in R. rewrite set_set in R.
        refine (IH _ _ _ _ _ _ _ _ R); [rewrite set_lc_length; exact Hl|apply get_set_eq, Hl|].
        apply waiting_set. eapply wa_rest; [lia|eapply cb_read, Ek].
      * cbn [rev app push_items pn_mul pn_float rbind] in R. rewrite set_set in R.
        refine (IH _ _ _ _ _ _ _ _ R); [rewrite set_lc_length; exact Hl|apply get_set_eq, Hl|].
        apply waiting_set. eapply wa_both; [| |exact Ex|exact C']; lia.
    + rewrite Ex in R. destruct (acc_float c2 d acc) as (acc' & Ea). rewrite Ea in R.
      refine (IH _ _ _ _ _ _ _ _ R); [rewrite set_lc_length; exact Hl|apply get_set_eq, Hl|].
      apply waiting_set. eapply wa_rest; eassumption.
Qed.
Lemma comb_pending : forall h u n, (uf_lp u < length (h_lc h))%nat -> comb h (uf_lp u) n -> pending h u 2.
Proof.
  intros h u n Hl C fuel h' R. unfold derivatives, lc_derivatives in R.
  assert (W : forall st, get_lc h (uf_lp u) = LList st -> waiting h (uf_lp u) st).
  { intros st E. inversion C as [? d E'|? c l' d E' Hl' Ed|? c1 c2 lx d l' m E' Hx Hl' Ex C']; subst; rewrite E in E'; [discriminate E'|injection E' as ->|injection E' as ->].
    - eapply wa_rest; [exact Hl'|eapply cb_read, Ed].
    - eapply wa_both; eassumption. }
  destruct (get_lc h (uf_lp u)) as [d|st] eqn:E; [discriminate R|].
  destruct (expand_loop fuel (uf_lp u) [] h) as ([x|e] & h1) eqn:R1.
  - destruct (get_lc h1 (uf_lp u)); discriminate R.
  - injection R as -> ->. exact (loop_waiting fuel h _ st [] h' Hl E (W st eq_refl) R1).
Qed.

Lemma add_uf : forall (a u : uf N) h, py_binop Badd (VUF a) (VUF u) h =
  (Ok (VUF (mkUF (n_add N (uf_nom a) (uf_nom u)) (length (h_lc h)) None)), grown h (LList [IPair (PF (n_one N)) (uf_lp u); IPair (PF (n_one N)) (uf_lp a)])).
Proof. reflexivity. Qed.
Lemma add_plain : forall (a : plain N) (u : uf N) h r h', py_binop Badd (VPlain a) (VUF u) h = (Ok r, h') ->
  exists x, r = VUF (mkUF x (length (h_lc h)) None) /\ h' = grown h (LList [IPair (PF (n_one N)) (uf_lp u)]).
Proof.
  intros a u h r h' E. cbn in E. unfold bind, method_rop, wcall in E. cbn in E. destruct a as [p| | |]; cbn in E; try discriminate E.
  destruct (pn_float p) as [y|e]; cbn in E; [|discriminate E]. injection E as <- <-. eexists. split; reflexivity.
Qed.
Definition summed (h : heap N) (a : value N) (n : nat) : Prop :=
  match a with VUF u => (uf_lp u < length (h_lc h))%nat /\ comb h (uf_lp u) n | VPlain _ => n = 0%nat end.
Lemma sum_comb : forall us a n h r h', Forall (is_read h) us -> summed h a n -> py_sum a us h = (Ok r, h') ->
  exists m, (m <= n + 2 * length us)%nat /\ summed h' r m.
Proof.
  induction us as [|u us IH]; intros a n h r h' F S E; cbn [py_sum] in E.
  - injection E as <- <-. exists n. split; [simpl; lia|exact S].
  - inversion F as [|? ? Hu F']; subst. destruct Hu as (Hl & d & Ed).
    assert (G : forall x, Forall (is_read (grown h x)) us) by (intro x; eapply Forall_impl; [|exact F']; intros; apply read_grown; assumption).
    destruct a as [a|a].
    + unfold bind in E at 1. destruct (py_binop Badd (VPlain a) (VUF u) h) as ([r1|e] & h1) eqn:E1; [|discriminate E].
      destruct (add_plain _ _ _ _ _ E1) as (x & -> & ->). simpl in S. subst n.
      apply (IH _ 2%nat) in E; [|apply G|].
      2: { cbn [summed uf_lp]. split; [rewrite grown_length; lia|]. eapply cb_first; [apply grown_new|exact Hl|rewrite grown_old by exact Hl; exact Ed]. }
      destruct E as (m & Hm & Sm).
      exists m. split; [simpl; lia|exact Sm].
    + unfold bind in E at 1. rewrite add_uf in E. destruct S as (Ha & Ca).
      apply (IH _ (n + 2)%nat) in E; [|apply G|].
      2: { cbn [summed uf_lp]. split; [rewrite grown_length; lia|]. eapply cb_next; [apply grown_new|exact Hl|exact Ha|rewrite grown_old by exact Hl; exact Ed|apply comb_grown; assumption]. }
      destruct E as (m & Hm & Sm).
      exists m. split; [simpl; lia|exact Sm].
Qed.

Theorem sum_steps : forall (a : value N) (us : list (uf N)) (h : heap N) (r : uf N) (h' : heap N),
  match a with VUF u => is_read h u | VPlain _ => True end -> Forall (is_read h) us ->
  py_sum a us h = (Ok (VUF r), h') ->
  exists n, (n <= 2 * length us + 1)%nat /\ steps h' r n /\ pending h' r 2.
Proof.
  intros a us h r h' Ha F E.
  assert (S : exists n, (n <= 1)%nat /\ summed h a n).
  { destruct a as [a|u]; [exists 0%nat; split; [lia|reflexivity]|]. destruct Ha as (Hl & d & Ed). exists 1%nat. split; [lia|]. split; [exact Hl|eapply cb_read, Ed]. }
  destruct S as (n & Hn & S). destruct (sum_comb us a n h _ h' F S E) as (m & Hm & Hl & C).
  destruct (read_steps h' r m Hl (comb_tree _ _ _ C)) as [(_ & T)|(_ & T)].
  - exists 0%nat. split; [lia|]. split; [exact T|eapply comb_pending; eassumption].
  - exists m. split; [lia|]. split; [exact T|eapply comb_pending; eassumption].
Qed.

(** Repeated use of the last result. *)
Lemma nan_float : forall r p, nan_if_exception (N := N) r = Ok p -> (forall q, r = Ok q -> exists x, q = PF x) -> exists x, p = PF x.
Proof. intros r p H G. destruct r as [q|[]]; cbn in H; try discriminate H; try (injection H as <-; apply G; reflexivity); unfold rmap in H; destruct (n_nan N); try discriminate H; injection H as <-; eauto. Qed.
Lemma der_float : forall op x y p, (op_der_x op (PF x) (PF y) = Ok p \/ op_der_y op (PF x) (PF y) = Ok p) -> exists z : N, p = PF z.
Proof.
  assert (D : forall (a : pynum N) (b : N) p, pn_div a (PF b) = Ok p -> exists z, p = PF z).
  { intros a b p H. unfold pn_div in H. assert (X : (rbind (pn_float a) (fun x => rbind (pn_float (PF b)) (fun y => rbind (n_div N x y) (fun r => Ok (PF r))))) = Ok p) by (destruct a; exact H).
    destruct (pn_float a); [|discriminate X]. cbn in X. destruct (n_div N a0 b); [|discriminate X]. injection X as <-. eauto. }
  assert (M : forall (a : pynum N) (b : N) p, pn_mul (PF b) a = Ok p -> exists z, p = PF z).
  { intros a b p H. unfold pn_mul in H. cbn [pn_float rbind] in H. destruct (pn_float a); [|discriminate H]. injection H as <-. eauto. }
  intros op x y p H. destruct op; cbn [op_der_x op_der_y] in H.
  1-3: destruct H as [H|H]; injection H as <-; eauto.
  - destruct H as [H|H]; [exact (D _ _ _ H)|]. cbn [pn_square] in H. destruct (n_powf y (n_two N)); [|discriminate H]. exact (D _ _ _ H).
  - destruct H as [H|H]; injection H as <-; eauto.
  - destruct H as [H|H]; [injection H as <-; eauto|]. unfold partial_derivative in H. cbn [arg_get nth_error as_num rbind pn_mul pn_float pn_abs pn_is0] in H.
    destruct (n_eq N _ _); cbn [rbind pn_add pn_sub pn_mul pn_float arg_set list_set] in H;
    repeat match type of H with rbind ?a _ = _ => destruct a; cbn [rbind] in H; [|discriminate H] end; exact (D _ _ _ H).
  - destruct H as [H|H]; apply (nan_float _ _ H); intros q Hq.
    + unfold pow_deriv_0 in Hq. destruct (pn_is0 (PF y)); [injection Hq as <-; eauto|]. destruct (_ || _).
      * destruct (pn_pow _ _); [|discriminate Hq]. cbn [rbind] in Hq. exact (M _ _ _ Hq).
      * unfold rmap in Hq. destruct (n_nan N); [|discriminate Hq]. injection Hq as <-. eauto.
    + unfold pow_deriv_1 in Hq. destruct (_ && _); [injection Hq as <-; eauto|]. cbn [pn_float rbind] in Hq. destruct (n_fun1 N F_log x); [|discriminate Hq]. cbn [rbind] in Hq.
      destruct (pn_pow _ _); [|discriminate Hq]. exact (M _ _ _ Hq).
Qed.
Lemma op_self : forall op (u : uf N) h r h', py_binop op (VUF u) (VUF u) h = (Ok r, h') ->
  exists x c1 c2, r = VUF (mkUF x (length (h_lc h)) None) /\ h' = grown h (LList [IPair (PF c2) (uf_lp u); IPair (PF c1) (uf_lp u)]).
Proof.
  intros op u h r h' E. cbn in E. unfold bind, method_op, wcall in E. cbn in E.
  destruct (float_op op (uf_nom u) (uf_nom u)) as [[q| | |]|e] eqn:Eo; cbn in E; try discriminate E.
  2: destruct (op_der_x op _ _); cbn in E; [|discriminate E]; destruct (op_der_y op _ _); discriminate E.
  destruct (op_der_x op _ _) as [c1|e] eqn:E1; cbn in E; [|discriminate E]. destruct (op_der_y op _ _) as [c2|e] eqn:E2; cbn in E; [|discriminate E].
  destruct (der_float op _ _ c1 (or_introl E1)) as (z1 & ->). destruct (der_float op _ _ c2 (or_intror E2)) as (z2 & ->).
  destruct (pn_float q) as [y|e]; cbn in E; [|discriminate E]. injection E as <- <-. eexists _, z1, z2. split; reflexivity.
Qed.
Lemma self_tree : forall op n (u : uf N) m h r h', (uf_lp u < length (h_lc h))%nat -> tree h (uf_lp u) m -> self_op op n (VUF u) h = (Ok (VUF r), h') ->
  (uf_lp r < length (h_lc h'))%nat /\ tree h' (uf_lp r) (2 ^ n * (m + 1) - 1).
Proof.
  intros op n. induction n as [|n IH]; intros u m h r h' Hl T E; cbn [self_op] in E.
  - injection E as <- <-. split; [exact Hl|]. simpl. replace (m + 1 + 0 - 1)%nat with m by lia. exact T.
  - unfold bind in E at 1. destruct (py_binop op (VUF u) (VUF u) h) as ([r1|e] & h1) eqn:E1; [|discriminate E].
    destruct (op_self _ _ _ _ _ E1) as (x & c1 & c2 & -> & ->).
    apply (IH _ (S (list_sum [m; m]))) in E.
    + destruct E as (A & B). split; [exact A|]. replace (2 ^ S n * (m + 1) - 1)%nat with (2 ^ n * (S (list_sum [m; m]) + 1) - 1)%nat; [exact B|]. cbn [Nat.pow list_sum fold_right]. nia.
    + cbn [uf_lp]. rewrite grown_length. lia.
    + cbn [uf_lp]. eapply tr_unread; [apply grown_new|]. constructor; [|constructor; [|constructor]]; eexists _, (uf_lp u); (split; [reflexivity|]); (split; [exact Hl|]); apply tree_grown; assumption.
Qed.
Theorem self_steps : forall op n (u : uf N) (h : heap N) (r : uf N) (h' : heap N),
  is_read h u -> self_op op (S n) (VUF u) h = (Ok (VUF r), h') -> steps h' r (2 ^ (n + 2) - 1).
Proof.
  intros op n u h r h' (Hl & d & Ed) E. destruct (self_tree op (S n) u 1 h r h' Hl (tr_read _ _ _ Ed) E) as (Hr & T).
  replace (2 ^ (n + 2) - 1)%nat with (2 ^ S n * (1 + 1) - 1)%nat by (rewrite Nat.pow_add_r; cbn [Nat.pow]; nia).
  destruct (read_steps h' r _ Hr T) as [((_ & d' & Ed') & _)|(_ & S)]; [|exact S].
  exfalso. inversion T as [? d2 E2 Q|? its ns E2 F Q]; [|congruence].
  assert (2 ^ n <> 0)%nat by (apply Nat.pow_nonzero; lia). cbn [Nat.pow] in Q. lia.
Qed.

(** Results of functions of numbers that have been read. *)
Definition dstack (h : heap N) (l : loc) (st : list (item N)) : Prop :=
  Forall (fun it => match it with IPair _ l' => (l' < l)%nat /\ exists d, get_lc h l' = LDict d | _ => False end) st.
Hypothesis conv : forall z, n_of_Z N z <> Err EFuel.
Lemma acc_conv : forall c d acc, acc_dict (N := N) c d acc <> Err EFuel.
Proof.
  intros c d. induction d as [|(v & f) d IH]; intros acc; cbn [acc_dict]; [discriminate|]. unfold cmul. destruct c as [z|x]; cbn [pn_float].
  - destruct (n_of_Z N z) as [x|e] eqn:E; cbn [rbind]; [apply IH|]. intro H. injection H as ->. exact (conv z E).
  - apply IH.
Qed.
Lemma loop_dicts : forall fuel (h : heap N) l st acc, (l < length (h_lc h))%nat -> get_lc h l = LList st -> dstack h l st -> (length st < fuel)%nat ->
  fst (expand_loop fuel l acc h) <> Err EFuel.
Proof.
  induction fuel as [|fuel IH]; intros h l st acc Hl E D H; [lia|]. cbn [expand_loop]. rewrite E. inversion D as [|it st' Hit D']; subst; [discriminate|].
  cbv zeta. destruct it as [c k|c|k]; try contradiction. destruct Hit as (Hk & d & Ed). rewrite get_set_neq, Ed by lia.
  destruct (acc_dict c d acc) as [acc'|e] eqn:Ea.
  - apply (IH _ _ st'); [rewrite set_lc_length; exact Hl|apply get_set_eq, Hl| |simpl in H; lia].
    eapply Forall_impl; [|exact D']. intros [c' k'|c'|k']; auto. intros (Hk' & d' & Ed'). split; [exact Hk'|]. exists d'. rewrite get_set_neq by lia. exact Ed'.
  - cbn [fst]. intro X. injection X as ->. exact (acc_conv _ _ _ Ea).
Qed.
Lemma dstack_app : forall h l a b, dstack h l a -> dstack h l b -> dstack h l (a ++ b).
Proof. intros. apply Forall_app. split; assumption. Qed.
Definition args_read (h : heap N) (vs : list (value N)) : Prop := forall u, In (VUF u) vs -> is_read h u.
Lemma pos_terms_read : forall h pos rest i av kv t, args_read h rest -> pos_terms (N := N) pos i rest av kv = Ok t ->
  dstack h (length (h_lc h)) t /\ (length t <= length rest)%nat.
Proof.
  intros h pos rest. induction rest as [|a rest IH]; intros i av kv t A E; cbn [pos_terms] in E.
  - injection E as <-. split; [constructor|simpl; lia].
  - assert (A' : args_read h rest) by (intros u Hu; apply A; right; exact Hu). destruct a as [p|u].
    + destruct (IH _ _ _ _ A' E). split; [assumption|simpl; lia].
    + destruct (pos i av kv) as [c|e]; cbn [rbind] in E; [|discriminate E]. destruct (pos_terms pos (S i) rest av kv) as [t'|e] eqn:E'; cbn [rbind] in E; [|discriminate E]. injection E as <-.
      destruct (IH _ _ _ _ A' E') as (D & L). split; [|simpl; lia]. constructor; [|exact D]. exact (A u (or_introl eq_refl)).
Qed.
Lemma kw_terms_read : forall h kwd rest av kv t, args_read h (map snd rest) -> kw_terms (N := N) kwd rest av kv = Ok t ->
  dstack h (length (h_lc h)) t /\ (length t <= length rest)%nat.
Proof.
  intros h kwd rest. induction rest as [|(k & a) rest IH]; intros av kv t A E; cbn [kw_terms] in E.
  - injection E as <-. split; [constructor|simpl; lia].
  - assert (A' : args_read h (map snd rest)) by (intros u Hu; apply A; right; exact Hu). destruct a as [p|u].
    + destruct (IH _ _ _ A' E). split; [assumption|simpl; lia].
    + destruct (kwd k av kv) as [c|e]; cbn [rbind] in E; [|discriminate E]. destruct (kw_terms kwd rest av kv) as [t'|e] eqn:E'; cbn [rbind] in E; [|discriminate E]. injection E as <-.
      destruct (IH _ _ _ A' E') as (D & L). split; [|simpl; lia]. constructor; [|exact D]. exact (A u (or_introl eq_refl)).
Qed.
Lemma call_fuel : forall (f : pyfun N) pos kwd (args : args_t N) (kw : kwargs_t N) (h : heap N) (r : uf N) (h' : heap N) fuel,
  args_read h args -> args_read h (map snd kw) -> existsb is_uf args || existsb (fun p => is_uf (snd p)) kw = true ->
  wcall f pos kwd args kw h = (Ok (VUF r), h') ->
  (length args + length kw < fuel)%nat -> fst (derivatives fuel r h') <> Err EFuel.
Proof.
  intros f pos kwd args kw h r h' fuel A K U E Hf. unfold wcall in E. rewrite U in E. cbn [negb] in E.
  destruct (f _ _) as [y|e]; [|discriminate E]. destruct y as [p| | |]; try discriminate E.
  - destruct (pos_terms pos 0 args _ _) as [tp|e] eqn:E1; cbn [rbind] in E; [|discriminate E].
    destruct (kw_terms kwd kw _ _) as [tk|e] eqn:E2; cbn [rbind] in E; [|discriminate E].
    destruct (pn_float p) as [x|e]; [|discriminate E]. cbn [alloc_lc] in E. injection E as <- <-.
    destruct (pos_terms_read h _ _ _ _ _ _ A E1) as (D1 & L1). destruct (kw_terms_read h _ _ _ _ _ K E2) as (D2 & L2).
    fold (grown h (LList (rev (tp ++ tk)))). unfold derivatives, lc_derivatives. cbn [uf_lp]. rewrite grown_new.
    pose proof (loop_dicts fuel (grown h (LList (rev (tp ++ tk)))) (length (h_lc h)) (rev (tp ++ tk)) []) as X.
    rewrite grown_length, grown_new, rev_length, app_length in X. specialize (X ltac:(lia) eq_refl).
    assert (Y : fst (expand_loop fuel (length (h_lc h)) [] (grown h (LList (rev (tp ++ tk))))) <> Err EFuel).
    { apply X; [|lia]. apply Forall_rev. assert (Z := dstack_app _ _ _ _ D1 D2). eapply Forall_impl; [|exact Z]. intros [c k|c|k]; auto.
      intros (Hk & d & Ed). split; [exact Hk|]. exists d. rewrite grown_old by exact Hk. exact Ed. }
    destruct (expand_loop fuel _ [] _) as ([z|e] & h1); cbn [fst] in Y.
    + destruct (get_lc h1 (length (h_lc h))); cbn [fst]; discriminate.
    + cbn [fst]. intro Z. apply Y. injection Z as ->. reflexivity.
  - destruct (rbind _ _); discriminate E.
Qed.
Theorem call_steps : forall (f : pyfun N) pos kwd (args : args_t N) (kw : kwargs_t N) (h : heap N) (r : uf N) (h' : heap N) fuel,
  args_read h args -> args_read h (map snd kw) -> wcall f pos kwd args kw h = (Ok (VUF r), h') ->
  (length args + length kw < fuel)%nat -> fst (derivatives fuel r h') <> Err EFuel.
Proof.
  intros f pos kwd args kw h r h' fuel A K E. destruct (existsb is_uf args || existsb (fun p => is_uf (snd p)) kw) eqn:U.
  - eapply call_fuel; eassumption.
  - exfalso. unfold wcall in E. rewrite U in E. cbn [negb] in E. destruct (f _ _); discriminate E.
Qed.
End Cost.

Section Examples.
Context {N : NumOps}.
(** Two variables. *)
Definition two_h : heap N := mkHeap [LDict [(0%nat, n_one N)]; LDict [(1%nat, n_one N)]] [].
Definition two_x : uf N := mkUF (n_two N) 0 (Some 0%nat).
Definition two_y : uf N := mkUF (n_half N) 1 (Some 1%nat).
Lemma two_read : is_read two_h two_x /\ is_read two_h two_y.
Proof. split; (split; [simpl; lia|eexists; reflexivity]). Qed.

(** x + (x + y), not read. *)
Lemma ex_read : exists h1 h2 a b, py_binop Badd (VUF two_x) (VUF two_y) two_h = (Ok (VUF a), h1) /\ py_binop Badd (VUF two_x) (VUF a) h1 = (Ok (VUF b), h2) /\
  (uf_lp b < length (h_lc h2))%nat /\ tree h2 (uf_lp b) 5 /\ ~ is_read h2 b /\
  fst (derivatives 4 b h2) = Err EFuel /\ exists d, fst (derivatives 5 b h2) = Ok d.
Proof.
  do 4 eexists. split; [reflexivity|]. split; [reflexivity|]. split; [simpl; lia|]. split.
  - change 5%nat with (S (list_sum [S (list_sum [1; 1]); 1]%nat)). eapply tr_unread; [reflexivity|]. repeat constructor.
    + do 2 eexists. split; [reflexivity|]. split; [cbn; lia|]. eapply tr_unread; [reflexivity|].
      repeat constructor; (do 2 eexists; (split; [reflexivity|]); (split; [cbn; lia|]); eapply tr_read; reflexivity).
    + do 2 eexists. split; [reflexivity|]. split; [cbn; lia|]. eapply tr_read; reflexivity.
  - split; [intros (_ & d & E); discriminate E|]. split; [reflexivity|]. eexists. reflexivity.
Qed.
(** sum([x, y, x]). *)
Lemma ex_sum : let us := [two_x; two_y; two_x] in Forall (is_read two_h) us /\
  exists r h', py_sum (VPlain (PNum (PF (n_zero N)))) us two_h = (Ok (VUF r), h') /\
    fst (derivatives 5 r h') = Err EFuel /\ exists d, fst (derivatives 6 r h') = Ok d.
Proof.
  cbv zeta. split; [repeat constructor; try (simpl; lia); eexists; reflexivity|]. do 2 eexists. split; [reflexivity|]. split; [reflexivity|]. eexists. reflexivity.
Qed.
(** y = x; y = y + y, three times. *)
Lemma ex_self : is_read two_h two_x /\ exists r h', self_op Badd 3 (VUF two_x) two_h = (Ok (VUF r), h') /\
  fst (derivatives 14 r h') = Err EFuel /\ exists d, fst (derivatives 15 r h') = Ok d.
Proof. split; [apply two_read|]. do 2 eexists. split; [reflexivity|]. split; [reflexivity|]. eexists. reflexivity. Qed.
(** A function of two arguments and a keyword argument. *)
Lemma ex_call : let f := fun _ _ => Ok (PNum (PF (n_one N))) in let d := fun _ _ _ => Ok (PF (n_two N)) in
  let args := [VUF two_x; VPlain (PNum (PZ 3))] in let kw := [(7%nat, VUF two_y)] in
  args_read two_h args /\ args_read two_h (map snd kw) /\
  exists r h', wcall f d d args kw two_h = (Ok (VUF r), h') /\ exists v, fst (derivatives 4 r h') = Ok v.
Proof.
  cbv zeta. split; [intros u [E|[E|[]]]; [injection E as <-; apply two_read|discriminate E]|].
  split; [intros u [E|[]]; injection E as <-; apply two_read|]. do 2 eexists. split; [reflexivity|]. eexists. reflexivity.
Qed.
End Examples.
