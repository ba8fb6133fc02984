(** A text without digits that is not accepted. *)
From Coq Require Import String.
From Coq Require Import ZArith List Bool Lia.
From Verif Require Import Base Str FmtOps FmtSpec ParseSpec LangSpec ExFmt.
Import ListNotations.
Local Open Scope Z_scope.

Definition telling (U : Unicode) (c : Z) : Prop := u_dig U c <> None \/ In c (lit "nNiI").
Definition told (U : Unicode) (s : str) : Prop := Exists (telling U) s.
Section Letters.
Context (U : Unicode).
Lemma told_l : forall a b, told U a -> told U (a ++ b). Proof. intros. apply Exists_app. auto. Qed.
Lemma told_r : forall a b, told U b -> told U (a ++ b). Proof. intros. apply Exists_app. auto. Qed.
Lemma grouped_told : forall s d, grouped U s d -> told U s.
Proof. intros s d H. destruct H; apply Exists_cons_hd; left; congruence. Qed.
Lemma word_told : forall w s c t, word_of w s -> lit w = c :: t -> c = 110 \/ c = 105 -> told U s.
Proof.
  intros w s c t H E Hc. unfold word_of in H. rewrite E in H. destruct s as [|x s]; [discriminate|]. simpl in H.
  injection H as Hx _. apply Exists_cons_hd. right. unfold lower in Hx. simpl.
  destruct ((65 <=? x) && (x <=? 90)) eqn:B; lia.
Qed.
Lemma float_told : forall s l, float_like U s l -> told U s.
Proof.
  intros s l H. destruct H as [sp sg neg i di f df x n sp' _ _ _ Hi Hf Hn _|sp sg neg w sp' _ _ _ Hw|sp sg neg w sp' _ _ _ Hw].
  - apply told_r, told_l, told_r. inversion Hi; subst.
    + apply told_r, told_l. inversion Hf; subst; [now destruct Hn|]. apply Exists_cons_tl. inversion H; subst; [now destruct Hn|]. eapply grouped_told; eauto.
    + apply told_l. eapply grouped_told; eauto.
  - apply told_r, told_l, told_r. eapply word_told; [exact Hw|reflexivity|auto].
  - apply told_r, told_l, told_r. destruct Hw as [Hw|Hw]; (eapply word_told; [exact Hw|reflexivity|auto]).
Qed.
Lemma number_told : forall s l o, number_like U s l o -> told U s.
Proof. intros s l o H. destruct H; [|apply told_l]; eapply float_told; eauto. Qed.
Lemma digits_told : forall s, digits U s -> s <> [] -> told U s.
Proof. intros s H N. destruct H; [congruence|]. apply Exists_cons_hd. left; assumption. Qed.
Lemma unsigned_told : forall neg a l k, unsigned U neg a l k -> told U a.
Proof.
  intros neg a l k H. destruct H as [a m k Hd|w Hw|w Hw].
  - destruct Hd as [i Hi N|i f Hi Hf N]; [apply digits_told; assumption|].
    destruct i as [|c i]; [|apply told_l, digits_told; [assumption|discriminate]].
    apply told_r. apply Exists_cons_tl, digits_told; assumption.
  - inversion Hw; subst; apply Exists_cons_hd; right; simpl; auto.
  - inversion Hw; subst; apply Exists_cons_hd; right; simpl; auto.
Qed.
Lemma paren_told : forall s m, paren_like U s m -> told U s.
Proof. intros s m (sg & neg & a & l & k & p & u & e & n & nl & -> & _ & Ha & _). apply told_r, told_l. eapply unsigned_told; eauto. Qed.
Lemma text_told : forall s m f, text_like U s m f -> told U s.
Proof.
  intros s m f H. destruct H.
  - apply told_l. eapply number_told; eauto.
  - apply told_r, told_l, told_l. eapply number_told; eauto.
  - eapply paren_told; eauto.
  - apply told_r, told_l. eapply paren_told; eauto.
Qed.
Lemma accepted_told : forall s m f, accepted U s m f -> told U s.
Proof.
  intros s m f H. destruct H; [apply told_r, told_l|apply told_r, told_l, told_r, told_l]; eapply text_told; eauto.
Qed.
End Letters.
Lemma ex_refused : forall m f, ~ accepted uni (lit "(x+/-y)e-.") m f.
Proof.
  intros m f H. apply accepted_told in H. unfold told in H. apply Exists_exists in H. destruct H as (c & Hc & Ht).
  assert (F : Forall (fun c => u_dig uni c = None /\ existsb (Z.eqb c) (lit "nNiI") = false) (lit "(x+/-y)e-.")) by (vm_compute; repeat constructor).
  rewrite Forall_forall in F. destruct (F c Hc) as (F1 & F2). destruct Ht as [Ht|Ht]; [congruence|].
  assert (existsb (Z.eqb c) (lit "nNiI") = true) by (apply existsb_exists; exists c; split; [exact Ht|apply Z.eqb_refl]). congruence.
Qed.
