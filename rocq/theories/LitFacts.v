(** Facts about literal ordinals. *)
From Coq Require Import List Arith Bool Lia.
From Verif Require Import Base AsgModel.
Import ListNotations.

Ltac splits := repeat match goal with |- _ /\ _ => split end.

Lemma odd_double_S : forall v, Nat.odd (S (2 * v)) = true.
Proof. intros. rewrite Nat.odd_succ, Nat.even_mul. reflexivity. Qed.
Lemma odd_double : forall v, Nat.odd (2 * v) = false.
Proof. intros. rewrite Nat.odd_mul. reflexivity. Qed.

Lemma lit_cases : forall l, l = mklit (vi l) (sgn l).
Proof.
  intros l. unfold mklit, vi, sgn. pose proof (Nat.div2_odd l) as H.
  destruct (Nat.odd l); cbn [Nat.b2n] in H; lia.
Qed.

Lemma vi_mklit : forall v b, vi (mklit v b) = v.
Proof.
  intros v b. unfold vi, mklit. destruct b.
  - rewrite Nat.div2_succ_double. reflexivity.
  - rewrite Nat.div2_double. reflexivity.
Qed.
Lemma sgn_mklit : forall v b, sgn (mklit v b) = b.
Proof. intros v []; unfold sgn, mklit; [apply odd_double_S | apply odd_double]. Qed.

Lemma lit_ext : forall l l', vi l = vi l' -> sgn l = sgn l' -> l = l'.
Proof. intros l l' H1 H2. rewrite (lit_cases l), (lit_cases l'). congruence. Qed.

Lemma neg_mklit : forall v b, neg (mklit v b) = mklit v (negb b).
Proof.
  intros v []; unfold neg, mklit; cbn [negb].
  - rewrite odd_double_S. reflexivity.
  - rewrite odd_double. reflexivity.
Qed.
Lemma vi_neg : forall l, vi (neg l) = vi l.
Proof. intros. rewrite (lit_cases l) at 1. rewrite neg_mklit. apply vi_mklit. Qed.
Lemma sgn_neg : forall l, sgn (neg l) = negb (sgn l).
Proof. intros. rewrite (lit_cases l) at 1. rewrite neg_mklit. apply sgn_mklit. Qed.
Lemma neg_neg : forall l, neg (neg l) = l.
Proof. intros. apply lit_ext; rewrite ?vi_neg, ?sgn_neg, ?negb_involutive; auto. Qed.
Lemma neg_inj : forall l l', neg l = neg l' -> l = l'.
Proof. intros. rewrite <- (neg_neg l), <- (neg_neg l'). congruence. Qed.
Lemma neg_neq : forall l, neg l <> l.
Proof. intros l H. pose proof (sgn_neg l). rewrite H in H0. destruct (sgn l); discriminate. Qed.
Lemma same_var : forall l l', vi l = vi l' -> l = l' \/ l = neg l'.
Proof.
  intros l l' H. destruct (bool_dec (sgn l) (sgn l')) as [E|E].
  - left; apply lit_ext; auto.
  - right; apply lit_ext; rewrite ?vi_neg, ?sgn_neg; auto.
    destruct (sgn l), (sgn l'); simpl; congruence.
Qed.

Lemma litval_neg : forall a l, litval a (neg l) = option_map negb (litval a l).
Proof.
  intros. unfold litval. rewrite vi_neg, sgn_neg. destruct (val a (vi l)); simpl; auto.
  destruct (sgn l), b; auto.
Qed.
Lemma litval_true_iff : forall a l, litval a l = Some true <-> val a (vi l) = Some (sgn l).
Proof.
  intros. unfold litval. destruct (val a (vi l)) as [b|]; split; intros H; try discriminate.
  - destruct (sgn l), b; simpl in *; congruence.
  - injection H as ->. destruct (sgn l); reflexivity.
Qed.
Lemma litval_false_iff : forall a l, litval a l = Some false <-> litval a (neg l) = Some true.
Proof. intros. rewrite litval_neg. destruct (litval a l) as [[]|]; simpl; split; congruence. Qed.
Lemma litval_none_iff : forall a l, litval a l = None <-> val a (vi l) = None.
Proof. intros. unfold litval. destruct (val a (vi l)); split; congruence. Qed.
