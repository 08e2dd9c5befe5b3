(** Small utilities shared by all models: total maps from [nat], list helpers. *)
From Coq Require Import List Arith Lia Bool ZArith Permutation.
Import ListNotations.

Set Implicit Arguments.

(** Update of a total map (models [v[k] = x] on a Rust vector or hash map). *)
Definition upd {A : Type} (f : nat -> A) (k : nat) (x : A) : nat -> A :=
  fun i => if i =? k then x else f i.

Lemma upd_same : forall A (f : nat -> A) k x, upd f k x k = x.
Proof. intros; unfold upd; now rewrite Nat.eqb_refl. Qed.

Lemma upd_other : forall A (f : nat -> A) k x i, i <> k -> upd f k x i = f i.
Proof. intros; unfold upd. destruct (Nat.eqb_spec i k); congruence. Qed.

(** [list_set l i x]: models [l[i] = x] on a vector (no effect out of range). *)
Fixpoint list_set {A : Type} (l : list A) (i : nat) (x : A) : list A :=
  match l, i with
  | [], _ => []
  | _ :: t, 0 => x :: t
  | h :: t, S j => h :: list_set t j x
  end.

Lemma list_set_length : forall A (l : list A) i x, length (list_set l i x) = length l.
Proof. induction l; destruct i; simpl; intros; auto. Qed.

Lemma nth_list_set_same : forall A (l : list A) i x d,
  i < length l -> nth i (list_set l i x) d = x.
Proof. induction l; destruct i; simpl; intros; auto; try lia. apply IHl; lia. Qed.

Lemma nth_list_set_other : forall A (l : list A) i j x d,
  i <> j -> nth j (list_set l i x) d = nth j l d.
Proof.
  induction l; destruct i; simpl; intros; auto.
  - destruct j; auto; lia.
  - destruct j; auto.
Qed.

(** [swap l i j]: models [l.swap(i, j)] on an in-range vector. *)
Definition swap_nth {A : Type} (d : A) (l : list A) (i j : nat) : list A :=
  list_set (list_set l i (nth j l d)) j (nth i l d).

Lemma swap_nth_length : forall A (d : A) l i j, length (swap_nth d l i j) = length l.
Proof. intros; unfold swap_nth; now rewrite !list_set_length. Qed.

Lemma list_set_split : forall A (l : list A) i x d,
  i < length l ->
  l = firstn i l ++ nth i l d :: skipn (S i) l /\
  list_set l i x = firstn i l ++ x :: skipn (S i) l.
Proof.
  induction l; simpl; intros; try lia.
  destruct i; simpl; auto.
  destruct (IHl i x d ltac:(lia)) as [E1 E2]. split; f_equal; assumption.
Qed.

Lemma list_set_same_val : forall A (l : list A) i d, list_set l i (nth i l d) = l.
Proof. induction l; destruct i; simpl; intros; auto. now rewrite IHl. Qed.

Lemma swap_nth_perm : forall A (d : A) l i j,
  i < length l -> j < length l -> Permutation (swap_nth d l i j) l.
Proof.
  intros A d l i j Hi Hj. unfold swap_nth.
  apply (proj2 (Permutation_nth _ _ d)).
  split; [now rewrite !list_set_length|].
  exists (fun k => if k =? i then j else if k =? j then i else k).
  rewrite !list_set_length. split; [|split].
  - intros k Hk.
    destruct (Nat.eqb_spec k i); [lia|]. destruct (Nat.eqb_spec k j); lia.
  - intros x y Hx Hy.
    destruct (Nat.eqb_spec x i), (Nat.eqb_spec y i); try lia;
    destruct (Nat.eqb_spec x j), (Nat.eqb_spec y j); try lia.
  - intros k Hk.
    destruct (Nat.eq_dec i j) as [->|Hij].
    + rewrite list_set_same_val.
      destruct (Nat.eqb_spec k j) as [->|]; [|now rewrite nth_list_set_other by auto].
      now rewrite list_set_same_val.
    + destruct (Nat.eqb_spec k i) as [->|].
      * rewrite nth_list_set_same; auto. now rewrite list_set_length.
      * destruct (Nat.eqb_spec k j) as [->|].
        -- rewrite nth_list_set_other by auto. now rewrite nth_list_set_same.
        -- now rewrite !nth_list_set_other by auto.
Qed.
