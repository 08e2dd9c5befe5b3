From Coq Require Import List Arith Bool QArith Qfield Lqa Lia Permutation.
From Verif Require Import Base EmaModel.
Import ListNotations.
Open Scope Q_scope.

Lemma mix_bounds : forall s x f a b,
  0 <= s -> s <= 1 -> a <= x -> x <= b -> a <= f -> f <= b ->
  a <= s * x + (1 - s) * f /\ s * x + (1 - s) * f <= b.
Proof. intros. split; nra. Qed.

Lemma inv_pos_range : forall s : positive, 0 <= 1 # s /\ 1 # s <= 1.
Proof. intros s. unfold Qle; simpl. split; lia. Qed.

Lemma fold_ema_bounds : forall xs e a b,
  0 <= em_sca e -> em_sca e <= 1 ->
  a <= em_fast e -> em_fast e <= b ->
  (forall x, In x xs -> a <= x /\ x <= b) ->
  a <= em_fast (fold_left ema_update xs e) /\ em_fast (fold_left ema_update xs e) <= b.
Proof.
  induction xs as [|x xs IH]; intros e a b H1 H2 H3 H4 H; simpl; auto.
  destruct (H x (or_introl eq_refl)).
  destruct (mix_bounds (em_sca e) x (em_fast e) a b); auto.
  apply IH; simpl; auto. intros; apply H; now right.
Qed.

Lemma fold_ema2_bounds : forall xs e a b,
  0 <= e2_fe e -> e2_fe e <= 1 -> 0 <= e2_se e -> e2_se e <= 1 ->
  a <= e2_fast e -> e2_fast e <= b -> a <= e2_slow e -> e2_slow e <= b ->
  (forall x, In x xs -> a <= x /\ x <= b) ->
  let r := fold_left ema2_update xs e in
  a <= e2_fast r /\ e2_fast r <= b /\ a <= e2_slow r /\ e2_slow r <= b.
Proof.
  induction xs as [|x xs IH]; intros e a b H1 H2 H3 H4 H5 H6 H7 H8 H; simpl; auto.
  destruct (H x (or_introl eq_refl)).
  destruct (mix_bounds (e2_fe e) x (e2_fast e) a b); auto.
  destruct (mix_bounds (e2_se e) x (e2_slow e) a b); auto.
  apply IH; simpl; auto. intros; apply H; now right.
Qed.

Fixpoint qpow (q : Q) (n : nat) : Q := match n with O => 1 | S k => q * qpow q k end.

Lemma ema_const : forall n e x,
  em_fast (fold_left ema_update (repeat x n) e) == x + qpow (1 - em_sca e) n * (em_fast e - x).
Proof.
  induction n as [|n IH]; intros e x; simpl.
  - ring.
  - rewrite IH. simpl. ring.
Qed.

Lemma ema_fold_sca : forall xs e, em_sca (fold_left ema_update xs e) = em_sca e.
Proof. induction xs; simpl; intros; auto. now rewrite IHxs. Qed.

(** ** Ewa *)
Definition rot {A} (l : list A) (i : nat) : list A := skipn i l ++ firstn i l.

Lemma rot_update : forall (l : list Q) i v, (i < length l)%nat ->
  rot (list_set l i v) ((i + 1) mod length l) = tl (rot l i) ++ [v].
Proof.
  intros l i v H. unfold rot.
  destruct (list_set_split (A:=Q) l (i:=i) v 0 H) as [E1 E2].
  assert (Lf : length (firstn i l) = i) by (apply firstn_length_le; lia).
  assert (T : skipn i l = nth i l 0 :: skipn (S i) l).
  { rewrite E1 at 1. rewrite skipn_app, Lf, Nat.sub_diag, skipn_all2 by lia.
    reflexivity. }
  rewrite T. rewrite <- app_comm_cons. cbn [tl].
  assert (S1 : skipn (S i) (list_set l i v) = skipn (S i) l).
  { rewrite E2. rewrite skipn_app, skipn_all2 by lia. rewrite Lf.
    replace (S i - i)%nat with 1%nat by lia. reflexivity. }
  assert (F1 : firstn (S i) (list_set l i v) = firstn i l ++ [v]).
  { rewrite E2. rewrite firstn_app, Lf.
    rewrite (firstn_all2 (n:=S i) (firstn i l)) by lia.
    replace (S i - i)%nat with 1%nat by lia. reflexivity. }
  destruct (Nat.eq_dec (i + 1) (length l)) as [E|E].
  - rewrite E, Nat.mod_same by lia. rewrite skipn_O, firstn_O, app_nil_r.
    rewrite (skipn_all2 (n:=S i) l) by lia. rewrite app_nil_l.
    rewrite <- F1. rewrite firstn_all2; auto. rewrite list_set_length. lia.
  - rewrite Nat.mod_small by lia. rewrite Nat.add_1_r, S1, F1, app_assoc. reflexivity.
Qed.

Fixpoint qsum (l : list Q) : Q := match l with [] => 0 | x :: t => x + qsum t end.

Lemma qsum_app : forall a b, qsum (a ++ b) == qsum a + qsum b.
Proof. induction a; simpl; intros; [ring|]. rewrite IHa. ring. Qed.

Lemma qsum_rot : forall l i, qsum (rot l i) == qsum l.
Proof.
  intros. unfold rot. rewrite qsum_app, Qplus_comm, <- qsum_app. now rewrite firstn_skipn.
Qed.

Lemma nth_rot_hd : forall (l : list Q) i, (i < length l)%nat -> hd 0 (rot l i) = nth i l 0.
Proof.
  intros. unfold rot. destruct (list_set_split (A:=Q) l (i:=i) 0 0 H) as [E1 _].
  assert (Lf : length (firstn i l) = i) by (apply firstn_length_le; lia).
  rewrite E1 at 1. rewrite skipn_app, Lf, Nat.sub_diag, skipn_all2 by lia. reflexivity.
Qed.

(** last [n] elements of a list *)
Definition lastn {A} (n : nat) (l : list A) : list A := skipn (length l - n) l.

Lemma lastn_snoc : forall A n (l : list A) x, (1 <= n <= length l)%nat ->
  lastn n (l ++ [x]) = tl (lastn n l) ++ [x].
Proof.
  intros A n l x H. unfold lastn. rewrite app_length. simpl.
  replace (length l + 1 - n)%nat with (S (length l - n)) by lia.
  rewrite skipn_app.
  replace (S (length l - n) - length l)%nat with 0%nat by lia. simpl skipn at 2.
  f_equal.
  assert (K : forall (k : nat) (m : list A), skipn (S k) m = tl (skipn k m)).
  { induction k; destruct m; simpl; auto. rewrite <- IHk. reflexivity. }
  apply K.
Qed.

Lemma lastn_len : forall A n (l : list A), (n <= length l)%nat -> length (lastn n l) = n.
Proof. intros. unfold lastn. rewrite skipn_length. lia. Qed.

Definition ewa_inv (n : nat) (ini : Q) (hist : list Q) (e : ewa) : Prop :=
  length (ew_pool e) = n /\ (ew_last e < n)%nat /\ (n <= length hist)%nat /\
  rot (ew_pool e) (ew_last e) = lastn n hist /\
  ew_fast e == qsum (ew_pool e) + ini - Qnat n * ini.

Lemma qsum_repeat : forall x n, qsum (repeat x n) == Qnat n * x.
Proof.
  induction n; simpl; [unfold Qnat; simpl; ring|]. rewrite IHn. unfold Qnat.
  rewrite Nat2Z.inj_succ, <- Z.add_1_l, inject_Z_plus. ring.
Qed.

Lemma rot0 : forall A (l : list A), rot l 0 = l.
Proof. intros; unfold rot; simpl; apply app_nil_r. Qed.

Lemma ewa_new_inv : forall n ini, (1 <= n)%nat -> ewa_inv n ini (repeat ini n) (ewa_new n ini).
Proof.
  intros n ini H. unfold ewa_inv, ewa_new; simpl. rewrite repeat_length.
  repeat split; auto; try lia.
  - rewrite rot0. unfold lastn. rewrite repeat_length, Nat.sub_diag. reflexivity.
  - rewrite qsum_repeat. ring.
Qed.

Lemma ewa_update_inv : forall n ini hist e x, (1 <= n)%nat -> ewa_inv n ini hist e ->
  ewa_inv n ini (hist ++ [x / Qnat n]) (ewa_update n e x).
Proof.
  intros n ini hist e x Hn (H1 & H2 & H3 & H4 & H5).
  unfold ewa_inv, ewa_update; simpl. rewrite list_set_length, app_length.
  assert (R : rot (list_set (ew_pool e) (ew_last e) (x / Qnat n)) ((ew_last e + 1) mod n)
              = lastn n (hist ++ [x / Qnat n])).
  { rewrite lastn_snoc by lia. rewrite <- H4.
    replace ((ew_last e + 1) mod n) with ((ew_last e + 1) mod length (ew_pool e)) by now rewrite H1.
    apply rot_update. lia. }
  repeat split; auto; try lia.
  - apply Nat.mod_upper_bound. lia.
  - assert (S1 : qsum (list_set (ew_pool e) (ew_last e) (x / Qnat n)) ==
                 qsum (ew_pool e) - nth (ew_last e) (ew_pool e) 0 + x / Qnat n).
    { rewrite <- (qsum_rot (list_set _ _ _) ((ew_last e + 1) mod n)), R.
      rewrite lastn_snoc by lia. rewrite qsum_app.
      rewrite <- (qsum_rot (ew_pool e) (ew_last e)).
      rewrite <- nth_rot_hd by lia. rewrite H4.
      destruct (lastn n hist) eqn:E.
      - exfalso. pose proof (lastn_len _ n hist H3). rewrite E in H. simpl in H. lia.
      - simpl. ring. }
    rewrite S1, H5. ring.
Qed.

Lemma ewa_run_inv : forall n ini xs hist e, (1 <= n)%nat -> ewa_inv n ini hist e ->
  ewa_inv n ini (hist ++ map (fun x => x / Qnat n) xs) (fold_left (ewa_update n) xs e).
Proof.
  induction xs as [|x xs IH]; intros hist e Hn H; simpl.
  - now rewrite app_nil_r.
  - replace (hist ++ x / Qnat n :: map (fun x0 => x0 / Qnat n) xs)
      with ((hist ++ [x / Qnat n]) ++ map (fun x0 => x0 / Qnat n) xs)
      by (rewrite <- app_assoc; reflexivity).
    apply IH; auto. now apply ewa_update_inv.
Qed.

Lemma Qnat_nz : forall n, (1 <= n)%nat -> ~ Qnat n == 0.
Proof.
  intros n H E. unfold Qnat, Qeq in E. simpl in E. lia.
Qed.

Lemma qsum_map_div : forall xs d, qsum (map (fun x => x / d) xs) == qsum xs / d.
Proof.
  induction xs; simpl; intros.
  - unfold Qdiv. ring.
  - rewrite IHxs. unfold Qdiv. ring.
Qed.

Lemma lastn_map : forall A B (f : A -> B) n l, lastn n (map f l) = map f (lastn n l).
Proof. intros. unfold lastn. rewrite map_length. symmetry. revert l.
  assert (K : forall k (l : list A), map f (skipn k l) = skipn k (map f l)).
  { induction k; destruct l; simpl; auto. }
  intros. apply K. Qed.

(** the reported value after any run *)
Lemma ewa_value : forall n ini xs, (1 <= n)%nat ->
  ew_fast (fold_left (ewa_update n) xs (ewa_new n ini)) ==
  qsum (lastn n (repeat (Qnat n * ini) n ++ xs)) / Qnat n + ini - Qnat n * ini.
Proof.
  intros n ini xs Hn.
  destruct (ewa_run_inv n ini xs _ _ Hn (ewa_new_inv n ini Hn)) as (_ & Hl & Hge & Hr & Hf).
  rewrite Hf. rewrite <- (qsum_rot _ (ew_last (fold_left (ewa_update n) xs (ewa_new n ini)))).
  rewrite Hr.
  assert (E : qsum (lastn n (repeat ini n ++ map (fun x => x / Qnat n) xs)) ==
              qsum (lastn n (repeat (Qnat n * ini) n ++ xs)) / Qnat n).
  { rewrite <- qsum_map_div, <- lastn_map, map_app.
    unfold lastn. rewrite !app_length, !map_length, !repeat_length.
    rewrite !skipn_app, !map_length, !repeat_length.
    rewrite !qsum_app. 
    assert (P : forall k m, qsum (skipn k (repeat ini m)) ==
                qsum (skipn k (map (fun x => x / Qnat n) (repeat (Qnat n * ini) m)))).
    { intros k m. revert k. induction m; intros [|k]; simpl; try reflexivity.
      - specialize (IHm 0%nat). simpl in IHm. rewrite IHm. field. now apply Qnat_nz.
      - apply IHm. }
    rewrite P. reflexivity. }
  rewrite E. reflexivity.
Qed.

Lemma ewa2_as_ewa : forall n xs e,
  w2_fast (fold_left (ewa2_update n) xs e) =
  ew_fast (fold_left (ewa_update n) xs (mkEwa (w2_fast e) (w2_pool e) (w2_last e))).
Proof.
  induction xs as [|x xs IH]; intros e; simpl; auto. rewrite IH. reflexivity.
Qed.

(** ** delete_unstable *)
Lemma position_some : forall A (f : A -> bool) l i, position f l = Some i ->
  exists a x b, l = a ++ x :: b /\ length a = i /\ f x = true /\ (forall y, In y a -> f y = false).
Proof.
  induction l as [|y l IH]; simpl; intros i H; [discriminate|].
  destruct (f y) eqn:E.
  - injection H as <-. exists [], y, l. repeat split; auto. intros y0 [].
  - destruct (position f l) as [j|]; [|discriminate]. injection H as <-.
    destruct (IH j eq_refl) as (a & x & b & -> & L & Hx & Ha).
    exists (y :: a), x, b. repeat split; simpl; auto.
    intros y0 [->|Hy]; auto.
Qed.

Lemma position_none : forall A (f : A -> bool) l, position f l = None ->
  forall y, In y l -> f y = false.
Proof.
  induction l as [|y l IH]; simpl; intros H y0 Hy; [contradiction|].
  destruct (f y) eqn:E; [discriminate|].
  destruct (position f l); [discriminate|]. destruct Hy as [<-|Hy]; auto.
Qed.

Lemma list_set_app : forall A (a : list A) x b z,
  list_set (a ++ x :: b) (length a) z = a ++ z :: b.
Proof. induction a; simpl; intros; auto. now rewrite IHa. Qed.

Lemma swap_remove_perm : forall A (a : list A) x b,
  Permutation (swap_remove (a ++ x :: b) (length a)) (a ++ b).
Proof.
  intros A a x b. unfold swap_remove.
  destruct b as [|y b] using rev_ind.
  - rewrite rev_app_distr. simpl. rewrite list_set_app, removelast_app by discriminate.
    simpl. reflexivity.
  - clear IHb. rewrite rev_app_distr. simpl rev at 1.
    rewrite rev_app_distr. simpl. rewrite list_set_app.
    replace (a ++ y :: b ++ [y]) with ((a ++ y :: b) ++ [y]) by (rewrite <- app_assoc; reflexivity).
    rewrite removelast_last. apply Permutation_app_head.
    apply Permutation_cons_append.
Qed.
