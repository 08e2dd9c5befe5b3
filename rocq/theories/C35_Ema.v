(** C35 moving averages, C36 equally weighted window, C40 sort keys,
    C44 unstable deletion. *)
From Coq Require Import List Arith Bool QArith Lqa Lia Permutation.
From Verif Require Import Base EmaModel EmaProofs.
Import ListNotations.
Open Scope Q_scope.

(** C35. An EMA of any period [s > 0], started from a value in [a,b], stays in [a,b]
    under any history of inputs from [a,b]. *)
Theorem C35_ema_bounded : forall s v a b xs,
  a <= v /\ v <= b -> (forall x, In x xs -> a <= x /\ x <= b) ->
  let r := ema_get (fold_left ema_update xs (ema_with_value (ema_new s) v)) in
  a <= r /\ r <= b.
Proof.
  intros s v a b xs [H1 H2] H. destruct (inv_pos_range s).
  apply fold_ema_bounds; simpl; auto.
Qed.
Print Assumptions C35_ema_bounded.

(** ... both speeds of [Ema2] as well. *)
Theorem C35_ema2_bounded : forall f s v a b xs,
  a <= v /\ v <= b -> (forall x, In x xs -> a <= x /\ x <= b) ->
  let r := fold_left ema2_update xs (ema2_with_value (ema2_with_slow (ema2_new f) s) v) in
  (a <= e2_fast r /\ e2_fast r <= b) /\ (a <= e2_slow r /\ e2_slow r <= b).
Proof.
  intros f s v a b xs [H1 H2] H.
  destruct (inv_pos_range f), (inv_pos_range s).
  destruct (fold_ema2_bounds xs (ema2_with_value (ema2_with_slow (ema2_new f) s) v) a b)
    as (A & B & C & D); simpl; auto.
Qed.
Print Assumptions C35_ema2_bounded.

(** ... under a constant input the distance to it shrinks by exactly (1 - 1/s) per
    update. *)
Theorem C35_ema_converges : forall s v x n,
  ema_get (fold_left ema_update (repeat x n) (ema_with_value (ema_new s) v)) - x
  == qpow (1 - (1 # s)) n * (v - x).
Proof. intros. unfold ema_get. rewrite ema_const. simpl. ring. Qed.
Print Assumptions C35_ema_converges.

(** Specification: the exponentially weighted average with weight [c] of the history
    [xs] (oldest first) started from [v]: the input made [k] updates ago weighs
    c*(1-c)^k and the initial value (1-c)^(number of updates). *)
Definition weighted_average (c v : Q) (xs : list Q) : Q :=
  qpow (1 - c) (length xs) * v +
  qsum (map (fun k => c * qpow (1 - c) k * nth k (rev xs) 0) (seq 0 (length xs))).

Lemma weighted_snoc c v xs x :
  weighted_average c v (xs ++ [x]) == c * x + (1 - c) * weighted_average c v xs.
Proof.
  unfold weighted_average. rewrite app_length, rev_app_distr. simpl length.
  replace (length xs + 1)%nat with (S (length xs)) by lia.
  simpl rev. simpl seq. simpl map. simpl qsum. simpl qpow. rewrite <- seq_shift, map_map.
  assert (E : forall l, qsum (map (fun k => c * qpow (1 - c) (S k) * nth (S k) (x :: rev xs) 0) l) ==
              (1 - c) * qsum (map (fun k => c * qpow (1 - c) k * nth k (rev xs) 0) l)).
  { induction l; simpl; [ring|]. simpl in IHl. rewrite IHl. ring. }
  simpl in E. rewrite E. ring.
Qed.

(** ... the exact value of [Ema] after any history, ... *)
Theorem C35_ema_value : forall s v xs,
  ema_get (fold_left ema_update xs (ema_with_value (ema_new s) v)) == weighted_average (1 # s) v xs.
Proof.
  intros s v xs. induction xs as [|x xs IH] using rev_ind; [unfold weighted_average; simpl; ring|].
  rewrite weighted_snoc, fold_left_app. simpl. unfold ema_get in *. simpl.
  rewrite ema_fold_sca. simpl. rewrite IH. reflexivity.
Qed.
Print Assumptions C35_ema_value.

(** ... of both speeds of [Ema2], whose trend is their quotient, ... *)
Theorem C35_ema2_value : forall f s v xs,
  let r := fold_left ema2_update xs (ema2_with_value (ema2_with_slow (ema2_new f) s) v) in
  e2_fast r == weighted_average (1 # f) v xs /\ e2_slow r == weighted_average (1 # s) v xs /\
  ema2_trend r == weighted_average (1 # f) v xs / weighted_average (1 # s) v xs.
Proof.
  intros f s v xs. cbv zeta.
  assert (W : forall xs, e2_fe (fold_left ema2_update xs (ema2_with_value (ema2_with_slow (ema2_new f) s) v)) = (1 # f)
                      /\ e2_se (fold_left ema2_update xs (ema2_with_value (ema2_with_slow (ema2_new f) s) v)) = (1 # s)).
  { clear xs. induction xs as [|x xs [A B]] using rev_ind; [now simpl|]. rewrite fold_left_app. simpl. auto. }
  assert (V : e2_fast (fold_left ema2_update xs (ema2_with_value (ema2_with_slow (ema2_new f) s) v)) == weighted_average (1 # f) v xs
           /\ e2_slow (fold_left ema2_update xs (ema2_with_value (ema2_with_slow (ema2_new f) s) v)) == weighted_average (1 # s) v xs).
  { induction xs as [|x xs [IH1 IH2]] using rev_ind; [split; unfold weighted_average; simpl; ring|].
    rewrite !weighted_snoc, fold_left_app. simpl. destruct (W xs) as [-> ->]. split; [rewrite IH1|rewrite IH2]; reflexivity. }
  destruct V as [V1 V2]. repeat split; auto. unfold ema2_trend. rewrite V1, V2. reflexivity.
Qed.
Print Assumptions C35_ema2_value.

(** ... so the trend is 1 under a constant non-zero input, ... *)
Theorem C35_ema2_trend_constant : forall f s x n, ~ x == 0 ->
  ema2_trend (fold_left ema2_update (repeat x n) (ema2_with_value (ema2_with_slow (ema2_new f) s) x)) == 1.
Proof.
  intros f s x n N.
  destruct (C35_ema2_bounded f s x x x (repeat x n)) as [[A B] [C D]].
  - split; apply Qle_refl.
  - intros y Hy. apply repeat_spec in Hy. subst. split; apply Qle_refl.
  - unfold ema2_trend.
    assert (E1 : e2_fast (fold_left ema2_update (repeat x n) (ema2_with_value (ema2_with_slow (ema2_new f) s) x)) == x)
      by now apply Qle_antisym.
    assert (E2 : e2_slow (fold_left ema2_update (repeat x n) (ema2_with_value (ema2_with_slow (ema2_new f) s) x)) == x)
      by now apply Qle_antisym.
    rewrite E1, E2. field. auto.
Qed.
Print Assumptions C35_ema2_trend_constant.

(** ... and [EmaSU] averages the differences of successive inputs (the first one is
    compared with 0). *)
Fixpoint differences (last : Q) (xs : list Q) : list Q :=
  match xs with [] => [] | x :: t => (x - last) :: differences x t end.
Theorem C35_emasu_value : forall s xs,
  ema_get (su_ema (fold_left emasu_update xs (emasu_new s))) == weighted_average (1 # s) 0 (differences 0 xs).
Proof.
  intros s xs. rewrite <- C35_ema_value.
  change (ema_with_value (ema_new s) 0) with (ema_new s).
  assert (E : forall xs l e, su_ema (fold_left emasu_update xs (mkEmaSU l e)) = fold_left ema_update (differences l xs) e).
  { clear. induction xs as [|y t IH]; intros l e; [reflexivity|]. apply (IH y). }
  unfold emasu_new. rewrite E. reflexivity.
Qed.
Print Assumptions C35_emasu_value.

Example C35_example :
  ema_get (fold_left ema_update [1; 3] (ema_with_value (ema_new 4) 2)) == 33 # 16.
Proof. vm_compute. reflexivity. Qed.

(** C36. [Ewa<N>] created with 0 (the only way the solver uses it) reports the
    arithmetic mean of the last N inputs, missing inputs counting as 0, after any
    history. *)
Theorem C36_ewa_mean_zero_initial_partial : forall n xs, (1 <= n)%nat ->
  ew_fast (fold_left (ewa_update n) xs (ewa_new n 0)) ==
  qsum (lastn n (repeat 0 n ++ xs)) / Qnat n.
Proof.
  intros n xs H. rewrite ewa_value by auto.
  assert (E : forall k m, qsum (skipn k (repeat (Qnat n * 0) m)) == 0).
  { intros k m; revert k; induction m; intros [|k]; simpl; try reflexivity.
    - specialize (IHm 0%nat). simpl in IHm. rewrite IHm. ring.
    - apply IHm. }
  assert (E0 : forall k m, qsum (skipn k (repeat 0 m)) == 0).
  { intros k m; revert k; induction m; intros [|k]; simpl; try reflexivity.
    - specialize (IHm 0%nat). simpl in IHm. rewrite IHm. ring.
    - apply IHm. }
  unfold lastn. rewrite !app_length, !repeat_length, !skipn_app, !repeat_length.
  rewrite !qsum_app, E, E0. ring.
Qed.
Print Assumptions C36_ewa_mean_zero_initial_partial.

(** ... the fast average of [Ewa2<N>] is the same window mean. *)
Theorem C36_ewa2_mean_zero_initial_partial : forall n s xs, (1 <= n)%nat ->
  w2_fast (fold_left (ewa2_update n) xs (ewa2_with_slow (ewa2_new n 0) s)) ==
  qsum (lastn n (repeat 0 n ++ xs)) / Qnat n.
Proof. intros. rewrite ewa2_as_ewa. now apply C36_ewa_mean_zero_initial_partial. Qed.
Print Assumptions C36_ewa2_mean_zero_initial_partial.

(** ... its slow side is the exponentially weighted average. *)
Theorem C36_ewa2_slow_value : forall n s ini xs,
  w2_slow (fold_left (ewa2_update n) xs (ewa2_with_slow (ewa2_new n ini) s)) == weighted_average (1 # s) ini xs.
Proof.
  intros n s ini xs.
  assert (W : forall xs, w2_se (fold_left (ewa2_update n) xs (ewa2_with_slow (ewa2_new n ini) s)) = (1 # s)
                      /\ w2_sx (fold_left (ewa2_update n) xs (ewa2_with_slow (ewa2_new n ini) s)) = 1 - (1 # s)).
  { clear xs. induction xs as [|x xs [A B]] using rev_ind; [now simpl|]. rewrite fold_left_app. simpl. auto. }
  induction xs as [|x xs IH] using rev_ind; [unfold weighted_average; simpl; ring|].
  rewrite weighted_snoc, fold_left_app. simpl. destruct (W xs) as [-> ->]. rewrite IH. reflexivity.
Qed.
Print Assumptions C36_ewa2_slow_value.

(** ... also without [with_slow]: the period of the slow side is then that of the window. *)
Theorem C36_ewa2_default_slow_value : forall n ini xs, (1 <= n)%nat ->
  w2_slow (fold_left (ewa2_update n) xs (ewa2_new n ini)) == weighted_average (1 / Qnat n) ini xs.
Proof.
  intros n ini xs _.
  assert (W : forall xs, w2_se (fold_left (ewa2_update n) xs (ewa2_new n ini)) = 1 / Qnat n
                      /\ w2_sx (fold_left (ewa2_update n) xs (ewa2_new n ini)) = 1 - 1 / Qnat n).
  { clear xs. induction xs as [|x xs [A B]] using rev_ind; [now simpl|]. rewrite fold_left_app. simpl. auto. }
  induction xs as [|x xs IH] using rev_ind; [unfold weighted_average; simpl; ring|].
  rewrite weighted_snoc, fold_left_app. simpl. destruct (W xs) as [-> ->]. rewrite IH. reflexivity.
Qed.

(** ... for an arbitrary initial value the result is off by (N-1)*initial even when
    the window is full. *)
Theorem C36_ewa_full_window_offset : forall n ini xs, (1 <= n)%nat -> (n <= length xs)%nat ->
  ew_fast (fold_left (ewa_update n) xs (ewa_new n ini)) ==
  qsum (lastn n xs) / Qnat n - (Qnat n - 1) * ini.
Proof.
  intros n ini xs H HL. rewrite ewa_value by auto.
  assert (E : lastn n (repeat (Qnat n * ini) n ++ xs) = lastn n xs).
  { unfold lastn. rewrite app_length, repeat_length, skipn_app, repeat_length.
    rewrite skipn_all2 by (rewrite repeat_length; lia). simpl. f_equal. lia. }
  rewrite E. ring.
Qed.
Print Assumptions C36_ewa_full_window_offset.

(** ... so the full claim is false: a witness with a non-zero initial value. *)
Theorem C36_ewa_mean_refuted :
  ~ (forall n ini xs, (1 <= n)%nat -> (n <= length xs)%nat ->
     ew_fast (fold_left (ewa_update n) xs (ewa_new n ini)) == qsum (lastn n xs) / Qnat n).
Proof.
  intros H. specialize (H 2%nat 1 [5; 5] ltac:(lia) ltac:(simpl; lia)).
  vm_compute in H. discriminate.
Qed.
Print Assumptions C36_ewa_mean_refuted.

Example C36_example :
  ew_fast (fold_left (ewa_update 2) [1; 3; 5] (ewa_new 2 0)) == 4.
Proof. vm_compute. reflexivity. Qed.

(** C40. Comparison of sort keys, NaN included, is a total preorder that never hits
    [unreachable!()]: it always returns an answer, is reflexive, antisymmetric in the
    sense of swapping arguments, and transitive. *)
Definition op_le {T} (a b : ordered_proxy T) : Prop :=
  op_cmp a b = Some Lt \/ op_cmp a b = Some Eq.

Theorem C40_ordered_proxy_total_preorder_partial : forall T (a b c : ordered_proxy T),
  op_cmp a b <> None /\ op_cmp a a = Some Eq /\
  op_cmp b a = option_map CompOpp (op_cmp a b) /\
  (op_le a b \/ op_le b a) /\
  (op_le a b -> op_le b c -> op_le a c).
Proof.
  intros T [ia ba] [ib bb] [ic bc]. unfold op_le, op_cmp, f64_partial_cmp, f64_is_nan; simpl.
  assert (R : forall q, (q ?= q) = Eq) by (intros; apply Qeq_alt; reflexivity).
  assert (S : forall p q, (q ?= p) = CompOpp (p ?= q)) by (intros; symmetry; apply Qcompare_antisym).
  split; [destruct ia, ib; discriminate|].
  split; [destruct ia; rewrite ?R; reflexivity|].
  split; [destruct ia, ib; simpl; rewrite ?(S q q0); reflexivity|].
  split.
  - destruct ia as [p|], ib as [q|]; auto.
    rewrite (S p q). destruct (p ?= q); simpl; auto.
  - destruct ia as [p|], ib as [q|], ic as [r|]; intros [H1|H1] [H2|H2]; auto; try discriminate.
    + left. injection H1 as H1; injection H2 as H2. f_equal.
      apply Qlt_alt in H1. apply Qlt_alt in H2. apply -> Qlt_alt. eapply Qlt_trans; eauto.
    + left. injection H1 as H1; injection H2 as H2. f_equal.
      apply Qlt_alt in H1. apply Qeq_alt in H2. apply -> Qlt_alt. now rewrite <- H2.
    + left. injection H1 as H1; injection H2 as H2. f_equal.
      apply Qeq_alt in H1. apply Qlt_alt in H2. apply -> Qlt_alt. now rewrite H1.
    + right. injection H1 as H1; injection H2 as H2. f_equal.
      apply Qeq_alt in H1. apply Qeq_alt in H2. apply -> Qeq_alt. now rewrite H1.
Qed.
Print Assumptions C40_ordered_proxy_total_preorder_partial.

(** Numeric keys are ordered by value, and a NaN key sorts after every number, whatever
    the bodies are. *)
Theorem C40_numbers_by_value_nan_last : forall T (x y : T) p q,
  (op_cmp (mkOP (FNum p) x) (mkOP (FNum q) y) = Some Lt <-> p < q) /\
  (op_cmp (mkOP (FNum p) x) (mkOP (FNum q) y) = Some Eq <-> p == q) /\
  (op_cmp (mkOP (FNum p) x) (mkOP (FNum q) y) = Some Gt <-> q < p) /\
  op_cmp (mkOP (FNum p) x) (mkOP FNaN y) = Some Lt /\
  op_cmp (mkOP FNaN x) (mkOP (FNum q) y) = Some Gt /\
  op_cmp (mkOP FNaN x) (mkOP FNaN y) = Some Eq.
Proof.
  intros T x y p q. unfold op_cmp; simpl.
  rewrite Qlt_alt, Qeq_alt, Qgt_alt.
  repeat split; try reflexivity; intros H; (injection H as H; exact H) || (now rewrite H).
Qed.
Print Assumptions C40_numbers_by_value_nan_last.

(** ... but it is not consistent with [==]: [cmp] can say Equal for values that are
    not [==], and a NaN key is not [==] to itself although [cmp] says Equal. *)
Theorem C40_ordered_proxy_consistent_refuted :
  (exists a b : ordered_proxy nat, op_cmp a b = Some Eq /\ op_eq Nat.eqb a b = false) /\
  (exists a : ordered_proxy nat, op_cmp a a = Some Eq /\ op_eq Nat.eqb a a = false).
Proof.
  split.
  - exists (mkOP (FNum 1) 1%nat), (mkOP (FNum 1) 2%nat). vm_compute. auto.
  - exists (mkOP FNaN 1%nat). vm_compute. auto.
Qed.
Print Assumptions C40_ordered_proxy_consistent_refuted.

(** C44. [delete_unstable] removes exactly one matching element when there is one
    (the first), keeps all others as a multiset, and does nothing otherwise. *)
Theorem C44_delete_unstable : forall A (f : A -> bool) l,
  (exists a x b, l = a ++ x :: b /\ f x = true /\ (forall y, In y a -> f y = false) /\
                 Permutation (delete_unstable f l) (a ++ b)) \/
  ((forall y, In y l -> f y = false) /\ delete_unstable f l = l).
Proof.
  intros A f l. unfold delete_unstable. destruct (position f l) as [i|] eqn:E.
  - left. destruct (position_some A f l i E) as (a & x & b & -> & <- & Hx & Ha).
    exists a, x, b. repeat split; auto. apply swap_remove_perm.
  - right. split; auto. now apply position_none.
Qed.
Print Assumptions C44_delete_unstable.

Example C44_example : delete_unstable (Nat.eqb 2) [1; 2; 3; 4]%nat = [1; 4; 3]%nat.
Proof. reflexivity. Qed.
