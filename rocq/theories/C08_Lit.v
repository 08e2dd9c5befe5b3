(** C08 Literal encoding, C09 literal lifting. *)
From Coq Require Import ZArith Bool Lia.
From Verif Require Import LitModel LitProofs.
Open Scope Z_scope.

(** C08. For every nonzero i32 other than i32::MIN (release build): converting
    to a literal and back is the identity. *)
Theorem C08_lit_roundtrip : forall x, is_i32 x -> x <> 0 -> x <> - 2 ^ 31 ->
  i32_of_lit (lit_of_i32 x) = x.
Proof. exact lit_roundtrip_l. Qed.
Print Assumptions C08_lit_roundtrip.

(** ... so different integers give different literals *)
Theorem C08_lit_injective : forall x y,
  is_i32 x -> x <> 0 -> x <> - 2 ^ 31 -> is_i32 y -> y <> 0 -> y <> - 2 ^ 31 ->
  lit_of_i32 x = lit_of_i32 y -> x = y.
Proof.
  intros x y H1 H2 H3 H4 H5 H6 E.
  rewrite <- (lit_roundtrip_l x), <- (lit_roundtrip_l y) by auto. now rewrite E.
Qed.
Print Assumptions C08_lit_injective.

(** ... [!] is arithmetic negation, [vi] the magnitude, [as_bool] (and the
    conversion to bool) the sign, the [(VarId, bool)] constructor agrees, and the
    ordinal is a valid nonzero u32 (so the [NonZeroU32::new_unchecked] is sound). *)
Theorem C08_lit_operations : forall x, is_i32 x -> x <> 0 -> x <> - 2 ^ 31 ->
  lit_not (lit_of_i32 x) = lit_of_i32 (- x) /\
  lit_vi (lit_of_i32 x) = Z.abs x /\
  lit_as_bool (lit_of_i32 x) = (0 <? x) /\
  bool_of_lit (lit_of_i32 x) = (0 <? x) /\
  lit_of_var (Z.abs x) (0 <? x) = lit_of_i32 x /\
  0 < lit_of_i32 x < 2 ^ 32.
Proof.
  intros x H H0 H1.
  pose proof (lit_of_i32_range x H H0 H1) as [R1 R2]. unfold is_u32 in R1.
  split; [now apply lit_not_l|].
  rewrite lit_of_i32_parts in * by auto.
  split; [apply lit_vi_parts|]. split; [apply lit_as_bool_parts|].
  split; [apply bool_of_lit_parts|].
  split; [apply lit_of_var_parts; now apply abs_range|]. lia.
Qed.
Print Assumptions C08_lit_operations.

(** ... every literal that denotes a variable (ordinal >= 2) comes from exactly
    one integer. *)
Theorem C08_lit_surjective : forall l, 2 <= l < 2 ^ 32 ->
  is_i32 (i32_of_lit l) /\ i32_of_lit l <> 0 /\ i32_of_lit l <> - 2 ^ 31 /\
  lit_of_i32 (i32_of_lit l) = l.
Proof.
  intros l H.
  assert (E : exists n b, l = 2 * n + Z.b2z b /\ 0 < n < 2 ^ 31).
  { exists (l / 2), (l mod 2 =? 1).
    pose proof (Z.div_mod l 2 ltac:(lia)). pose proof (Z.mod_pos_bound l 2 ltac:(lia)).
    pw. destruct (Z.eqb_spec (l mod 2) 1); simpl Z.b2z; lia. }
  destruct E as (n & b & -> & Hn).
  rewrite i32_of_lit_parts by lia.
  assert (A : is_i32 (if b then n else - n)) by (unfold is_i32; pw; destruct b; lia).
  assert (B : (if b then n else - n) <> 0) by (destruct b; lia).
  assert (C : (if b then n else - n) <> - 2 ^ 31) by (pw; destruct b; lia).
  repeat split; try apply A; auto.
  rewrite lit_of_i32_parts by auto.
  destruct b; simpl Z.b2z.
  - destruct (Z.ltb_spec 0 n); cbn [Z.b2z]; lia.
  - destruct (Z.ltb_spec 0 (- n)); cbn [Z.b2z]; lia.
Qed.
Print Assumptions C08_lit_surjective.

(** ... the order used to sort clauses puts the two literals of a variable next
    to each other: ordering by ordinal is ordering by variable, then sign. *)
Theorem C08_lit_order : forall x y,
  is_i32 x -> x <> 0 -> x <> - 2 ^ 31 -> is_i32 y -> y <> 0 -> y <> - 2 ^ 31 ->
  (lit_of_i32 x < lit_of_i32 y <->
   Z.abs x < Z.abs y \/ (Z.abs x = Z.abs y /\ x < y)).
Proof.
  intros x y H1 H2 H3 H4 H5 H6.
  rewrite !lit_of_i32_nz by auto.
  destruct (Z.ltb_spec x 0), (Z.ltb_spec y 0); lia.
Qed.
Print Assumptions C08_lit_order.

(** ... in a build with overflow checks the conversion panics exactly outside
    |x| < 2^30, and agrees with the release build inside. *)
Theorem C08_lit_checked : forall x, is_i32 x ->
  (lit_of_i32_checked x = Some (lit_of_i32 x) <-> Z.abs x < 2 ^ 30) /\
  (lit_of_i32_checked x = None <-> 2 ^ 30 <= Z.abs x).
Proof.
  intros x H. rewrite lit_checked_l by auto.
  destruct (Z.ltb_spec (Z.abs x) (2 ^ 30)); split; split; intros; auto; try discriminate; lia.
Qed.
Print Assumptions C08_lit_checked.

(** ... and the two excluded integers really are not represented: 0 becomes a
    literal of the nonexistent variable 0, and i32::MIN becomes ordinal 0. *)
Theorem C08_lit_excluded :
  lit_vi (lit_of_i32 0) = 0 /\ lit_of_i32 (- 2 ^ 31) = 0 /\
  i32_of_lit (lit_of_i32 (- 2 ^ 31)) <> - 2 ^ 31.
Proof. vm_compute. repeat split; discriminate. Qed.
Print Assumptions C08_lit_excluded.

Example C08_example : lit_of_i32 (-3) = 6 /\ lit_of_i32 3 = 7 /\ lit_not 7 = 6 /\
  i32_of_lit 6 = -3 /\ is_i32 (-3) /\ lit_of_i32 (2 ^ 31 - 1) = 2 ^ 32 - 1.
Proof. vm_compute. repeat split; congruence. Qed.

(** C09. Lifting a literal into a clause id is lossless and recognisable for
    all literals whose ordinal is below 2^31 (variables below 2^30). *)
Theorem C09_lift_roundtrip : forall l, 0 < l < 2 ^ 31 ->
  is_lifted_lit (cid_of_lit l) = true /\
  lit_of_cid (cid_of_lit l) = l /\
  0 < cid_of_lit l < 2 ^ 32.
Proof.
  intros l H. split; [apply lifted_cid|]. split; [apply lit_cid_roundtrip; lia|].
  unfold cid_of_lit. rewrite lor_bit31 by lia. pw; lia.
Qed.
Print Assumptions C09_lift_roundtrip.

(** ... ordinary clause ids (vector positions below 2^31) are never mistaken for
    lifted literals, and no lifted literal equals an ordinary id. *)
Theorem C09_lift_disjoint : forall c, 0 < c < 2 ^ 31 ->
  is_lifted_lit c = false /\ forall l, cid_of_lit l <> c.
Proof.
  intros c H. split; [apply lifted_small; lia|].
  intros l E. pose proof (lifted_cid l). rewrite E in H0.
  rewrite lifted_small in H0 by lia. discriminate.
Qed.
Print Assumptions C09_lift_disjoint.

(** ... beyond that range the round trip is lost. *)
Theorem C09_lift_out_of_range : forall l, 2 ^ 31 <= l < 2 ^ 32 ->
  lit_of_cid (cid_of_lit l) <> l.
Proof.
  intros l H E. unfold lit_of_cid in E. rewrite land_mask31 in E.
  pose proof (Z.mod_pos_bound (cid_of_lit l) (2 ^ 31) ltac:(pw; lia)). lia.
Qed.
Print Assumptions C09_lift_out_of_range.

Example C09_example : cid_of_lit 7 = 2147483655 /\ lit_of_cid 2147483655 = 7.
Proof. vm_compute. auto. Qed.
