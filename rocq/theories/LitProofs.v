From Coq Require Import ZArith Bool Lia.
From Verif Require Import LitModel.
Open Scope Z_scope.

Ltac pw := change (2 ^ 32) with 4294967296 in *; change (2 ^ 31) with 2147483648 in *;
           change (2 ^ 30) with 1073741824 in *.

Lemma as_u32_mod_i32 : forall z, as_u32 (as_i32 z) = as_u32 z.
Proof.
  intros z. unfold as_u32, as_i32. pw.
  pose proof (Z.mod_pos_bound z 4294967296 ltac:(lia)).
  destruct (Z.ltb_spec (z mod 4294967296) 2147483648).
  - now rewrite Z.mod_mod by lia.
  - replace (z mod 4294967296 - 4294967296) with (z mod 4294967296 + (-1) * 4294967296) by lia.
    rewrite Z_mod_plus_full. now rewrite Z.mod_mod by lia.
Qed.

Lemma as_u32_small : forall z, is_u32 z -> as_u32 z = z.
Proof. unfold is_u32, as_u32; intros; now rewrite Z.mod_small by lia. Qed.

Lemma as_i32_small : forall z, is_i32 z -> as_i32 z = z.
Proof.
  unfold is_i32, as_i32; intros z H; pw.
  destruct (Z_lt_le_dec z 0).
  - replace (z mod 4294967296) with (z + 4294967296).
    + destruct (Z.ltb_spec (z + 4294967296) 2147483648); lia.
    + apply Z.mod_unique with (q := -1); lia.
  - rewrite Z.mod_small by lia. destruct (Z.ltb_spec z 2147483648); lia.
Qed.

Lemma as_u32_add_l : forall a b, as_u32 (as_i32 a + b) = as_u32 (a + b).
Proof.
  intros. unfold as_u32.
  rewrite <- Zplus_mod_idemp_l.
  pose proof (as_u32_mod_i32 a) as E. unfold as_u32 in E. rewrite E.
  now rewrite Zplus_mod_idemp_l.
Qed.

Lemma lit_of_i32_val : forall x, is_i32 x ->
  lit_of_i32 x = if x <? 0 then as_u32 (-2 * x) else 2 * x + 1.
Proof.
  intros x H. unfold lit_of_i32. rewrite as_u32_mod_i32.
  destruct (Z.ltb_spec x 0); auto.
  rewrite as_u32_add_l. apply as_u32_small. unfold is_i32, is_u32 in *; pw; lia.
Qed.

Lemma lit_of_i32_nz : forall x, is_i32 x -> x <> - 2 ^ 31 -> x <> 0 ->
  lit_of_i32 x = 2 * Z.abs x + (if x <? 0 then 0 else 1).
Proof.
  intros x H H1 H2. rewrite lit_of_i32_val by auto.
  destruct (Z.ltb_spec x 0); [|lia].
  rewrite as_u32_small; [lia|]. unfold is_i32, is_u32 in *; pw; lia.
Qed.

Lemma mod2_odd : forall n, (2 * n + 1) mod 2 = 1.
Proof. intros. rewrite Z.add_comm, Z.mul_comm, Z_mod_plus_full. reflexivity. Qed.
Lemma mod2_even : forall n, (2 * n) mod 2 = 0.
Proof. intros. rewrite Z.mul_comm. apply Z_mod_mult. Qed.

Lemma shiftr1 : forall z, Z.shiftr z 1 = z / 2.
Proof. intros. now rewrite Z.shiftr_div_pow2 by lia. Qed.

Lemma i32_of_lit_parts : forall n b, 0 <= n < 2 ^ 31 ->
  i32_of_lit (2 * n + Z.b2z b) = if b then n else - n.
Proof.
  intros n b H. unfold i32_of_lit. rewrite !shiftr1. destruct b; simpl Z.b2z.
  - rewrite mod2_odd. change (1 =? 0) with false. cbv iota.
    replace ((2 * n + 1) / 2) with n by (apply Z.div_unique with 1; lia).
    apply as_i32_small; unfold is_i32; pw; lia.
  - rewrite Z.add_0_r, mod2_even. change (0 =? 0) with true. cbv iota.
    replace ((2 * n) / 2) with n by (apply Z.div_unique with 0; lia).
    rewrite (as_i32_small n) by (unfold is_i32; pw; lia).
    apply as_i32_small; unfold is_i32; pw; lia.
Qed.

Lemma lxor1 : forall n b, Z.lxor (2 * n + Z.b2z b) 1 = 2 * n + Z.b2z (negb b).
Proof.
  intros. apply Z.bits_inj'. intros k Hk.
  rewrite Z.lxor_spec.
  destruct (Z.eq_dec k 0) as [->|].
  - rewrite !Z.testbit_0_r. destruct b; reflexivity.
  - replace k with (Z.succ (k - 1)) by lia.
    rewrite !Z.testbit_succ_r by lia.
    replace (Z.testbit 1 (Z.succ (k - 1))) with false.
    + now rewrite xorb_false_r.
    + symmetry. change 1 with (2 * 0 + Z.b2z true) at 1. rewrite Z.testbit_succ_r by lia. apply Z.bits_0.
Qed.

Lemma land1 : forall n b, Z.land (2 * n + Z.b2z b) 1 = Z.b2z b.
Proof.
  intros. change 1 with (Z.ones 1) at 1. rewrite Z.land_ones by lia.
  change (2 ^ 1) with 2. destruct b; simpl Z.b2z; [apply mod2_odd|].
  rewrite Z.add_0_r. apply mod2_even.
Qed.

Lemma lit_vi_parts : forall n b, lit_vi (2 * n + Z.b2z b) = n.
Proof.
  intros. unfold lit_vi. rewrite shiftr1.
  destruct b; simpl Z.b2z; symmetry;
    [apply Z.div_unique with 1|apply Z.div_unique with 0]; lia.
Qed.

Lemma lit_as_bool_parts : forall n b, lit_as_bool (2 * n + Z.b2z b) = b.
Proof. intros. unfold lit_as_bool. rewrite land1. destruct b; reflexivity. Qed.

Lemma bool_of_lit_parts : forall n b, bool_of_lit (2 * n + Z.b2z b) = b.
Proof. intros. unfold bool_of_lit. rewrite land1. destruct b; reflexivity. Qed.

Lemma lit_of_var_parts : forall n b, 0 <= n < 2 ^ 31 ->
  lit_of_var n b = 2 * n + Z.b2z b.
Proof.
  intros n b H. unfold lit_of_var.
  rewrite (as_u32_small n) by (unfold is_u32; pw; lia).
  rewrite Z.shiftl_mul_pow2 by lia. change (2 ^ 1) with 2.
  rewrite (as_u32_small (n * 2)) by (unfold is_u32; pw; lia).
  replace (if b then 1 else 0) with (Z.b2z b) by (destruct b; reflexivity).
  rewrite as_u32_small; [lia|]. unfold is_u32; pw; destruct b; simpl; lia.
Qed.

Lemma lit_of_i32_parts : forall x, is_i32 x -> x <> - 2 ^ 31 -> x <> 0 ->
  lit_of_i32 x = 2 * Z.abs x + Z.b2z (0 <? x).
Proof.
  intros. rewrite lit_of_i32_nz by auto.
  destruct (Z.ltb_spec x 0), (Z.ltb_spec 0 x); simpl; lia.
Qed.

Lemma abs_range : forall x, is_i32 x -> x <> - 2 ^ 31 -> 0 <= Z.abs x < 2 ^ 31.
Proof. unfold is_i32; intros; pw; lia. Qed.

Lemma lit_roundtrip_l : forall x, is_i32 x -> x <> 0 -> x <> - 2 ^ 31 ->
  i32_of_lit (lit_of_i32 x) = x.
Proof.
  intros x H H0 H1. rewrite lit_of_i32_parts by auto.
  rewrite i32_of_lit_parts by (now apply abs_range).
  destruct (Z.ltb_spec 0 x); lia.
Qed.

Lemma lit_not_l : forall x, is_i32 x -> x <> 0 -> x <> - 2 ^ 31 ->
  lit_not (lit_of_i32 x) = lit_of_i32 (- x).
Proof.
  intros x H H0 H1. rewrite !lit_of_i32_parts;
    try (unfold is_i32 in *; pw; lia); auto.
  unfold lit_not. rewrite lxor1, Z.abs_opp. f_equal. f_equal.
  destruct (Z.ltb_spec 0 x), (Z.ltb_spec 0 (-x)); simpl; auto; lia.
Qed.

(** ordinals are in u32 and nonzero *)
Lemma lit_of_i32_range : forall x, is_i32 x -> x <> 0 -> x <> - 2 ^ 31 ->
  is_u32 (lit_of_i32 x) /\ 2 <= lit_of_i32 x.
Proof.
  intros x H H0 H1. rewrite lit_of_i32_nz by auto.
  unfold is_i32, is_u32 in *; pw. destruct (Z.ltb_spec x 0); lia.
Qed.

Lemma lit_checked_l : forall x, is_i32 x ->
  lit_of_i32_checked x = if Z.abs x <? 2 ^ 30 then Some (lit_of_i32 x) else None.
Proof.
  intros x H. unfold lit_of_i32_checked.
  rewrite lit_of_i32_val by auto.
  unfold in_i32. unfold is_i32 in H. pw.
  destruct (Z.ltb_spec x 0).
  - destruct (Z.leb_spec (- (2147483648)) (-2 * x)); try lia.
    destruct (Z.ltb_spec (-2 * x) 2147483648), (Z.ltb_spec (Z.abs x) 1073741824); cbn [andb]; auto; exfalso; lia.
  - destruct (Z.leb_spec (- (2147483648)) (2 * x)); try lia.
    destruct (Z.leb_spec (- (2147483648)) (2 * x + 1)); try lia.
    destruct (Z.ltb_spec (2 * x) 2147483648), (Z.ltb_spec (2 * x + 1) 2147483648),
      (Z.ltb_spec (Z.abs x) 1073741824); cbn [andb]; auto; try (exfalso; lia).
    now rewrite as_u32_small by (unfold is_u32; pw; lia).
Qed.

(** ** Lifted clause ids *)
Lemma land_bit31 : forall l, 0 <= l < 2 ^ 31 -> Z.land l (2 ^ 31) = 0.
Proof.
  intros l H. apply Z.bits_inj'. intros k Hk. rewrite Z.land_spec, Z.bits_0.
  rewrite Z.pow2_bits_eqb by lia.
  destruct (Z.eqb_spec 31 k) as [<-|]; [|apply andb_false_r].
  rewrite andb_true_r. destruct (Z.eq_dec l 0) as [->|]; [apply Z.bits_0|].
  apply Z.bits_above_log2; [lia|]. apply Z.log2_lt_pow2; lia.
Qed.

Lemma lor_bit31 : forall l, 0 <= l < 2 ^ 31 -> Z.lor l (2 ^ 31) = l + 2 ^ 31.
Proof.
  intros l H. pose proof (land_bit31 l H) as E.
  rewrite Z.add_nocarry_lxor by exact E. symmetry. now apply Z.lxor_lor.
Qed.

Lemma land_mask31 : forall c, Z.land c (2 ^ 31 - 1) = c mod 2 ^ 31.
Proof. intros. change (2 ^ 31 - 1) with (Z.ones 31). now rewrite Z.land_ones by lia. Qed.

Lemma lifted_testbit : forall c, is_lifted_lit c = Z.testbit c 31.
Proof.
  intros. unfold is_lifted_lit.
  destruct (Z.testbit c 31) eqn:E.
  - destruct (Z.eqb_spec (Z.land (2^31) c) 0) as [H|]; auto.
    assert (Z.testbit (Z.land (2 ^ 31) c) 31 = true)
      by (rewrite Z.land_spec, E, Z.pow2_bits_true; auto; lia).
    rewrite H, Z.bits_0 in H0. discriminate.
  - replace (Z.land (2 ^ 31) c) with 0; auto.
    symmetry. apply Z.bits_inj'. intros k Hk. rewrite Z.land_spec, Z.bits_0.
    rewrite Z.pow2_bits_eqb by lia.
    destruct (Z.eqb_spec 31 k) as [<-|]; auto.
Qed.

Lemma lifted_small : forall c, 0 <= c < 2 ^ 31 -> is_lifted_lit c = false.
Proof.
  intros. rewrite lifted_testbit. destruct (Z.eq_dec c 0) as [->|]; [apply Z.bits_0|].
  apply Z.bits_above_log2; [lia|]. apply Z.log2_lt_pow2; lia.
Qed.

Lemma lifted_cid : forall l, is_lifted_lit (cid_of_lit l) = true.
Proof.
  intros. rewrite lifted_testbit. unfold cid_of_lit.
  rewrite Z.lor_spec, Z.pow2_bits_true by lia. apply orb_true_r.
Qed.

Lemma lit_cid_roundtrip : forall l, 0 <= l < 2 ^ 31 -> lit_of_cid (cid_of_lit l) = l.
Proof.
  intros l H. unfold lit_of_cid, cid_of_lit. rewrite lor_bit31 by auto.
  rewrite land_mask31. replace (l + 2 ^ 31) with (l + 1 * 2 ^ 31) by lia.
  rewrite Z_mod_plus_full. now apply Z.mod_small.
Qed.
