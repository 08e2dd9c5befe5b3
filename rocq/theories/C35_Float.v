(** C35 in IEEE binary64: the exponential moving averages of types/ema.rs stay finite and bounded by
    twice the largest input, whatever the history. *)
From Coq Require Import ZArith Reals Bool List Arith Lia Lra Psatz.
From Flocq Require Import Core.Core Relative IEEE754.BinarySingleNaN.
From Verif Require Import FloatModel.
Import ListNotations.

(** * Model (without feature EMA_calibration) *)
(** types/ema.rs:63-68 [struct Ema], 108-119 [new], 120-125 [with_value] *)
Record fema := mkFema { fe_fast : f64; fe_sca : f64 }.
Definition fema_new (s : Z) : fema := mkFema f0 (fdiv f1 (of_usize s)).
Definition fema_with_value (e : fema) (x : f64) : fema := mkFema x (fe_sca e).
(** types/ema.rs:90-92 [update]; [Ema2::update] (169-172) does this on each side *)
Definition fema_update (e : fema) (x : f64) : fema :=
  mkFema (fadd (fmul (fe_sca e) x) (fmul (fsub f1 (fe_sca e)) (fe_fast e))) (fe_sca e).
(** types/ema.rs:243-281 [EmaSU]: inputs are [usize] *)
Record femasu := mkFemasu { fs_last : f64; fs_ema : fema }.
Definition femasu_new (s : Z) : femasu := mkFemasu f0 (fema_new s).
Definition femasu_update (e : femasu) (x : Z) : femasu :=
  mkFemasu (of_usize x) (fema_update (fs_ema e) (fsub (of_usize x) (fs_last e))).

(** * Specification *)
(** a finite number of absolute value at most [B] *)
Definition bounded_by (B : R) (x : f64) : Prop := is_finite x = true /\ (Rabs (B2R x) <= B)%R.

(** * Proofs *)
Open Scope R_scope.
Definition u : R := bpow radix2 (-53).
Lemma u_small : 0 < u /\ u * 4096 * 4096 * 1024 <= 1 / 524288.
Proof. unfold u. change (bpow radix2 (-53)) with (/ 9007199254740992). lra. Qed.
Lemma rnd_err : forall r, Rabs (rnd r) <= Rabs r * (1 + u) + u.
Proof.
  intros r. destruct u_small as [U1 _]. pose proof (Rabs_pos r) as P. assert (P' : 0 <= Rabs r * u) by (apply Rmult_le_pos; lra).
  destruct (Rle_or_lt (bpow radix2 (-1074 + 53 - 1)) (Rabs r)) as [H|H].
  - pose proof (relative_error_N_FLT radix2 (-1074) 53 ltac:(lia) (fun x => negb (Z.even x)) r H) as E.
    change (Rabs (rnd r - r) <= / 2 * bpow radix2 (-53 + 1) * Rabs r) in E.
    replace (/ 2 * bpow radix2 (-53 + 1)) with u in E by (rewrite bpow_plus; unfold u; change (bpow radix2 1) with 2; lra).
    replace (rnd r) with ((rnd r - r) + r) by ring. eapply Rle_trans; [apply Rabs_triang|]. lra.
  - assert (A : Rabs (rnd r) <= bpow radix2 (-1022)) by (apply abs_round_le_generic; try typeclasses eauto; [apply fmt_bpow; lia|apply Rlt_le; exact H]).
    assert (B : bpow radix2 (-1022) <= u) by (apply bpow_le; lia). lra.
Qed.
(** the weights of an average of length [n] *)
Lemma weights : forall n, (1 <= n <= 2 ^ 20)%Z -> let s := fdiv f1 (of_usize n) in
  finite s /\ finite (fsub f1 s) /\ / 2097152 <= value s <= 1 /\ 0 <= value (fsub f1 s) <= 1 - value s + u.
Proof.
  intros n H s. destruct f1_spec as [F1 V1]. destruct (of_usize_exact n) as [A B]; [lia|]. pose proof big_1 as BB. destruct u_small as [U1 U2].
  assert (N : 1 <= IZR n <= 1048576) by (split; apply IZR_le; lia).
  assert (Q : / 1048576 <= 1 / IZR n <= 1).
  { unfold Rdiv. rewrite Rmult_1_l. split; [apply Rinv_le; lra|]. rewrite <- Rinv_1. apply Rinv_le; lra. }
  destruct (fdiv_spec f1 (of_usize n) F1) as [C D]; rewrite ?B, ?V1 in *; [lra|rewrite Rabs_pos_eq; lra|]. fold s in C, D.
  assert (S : / 2097152 <= value s <= 1).
  { rewrite D. split.
    - apply Rle_trans with (bpow radix2 (-20)); [change (bpow radix2 (-20)) with (/ 1048576); lra|].
      rewrite <- (rnd_id (bpow radix2 (-20))) by (apply fmt_bpow; lia). apply rnd_mono. change (bpow radix2 (-20)) with (/ 1048576). lra.
    - rewrite <- (rnd_id 1 fmt_1). rewrite (rnd_id 1 fmt_1) at 1. apply rnd_mono. lra. }
  destruct (fsub_spec f1 s F1 C) as [G I]; rewrite ?V1 in *; [rewrite Rabs_pos_eq; lra|].
  repeat split; auto; try lra; rewrite I.
  - rewrite <- rnd_0. apply rnd_mono. lra.
  - assert (E : Rabs (rnd (1 - value s) - (1 - value s)) <= / 2 * ulp radix2 fexp64 (1 - value s)) by (apply error_le_half_ulp; typeclasses eauto).
    assert (UU : ulp radix2 fexp64 (1 - value s) <= bpow radix2 (-52)).
    { apply Rle_trans with (ulp radix2 fexp64 1); [apply ulp_le; try typeclasses eauto; rewrite !Rabs_pos_eq; lra|].
      change 1 with (bpow radix2 0) at 1. rewrite ulp_bpow. apply Rle_refl. }
    assert (B2 : bpow radix2 (-52) = 2 * u) by (unfold u; change (-52)%Z with (1 + -53)%Z; rewrite bpow_plus; reflexivity).
    apply Rabs_le_inv in E. lra.
Qed.
Lemma step_bound : forall s c x f B, 1 <= B -> / 2097152 <= s <= 1 -> 0 <= c <= 1 - s + u -> Rabs x <= B -> Rabs f <= 2 * B ->
  Rabs (s * x) <= B /\ Rabs (c * f) <= 3 * B /\ Rabs (rnd (s * x) + rnd (c * f)) <= 6 * B /\ Rabs (rnd (rnd (s * x) + rnd (c * f))) <= 2 * B.
Proof.
  intros s c x f B HB Hs Hc Hx Hf. destruct u_small as [U1 U2].
  assert (P1 : Rabs (s * x) <= s * B) by (rewrite Rabs_mult, (Rabs_pos_eq s) by lra; apply Rmult_le_compat_l; lra).
  assert (P2 : Rabs (c * f) <= c * (2 * B)) by (rewrite Rabs_mult, (Rabs_pos_eq c) by lra; apply Rmult_le_compat_l; lra).
  assert (P3 : s * B <= B) by (rewrite <- (Rmult_1_l B) at 2; apply Rmult_le_compat_r; lra).
  assert (P4 : c * (2 * B) <= (1 - s + u) * (2 * B)) by (apply Rmult_le_compat_r; lra).
  assert (P5 : / 2097152 * B <= s * B) by (apply Rmult_le_compat_r; lra).
  assert (P6 : u * B * 17179869184 <= 1 / 524288 * B) by (replace (u * B * 17179869184) with (u * 4096 * 4096 * 1024 * B) by lra; apply Rmult_le_compat_r; lra).
  assert (P7 : u <= u * B) by (rewrite <- (Rmult_1_r u) at 1; apply Rmult_le_compat_l; lra).
  assert (P8 : 0 <= u * B) by lra.
  assert (P9 : (1 - s + u) * (2 * B) = 2 * B - 2 * (s * B) + 2 * (u * B)) by ring.
  pose proof (rnd_err (s * x)) as R1. pose proof (rnd_err (c * f)) as R2. pose proof (rnd_err (rnd (s * x) + rnd (c * f))) as R3.
  assert (R1' : Rabs (rnd (s * x)) <= s * B + 2 * (u * B)).
  { assert (Rabs (s * x) * u <= B * u) by (apply Rmult_le_compat_r; lra). lra. }
  assert (R2' : Rabs (rnd (c * f)) <= 2 * B - 2 * (s * B) + 6 * (u * B)).
  { assert (Rabs (c * f) * u <= (3 * B) * u) by (apply Rmult_le_compat_r; lra). lra. }
  assert (R4 : Rabs (rnd (s * x) + rnd (c * f)) <= 2 * B - s * B + 8 * (u * B)) by (eapply Rle_trans; [apply Rabs_triang|]; lra).
  assert (R5 : Rabs (rnd (s * x) + rnd (c * f)) * u <= (6 * B) * u) by (apply Rmult_le_compat_r; lra).
  split; [lra|]. split; [lra|]. split; lra.
Qed.
Definition EInv (n : Z) (B : R) (e : fema) : Prop := fe_sca e = fdiv f1 (of_usize n) /\ bounded_by (2 * B) (fe_fast e).
Lemma update_inv : forall n B e x, (1 <= n <= 2 ^ 20)%Z -> 1 <= B <= bpow radix2 100 -> EInv n B e -> bounded_by B x -> EInv n B (fema_update e x).
Proof.
  intros n B e x Hn HB [E1 [E2 E3]] [X1 X2]. split; [exact E1|]. destruct (weights n Hn) as (W1 & W2 & W3 & W4).
  rewrite <- E1 in *. fold (value x) in X2. fold (value (fe_fast e)) in E3. set (s := fe_sca e) in *.
  destruct (step_bound (value s) (value (fsub f1 s)) (value x) (value (fe_fast e)) B) as (A1 & A2 & A3 & A4); auto; [lra|].
  assert (BB : 6 * B <= bpow radix2 1023).
  { apply Rle_trans with (bpow radix2 3 * bpow radix2 100); [change (bpow radix2 3) with 8; lra|]. rewrite <- bpow_plus. apply bpow_le. lia. }
  destruct (fmul_spec s x W1 X1) as [M1 M2]; [lra|]. destruct (fmul_spec (fsub f1 s) (fe_fast e) W2 E2) as [N1 N2]; [lra|].
  destruct (fadd_spec _ _ M1 N1) as [S1 S2]; rewrite M2, N2 in *; [lra|].
  split; [exact S1|]. change (Rabs (value (fadd (fmul s x) (fmul (fsub f1 s) (fe_fast e)))) <= 2 * B). now rewrite S2.
Qed.
Theorem C35_ema_f64 : forall n B v xs, (1 <= n <= 2 ^ 20)%Z -> (1 <= B <= bpow radix2 100)%R ->
  bounded_by B v -> Forall (bounded_by B) xs ->
  bounded_by (2 * B) (fe_fast (fold_left fema_update xs (fema_with_value (fema_new n) v))).
Proof.
  intros n B v xs Hn HB [V1 V2] F. assert (I : EInv n B (fema_with_value (fema_new n) v)) by (split; [reflexivity|split; [exact V1|cbn; lra]]).
  revert I. generalize (fema_with_value (fema_new n) v). induction F as [|x xs Hx F IH]; intros e I; [apply I|]. cbn [fold_left]. apply IH. now apply update_inv.
Qed.
(** [EmaSU]: counters of at most 2^64 *)
Theorem C35_emasu_f64 : forall n xs, (1 <= n <= 2 ^ 20)%Z -> (forall x, In x xs -> (0 <= x < 2 ^ 64)%Z) ->
  bounded_by (2 * bpow radix2 64) (fe_fast (fs_ema (fold_left femasu_update xs (femasu_new n)))).
Proof.
  intros n xs Hn H. assert (P : 1 <= bpow radix2 64 <= bpow radix2 100) by (split; [change 1 with (bpow radix2 0)|]; apply bpow_le; lia).
  assert (X : forall x, In x xs -> finite (of_usize x) /\ 0 <= value (of_usize x) <= bpow radix2 64).
  { intros x Hx. specialize (H x Hx). destruct (of_usize_spec x) as [A B]; [lia|]. split; auto. rewrite B. split.
    - rewrite <- rnd_0. apply rnd_mono. apply IZR_le. lia.
    - rewrite <- (rnd_id (bpow radix2 64)) by (apply fmt_bpow; lia). apply rnd_mono. change (bpow radix2 64) with (IZR (2 ^ 64)). apply IZR_le. lia. }
  assert (I : EInv n (bpow radix2 64) (fs_ema (femasu_new n)) /\ finite (fs_last (femasu_new n)) /\ 0 <= value (fs_last (femasu_new n)) <= bpow radix2 64).
  { split; [split; [reflexivity|split; [reflexivity|]]|split; [reflexivity|]]; unfold value; cbn [femasu_new fs_ema fs_last fema_new fe_fast B2R f0]; [rewrite Rabs_R0; lra|lra]. }
  clear H. revert X I. generalize (femasu_new n). induction xs as [|x xs IH]; intros e X (I1 & I2 & I3); [apply I1|]. cbn [fold_left].
  apply IH; [intros y Hy; apply X; now right|]. destruct (X x ltac:(now left)) as [A B]. cbn [femasu_update fs_ema fs_last]. split; [|auto].
  apply update_inv; auto. assert (Q : Rabs (value (of_usize x) - value (fs_last e)) <= bpow radix2 64) by (apply Rabs_le; lra).
  destruct (fsub_spec (of_usize x) (fs_last e) A I2) as [C D]; [apply Rle_trans with (1 := Q); apply bpow_le; lia|].
  split; [exact C|]. fold (value (fsub (of_usize x) (fs_last e))). rewrite D. apply abs_round_le_generic; try typeclasses eauto; [apply fmt_bpow; lia|exact Q].
Qed.
(** an average of length 5000 started at 10.0 and fed with 20 levels *)
Example C35_ema_f64_example : bounded_by 100 (of_usize 10) /\ Forall (bounded_by 100) (map of_usize [3; 100; 7; 64]%Z) /\
  flt (of_usize 10) (fe_fast (fold_left fema_update (map of_usize [3; 100; 7; 64]%Z) (fema_with_value (fema_new 5000) (of_usize 10)))) = true.
Proof.
  assert (X : forall n, (0 <= n <= 100)%Z -> bounded_by 100 (of_usize n)).
  { intros n H. destruct (of_usize_exact n) as [A B]; [lia|]. split; [exact A|]. fold (value (of_usize n)). rewrite B, Rabs_pos_eq by (apply IZR_le; lia). apply IZR_le. lia. }
  split; [apply X; lia|]. split; [|vm_compute; reflexivity]. cbn [map]. repeat (apply Forall_cons; [apply X; lia|]). apply Forall_nil.
Qed.
(** In binary64 the average of a constant can leave it, so the bound above cannot be [B]: the averages of
    levels ([Ema::new(5_000)], state.rs:163-164) of five levels only exceed 5. *)
Theorem C35_ema_f64_exact_refuted :
  flt (of_usize 5) (fe_fast (fema_update (fema_with_value (fema_new 5000) (of_usize 5)) (of_usize 5))) = true.
Proof. vm_compute. reflexivity. Qed.
