(** IEEE 754 binary64 ([f64] of Rust) on Flocq's [BinarySingleNaN]: the operations of the solver
    round to nearest, ties to even; NaN payloads are not distinguished (no code of the solver
    looks at them). *)
From Coq Require Import ZArith Reals Bool Lia Lra Psatz.
From Flocq Require Import Core.Core IEEE754.BinarySingleNaN.
Open Scope R_scope.

#[export] Instance p53 : Prec_gt_0 53 := eq_refl.
#[export] Instance p1024 : Prec_lt_emax 53 1024 := eq_refl.

(** [f64] *)
Definition f64 := binary_float 53 1024.
Definition fmul (x y : f64) : f64 := Bmult mode_NE x y.
Definition fadd (x y : f64) : f64 := Bplus mode_NE x y.
Definition fsub (x y : f64) : f64 := Bminus mode_NE x y.
Definition fdiv (x y : f64) : f64 := Bdiv mode_NE x y.
(** [n as f64] of an unsigned integer (round to nearest) *)
Definition of_usize (n : Z) : f64 := binary_normalize 53 1024 p53 p1024 mode_NE n 0 false.
(** the literals 0.0 and 1.0 *)
Definition f0 : f64 := B754_zero false.
Definition f1 : f64 := of_usize 1.
(** [x < y], [x <= y] *)
Definition flt (x y : f64) : bool := Bltb x y.
Definition fle (x y : f64) : bool := Bleb x y.
(** [x.is_finite()] and the value of a finite number *)
Definition finite (x : f64) : Prop := is_finite x = true.
Definition value (x : f64) : R := B2R x.

(** * Facts *)
Notation fexp64 := (SpecFloat.fexp 53 1024).
Notation rnd := (round radix2 fexp64 ZnearestE).
Notation fmt := (generic_format radix2 fexp64).
#[export] Instance vexp64 : Valid_exp fexp64.
Proof. apply (fexp_correct 53 1024). reflexivity. Qed.
#[export] Instance mexp64 : Monotone_exp fexp64.
Proof. apply (fexp_monotone 53 1024). Qed.
Lemma fexp64_ext : forall e, fexp64 e = FLT_exp (-1074) 53 e.
Proof. intros e. unfold SpecFloat.fexp, FLT_exp, SpecFloat.emin. reflexivity. Qed.
Lemma value_fmt : forall x, fmt (value x).
Proof. intros x. apply generic_format_B2R. Qed.
Lemma rnd_mono : forall x y, x <= y -> rnd x <= rnd y.
Proof. intros x y H. apply round_le; auto; typeclasses eauto. Qed.
Lemma rnd_id : forall x, fmt x -> rnd x = x.
Proof. intros x H. apply round_generic; auto; typeclasses eauto. Qed.
Lemma rnd_0 : rnd 0 = 0.
Proof. apply round_0. typeclasses eauto. Qed.
Lemma fmt_bpow : forall e, (-1074 <= e)%Z -> fmt (bpow radix2 e).
Proof.
  intros e H. apply generic_format_bpow. rewrite fexp64_ext. unfold FLT_exp. lia.
Qed.
Lemma fmt_1 : fmt 1.
Proof. change 1 with (bpow radix2 0). apply fmt_bpow. lia. Qed.
Lemma fmt_Z : forall z, (Z.abs z <= 2 ^ 53)%Z -> fmt (IZR z).
Proof.
  intros z H. destruct (Z.eq_dec (Z.abs z) (2 ^ 53)) as [E|E].
  - assert (X : IZR z = bpow radix2 53 \/ IZR z = - bpow radix2 53).
    { rewrite <- IZR_Zpower by lia. change (Zpower radix2 53) with (2^53)%Z. destruct (Z.abs_spec z) as [[_ ?]|[_ ?]]; [left|right]; [|rewrite <- opp_IZR]; f_equal; lia. }
    destruct X as [->| ->]; [|apply generic_format_opp]; apply fmt_bpow; lia.
  - change (generic_format radix2 (FLT_exp (-1074) 53) (IZR z)).
    apply generic_format_FLT. exists (Float radix2 z 0); cbn; [unfold F2R; cbn; lra|lia|lia].
Qed.
Lemma big_small : forall r M, Rabs r <= M -> M <= bpow radix2 1023 -> Rlt_bool (Rabs (rnd r)) (bpow radix2 1024) = true.
Proof.
  intros r M H1 H2. apply Rlt_bool_true. apply Rle_lt_trans with (bpow radix2 1023); [|apply bpow_lt; lia].
  apply abs_round_le_generic; try typeclasses eauto; [apply fmt_bpow; lia|lra].
Qed.
Lemma big_1 : 4 <= bpow radix2 1023.
Proof. apply Rle_trans with (bpow radix2 2); [cbn; lra|apply bpow_le; lia]. Qed.

Lemma fmul_spec : forall x y, finite x -> finite y -> Rabs (value x * value y) <= bpow radix2 1023 ->
  finite (fmul x y) /\ value (fmul x y) = rnd (value x * value y).
Proof.
  intros x y Fx Fy H. unfold value in *. pose proof (Bmult_correct 53 1024 p53 p1024 mode_NE x y) as X. cbn [round_mode] in X.
  rewrite (big_small _ _ H) in X by lra. destruct X as (X1 & X2 & _). unfold finite, fmul in *. now rewrite X2, Fx, Fy.
Qed.
Lemma fadd_spec : forall x y, finite x -> finite y -> Rabs (value x + value y) <= bpow radix2 1023 ->
  finite (fadd x y) /\ value (fadd x y) = rnd (value x + value y).
Proof.
  intros x y Fx Fy H. unfold value in *. pose proof (Bplus_correct 53 1024 p53 p1024 mode_NE x y Fx Fy) as X. cbn [round_mode] in X.
  rewrite (big_small _ _ H) in X by lra. destruct X as (X1 & X2 & _). auto.
Qed.
Lemma fsub_spec : forall x y, finite x -> finite y -> Rabs (value x - value y) <= bpow radix2 1023 ->
  finite (fsub x y) /\ value (fsub x y) = rnd (value x - value y).
Proof.
  intros x y Fx Fy H. unfold value in *. pose proof (Bminus_correct 53 1024 p53 p1024 mode_NE x y Fx Fy) as X. cbn [round_mode] in X.
  rewrite (big_small _ _ H) in X by lra. destruct X as (X1 & X2 & _). auto.
Qed.
Lemma fdiv_spec : forall x y, finite x -> value y <> 0 -> Rabs (value x / value y) <= bpow radix2 1023 ->
  finite (fdiv x y) /\ value (fdiv x y) = rnd (value x / value y).
Proof.
  intros x y Fx Ny H. unfold value in *. pose proof (Bdiv_correct 53 1024 p53 p1024 mode_NE x y Ny) as X. cbn [round_mode] in X.
  rewrite (big_small _ _ H) in X by lra. destruct X as (X1 & X2 & _). unfold finite, fdiv. now rewrite X2.
Qed.
Lemma of_usize_spec : forall n, (0 <= n <= 2 ^ 64)%Z -> finite (of_usize n) /\ value (of_usize n) = rnd (IZR n).
Proof.
  intros n H. pose proof (binary_normalize_correct 53 1024 p53 p1024 mode_NE n 0 false) as X. cbn [round_mode] in X.
  assert (E : F2R (Float radix2 n 0) = IZR n) by (unfold F2R; cbn; lra). cbv zeta in X. rewrite E in X.
  rewrite (big_small _ (bpow radix2 64)) in X.
  - destruct X as (X1 & X2 & _). auto.
  - rewrite Rabs_pos_eq by (apply IZR_le; lia). change (bpow radix2 64) with (IZR (2 ^ 64)). apply IZR_le. lia.
  - apply bpow_le. lia.
Qed.
Lemma of_usize_exact : forall n, (0 <= n <= 2 ^ 53)%Z -> finite (of_usize n) /\ value (of_usize n) = IZR n.
Proof.
  intros n H. destruct (of_usize_spec n) as [H1 H2]; [lia|]. split; auto. rewrite H2. apply rnd_id, fmt_Z. lia.
Qed.
Lemma f1_spec : finite f1 /\ value f1 = 1.
Proof. apply (of_usize_exact 1). lia. Qed.
Lemma flt_spec : forall x y, finite x -> finite y -> flt x y = true <-> value x < value y.
Proof.
  intros x y Fx Fy. unfold flt. rewrite (Bltb_correct 53 1024) by auto. unfold value. destruct (Rlt_bool_spec (B2R x) (B2R y)); split; intros; auto; try discriminate; exfalso; lra.
Qed.
Lemma fle_spec : forall x y, finite x -> finite y -> fle x y = true <-> value x <= value y.
Proof.
  intros x y Fx Fy. unfold fle. rewrite (Bleb_correct 53 1024) by auto. unfold value. destruct (Rle_bool_spec (B2R x) (B2R y)); split; intros; auto; try discriminate; exfalso; lra.
Qed.

(** 1 - d and d, rounded, add up to 1 at most *)
Lemma one_minus : forall d, fmt d -> 0 <= d <= 1 -> 0 <= rnd (1 - d) <= 1 /\ rnd (d + rnd (1 - d)) <= 1.
Proof.
  intros d F H. assert (A : 0 <= rnd (1 - d) <= 1).
  { split; [apply Rle_trans with (rnd 0); [rewrite rnd_0; lra|apply rnd_mono; lra]|apply Rle_trans with (rnd 1); [apply rnd_mono; lra|rewrite (rnd_id 1 fmt_1); lra]]. }
  split; auto. destruct (Req_dec d 0) as [->|N0]; [rewrite Rplus_0_l, Rminus_0_r, (rnd_id 1 fmt_1), (rnd_id 1 fmt_1); lra|].
  destruct (Req_dec d 1) as [->|N1]; [replace (1 - 1) with 0 by lra; rewrite rnd_0, Rplus_0_r, (rnd_id 1 fmt_1); lra|].
  apply round_N_le_midp; try typeclasses eauto; [apply fmt_1|].
  assert (S1 : succ radix2 fexp64 1 = 1 + bpow radix2 (-52)).
  { rewrite succ_eq_pos by lra. f_equal. change 1 with (bpow radix2 0) at 1. rewrite ulp_bpow. f_equal. }
  rewrite S1. assert (E : Rabs (rnd (1 - d) - (1 - d)) <= / 2 * ulp radix2 fexp64 (1 - d)) by (apply error_le_half_ulp; typeclasses eauto).
  assert (U : ulp radix2 fexp64 (1 - d) <= bpow radix2 (-53)).
  { rewrite ulp_neq_0 by lra. apply bpow_le. unfold cexp. assert (M : (mag radix2 (1 - d) <= 0)%Z).
    { apply mag_le_bpow; [lra|]. cbn [bpow]. rewrite Rabs_pos_eq; lra. }
    rewrite fexp64_ext. unfold FLT_exp. lia. }
  assert (B : bpow radix2 (-52) = 2 * bpow radix2 (-53)) by (change (-52)%Z with (1 + -53)%Z; rewrite bpow_plus; cbn; lra).
  pose proof (bpow_gt_0 radix2 (-53)). apply Rabs_le_inv in E. lra.
Qed.
