(** C62: the time limit. *)
From Coq Require Import ZArith Reals Bool List Arith Lia Lra.
From Flocq Require Import Core.Core IEEE754.BinarySingleNaN.
From Verif Require Import Base AsgModel CdbModel PropModel ConflictModel VivifyModel ElimModel BuildModel SolveModel ErrProofs FloatModel C01_Solve C58_Anytime.
Import ListNotations.
Open Scope Z_scope.

(** * Model *)
(** [Duration::as_secs_f64] of the standard library: [(secs as f64) + (nanos as f64) / 1e9] *)
Definition secs_f64 (secs nanos : Z) : f64 := fadd (of_usize secs) (fdiv (of_usize nanos) (of_usize 1000000000)).
(** [x as u64]: towards zero, saturating, 0 for NaN *)
Definition as_u64 (x : f64) : Z :=
  match x with
  | B754_nan => 0
  | B754_infinity true => 0
  | B754_infinity false => 2 ^ 64 - 1
  | _ => Z.max 0 (Z.min (Btrunc x) (2 ^ 64 - 1))
  end.
(** state.rs:394-399 [elapsed]; [limit] is [config.c_timeout] (config.rs:19, -t and --timeout:
    any [f64] that [parse] accepts), [secs] and [nanos] are [start.elapsed()] *)
Definition elapsed (limit : f64) (secs nanos : Z) : f64 := fdiv (secs_f64 secs nanos) (secs_f64 (as_u64 limit) 0).
(** search.rs:256-259: the test at the end of a stage *)
Definition timed_out (limit : f64) (secs nanos : Z) : bool := fle f1 (elapsed limit secs nanos).
(** the literal 0.1 *)
Definition tenth : f64 := fdiv f1 (of_usize 10).
(** simplify.rs:528 the test of the eliminator: [s0], [n0] at its start, [s1], [n1] now *)
Definition elim_late (limit : f64) (s0 n0 s1 n1 : Z) : bool :=
  fle tenth (fsub (elapsed limit s1 n1) (elapsed limit s0 n0)).

(** * Specification *)
(** a duration as the clock gives it *)
Definition duration (secs nanos : Z) : Prop := 0 <= secs < 2 ^ 64 /\ 0 <= nanos < 1000000000.
(** [n] is the whole number of seconds of the limit *)
Definition whole_seconds (limit : f64) (n : Z) : Prop := is_finite limit = true /\ (IZR n <= B2R limit < IZR n + 1)%R.

(** * Proofs *)
Lemma btrunc_spec : forall x n, 0 <= n -> (IZR n <= B2R x < IZR n + 1)%R -> Btrunc (x : f64) = n.
Proof.
  intros x n Hn H. apply eq_IZR. rewrite (Btrunc_correct 53 1024) by reflexivity. unfold round, scaled_mantissa, cexp, FIX_exp, F2R. cbn [Fnum Fexp bpow Z.opp].
  rewrite !Rmult_1_r. f_equal. rewrite Ztrunc_floor by (pose proof (IZR_le 0 n Hn); lra). apply Zfloor_imp. rewrite plus_IZR. lra.
Qed.
Lemma as_u64_spec : forall x n, 0 <= n < 2 ^ 64 -> whole_seconds x n -> as_u64 x = n.
Proof.
  intros x n Hn [F H]. pose proof (btrunc_spec x n (proj1 Hn) H) as E. unfold as_u64. rewrite E. destruct x as [s|s| |s m e B]; try discriminate; lia.
Qed.
Lemma p9_exact : finite (of_usize 1000000000) /\ value (of_usize 1000000000) = IZR 1000000000.
Proof. apply of_usize_exact. lia. Qed.
Lemma nanos_spec : forall n, 0 <= n < 1000000000 ->
  finite (fdiv (of_usize n) (of_usize 1000000000)) /\ value (fdiv (of_usize n) (of_usize 1000000000)) = rnd (IZR n / IZR 1000000000) /\
  (0 <= rnd (IZR n / IZR 1000000000) <= 1 - bpow radix2 (-30))%R.
Proof.
  intros n Hn. destruct (of_usize_exact n) as [F V]; [lia|]. destruct p9_exact as [F9 V9].
  assert (B : (0 <= IZR n / IZR 1000000000 <= 1 - bpow radix2 (-30))%R).
  { change (bpow radix2 (-30)) with (/ IZR (2 ^ 30))%R. pose proof (IZR_le 0 n) as L0. pose proof (IZR_le n 999999999) as L1. split.
    - apply Rmult_le_pos; [apply L0; lia|lra].
    - apply Rmult_le_reg_r with (IZR 1000000000); [lra|]. unfold Rdiv. rewrite Rmult_assoc, Rinv_l, Rmult_1_r by lra. apply Rle_trans with (IZR 999999999); [apply L1; lia|].
      change (2 ^ 30) with 1073741824. lra. }
  destruct (fdiv_spec (of_usize n) (of_usize 1000000000)) as [A1 A2]; auto.
  - rewrite V9. lra.
  - rewrite V, V9. pose proof big_1. pose proof (bpow_gt_0 radix2 (-30)). rewrite Rabs_pos_eq; lra.
  - rewrite V, V9 in A2. split; auto. split; auto. split; [rewrite <- rnd_0; apply rnd_mono; lra|].
    apply Rle_trans with (rnd (1 - bpow radix2 (-30))); [apply rnd_mono; lra|]. rewrite rnd_id; [lra|].
    change (generic_format radix2 (FLT_exp (-1074) 53) (1 - bpow radix2 (-30))). apply generic_format_FLT.
    exists (Float radix2 (2 ^ 30 - 1) (-30)); [|cbn; lia|cbn; lia]. unfold F2R. cbn [Fnum Fexp]. change (bpow radix2 (-30)) with (/ IZR (2 ^ 30))%R. rewrite minus_IZR. change (2 ^ 30) with 1073741824. field.
Qed.
Lemma secs_spec : forall s n, duration s n -> finite (secs_f64 s n) /\ (0 <= value (secs_f64 s n) <= bpow radix2 65)%R /\
  value (secs_f64 s n) = rnd (rnd (IZR s) + rnd (IZR n / IZR 1000000000)).
Proof.
  intros s n [Hs Hn]. destruct (of_usize_spec s) as [F V]; [lia|]. destruct (nanos_spec n Hn) as (F' & V' & B').
  assert (B : (0 <= rnd (IZR s) <= bpow radix2 64)%R).
  { split; [rewrite <- rnd_0; apply rnd_mono; apply IZR_le; lia|]. rewrite <- (rnd_id (bpow radix2 64)) by (apply fmt_bpow; lia).
    apply rnd_mono. change (bpow radix2 64) with (IZR (2 ^ 64)). apply IZR_le. lia. }
  pose proof (bpow_gt_0 radix2 (-30)) as P30.
  assert (P : (rnd (IZR s) + rnd (IZR n / IZR 1000000000) <= bpow radix2 65)%R).
  { change 65 with (1 + 64). rewrite bpow_plus. assert (1 <= bpow radix2 64)%R by (change 1%R with (bpow radix2 0); apply bpow_le; lia). change (bpow radix2 1) with 2%R. lra. }
  unfold secs_f64. destruct (fadd_spec (of_usize s) (fdiv (of_usize n) (of_usize 1000000000))) as [A1 A2]; auto.
  - rewrite V, V', Rabs_pos_eq by lra. apply Rle_trans with (bpow radix2 65); [lra|apply bpow_le; lia].
  - rewrite V, V' in A2. split; auto. split; auto. rewrite A2. split; [rewrite <- rnd_0; apply rnd_mono; lra|].
    rewrite <- (rnd_id (bpow radix2 65)) by (apply fmt_bpow; lia). apply rnd_mono. lra.
Qed.
Lemma whole_spec : forall n, 0 <= n < 2 ^ 53 -> finite (secs_f64 n 0) /\ value (secs_f64 n 0) = IZR n.
Proof.
  intros n Hn. destruct (secs_spec n 0) as (F & _ & V); [split; lia|]. split; auto. rewrite V. unfold Rdiv. rewrite Rmult_0_l, rnd_0, Rplus_0_r.
  rewrite !(rnd_id (IZR n)); auto; apply fmt_Z; lia.
Qed.

(** ** The theorems *)
(** With a limit of [n] whole seconds (up to 48 days) the test says time-out exactly when [n] seconds have passed. *)
Theorem C62_exact : forall limit n secs nanos, whole_seconds limit n -> 1 <= n <= 2 ^ 22 -> duration secs nanos ->
  timed_out limit secs nanos = true <-> n <= secs.
Proof.
  intros limit n secs nanos W Hn D. unfold timed_out, elapsed. rewrite (as_u64_spec limit n) by (auto; lia).
  destruct (whole_spec n) as [Fn Vn]; [lia|]. destruct (secs_spec secs nanos D) as (Fx & Bx & Vx). set (x := secs_f64 secs nanos) in *. set (y := secs_f64 n 0) in *.
  assert (N1 : (1 <= IZR n)%R) by (apply IZR_le; lia).
  assert (Q : (0 <= value x / value y <= bpow radix2 65)%R).
  { rewrite Vn. split; [apply Rmult_le_pos; [lra|left; apply Rinv_0_lt_compat; lra]|]. apply Rmult_le_reg_r with (IZR n); [lra|].
    unfold Rdiv. rewrite Rmult_assoc, Rinv_l, Rmult_1_r by lra. nra. }
  destruct (fdiv_spec x y) as [Fd Vd]; auto; [rewrite Vn; lra| |].
  { rewrite Rabs_pos_eq by lra. apply Rle_trans with (bpow radix2 65); [lra|apply bpow_le; lia]. }
  destruct f1_spec as [F1 V1]. rewrite (fle_spec f1 (fdiv x y)) by auto. rewrite V1, Vd. rewrite Vn. split.
  - intros H. destruct (Z.le_gt_cases n secs) as [L|L]; auto. exfalso.
    destruct D as [D1 D2]. destruct (nanos_spec nanos D2) as (_ & _ & Bn).
    set (t := bpow radix2 (-30)) in *. assert (T : (t = / IZR 1073741824)%R) by reflexivity.
    assert (A : (value x <= IZR n - t)%R).
    { rewrite Vx. rewrite <- (rnd_id (IZR n - t)).
      - apply rnd_mono. rewrite (rnd_id (IZR secs)) by (apply fmt_Z; lia). assert (IZR secs <= IZR n - 1)%R by (rewrite <- minus_IZR; apply IZR_le; lia). lra.
      - change (generic_format radix2 (FLT_exp (-1074) 53) (IZR n - t)). apply generic_format_FLT.
        exists (Float radix2 (n * 2 ^ 30 - 1) (-30)); [|cbn [Fnum]; rewrite Z.abs_eq by lia; change (Zpower radix2 53) with (2 ^ 53); lia|cbn; lia].
        unfold F2R. cbn [Fnum Fexp]. change (bpow radix2 (-30)) with (/ IZR (2 ^ 30))%R. rewrite T, minus_IZR, mult_IZR. change (2 ^ 30) with 1073741824. field. }
    set (u := bpow radix2 (-52)). assert (U : (u = / IZR 4503599627370496)%R) by reflexivity.
    assert (C : (value x / IZR n <= 1 - u)%R).
    { apply Rmult_le_reg_r with (IZR n); [lra|]. unfold Rdiv. rewrite Rmult_assoc, Rinv_l, Rmult_1_r by lra.
      assert (IZR n <= IZR 4194304)%R by (apply IZR_le; change 4194304 with (2 ^ 22); lia). apply Rle_trans with (IZR n - t)%R; auto. rewrite T, U. lra. }
    assert (E : (rnd (value x / IZR n) <= 1 - u)%R).
    { apply Rle_trans with (rnd (1 - u)); [now apply rnd_mono|]. rewrite rnd_id; [lra|].
      change (generic_format radix2 (FLT_exp (-1074) 53) (1 - u)). apply generic_format_FLT.
      exists (Float radix2 (2 ^ 52 - 1) (-52)); [|cbn [Fnum]; rewrite Z.abs_eq by lia; change (Zpower radix2 53) with (2 ^ 53); lia|cbn; lia].
      unfold F2R. cbn [Fnum Fexp]. fold u. rewrite U, minus_IZR. change (2 ^ 52) with 4503599627370496. field. }
    rewrite U in E. lra.
  - intros L. apply Rle_trans with (rnd 1); [rewrite (rnd_id 1 fmt_1); lra|]. apply rnd_mono.
    assert (A : (IZR n <= value x)%R).
    { rewrite Vx. rewrite <- (rnd_id (IZR n)) by (apply fmt_Z; lia). apply rnd_mono. destruct D as [D1 D2]. destruct (nanos_spec nanos D2) as (_ & _ & Bn).
      assert (IZR n <= rnd (IZR secs))%R; [|lra]. rewrite <- (rnd_id (IZR n)) by (apply fmt_Z; lia). apply rnd_mono, IZR_le. lia. }
    apply Rmult_le_reg_r with (IZR n); [lra|]. unfold Rdiv. rewrite Rmult_assoc, Rinv_l by lra. lra.
Qed.

(** With a limit below one second, negative or not a number the first test says time-out, unless the clock stands still. *)
Lemma as_u64_0 : forall limit, (B2R limit < 1)%R -> limit <> B754_infinity false -> as_u64 limit = 0.
Proof.
  intros limit L N. unfold as_u64. destruct limit as [s|[|]| |s m e B] eqn:E; auto; try congruence. rewrite <- E in *.
  destruct (Rle_or_lt 0 (B2R limit)) as [P|P].
  - rewrite (btrunc_spec limit 0); [reflexivity|lia|lra].
  - assert (T : Btrunc limit <= 0); [|lia]. apply le_IZR. rewrite (Btrunc_correct 53 1024) by reflexivity.
    unfold round, scaled_mantissa, cexp, FIX_exp, F2R. cbn [Fnum Fexp bpow Z.opp]. rewrite !Rmult_1_r. apply IZR_le.
    rewrite Ztrunc_ceil by lra. apply Zceil_glb. lra.
Qed.
Lemma pos_over_0 : forall x : f64, (0 < B2R x)%R -> fdiv x (B754_zero false) = B754_infinity false.
Proof.
  intros x P. destruct x as [s|s| |s m e Bm]; try (cbn in P; lra). destruct s; [|reflexivity]. exfalso.
  unfold B2R, SpecFloat.cond_Zopp in P. pose proof (F2R_lt_0 radix2 (Float radix2 (Z.neg m) e) ltac:(reflexivity)). change (- Z.pos m) with (Z.neg m) in P. lra.
Qed.
Lemma elapsed_0 : forall limit secs nanos, (B2R limit < 1)%R -> limit <> B754_infinity false -> duration secs nanos ->
  (secs <> 0 \/ nanos <> 0) -> elapsed limit secs nanos = B754_infinity false.
Proof.
  intros limit secs nanos L N D NZ. unfold elapsed. rewrite as_u64_0 by auto. change (secs_f64 0 0) with (B754_zero false : f64). apply pos_over_0.
  destruct (secs_spec secs nanos D) as (F & B & V). destruct D as [D1 D2]. unfold value in V. rewrite V. destruct (Z.eq_dec secs 0) as [->|Ns].
  - rewrite rnd_0, Rplus_0_l. apply Rlt_le_trans with (bpow radix2 (-30)); [apply bpow_gt_0|].
    assert (X : (bpow radix2 (-30) <= rnd (IZR nanos / IZR 1000000000))%R).
    { rewrite <- (rnd_id (bpow radix2 (-30))) by (apply fmt_bpow; lia). apply rnd_mono. change (bpow radix2 (-30)) with (/ IZR 1073741824)%R.
      apply Rmult_le_reg_r with (IZR 1000000000); [lra|]. unfold Rdiv. rewrite Rmult_assoc, Rinv_l, Rmult_1_r by lra.
      apply Rle_trans with 1%R; [lra|apply IZR_le; lia]. }
    rewrite <- (rnd_id (bpow radix2 (-30))) by (apply fmt_bpow; lia). now apply rnd_mono.
  - destruct (nanos_spec nanos D2) as (_ & _ & Bn). apply Rlt_le_trans with 1%R; [lra|].
    rewrite <- (rnd_id 1 fmt_1). apply rnd_mono. assert (1 <= rnd (IZR secs))%R; [|lra]. rewrite <- (rnd_id 1 fmt_1). apply rnd_mono, IZR_le. lia.
Qed.
Theorem C62_below_one : forall limit secs nanos, (B2R limit < 1)%R -> limit <> B754_infinity false -> duration secs nanos ->
  timed_out limit secs nanos = true <-> (secs <> 0 \/ nanos <> 0).
Proof.
  intros limit secs nanos L N D. unfold timed_out. split.
  - intros H. destruct (Z.eq_dec secs 0) as [->|Ns]; auto. destruct (Z.eq_dec nanos 0) as [->|Nn]; auto.
    unfold elapsed in H. rewrite as_u64_0 in H by auto. change (secs_f64 0 0) with (B754_zero false : f64) in H. discriminate.
  - intros H. rewrite elapsed_0; auto.
Qed.
(** With such a limit the eliminator's own test (a tenth of the time is over) is never true: infinity minus infinity. *)
Theorem C62_below_one_elim : forall limit s0 n0 s1 n1, (B2R limit < 1)%R -> limit <> B754_infinity false -> duration s0 n0 -> duration s1 n1 ->
  (s0 <> 0 \/ n0 <> 0) -> elim_late limit s0 n0 s1 n1 = false.
Proof.
  intros limit s0 n0 s1 n1 L N D0 D1 NZ. unfold elim_late. rewrite (elapsed_0 limit s0 n0) by auto.
  destruct (Z.eq_dec s1 0) as [->|Ns]; [destruct (Z.eq_dec n1 0) as [->|Nn]|].
  - unfold elapsed. rewrite as_u64_0 by auto. change (secs_f64 0 0) with (B754_zero false : f64). reflexivity.
  - rewrite elapsed_0; auto.
  - rewrite elapsed_0; auto.
Qed.

(** An infinite limit is never reached (in the first 2^32 seconds, 136 years). *)
Theorem C62_infinite : forall secs nanos, duration secs nanos -> secs < 2 ^ 32 -> timed_out (B754_infinity false) secs nanos = false.
Proof.
  intros secs nanos D L. unfold timed_out, elapsed. cbn [as_u64]. destruct (secs_spec secs nanos D) as (Fx & Bx & Vx).
  destruct (secs_spec (2 ^ 64 - 1) 0) as (Fy & By & Vy); [split; lia|]. set (x := secs_f64 secs nanos) in *. set (y := secs_f64 (2 ^ 64 - 1) 0) in *.
  assert (P63 : (0 < bpow radix2 63)%R) by apply bpow_gt_0.
  assert (Ly : (bpow radix2 63 <= value y)%R).
  { rewrite Vy. unfold Rdiv. rewrite Rmult_0_l, rnd_0, Rplus_0_r. rewrite <- (rnd_id (bpow radix2 63)) by (apply fmt_bpow; lia). apply rnd_mono.
    rewrite <- (rnd_id (bpow radix2 63)) by (apply fmt_bpow; lia). apply rnd_mono. change (bpow radix2 63) with (IZR (2 ^ 63)). apply IZR_le. lia. }
  assert (B : (value x <= bpow radix2 33)%R).
  { rewrite Vx. rewrite <- (rnd_id (bpow radix2 33)) by (apply fmt_bpow; lia). apply rnd_mono. destruct D as [D1 D2]. destruct (nanos_spec nanos D2) as (_ & _ & Bn).
    rewrite (rnd_id (IZR secs)) by (apply fmt_Z; lia). pose proof (bpow_gt_0 radix2 (-30)). change (bpow radix2 33) with (IZR 8589934592).
    assert (IZR secs <= IZR 4294967296)%R by (apply IZR_le; lia). lra. }
  assert (Q : (0 <= value x / value y <= bpow radix2 (-30))%R).
  { split; [apply Rmult_le_pos; [lra|left; apply Rinv_0_lt_compat; lra]|]. apply Rmult_le_reg_r with (value y); [lra|].
    unfold Rdiv. rewrite Rmult_assoc, Rinv_l, Rmult_1_r by lra. apply Rle_trans with (bpow radix2 33); auto.
    change (33)%Z with (-30 + 63)%Z at 1. rewrite bpow_plus. apply Rmult_le_compat_l; auto. apply bpow_ge_0. }
  assert (S : (bpow radix2 (-30) <= bpow radix2 (-1))%R) by (apply bpow_le; lia). change (bpow radix2 (-1)) with (/ 2)%R in S.
  destruct (fdiv_spec x y) as [Fd Vd]; auto; [lra| |].
  { rewrite Rabs_pos_eq by lra. pose proof big_1. lra. }
  destruct (fle f1 (fdiv x y)) eqn:E; auto. apply (fle_spec f1) in E; [|apply f1_spec|auto].
  rewrite (proj2 f1_spec), Vd in E. assert (X : (rnd (value x / value y) <= bpow radix2 (-30))%R).
  { apply Rle_trans with (rnd (bpow radix2 (-30))); [apply rnd_mono; lra|]. rewrite rnd_id; [lra|apply fmt_bpow; lia]. }
  lra.
Qed.

(** A run whose clock has not reached the limit at any test does not answer TimeOut. *)
Definition in_time (limit : f64) (n : Z) (h : heur) : Prop :=
  exists secs nanos, duration secs nanos /\ secs < n /\ h_time h = Some (timed_out limit secs nanos).
Definition no_timeout (r : option sres) : Prop := match r with Some (SErr (XSolver TimeOut)) => False | _ => True end.
Lemma perr_nt : forall e, perr (Some e) -> no_timeout (Some (SErr (XSolver e))).
Proof. intros e H. destruct e; cbn; auto. Qed.
Lemma outcome_nt : forall cf d r, perr r -> no_timeout (simplify_outcome cf d r).
Proof. intros cf d [e|] H; cbn; [destruct e; cbn; auto|]. destruct (check_size cf d); exact I. Qed.
Lemma inprocess_nt : forall cf ss a d, no_timeout (snd (inprocess cf ss a d)).
Proof.
  intros cf ss a d. unfold inprocess. destruct (cf_elim cf).
  - destruct (prepare_oob cf a d); [exact I|]. unfold elim_prepare_simplify. destruct (prepare _ _ _ _) as [d0 o0].
    pose proof (perr_elim (cf_evo cf) ss (a, d0, o0)) as H. destruct (elim_simplify _ _ _) as [[[a1 d1] o1] r].
    pose proof (outcome_nt cf d1 r H) as K. destruct (simplify_outcome cf d1 r); [exact K|exact I].
  - destruct (propagate_sandbox a d) as [[a1 d1] r]. apply outcome_nt. apply perr_root.
Qed.
Lemma after_conflict_nt : forall cf h en nx a d, h_time h = Some false -> no_timeout (snd (after_conflict cf h en nx a d)).
Proof.
  intros cf h en nx a d T. unfold after_conflict. rewrite T. destruct en; [|destruct (h_restart h); exact I].
  unfold clear_asserted_literals. set (x := set_phases _ _). pose proof (perr_clear (S (nv x)) x d) as H.
  destruct (clear_loop _ x d) as [[a2 d2] [e|]]; [now apply perr_nt|]. cbv zeta. destruct nx as [seg|]; [|exact I].
  match goal with |- context [vivify ?t ?b ?e] => pose proof (perr_vivify t b e) as K; destruct (vivify t b e) as [[a4 d4] [e0|]] end; [now apply perr_nt|].
  destruct seg; [|exact I]. pose proof (inprocess_nt cf (h_steps h) a4 d4) as M.
  destruct (inprocess cf (h_steps h) a4 d4) as [[a5 d5] [r|]]; [exact M|exact I].
Qed.
Lemma search_nt : forall cf hs sm n a d, (forall h, In h hs -> h_time h = Some false) -> no_timeout (Some (snd (search cf hs sm n a d))).
Proof.
  intros cf hs. induction hs as [|h hs IH]; intros sm n a d T; cbn [search].
  - destruct (_ || _); exact I.
  - destruct (_ || _); [|exact I].
    destruct (if remains a then _ else _) as [a1|]; [|exact I].
    destruct (propagate (h_skip h) a1 d) as [[a2 d2] [|l r|]]; [|destruct (dlevel a2 =? 0)%nat|]; try exact I.
    + apply IH; auto. intros x Hx. apply T. right; auto.
    + pose proof (handle_err (h_deepen h) a2 d2 l r) as H. destruct (handle_conflict _ a2 d2 l r) as [[a3 d3] [rk|e|]]; try exact I; [|now apply perr_nt].
      cbv zeta. match goal with |- context [after_conflict ?c ?x ?e ?nx ?b ?dd] =>
        pose proof (after_conflict_nt c x e nx b dd (T h (or_introl eq_refl))) as K; destruct (after_conflict c x e nx b dd) as [[a4 d4] [q|]] end; [exact K|].
      apply IH; auto. intros x Hx. apply T. right; auto.
Qed.
Theorem C62_not_early : forall limit n cf p hs a d, whole_seconds limit n -> 1 <= n <= 2 ^ 22 -> Forall (in_time limit n) hs ->
  snd (solve cf p hs a d) <> Err (XSolver TimeOut).
Proof.
  intros limit n cf p hs a d W Hn T. assert (T' : forall h, In h hs -> h_time h = Some false).
  { intros h Hh. rewrite Forall_forall in T. destruct (T h Hh) as (s & ns & D & L & ->). f_equal.
    pose proof (C62_exact limit n s ns W Hn D) as X. destruct (timed_out limit s ns); auto. assert (n <= s) by now apply X. lia. }
  unfold solve. destruct (negb (check_size cf d)); [discriminate|].
  destruct (vivify (p_targets p) a d) as [[a1 d1] [e|]]; [destruct e; discriminate|].
  destruct (propagate_sandbox a1 d1) as [[a2 d2] r2]. destruct (root_error r2) as [e|]; [unfold elim_failed; destruct e, (check_size cf d2); discriminate|].
  destruct (negb (check_size cf d2)); [discriminate|]. destruct (_ || _); [discriminate|].
  destruct (if cf_elim cf then _ else _) as [d3 o3]. destruct (assert_pure _ a2 d3 o3) as [[a4 d4] [|]]; [|discriminate].
  destruct (simplify_running cf (p_steps p) (a4, d4, o3)) as [[[a5 d5] o5] [e|]]; [unfold elim_failed; destruct e, (check_size cf d5); discriminate|].
  destruct (negb (check_size cf d5)); [discriminate|]. cbv zeta.
  match goal with |- context [search ?c ?h ?s ?k ?x ?y] => pose proof (search_nt c h s k x y T') as K; destruct (search c h s k x y) as [[a8 d8] r8] end.
  destruct r8 as [|[e| |]| | |]; cbn [finish snd]; try discriminate.
  - destruct (validate _ _ _); [discriminate|]. destruct (answer_vals _ _); discriminate.
  - destruct e; try discriminate. contradiction K.
Qed.

(** A fraction of a second is dropped: with a limit of 1.5 s the solver may give up after one second. *)
Theorem C62_fraction_refuted : exists limit secs nanos, duration secs nanos /\ is_finite limit = true /\
  (IZR secs + IZR nanos / 1000000000 < B2R limit)%R /\ timed_out limit secs nanos = true.
Proof.
  exists (fdiv (of_usize 3) (of_usize 2)), 1, 0. split; [split; lia|]. split; [reflexivity|]. split; [|reflexivity].
  assert (B2R (fdiv (of_usize 3) (of_usize 2)) = 3 / 2)%R; [|lra].
  change (B2R (fdiv (of_usize 3) (of_usize 2))) with (IZR 6755399441055744 * bpow radix2 (-52))%R. change (bpow radix2 (-52)) with (/ IZR 4503599627370496)%R. lra.
Qed.

(** The default limit, 5000 seconds, and the time-out of C58_example with a clock that shows 5000 s;
    a clock that shows less. *)
Theorem C62_example : whole_seconds (of_usize 5000) 5000 /\ duration 5000 0 /\ duration 4999 999999999 /\
  h_time ht = Some (timed_out (of_usize 5000) 5000 0) /\ Forall (in_time (of_usize 5000) 5000) (repeat h1 120) /\
  duration 0 1 /\ timed_out (B754_nan : f64) 0 1 = true /\ timed_out (of_usize 0) 0 0 = false /\
  elim_late (of_usize 5000) 0 5 500 6 = true /\ elim_late (of_usize 5000) 0 5 499 6 = false.
Proof.
  destruct (of_usize_exact 5000) as [F V]; [lia|].
  split; [split; [exact F|change (B2R (of_usize 5000)) with (value (of_usize 5000)); rewrite V; lra]|]. split; [split; lia|]. split; [split; lia|]. split; [reflexivity|].
  split; [|repeat split; lia]. apply Forall_forall. intros h H. apply repeat_spec in H. subst h. exists 4999, 999999999. split; [split; lia|]. split; [lia|]. reflexivity.
Qed.
