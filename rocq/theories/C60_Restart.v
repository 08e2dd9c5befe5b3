(** C60: the averages behind the restart test, in IEEE binary64: the short average of LBDs is exactly
    the mean of the last 16, the long one is between 0 and the largest LBD and is 0 only when every
    LBD was 0, so that [trend] is a finite number or (all LBDs 0) NaN, on which no restart happens. *)
From Coq Require Import ZArith Reals Bool List Arith Lia Lra Psatz.
From Flocq Require Import Core.Core IEEE754.BinarySingleNaN.
From Verif Require Import Base FloatModel.
Import ListNotations.

(** * Model (without feature EMA_calibration) *)
(** types/ema.rs:331-339 [struct Ewa2<N>]; [N] is 16 for [ProgressLBD] and [ProgressASG]
    (cdb/ema.rs:3, assign/ema.rs:3) *)
Record fewa2 := mkFewa2 { fw_fast : f64; fw_slow : f64; fw_pool : list f64; fw_last : nat; fw_se : f64; fw_sx : f64 }.
(** types/ema.rs:395-408 [Ewa2::new], 410-414 [with_slow] *)
Definition fewa2_new (n : nat) (initial : f64) : fewa2 :=
  mkFewa2 initial initial (repeat initial n) 0 (fdiv f1 (of_usize (Z.of_nat n))) (fsub f1 (fdiv f1 (of_usize (Z.of_nat n)))).
Definition fewa2_with_slow (e : fewa2) (s : Z) : fewa2 :=
  let se := fdiv f1 (of_usize s) in mkFewa2 (fw_fast e) (fw_slow e) (fw_pool e) (fw_last e) se (fsub f1 se).
(** types/ema.rs:357-368 [update] *)
Definition fewa2_update (n : nat) (e : fewa2) (x : f64) : fewa2 :=
  let fast1 := fsub (fw_fast e) (nth (fw_last e) (fw_pool e) f0) in
  let val := fdiv x (of_usize (Z.of_nat n)) in
  mkFewa2 (fadd fast1 val) (fadd (fmul (fw_se e) x) (fmul (fw_sx e) (fw_slow e)))
          (list_set (fw_pool e) (fw_last e) val) ((fw_last e + 1) mod n) (fw_se e) (fw_sx e).
(** types/ema.rs:55-57, 345-348 [trend] *)
Definition fewa2_trend (e : fewa2) : f64 := fdiv (fw_fast e) (fw_slow e).
(** cdb/ema.rs:3-30, 45-51: [ProgressLBD], whose inputs are [u16]; assign/ema.rs:3-40: [ProgressASG],
    whose inputs are [usize] (numbers of assigned variables) *)
Definition progress (xs : list Z) : fewa2 :=
  fold_left (fun e x => fewa2_update 16 e (of_usize x)) xs (fewa2_with_slow (fewa2_new 16 f0) 8192).
(** solver/search.rs:388: the restart test *)
Definition restarts (thr : f64) (e : fewa2) : bool := flt thr (fewa2_trend e).

(** * Specification *)
Fixpoint zsum (xs : list Z) : Z := match xs with [] => 0%Z | x :: t => (x + zsum t)%Z end.
(** the last 16 inputs *)
Definition window (xs : list Z) : list Z := firstn 16 (rev xs).
(** LBDs are [u16]; numbers of variables are below 2^32 *)
Definition input (x : Z) : Prop := (0 <= x <= 2 ^ 32)%Z.

(** * Proofs *)
Local Opaque Nat.pow.
Open Scope R_scope.
Definition dy (z : Z) : R := IZR z / 16.
Lemma dy_fmt : forall z, (Z.abs z <= 2 ^ 40)%Z -> fmt (dy z).
Proof.
  intros z H. unfold dy. change (generic_format radix2 (FLT_exp (-1074) 53) (IZR z / 16)).
  apply generic_format_FLT. exists (Float radix2 z (-4)); cbn; [unfold F2R; cbn; lra|lia|lia].
Qed.
Lemma dy_add : forall x y, dy (x + y) = dy x + dy y.
Proof. intros. unfold dy. rewrite plus_IZR. lra. Qed.
Lemma dy_sub : forall x y, dy (x - y) = dy x - dy y.
Proof. intros. unfold dy. rewrite minus_IZR. lra. Qed.
Lemma big_50 : bpow radix2 50 <= bpow radix2 1023.
Proof. apply bpow_le. lia. Qed.
Lemma dy_big : forall z, (Z.abs z <= 2 ^ 40)%Z -> Rabs (dy z) <= bpow radix2 1023.
Proof.
  intros z H. apply Rle_trans with (bpow radix2 50); [|apply big_50]. change (bpow radix2 50) with (IZR (2 ^ 50)).
  unfold dy. unfold Rdiv. rewrite Rabs_mult, (Rabs_pos_eq (/ 16)) by lra. rewrite <- abs_IZR. apply IZR_le in H.
  assert (IZR (2 ^ 40) <= IZR (2 ^ 50)) by (apply IZR_le; lia). pose proof (IZR_le 0 (Z.abs z) ltac:(lia)). lra.
Qed.
(** the value of a list of floats *)
Definition is_dy (x : f64) (z : Z) : Prop := finite x /\ value x = dy z.
Lemma is_dy_add : forall x y a b, is_dy x a -> is_dy y b -> (Z.abs (a + b) <= 2 ^ 40)%Z -> is_dy (fadd x y) (a + b).
Proof.
  intros x y a b [Fx Vx] [Fy Vy] H. destruct (fadd_spec x y Fx Fy) as [A B]; rewrite Vx, Vy, <- dy_add in *; [now apply dy_big|].
  split; auto. rewrite B. apply rnd_id. now apply dy_fmt.
Qed.
Lemma is_dy_sub : forall x y a b, is_dy x a -> is_dy y b -> (Z.abs (a - b) <= 2 ^ 40)%Z -> is_dy (fsub x y) (a - b).
Proof.
  intros x y a b [Fx Vx] [Fy Vy] H. destruct (fsub_spec x y Fx Fy) as [A B]; rewrite Vx, Vy, <- dy_sub in *; [now apply dy_big|].
  split; auto. rewrite B. apply rnd_id. now apply dy_fmt.
Qed.
Lemma input_exact : forall x, input x -> finite (of_usize x) /\ value (of_usize x) = IZR x.
Proof. intros x H. unfold input in H. apply of_usize_exact. lia. Qed.
Lemma is_dy_div : forall x, input x -> is_dy (fdiv (of_usize x) (of_usize (Z.of_nat 16))) x.
Proof.
  intros x H. destruct (input_exact x H) as [A B]. destruct (of_usize_exact (Z.of_nat 16)) as [C D]; [lia|].
  change (IZR (Z.of_nat 16)) with 16 in D. unfold input in H.
  destruct (fdiv_spec (of_usize x) (of_usize (Z.of_nat 16)) A) as [E F]; rewrite ?B, ?D in *; [lra|apply dy_big; lia|].
  split; auto. rewrite F. apply rnd_id. apply dy_fmt. lia.
Qed.

(** ** the ring buffer *)
Lemma list_set_parts : forall T (l : list T) k x d, (k < length l)%nat ->
  skipn k l = nth k l d :: skipn (S k) l /\ firstn (S k) (list_set l k x) = firstn k l ++ [x] /\ skipn (S k) (list_set l k x) = skipn (S k) l.
Proof.
  induction l as [|y l IH]; intros [|k] x d H; cbn in H; try lia; cbn; auto.
  destruct (IH k x d) as (A & B & C); [lia|]. cbn in B. split; [exact A|]. split; [now f_equal|exact C].
Qed.
Lemma zsum_app : forall a b, zsum (a ++ b) = (zsum a + zsum b)%Z.
Proof. induction a as [|x a IH]; intros b; cbn; auto. rewrite IH. lia. Qed.
Lemma zsum_bound : forall l, Forall input l -> (0 <= zsum l <= Z.of_nat (length l) * 2 ^ 32)%Z.
Proof. induction l as [|x l IH]; intros H; [cbn; lia|]. inversion H as [|? ? A B]; subst. specialize (IH B). unfold input in A. cbn [length zsum]. rewrite Nat2Z.inj_succ. lia. Qed.

Definition rot (zs : list Z) (k : nat) : list Z := skipn k zs ++ firstn k zs.
Record WInv (xs : list Z) (e : fewa2) : Prop := {
  wi : exists zs, Forall2 is_dy (fw_pool e) zs /\ length zs = 16%nat /\ (fw_last e < 16)%nat /\ Forall input zs /\
       is_dy (fw_fast e) (zsum zs) /\ rot zs (fw_last e) = skipn (length xs) (repeat 0%Z 16 ++ xs) }.
Lemma zsum_rot : forall zs k, zsum (rot zs k) = zsum zs.
Proof. intros zs k. unfold rot. rewrite zsum_app. rewrite <- (firstn_skipn k zs) at 3. rewrite zsum_app. lia. Qed.
Lemma Forall2_nth : forall (p : list f64) zs k, Forall2 is_dy p zs -> (k < length zs)%nat -> is_dy (nth k p f0) (nth k zs 0%Z).
Proof. intros p zs k H. revert k. induction H as [|a b p zs H H2 IH]; intros k L; cbn in L; [lia|]. destruct k; cbn; auto. apply IH; lia. Qed.
Lemma Forall2_set : forall (p : list f64) zs k x z, Forall2 is_dy p zs -> is_dy x z -> Forall2 is_dy (list_set p k x) (list_set zs k z).
Proof. intros p zs k x z H. revert k. induction H as [|a b p zs H H2 IH]; intros [|k] Hx; cbn; constructor; auto. Qed.
Lemma Forall_set : forall (P : Z -> Prop) zs k z, Forall P zs -> P z -> Forall P (list_set zs k z).
Proof. intros P zs k z H. revert k. induction H as [|a zs H H2 IH]; intros [|k] Hx; cbn; constructor; auto. Qed.

Lemma rot_set : forall zs k x, length zs = 16%nat -> (k < 16)%nat ->
  rot (list_set zs k x) ((k + 1) mod 16) = tl (rot zs k) ++ [x] /\ (nth k zs 0%Z + zsum (list_set zs k x) = zsum zs + x)%Z.
Proof.
  intros zs k x L H. destruct (list_set_parts Z zs k x 0%Z) as (A & B & C); [lia|].
  assert (R : tl (rot zs k) ++ [x] = skipn (S k) zs ++ firstn k zs ++ [x]) by (unfold rot; rewrite A; cbn; now rewrite <- app_assoc).
  assert (E : rot (list_set zs k x) ((k + 1) mod 16) = tl (rot zs k) ++ [x]).
  { rewrite R. destruct (Nat.eq_dec k 15) as [->|N].
    - change ((15 + 1) mod 16)%nat with 0%nat. unfold rot. rewrite (skipn_all2 zs) by lia. rewrite skipn_O, firstn_O, app_nil_r, app_nil_l.
      rewrite <- B. rewrite firstn_all2; auto. rewrite list_set_length. lia.
    - rewrite Nat.mod_small by lia. replace (k + 1)%nat with (S k) by lia. unfold rot. now rewrite B, C. }
  split; auto. rewrite <- (zsum_rot (list_set zs k x) ((k + 1) mod 16)), E, R, <- (zsum_rot zs k). unfold rot. rewrite A, !zsum_app. cbn. lia.
Qed.
Lemma window_step : forall xs x (l : list Z), l = skipn (length xs) (repeat 0%Z 16 ++ xs) -> tl l ++ [x] = skipn (length (xs ++ [x])) (repeat 0%Z 16 ++ xs ++ [x]).
Proof.
  intros xs x l ->. rewrite app_assoc, app_length. cbn [length]. set (m := repeat 0%Z 16 ++ xs).
  assert (L : (length m = 16 + length xs)%nat) by (unfold m; rewrite app_length, repeat_length; auto).
  rewrite skipn_app. replace (length xs + 1 - length m)%nat with 0%nat by lia. cbn [skipn]. f_equal.
  replace (length xs + 1)%nat with (S (length xs)) by lia. destruct (list_set_parts Z m (length xs) 0%Z 0%Z) as (A & _); [lia|]. now rewrite A.
Qed.
Lemma winv_step : forall xs e x, WInv xs e -> input x -> WInv (xs ++ [x]) (fewa2_update 16 e (of_usize x)).
Proof.
  intros xs e x [(zs & W1 & W2 & W3 & W4 & W5 & W6)] Hx. constructor. exists (list_set zs (fw_last e) x). cbn [fewa2_update fw_pool fw_last fw_fast].
  destruct (rot_set zs (fw_last e) x W2 W3) as [R1 R2]. pose proof (is_dy_div x Hx) as D.
  pose proof (Forall2_nth _ _ (fw_last e) W1 ltac:(lia)) as P. pose proof (zsum_bound zs W4) as Z1. rewrite W2 in Z1.
  pose proof (zsum_bound _ (Forall_set input zs (fw_last e) x W4 Hx)) as Z2. rewrite list_set_length, W2 in Z2.
  assert (Z3 : input (nth (fw_last e) zs 0%Z)) by (apply (proj1 (Forall_forall input zs) W4), nth_In; lia). unfold input in Z3, Hx.
  split; [now apply Forall2_set|]. split; [now rewrite list_set_length|]. split; [apply Nat.mod_upper_bound; lia|]. split; [now apply Forall_set|].
  split; [|rewrite R1; now apply window_step].
  replace (zsum (list_set zs (fw_last e) x)) with (zsum zs - nth (fw_last e) zs 0%Z + x)%Z by lia.
  apply is_dy_add; auto; [apply is_dy_sub; auto; lia|lia].
Qed.
Lemma winv_start : WInv [] (fewa2_with_slow (fewa2_new 16 f0) 8192).
Proof.
  constructor. exists (repeat 0%Z 16). cbn [fewa2_with_slow fewa2_new fw_pool fw_last fw_fast].
  assert (D : is_dy f0 0) by (split; [reflexivity|unfold dy, value, f0; cbn; lra]).
  split; [cbn; repeat (constructor; [exact D|]); constructor|]. split; auto. split; [lia|]. split; [cbn; repeat constructor; unfold input; lia|]. split; auto.
Qed.
Lemma winv : forall xs, Forall input xs -> WInv xs (progress xs).
Proof.
  induction xs as [|x xs IH] using rev_ind; intros H; [apply winv_start|]. apply Forall_app in H as [H1 H2]. inversion H2; subst.
  unfold progress. rewrite fold_left_app. cbn [fold_left]. apply winv_step; auto.
Qed.
Lemma zsum_rev : forall l, zsum (rev l) = zsum l.
Proof. induction l as [|x l IH]; cbn; auto. rewrite zsum_app, IH. cbn. lia. Qed.
Lemma zsum_zeros : forall n, zsum (repeat 0%Z n) = 0%Z.
Proof. induction n; cbn; auto. Qed.
Lemma window_sum : forall xs, zsum (skipn (length xs) (repeat 0%Z 16 ++ xs)) = zsum (window xs).
Proof.
  intros xs. unfold window. rewrite <- (zsum_rev (skipn _ _)).
  assert (E : forall (l : list Z) n, rev (skipn n l) = firstn (length l - n) (rev l)) by (intros l n; rewrite <- (rev_involutive l) at 1; rewrite skipn_rev, rev_involutive, rev_length; auto).
  rewrite E, app_length, repeat_length, rev_app_distr. replace (16 + length xs - length xs)%nat with 16%nat by lia.
  rewrite firstn_app, zsum_app. change (rev (repeat 0%Z 16)) with (repeat 0%Z 16).
  assert (X : forall n, zsum (firstn n (repeat 0%Z 16)) = 0%Z) by (intros n; do 17 (destruct n as [|n]; [reflexivity|]); reflexivity).
  rewrite X. lia.
Qed.

(** ** the long average *)
Definition se : R := / 8192.
Definition sx : R := 8191 / 8192.
Lemma se_sx : finite (fdiv f1 (of_usize 8192)) /\ value (fdiv f1 (of_usize 8192)) = se /\
  finite (fsub f1 (fdiv f1 (of_usize 8192))) /\ value (fsub f1 (fdiv f1 (of_usize 8192))) = sx.
Proof.
  destruct f1_spec as [F1 V1]. destruct (of_usize_exact 8192) as [A B]; [lia|]. pose proof big_1 as BB.
  destruct (fdiv_spec f1 (of_usize 8192) F1) as [C D]; rewrite ?B, ?V1 in *; [lra|rewrite Rabs_pos_eq; lra|].
  assert (E : rnd (1 / 8192) = se).
  { unfold se. rewrite rnd_id; [lra|]. replace (1 / 8192) with (bpow radix2 (-13)) by (cbn; lra). apply fmt_bpow. lia. }
  rewrite E in D. split; auto. split; auto.
  destruct (fsub_spec f1 (fdiv f1 (of_usize 8192)) F1 C) as [G H]; rewrite ?V1, ?D in *; unfold se in *; [rewrite Rabs_pos_eq; lra|].
  split; auto. rewrite H. unfold sx. rewrite rnd_id; [lra|]. change (generic_format radix2 (FLT_exp (-1074) 53) (1 - / 8192)).
  apply generic_format_FLT. exists (Float radix2 8191 (-13)); cbn; [unfold F2R; cbn; lra|lia|lia].
Qed.
Definition ex (z : Z) : R := IZR z / 8192.
Lemma ex_fmt : forall z, (Z.abs z <= 2 ^ 50)%Z -> fmt (ex z).
Proof.
  intros z H. unfold ex. change (generic_format radix2 (FLT_exp (-1074) 53) (IZR z / 8192)).
  apply generic_format_FLT. exists (Float radix2 z (-13)); cbn; [unfold F2R; cbn; lra|lia|lia].
Qed.
Definition tiny : R := bpow radix2 (-1074).
Lemma rnd_tiny : rnd (sx * tiny) = tiny.
Proof.
  apply Rle_antisym.
  - rewrite <- (rnd_id tiny) at 2 by (apply fmt_bpow; lia). apply rnd_mono. pose proof (bpow_gt_0 radix2 (-1074)). unfold sx, tiny in *. lra.
  - apply round_N_ge_midp; try typeclasses eauto; [apply fmt_bpow; lia|]. pose proof (bpow_gt_0 radix2 (-1074)) as P.
    assert (E : pred radix2 fexp64 tiny = 0).
    { unfold tiny. apply Rle_antisym; [|apply pred_ge_0; try typeclasses eauto; [apply bpow_gt_0|apply fmt_bpow; lia]].
      rewrite pred_bpow. change (fexp64 (-1074)) with (-1074)%Z. lra. }
    rewrite E. unfold sx, tiny in *. lra.
Qed.
(** what is known of the long average after [xs] *)
Record SInv (B : Z) (xs : list Z) (e : fewa2) : Prop := {
  si_c : fw_se e = fdiv f1 (of_usize 8192) /\ fw_sx e = fsub f1 (fdiv f1 (of_usize 8192));
  si_f : finite (fw_slow e);
  si_r : 0 <= value (fw_slow e) <= IZR B;
  si_0 : (forall x, In x xs -> x = 0%Z) -> value (fw_slow e) = 0;
  si_p : forall x, In x xs -> x <> 0%Z -> tiny <= value (fw_slow e);
  si_w : forall j, (j <= 16)%nat -> nth j (rev xs) 0%Z <> 0%Z -> bpow radix2 (-13 - Z.of_nat j) <= value (fw_slow e) }.
Lemma fmt_B : forall B, input B -> fmt (IZR B).
Proof. intros B H. unfold input in H. apply fmt_Z. lia. Qed.
Lemma sinv_step : forall B xs e x, input B -> SInv B xs e -> (0 <= x <= B)%Z -> SInv B (xs ++ [x]) (fewa2_update 16 e (of_usize x)).
Proof.
  intros B xs e x HB [[C1 C2] F R Z P W] Hx. destruct se_sx as (S1 & S2 & S3 & S4).
  assert (Ix : input x) by (unfold input in *; lia). destruct (input_exact x Ix) as [Xf Xv].
  pose proof big_50 as B50. assert (BB : IZR B <= bpow radix2 32) by (change (bpow radix2 32) with (IZR (2 ^ 32)); apply IZR_le; apply HB).
  assert (B32 : bpow radix2 32 <= bpow radix2 50) by (apply bpow_le; lia).
  assert (Xr : 0 <= IZR x <= IZR B) by (split; apply IZR_le; lia).
  set (s := value (fw_slow e)) in *.
  (* the two products *)
  destruct (fmul_spec (fw_se e) (of_usize x)) as [M1 M2]; [now rewrite C1|auto| |].
  { rewrite C1, S2, Xv. unfold se. rewrite Rabs_pos_eq; lra. }
  rewrite C1, S2, Xv in M2. assert (M2' : rnd (se * IZR x) = ex x).
  { unfold se. replace (/ 8192 * IZR x) with (ex x) by (unfold ex; lra). apply rnd_id, ex_fmt. unfold input in Ix. lia. }
  rewrite M2' in M2. clear M2'.
  destruct (fmul_spec (fw_sx e) (fw_slow e)) as [N1 N2]; [now rewrite C2|auto| |].
  { rewrite C2, S4. fold s. unfold sx. rewrite Rabs_pos_eq; lra. }
  rewrite C2, S4 in N2. fold s in N2.
  assert (Nu : rnd (sx * s) <= ex (8191 * B)).
  { rewrite <- (rnd_id (ex (8191 * B))) by (apply ex_fmt; unfold input in HB; lia). apply rnd_mono. unfold ex, sx. rewrite mult_IZR. lra. }
  assert (Nl : 0 <= rnd (sx * s)) by (rewrite <- rnd_0; apply rnd_mono; unfold sx; lra).
  destruct (fadd_spec (fmul (fw_se e) (of_usize x)) (fmul (fw_sx e) (fw_slow e)) M1 N1) as [A1 A2].
  { rewrite C1, C2, M2, N2. unfold ex in *. rewrite mult_IZR in Nu. rewrite Rabs_pos_eq; lra. }
  rewrite C1, C2, M2, N2 in A2. assert (E : value (fw_slow (fewa2_update 16 e (of_usize x))) = rnd (ex x + rnd (sx * s))) by (cbn [fewa2_update fw_slow]; now rewrite C1, C2).
  assert (Lo : forall y, fmt y -> y <= ex x \/ y <= rnd (sx * s) -> y <= rnd (ex x + rnd (sx * s))).
  { intros y Hy D. rewrite <- (rnd_id y Hy). apply rnd_mono. unfold ex in *. lra. }
  split.
  - split; assumption.
  - cbn [fewa2_update fw_slow]. now rewrite C1, C2 in *.
  - rewrite E. split; [rewrite <- rnd_0; apply rnd_mono; unfold ex; lra|].
    rewrite <- (rnd_id (IZR B)) by now apply fmt_B. apply rnd_mono. unfold ex in *. rewrite mult_IZR in Nu. lra.
  - intros H. rewrite E. assert (x = 0%Z) by (apply H, in_or_app; right; now left). subst x.
    rewrite Z by (intros y Hy; apply H, in_or_app; now left). unfold ex. rewrite Rmult_0_r, rnd_0. replace (0 / 8192 + 0) with 0 by lra. apply rnd_0.
  - intros y Hy Ny. rewrite E. apply Lo; [apply fmt_bpow; lia|]. destruct (Z.eq_dec x 0) as [->|Nx].
    + right. apply in_app_or in Hy as [Hy|[<-|[]]]; [|congruence]. specialize (P y Hy Ny). rewrite <- rnd_tiny. apply rnd_mono. unfold sx. lra.
    + left. unfold ex. assert (1 <= IZR x) by (apply IZR_le; lia). assert (T : tiny <= bpow radix2 (-13)) by (apply bpow_le; lia). change (bpow radix2 (-13)) with (/ 8192) in T. lra.
  - intros j Hj Nj. rewrite rev_app_distr in Nj. cbn [rev app] in Nj. rewrite E. apply Lo; [apply fmt_bpow; lia|]. destruct j as [|j]; cbn [nth] in Nj.
    + left. unfold ex. assert (1 <= IZR x) by (apply IZR_le; lia). change (bpow radix2 (-13 - Z.of_nat 0)) with (/ 8192). lra.
    + right. assert (Hw := W j ltac:(lia) Nj). rewrite <- (rnd_id (bpow radix2 (-13 - Z.of_nat (S j)))) by (apply fmt_bpow; lia). apply rnd_mono.
      replace (-13 - Z.of_nat (S j))%Z with (-1 + (-13 - Z.of_nat j))%Z by lia. rewrite bpow_plus. pose proof (bpow_gt_0 radix2 (-13 - Z.of_nat j)).
      change (bpow radix2 (-1)) with (/ 2). unfold sx. lra.
Qed.
Lemma sinv : forall B xs, input B -> (forall x, In x xs -> (0 <= x <= B)%Z) -> SInv B xs (progress xs).
Proof.
  intros B xs HB. induction xs as [|x xs IH] using rev_ind; intros H.
  - split; cbn [progress fold_left fewa2_with_slow fewa2_new fw_slow fw_se fw_sx]; auto; try reflexivity.
    + assert (0 <= IZR B) by (apply IZR_le; apply HB). unfold value; cbn. lra.
    + intros x [].
    + intros [|j] _ Hn; cbn in Hn; congruence.
  - unfold progress. rewrite fold_left_app. cbn [fold_left]. apply sinv_step; auto.
    + apply IH. intros y Hy. apply H, in_or_app. now left.
    + apply H, in_or_app. right. now left.
Qed.

(** ** The theorems *)
(** the short average is the mean of the last 16 inputs, exactly *)
Theorem C60_window : forall xs, Forall input xs ->
  is_finite (fw_fast (progress xs)) = true /\ B2R (fw_fast (progress xs)) = IZR (zsum (window xs)) / 16.
Proof.
  intros xs H. destruct (winv xs H) as [(zs & W1 & W2 & W3 & W4 & [W5 W5'] & W6)]. split; auto.
  change (value (fw_fast (progress xs)) = dy (zsum (window xs))). rewrite W5', <- window_sum, <- W6, zsum_rot. reflexivity.
Qed.
(** the long one lies between 0 and any bound of the inputs, and is 0 only if all of them are *)
Theorem C60_long : forall xs B, input B -> (forall x, In x xs -> (0 <= x <= B)%Z) ->
  is_finite (fw_slow (progress xs)) = true /\ (0 <= B2R (fw_slow (progress xs)) <= IZR B)%R /\
  (B2R (fw_slow (progress xs)) = 0%R <-> forall x, In x xs -> x = 0%Z).
Proof.
  intros xs B HB H. destruct (sinv B xs HB H) as [C F R Z P W]. split; [exact F|]. split; [exact R|]. split; [|exact Z].
  intros E x Hx. destruct (Z.eq_dec x 0) as [->|N]; auto. specialize (P x Hx N). unfold value in P. rewrite E in P.
  pose proof (bpow_gt_0 radix2 (-1074)). unfold tiny in P. lra.
Qed.

Lemma zsum_zero : forall l, (forall x, In x l -> x = 0%Z) -> zsum l = 0%Z.
Proof. induction l as [|x l IH]; intros H; cbn; auto. rewrite (H x) by now left. rewrite IH; auto. intros y Hy. apply H. now right. Qed.
Lemma window_in : forall xs x, In x (window xs) -> In x xs /\ exists j, (j <= 16)%nat /\ nth j (rev xs) 0%Z = x.
Proof.
  intros xs x H. unfold window in H. assert (A : In x (rev xs)).
  { rewrite <- (firstn_skipn 16 (rev xs)). apply in_or_app. now left. }
  split; [now apply in_rev|]. destruct (In_nth _ _ 0%Z H) as (j & J1 & J2). exists j. rewrite firstn_length in J1. split; [lia|].
  rewrite <- J2. rewrite <- (firstn_skipn 16 (rev xs)) at 1. rewrite app_nth1; auto. rewrite firstn_length. lia.
Qed.
Lemma zsum_pos : forall l, (0 < zsum l)%Z -> exists x, In x l /\ (x <> 0)%Z.
Proof.
  induction l as [|x l IH]; cbn; intros H; [lia|]. destruct (Z.eq_dec x 0) as [->|N]; [|exists x; auto].
  destruct IH as (y & Y1 & Y2); [lia|]. exists y. auto.
Qed.
(** The ratio: a finite number that is not negative as soon as one input is not 0; it is 0 exactly when
    the last 16 inputs are 0; and no restart happens while every input was 0. *)
Theorem C60_trend : forall xs, Forall input xs ->
  ((exists x, In x xs /\ x <> 0%Z) ->
     is_finite (fewa2_trend (progress xs)) = true /\ (0 <= B2R (fewa2_trend (progress xs)))%R /\
     (Forall (fun x => x = 0%Z) (window xs) -> B2R (fewa2_trend (progress xs)) = 0%R) /\
     (~ Forall (fun x => x = 0%Z) (window xs) -> (0 < B2R (fewa2_trend (progress xs)))%R)) /\
  ((forall x, In x xs -> x = 0%Z) -> forall thr, restarts thr (progress xs) = false).
Proof.
  intros xs H. assert (Hin : forall x, In x xs -> (0 <= x <= 2 ^ 32)%Z) by (intros x Hx; exact (proj1 (Forall_forall input xs) H x Hx)).
  assert (HB : input (2 ^ 32)) by (unfold input; lia). destruct (sinv (2 ^ 32) xs HB Hin) as [C F R Z P W].
  destruct (C60_window xs H) as [Ff Vf]. fold (value (fw_fast (progress xs))) in Vf.
  assert (Wi : Forall input (window xs)) by (apply Forall_forall; intros x Hx; apply window_in in Hx as [Hx _]; now apply Hin).
  pose proof (zsum_bound _ Wi) as ZB. assert (WL : (length (window xs) <= 16)%nat) by (unfold window; rewrite firstn_length; lia).
  assert (ZB' : (0 <= zsum (window xs) <= 2 ^ 36)%Z) by nia. clear ZB.
  split.
  - intros (x & Hx & Nx). specialize (P x Hx Nx). pose proof (bpow_gt_0 radix2 (-1074)) as T. fold tiny in T.
    set (s := value (fw_slow (progress xs))) in *. set (f := value (fw_fast (progress xs))) in *.
    assert (Q : 0 <= f / s <= bpow radix2 70 /\ ((0 < zsum (window xs))%Z -> bpow radix2 (-50) <= f / s)).
    { assert (I : 0 < / s) by (apply Rinv_0_lt_compat; lra).
      assert (F0 : 0 <= f) by (rewrite Vf; pose proof (IZR_le 0 _ (proj1 ZB')); lra).
      split; [split; [apply Rmult_le_pos; lra|]|].
      - destruct (Z.eq_dec (zsum (window xs)) 0) as [E|N].
        + rewrite Vf, E. replace (0 / 16 / s) with 0 by (unfold Rdiv; ring). apply bpow_ge_0.
        + destruct (zsum_pos (window xs)) as (y & Y1 & Y2); [lia|]. apply window_in in Y1 as (_ & j & J1 & J2).
          assert (Ls : bpow radix2 (-29) <= s).
          { apply Rle_trans with (bpow radix2 (-13 - Z.of_nat j)); [apply bpow_le; lia|]. apply W; auto. now rewrite J2. }
          apply Rmult_le_reg_r with s; [lra|]. unfold Rdiv at 1. rewrite Rmult_assoc, Rinv_l by lra.
          apply Rle_trans with (bpow radix2 70 * bpow radix2 (-29)); [|apply Rmult_le_compat_l; [apply bpow_ge_0|lra]].
          rewrite <- bpow_plus. change (bpow radix2 (70 + -29)) with (IZR (2 ^ 41)).
          rewrite Vf. pose proof (IZR_le _ _ (proj2 ZB')). assert (IZR (2 ^ 36) <= IZR (2 ^ 41)) by (apply IZR_le; lia).
          pose proof (IZR_le 0 _ (proj1 ZB')). lra.
      - intros Hp. apply Rmult_le_reg_r with s; [lra|]. unfold Rdiv at 1. rewrite Rmult_assoc, Rinv_l by lra.
        assert (L1 : 1 <= IZR (zsum (window xs))) by (apply IZR_le; lia).
        apply Rle_trans with (bpow radix2 (-50) * bpow radix2 32); [apply Rmult_le_compat_l; [apply bpow_ge_0|change (bpow radix2 32) with (IZR (2 ^ 32)); lra]|].
        rewrite <- bpow_plus. change (bpow radix2 (-50 + 32)) with (/ 262144). rewrite Vf. lra. }
    destruct Q as [Q1 Q2]. destruct (fdiv_spec (fw_fast (progress xs)) (fw_slow (progress xs)) Ff) as [D E]; [change (s <> 0); lra| |].
    { change (Rabs (f / s) <= bpow radix2 1023). rewrite Rabs_pos_eq by lra. apply Rle_trans with (bpow radix2 70); [lra|apply bpow_le; lia]. }
    split; [exact D|]. fold (value (fewa2_trend (progress xs))). unfold fewa2_trend. rewrite E. change (value (fw_fast (progress xs)) / value (fw_slow (progress xs))) with (f / s).
    split; [rewrite <- rnd_0; apply rnd_mono; lra|]. split.
    + intros HZ. rewrite Vf, zsum_zero by (intros y Hy; exact (proj1 (Forall_forall _ _) HZ y Hy)).
      replace (0 / 16 / s) with 0 by (unfold Rdiv; ring). apply rnd_0.
    + intros HN. assert (Hp : (0 < zsum (window xs))%Z).
      { destruct (Z.eq_dec (zsum (window xs)) 0) as [E0|N0]; [|lia]. exfalso. apply HN.
        assert (G : forall l, Forall input l -> zsum l = 0%Z -> Forall (fun x => x = 0%Z) l).
        { induction l as [|y l IH]; intros G1 G2; constructor; inversion G1 as [|? ? G3 G4]; subst; pose proof (zsum_bound l G4); unfold input in G3; cbn in G2; [lia|apply IH; auto; lia]. }
        now apply G. }
      apply Rlt_le_trans with (bpow radix2 (-50)); [apply bpow_gt_0|]. rewrite <- (rnd_id (bpow radix2 (-50))) by (apply fmt_bpow; lia). apply rnd_mono. auto.
  - intros HZ thr. assert (Fz : fw_fast (progress xs) = f0 \/ fw_fast (progress xs) = B754_zero true).
    { assert (E : value (fw_fast (progress xs)) = 0).
      { rewrite Vf, zsum_zero; [lra|]. intros y Hy. apply window_in in Hy as [Hy _]. now apply HZ. }
      unfold value in E. destruct (fw_fast (progress xs)) as [[|]|[|]| |b m e B]; auto; try discriminate. exfalso.
      cbn in E. apply eq_0_F2R in E. destruct b; discriminate. }
    assert (Sz : fw_slow (progress xs) = f0 \/ fw_slow (progress xs) = B754_zero true).
    { assert (E : value (fw_slow (progress xs)) = 0) by (apply Z; auto).
      unfold value in E. unfold finite in F. destruct (fw_slow (progress xs)) as [[|]|[|]| |b m e B]; auto; try discriminate. exfalso.
      cbn in E. apply eq_0_F2R in E. destruct b; discriminate. }
    unfold restarts, fewa2_trend. assert (N : fdiv (fw_fast (progress xs)) (fw_slow (progress xs)) = B754_nan) by (destruct Fz as [-> | ->], Sz as [-> | ->]; reflexivity).
    rewrite N. now destruct thr as [[|]|[|]| |[|] m e B].
Qed.

(** ** Non-triviality *)
Theorem C60_example : Forall input (repeat 3 20 ++ [40])%Z /\
  restarts (fdiv (of_usize 16) (of_usize 10)) (progress (repeat 3 20 ++ [40])%Z) = true /\
  restarts (fdiv (of_usize 16) (of_usize 10)) (progress (repeat 3 20 ++ [40] ++ repeat 0 16)%Z) = false.
Proof.
  split; [|vm_compute; auto]. apply Forall_forall. intros x Hx. cbn in Hx. repeat (destruct Hx as [<-|Hx]; [unfold input; lia|]). destruct Hx.
Qed.
