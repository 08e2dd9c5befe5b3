(** C68: the number of steps of the stochastic local search (solver/search.rs:325-342, feature
    [stochastic_local_search]) is a quotient by the truncated average of the LBDs (cdb/db.rs [lb_entanglement]):
    in IEEE binary64 the divisor is never zero. *)
From Coq Require Import ZArith Reals Bool List Arith Lia Lra Psatz.
From Flocq Require Import Core.Core Relative IEEE754.BinarySingleNaN.
From Verif Require Import Base HeapModel AsgModel CdbModel FloatModel C35_Float.
Import ListNotations.
Local Open Scope Z_scope.

(** * Model *)
(** types/ema.rs:129-137 [struct Ema2], without feature EMA_calibration *)
Record fema2 := mkFema2 { e2_fast : f64; e2_slow : f64; e2_fe : f64; e2_se : f64 }.
(** types/ema.rs:207-220 [new], 222-225 [with_slow], 230-238 [with_value] *)
Definition fema2_new (len : Z) : fema2 := mkFema2 f0 f0 (fdiv f1 (of_usize len)) (fdiv f1 (of_usize len)).
Definition fema2_with_slow (e : fema2) (s : Z) : fema2 := mkFema2 (e2_fast e) (e2_slow e) (e2_fe e) (fdiv f1 (of_usize s)).
Definition fema2_with_value (e : fema2) (x : f64) : fema2 := mkFema2 x x (e2_fe e) (e2_se e).
(** types/ema.rs:169-172 [update] *)
Definition fema2_update (e : fema2) (x : f64) : fema2 :=
  mkFema2 (fadd (fmul (e2_fe e) x) (fmul (fsub f1 (e2_fe e)) (e2_fast e)))
          (fadd (fmul (e2_se e) x) (fmul (fsub f1 (e2_se e)) (e2_slow e))) (e2_fe e) (e2_se e).
(** cdb/db.rs:127 *)
Definition entanglement0 : fema2 := fema2_with_value (fema2_with_slow (fema2_new 1000) 80000) (of_usize 2).
(** cdb/db.rs:1015-1027: the rank ([u16]) is fed if it exceeds 1 *)
Definition feed_rank (e : fema2) (rank : Z) : fema2 := if (1 <? rank)%Z then fema2_update e (of_usize rank) else e.
(** cdb/db.rs:1015-1027 [update_at_analysis] on clause [c] of the database [d] under the levels [level] *)
Definition feed_analysis (e : fema2) (a : cdb * (nat -> nat) * nat) : fema2 :=
  let '(d, level, c) := a in feed_rank e (Z.of_nat (rank (cl (update_lbd d level c) c))).
(** [x as usize] (64 bits): truncation toward zero, saturating; 0 for NaN *)
Definition to_usize (x : f64) : Z :=
  match x with
  | B754_nan => 0
  | B754_infinity s => if s then 0 else 2 ^ 64 - 1
  | _ => Z.max 0 (Z.min (2 ^ 64 - 1) (Btrunc x))
  end.
(** integer division of Rust: it panics on zero *)
Definition checked_div (a b : Z) : option Z := if (b =? 0)%Z then None else Some (a / b)%Z.
(** solver/search.rs:325-330 [scale!]: [pow] is the floating point power 1.75 truncated *)
Definition scale (pow : Z -> Z) (a b : Z) : Z := (pow (Z.max 0 (a - Z.log2_up b)) + 1)%Z.
(** solver/search.rs:332, 337 and 342 *)
Definition sls_steps (pow : Z -> Z) (core ncls : Z) (e : fema2) : option Z :=
  checked_div (scale pow 27 core * scale pow 24 ncls) (to_usize (e2_fast e)).
(** processor/simplify.rs:286-287: [subsume_literal_limit]; the sum of [usize] overflows above 2^64 ([None]) *)
Definition subsume_limit (elm_cls_lim : Z) (e : fema2) : option Z :=
  let r := elm_cls_lim + to_usize (e2_fast e) in if r <? 2 ^ 64 then Some r else None.

(** * Proofs *)
Open Scope R_scope.
Definition in_range (v : f64) : Prop := finite v /\ 2 <= value v <= 65535.
(** one average: [s * x + (1.0 - s) * v] *)
Definition mix (s x v : f64) : f64 := fadd (fmul s x) (fmul (fsub f1 s) v).
Lemma mix_value : forall n x v, (1 <= n <= 2 ^ 20)%Z -> in_range x -> in_range v -> let s := fdiv f1 (of_usize n) in
  finite (mix s x v) /\ value (mix s x v) = rnd (rnd (value s * value x) + rnd (value (fsub f1 s) * value v)).
Proof.
  intros n x v Hn [X1 X2] [V1 V2] s. destruct (weights n Hn) as (W1 & W2 & W3 & W4). fold s in W1, W2, W3, W4.
  destruct (step_bound (value s) (value (fsub f1 s)) (value x) (value v) 65535) as (A1 & A2 & A3 & A4); auto; try (rewrite Rabs_pos_eq; lra); [lra|].
  assert (BB : 6 * 65535 <= bpow radix2 1023).
  { apply Rle_trans with (bpow radix2 20); [change (bpow radix2 20) with 1048576; lra|]. apply bpow_le. lia. }
  destruct (fmul_spec s x W1 X1) as [M1 M2]; [lra|]. destruct (fmul_spec (fsub f1 s) v W2 V1) as [N1 N2]; [lra|].
  unfold mix. destruct (fadd_spec _ _ M1 N1) as [S1 S2]; rewrite M2, N2 in *; [lra|]. now split.
Qed.
(** the operations are monotone, so the average stays between its values on the ends of the interval *)
Lemma mix_mono : forall n x v x' v', (1 <= n <= 2 ^ 20)%Z -> in_range x -> in_range v -> in_range x' -> in_range v' ->
  value x <= value x' -> value v <= value v' -> value (mix (fdiv f1 (of_usize n)) x v) <= value (mix (fdiv f1 (of_usize n)) x' v').
Proof.
  intros n x v x' v' Hn X V X' V' L1 L2. destruct (weights n Hn) as (W1 & W2 & W3 & W4).
  rewrite (proj2 (mix_value n x v Hn X V)), (proj2 (mix_value n x' v' Hn X' V')). apply rnd_mono, Rplus_le_compat; apply rnd_mono, Rmult_le_compat_l; lra.
Qed.
Lemma in_range_Z : forall r, (2 <= r <= 65535)%Z -> in_range (of_usize r) /\ value (of_usize r) = IZR r.
Proof.
  intros r Hr. destruct (of_usize_exact r) as [A B]; [lia|]. split; auto. split; [exact A|]. rewrite B. split; apply IZR_le; lia.
Qed.
Lemma side_step : forall n v x, (n = 1000 \/ n = 80000)%Z -> in_range v -> in_range x -> in_range (mix (fdiv f1 (of_usize n)) x v).
Proof.
  intros n v x Hn V X. assert (H : (1 <= n <= 2 ^ 20)%Z) by lia. destruct (mix_value n x v H X V) as [F _]. split; [exact F|].
  destruct (in_range_Z 2) as [R2 V2]; [lia|]. destruct (in_range_Z 65535) as [RB VB]; [lia|].
  assert (E2 : mix (fdiv f1 (of_usize n)) (of_usize 2) (of_usize 2) = of_usize 2) by (apply B2SF_inj; destruct Hn as [-> | ->]; vm_compute; reflexivity).
  assert (EB : mix (fdiv f1 (of_usize n)) (of_usize 65535) (of_usize 65535) = of_usize 65535) by (apply B2SF_inj; destruct Hn as [-> | ->]; vm_compute; reflexivity).
  destruct X as [X1 X2], V as [V1 V3]. split.
  - replace 2 with (value (of_usize 2)) by exact V2. rewrite <- E2. apply mix_mono; auto; try (now split); lra.
  - replace 65535 with (value (of_usize 65535)) by exact VB. rewrite <- EB. apply mix_mono; auto; try (now split); lra.
Qed.
Definition Ent (e : fema2) : Prop := e2_fe e = fdiv f1 (of_usize 1000) /\ e2_se e = fdiv f1 (of_usize 80000) /\ in_range (e2_fast e) /\ in_range (e2_slow e).
Lemma Ent_0 : Ent entanglement0.
Proof.
  destruct (in_range_Z 2) as [R _]; [lia|]. split; [reflexivity|]. split; [reflexivity|]. split; exact R.
Qed.
Lemma Ent_feed : forall e r, (0 <= r <= 65535)%Z -> Ent e -> Ent (feed_rank e r).
Proof.
  intros e r Hr (E1 & E2 & E3 & E4). unfold feed_rank. destruct (1 <? r)%Z eqn:L; [|unfold Ent; auto]. apply Z.ltb_lt in L.
  destruct (in_range_Z r) as [R _]; [lia|].
  unfold Ent, fema2_update; cbn [e2_fast e2_slow e2_fe e2_se]. rewrite E1, E2.
  split; [reflexivity|]. split; [reflexivity|]. split; (apply side_step; auto).
Qed.
Lemma Ent_fold : forall rs e, Forall (fun r => 0 <= r <= 65535)%Z rs -> Ent e -> Ent (fold_left feed_rank rs e).
Proof. intros rs e F. revert e. induction F; intros e I; cbn [fold_left]; auto. apply IHF. now apply Ent_feed. Qed.
Lemma to_usize_range : forall x, in_range x -> (2 <= to_usize x <= 65535)%Z.
Proof.
  intros x [F V]. assert (T : (2 <= Btrunc x <= 65535)%Z).
  { assert (I : IZR (Btrunc x) = IZR (Zfloor (value x))).
    { rewrite (Btrunc_correct 53 1024 p1024). rewrite <- (Ztrunc_floor (value x)) by lra.
      unfold round, F2R, scaled_mantissa, cexp, FIX_exp. cbn [Fnum Fexp bpow Z.opp]. now rewrite !Rmult_1_r. }
    apply eq_IZR in I. rewrite I. split; [apply Zfloor_lub; lra|]. apply le_IZR. eapply Rle_trans; [apply Zfloor_lb|]. lra. }
  assert (G : to_usize x = Z.max 0 (Z.min (2 ^ 64 - 1) (Btrunc x))).
  { destruct x; try reflexivity; discriminate F. }
  rewrite G. change (2 ^ 64 - 1)%Z with 18446744073709551615%Z. lia.
Qed.
Lemma lbd_loop_le : forall level key ls t n, (snd (lbd_loop level key ls t n) <= n + length ls)%nat.
Proof.
  induction ls as [|l ls IH]; intros t n; cbn [lbd_loop length]; [cbn; lia|]. cbv zeta.
  destruct (level (vi l) =? 0)%nat; [specialize (IH t n); lia|]. destruct (t (level (vi l)) =? key)%nat; [specialize (IH t n); lia|].
  specialize (IH (upd t (level (vi l)) key) (S n)). lia.
Qed.
Lemma rank_updated : forall d level c, rank (cl (update_lbd d level c) c) = snd (lbd_of level (lits (cl d c)) (lbdt d)).
Proof.
  intros d level c. unfold update_lbd. destruct (lbd_of _ _ _) as [t r]. cbn [snd]. cbn. rewrite upd_same. reflexivity.
Qed.
Lemma update_rank : forall d level c, (0 <= Z.of_nat (rank (cl (update_lbd d level c) c)) <= 65535)%Z.
Proof.
  intros d level c. split; [apply Nat2Z.is_nonneg|]. rewrite rank_updated. unfold lbd_of. destruct (8192 <=? length (lits (cl d c)))%nat eqn:L; cbn [snd].
  - apply Z.eq_le_incl. vm_compute. reflexivity.
  - apply Nat.leb_gt, Nat2Z.inj_lt in L. assert (E : Z.of_nat 8192 = 8192%Z) by (vm_compute; reflexivity). rewrite E in L. clear E.
    cbv zeta. set (t := upd _ _ _). pose proof (lbd_loop_le level (lbdt d 0 + 1)%nat (lits (cl d c)) t 0) as H. apply Nat2Z.inj_le in H. rewrite Nat.add_0_l in H.
    eapply Z.le_trans; [exact H|]. clear H. generalize dependent (Z.of_nat (length (lits (cl d c)))). intros. lia.
Qed.

(** * Theorems *)
(** the average after any history of ranks is a number between 2 and the largest rank, and its truncation is a positive divisor *)
Theorem C68_range : forall rs, Forall (fun r => 0 <= r <= 65535)%Z rs ->
  let e := fold_left feed_rank rs entanglement0 in
  is_finite (e2_fast e) = true /\ (2 <= B2R (e2_fast e) <= 65535)%R /\ (2 <= to_usize (e2_fast e) <= 65535)%Z /\
  is_finite (e2_slow e) = true /\ (2 <= B2R (e2_slow e) <= 65535)%R.
Proof.
  intros rs F e. destruct (Ent_fold rs _ F Ent_0) as (_ & _ & R & S). fold e in R, S. pose proof (to_usize_range _ R). destruct R as [R1 R2], S as [S1 S2]. repeat split; auto; try apply R2; try apply S2; apply H.
Qed.
(** whatever clauses of whatever databases the conflict analyses met, under any levels: the division of the number of
    steps does not panic, and the limit of the simplifier is the configured one plus at least 2 *)
Theorem C68_analysis : forall hs, let e := fold_left feed_analysis hs entanglement0 in
  (forall pow core ncls, exists n, sls_steps pow core ncls e = Some n /\
     (0 <= scale pow 27 core * scale pow 24 ncls -> 0 <= n <= scale pow 27 core * scale pow 24 ncls)%Z) /\
  (forall lim, (0 <= lim < 2 ^ 32)%Z -> exists r, subsume_limit lim e = Some r /\ (lim + 2 <= r <= lim + 65535)%Z).
Proof.
  intros hs e. assert (E : Ent e).
  { unfold e. generalize Ent_0. generalize entanglement0. induction hs as [|[[d level] c] hs IH]; intros e0 I; cbn [fold_left]; auto.
    apply IH. cbn [feed_analysis]. apply Ent_feed; auto. apply update_rank. }
  destruct E as (_ & _ & R & _). pose proof (to_usize_range _ R) as T. clearbody e. split.
  - intros pow core ncls. unfold sls_steps, checked_div. destruct (to_usize (e2_fast e) =? 0)%Z eqn:Z0; [apply Z.eqb_eq in Z0; lia|].
    eexists. split; [reflexivity|]. intros P. set (q := (scale pow 27 core * scale pow 24 ncls)%Z) in *. split; [apply Z.div_pos; lia|].
    apply Z.div_le_upper_bound; [lia|]. nia.
  - intros lim L. unfold subsume_limit. destruct (Z.ltb_spec (lim + to_usize (e2_fast e)) (2 ^ 64)); [|lia]. eexists. split; [reflexivity|]. lia.
Qed.
(** four ranks, of which the first two are fed *)
Example C68_example : Forall (fun r => 0 <= r <= 65535)%Z [3; 1000; 1; 0]%Z /\
  let e := fold_left feed_rank [3; 1000; 1; 0]%Z entanglement0 in
  flt (of_usize 2) (e2_fast e) = true /\ sls_steps (fun k => k * k)%Z 40 3000 e = Some 32045%Z /\ subsume_limit 32 e = Some 34%Z.
Proof.
  split; [repeat (apply Forall_cons; [lia|]); apply Forall_nil|]. vm_compute. auto.
Qed.
(** But the quotient can be zero, and C65_zero_steps_refuted applies: 2^27 variables in the core and 2^24 clauses. *)
Theorem C68_steps_positive_refuted : forall pow, pow 0%Z = 0%Z -> sls_steps pow (2 ^ 27) (2 ^ 24) entanglement0 = Some 0%Z.
Proof.
  intros pow P. unfold sls_steps, scale. change (Z.max 0 (27 - Z.log2_up (2 ^ 27)))%Z with 0%Z. change (Z.max 0 (24 - Z.log2_up (2 ^ 24)))%Z with 0%Z.
  rewrite P. vm_compute. reflexivity.
Qed.
