(** C59: the activities of variables ([asg.activity(vi)]) are finite numbers between 0 and 1 in IEEE
    binary64, through every history of rewards, so comparing them is a total preorder (no NaN). *)
From Coq Require Import ZArith Reals Bool List Arith Lia Lra Psatz.
From Flocq Require Import Core.Core IEEE754.BinarySingleNaN.
From Verif Require Import FloatModel.
Import ListNotations.

(** * Model (default features: LRB_rewarding, reward_annealing; not EVSIDS) *)
(** types/var.rs:16-32 [reward] and the flag [USED] of every variable; assign/stack.rs:92-97
    [activity_decay], [activity_anti_decay] *)
Record rewards := mkRw { rw : nat -> f64; us : nat -> bool; dcy : f64; anti : f64 }.
Definition put {A} (f : nat -> A) (v : nat) (x : A) : nat -> A := fun w => if w =? v then x else f w.
(** assign/stack.rs:172-200 [instantiate] with [config.vrw_dcy_rat]; types/var.rs:34-60 *)
Definition rw_new (rat : f64) : rewards := mkRw (fun _ => f0) (fun _ => false) rat (fsub f1 rat).
(** assign/learning_rate.rs:69-88 [Var::update_activity] *)
Definition update_activity (r d a : f64) (used : bool) : f64 * bool :=
  let r1 := fmul r d in if used then (fadd r1 a, false) else (r1, false).
(** assign/learning_rate.rs:30-33 [update_activity_decay] *)
Definition update_activity_decay (s : rewards) (x : f64) : rewards := mkRw (rw s) (us s) x (fsub f1 x).
(** solver/search.rs:276-278, 353-355: [base] counts stages or segments *)
Definition annealed (base : Z) : f64 := let k := of_usize (20 + 2 * base) in fdiv (fsub k f1) k.

(** what touches rewards *)
Inductive rop :=
| Analysed (v : nat)      (* solver/conflict.rs:136-154, 306 [reward_at_analysis] *)
| Unassigned (v : nat)    (* assign/propagate.rs:261, trail_saving.rs:40, 49 [reward_at_unassign] *)
| Closed (v : nat)        (* assign/stack.rs:546, 560 [set_activity(vi, 0.0)] *)
| Sls (v : nat)           (* assign/select.rs:85-98 [reward_by_sls], a flipped variable *)
| Anneal (base : Z)       (* solver/search.rs:275-279, 352-356 *)
| Initial (x : f64) (vs : list nat). (* solver/search.rs:146-152: [x] is the value of [powf], [vs] the variables that are not eliminated *)

Definition rstep (s : rewards) (o : rop) : rewards :=
  match o with
  | Analysed v => mkRw (rw s) (put (us s) v true) (dcy s) (anti s)
  | Unassigned v => let '(r, u) := update_activity (rw s v) (dcy s) (anti s) (us s v) in
                    mkRw (put (rw s) v r) (put (us s) v u) (dcy s) (anti s)
  | Closed v => mkRw (put (rw s) v f0) (us s) (dcy s) (anti s)
  | Sls v => mkRw (put (rw s) v (fadd (fmul (rw s v) (dcy s)) (anti s))) (us s) (dcy s) (anti s)
  | Anneal base => update_activity_decay s (annealed base)
  | Initial x vs => mkRw (fold_left (fun f v => put f v (fdiv f1 x)) vs (rw s)) (us s) (dcy s) (anti s)
  end.
Definition rrun (rat : f64) (os : list rop) : rewards := fold_left rstep os (rw_new rat).

(** * Specification *)
(** a finite number between 0 and 1 *)
Definition unit_number (x : f64) : Prop := is_finite x = true /\ fle f0 x = true /\ fle x f1 = true.
(** the arguments of the operations: [powf(0.25)] of a number >= 1 is a number >= 1, possibly
    infinite; counters of stages stay below 2^62 *)
Definition sound_op (o : rop) : Prop :=
  match o with
  | Anneal base => (0 <= base < 2 ^ 62)%Z
  | Initial x _ => fle f1 x = true
  | _ => True
  end.

(** * Proofs *)
Open Scope R_scope.
Lemma unit_value : forall x, unit_number x <-> finite x /\ 0 <= value x <= 1.
Proof.
  intros x. destruct f1_spec as [A B]. assert (C : finite f0) by reflexivity. assert (D : value f0 = 0) by reflexivity.
  unfold unit_number. split.
  - intros (H1 & H2 & H3). apply (fle_spec f0 x) in H2; auto. apply (fle_spec x f1) in H3; auto. split; auto. lra.
  - intros (H1 & H2 & H3). split; auto. split; apply fle_spec; auto; lra.
Qed.
Lemma rnd_unit : forall r, 0 <= r <= 1 -> 0 <= rnd r <= 1.
Proof.
  intros r H. split; [rewrite <- rnd_0|rewrite <- (rnd_id 1 fmt_1)]; apply rnd_mono; lra.
Qed.
Lemma mul_unit : forall x y, unit_number x -> unit_number y ->
  unit_number (fmul x y) /\ value (fmul x y) = rnd (value x * value y) /\ value (fmul x y) <= value y.
Proof.
  intros x y Hx Hy. apply unit_value in Hx as [Fx Vx]. apply unit_value in Hy as [Fy Vy].
  assert (P : 0 <= value x * value y <= value y) by nra.
  destruct (fmul_spec x y Fx Fy) as [A B]; [pose proof big_1; rewrite Rabs_pos_eq; lra|].
  assert (Q : 0 <= rnd (value x * value y) <= 1) by (apply rnd_unit; lra).
  split; [apply unit_value; rewrite B; auto|]. split; auto. rewrite B.
  rewrite <- (rnd_id (value y)) by apply value_fmt. rewrite (rnd_id (value y)) at 1 by apply value_fmt. apply rnd_mono. lra.
Qed.
(** the decay and the anti decay *)
Definition paired (d a : f64) : Prop := unit_number d /\ unit_number a /\ rnd (value d + value a) <= 1.
Lemma anti_paired : forall d, unit_number d -> paired d (fsub f1 d).
Proof.
  intros d H. destruct (proj1 (unit_value d) H) as [F V]. destruct f1_spec as [F1 V1].
  destruct (fsub_spec f1 d F1 F) as [A B]; [pose proof big_1; rewrite V1, Rabs_pos_eq; lra|].
  destruct (one_minus (value d) (value_fmt d) V) as [C D]. rewrite V1 in B.
  split; auto. split; [apply unit_value; rewrite B; auto|rewrite B; auto].
Qed.
Lemma add_unit : forall x d a, finite x -> 0 <= value x <= value d -> paired d a ->
  unit_number (fadd x a) /\ value (fadd x a) = rnd (value x + value a).
Proof.
  intros x d a Fx Vx (Hd & Ha & P). destruct (proj1 (unit_value d) Hd) as [Fd Vd]. destruct (proj1 (unit_value a) Ha) as [Fa Va].
  destruct (fadd_spec x a Fx Fa) as [A B]; [pose proof big_1; rewrite Rabs_pos_eq; lra|].
  split; auto. apply unit_value. rewrite B. split; auto. split.
  - rewrite <- rnd_0. apply rnd_mono. lra.
  - apply Rle_trans with (rnd (value d + value a)); auto. apply rnd_mono. lra.
Qed.
Lemma reward_unit : forall r d a, unit_number r -> paired d a -> unit_number (fadd (fmul r d) a).
Proof.
  intros r d a Hr P. destruct (mul_unit r d Hr (proj1 P)) as (A & B & C). destruct (proj1 (unit_value _) A) as [F V].
  apply (add_unit _ d a); auto. lra.
Qed.
Lemma annealed_unit : forall base, (0 <= base < 2 ^ 62)%Z -> unit_number (annealed base).
Proof.
  intros base H. unfold annealed. cbv zeta. set (n := (20 + 2 * base)%Z).
  assert (Hn : (20 <= n <= 2 ^ 64)%Z) by (unfold n; lia). destruct (of_usize_spec n) as [F V]; [lia|].
  assert (L : 20 <= value (of_usize n)).
  { rewrite V. rewrite <- (rnd_id 20) by (apply fmt_Z; lia). apply rnd_mono. apply IZR_le. lia. }
  assert (U : value (of_usize n) <= bpow radix2 64).
  { rewrite V. rewrite <- (rnd_id (bpow radix2 64)) by (apply fmt_bpow; lia). apply rnd_mono.
    change (bpow radix2 64) with (IZR (2 ^ 64)). apply IZR_le. lia. }
  set (k := of_usize n) in *. destruct f1_spec as [F1 V1].
  assert (B : bpow radix2 64 <= bpow radix2 1023) by (apply bpow_le; lia).
  destruct (fsub_spec k f1 F F1) as [A C]; [rewrite V1, Rabs_pos_eq; lra|].
  assert (S : 0 <= value (fsub k f1) <= value k).
  { rewrite C, V1. split; [rewrite <- rnd_0; apply rnd_mono; lra|].
    rewrite <- (rnd_id (value k)) at 2 by apply value_fmt. apply rnd_mono. lra. }
  assert (Q : 0 <= value (fsub k f1) / value k <= 1).
  { split; [apply Rmult_le_pos; [lra|apply Rlt_le, Rinv_0_lt_compat; lra]|].
    apply Rmult_le_reg_r with (value k); [lra|]. unfold Rdiv. rewrite Rmult_assoc, Rinv_l by lra. lra. }
  destruct (fdiv_spec (fsub k f1) k A) as [D E]; [lra|pose proof big_1; rewrite Rabs_pos_eq; lra|].
  apply unit_value. rewrite E. split; auto. now apply rnd_unit.
Qed.
Lemma initial_unit : forall x, fle f1 x = true -> unit_number (fdiv f1 x).
Proof.
  intros x H. destruct f1_spec as [F1 V1]. destruct (is_finite x) eqn:E.
  - apply (fle_spec f1 x) in H; auto. rewrite V1 in H.
    assert (Q : 0 <= value f1 / value x <= 1).
    { rewrite V1. split; [apply Rmult_le_pos; [lra|apply Rlt_le, Rinv_0_lt_compat; lra]|].
      apply Rmult_le_reg_r with (value x); [lra|]. unfold Rdiv. rewrite Rmult_assoc, Rinv_l by lra. lra. }
    destruct (fdiv_spec f1 x F1) as [D G]; [lra|pose proof big_1; rewrite Rabs_pos_eq; lra|].
    apply unit_value. rewrite G. split; auto. now apply rnd_unit.
  - destruct x as [s|[|]| |s m e B]; try discriminate. cbn. repeat split.
Qed.

Definition RInv (s : rewards) : Prop := (forall v, unit_number (rw s v)) /\ paired (dcy s) (anti s).
Lemma f0_unit : unit_number f0.
Proof. repeat split. Qed.
Lemma f1_unit : unit_number f1.
Proof. repeat split. Qed.
Lemma put_unit : forall f v x, (forall w, unit_number (f w)) -> unit_number x -> forall w, unit_number (put f v x w).
Proof. intros f v x H Hx w. unfold put. destruct (Nat.eqb w v); auto. Qed.
Lemma rstep_inv : forall s o, RInv s -> sound_op o -> RInv (rstep s o).
Proof.
  intros s o [H P] So. destruct o as [v|v|v|v|base|x vs]; cbn [rstep].
  - split; auto.
  - unfold update_activity. destruct (us s v); split; auto; cbn [rw]; apply put_unit; auto.
    + now apply reward_unit.
    + apply mul_unit; auto. apply P.
  - split; auto. apply put_unit; auto. apply f0_unit.
  - split; auto. apply put_unit; auto. now apply reward_unit.
  - split; auto. apply anti_paired. now apply annealed_unit.
  - split; auto. cbn [rw]. cbn in So. pose proof (initial_unit x So) as I.
    revert H. generalize (rw s). induction vs as [|w vs IH]; cbn; auto. intros f H. apply IH. now apply put_unit.
Qed.
Lemma rrun_inv : forall rat os, unit_number rat -> Forall sound_op os -> RInv (rrun rat os).
Proof.
  intros rat os H. unfold rrun. assert (I : RInv (rw_new rat)) by (split; [intros; apply f0_unit|now apply anti_paired]).
  revert I. generalize (rw_new rat). induction os as [|o os IH]; intros s I F; auto. inversion F; subst. cbn. apply IH; auto. now apply rstep_inv.
Qed.

(** ** The theorems *)
Theorem C59_range : forall rat os v, unit_number rat -> Forall sound_op os ->
  unit_number (rw (rrun rat os) v) /\ unit_number (dcy (rrun rat os)) /\ unit_number (anti (rrun rat os)).
Proof. intros rat os v H F. destruct (rrun_inv rat os H F) as [A (B & C & _)]. auto. Qed.

(** comparing activities is a total preorder, and [<] is its strict part *)
Theorem C59_order : forall rat os u v w, unit_number rat -> Forall sound_op os ->
  let act x := rw (rrun rat os) x in
  (fle (act u) (act v) = true \/ fle (act v) (act u) = true) /\
  (fle (act u) (act v) = true -> fle (act v) (act w) = true -> fle (act u) (act w) = true) /\
  flt (act u) (act v) = negb (fle (act v) (act u)).
Proof.
  intros rat os u v w H F act. destruct (rrun_inv rat os H F) as [A _].
  assert (X : forall z, finite (act z)) by (intros z; exact (proj1 (proj1 (unit_value _) (A z)))).
  split; [|split].
  - rewrite !fle_spec by auto. lra.
  - rewrite !fle_spec by auto. lra.
  - pose proof (flt_spec (act u) (act v) (X u) (X v)). pose proof (fle_spec (act v) (act u) (X v) (X u)).
    destruct (flt (act u) (act v)), (fle (act v) (act u)); auto; exfalso.
    + assert (value (act u) < value (act v)) by now apply H0. assert (value (act v) <= value (act u)) by now apply H1. lra.
    + destruct (Rlt_or_le (value (act u)) (value (act v))) as [L|L]; [apply H0 in L|apply H1 in L]; discriminate.
Qed.

Lemma mul_mono : forall x y d, unit_number x -> unit_number y -> unit_number d -> value x <= value y -> value (fmul x d) <= value (fmul y d).
Proof.
  intros x y d Hx Hy Hd L. destruct (mul_unit x d Hx Hd) as (_ & A & _). destruct (mul_unit y d Hy Hd) as (_ & B & _).
  rewrite A, B. apply rnd_mono. apply unit_value in Hd. apply Rmult_le_compat_r; lra.
Qed.
(** Unassigning two variables keeps their order, unless the lower one alone was used since; a variable
    that was used never falls behind one that was not and whose activity was at most the same. *)
Theorem C59_keeps_order : forall rat os u v, unit_number rat -> Forall sound_op os -> u <> v ->
  let s := rrun rat os in
  fle (rw s u) (rw s v) = true -> (us s u = true -> us s v = true) ->
  let s' := rstep (rstep s (Unassigned u)) (Unassigned v) in
  fle (rw s' u) (rw s' v) = true /\ us s' u = false /\ us s' v = false.
Proof.
  intros rat os u v H F N s L U s'. destruct (rrun_inv rat os H F) as [A P]. fold s in A, P.
  assert (EU : rw s' u = fst (update_activity (rw s u) (dcy s) (anti s) (us s u)) /\ us s' u = false /\
               rw s' v = fst (update_activity (rw s v) (dcy s) (anti s) (us s v)) /\ us s' v = false).
  { unfold s'. cbn [rstep]. unfold update_activity. assert (B1 : (u =? v)%nat = false) by now apply Nat.eqb_neq.
    assert (B2 : (v =? u)%nat = false) by (apply Nat.eqb_neq; auto).
    destruct (us s u) eqn:E1; cbn [rw us dcy anti]; unfold put; rewrite ?B1, ?B2; destruct (us s v) eqn:E2;
      cbn [rw us dcy anti fst]; rewrite ?B1, ?B2, ?Nat.eqb_refl; auto. }
  destruct EU as (-> & -> & -> & ->). split; auto.
  assert (X : forall z, finite (rw s z)) by (intros z; exact (proj1 (proj1 (unit_value _) (A z)))).
  apply fle_spec in L; auto. unfold update_activity.
  assert (PP := P). destruct P as (P1 & P2 & P3). destruct (mul_unit (rw s u) (dcy s) (A u) P1) as (M1 & M2 & M3). destruct (mul_unit (rw s v) (dcy s) (A v) P1) as (N1 & N2 & N3).
  pose proof (mul_mono (rw s u) (rw s v) (dcy s) (A u) (A v) P1 L) as MM.
  destruct (proj1 (unit_value _) M1) as [M1f M1v]. destruct (proj1 (unit_value _) N1) as [N1f N1v]. destruct (proj1 (unit_value _) P2) as [P2f P2v].
  destruct (add_unit (fmul (rw s v) (dcy s)) (dcy s) (anti s)) as [V1 V2]; auto; [lra|].
  destruct (proj1 (unit_value _) V1) as [V1f V1v].
  destruct (us s u) eqn:E1; [rewrite (U eq_refl)|]; cbn [fst].
  - destruct (add_unit (fmul (rw s u) (dcy s)) (dcy s) (anti s)) as [W1 W2]; auto; [lra|].
    destruct (proj1 (unit_value _) W1) as [W1f W1v]. apply fle_spec; auto. rewrite V2, W2. apply rnd_mono. lra.
  - destruct (us s v); cbn [fst]; apply fle_spec; auto. rewrite V2.
    apply Rle_trans with (value (fmul (rw s v) (dcy s))); auto. rewrite <- (rnd_id (value (fmul (rw s v) (dcy s)))) at 1 by apply value_fmt. apply rnd_mono. lra.
Qed.

(** ** Non-triviality *)
(** the default [vrw_dcy_rat] is 0.96: two variables, a hundred conflicts *)
Definition rat96 : f64 := fdiv (of_usize 96) (of_usize 100).
Definition many : list rop := Initial (of_usize 3) [1; 2; 3]%nat :: concat (repeat [Analysed 1; Unassigned 1; Unassigned 2; Anneal 3] 100) ++ [Closed 3].
Theorem C59_example : unit_number rat96 /\ Forall sound_op many /\
  let s := rrun rat96 many in
  flt (rw s 2) (rw s 1) = true /\ flt f0 (rw s 2) = true /\ flt (rw s 1) f1 = true /\ rw s 3 = f0.
Proof.
  split; [repeat split|]. split; [apply Forall_forall; intros o Ho; unfold many in Ho; cbn in Ho|vm_compute; auto].
  repeat (destruct Ho as [<-|Ho]; [cbn; try lia; auto|]). destruct Ho.
Qed.
(** [Config::vrw_dcy_rat] is not checked ([--vdr], config.rs): with 2 an activity is negative after one
    conflict, with an infinite one it is not a number. *)
Theorem C59_config_refuted : exists rat rat' os v, Forall sound_op os /\ flt (rw (rrun rat os) v) f0 = true /\
  (forall x, fle (rw (rrun rat' os) v) x = false /\ fle x (rw (rrun rat' os) v) = false).
Proof.
  exists (of_usize 2), (B754_infinity false), [Analysed 1; Unassigned 1], 1%nat. split; [repeat constructor|]. split; [reflexivity|].
  assert (E : rw (rrun (B754_infinity false) [Analysed 1; Unassigned 1]) 1 = B754_nan) by reflexivity. rewrite E.
  intros x. split; [reflexivity|]. now destruct x as [[|]|[|]| |[|] m e B].
Qed.
