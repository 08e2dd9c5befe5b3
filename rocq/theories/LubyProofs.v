From Coq Require Import List Arith Bool Lia.
From Verif Require Import LubyModel.
Import ListNotations.

(** Specification: the Luby-Sinclair-Zuckerman sequence t_1, t_2, ... :
    t_i = 2^(k-1) if i = 2^k - 1, and t_i = t_(i - 2^(k-1) + 1) if
    2^(k-1) <= i < 2^k - 1. *)
Inductive luby_t : nat -> nat -> Prop :=
| luby_top : forall k, 1 <= k -> luby_t (2 ^ k - 1) (2 ^ (k - 1))
| luby_rec : forall k i v, 1 <= k -> 2 ^ (k - 1) <= i -> i < 2 ^ k - 1 ->
    luby_t (i - 2 ^ (k - 1) + 1) v -> luby_t i v.

Lemma pow2_pos : forall k, 1 <= 2 ^ k.
Proof. intros. pose proof (Nat.pow_nonzero 2 k ltac:(lia)). lia. Qed.

Lemma pow2_S : forall k, 2 ^ (S k) = 2 * 2 ^ k.
Proof. reflexivity. Qed.

Lemma pow2_le : forall a b, a <= b -> 2 ^ a <= 2 ^ b.
Proof. intros. apply Nat.pow_le_mono_r; lia. Qed.

Lemma pow2_interval_unique : forall a b i,
  2 ^ a <= i < 2 ^ (S a) -> 2 ^ b <= i < 2 ^ (S b) -> a = b.
Proof.
  intros a b i H1 H2.
  destruct (lt_eq_lt_dec a b) as [[H|H]|H]; auto.
  - pose proof (@pow2_le (S a) b ltac:(lia)). lia.
  - pose proof (@pow2_le (S b) a ltac:(lia)). lia.
Qed.

Lemma luby_t_fun : forall i v, luby_t i v -> forall w, luby_t i w -> v = w.
Proof.
  intros i v H. induction H as [k Hk|k i v Hk Hl Hu H IH]; intros w Hw.
  - inversion Hw as [k' Hk' E|k' i' v' Hk' Hl' Hu' H' E]; subst.
    + pose proof (pow2_pos k); pose proof (pow2_pos k').
      assert (2 ^ k' = 2 ^ k) by lia.
      assert (k' = k) by (apply Nat.pow_inj_r with 2; lia). now subst.
    + exfalso. destruct k as [|k]; [lia|]. destruct k' as [|k']; [lia|].
      simpl Nat.sub in *. rewrite Nat.sub_0_r in *.
      pose proof (pow2_pos k); pose proof (pow2_pos k').
      assert (k = k').
      { apply pow2_interval_unique with (i := 2 ^ (S k) - 1); rewrite !pow2_S in *; lia. }
      subst. lia.
  - destruct k as [|k]; [lia|]. simpl in Hl. rewrite Nat.sub_0_r in *.
    inversion Hw as [k' Hk' E|k' i' v' Hk' Hl' Hu' H' E]; subst.
    + exfalso. destruct k' as [|k']; [lia|].
      pose proof (pow2_pos k'); pose proof (pow2_pos k).
      assert (k = k').
      { apply pow2_interval_unique with (i := 2 ^ (S k') - 1); rewrite ?pow2_S in *; lia. }
      subst. lia.
    + destruct k' as [|k']; [lia|]. simpl in Hl'. rewrite Nat.sub_0_r in *.
      assert (k = k') by (apply pow2_interval_unique with (i := i); rewrite ?pow2_S in *; lia).
      subst. apply IH. replace (S k' - 1) with k' in * by lia. assumption.
Qed.

Lemma luby_shrink_correct : forall seq size index,
  size = 2 ^ (seq + 1) - 1 -> index < size ->
  exists q, luby_shrink (seq + 1) size seq index = Some q /\ luby_t (index + 1) (2 ^ q).
Proof.
  induction seq as [|s IH]; intros size index Hsz Hi.
  - simpl in Hsz. subst. assert (index = 0) by lia. subst.
    exists 0. split; [reflexivity|]. apply (luby_top 1). lia.
  - replace (S s + 1) with (S (s + 1)) by lia. cbn [luby_shrink].
    destruct (Nat.eqb_spec (size - 1) index) as [E|E].
    + exists (S s). split; auto.
      replace (index + 1) with (2 ^ (S s + 1) - 1) by lia.
      replace (S s) with ((S s + 1) - 1) at 2 by lia. apply luby_top. lia.
    + assert (Hs2 : (size - 1) / 2 = 2 ^ (s + 1) - 1).
      { subst size. replace (S s + 1) with (S (s + 1)) by lia. rewrite pow2_S.
        pose proof (pow2_pos (s + 1)).
        symmetry. apply Nat.div_unique with 0; lia. }
      pose proof (pow2_pos s).
      assert (Hp : 2 ^ (s + 1) = 2 * 2 ^ s) by (rewrite Nat.add_1_r; reflexivity).
      assert (Hp2 : 2 ^ (S s + 1) = 2 * 2 ^ (s + 1))
        by (replace (S s + 1) with (S (s + 1)) by lia; reflexivity).
      cbv zeta. rewrite Hs2. replace (S s - 1) with s by lia.
      assert (Hm : index mod (2 ^ (s + 1) - 1) < 2 ^ (s + 1) - 1)
        by (apply Nat.mod_upper_bound; lia).
      destruct (IH (2 ^ (s + 1) - 1) (index mod (2 ^ (s + 1) - 1)) eq_refl Hm)
        as (q & Hq & Ht).
      exists q. split; auto.
      destruct (lt_dec index (2 ^ (s + 1) - 1)) as [L|L].
      * now rewrite (Nat.mod_small _ _ L) in Ht.
      * apply luby_rec with (k := S s + 1); try lia.
        -- replace (S s + 1 - 1) with (s + 1) by lia. lia.
        -- replace (S s + 1 - 1) with (s + 1) by lia.
           replace (index mod (2 ^ (s + 1) - 1)) with (index - (2 ^ (s + 1) - 1)) in Ht.
           ++ replace (index + 1 - 2 ^ (s + 1) + 1) with (index - (2 ^ (s + 1) - 1) + 1) by lia.
              exact Ht.
           ++ apply Nat.mod_unique with 1; lia.
Qed.

(** The cached (seq, size) pair is usable for every later index. *)
Definition luby_inv (n : nat) (s : luby_series) : Prop :=
  lb_index s = n /\ lb_size s = 2 ^ (lb_seq s + 1) - 1 /\ lb_seq s <= n.

Lemma lt_pow2 : forall n, n < 2 ^ n.
Proof. intros. apply Nat.pow_gt_lin_r. lia. Qed.

Lemma luby_grow_correct : forall fuel index ss sz seq size,
  size = 2 ^ (seq + 1) - 1 -> sz = 2 ^ (ss + 1) - 1 ->
  ss <= index -> seq <= S index -> index + 2 <= fuel + seq ->
  exists ss' sz' seq' size',
    luby_grow fuel index ss sz seq size = Some (ss', sz', seq', size') /\
    size' = 2 ^ (seq' + 1) - 1 /\ sz' = 2 ^ (ss' + 1) - 1 /\ ss' <= index /\ index < size'.
Proof.
  induction fuel as [|f IH]; intros index ss sz seq size Hs Hz Hss Hseq Hf.
  - exfalso. lia.
  - cbn [luby_grow]. destruct (Nat.ltb_spec size (index + 1)) as [L|L].
    + pose proof (pow2_pos seq). pose proof (lt_pow2 (seq + 1)).
      assert (2 ^ (seq + 1) = 2 * 2 ^ seq) by (rewrite Nat.add_1_r; reflexivity).
      apply IH; auto; try lia.
      replace (seq + 1 + 1) with (S (seq + 1)) by lia. rewrite pow2_S. lia.
    + exists ss, sz, seq, size. repeat split; auto; lia.
Qed.

Lemma luby_next_correct : forall n s, luby_inv n s ->
  exists v s', luby_next s = Some (v, s') /\ luby_t (n + 2) v /\
    luby_inv (n + 1) s' /\ lb_max s' = Nat.max (lb_max s) v /\ exists q, v = 2 ^ q.
Proof.
  intros n s (H1 & H2 & H3). unfold luby_next. rewrite H1.
  destruct (@luby_grow_correct (n + 1 + 2) (n + 1) (lb_seq s) (lb_size s) (lb_seq s) (lb_size s))
    as (ss' & sz' & seq' & size' & E & A & B & C & D); auto; try lia.
  cbv zeta. rewrite E.
  destruct (luby_shrink_correct seq' size' (n + 1) A D) as (q & Eq & Ht).
  rewrite Eq. do 2 eexists. split; [reflexivity|].
  split; [now replace (n + 2) with (n + 1 + 1) by lia|].
  split; [unfold luby_inv; simpl; auto|]. split; [|now exists q].
  cbn [lb_max]. destruct (Nat.ltb_spec (lb_max s) (2 ^ q)); lia.
Qed.

Lemma luby_default_inv : luby_inv 0 luby_default.
Proof. unfold luby_inv; simpl; auto. Qed.

Lemma luby_reset_inv : forall s, luby_inv 0 (luby_reset s).
Proof. unfold luby_inv; simpl; auto. Qed.

Lemma luby_run_correct : forall k n s, luby_inv n s ->
  exists vs s', luby_run k s = Some (vs, s') /\ length vs = k /\
    luby_inv (n + k) s' /\
    (forall j, j < k -> luby_t (n + j + 2) (nth j vs 0)) /\
    lb_max s' = fold_left Nat.max vs (lb_max s).
Proof.
  induction k as [|k IH]; intros n s H.
  - exists [], s. simpl. rewrite Nat.add_0_r. repeat split; auto; try apply H. intros; lia.
  - cbn [luby_run].
    destruct (luby_next_correct n s H) as (v & s1 & E & Ht & Hi & Hm & _). rewrite E.
    destruct (IH (n + 1) s1 Hi) as (vs & s2 & E2 & L & Hi2 & Hj & Hm2). rewrite E2.
    exists (v :: vs), s2. split; auto. split; [simpl; lia|].
    split; [now replace (n + S k) with (n + 1 + k) by lia|]. split.
    + intros [|j] Hjk; simpl nth.
      * now rewrite Nat.add_0_r.
      * replace (n + S j + 2) with (n + 1 + j + 2) by lia. apply Hj. lia.
    + simpl. now rewrite Hm2, Hm.
Qed.

(** ** Facts about the sequence used for the stage manager *)
Lemma luby_t_bound : forall i v, luby_t i v -> forall k, i < 2 ^ k - 1 -> v < 2 ^ (k - 1).
Proof.
  intros i v H. induction H as [k0 Hk|k0 i v Hk Hl Hu H IH]; intros k Hb.
  - assert (k0 < k).
    { destruct (le_lt_dec k k0); auto. pose proof (pow2_le _ _ l). lia. }
    apply Nat.pow_lt_mono_r; lia.
  - destruct k0 as [|j]; [lia|]. simpl in Hl, Hu. rewrite Nat.sub_0_r in *.
    assert (j < k).
    { destruct (le_lt_dec k j); auto. pose proof (pow2_le _ _ l). lia. }
    simpl in IH. rewrite Nat.sub_0_r in IH. apply IH.
    pose proof (pow2_pos j).
    assert (2 ^ j * 2 <= 2 ^ k).
    { replace (2 ^ j * 2) with (2 ^ (S j)) by (simpl; lia). apply pow2_le; lia. }
    lia.
Qed.

Lemma luby_t_pos : forall i v, luby_t i v -> 1 <= v.
Proof. induction 1; auto. apply pow2_pos. Qed.

Lemma luby_t_pow : forall k, luby_t (2 ^ S k) 1.
Proof.
  intros k. apply luby_rec with (k := S (S k)); try lia.
  - simpl. pose proof (pow2_pos k). lia.
  - simpl. pose proof (pow2_pos k). lia.
  - replace (2 ^ S k - 2 ^ (S (S k) - 1) + 1) with (2 ^ 1 - 1).
    + apply (luby_top 1). lia.
    + simpl. rewrite Nat.sub_diag. reflexivity.
Qed.

(** ** Stage manager *)
Definition is_one (o : option bool) : bool := match o with Some _ => true | None => false end.

Definition stage_inv (u n : nat) (s : stage_manager) : Prop :=
  luby_inv n (sm_luby s) /\ sm_stage s = n /\ sm_unit_size s = u /\
  (1 <= n -> 1 <= sm_cycle s) /\
  2 ^ sm_segment s <= n + 1 < 2 ^ (S (sm_segment s)) /\
  sm_max_scale_of_segment s = 2 ^ sm_segment s /\
  (sm_next_is_new_segment s = true <-> n + 2 = 2 ^ (S (sm_segment s))).

Lemma stage_init_inv : forall u0 u, stage_inv u 0 (stage_initialize (stage_new u0) u).
Proof.
  intros. unfold stage_inv, stage_initialize, stage_new. simpl.
  repeat split; auto; try lia.
Qed.

Lemma prepare_correct : forall u n s now, stage_inv u n s ->
  exists r s' v, prepare_new_stage s now = Some (r, s') /\ stage_inv u (n + 1) s' /\
    luby_t (n + 2) v /\ sm_scale s' = v /\
    (is_one r = true <-> v = 1) /\
    (r = Some true <-> n + 2 = 2 ^ (S (sm_segment s))) /\
    sm_segment s' = sm_segment s + (if match r with Some true => true | _ => false end then 1 else 0) /\
    sm_cycle s' = sm_cycle s + (if is_one r then 1 else 0) /\
    sm_end_of_stage s' = now + sm_cycle s' * u /\
    sm_max_scale_of_segment s' = 2 ^ sm_segment s' /\ v <= sm_max_scale_of_segment s'.
Proof.
  intros u n s now (HL & Hst & Hu & Hc & Hg & Hm & Hn).
  destruct (luby_next_correct n (sm_luby s) HL) as (v & lb & E & Ht & HL' & _ & _).
  unfold prepare_new_stage. rewrite E.
  pose proof (luby_t_pos _ _ Ht) as Hv1.
  set (g := sm_segment s) in *.
  pose proof (pow2_pos g) as Hp.
  assert (HS : 2 ^ S g = 2 * 2 ^ g) by reflexivity.
  assert (HSS : 2 ^ S (S g) = 2 * (2 * 2 ^ g)) by reflexivity.
  destruct (sm_next_is_new_segment s) eqn:En.
  - assert (Hn2 : n + 2 = 2 ^ S g) by (apply Hn; auto).
    assert (v = 1).
    { eapply luby_t_fun; [exact Ht|]. rewrite Hn2. apply luby_t_pow. }
    subst v. do 3 eexists. split; [reflexivity|].
    change (1 =? 1) with true. cbn [andb]. rewrite Hm.
    assert (Hx : (2 ^ g * 2 =? 1) = false) by (apply Nat.eqb_neq; lia).
    rewrite Hx.
    unfold stage_inv; cbn [sm_luby sm_stage sm_unit_size sm_cycle sm_segment
      sm_max_scale_of_segment sm_next_is_new_segment sm_scale sm_end_of_stage is_one].
    fold g. rewrite Hst, Hu. replace (g + 1) with (S g) by lia.
    repeat split; auto; try lia; try discriminate; try apply HL'.
  - assert (Hn2 : n + 2 <> 2 ^ S g) by (intros C; apply Hn in C; discriminate).
    do 3 eexists. split; [reflexivity|].
    rewrite andb_false_r. rewrite Hm.
    assert (Hs : 2 ^ g = v <-> n + 2 = 2 ^ S g - 1).
    { split; intros Q.
      - destruct (Nat.eq_dec (n + 2) (2 ^ S g - 1)); auto.
        pose proof (luby_t_bound _ _ Ht (S g) ltac:(lia)) as B.
        simpl in B. rewrite Nat.sub_0_r in B. lia.
      - assert (T : luby_t (n + 2) (2 ^ g)).
        { rewrite Q. replace g with (S g - 1) at 2 by lia. apply luby_top. lia. }
        eapply luby_t_fun; eauto. }
    assert (Hle : v <= 2 ^ g).
    { destruct (Nat.eq_dec (n + 2) (2 ^ S g - 1)) as [Q|Q].
      - apply Hs in Q. lia.
      - pose proof (luby_t_bound _ _ Ht (S g) ltac:(lia)) as B.
        simpl in B. rewrite Nat.sub_0_r in B. lia. }
    unfold stage_inv; cbn [sm_luby sm_stage sm_unit_size sm_cycle sm_segment
      sm_max_scale_of_segment sm_next_is_new_segment sm_scale sm_end_of_stage].
    fold g.
    assert (Hcy : 1 <= n + 1 -> 1 <= (if v =? 1 then sm_cycle s + 1 else sm_cycle s)).
    { intros _. destruct (Nat.eqb_spec v 1); [lia|]. apply Hc.
      destruct n; [|lia]. exfalso. apply n0.
      eapply luby_t_fun; [exact Ht|]. apply (luby_t_pow 0). }
    split; [|destruct (Nat.eqb_spec v 1); simpl is_one; cbv iota; repeat split; auto; try lia; try discriminate].
    repeat split; auto; try lia; try apply HL'.
    + destruct (Nat.eqb_spec (2 ^ g) v); intros; [|discriminate]. apply Hs in e. lia.
    + intros Q. destruct (Nat.eqb_spec (2 ^ g) v); auto. exfalso. apply n0. apply Hs. lia.
Qed.

Definition count_some (l : list (option bool)) : nat := length (filter is_one l).

Lemma seg_unique : forall g n k, 2 ^ g <= n + 1 < 2 ^ S g -> n + 2 = 2 ^ S k -> n + 2 = 2 ^ S g.
Proof.
  intros g n k H1 H2.
  destruct (lt_eq_lt_dec g k) as [[H|H]|H]; [| now subst |].
  - pose proof (pow2_le (S (S g)) (S k) ltac:(lia)). rewrite !pow2_S in *.
    pose proof (pow2_pos g). lia.
  - pose proof (pow2_le (S k) g ltac:(lia)). lia.
Qed.

Lemma stage_run_correct : forall nows u n s, stage_inv u n s ->
  exists rs s', stage_run nows s = Some (rs, s') /\ stage_inv u (n + length nows) s' /\
    length rs = length nows /\
    (forall k, k < length nows -> exists v, luby_t (n + k + 2) v /\
        (is_one (nth k rs None) = true <-> v = 1)) /\
    (forall k, k < length nows -> nth k rs None = Some true <-> exists j, n + k + 2 = 2 ^ S j) /\
    sm_cycle s' = sm_cycle s + count_some rs /\
    (forall t d, nows = t :: d -> sm_end_of_stage s' = last nows 0 + sm_cycle s' * u).
Proof.
  induction nows as [|t ts IH]; intros u n s H.
  - exists [], s. simpl. rewrite Nat.add_0_r. unfold count_some; simpl.
    repeat split; auto; try apply H; intros; try lia; try discriminate.
  - cbn [stage_run].
    destruct (prepare_correct u n s t H) as
      (r & s1 & v & E & H1 & Hv & Hsc & Hone & Hseg & Hsg & Hcy & Hend & _ & _). rewrite E.
    destruct (IH u (n + 1) s1 H1) as (rs & s2 & E2 & H2 & L & Ha & Hb & Hc & Hd). rewrite E2.
    exists (r :: rs), s2. split; auto.
    split; [simpl length; now replace (n + S (length ts)) with (n + 1 + length ts) by lia|].
    split; [simpl; lia|]. split; [|split; [|split]].
    + intros [|k] Hk; simpl nth.
      * exists v. rewrite Nat.add_0_r. auto.
      * simpl in Hk. replace (n + S k + 2) with (n + 1 + k + 2) by lia. apply Ha. lia.
    + intros [|k] Hk; simpl nth.
      * rewrite Nat.add_0_r. rewrite Hseg. split; [intros; eexists; eauto|].
        intros [j Hj]. destruct H as (_ & _ & _ & _ & Hg & _ & _). eapply seg_unique; eauto.
      * simpl in Hk. replace (n + S k + 2) with (n + 1 + k + 2) by lia. apply Hb. lia.
    + rewrite Hc, Hcy. unfold count_some. simpl. destruct (is_one r); simpl; lia.
    + intros t' d Q. destruct ts as [|t2 ts].
      * simpl in E2. injection E2 as <- <-. simpl. exact Hend.
      * change (last (t :: t2 :: ts) 0) with (last (t2 :: ts) 0). eapply Hd. reflexivity.
Qed.
