(** C33 Luby sequence, C34 stage schedule. *)
From Coq Require Import List Arith Bool Lia.
From Verif Require Import LubyModel LubyProofs.
Import ListNotations.

(** C33. For every number of calls [k], the iterator yields exactly the elements
    2, 3, ..., k+1 of the Luby sequence ([luby_t i v]: the i-th element, counted
    from 1, is v), and [max_value] is the maximum of everything produced (and 1). *)
Theorem C33_luby_sequence : forall k, exists vs s,
  luby_run k luby_default = Some (vs, s) /\ length vs = k /\
  (forall j, j < k -> luby_t (j + 2) (nth j vs 0)) /\
  luby_max_value s = fold_left Nat.max vs 1.
Proof.
  intros k. destruct (luby_run_correct k 0 luby_default luby_default_inv)
    as (vs & s & E & L & _ & Hj & Hm).
  exists vs, s. repeat split; auto.
Qed.
Print Assumptions C33_luby_sequence.

(** ... the specification [luby_t] determines each element uniquely. *)
Theorem C33_luby_spec_functional : forall i v w, luby_t i v -> luby_t i w -> v = w.
Proof. intros i v w H1 H2. exact (luby_t_fun i v H1 w H2). Qed.
Print Assumptions C33_luby_spec_functional.

(** ... [reset] after any run makes it produce the same values again, keeping
    the maximum. *)
Theorem C33_luby_reset : forall k1 k2 vs1 s1,
  luby_run k1 luby_default = Some (vs1, s1) ->
  exists vs2 s2, luby_run k2 (luby_reset s1) = Some (vs2, s2) /\ length vs2 = k2 /\
    (forall j, j < k2 -> luby_t (j + 2) (nth j vs2 0)) /\
    luby_max_value s2 = fold_left Nat.max vs2 (luby_max_value s1).
Proof.
  intros k1 k2 vs1 s1 _.
  destruct (luby_run_correct k2 0 (luby_reset s1) (luby_reset_inv s1))
    as (vs & s & E & L & _ & Hj & Hm).
  exists vs, s. repeat split; auto.
Qed.
Print Assumptions C33_luby_reset.

Example C33_example :
  match luby_run 15 luby_default with
  | Some (vs, s) => vs = [1;2;1;1;2;4;1;1;2;1;1;2;4;8;1] /\ luby_max_value s = 8
  | None => False
  end.
Proof. vm_compute. auto. Qed.

(** C34. Run of the solver's stage manager: built by [stage_new], initialised with
    unit size [u > 0] (the search uses 32), then [prepare_new_stage] called with any
    conflict counts [nows].
    Every stage that is started ends strictly in the future, so [stage_ended] fires
    when the conflict counter is increased one by one, and not before. *)
Theorem C34_stage_ends_in_future : forall u0 u nows t,
  0 < u ->
  exists rs s, stage_run (nows ++ [t]) (stage_initialize (stage_new u0) u) = Some (rs, s) /\
    t < sm_end_of_stage s /\
    exists d, 0 < d /\ stage_ended s (t + d) = true /\
              forall e, e < d -> stage_ended s (t + e) = false.
Proof.
  intros u0 u nows t Hu.
  destruct (stage_run_correct (nows ++ [t]) u 0 _ (stage_init_inv u0 u))
    as (rs & s & E & HI & L & _ & _ & _ & Hend).
  exists rs, s. split; auto.
  assert (HE : sm_end_of_stage s = t + sm_cycle s * u).
  { replace t with (last (nows ++ [t]) 0) by apply last_last.
    destruct nows as [|a l]; eapply Hend; reflexivity. }
  destruct HI as (_ & _ & _ & Hc & _).
  assert (1 <= sm_cycle s) by (apply Hc; rewrite app_length; simpl; lia).
  assert (0 < sm_cycle s * u) by (apply Nat.mul_pos_pos; lia).
  split; [lia|]. exists (sm_cycle s * u). split; auto.
  unfold stage_ended. rewrite HE. split; [apply Nat.eqb_refl|].
  intros e He. apply Nat.eqb_neq. lia.
Qed.
Print Assumptions C34_stage_ends_in_future.

(** ... the k-th call (k from 1) reports the beginning of a cycle exactly when the
    Luby scale is 1, and the beginning of a segment exactly when k = 2^j - 1 for a
    j >= 1, i.e. just after a new maximal scale was used; cycle, stage and segment
    numbers count these events. *)
Theorem C34_stage_cycles_and_segments : forall u0 u nows rs s,
  stage_run nows (stage_initialize (stage_new u0) u) = Some (rs, s) ->
  length rs = length nows /\ sm_stage s = length nows /\
  sm_cycle s = length (filter (fun r => match r with Some _ => true | None => false end) rs) /\
  2 ^ sm_segment s <= length nows + 1 < 2 ^ (sm_segment s + 1) /\
  sm_max_scale_of_segment s = 2 ^ sm_segment s /\
  forall k, 1 <= k <= length nows ->
    (nth (k - 1) rs None <> None <-> luby_t (k + 1) 1) /\
    (nth (k - 1) rs None = Some true <-> exists j, 1 <= j /\ k = 2 ^ j - 1).
Proof.
  intros u0 u nows rs s E.
  destruct (stage_run_correct nows u 0 _ (stage_init_inv u0 u))
    as (rs' & s' & E' & HI & L & Ha & Hb & Hc & _).
  rewrite E in E'. injection E' as <- <-.
  destruct HI as (_ & Hst & _ & _ & Hg & Hm & _).
  split; auto. split; [simpl in Hst; auto|]. split; [rewrite Hc; reflexivity|].
  split; [replace (sm_segment s + 1) with (S (sm_segment s)) by lia; simpl in Hg; exact Hg|].
  split; auto.
  intros k Hk. split.
  - destruct (Ha (k - 1) ltac:(lia)) as (v & Hv & Hone).
    replace (0 + (k - 1) + 2) with (k + 1) in Hv by lia.
    split; intros Q.
    + assert (v = 1) by (apply Hone; destruct (nth (k - 1) rs None); [reflexivity|congruence]).
      now subst.
    + assert (v = 1) by (eapply luby_t_fun; eauto).
      apply Hone in H. destruct (nth (k - 1) rs None); [discriminate|simpl in H; discriminate].
  - rewrite (Hb (k - 1)) by lia. split; intros [j Hj].
    + exists (S j). pose proof (pow2_pos (S j)). lia.
    + destruct Hj as [H1 H2]. destruct j; [lia|]. exists j.
      pose proof (pow2_S j). pose proof (pow2_pos j). lia.
Qed.
Print Assumptions C34_stage_cycles_and_segments.

Example C34_example :
  match stage_run [10; 50; 90; 160] (stage_initialize (stage_new 5) 32) with
  | Some (rs, s) => rs = [Some true; None; Some true; Some false] /\ sm_end_of_stage s = 256
  | None => False
  end.
Proof. vm_compute. auto. Qed.

(** C34, where it fails: [search] calls [initialize] at the start of every [solve],
    which resets the cycle number but not the Luby iterator. When the same solver is
    solved again a stage can end at the very conflict it starts ([span] 0), and
    as [stage_ended] tests equality and the counter has passed, never again. *)
Theorem C34_stage_reinitialised_refuted :
  exists nows t rs s1 rs2 s2,
    stage_run nows (stage_initialize (stage_new 5) 32) = Some (rs, s1) /\
    stage_run [t] (stage_initialize s1 32) = Some (rs2, s2) /\
    forall d, 0 < d -> stage_ended s2 (t + d) = false.
Proof.
  exists [32], 32.
  eexists. eexists. eexists. eexists. split; [vm_compute; reflexivity|].
  split; [vm_compute; reflexivity|].
  intros d Hd. unfold stage_ended. apply Nat.eqb_neq. simpl. lia.
Qed.
Print Assumptions C34_stage_reinitialised_refuted.
