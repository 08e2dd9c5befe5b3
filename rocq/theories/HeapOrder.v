From Coq Require Import List Arith Bool Lia ZArith.
From Verif Require Import Base HeapModel HeapProofs.
Import ListNotations.

(** the comparison used by assign/heap.rs, for integer activities *)
Definition lt_key (key : nat -> Z) (a b : nat) : bool := Z.ltb (key a) (key b).

(** heap order: no element is above its parent *)
Definition ordered (key : nat -> Z) (h : vheap) : Prop :=
  forall i, 2 <= i <= ix h 0 -> (key (hp h i) <= key (hp h (i / 2)))%Z.

(** heap order except possibly between [q] and its parent *)
Definition ordered_but (key : nat -> Z) (h : vheap) (q : nat) : Prop :=
  (forall i, 2 <= i <= ix h 0 -> i <> q -> (key (hp h i) <= key (hp h (i / 2)))%Z) /\
  (forall i, 2 <= i <= ix h 0 -> i / 2 = q -> 2 <= q -> (key (hp h i) <= key (hp h (q / 2)))%Z).

Lemma div2_bound : forall i, 2 <= i -> 1 <= i / 2 < i.
Proof.
  intros i H. split; [|apply Nat.div_lt; lia].
  apply (Nat.div_le_mono 2 i 2) in H; auto.
Qed.

Lemma up_loop_ordered : forall key fuel h q vq,
  WF (fill h q vq) -> 1 <= q <= ix h 0 -> ix h 0 <= cap h -> 1 <= vq <= cap h -> q < fuel ->
  ordered_but key (fill h q vq) q ->
  ordered key (up_loop (lt_key key) fuel h q vq).
Proof.
  induction fuel as [|f IH]; intros h q vq HW Hq Hc Hv Hf [O1 O2]; [lia|].
  assert (L0 : forall v, 1 <= v -> ix (fill h q v) 0 = ix h 0).
  { intros v Hv1. unfold fill, set_ix, set_hp; cbn [ix]. rewrite upd_other by lia. auto. }
  assert (Hq1 : hp (fill h q vq) q = vq).
  { unfold fill, set_ix, set_hp; cbn [hp]. apply upd_same. }
  cbn [up_loop]. cbv zeta. fold (fill h q vq).
  destruct (Nat.eqb_spec (q / 2) 0) as [E|E].
  { intros i Hi. apply O1; auto. intros ->.
    pose proof (div2_bound q ltac:(rewrite L0 in Hi; lia)). lia. }
  assert (Hq2 : 2 <= q).
  { destruct q as [|[|q]]; [lia|exfalso; apply E; reflexivity|lia]. }
  pose proof (div2_bound q Hq2) as Bq.
  unfold lt_key at 1. destruct (Z.ltb_spec (key (hp h (q / 2))) (key vq)) as [L|L].
  - fold (fill h q (hp h (q / 2))).
    destruct (fill_step h q vq (q / 2) (hp h (q / 2))) as (A & B & C & D); auto; try lia.
    assert (L1 : ix (fill h q (hp h (q/2))) 0 = ix h 0) by (apply L0; lia).
    apply IH; auto; try (rewrite L1; cbn [cap fill set_ix set_hp]; lia); try lia.
    assert (L2 : ix (fill (fill h q (hp h (q / 2))) (q / 2) vq) 0 = ix h 0).
    { unfold fill, set_ix, set_hp; cbn [ix]. rewrite !upd_other by lia. auto. }
    set (g := fill (fill h q (hp h (q / 2))) (q / 2) vq) in *.
    set (g0 := fill h q vq) in *.
    assert (Gp : hp g (q / 2) = vq) by (unfold g, fill, set_ix, set_hp; cbn [hp]; apply upd_same).
    assert (Gq : hp g q = hp h (q / 2)).
    { unfold g, fill, set_ix, set_hp; cbn [hp]. rewrite upd_other by lia. apply upd_same. }
    assert (Go : forall i, i <> q -> i <> q / 2 -> hp g i = hp g0 i).
    { intros i N1 N2. unfold g, g0, fill, set_ix, set_hp; cbn [hp].
      rewrite upd_other by lia. rewrite !upd_other by lia. auto. }
    assert (G0p : hp g0 (q / 2) = hp h (q / 2)).
    { unfold g0, fill, set_ix, set_hp; cbn [hp]. rewrite upd_other by lia. auto. }
    assert (L3 : ix g0 0 = ix h 0) by (unfold g0; apply L0; lia).
    rewrite L3 in O1, O2.
    split.
    + rewrite L2. intros i Hi Ni. pose proof (div2_bound i ltac:(lia)) as Bi.
      destruct (Nat.eq_dec i q) as [->|Niq]; [rewrite Gq, Gp; lia|].
      rewrite (Go i) by auto.
      destruct (Nat.eq_dec (i / 2) q) as [Eq|Nq].
      { rewrite Eq, Gq, <- G0p. apply O2; auto. }
      destruct (Nat.eq_dec (i / 2) (q / 2)) as [Ep|Np].
      { rewrite Ep, Gp. specialize (O1 i Hi Niq). rewrite Ep, G0p in O1. lia. }
      rewrite (Go (i / 2)) by auto. apply O1; auto.
    + rewrite L2. intros i Hi Ep Hp2. pose proof (div2_bound i ltac:(lia)) as Bi.
      pose proof (div2_bound (q / 2) Hp2) as Bp.
      assert (O1p := O1 (q / 2) ltac:(lia) ltac:(lia)). rewrite G0p in O1p.
      rewrite (Go (q / 2 / 2)) by lia.
      destruct (Nat.eq_dec i q) as [->|Niq]; [rewrite Gq; lia|].
      rewrite (Go i) by lia. specialize (O1 i Hi Niq). rewrite Ep, G0p in O1. lia.
  - intros i Hi. destruct (Nat.eq_dec i q) as [->|N].
    + rewrite Hq1. unfold fill, set_ix, set_hp; cbn [hp]. rewrite upd_other by lia. lia.
    + apply O1; auto.
Qed.

Lemma fill_self_hp : forall h q i, hp (fill h q (hp h q)) i = hp h i.
Proof. intros. unfold fill, set_ix, set_hp; cbn [hp]. updc. Qed.

Lemma percolate_up_ordered : forall key h q, WF h -> 1 <= q <= ix h 0 ->
  ordered_but key h q -> ordered key (percolate_up (lt_key key) h q).
Proof.
  intros key h q H Hq [O1 O2]. pose proof H as (A & _ & C). destruct (A q ltac:(lia)) as [A1 A2].
  unfold percolate_up. apply up_loop_ordered; auto; try lia.
  - apply fill_self; auto; lia.
  - assert (L : ix (fill h q (hp h q)) 0 = ix h 0).
    { unfold fill, set_ix, set_hp; cbn [ix]. rewrite upd_other by lia. auto. }
    split; rewrite L; intros; rewrite !fill_self_hp; auto.
Qed.

Lemma ordered_root_max : forall key h, ordered key h ->
  forall i, 1 <= i <= ix h 0 -> (key (hp h i) <= key (hp h 1))%Z.
Proof.
  intros key h O i. induction i as [i IH] using lt_wf_ind. intros Hi.
  destruct (Nat.eq_dec i 1) as [->|N]; [lia|].
  pose proof (div2_bound i ltac:(lia)). specialize (IH (i / 2) ltac:(lia) ltac:(lia)).
  specialize (O i ltac:(lia)). lia.
Qed.

Lemma ordered_insert : forall key h v, WF h -> 1 <= v <= cap h -> ordered key h ->
  ordered key (insert_heap (lt_key key) h v).
Proof.
  intros key h v H Hv O. unfold insert_heap, heap_insert_raw, heap_contains.
  pose proof H as (A & B & C). destruct (B v Hv) as [B1 B2].
  destruct (Nat.leb_spec (ix h v) (ix h 0)) as [L|L].
  - apply percolate_up_ordered; auto; try lia. split; [intros; apply O; auto|].
    intros i Hi E Hq. pose proof (O i Hi) as O1. rewrite E in O1.
    pose proof (O (ix h v) ltac:(lia)). lia.
  - assert (Hn : 1 <= ix h 0 + 1 <= cap h) by lia. destruct (A _ Hn) as [P1 P2].
    destruct (swapped_WF h (ix h v) (ix h 0 + 1) v (hp h (ix h 0 + 1)) (ix h 0 + 1))
      as (S1 & S2 & S3 & S4 & S5); auto; try lia.
    fold (swapped h (ix h v) (ix h 0 + 1) v (hp h (ix h 0 + 1)) (ix h 0 + 1)).
    set (h1 := swapped h (ix h v) (ix h 0 + 1) v (hp h (ix h 0 + 1)) (ix h 0 + 1)) in *.
    assert (Hs : forall i, i <= ix h 0 -> hp h1 i = hp h i).
    { intros i Hi. unfold h1, swapped, set_ix, swap_ix, swap_hp; cbn [hp].
      rewrite !upd_other by lia. auto. }
    apply percolate_up_ordered; auto; try lia. split; rewrite S2.
    + intros i Hi N. pose proof (div2_bound i ltac:(lia)). rewrite !Hs by lia. apply O. lia.
    + intros i Hi E. pose proof (div2_bound i ltac:(lia)). lia.
Qed.

(** raising one key and updating the heap *)
Lemma ordered_update : forall key key' h v, WF h -> 1 <= v <= cap h -> ordered key h ->
  (forall w, w <> v -> key' w = key w) -> (key v <= key' v)%Z ->
  ordered key' (update_heap (lt_key key') h v).
Proof.
  intros key key' h v H Hv O K1 K2. unfold update_heap, heap_contains.
  pose proof H as (A & B & C). destruct (B v Hv) as [B1 B2].
  assert (K : forall w, (key w <= key' w)%Z).
  { intros w. destruct (Nat.eq_dec w v) as [->|N]; auto. rewrite K1; auto; lia. }
  assert (U : forall i, 1 <= i <= cap h -> hp h i = v -> i = ix h v).
  { intros i Hi E. destruct (A i Hi) as [_ A2]. congruence. }
  destruct (Nat.leb_spec (ix h v) (ix h 0)) as [L|L].
  - apply percolate_up_ordered; auto; try lia. split.
    + intros i Hi N. rewrite K1. { specialize (O i Hi). specialize (K (hp h (i / 2))). lia. }
      intros E. apply N. apply U; auto. lia.
    + intros i Hi E Hq. pose proof (div2_bound i ltac:(lia)).
      rewrite K1 by (intros E2; apply U in E2; lia).
      pose proof (O i Hi) as O1. rewrite E in O1. pose proof (O (ix h v) ltac:(lia)).
      specialize (K (hp h (ix h v / 2))). lia.
  - intros i Hi. pose proof (div2_bound i ltac:(lia)).
    rewrite !K1 by (intros E2; apply U in E2; lia). apply O. auto.
Qed.

Lemma ordered_rebuild : forall key free h, WF h -> ordered key (rebuild_order (lt_key key) free h).
Proof.
  intros key free h H. unfold rebuild_order. destruct (heap_clear_WF h H) as [W0 L0].
  assert (G : forall l h0, WF h0 -> (forall v, In v l -> 1 <= v <= cap h0) -> ordered key h0 ->
    ordered key (fold_left (fun h vi => if free vi then insert_heap (lt_key key) h vi else h) l h0)).
  { induction l as [|x l IH]; intros h0 Hw Hl O; cbn [fold_left]; auto.
    destruct (free x).
    - destruct (insert_heap_spec (lt_key key) h0 x Hw (Hl x (or_introl eq_refl))) as (A & B & C).
      apply IH; auto. { intros v Hv. rewrite B. apply Hl. now right. }
      apply ordered_insert; auto. apply Hl. now left.
    - apply IH; auto. intros; apply Hl; now right. }
  apply G; auto.
  - intros v Hv. apply in_seq in Hv. cbn. lia.
  - intros i Hi. lia.
Qed.
