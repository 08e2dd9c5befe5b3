From Coq Require Import List Arith Bool Lia.
From Verif Require Import Base HeapModel.
Import ListNotations.

(** Representation invariant: [hp] and [ix] are mutually inverse on 1..cap. *)
Definition WF (h : vheap) : Prop :=
  (forall i, 1 <= i <= cap h -> 1 <= hp h i <= cap h /\ ix h (hp h i) = i) /\
  (forall v, 1 <= v <= cap h -> 1 <= ix h v <= cap h /\ hp h (ix h v) = v) /\
  ix h 0 <= cap h.

(** variable [v] is a member *)
Definition mem (h : vheap) (v : nat) : Prop := 1 <= v <= cap h /\ ix h v <= ix h 0.

Definition fill (h : vheap) (q v : nat) : vheap := set_ix (set_hp h q v) v q.

Ltac updc := unfold upd in *; repeat match goal with
  | |- context [?a =? ?b] => destruct (Nat.eqb_spec a b); subst
  | H : context [?a =? ?b] |- _ => destruct (Nat.eqb_spec a b); subst
  end; try lia; try congruence.

Ltac splits := repeat match goal with |- _ /\ _ => split end.

(** [h2] is [h1] with positions permuted among 1..m *)
Definition perm_upto (m : nat) (h1 h2 : vheap) : Prop :=
  cap h2 = cap h1 /\ ix h2 0 = ix h1 0 /\
  (forall v, 1 <= v <= cap h1 -> forall k, m <= k -> (ix h1 v <= k <-> ix h2 v <= k)).

Lemma perm_upto_refl : forall m h, perm_upto m h h.
Proof. intros; unfold perm_upto; intuition. Qed.

Lemma perm_upto_trans : forall m h1 h2 h3,
  perm_upto m h1 h2 -> perm_upto m h2 h3 -> perm_upto m h1 h3.
Proof.
  intros m h1 h2 h3 (A & B & C) (D & E & F). unfold perm_upto.
  split; [congruence|]. split; [congruence|].
  intros v Hv k Hk. rewrite (C v Hv k Hk). apply F; auto. rewrite A. auto.
Qed.

Lemma perm_upto_le : forall m m' h1 h2, m <= m' -> perm_upto m h1 h2 -> perm_upto m' h1 h2.
Proof. intros m m' h1 h2 L (A & B & C). repeat split; auto; apply C; auto; lia. Qed.

(** moving [vp] from position p into the hole q *)
Lemma fill_step : forall h q vq p vp,
  WF (fill h q vq) -> p <> q -> 1 <= p <= cap h -> 1 <= q <= cap h -> 1 <= vq <= cap h ->
  vp = hp h p ->
  WF (fill (fill h q vp) p vq) /\ 1 <= vp <= cap h /\ vp <> vq /\
  (forall m, p <= m -> q <= m -> perm_upto m (fill h q vq) (fill (fill h q vp) p vq)).
Proof.
  intros h q vq p vp (H1 & H2 & H3) Hpq Hp Hq Hv Evp.
  unfold fill, set_ix, set_hp in *; cbn [hp ix cap] in *.
  assert (Hvp : 1 <= vp <= cap h /\ upd (ix h) vq q vp = p).
  { destruct (H1 p Hp) as [A B]. rewrite (upd_other (hp h)) in A, B by auto. rewrite <- Evp in *. auto. }
  destruct Hvp as [Hvp Hix].
  assert (Hne : vp <> vq) by (intros ->; rewrite upd_same in Hix; lia).
  rewrite upd_other in Hix by auto.
  assert (H30 : ix h 0 <= cap h) by (rewrite upd_other in H3 by lia; auto).
  split; [|split; [|split]]; auto.
  - unfold WF, fill, set_ix, set_hp; cbn [hp ix cap]. split; [|split].
    + intros i Hi. destruct (Nat.eq_dec i p) as [->|Nip].
      { rewrite upd_same. rewrite upd_same. auto. }
      rewrite (upd_other _ _ Nip).
      destruct (Nat.eq_dec i q) as [->|Niq].
      { rewrite upd_same. rewrite (upd_other _ _ Hne), upd_same. auto. }
      rewrite (upd_other _ _ Niq).
      destruct (H1 i Hi) as [A B]. rewrite (upd_other _ _ Niq) in A, B.
      split; auto.
      assert (hp h i <> vq) by (intros E; rewrite E, upd_same in B; lia).
      rewrite upd_other in B by auto.
      assert (hp h i <> vp) by (intros E; rewrite E in B; lia).
      rewrite !upd_other by auto. auto.
    + intros v Hv'. destruct (Nat.eq_dec v vq) as [->|Nv].
      { rewrite upd_same, upd_same. auto. }
      rewrite (upd_other _ _ Nv).
      destruct (Nat.eq_dec v vp) as [->|Nvp].
      { rewrite upd_same. rewrite upd_other by auto. rewrite upd_same. auto. }
      rewrite (upd_other _ _ Nvp).
      destruct (H2 v Hv') as [A B]. rewrite (upd_other _ _ Nv) in A, B.
      split; auto.
      assert (ix h v <> q) by (intros E; rewrite E, upd_same in B; auto).
      rewrite (upd_other (hp h) _ H) in B.
      assert (ix h v <> p) by (intros E; rewrite E in B; congruence).
      rewrite !upd_other by auto. auto.
    + rewrite !upd_other by lia. auto.
  - intros m Hm1 Hm2. unfold perm_upto; unfold fill, set_ix, set_hp; cbn [hp ix cap].
    split; auto. split; [rewrite !upd_other by lia; auto|].
    intros v Hv' k Hk.
    destruct (Nat.eq_dec v vq) as [->|Nv]; [rewrite !upd_same; lia|].
    rewrite !(upd_other _ _ Nv).
    destruct (Nat.eq_dec v vp) as [->|Nvp]; [rewrite upd_same; lia|].
    rewrite (upd_other _ _ Nvp). tauto.
Qed.

Lemma div2_lt : forall q, 1 <= q -> q / 2 < q.
Proof. intros. apply Nat.div_lt; lia. Qed.

Lemma up_loop_spec : forall worse fuel h q vq,
  WF (fill h q vq) -> 1 <= q <= cap h -> 1 <= vq <= cap h -> q < fuel ->
  WF (up_loop worse fuel h q vq) /\ perm_upto q (fill h q vq) (up_loop worse fuel h q vq).
Proof.
  induction fuel as [|f IH]; intros h q vq H Hq Hv Hf; [lia|].
  cbn [up_loop]. cbv zeta.
  destruct (Nat.eqb_spec (q / 2) 0) as [E|E].
  - split; auto. apply perm_upto_refl.
  - destruct (worse (hp h (q / 2)) vq).
    + pose proof (div2_lt q ltac:(lia)).
      destruct (fill_step h q vq (q / 2) (hp h (q / 2))) as (A & B & C & D); auto; try lia.
      destruct (IH (fill h q (hp h (q / 2))) (q / 2) vq) as [I J]; auto;
        cbn [fill set_ix set_hp cap]; try lia.
      split; auto. eapply perm_upto_trans; [apply D; lia|].
      eapply perm_upto_le; [|exact J]. lia.
    + split; auto. apply perm_upto_refl.
Qed.

Lemma WF_ext : forall h1 h2, cap h1 = cap h2 ->
  (forall i, i <= cap h1 -> hp h1 i = hp h2 i) -> (forall i, i <= cap h1 -> ix h1 i = ix h2 i) ->
  WF h1 -> WF h2.
Proof.
  intros h1 h2 Hc Hh Hi (A & B & C). unfold WF. rewrite <- Hc.
  split; [|split].
  - intros i H. destruct (A i H). rewrite <- Hh by lia. rewrite <- Hi by lia. auto.
  - intros v H. destruct (B v H). rewrite <- Hi by lia. rewrite <- Hh by lia. auto.
  - rewrite <- Hi by lia. auto.
Qed.

Lemma fill_self : forall h q, WF h -> 1 <= q <= cap h -> WF (fill h q (hp h q)).
Proof.
  intros h q H Hq. pose proof H as (A & _ & _). destruct (A q Hq) as [A1 A2].
  eapply WF_ext; [| | |exact H]; cbn [fill set_ix set_hp cap hp ix]; auto; intros i Hi; updc.
Qed.

Lemma fill_self_perm : forall h q m, WF h -> 1 <= q <= cap h -> perm_upto m h (fill h q (hp h q)).
Proof.
  intros h q m H Hq. pose proof H as (A & _ & _). destruct (A q Hq) as [A1 A2].
  unfold perm_upto; cbn [fill set_ix set_hp cap hp ix]. split; auto. split; [updc|].
  intros v Hv k Hk. updc; tauto.
Qed.

Lemma percolate_up_spec : forall worse h q, WF h -> 1 <= q <= cap h ->
  WF (percolate_up worse h q) /\ perm_upto q h (percolate_up worse h q).
Proof.
  intros worse h q H Hq. unfold percolate_up. pose proof H as (A & _ & _).
  destruct (A q Hq) as [A1 A2].
  destruct (up_loop_spec worse (S q) h q (hp h q)) as [B C]; auto using fill_self; try lia.
  split; auto. eapply perm_upto_trans; [exact (fill_self_perm h q q H Hq)|exact C].
Qed.

Lemma down_loop_spec : forall worse fuel n h i vi,
  WF (fill h i vi) -> 1 <= i <= cap h -> 1 <= vi <= cap h -> n <= cap h -> n < fuel + i -> 0 < fuel ->
  WF (down_loop worse fuel n h i vi) /\
  perm_upto (Nat.max i n) (fill h i vi) (down_loop worse fuel n h i vi).
Proof.
  induction fuel as [|f IH]; intros n h i vi H Hi Hv Hn Hf Hf0; [lia|].
  cbn [down_loop]. cbv zeta.
  destruct (Nat.ltb_spec (2 * i) n) as [L|L]; [|split; auto; apply perm_upto_refl].
  set (tc := if (2 * i + 1 <? n) && worse (hp h (2 * i)) (hp h (2 * i + 1))
             then (2 * i + 1, hp h (2 * i + 1)) else (2 * i, hp h (2 * i))).
  assert (T : exists t, tc = (t, hp h t) /\ i < t < n).
  { unfold tc. destruct (Nat.ltb_spec (2 * i + 1) n); simpl andb.
    - destruct (worse _ _); eexists; split; try reflexivity; lia.
    - eexists; split; try reflexivity; lia. }
  destruct T as (t & -> & Ht).
  destruct (worse vi (hp h t)); [|split; auto; apply perm_upto_refl].
  destruct (fill_step h i vi t (hp h t)) as (A & B & C & D); auto; try lia.
  destruct (IH n (fill h i (hp h t)) t vi) as [I J]; auto;
    cbn [fill set_ix set_hp cap]; try lia.
  split; auto. eapply perm_upto_trans; [apply D; lia|].
  eapply perm_upto_le; [|exact J]. lia.
Qed.

Lemma percolate_down_spec : forall worse h i, WF h -> 1 <= i <= cap h ->
  WF (percolate_down worse h i) /\ perm_upto (Nat.max i (heap_len h)) h (percolate_down worse h i).
Proof.
  intros worse h i H Hi. unfold percolate_down, heap_len. pose proof H as (A & _ & C).
  destruct (A i Hi) as [A1 A2].
  destruct (down_loop_spec worse (S (ix h 0)) (ix h 0) h i (hp h i)) as [B D]; auto using fill_self; try lia.
  split; auto. eapply perm_upto_trans; [exact (fill_self_perm h i _ H Hi)|exact D].
Qed.

(** swapping two positions and the two variables there, then setting the length *)
Definition swapped (h : vheap) (i j v w n : nat) : vheap :=
  set_ix (swap_ix (swap_hp h i j) v w) 0 n.

Lemma swapped_WF : forall h i j v w n,
  WF h -> 1 <= i <= cap h -> 1 <= j <= cap h -> hp h i = v -> hp h j = w -> n <= cap h ->
  WF (swapped h i j v w n) /\ ix (swapped h i j v w n) 0 = n /\
  ix (swapped h i j v w n) v = j /\ ix (swapped h i j v w n) w = i /\
  (forall x, 1 <= x -> x <> v -> x <> w -> ix (swapped h i j v w n) x = ix h x).
Proof.
  intros h i j v w n (A & B & C) Hi Hj Ev Ew Hn.
  destruct (A i Hi) as [A1 A2]. destruct (A j Hj) as [B1 B2].
  rewrite Ev in *. rewrite Ew in *.
  unfold swapped, WF; cbn [set_ix swap_ix swap_hp hp ix cap].
  assert (Hvw : v = w -> i = j) by (intros; congruence).
  repeat split.
  - destruct (Nat.eq_dec i0 j) as [->|N1]; [rewrite upd_same; lia|].
    rewrite (upd_other _ _ N1). destruct (Nat.eq_dec i0 i) as [->|N2]; [rewrite upd_same; lia|].
    rewrite (upd_other _ _ N2). apply A; lia.
  - destruct (Nat.eq_dec i0 j) as [->|N1]; [rewrite upd_same; lia|].
    rewrite (upd_other _ _ N1). destruct (Nat.eq_dec i0 i) as [->|N2]; [rewrite upd_same; lia|].
    rewrite (upd_other _ _ N2). apply A; lia.
  - destruct (Nat.eq_dec i0 j) as [->|N1].
    { rewrite upd_same. rewrite Ev. rewrite upd_other by lia.
      destruct (Nat.eq_dec v w) as [E|N].
      - rewrite E, upd_same. rewrite <- E. auto. rewrite A2. auto.
      - rewrite (upd_other _ _ N), upd_same. auto. }
    rewrite (upd_other _ _ N1). destruct (Nat.eq_dec i0 i) as [->|N2].
    { rewrite upd_same. rewrite Ew. rewrite upd_other by lia. rewrite upd_same. auto. }
    rewrite (upd_other _ _ N2). destruct (A i0 H) as [P Q].
    rewrite upd_other by lia. rewrite !upd_other; auto; intros E; subst; congruence.
  - rewrite upd_other by lia. destruct (Nat.eq_dec v0 w) as [->|N1]; [rewrite upd_same; lia|].
    rewrite (upd_other _ _ N1). destruct (Nat.eq_dec v0 v) as [->|N2]; [rewrite upd_same; lia|].
    rewrite (upd_other _ _ N2). apply B; auto.
  - rewrite upd_other by lia. destruct (Nat.eq_dec v0 w) as [->|N1]; [rewrite upd_same; lia|].
    rewrite (upd_other _ _ N1). destruct (Nat.eq_dec v0 v) as [->|N2]; [rewrite upd_same; lia|].
    rewrite (upd_other _ _ N2). apply B; auto.
  - rewrite (upd_other (upd _ _ _) n (k:=0) (i:=v0)) by lia.
    destruct (Nat.eq_dec v0 w) as [->|N1].
    { rewrite upd_same. rewrite A2.
      destruct (Nat.eq_dec i j) as [->|N]; [rewrite upd_same; congruence|].
      rewrite (upd_other _ _ N), upd_same. auto. }
    rewrite (upd_other _ _ N1). destruct (Nat.eq_dec v0 v) as [->|N2].
    { rewrite upd_same. rewrite B2. rewrite upd_same. auto. }
    rewrite (upd_other _ _ N2). destruct (B v0 H) as [P Q].
    rewrite !upd_other; auto; intros E; rewrite E in Q; congruence.
  - rewrite upd_same. auto.
  - rewrite upd_other by lia. destruct (Nat.eq_dec v w) as [E|N].
    + rewrite E, upd_same. rewrite <- E. rewrite A2. auto.
    + rewrite (upd_other _ _ N), upd_same. auto.
  - rewrite upd_other by lia. rewrite upd_same. auto.
  - intros x Hx N1 N2. rewrite !upd_other by lia. auto.
Qed.

Lemma heap_new_WF : forall n init, init <= n -> WF (heap_new n init).
Proof.
  intros n init H. unfold WF, heap_new; cbn. split; [|split].
  - intros i Hi. destruct (Nat.eqb_spec i 0); lia.
  - intros i Hi. destruct (Nat.eqb_spec i 0); lia.
  - auto.
Qed.

Lemma heap_clear_WF : forall h, WF h -> WF (heap_clear h) /\ ix (heap_clear h) 0 = 0.
Proof.
  intros h _. unfold WF, heap_clear; cbn. split; auto. splits; intros; splits; try lia;
  repeat match goal with |- context [?a <=? ?b] => destruct (Nat.leb_spec a b) end; lia.
Qed.

Lemma expand_WF : forall h, WF h -> WF (expand_heap h).
Proof.
  intros h (A & B & C). unfold WF, expand_heap; cbn [hp ix cap].
  assert (D : forall i, 1 <= i <= cap h + 1 -> i = cap h + 1 \/ 1 <= i <= cap h) by (intros; lia).
  split; [|split].
  - intros i Hi. destruct (D i Hi) as [->|Hj]; [rewrite !upd_same; lia|].
    destruct (A i Hj). rewrite (upd_other (hp h)) by lia. rewrite upd_other by lia. split; lia.
  - intros i Hi. destruct (D i Hi) as [->|Hj]; [rewrite !upd_same; lia|].
    destruct (B i Hj). rewrite (upd_other (ix h)) by lia. rewrite upd_other by lia. split; lia.
  - rewrite upd_other by lia. lia.
Qed.

Lemma perm_upto_mem : forall m h1 h2, perm_upto m h1 h2 -> m <= ix h1 0 ->
  forall v, mem h2 v <-> mem h1 v.
Proof.
  intros m h1 h2 (A & B & C) Hm v. unfold mem. rewrite A, B.
  split; intros [H1 H2]; split; auto; apply (C v H1 (ix h1 0) Hm); auto.
Qed.

(** ** insert *)
Lemma insert_raw_spec : forall h v, WF h -> 1 <= v <= cap h ->
  let '(h1, i) := heap_insert_raw h v in
  WF h1 /\ cap h1 = cap h /\ 1 <= i <= ix h1 0 /\ hp h1 i = v /\
  (forall w, mem h1 w <-> mem h w \/ w = v).
Proof.
  intros h v H Hv. unfold heap_insert_raw, heap_contains.
  pose proof H as (A & B & C). destruct (B v Hv) as [B1 B2].
  destruct (Nat.leb_spec (ix h v) (ix h 0)) as [L|L].
  - splits; auto; try lia. intros w; split; [tauto|]. intros [M| ->]; auto. split; auto.
  - assert (Hn : 1 <= ix h 0 + 1 <= cap h) by lia.
    destruct (A _ Hn) as [P1 P2].
    destruct (swapped_WF h (ix h v) (ix h 0 + 1) v (hp h (ix h 0 + 1)) (ix h 0 + 1))
      as (S1 & S2 & S3 & S4 & S5); auto; try lia.
    fold (swapped h (ix h v) (ix h 0 + 1) v (hp h (ix h 0 + 1)) (ix h 0 + 1)).
    set (h1 := swapped h (ix h v) (ix h 0 + 1) v (hp h (ix h 0 + 1)) (ix h 0 + 1)) in *.
    assert (Hc : cap h1 = cap h) by reflexivity.
    assert (Hhp : hp h1 (ix h 0 + 1) = v).
    { destruct S1 as (_ & Q & _). destruct (Q v) as [_ Q2]; [rewrite Hc; auto|].
      rewrite S3 in Q2. auto. }
    splits; auto; try lia.
    intros w; split.
    + intros [M1 M2]. rewrite S2 in M2. rewrite Hc in M1.
      destruct (Nat.eq_dec w v) as [->|N]; auto. left.
      destruct (Nat.eq_dec w (hp h (ix h 0 + 1))) as [E|N2].
      * exfalso. rewrite E, S4 in M2. subst w.
        assert (E : ix h v = ix h 0 + 1) by lia. rewrite <- E in N. congruence.
      * rewrite S5 in M2 by lia. split; auto.
        destruct (Nat.eq_dec (ix h w) (ix h 0 + 1)) as [e|]; [|lia].
        exfalso. apply N2. rewrite <- e. symmetry. apply B. auto.
    + intros M. split; [rewrite Hc; destruct M as [[M1 M2]|E]; [lia|rewrite E; lia]|].
      rewrite S2. destruct M as [[M1 M2]|E]; [|rewrite E, S3; auto].
      destruct (Nat.eq_dec w v) as [->|N]; [rewrite S3; auto|].
      destruct (Nat.eq_dec w (hp h (ix h 0 + 1))) as [E|N2]; [|rewrite S5; lia].
      rewrite E in M2. lia.
Qed.

Lemma insert_heap_spec : forall worse h v, WF h -> 1 <= v <= cap h ->
  WF (insert_heap worse h v) /\ cap (insert_heap worse h v) = cap h /\
  (forall w, mem (insert_heap worse h v) w <-> mem h w \/ w = v).
Proof.
  intros worse h v H Hv. unfold insert_heap.
  pose proof (insert_raw_spec h v H Hv) as S.
  destruct (heap_insert_raw h v) as [h1 i]. destruct S as (S1 & S2 & S3 & S4 & S5).
  pose proof S1 as (_ & _ & L).
  destruct (percolate_up_spec worse h1 i S1 ltac:(lia)) as [P1 P2].
  split; auto. split; [destruct P2; congruence|].
  intros w. rewrite <- S5. apply (perm_upto_mem i); auto; lia.
Qed.

Lemma update_heap_spec : forall worse h v, WF h -> 1 <= v <= cap h ->
  WF (update_heap worse h v) /\ cap (update_heap worse h v) = cap h /\
  (forall w, mem (update_heap worse h v) w <-> mem h w).
Proof.
  intros worse h v H Hv. unfold update_heap, heap_contains.
  pose proof H as (_ & B & L). destruct (B v Hv).
  destruct (Nat.leb_spec (ix h v) (ix h 0)); [|intuition].
  destruct (percolate_up_spec worse h (ix h v) H ltac:(lia)) as [P1 P2].
  split; auto. split; [apply P2|]. intros w. apply (perm_upto_mem (ix h v)); auto.
Qed.

(** removing the element at position [i] by swapping with the last *)
Lemma remove_at : forall h i, WF h -> 1 <= i <= ix h 0 ->
  let h1 := swapped h (ix h 0) i (hp h (ix h 0)) (hp h i) (ix h 0 - 1) in
  WF h1 /\ cap h1 = cap h /\ ix h1 0 = ix h 0 - 1 /\
  (forall w, mem h1 w <-> mem h w /\ w <> hp h i).
Proof.
  intros h i H Hi. pose proof H as (A & B & C). cbv zeta.
  destruct (swapped_WF h (ix h 0) i (hp h (ix h 0)) (hp h i) (ix h 0 - 1))
      as (S1 & S2 & S3 & S4 & S5); auto; try lia.
  set (h1 := swapped h (ix h 0) i (hp h (ix h 0)) (hp h i) (ix h 0 - 1)) in *.
  assert (Hc : cap h1 = cap h) by reflexivity.
  destruct (A (ix h 0) ltac:(lia)) as [P1 P2]. destruct (A i ltac:(lia)) as [Q1 Q2].
  splits; auto. intros w; split.
  - intros [M1 M2]. rewrite S2 in M2. rewrite Hc in M1.
    destruct (Nat.eq_dec w (hp h i)) as [->|N].
    { rewrite S4 in M2. lia. }
    destruct (Nat.eq_dec w (hp h (ix h 0))) as [->|N2]; [unfold mem; lia|].
    rewrite S5 in M2 by lia. unfold mem; lia.
  - intros [[M1 M3] N]. split; [rewrite Hc; auto|]. rewrite S2.
    destruct (Nat.eq_dec w (hp h (ix h 0))) as [->|N2].
    + rewrite S3. destruct (Nat.eq_dec i (ix h 0)) as [E|]; [rewrite E in N; congruence|lia].
    + rewrite S5 by lia. destruct (Nat.eq_dec (ix h w) (ix h 0)) as [e|]; [|lia].
      exfalso. apply N2. rewrite <- e. symmetry. apply B. auto.
Qed.

Lemma get_heap_root_spec : forall worse h, WF h -> 1 <= ix h 0 ->
  let '(h1, v) := get_heap_root worse h in
  WF h1 /\ cap h1 = cap h /\ ix h1 0 = ix h 0 - 1 /\ v = hp h 1 /\ mem h v /\
  (forall w, mem h1 w <-> mem h w /\ w <> v).
Proof.
  intros worse h H Hn. unfold get_heap_root, get_root_raw.
  pose proof H as (A & _ & C). destruct (A 1 ltac:(lia)) as [Q1 Q2].
  destruct (A (ix h 0) ltac:(lia)) as [P1 P2].
  set (h0 := swap_ix (swap_hp h (ix h 0) 1) (hp h (ix h 0)) (hp h 1)).
  assert (E0 : ix h0 0 = ix h 0).
  { unfold h0. cbn [swap_ix swap_hp ix]. rewrite !upd_other by lia. auto. }
  rewrite E0.
  pose proof (remove_at h 1 H ltac:(lia)) as R. cbv zeta in R.
  unfold swapped in R. fold h0 in R.
  set (h1 := set_ix h0 0 (ix h 0 - 1)) in *. destruct R as (R1 & R2 & R3 & R4).
  assert (M : mem h (hp h 1)) by (split; lia).
  unfold heap_len. destruct (Nat.ltb_spec 1 (ix h1 0)) as [L|L].
  - destruct (percolate_down_spec worse h1 1 R1 ltac:(lia)) as [D1 D2].
    unfold heap_len in D2.
    split; auto. split; [destruct D2; congruence|]. split; [destruct D2 as (_ & D & _); congruence|].
    split; auto. split; auto. intros w. rewrite <- R4.
    apply (perm_upto_mem (Nat.max 1 (ix h1 0))); auto. lia.
  - splits; auto.
Qed.

Lemma remove_from_heap_spec : forall worse h v, WF h -> 1 <= v <= cap h ->
  WF (remove_from_heap worse h v) /\ cap (remove_from_heap worse h v) = cap h /\
  (forall w, mem (remove_from_heap worse h v) w <-> mem h w /\ w <> v).
Proof.
  intros worse h v H Hv. unfold remove_from_heap, heap_remove_raw.
  pose proof H as (A & B & C). destruct (B v Hv) as [B1 B2].
  destruct (Nat.ltb_spec (ix h 0) (ix h v)) as [L|L].
  - splits; auto. intros w; split; [|tauto]. intros M; split; auto. intros ->. destruct M. lia.
  - set (h0 := swap_ix (swap_hp h (ix h 0) (ix h v)) (hp h (ix h 0)) v).
    destruct (A (ix h 0) ltac:(lia)) as [P1 P2].
    assert (E0 : ix h0 0 = ix h 0).
    { unfold h0. cbn [swap_ix swap_hp ix]. rewrite !upd_other by lia. auto. }
    rewrite E0.
    pose proof (remove_at h (ix h v) H ltac:(lia)) as R. cbv zeta in R.
    rewrite B2 in R. unfold swapped in R. fold h0 in R.
    set (h1 := set_ix h0 0 (ix h 0 - 1)) in *. destruct R as (R1 & R2 & R3 & R4).
    destruct (Nat.ltb_spec 1 (ix h1 0)) as [L1|L1].
    + destruct (percolate_down_spec worse h1 (ix h v) R1 ltac:(lia)) as [D1 D2].
      split; auto. split; [destruct D2; congruence|].
      intros w. rewrite <- R4. unfold heap_len in D2.
      destruct (Nat.eq_dec (ix h v) (ix h 0)) as [Elast|Nlast].
      * (* the removed element was the last one: nothing moves *)
        assert (Enop : perm_upto (ix h1 0) h1 (percolate_down worse h1 (ix h v))).
        { unfold percolate_down, heap_len. cbn [down_loop]. cbv zeta.
          destruct (Nat.ltb_spec (2 * ix h v) (ix h1 0)); [lia|].
          apply fill_self_perm; auto. }
        apply (perm_upto_mem (ix h1 0)); auto.
      * apply (perm_upto_mem (Nat.max (ix h v) (ix h1 0))); auto. lia.
    + split; auto.
Qed.

(** ** Histories *)
(** One operation on the decision heap, with the activity comparison in force at
    that moment. *)
Inductive hop :=
| HInsert (worse : nat -> nat -> bool) (v : nat)
| HUpdate (worse : nat -> nat -> bool) (v : nat)
| HRoot (worse : nat -> nat -> bool)
| HRemove (worse : nat -> nat -> bool) (v : nat)
| HRebuild (worse : nat -> nat -> bool) (free : nat -> bool)
| HExpand.

Definition hstep (h : vheap) (o : hop) : vheap :=
  match o with
  | HInsert w v => insert_heap w h v
  | HUpdate w v => update_heap w h v
  | HRoot w => fst (get_heap_root w h)
  | HRemove w v => remove_from_heap w h v
  | HRebuild w f => rebuild_order w f h
  | HExpand => expand_heap h
  end.

Lemma rebuild_spec : forall worse free h, WF h ->
  WF (rebuild_order worse free h) /\ cap (rebuild_order worse free h) = cap h /\
  (forall v, mem (rebuild_order worse free h) v <-> 1 <= v <= cap h /\ free v = true).
Proof.
  intros worse free h H. unfold rebuild_order.
  destruct (heap_clear_WF h H) as [W0 L0].
  assert (G : forall l h0, WF h0 -> (forall v, In v l -> 1 <= v <= cap h0) ->
    let r := fold_left (fun h vi => if free vi then insert_heap worse h vi else h) l h0 in
    WF r /\ cap r = cap h0 /\
    (forall v, mem r v <-> mem h0 v \/ (In v l /\ free v = true))).
  { induction l as [|x l IH]; intros h0 Hw Hl; cbn [fold_left].
    - simpl. split; auto. split; auto. intros; tauto.
    - destruct (free x) eqn:E.
      + destruct (insert_heap_spec worse h0 x Hw (Hl x (or_introl eq_refl))) as (A & B & C).
        destruct (IH (insert_heap worse h0 x) A) as (D & F & G').
        { intros v Hv. rewrite B. apply Hl. now right. }
        split; auto. split; [congruence|]. intros v. rewrite G', C. simpl.
        split; intros Q; [destruct Q as [[Q| ->]|Q]; tauto|]. destruct Q as [Q|[[ <- |Q] Q2]]; tauto.
      + destruct (IH h0 Hw) as (D & F & G'). { intros; apply Hl; now right. }
        split; auto. split; auto. intros v. rewrite G'. simpl. split; intros; [tauto|].
        intuition (subst; congruence). }
  destruct (G (seq 1 (cap h)) (heap_clear h) W0) as (A & B & C).
  { intros v Hv. apply in_seq in Hv. cbn. lia. }
  split; auto. split; [auto|]. intros v. rewrite C, in_seq. unfold mem at 1. rewrite L0.
  destruct W0 as (_ & W2 & _). split.
  - intros [[M1 M2]|[M1 M2]]; [|split; auto; lia]. destruct (W2 v M1). lia.
  - intros [M1 M2]. right. split; auto. lia.
Qed.
