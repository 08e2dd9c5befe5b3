(** C37, C38, C39 and part of C46: the decision heap and the elimination queue. *)
From Coq Require Import List Arith Bool Lia ZArith.
From Verif Require Import Base HeapModel HeapProofs HeapOrder.
Import ListNotations.

(** * Independent specification: a container of variables under a history *)

(** What is visible from outside: the variables stored in positions 1..len. *)
Definition contents (h : vheap) : list nat := map (hp h) (seq 1 (heap_len h)).

(** What an operation does to an abstract set of candidates. *)
Inductive event :=
| Added (v : nat) | Dropped (v : nat) | Reset (keep : nat -> bool) | Nothing.

(** candidates after a history of events, oldest first, starting from [s] and with
    variables numbered 1..n *)
Fixpoint tracked (s : nat -> Prop) (evs : list (nat * event)) : nat -> Prop :=
  match evs with
  | [] => s
  | (n, e) :: evs' =>
    tracked (match e with
             | Added v => fun w => s w \/ w = v
             | Dropped v => fun w => s w /\ w <> v
             | Reset keep => fun w => 1 <= w <= n /\ keep w = true
             | Nothing => s
             end) evs'
  end.

(** the events caused by running [ops] on [h]; a pop reports the variable returned *)
Fixpoint events (h : vheap) (ops : list hop) : list (nat * event) :=
  match ops with
  | [] => []
  | o :: ops' =>
    (cap h, match o with
            | HInsert _ v => Added v
            | HUpdate _ _ => Nothing
            | HRoot w => Dropped (snd (get_heap_root w h))
            | HRemove _ v => Dropped v
            | HRebuild _ f => Reset f
            | HExpand => Nothing
            end) :: events (hstep h o) ops'
  end.

(** documented preconditions: existing variables, and no pop from an empty heap *)
Fixpoint legal (h : vheap) (ops : list hop) : Prop :=
  match ops with
  | [] => True
  | o :: ops' =>
    match o with
    | HInsert _ v | HUpdate _ v | HRemove _ v => 1 <= v <= cap h
    | HRoot _ => contents h <> []
    | _ => True
    end /\ legal (hstep h o) ops'
  end.

Definition run (h : vheap) (ops : list hop) : vheap := fold_left hstep ops h.

Lemma mem_contents : forall h v, WF h -> (In v (contents h) <-> mem h v).
Proof.
  intros h v (A & B & C). unfold contents, heap_len. rewrite in_map_iff. split.
  - intros (i & <- & Hi). apply in_seq in Hi. destruct (A i ltac:(lia)) as [A1 A2].
    split; auto. lia.
  - intros [M1 M2]. exists (ix h v). destruct (B v M1). split; auto. apply in_seq. lia.
Qed.

Lemma contents_NoDup : forall h, WF h -> NoDup (contents h).
Proof.
  intros h (A & B & C). unfold contents, heap_len.
  assert (G : forall l, NoDup l -> (forall i, In i l -> 1 <= i <= cap h) -> NoDup (map (hp h) l)).
  { induction l; simpl; intros ND Hl; constructor; inversion ND; subst.
    - rewrite in_map_iff. intros (j & E & Hj). apply H1.
      destruct (A j (Hl j (or_intror Hj))) as [_ E1].
      destruct (A a (Hl a (or_introl eq_refl))) as [_ E2]. congruence.
    - apply IHl; auto. }
  apply G; [apply seq_NoDup|]. intros i Hi. apply in_seq in Hi. lia.
Qed.

Lemma contents_nonempty : forall h, contents h <> [] -> 1 <= ix h 0.
Proof.
  intros h H. unfold contents, heap_len in H. destruct (ix h 0); [exfalso; apply H; reflexivity|lia].
Qed.

Lemma run_invariant : forall ops h s, WF h -> legal h ops -> (forall v, mem h v <-> s v) ->
  WF (run h ops) /\ (forall v, mem (run h ops) v <-> tracked s (events h ops) v).
Proof.
  induction ops as [|o ops IH]; intros h s H L E; cbn [run fold_left events tracked legal] in *; auto.
  destruct L as [L1 L2].
  fold (run (hstep h o) ops).
  destruct o as [w v|w v|w|w v|w f|]; cbn [hstep] in *.
  - destruct (insert_heap_spec w h v H L1) as (A & _ & B).
    apply IH; auto. intros x. rewrite B, E. tauto.
  - destruct (update_heap_spec w h v H L1) as (A & _ & B).
    apply IH; auto. intros x. rewrite B. apply E.
  - pose proof (get_heap_root_spec w h H (contents_nonempty h L1)) as G.
    destruct (get_heap_root w h) as [h1 r] eqn:Eg. cbn [fst snd] in *.
    destruct G as (A & _ & _ & _ & _ & B).
    apply IH; auto. intros x. rewrite B, E. tauto.
  - destruct (remove_from_heap_spec w h v H L1) as (A & _ & B).
    apply IH; auto. intros x. rewrite B, E. tauto.
  - destruct (rebuild_spec w f h H) as (A & _ & B). apply IH; auto.
  - apply IH; auto; [now apply expand_WF|]. intros v. rewrite <- E.
    pose proof H as (A & B & C).
    unfold mem, expand_heap; cbn [ix cap]. rewrite (upd_other (ix h) _ (i:=0)) by lia.
    destruct (Nat.eq_dec v (cap h + 1)) as [->|N].
    + rewrite upd_same. lia.
    + rewrite upd_other by lia. lia.
Qed.

(** C37 (container part). Any history of insert, key update, pop, removal, rebuild and
    growth, with arbitrary (possibly inconsistent, changing) activity comparisons:
    the heap holds exactly the tracked candidates, each once, and the membership test
    agrees. *)
Theorem C37_membership : forall n ops,
  legal (heap_new n n) ops ->
  let h := run (heap_new n n) ops in
  NoDup (contents h) /\
  (forall v, In v (contents h) <-> tracked (fun w => 1 <= w <= n) (events (heap_new n n) ops) v) /\
  (forall v, 1 <= v <= cap h -> (heap_contains h v = true <-> In v (contents h))).
Proof.
  intros n ops L h.
  destruct (run_invariant ops (heap_new n n) (fun w => 1 <= w <= n) (heap_new_WF n n (le_n n)) L)
    as [W M].
  { intros v. unfold mem, heap_new; cbn. destruct (Nat.eqb_spec v 0); lia. }
  fold h in W, M. split; [now apply contents_NoDup|]. split.
  - intros v. rewrite mem_contents by auto. apply M.
  - intros v Hv. rewrite mem_contents by auto. unfold heap_contains, mem.
    rewrite Nat.leb_le. tauto.
Qed.

Lemma select_var_spec : forall worse free k h, WF h -> ix h 0 <= k ->
  (exists v, mem h v /\ free v = true) ->
  exists h' vi, select_var worse free k h = Some (h', vi) /\ WF h' /\ mem h vi /\ free vi = true /\
    cap h' = cap h /\
    (forall w, mem h' w -> mem h w /\ w <> vi) /\
    (forall w, mem h w -> w <> vi -> free w = true -> mem h' w).
Proof.
  induction k as [|k IH]; intros h H Hk (v & Mv & Fv).
  { exfalso. destruct Mv as [M1 M2]. destruct H as (_ & B & _). destruct (B v M1). lia. }
  cbn [select_var].
  assert (Hn : 1 <= ix h 0).
  { destruct Mv as [M1 M2]. destruct H as (_ & B & _). destruct (B v M1). lia. }
  pose proof (get_heap_root_spec worse h H Hn) as G.
  destruct (get_heap_root worse h) as [h1 r]. destruct G as (A & A0 & A1 & A2 & A3 & A4).
  destruct (free r) eqn:Er.
  - exists h1, r. splits; auto. { intros w M. now apply A4. } intros w M N F. now apply A4.
  - destruct (IH h1 A ltac:(lia)) as (h' & vi & S1 & S2 & S3 & S4 & S0 & S5 & S6).
    { exists v. split; auto. apply A4. split; auto. congruence. }
    exists h', vi. split; auto. split; auto. split; [apply A4; auto|]. split; auto.
    split; [congruence|]. split.
    + intros w M. destruct (S5 w M) as [P Q]. split; auto. apply A4; auto.
    + intros w M N F. apply S6; auto. apply A4. split; auto. congruence.
Qed.

(** C37 (selection). If some candidate is free (unassigned, not eliminated), selection
    terminates and returns a free candidate, and every other free candidate is still a
    candidate afterwards. *)
Theorem C37_selection : forall n ops worse free,
  legal (heap_new n n) ops ->
  let h := run (heap_new n n) ops in
  (exists v, In v (contents h) /\ free v = true) ->
  exists h' vi, select_var worse free (length (contents h)) h = Some (h', vi) /\
    In vi (contents h) /\ free vi = true /\
    NoDup (contents h') /\ ~ In vi (contents h') /\
    (forall w, In w (contents h') -> In w (contents h)) /\
    (forall w, In w (contents h) -> w <> vi -> free w = true -> In w (contents h')).
Proof.
  intros n ops worse free L h (v & Hv & Fv).
  destruct (run_invariant ops (heap_new n n) (fun w => 1 <= w <= n) (heap_new_WF n n (le_n n)) L)
    as [W _].
  { intros w. unfold mem, heap_new; cbn. destruct (Nat.eqb_spec w 0); lia. }
  fold h in W.
  assert (Hl : length (contents h) = ix h 0)
    by (unfold contents; now rewrite map_length, seq_length).
  destruct (select_var_spec worse free (length (contents h)) h W ltac:(lia))
    as (h' & vi & S1 & S2 & S3 & S4 & _ & S5 & S6).
  { exists v. split; auto. now apply mem_contents. }
  exists h', vi. split; auto.
  split; [now apply mem_contents|]. split; auto. split; [now apply contents_NoDup|].
  split. { rewrite mem_contents by auto. intros M. destruct (S5 vi M). congruence. }
  split.
  - intros w Hw. apply mem_contents; auto. apply mem_contents in Hw; auto. now apply S5.
  - intros w Hw N F. apply mem_contents; auto. apply mem_contents in Hw; auto.
Qed.

(** concrete history meeting the hypotheses *)
Definition ex_key (v : nat) : Z := nth v [0; 3; 2; 1; 9; 4]%Z 0%Z.
Definition ex_ops : list hop :=
  [HRebuild (lt_key ex_key) (fun v => negb (v =? 5)); HRoot (lt_key ex_key);
   HRemove (lt_key ex_key) 2; HInsert (lt_key ex_key) 5; HExpand; HUpdate (lt_key ex_key) 3].
Example C37_example : legal (heap_new 5 5) ex_ops /\
  contents (run (heap_new 5 5) ex_ops) = [5; 3; 1] /\
  exists v, In v (contents (run (heap_new 5 5) ex_ops)) /\ Nat.even v = false.
Proof.
  split; [|split]; [|vm_compute; reflexivity|].
  - cbn [legal ex_ops]. change (cap (heap_new 5 5)) with 5.
    repeat match goal with |- _ /\ _ => split | |- True => exact I end;
    try (vm_compute; discriminate); apply Nat.leb_le; vm_compute; reflexivity.
  - exists 5. split; [vm_compute; auto|reflexivity].
Qed.

(** * C38 *)

(** a pop returns the head of the contents *)
Lemma root_is_first : forall worse h, snd (get_heap_root worse h) = hp h 1.
Proof. intros. unfold get_heap_root, get_root_raw. reflexivity. Qed.

(** Histories without pops and removals: rebuilds, insertions and key increases.
    [key] is the activity in force at each moment. *)
Inductive grown (n : nat) : (nat -> Z) -> vheap -> Prop :=
| g_rebuild key free h : WF h -> cap h = n -> grown n key (rebuild_order (lt_key key) free h)
| g_insert key h v : grown n key h -> 1 <= v <= n -> grown n key (insert_heap (lt_key key) h v)
| g_bump key key' h v : grown n key h -> 1 <= v <= n ->
    (forall w, w <> v -> key' w = key w) -> (key v <= key' v)%Z ->
    grown n key' (update_heap (lt_key key') h v).

(** C38, proved part: as long as nothing has been popped or removed since the last
    rebuild, the candidate that the next pop returns is one of maximal activity.
    Missing: histories with pops, for which the claim is false, see below. *)
Theorem C38_root_is_max_partial : forall n key h,
  grown n key h -> contents h <> [] ->
  In (snd (get_heap_root (lt_key key) h)) (contents h) /\
  (forall w, In w (contents h) -> (key w <= key (snd (get_heap_root (lt_key key) h)))%Z).
Proof.
  intros n key h G Hn.
  assert (I : WF h /\ cap h = n /\ ordered key h).
  { clear Hn. induction G as [key free h W C|key h v G IH Hv|key key' h v G IH Hv K1 K2].
    - destruct (rebuild_spec (lt_key key) free h W) as (A & B & _).
      split; auto. split; [congruence|]. now apply ordered_rebuild.
    - destruct IH as (A & B & C).
      destruct (insert_heap_spec (lt_key key) h v A ltac:(lia)) as (D & E & _).
      split; auto. split; [congruence|]. apply ordered_insert; auto; lia.
    - destruct IH as (A & B & C).
      destruct (update_heap_spec (lt_key key') h v A ltac:(lia)) as (D & E & _).
      split; auto. split; [congruence|]. eapply ordered_update; eauto; lia. }
  destruct I as (W & C & O). rewrite root_is_first.
  pose proof (contents_nonempty h Hn) as L. pose proof W as (A & _ & _).
  unfold contents, heap_len. split.
  - apply in_map. apply in_seq. lia.
  - intros w Hw. apply in_map_iff in Hw. destruct Hw as (i & <- & Hi). apply in_seq in Hi.
    apply ordered_root_max; auto. lia.
Qed.

Example C38_example : grown 3 ex_key (insert_heap (lt_key ex_key)
    (rebuild_order (lt_key ex_key) (fun v => negb (v =? 2)) (heap_new 3 3)) 2) /\
  contents (insert_heap (lt_key ex_key)
    (rebuild_order (lt_key ex_key) (fun v => negb (v =? 2)) (heap_new 3 3)) 2) = [1; 3; 2].
Proof.
  split; [|vm_compute; reflexivity].
  apply g_insert; [|lia]. apply g_rebuild; [apply heap_new_WF; lia|reflexivity].
Qed.

(** C38 is false in general: activities 3 > 2 > 1 for variables 1, 2, 3; after a
    rebuild and one pop the next pop returns variable 3 although variable 2, of higher
    activity, is a candidate. ([percolate_down] compares [l < n], assign/heap.rs:132,
    and so never looks at the last element.) *)
Theorem C38_refuted : exists (key : nat -> Z) (h : vheap) (w : nat),
  h = run (heap_new 3 3) [HRebuild (lt_key key) (fun _ => true); HRoot (lt_key key)] /\
  In w (contents h) /\
  (key (snd (get_heap_root (lt_key key) h)) < key w)%Z.
Proof.
  exists ex_key. eexists. exists 2. split; [reflexivity|]. split; vm_compute; auto.
Qed.

(** * C39: the elimination queue *)

(** operations on the queue with its ENQUEUED flags *)
Inductive qop :=
| QEnqueue (worse : nat -> nat -> bool) (low : nat -> bool) (v : nat) (upward : bool)
| QDequeue (worse : nat -> nat -> bool) (elim : nat -> bool)
| QClear.

Definition qstep (s : vheap * (nat -> bool)) (o : qop) : vheap * (nat -> bool) :=
  match o with
  | QEnqueue w l v u => enqueue_var w l s v u
  | QDequeue w e => fst (dequeue_var w e s)
  | QClear => occ_clear (fst s) (snd s)
  end.
Definition qlegal (n : nat) (o : qop) : Prop :=
  match o with QEnqueue _ _ v _ => 1 <= v <= n | _ => True end.

Lemma occ_insert_spec : forall worse h v u, WF h -> 1 <= v <= cap h ->
  WF (occ_insert worse h v u) /\ cap (occ_insert worse h v u) = cap h /\
  (forall w, mem (occ_insert worse h v u) w <-> mem h w \/ w = v).
Proof.
  intros worse h v u H Hv. pose proof (insert_heap_spec worse h v H Hv) as I.
  unfold occ_insert. unfold insert_heap, heap_insert_raw in *.
  unfold heap_contains in *. pose proof H as (_ & B & C). destruct (B v Hv) as [B1 B2].
  destruct (Nat.leb_spec (ix h v) (ix h 0)) as [L|L]; [|exact I].
  destruct u; [exact I|].
  destruct (percolate_down_spec worse h (ix h v) H ltac:(lia)) as [D1 D2].
  split; auto. split; [apply D2|]. intros w.
  rewrite (perm_upto_mem _ _ _ D2) by (unfold heap_len; lia).
  split; auto. intros [M| ->]; auto. split; auto.
Qed.

Lemma occ_select_spec : forall worse elim k h, WF h -> ix h 0 < k ->
  exists h' r, occ_select_var worse elim k h = Some (h', r) /\ WF h' /\ cap h' = cap h /\
    (forall w, mem h' w -> mem h w) /\
    match r with
    | Some v => mem h v /\ elim v = false /\ ~ mem h' v /\
                (forall w, mem h w -> w <> v -> elim w = false -> mem h' w)
    | None => (forall w, mem h w -> elim w = true) /\ (forall w, ~ mem h' w)
    end.
Proof.
  induction k as [|k IH]; intros h H Hk; [lia|].
  cbn [occ_select_var]. unfold occ_get_root. destruct (Nat.eqb_spec (ix h 0) 0) as [E|E].
  - rewrite Nat.eqb_refl. exists h, None.
    assert (N : forall w, ~ mem h w).
    { intros w [M1 M2]. destruct H as (_ & B & _). destruct (B w M1). lia. }
    splits; auto. intros w M. destruct (N w M).
  - pose proof (get_heap_root_spec worse h H ltac:(lia)) as G.
    destruct (get_heap_root worse h) as [h1 r]. destruct G as (A & A0 & A1 & A2 & A3 & A4).
    destruct (Nat.eqb_spec r 0) as [Er|Er]; [destruct A3; lia|].
    destruct (elim r) eqn:El.
    + destruct (IH h1 A ltac:(lia)) as (h' & r' & S1 & S2 & S3 & S4 & S5).
      exists h', r'. split; auto. split; auto. split; [congruence|].
      split; [intros w M; apply A4; auto|].
      destruct r' as [v|].
      * destruct S5 as (T1 & T2 & T3 & T4). split; [apply A4; auto|]. split; auto. split; auto.
        intros w M N F. apply T4; auto. apply A4. split; auto. congruence.
      * destruct S5 as [T1 T2]. split; auto. intros w M.
        destruct (Nat.eq_dec w r) as [->|N]; auto. apply T1. apply A4; auto.
    + exists h1, (Some r). split; auto. split; auto. split; auto.
      split; [intros w M; apply A4; auto|]. split; auto. split; auto. split.
      * intros M. apply A4 in M. tauto.
      * intros w M N _. apply A4; auto.
Qed.

Lemma clear_flags_off : forall (h : vheap) l enq v,
  fold_left (fun e i => upd e (hp h i) false) l enq v = true -> enq v = true.
Proof.
  induction l; simpl; intros enq v H; auto. apply IHl in H. unfold upd in H.
  destruct (Nat.eqb_spec v (hp h a)); congruence.
Qed.

Lemma clear_flags_other : forall (h : vheap) l enq v,
  (forall i, In i l -> hp h i <> v) ->
  fold_left (fun e i => upd e (hp h i) false) l enq v = enq v.
Proof.
  induction l; simpl; intros enq v H; auto. rewrite IHl by (intros; apply H; auto).
  apply upd_other. intros E. apply (H a); auto.
Qed.

Lemma qrun_invariant : forall n ops s,
  WF (fst s) -> cap (fst s) = n -> (forall v, mem (fst s) v -> snd s v = true) ->
  Forall (qlegal n) ops ->
  let s' := fold_left qstep ops s in
  WF (fst s') /\ cap (fst s') = n /\ (forall v, mem (fst s') v -> snd s' v = true).
Proof.
  induction ops as [|o ops IH]; intros [h enq] H C F L; cbn [fold_left]; auto.
  inversion L as [|? ? L1 L2]; subst. cbn [fst snd] in *.
  apply IH; auto; clear IH; destruct o as [w low v u|w e|]; cbn [qstep qlegal] in *.
  - unfold enqueue_var. destruct (negb (enq v) && low v); auto. now apply occ_insert_spec.
  - unfold dequeue_var. destruct (occ_select_spec w e (S (heap_len h)) h H) as (h' & r & S1 & S2 & S3 & S4 & S5).
    { unfold heap_len; lia. } rewrite S1. destruct r; auto.
  - now apply heap_clear_WF.
  - unfold enqueue_var. destruct (negb (enq v) && low v); auto. now apply occ_insert_spec.
  - unfold dequeue_var. destruct (occ_select_spec w e (S (heap_len h)) h H) as (h' & r & S1 & S2 & S3 & S4 & S5).
    { unfold heap_len; lia. } rewrite S1. destruct r; auto.
  - reflexivity.
  - unfold enqueue_var. destruct (negb (enq v) && low v); cbn [fst snd]; auto.
    destruct (occ_insert_spec w h v u H L1) as (_ & _ & M).
    intros x Mx. apply M in Mx. destruct (Nat.eq_dec x v) as [->|N]; [apply upd_same|].
    rewrite upd_other by auto. destruct Mx as [Mx|Mx]; auto.
  - unfold dequeue_var. destruct (occ_select_spec w e (S (heap_len h)) h H) as (h' & r & S1 & S2 & S3 & S4 & S5).
    { unfold heap_len; lia. } rewrite S1. destruct r as [v|]; cbn [fst snd]; auto.
    intros x Mx. destruct S5 as (T1 & T2 & T3 & T4).
    rewrite upd_other; auto. intros ->. auto.
  - intros v [M1 M2]. destruct (heap_clear_WF h H) as [(_ & B & _) E].
    unfold occ_clear in *; cbn [fst] in *. destruct (B v M1). lia.
Qed.

(** C39, container part: any history of enqueues, dequeues and clears starting from the
    empty queue keeps the queue duplicate free, the membership test exact, and every
    queued variable flagged; selection returns a queued variable that is not eliminated
    and loses no other non-eliminated one; clear empties the queue. *)
Theorem C39_queue_partial : forall n ops,
  Forall (qlegal n) ops ->
  let s := fold_left qstep ops (heap_new n 0, fun _ => false) in
  let h := fst s in
  NoDup (contents h) /\
  (forall v, 1 <= v <= n -> (heap_contains h v = true <-> In v (contents h))) /\
  (forall v, In v (contents h) -> 1 <= v <= n /\ snd s v = true) /\
  (forall worse low v upward, 1 <= v <= n -> snd s v = false -> low v = true ->
     forall w, In w (contents (fst (enqueue_var worse low s v upward))) <->
               In w (contents h) \/ w = v) /\
  (forall worse elim, let '(s', r) := dequeue_var worse elim s in
     (forall w, In w (contents (fst s')) -> In w (contents h)) /\
     match r with
     | Some v => In v (contents h) /\ elim v = false /\ ~ In v (contents (fst s')) /\
                 snd s' v = false /\
                 (forall w, In w (contents h) -> w <> v -> elim w = false ->
                            In w (contents (fst s')))
     | None => (forall w, In w (contents h) -> elim w = true) /\ contents (fst s') = []
     end) /\
  contents (fst (occ_clear h (snd s))) = [].
Proof.
  intros n ops L s h.
  destruct (qrun_invariant n ops (heap_new n 0, fun _ => false)) as (W & C & F); auto.
  { apply heap_new_WF. lia. }
  { intros v [M1 M2]. cbn in *. destruct (Nat.eqb_spec v 0); lia. }
  fold s in W, C, F. fold h in W, C, F.
  split; [now apply contents_NoDup|]. split; [|split; [|split; [|split]]].
  - intros v Hv. rewrite mem_contents by auto. unfold heap_contains, mem.
    rewrite Nat.leb_le. rewrite C. tauto.
  - intros v Hv. apply mem_contents in Hv; auto. split; auto. destruct Hv as [Hv _]. lia.
  - intros worse low v u Hv Ef El w. unfold enqueue_var.
    destruct s as [h0 enq]; cbn [fst snd] in *. rewrite Ef, El. cbn [negb andb fst].
    destruct (occ_insert_spec worse h0 v u W ltac:(subst h; lia)) as (A & _ & M).
    rewrite !mem_contents by auto. apply M.
  - intros worse elim. unfold dequeue_var. destruct s as [h0 enq]; cbn [fst snd] in *. subst h.
    destruct (occ_select_spec worse elim (S (heap_len h0)) h0 W) as (h' & r & S1 & S2 & S3 & S4 & S5).
    { unfold heap_len; lia. } rewrite S1.
    destruct r as [v|]; cbn [fst snd].
    + destruct S5 as (T1 & T2 & T3 & T4). splits; auto.
      * intros w. rewrite !mem_contents by auto. apply S4.
      * now apply mem_contents.
      * rewrite mem_contents; auto.
      * apply upd_same.
      * intros w. rewrite !mem_contents by auto. apply T4.
    + destruct S5 as [T1 T2]. splits; auto.
      * intros w. rewrite !mem_contents by auto. apply S4.
      * intros w. rewrite mem_contents by auto. apply T1.
      * destruct (contents h') as [|x l] eqn:E; auto. exfalso.
        apply (T2 x). apply mem_contents; auto. rewrite E. now left.
  - reflexivity.
Qed.

Example C39_example :
  let w := fun a b => Nat.ltb (nth b [0;3;2;1] 0) (nth a [0;3;2;1] 0) in
  let ops := [QEnqueue w (fun _ => true) 1 true; QEnqueue w (fun _ => true) 2 true;
              QEnqueue w (fun _ => true) 3 true; QDequeue w (fun _ => false)] in
  Forall (qlegal 3) ops /\
  contents (fst (fold_left qstep ops (heap_new 3 0, fun _ => false))) = [2; 1].
Proof. split; [repeat (apply Forall_cons; [cbn; lia|]); try apply Forall_nil|vm_compute; reflexivity]. Qed.

(** C39 is false for the flag: enqueue one variable, clear the queue; the queue is
    empty, the variable is still flagged ENQUEUED, so that enqueueing it again does
    nothing: it is never again considered for elimination by this route.
    ([clear] walks [heap[0..len]] instead of [heap[1..=len]].) *)
Theorem C39_flag_refuted : forall n worse low v, 1 <= v <= n -> low v = true ->
  let s1 := enqueue_var worse low (heap_new n 0, fun _ => false) v true in
  let s2 := occ_clear (fst s1) (snd s1) in
  contents (fst s1) = [v] /\ contents (fst s2) = [] /\ snd s2 v = true /\
  forall worse' low' upward, enqueue_var worse' low' s2 v upward = s2.
Proof.
  intros n worse low v Hv Hl s1 s2.
  assert (E1 : s1 = (occ_insert worse (heap_new n 0) v true, upd (fun _ : nat => false) v true)).
  { unfold s1, enqueue_var. cbn [negb andb]. now rewrite Hl. }
  unfold s2. rewrite E1. clear s2 E1. cbn [fst snd].
  assert (H0 : WF (heap_new n 0)) by (apply heap_new_WF; lia).
  destruct (occ_insert_spec worse (heap_new n 0) v true H0 Hv) as (A & B & M).
  set (h1 := occ_insert worse (heap_new n 0) v true) in *.
  assert (M' : forall w, mem h1 w <-> w = v).
  { intros w. rewrite M. split; auto. intros [[P Q]|P]; auto. cbn in *.
    destruct (Nat.eqb_spec w 0); lia. }
  assert (Hone : ix h1 0 = 1).
  { pose proof A as (A1 & A2 & A3).
    destruct (proj2 (M' v) eq_refl) as [P Q]. destruct (A2 v P).
    destruct (Nat.eq_dec (ix h1 0) 1); auto.
    assert (E1 : hp h1 1 = v). { apply M'. destruct (A1 1 ltac:(lia)). split; auto. lia. }
    assert (E2 : hp h1 2 = v). { apply M'. destruct (A1 2 ltac:(lia)). split; auto. lia. }
    destruct (A1 1 ltac:(lia)) as [_ Q1]. destruct (A1 2 ltac:(lia)) as [_ Q2]. congruence. }
  assert (Hflag : snd (occ_clear h1 (upd (fun _ : nat => false) v true)) v = true).
  { unfold occ_clear; cbn [snd]. rewrite Hone. cbn [seq fold_left].
    rewrite upd_other; [apply upd_same|].
    intros E. assert (E0 : hp h1 0 = 0).
    { unfold h1, occ_insert. unfold heap_contains, heap_new; cbn [ix].
      destruct (Nat.eqb_spec v 0) as [->|Nv]; [lia|]. cbn [Nat.eqb].
      destruct (Nat.leb_spec v 0); [lia|]. unfold heap_insert_raw, heap_contains; cbn [ix].
      destruct (Nat.eqb_spec v 0); [lia|]. cbn [Nat.eqb]. destruct (Nat.leb_spec v 0); [lia|].
      cbn [Nat.add]. unfold percolate_up. cbn [up_loop]. cbv zeta.
      change (1 / 2) with 0. cbn [Nat.eqb].
      unfold set_ix, set_hp, swap_ix, swap_hp; cbn [hp]. rewrite !upd_other by lia. reflexivity. }
    rewrite E0 in E. lia. }
  splits.
  - unfold contents, heap_len. rewrite Hone. cbn [seq map]. f_equal.
    apply M'. destruct A as (A1 & _ & A3). destruct (A1 1 ltac:(lia)). split; auto. lia.
  - reflexivity.
  - exact Hflag.
  - intros worse' low' u. unfold enqueue_var.
    destruct (occ_clear h1 (upd (fun _ : nat => false) v true)) as [h2 e2]. cbn [snd] in Hflag.
    rewrite Hflag. reflexivity.
Qed.

(** C39 is false for the order: three variables with 1, 2 and 3 occurrences; after the
    first pop (variable with 1 occurrence) the second pop returns the variable with 3
    occurrences although one with 2 is queued. *)
Theorem C39_min_refuted : exists (occ : nat -> nat) (h : vheap) (w : nat),
  let worse := fun a b => occ b <? occ a in
  h = fst (occ_get_root worse
        (fold_left (fun h v => occ_insert worse h v true) [1; 2; 3] (heap_new 3 0))) /\
  In w (contents h) /\ occ w < occ (snd (occ_get_root worse h)).
Proof.
  exists (fun v => v). eexists. exists 2. cbv zeta.
  split; [reflexivity|]. split; vm_compute; auto.
Qed.

(** * C46, decision heap *)

(** Adding a variable does not change the candidates: in particular the new variable is
    not a candidate ... *)
Theorem C46_new_variable_not_candidate : forall n ops,
  legal (heap_new n n) ops ->
  let h := run (heap_new n n) ops in
  contents (expand_heap h) = contents h /\ cap (expand_heap h) = S (cap h) /\
  ~ In (S (cap h)) (contents (expand_heap h)).
Proof.
  intros n ops L h.
  destruct (run_invariant ops (heap_new n n) (fun w => 1 <= w <= n) (heap_new_WF n n (le_n n)) L)
    as [W _].
  { intros w. unfold mem, heap_new; cbn. destruct (Nat.eqb_spec w 0); lia. }
  fold h in W. pose proof W as (A & B & C).
  assert (E : contents (expand_heap h) = contents h).
  { unfold contents, heap_len, expand_heap; cbn [ix hp].
    rewrite (upd_other (ix h)) by lia. apply map_ext_in. intros i Hi. apply in_seq in Hi.
    apply upd_other. lia. }
  split; auto. split; [cbn; lia|].
  rewrite E. intros I. apply mem_contents in I; auto. destruct I. lia.
Qed.

(** ... until the order is rebuilt (as [solve] does on start), after which it is. *)
Theorem C46_candidate_after_rebuild : forall n ops worse free,
  legal (heap_new n n) ops ->
  let h := run (heap_new n n) ops in
  forall v, In v (contents (rebuild_order worse free (expand_heap h))) <->
            1 <= v <= S (cap h) /\ free v = true.
Proof.
  intros n ops worse free L h v.
  destruct (run_invariant ops (heap_new n n) (fun w => 1 <= w <= n) (heap_new_WF n n (le_n n)) L)
    as [W _].
  { intros w. unfold mem, heap_new; cbn. destruct (Nat.eqb_spec w 0); lia. }
  fold h in W. apply expand_WF in W.
  destruct (rebuild_spec worse free (expand_heap h) W) as (A & B & M).
  rewrite mem_contents by auto. rewrite M. cbn [cap expand_heap]. 
  replace (cap h + 1) with (S (cap h)) by lia. tauto.
Qed.

Print Assumptions C37_membership.
Print Assumptions C37_selection.
Print Assumptions C38_root_is_max_partial.
Print Assumptions C38_refuted.
Print Assumptions C39_queue_partial.
Print Assumptions C39_flag_refuted.
Print Assumptions C39_min_refuted.
Print Assumptions C46_new_variable_not_candidate.
Print Assumptions C46_candidate_after_rebuild.
