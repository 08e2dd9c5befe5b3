(** Effect of every clause-database operation, and preservation of [DbInv]. *)
From Coq Require Import List Arith Bool Lia Permutation.
From Verif Require Import Base HeapModel AsgModel EmaModel EmaProofs LitFacts CdbModel CdbProofs.
Import ListNotations.

Lemma content_live : forall d c, dead d c = false <-> content d c <> [].
Proof. intros. unfold dead, content. destruct (lits (cl d c)); split; congruence. Qed.
Lemma content_dead : forall d c, dead d c = true <-> content d c = [].
Proof. intros. unfold dead, content. destruct (lits (cl d c)); split; congruence. Qed.
Section Ops.
Context {md : Mode}.

Lemma live_range : forall d c, DbInv d -> content d c <> [] -> 1 <= c < ncl d.
Proof.
  intros d c H Hc. split.
  - destruct c; [|lia]. elim Hc. apply (db_zero d H).
  - destruct (le_lt_dec (ncl d) c); auto. elim Hc. now apply (db_range d H).
Qed.
Lemma live_wf : forall d c, DbInv d -> content d c <> [] -> wf_lits (content d c).
Proof. intros d c H Hc. split; [now apply (db_len d H) | apply (db_vars d H)]. Qed.

(** ** new_clause on a registered binary clause, and the sandboxed version *)
Lemma new_clause_reg : forall level d (vec : list lit) learnt c, length vec = 2 ->
  bin_search d (nth 0 vec 0) (nth 1 vec 0) = Some c -> new_clause level d vec learnt = (d, RReg c).
Proof. intros level d vec learnt c H E. unfold new_clause. rewrite H. cbn [Nat.eqb]. now rewrite E. Qed.

Lemma new_sandbox_reg : forall level d (vec : list lit) c, length vec = 2 ->
  bin_search d (nth 0 vec 0) (nth 1 vec 0) = Some c -> new_clause_sandbox level d vec = (d, RReg c).
Proof. intros level d vec c H E. unfold new_clause_sandbox. rewrite H. cbn [Nat.eqb]. now rewrite E. Qed.

Lemma new_sandbox_added : forall level d vec, @DbInv None d -> wf_lits vec ->
  (length vec = 2 -> bin_search d (nth 0 vec 0) (nth 1 vec 0) = None) ->
  exists d' c, new_clause_sandbox level d vec = (d', RClause c) /\ @Added None d d' c vec /\
    lrn (cl d' c) = negb (length vec =? 2) /\
    n_cl d' = n_cl d /\ n_bi d' = n_bi d /\ n_lr d' = n_lr d /\ n_bl d' = n_bl d /\ cert d' = cert d.
Proof.
  intros level d vec H W Hs. unfold new_clause_sandbox.
  assert (Hno : (if length vec =? 2 then bin_search d (nth 0 vec 0) (nth 1 vec 0) else None) = None).
  { destruct (Nat.eqb_spec (length vec) 2); auto. }
  rewrite Hno. destruct (store_clause d vec) as [d1 c] eqn:Es.
  destruct (store_spec _ _ _ _ H Es) as
    (S1 & S2 & S3 & S4 & S5 & S6 & S7 & S8 & S9 & S10 & S11 & S12 & S13 & S14 & S15 & S16 & S17 & S18 & S19 & S20 & S21 & S22 & S23).
  unfold update_lbd. destruct (lbd_of level (lits (cl d1 c)) (lbdt d1)) as [t r].
  set (len2 := length vec =? 2) in *.
  eexists; eexists; split; [reflexivity|].
  assert (O : forall y x, x <> c -> upd (cl d1) c y x = cl d x).
  { intros y x Hx. rewrite upd_other by auto. auto. }
  assert (O2 : forall y z x, x <> c -> upd (upd (cl d1) c y) c z x = cl d x).
  { intros y z x Hx. rewrite !upd_other by auto. auto. }
  match goal with |- @Added None _ (link_clause ?D c) _ _ /\ _ =>
    destruct (link_clause_cl D c) as (C1 & C2 & C3 & C4 & C5 & C6 & C7 & C8 & C9) end.
  rewrite C1, C4, C5, C6, C7, C8. clear C1 C2 C3 C4 C5 C6 C7 C8 C9.
  split.
  - apply added_of_link; auto; destruct len2; cbn; auto; rewrite ?upd_same; cbn; auto;
      rewrite ?upd_same; cbn; auto; intros X; elim X; reflexivity.
  - destruct len2; cbn; rewrite ?upd_same; cbn; rewrite ?upd_same; cbn; splits; auto; try lia; congruence.
Qed.

(** ** remove_clause *)
Record Removed (d d' : cdb) (c : nat) : Prop := mkRemoved {
  rm_inv : DbInv d';
  rm_content : forall x, content d' x = upd (content d) c [] x;
  rm_other : forall x, x <> c -> cl d' x = cl d x;
  rm_ncl : ncl d' = ncl d;
  rm_free : free d' = c :: free d
}.

Lemma unlink_clause_cl : forall d c, cl (unlink_clause d c) = cl d /\ ncl (unlink_clause d c) = ncl d /\
  free (unlink_clause d c) = free d /\ n_cl (unlink_clause d c) = n_cl d /\ n_bi (unlink_clause d c) = n_bi d /\
  n_lr (unlink_clause d c) = n_lr d /\ n_bl (unlink_clause d c) = n_bl d /\ cert (unlink_clause d c) = cert d /\
  lbdt (unlink_clause d c) = lbdt d.
Proof. intros. unfold unlink_clause. destruct (_ =? 2); cbn; splits; auto. Qed.

Lemma removed_intro : forall d d' c, DbInv d -> content d c <> [] ->
  (forall x, x <> c -> cl d' x = cl d x) -> lits (cl d' c) = [] -> ncl d' = ncl d -> free d' = c :: free d ->
  bil d' = bil (unlink_clause d c) -> bmap d' = bmap (unlink_clause d c) -> wat d' = wat (unlink_clause d c) ->
  (mode <> None -> n_cl d' = n_cl d - 1 /\ n_bi d' = n_bi d - (if length (content d c) =? 2 then 1 else 0) /\
     n_lr d' = n_lr d - (if lrn (cl d c) then 1 else 0)) ->
  Removed d d' c.
Proof.
  intros d d' c H Hl O L N F B1 B2 B3 Hc.
  assert (Ec : forall x, content d' x = upd (content d) c [] x).
  { intros x. unfold upd, content. destruct (Nat.eqb_spec x c) as [->|Hx]; auto. now rewrite O. }
  pose proof (live_range d c H Hl) as R. pose proof (live_wf d c H Hl) as [W1 W2].
  constructor; auto. constructor.
  - rewrite N. apply (db_ncl d H).
  - rewrite Ec. unfold upd. destruct (0 =? c); auto. apply (db_zero d H).
  - intros x Hx. rewrite N in Hx. rewrite Ec, upd_other by lia. now apply (db_range d H).
  - rewrite F. constructor; [|apply (db_free_nodup d H)]. intros X. apply (db_free_in d H) in X. tauto.
  - intros x Hx. rewrite F in Hx. rewrite N, Ec. unfold upd. destruct (Nat.eqb_spec x c) as [->|Hxc]; auto.
    destruct Hx as [->|Hx]; [congruence|]. now apply (db_free_in d H).
  - intros x. rewrite Ec. unfold upd. destruct (x =? c); [congruence|]. apply (db_len d H).
  - intros x. rewrite Ec. unfold upd. destruct (x =? c); [constructor|]. apply (db_vars d H).
  - apply Links_ext with (d := unlink_clause d c) (E := upd (content d) c []); auto.
    apply unlink_spec; auto. apply (db_links d H).
  - intros e X. destruct Hc as (R1 & R2 & R3); [rewrite X; discriminate|]. destruct (db_cnt d H e X) as (K1 & K2 & K3 & K4).
    destruct (cnt_step d d' c) as (S1 & S2 & S3).
    { lia. } { lia. } { apply (db_range d H). } { exact O. }
    pose proof (Ec c) as Y. rewrite upd_same in Y. apply dead_nil in Y as (X1 & X2 & X3).
    rewrite X1, (live_nonnil d c Hl) in S1. rewrite X2 in S2. rewrite X3, (learnt_live d c Hl) in S3.
    unfold CntInv. rewrite R1, R2, R3.
    change (is_binary d c) with (length (content d c) =? 2) in S2. cbv iota in S1, S2, S3.
    splits; try lia. intros Z. specialize (K4 Z). lia.
Qed.

Lemma remove_clause_spec : forall d c, DbInv d -> content d c <> [] ->
  Removed d (remove_clause d c) c /\
  n_cl (remove_clause d c) = n_cl d - 1 /\
  n_bi (remove_clause d c) = n_bi d - (if length (content d c) =? 2 then 1 else 0) /\
  n_lr (remove_clause d c) = n_lr d - (if lrn (cl d c) then 1 else 0) /\
  n_bl (remove_clause d c) = n_bl d /\
  cert (remove_clause d c) = cert d ++ [CDel (content d c)].
Proof.
  intros d c H Hl. unfold remove_clause.
  destruct (unlink_clause_cl d c) as (C1 & C2 & C3 & C4 & C5 & C6 & C7 & C8 & _).
  change (lits (cl d c)) with (content d c).
  set (b2 := length (content d c) =? 2).
  set (U := unlink_clause d c) in *.
  assert (X : lrn (cl (if b2 then set_n_bi U (n_bi U - 1) else U) c) = lrn (cl d c)) by (destruct b2; cbn; now rewrite C1).
  cbv zeta. rewrite X. split.
  - apply removed_intro; auto; fold b2; destruct b2, (lrn (cl d c)); cbn; rewrite ?C1, ?upd_same; cbn; try congruence;
      try (intros x Hx; rewrite upd_other; auto; fail); try reflexivity; intros _; rewrite ?C4, ?C5, ?C6; splits; lia.
  - assert (Y : lits (cl U c) = content d c) by (unfold content; now rewrite C1).
    destruct b2, (lrn (cl d c)); cbn; rewrite ?C4, ?C5, ?C6, ?C7, ?C8, ?Y; splits; auto; lia.
Qed.

(** ** operations that rewrite one clause in place *)
Record Rewritten (d d' : cdb) (c : nat) (new : list lit) : Prop := mkRewritten {
  rw_inv : DbInv d';
  rw_content : forall x, content d' x = upd (content d) c new x;
  rw_other : forall x, x <> c -> cl d' x = cl d x;
  rw_ncl : ncl d' = ncl d;
  rw_free : free d' = free d
}.

(** the counters follow the rewriting of clause [c] *)
Definition recount (d d' : cdb) (c : nat) (new : list lit) : Prop :=
  n_cl d' = n_cl d /\
  n_bi d' + (if length (content d c) =? 2 then 1 else 0) = n_bi d + (if length new =? 2 then 1 else 0) /\
  (lrn (cl d' c) = lrn (cl d c) /\ n_lr d' = n_lr d \/
   lrn (cl d' c) = false /\ n_lr d' = n_lr d - (if lrn (cl d c) then 1 else 0)).

Lemma rewritten_intro : forall d d' c new, DbInv d -> content d c <> [] -> wf_lits new ->
  (forall x, x <> c -> cl d' x = cl d x) -> lits (cl d' c) = new -> ncl d' = ncl d -> free d' = free d ->
  Links d' (upd (content d) c new) -> recount d d' c new -> Rewritten d d' c new.
Proof.
  intros d d' c new H Hl [W1 W2] O L N F K (E1 & E2 & E3).
  assert (Ec : forall x, content d' x = upd (content d) c new x).
  { intros x. unfold upd, content. destruct (Nat.eqb_spec x c) as [->|Hx]; auto. now rewrite O. }
  pose proof (live_range d c H Hl) as R.
  constructor; auto. constructor.
  - rewrite N. apply (db_ncl d H).
  - rewrite Ec, upd_other by lia. apply (db_zero d H).
  - intros x Hx. rewrite N in Hx. rewrite Ec, upd_other by lia. now apply (db_range d H).
  - rewrite F. apply (db_free_nodup d H).
  - intros x Hx. rewrite F in Hx. rewrite N, Ec. pose proof (db_free_in d H x Hx) as [X1 X2].
    rewrite upd_other by congruence. auto.
  - intros x. rewrite Ec. unfold upd. destruct (x =? c); auto. apply (db_len d H).
  - intros x. rewrite Ec. unfold upd. destruct (x =? c); auto. apply (db_vars d H).
  - eapply Links_ext; eauto.
  - intros e Y. destruct (db_cnt d H e Y) as (A & B & C & D).
    destruct (cnt_step d d' c) as (S1 & S2 & S3).
    { lia. } { lia. } { apply (db_range d H). } { exact O. }
    pose proof (Ec c) as X. rewrite upd_same in X.
    assert (Hl' : content d' c <> []). { rewrite X. destruct new; cbn in W1; [lia|discriminate]. }
    rewrite (live_nonnil d c Hl), (live_nonnil d' c Hl') in S1.
    rewrite (learnt_live d c Hl), (learnt_live d' c Hl') in S3.
    change (is_binary d c) with (length (content d c) =? 2) in S2.
    change (is_binary d' c) with (length (content d' c) =? 2) in S2. rewrite X in S2.
    assert (P : lrn (cl d c) = true -> 1 <= n_lr d).
    { intros Z. eapply Nat.le_trans; [|exact C]. apply cnt_pos with (c := c); [lia|]. now rewrite learnt_live. }
    cbv iota in S1, S2. unfold CntInv. splits; [lia|lia| |intros Z; specialize (D Z)];
    (destruct E3 as [[Y1 Y2]|[Y1 Y2]]; rewrite Y1 in S3; [lia|];
     destruct (lrn (cl d c)); [specialize (P eq_refl)|]; lia).
Qed.

(** the watch lists when clause [c] is registered under the literals of [S] only *)
Definition relc (E : nat -> list lit) (c : nat) (S : lit -> Prop) : nat -> lit -> Prop :=
  fun c' p => if c' =? c then S p else watched E c' p.

Lemma relc_init : forall w E c, WL w (watched E) -> WL w (relc E c (watched E c)).
Proof.
  intros w E c H. eapply WL_ext; eauto. intros c' p. unfold relc.
  destruct (Nat.eqb_spec c' c) as [->|]; tauto.
Qed.
Lemma relc_ext : forall w E c S S', WL w (relc E c S) -> (forall p, S p <-> S' p) -> WL w (relc E c S').
Proof.
  intros w E c S S' H X. eapply WL_ext; eauto. intros c' p. unfold relc. destruct (c' =? c); auto. tauto.
Qed.
Lemma relc_final : forall w E c new, WL w (relc E c (watched (upd E c new) c)) -> WL w (watched (upd E c new)).
Proof.
  intros w E c new H. eapply WL_ext; eauto. intros c' p. unfold relc, watched.
  destruct (Nat.eqb_spec c' c) as [->|Hc]; [tauto|]. rewrite upd_other by auto. tauto.
Qed.
Lemma relc_remove : forall d E c S p, WL (wat d) (relc E c S) ->
  WL (wat (w_remove d p c)) (relc E c (fun q => S q /\ q <> p)).
Proof.
  intros d E c S p H. eapply WL_ext; [apply WL_remove; exact H|]. intros c' q. unfold relc. cbv beta.
  destruct (Nat.eqb_spec c' c) as [->|Hc]; intuition congruence.
Qed.
Lemma relc_insert : forall d E c S p l, WL (wat d) (relc E c S) -> ~ S p ->
  WL (wat (w_insert d p c l)) (relc E c (fun q => S q \/ q = p)).
Proof.
  intros d E c S p l H N. eapply WL_ext; [apply WL_insert; [exact H|]|].
  - unfold relc. rewrite Nat.eqb_refl. exact N.
  - intros c' q. unfold relc. cbv beta. destruct (Nat.eqb_spec c' c) as [->|Hc]; intuition congruence.
Qed.
Lemma relc_update : forall d E c S p l, WL (wat d) (relc E c S) -> WL (wat (w_update d p c l)) (relc E c S).
Proof. intros. now apply WL_update. Qed.

Lemma wf_heads : forall ls, wf_lits ls ->
  nth 0 ls 0 <> nth 1 ls 0 /\ neg (nth 0 ls 0) <> neg (nth 1 ls 0).
Proof.
  intros ls [A B]. destruct (nodup_first_two ls B A). split; auto. now apply neg_first_two.
Qed.

Lemma BL_long : forall bl bm E c new, BL bl bm (linked E) -> length (E c) <> 2 -> length new <> 2 ->
  BL bl bm (linked (upd E c new)).
Proof.
  intros bl bm E c new B L1 L2. eapply BL_ext; eauto. intros l l' c'. unfold linked, upd.
  destruct (Nat.eqb_spec c' c) as [->|]; [|tauto].
  split; intros [X|X]; rewrite X in *; cbn in *; lia.
Qed.

(** a clause of three or more literals becomes binary *)
Lemma to_binary_links : forall d E c new, Links d E -> 3 <= length (E c) -> wf_lits (E c) ->
  wf_lits new -> length new = 2 -> (forall x, ~ linked E (nth 0 new 0) (nth 1 new 0) x) ->
  Links (bin_add (w_remove (w_remove d (neg (nth 0 (E c) 0)) c) (neg (nth 1 (E c) 0)) c)
                 (nth 0 new 0) (nth 1 new 0) c) (upd E c new).
Proof.
  intros d E c new [W B] L Wf Wn L2 Hn. destruct (wf_heads _ Wn) as [Hne _].
  split.
  - apply relc_final. eapply relc_ext; [exact (relc_remove _ _ _ _ (neg (nth 1 (E c) 0)) (relc_remove _ _ _ _ (neg (nth 0 (E c) 0)) (relc_init _ _ c W)))|].
    intros p. unfold watched. rewrite upd_same. split; [|lia]. intros [[[_ X] Y] Z]. exfalso. destruct X; auto.
  - eapply BL_ext; [apply BL_add; eauto|]. intros l l' c'. unfold linked, upd. cbv beta.
    assert (Ec2 : new = [nth 0 new 0; nth 1 new 0]).
    { destruct new as [|a [|b [|]]]; simpl in L2; try lia. reflexivity. }
    destruct (Nat.eqb_spec c' c) as [->|Hc].
    + split.
      * intros [[X|X]|[_ [[-> ->]|[-> ->]]]]; auto; rewrite X in L; cbn in L; lia.
      * rewrite Ec2. cbn [nth]. intros [X|X]; injection X as X1 X2; right; split; auto.
    + split; [intros [X|[X _]]; auto; congruence|tauto].
Qed.

(** *** relink_simp (Case 3-3 of transform_by_simplification) *)
Lemma relink_simp_fields : forall d c o0 o1 l0 l1,
  let d' := relink_simp d c o0 o1 l0 l1 in
  cl d' = cl d /\ ncl d' = ncl d /\ free d' = free d /\ bil d' = bil d /\ bmap d' = bmap d /\
  n_cl d' = n_cl d /\ n_bi d' = n_bi d /\ n_lr d' = n_lr d /\ n_bl d' = n_bl d /\ cert d' = cert d.
Proof.
  intros. subst d'. unfold relink_simp.
  destruct ((o0 =? l0) && (o1 =? l1)), (o0 =? l0), (o0 =? l1), (o1 =? l0), (o1 =? l1); cbn; splits; auto.
Qed.

Lemma relink_simp_links : forall d E c new, Links d E -> wf_lits (E c) -> 3 <= length (E c) ->
  wf_lits new -> 3 <= length new ->
  Links (relink_simp d c (nth 0 (E c) 0) (nth 1 (E c) 0) (nth 0 new 0) (nth 1 new 0)) (upd E c new).
Proof.
  intros d E c new [W B] Wf L Wn Ln.
  destruct (wf_heads _ Wf) as [Ho Ho']. destruct (wf_heads _ Wn) as [Hn Hn'].
  split.
  - apply relc_final. apply relc_init with (c := c) in W.
    eapply relc_ext with (S' := fun p => p = neg (nth 0 (E c) 0) \/ p = neg (nth 1 (E c) 0)) in W.
    2:{ intros p. unfold watched. tauto. }
    eapply relc_ext with (S := fun p => p = neg (nth 0 new 0) \/ p = neg (nth 1 new 0)).
    2:{ intros p. unfold watched. rewrite upd_same. tauto. }
    revert W Ho Ho' Hn Hn'. generalize (nth 0 (E c) 0), (nth 1 (E c) 0), (nth 0 new 0), (nth 1 new 0).
    intros o0 o1 l0 l1 W Ho Ho' Hn Hn'. unfold relink_simp.
    assert (NI : forall a b, a <> b -> neg a <> neg b) by (intros a b X Y; apply X, neg_inj, Y).
    destruct (Nat.eqb_spec o0 l0) as [E1|E1]; destruct (Nat.eqb_spec o1 l1) as [E2|E2]; cbn [andb].
    + subst. exact W.
    + subst. eapply relc_ext; [apply relc_insert; [apply relc_update, relc_remove; exact W|]|].
      * apply NI in E2. intuition congruence.
      * intros p. apply NI in E2. cbv beta. intuition congruence.
    + destruct (Nat.eqb_spec o0 l1) as [E3|E3]; [congruence|].
      destruct (Nat.eqb_spec o1 l0) as [E4|E4]; [congruence|]. subst.
      eapply relc_ext; [apply relc_update, relc_insert; [apply relc_remove; exact W|]|].
      * apply NI in E1. intuition congruence.
      * intros p. apply NI in E1. cbv beta. intuition congruence.
    + destruct (Nat.eqb_spec o0 l1) as [E3|E3]; [|destruct (Nat.eqb_spec o1 l0) as [E4|E4]].
      * subst. eapply relc_ext; [apply relc_update, relc_insert; [apply relc_remove; exact W|]|].
        -- intuition congruence.
        -- intros p. cbv beta. intuition congruence.
      * subst. eapply relc_ext; [apply relc_insert; [apply relc_update, relc_remove; exact W|]|].
        -- apply NI in E3. intuition congruence.
        -- intros p. apply NI in E3. cbv beta. intuition congruence.
      * apply NI in E1, E2, E3, E4.
        eapply relc_ext; [apply relc_insert; [apply relc_insert; [apply relc_remove, relc_remove; exact W|]|]|].
        -- intuition congruence.
        -- cbv beta. intuition congruence.
        -- intros p. cbv beta. intuition congruence.
  - destruct (relink_simp_fields d c (nth 0 (E c) 0) (nth 1 (E c) 0) (nth 0 new 0) (nth 1 new 0)) as (_ & _ & _ & -> & -> & _).
    apply BL_long; auto; lia.
Qed.

(** ** transform_by_simplification *)
Definition tru (v : lit -> option bool) (l : lit) : bool := match v l with Some true => true | _ => false end.
Definition fixed (v : lit -> option bool) (el : nat -> bool) (l : lit) : bool :=
  match v l with Some _ => true | None => el (vi l) end.
Definition unfixed (v : lit -> option bool) (el : nat -> bool) (l : lit) : bool :=
  match v l with None => negb (el (vi l)) | Some _ => false end.
Lemma unfixed_negb : forall v el l, unfixed v el l = negb (fixed v el l).
Proof. intros. unfold unfixed, fixed. destruct (v l); auto. Qed.

Lemma map_filter_nodup : forall (f : lit -> bool) ls, NoDup (map vi ls) -> NoDup (map vi (filter f ls)).
Proof.
  intros f. induction ls as [|x ls IH]; cbn; intros N; auto. inversion N; subst.
  destruct (f x); cbn; auto. constructor; auto. intros X. apply H1.
  apply in_map_iff in X as (y & E & Y). apply filter_In in Y as [Y _]. apply in_map_iff. eauto.
Qed.

Lemma filter_length_lt : forall (A : Type) (f : A -> bool) ls, existsb (fun l => negb (f l)) ls = true ->
  length (filter f ls) < length ls.
Proof.
  intros A f. induction ls as [|x ls IH]; cbn; [discriminate|]. intros H.
  assert (length (filter f ls) <= length ls) by (clear; induction ls as [|y ls IH]; cbn; auto; destruct (f y); cbn; lia).
  destruct (f x); cbn in *; [apply IH in H; lia|lia].
Qed.
Lemma filter_all : forall (A : Type) (f : A -> bool) ls, existsb (fun l => negb (f l)) ls = false -> filter f ls = ls.
Proof.
  intros A f. induction ls as [|x ls IH]; cbn; auto. intros H. apply orb_false_iff in H as [H1 H2].
  apply negb_false_iff in H1. rewrite H1. now rewrite IH.
Qed.

(** what the call returns and does, by the remaining (undecided) literals *)
Inductive SimpSpec (v : lit -> option bool) (el : nat -> bool) (d : cdb) (c : nat) : cdb -> refclause -> Prop :=
| simp_sat : existsb (tru v) (content d c) = true -> SimpSpec v el d c (remove_clause d c) RDead
| simp_same : existsb (tru v) (content d c) = false -> existsb (fixed v el) (content d c) = false ->
    SimpSpec v el d c d (RClause c)
| simp_empty : existsb (tru v) (content d c) = false -> existsb (fixed v el) (content d c) = true ->
    filter (unfixed v el) (content d c) = [] -> SimpSpec v el d c d REmpty
| simp_unit : forall u, existsb (tru v) (content d c) = false -> existsb (fixed v el) (content d c) = true ->
    filter (unfixed v el) (content d c) = [u] -> SimpSpec v el d c d (RUnit u)
| simp_reg : forall b l0 l1, existsb (tru v) (content d c) = false -> existsb (fixed v el) (content d c) = true ->
    filter (unfixed v el) (content d c) = [l0; l1] -> b <> c ->
    (content d b = [l0; l1] \/ content d b = [l1; l0]) ->
    SimpSpec v el d c (remove_clause d c) (RReg b)
| simp_shrink : forall d', existsb (tru v) (content d c) = false -> existsb (fixed v el) (content d c) = true ->
    2 <= length (filter (unfixed v el) (content d c)) ->
    Rewritten d d' c (filter (unfixed v el) (content d c)) ->
    cenq (cl d' c) = cenq (cl d c) -> cocc (cl d' c) = cocc (cl d c) -> rank (cl d' c) = rank (cl d c) ->
    sfrom (cl d' c) = sfrom (cl d c) ->
    lrn (cl d' c) = (if length (filter (unfixed v el) (content d c)) =? 2 then false else lrn (cl d c)) ->
    n_cl d' = n_cl d ->
    n_bi d' = n_bi d + (if length (filter (unfixed v el) (content d c)) =? 2 then 1 else 0) ->
    n_lr d' = n_lr d - (if (length (filter (unfixed v el) (content d c)) =? 2) && lrn (cl d c) then 1 else 0) ->
    n_bl d' = n_bl d ->
    cert d' = cert d ++ [CAdd (filter (unfixed v el) (content d c)); CDel (content d c)] ->
    SimpSpec v el d c d' (RClause c).

Lemma simplification_spec : forall v el d c d' r, DbInv d -> content d c <> [] ->
  transform_by_simplification v el d c = (d', r) -> SimpSpec v el d c d' r.
Proof.
  intros v el d c d' r H Hl E. unfold transform_by_simplification in E.
  pose proof (live_wf d c H Hl) as W.
  change (lits (cl d c)) with (content d c) in E.
  change (fun l => match v l with Some true => true | _ => false end) with (tru v) in E.
  change (fun l => match v l with Some _ => true | None => el (vi l) end) with (fixed v el) in E.
  change (fun l => match v l with None => negb (el (vi l)) | Some _ => false end) with (unfixed v el) in E.
  destruct (existsb (tru v) (content d c)) eqn:Et.
  { injection E as <- <-. now apply simp_sat. }
  destruct (existsb (fixed v el) (content d c)) eqn:Ef; cbn [negb] in E.
  2:{ injection E as <- <-. now apply simp_same. }
  set (new := filter (unfixed v el) (content d c)) in *.
  assert (Nn : NoDup (map vi new)) by (apply map_filter_nodup, (db_vars d H)).
  assert (Ln : length new < length (content d c)).
  { apply filter_length_lt. rewrite <- Ef. clear. induction (content d c); cbn; auto.
    rewrite unfixed_negb, negb_involutive. now rewrite IHl. }
  destruct new as [|l0 [|l1 [|l2 rest]]] eqn:En.
  - injection E as <- <-. apply simp_empty; auto.
  - injection E as <- <-. apply simp_unit; auto.
  - cbn [nth] in E. destruct (bin_search d l0 l1) as [b|] eqn:Eb.
    + injection E as <- <-. apply (bin_search_iff d H) in Eb.
      eapply simp_reg; eauto. intros ->. cbn in Ln. destruct Eb as [X|X]; rewrite X in Ln; cbn in Ln; lia.
    + set (F := filter (unfixed v el) (content d c)) in *. assert (EF : F = [l0; l1]) by exact En.
      assert (L : Links (bin_add (w_remove (w_remove d (neg (nth 0 (content d c) 0)) c) (neg (nth 1 (content d c) 0)) c)
                 l0 l1 c) (upd (content d) c [l0; l1])).
      { apply (to_binary_links d (content d) c [l0; l1]); auto.
        - apply (db_links d H).
        - split; auto.
        - apply bin_search_none; auto. }
      injection E as <- <-.
      apply simp_shrink; fold F; rewrite ?EF; auto;
        [|destruct (lrn (cl d c)) eqn:Er; cbn; rewrite ?upd_same; cbn; rewrite ?upd_same, ?Er; cbn;
          rewrite ?upd_same, ?Er; cbn; rewrite ?upd_same, ?Er; auto; try lia; rewrite <- ?app_assoc; auto ..].
      apply rewritten_intro; auto.
      * split; auto.
      * intros x Hx. cbn. rewrite upd_same. cbn. destruct (lrn (cl d c)); cbn; rewrite !upd_other; auto.
      * cbn. rewrite upd_same. cbn. destruct (lrn (cl d c)); cbn; rewrite !upd_same; auto.
      * cbn. rewrite upd_same. cbn. destruct (lrn (cl d c)); cbn; auto.
      * cbn. rewrite upd_same. cbn. destruct (lrn (cl d c)); cbn; auto.
      * eapply Links_ext; [exact L|..]; auto; cbn; rewrite upd_same; cbn; destruct (lrn (cl d c)); cbn; auto.
      * assert (LC : length (content d c) =? 2 = false) by (apply Nat.eqb_neq; cbn in Ln; lia).
        unfold recount. rewrite LC. cbn. rewrite upd_same. cbn.
        destruct (lrn (cl d c)) eqn:Er; cbn; rewrite ?upd_same; cbn; splits; try lia; right; split; auto; lia.
  - set (new' := l0 :: l1 :: l2 :: rest) in *.
    injection E as <- <-.
    set (d1 := set_clause d c (set_lits (cl d c) new')).
    destruct (relink_simp_fields d1 c (nth 0 (content d c) 0) (nth 1 (content d c) 0) l0 l1)
      as (C1 & C2 & C3 & C4 & C5 & C6 & C7 & C8 & C9 & C10).
    set (d2 := relink_simp d1 c (nth 0 (content d c) 0) (nth 1 (content d c) 0) l0 l1) in *.
    set (F := filter (unfixed v el) (content d c)) in *. assert (EF : F = new') by exact En.
    apply simp_shrink; fold F; rewrite ?EF; auto; cbn [length new']; try lia;
      cbn [log_add log_del set_cert cl n_cl n_bi n_lr n_bl cert Nat.eqb andb]; rewrite ?C1, ?C6, ?C7, ?C8, ?C9, ?C10;
      cbn; rewrite ?upd_same; cbn; rewrite <- ?app_assoc; auto; try lia.
    apply rewritten_intro; auto.
    + split; [cbn; lia|auto].
    + intros x Hx. cbn. rewrite C1. cbn. now rewrite upd_other.
    + cbn. rewrite C1. cbn. now rewrite upd_same.
    + apply Links_ext with (d := d2) (E := upd (content d) c new'); auto.
      apply (relink_simp_links d1 (content d) c new'); auto.
      * eapply Links_ext; [apply (db_links d H)|..]; auto.
      * cbn in Ln. lia.
      * split; [cbn; lia|auto].
      * cbn; lia.
    + assert (LC : length (content d c) =? 2 = false) by (apply Nat.eqb_neq; cbn in Ln; lia).
      unfold recount. rewrite LC. cbn. rewrite C1, C6, C7, C8. cbn. rewrite upd_same. cbn. splits; try lia. left; split; auto.
Qed.

(** ** transform_by_elimination *)
Lemma remove_lit_length : forall p ls, NoDup (map vi ls) -> In p ls ->
  length (filter (fun l : lit => negb (l =? p)) ls) = length ls - 1.
Proof.
  intros p. induction ls as [|x ls IH]; cbn [map filter length In]; intros N H; [tauto|].
  inversion N; subst. destruct (Nat.eqb_spec x p) as [->|Hx]; cbn [negb].
  - rewrite filter_all; [unfold lit in *; lia|]. apply not_true_is_false. intros X. apply existsb_exists in X as (y & Y1 & Y2).
    rewrite negb_involutive in Y2. apply Nat.eqb_eq in Y2. subst y. apply H2. now apply in_map.
  - destruct H as [H|H]; [congruence|]. cbn [length]. rewrite IH by auto.
    destruct ls; [destruct H|]. cbn [length]. unfold lit in *; lia.
Qed.

Inductive ElimSpec (d : cdb) (c : nat) (p : lit) : cdb -> refclause -> Prop :=
| elim_unit : forall d' q, (content d c = [p; q] \/ content d c = [q; p]) ->
    Rewritten d d' c [q; p] -> cert d' = cert d -> lrn (cl d' c) = lrn (cl d c) ->
    cenq (cl d' c) = cenq (cl d c) -> cocc (cl d' c) = cocc (cl d c) -> sfrom (cl d' c) = sfrom (cl d c) ->
    n_cl d' = n_cl d -> n_bi d' = n_bi d -> n_lr d' = n_lr d -> n_bl d' = n_bl d ->
    ElimSpec d c p d' (RUnit q)
| elim_reg : forall d' b l0 l1, filter (fun l : lit => negb (l =? p)) (content d c) = [l0; l1] -> b <> c ->
    (content d b = [l0; l1] \/ content d b = [l1; l0]) ->
    Rewritten d d' c (content d c) -> cert d' = cert d -> lrn (cl d' c) = lrn (cl d c) ->
    cenq (cl d' c) = cenq (cl d c) -> cocc (cl d' c) = cocc (cl d c) -> sfrom (cl d' c) = 2 ->
    n_cl d' = n_cl d -> n_bi d' = n_bi d -> n_lr d' = n_lr d -> n_bl d' = n_bl d ->
    ElimSpec d c p d' (RReg b)
| elim_shrink : forall d', 2 <= length (filter (fun l : lit => negb (l =? p)) (content d c)) ->
    Rewritten d d' c (filter (fun l : lit => negb (l =? p)) (content d c)) ->
    cert d' = cert d ++ [CAdd (filter (fun l : lit => negb (l =? p)) (content d c)); CDel (content d c)] ->
    lrn (cl d' c) = lrn (cl d c) ->
    cenq (cl d' c) = cenq (cl d c) -> cocc (cl d' c) = cocc (cl d c) -> sfrom (cl d' c) = 2 ->
    n_cl d' = n_cl d ->
    n_bi d' = n_bi d + (if length (filter (fun l : lit => negb (l =? p)) (content d c)) =? 2 then 1 else 0) ->
    n_lr d' = n_lr d -> n_bl d' = n_bl d ->
    ElimSpec d c p d' (RClause c).

Lemma relink_elim_ok : forall d E c p, Links d E -> wf_lits (E c) -> 4 <= length (E c) -> In p (E c) ->
  exists d', relink_elim d c p (nth 0 (E c) 0) (nth 1 (E c) 0)
               (nth 0 (filter (fun l : lit => negb (l =? p)) (E c)) 0)
               (nth 1 (filter (fun l : lit => negb (l =? p)) (E c)) 0) = Some d' /\
    Links d' (upd E c (filter (fun l : lit => negb (l =? p)) (E c))) /\
    cl d' = cl d /\ ncl d' = ncl d /\ free d' = free d /\
    n_cl d' = n_cl d /\ n_bi d' = n_bi d /\ n_lr d' = n_lr d /\ n_bl d' = n_bl d /\ cert d' = cert d.
Proof.
  intros d E c p [W B] [W1 W2] L Hp.
  pose proof (remove_lit_length p (E c) W2 Hp) as Ln.
  pose proof (map_filter_nodup (fun l : lit => negb (l =? p)) _ W2) as Wn.
  set (new := filter (fun l : lit => negb (l =? p)) (E c)) in *.
  assert (BN : BL (bil d) (bmap d) (linked (upd E c new))) by (apply BL_long; auto; lia).
  apply relc_init with (c := c) in W.
  eapply relc_ext with (S' := fun q => q = neg (nth 0 (E c) 0) \/ q = neg (nth 1 (E c) 0)) in W.
  2:{ intros q. unfold watched. split; [tauto|]. split; auto. lia. }
  assert (Hno : neg (nth 0 (E c) 0) <> neg (nth 1 (E c) 0)) by (apply neg_first_two; auto).
  assert (Hnn : neg (nth 0 new 0) <> neg (nth 1 new 0)) by (apply neg_first_two; auto; lia).
  assert (FIN : forall w, WL w (relc E c (fun q => q = neg (nth 0 new 0) \/ q = neg (nth 1 new 0))) ->
                WL w (watched (upd E c new))).
  { intros w X. apply relc_final. eapply relc_ext; [exact X|]. intros q. unfold watched. rewrite upd_same.
    split; [|tauto]. split; auto. lia. }
  assert (NX : forall k, k < length (E c) -> nth k (E c) 0 = p -> forall j, j < length new -> nth j new 0 <> p).
  { intros k _ _ j Hj X. assert (In p new) by (rewrite <- X; now apply nth_In).
    apply filter_In in H as [_ H]. rewrite Nat.eqb_refl in H. discriminate. }
  unfold relink_elim.
  assert (SH : E c = nth 0 (E c) 0 :: nth 1 (E c) 0 :: skipn 2 (E c)).
  { destruct (E c) as [|x [|y t]]; cbn [length] in L; try lia. reflexivity. }
  assert (SN : (nth 0 (E c) 0 = p /\ nth 1 (E c) 0 = nth 0 new 0) \/
               (nth 0 (E c) 0 <> p /\ nth 1 (E c) 0 = p /\ nth 0 (E c) 0 = nth 0 new 0) \/
               (nth 0 (E c) 0 <> p /\ nth 1 (E c) 0 <> p /\ nth 0 (E c) 0 = nth 0 new 0 /\ nth 1 (E c) 0 = nth 1 new 0)).
  { assert (Hd : nth 0 (E c) 0 <> nth 1 (E c) 0) by (intros X; apply Hno; now rewrite X).
    revert Hd. subst new. clear - SH. rewrite SH. generalize (nth 0 (E c) 0), (nth 1 (E c) 0), (skipn 2 (E c)).
    intros x y t Hd. cbn [filter nth]. destruct (Nat.eqb_spec x p) as [->|Hx]; cbn [negb].
    - left. split; auto. destruct (Nat.eqb_spec y p); [exfalso; apply Hd; auto|]. reflexivity.
    - right. destruct (Nat.eqb_spec y p) as [->|Hy]; cbn [negb]; [left|right]; auto. }
  revert W Hno Hnn SN FIN.
  generalize (nth 0 (E c) 0), (nth 1 (E c) 0), (nth 0 new 0), (nth 1 new 0).
  intros o0 o1 l0 l1 W Hno Hnn SN FIN.
  destruct SN as [[-> ->]|[(N0 & -> & ->)|(N0 & N1 & -> & ->)]].
  - rewrite !Nat.eqb_refl. eexists; split; [reflexivity|]. split; [|cbn; splits; auto]. split; [|exact BN].
    apply FIN. eapply relc_ext; [apply relc_insert; [apply relc_remove; exact W|]|].
    + intuition congruence.
    + intros q. cbv beta. intuition congruence.
  - destruct (Nat.eqb_spec p l0) as [|_]; [congruence|]. rewrite !Nat.eqb_refl.
    eexists; split; [reflexivity|]. split; [|cbn; splits; auto]. split; [|exact BN].
    apply FIN. eapply relc_ext; [apply relc_insert; [apply relc_remove; exact W|]|].
    + intuition congruence.
    + intros q. cbv beta. intuition congruence.
  - destruct (Nat.eqb_spec p l0) as [|_]; [congruence|]. destruct (Nat.eqb_spec p l1) as [|_]; [congruence|].
    eexists; split; [reflexivity|]. splits; auto. split; auto.
Qed.

Lemma elimination_spec : forall d c p, DbInv d -> In p (content d c) ->
  exists d' r, transform_by_elimination d c p = Some (d', r) /\ ElimSpec d c p d' r.
Proof.
  intros d c p H Hp. unfold transform_by_elimination.
  assert (Hl : content d c <> []) by (intros X; rewrite X in Hp; destruct Hp).
  pose proof (live_wf d c H Hl) as [W1 W2].
  change (lits (cl d c)) with (content d c).
  destruct (Nat.eqb_spec (length (content d c)) 2) as [L2|L2].
  - destruct (content d c) as [|x [|y [|]]] eqn:Ec; cbn in L2; try lia. clear L2.
    assert (exists q, (if nth 0 [x; y] 0 =? p then swap_nth (A:=lit) 0 [x; y] 0 1 else [x; y]) = [q; p] /\
                      ([x; y] = [p; q] \/ [x; y] = [q; p])) as (q & Eq & Pq).
    { cbn [nth]. destruct (Nat.eqb_spec x p) as [->|Hx].
      - exists y. cbn. auto.
      - destruct Hp as [Hp|[Hp|[]]]; [congruence|]. subst. exists x; auto. }
    cbv zeta. rewrite Eq. eexists; eexists; split; [reflexivity|]. cbn [nth].
    apply elim_unit; rewrite ?Ec; auto; cbn; rewrite ?upd_same; cbn; auto.
    apply rewritten_intro; auto; try (rewrite Ec; discriminate).
    + split; auto. destruct Pq as [Pq|Pq]; injection Pq as -> ->; auto. cbn.
      cbn in W2. inversion W2; subst. constructor; [|repeat constructor; auto].
      intros [X|[]]. apply H2. left. auto.
    + intros x' Hx. cbn. now apply upd_other.
    + cbn. now rewrite upd_same.
    + destruct (db_links d H) as [W B]. split.
      * cbn. eapply WL_ext; [exact W|]. intros c' q'. unfold watched, upd.
        destruct (Nat.eqb_spec c' c) as [->|]; [|tauto]. rewrite Ec. cbn. lia.
      * cbn. eapply BL_ext; [exact B|]. intros l l' c'. unfold linked, upd.
        destruct (Nat.eqb_spec c' c) as [->|]; [|tauto]. rewrite Ec.
        destruct Pq as [->| ->]; [|tauto]. split; intros [X|X]; injection X as -> ->; auto.
    + unfold recount. rewrite Ec. cbn. rewrite upd_same. cbn. splits; try lia. left; auto.
  - assert (L3 : 3 <= length (content d c)) by lia. clear L2.
    pose proof (remove_lit_length p _ W2 Hp) as Ln.
    pose proof (map_filter_nodup (fun l : lit => negb (l =? p)) _ W2) as Wn.
    set (d0 := set_clause d c (set_sfrom (cl d c) 2)).
    assert (H0 : DbInv d0).
    { eapply DbInv_ext; eauto; intros x; unfold content, d0; cbn; unfold upd;
      destruct (Nat.eqb_spec x c) as [->|]; auto. }
    cbv zeta. set (new := filter (fun l : lit => negb (l =? p)) (content d c)) in *.
    destruct (Nat.eqb_spec (length new) 2) as [E2|E2].
    + destruct (bin_search d0 (nth 0 new 0) (nth 1 new 0)) as [b|] eqn:Eb.
      * change (bin_search d (nth 0 new 0) (nth 1 new 0) = Some b) in Eb.
        apply (bin_search_iff d H) in Eb.
        eexists; eexists; split; [reflexivity|].
        assert (En : new = [nth 0 new 0; nth 1 new 0]).
        { destruct new as [|x [|y [|]]]; cbn in E2; try lia. reflexivity. }
        apply elim_reg with (l0 := nth 0 new 0) (l1 := nth 1 new 0); auto; cbn; rewrite ?upd_same; auto.
        -- intros ->. destruct Eb as [X|X]; rewrite X in L3; cbn in L3; lia.
        -- apply rewritten_intro; auto.
           ++ split; auto. 
           ++ intros x Hx. cbn. now apply upd_other.
           ++ cbn. now rewrite upd_same.
           ++ eapply Links_ext; [apply (db_links d H)|..]; auto. intros x. unfold upd.
              destruct (Nat.eqb_spec x c) as [->|]; auto.
           ++ unfold recount. cbn. rewrite upd_same. cbn. splits; try lia. left; auto.
      * eexists; eexists; split; [reflexivity|].
        change (bin_search d (nth 0 new 0) (nth 1 new 0) = None) in Eb.
        apply elim_shrink; fold new; try lia; cbn; rewrite ?upd_same; cbn; rewrite ?upd_same; cbn; auto;
          try (rewrite E2; cbn; lia); try (rewrite <- app_assoc; auto; fail).
        apply rewritten_intro; auto.
        -- split; auto; lia.
        -- intros x Hx. cbn. now rewrite !upd_other.
        -- cbn. now rewrite upd_same.
        -- eapply Links_ext; [apply (to_binary_links d (content d) c new)|..]; auto.
           ++ apply (db_links d H).
           ++ split; auto.
           ++ split; auto; lia.
           ++ apply bin_search_none; auto.
        -- assert (LC : length (content d c) =? 2 = false) by (apply Nat.eqb_neq; lia).
           unfold recount. rewrite LC, E2. cbn. rewrite upd_same. cbn. splits; try lia. left; split; auto.
    + set (d1 := set_clause d0 c (set_lits (cl d0 c) new)).
      destruct (relink_elim_ok d1 (content d) c p) as (d2 & R & K & C1 & C2 & C3 & C4 & C5 & C6 & C7 & C8).
      { eapply Links_ext; [apply (db_links d H)|..]; auto. }
      { split; auto. }
      { lia. }
      { auto. }
      fold new in R, K. rewrite R.
      eexists; eexists; split; [reflexivity|].
      assert (Ln2 : length new =? 2 = false) by now apply Nat.eqb_neq.
      apply elim_shrink; fold new; try lia; cbn [log_add log_del set_cert cl n_cl n_bi n_lr n_bl cert];
        rewrite ?C1, ?C4, ?C5, ?C6, ?C7, ?C8, ?Ln2; cbn; rewrite ?upd_same; cbn; rewrite ?upd_same; cbn; auto;
        try (rewrite <- app_assoc; auto; fail).
      apply rewritten_intro; auto.
      * split; auto; lia.
      * intros x Hx. cbn. rewrite C1. cbn. now rewrite !upd_other.
      * cbn. rewrite C1. cbn. now rewrite upd_same.
      * assert (LC : length (content d c) =? 2 = false) by (apply Nat.eqb_neq; lia).
        unfold recount. rewrite LC, Ln2. cbn. rewrite C1, C4, C5, C6. cbn. rewrite !upd_same. cbn. splits; try lia. left; split; auto.
Qed.

(** ** watch updates made by propagation *)
Lemma swap_watch_spec : forall d c, DbInv d -> 3 <= length (content d c) ->
  Rewritten d (swap_watch d c) c (swap_nth (A:=lit) 0 (content d c) 0 1).
Proof.
  intros d c H L. assert (Hl : content d c <> []) by (intros X; rewrite X in L; cbn in L; lia).
  pose proof (live_wf d c H Hl) as [W1 W2].
  assert (P : Permutation (swap_nth (A:=lit) 0 (content d c) 0 1) (content d c)) by (apply swap_nth_perm; lia).
  apply rewritten_intro; auto.
  - split; [now rewrite swap_nth_length|]. eapply Permutation_NoDup; [|exact W2].
    apply Permutation_map. now symmetry.
  - intros x Hx. cbn. now apply upd_other.
  - cbn. rewrite upd_same. reflexivity.
  - destruct (db_links d H) as [W B]. split.
    + apply relc_final. eapply relc_ext; [apply relc_init; exact W|]. intros p. unfold watched.
      rewrite upd_same, swap_nth_length. destruct (content d c) as [|x [|y t]]; cbn in L; try lia. cbn. tauto.
    + apply BL_long; auto; rewrite ?swap_nth_length; lia.
  - unfold recount. rewrite swap_nth_length. cbn. rewrite upd_same. cbn. splits; auto.
Qed.

Lemma detach_WL : forall d R p i c q, WL (wat d) R -> nth_error (wat d p) i = Some (c, q) ->
  WL (wat (detach_watch d p i)) (fun c' p' => R c' p' /\ ~ (c' = c /\ p' = p)).
Proof.
  intros d R p i c q H E p'. cbn. unfold upd. destruct (Nat.eqb_spec p' p) as [->|Hp].
  - destruct (H p) as [N I]. apply nth_error_split in E as (l1 & l2 & E & Ei). rewrite E in *. subst i.
    pose proof (swap_remove_perm _ l1 (c, q) l2) as P.
    rewrite map_app in N. cbn [map fst] in N.
    pose proof (NoDup_remove_2 _ _ _ N) as Nx. apply NoDup_remove_1 in N. split.
    + eapply Permutation_NoDup; [apply Permutation_map, Permutation_sym; exact P|]. now rewrite map_app.
    + intros x. rewrite <- I. split.
      * intros X. apply (Permutation_in _ (Permutation_map _ P)) in X. rewrite map_app in X.
        split; [rewrite map_app; cbn; apply in_app_or in X; apply in_or_app; destruct X; [left|right;right]; auto|].
        intros [-> _]. auto.
      * intros [X Y]. apply (Permutation_in _ (Permutation_map _ (Permutation_sym P))). rewrite map_app.
        rewrite map_app in X. cbn in X. apply in_or_app. apply in_app_or in X as [X|[X|X]]; auto.
        elim Y. auto.
  - destruct (H p') as [N I]. split; auto. intros x. rewrite I. intuition congruence.
Qed.

Lemma swap_heads : forall ls old new, old < 2 -> 2 <= new < length ls ->
  nth old (swap_nth (A:=lit) 0 ls old new) 0 = nth new ls 0 /\
  nth (1 - old) (swap_nth (A:=lit) 0 ls old new) 0 = nth (1 - old) ls 0.
Proof.
  intros ls old new Ho Hn. unfold swap_nth. split.
  - rewrite nth_list_set_other by lia. apply nth_list_set_same. lia.
  - rewrite !nth_list_set_other by lia. reflexivity.
Qed.

Lemma move_watch_spec : forall d p i c q old new, DbInv d -> old < 2 -> 2 <= new < length (content d c) ->
  p = neg (nth old (content d c) 0) -> nth_error (wat d p) i = Some (c, q) ->
  Rewritten d (update_watch_pos (detach_watch d p i) c old new true) c (swap_nth (A:=lit) 0 (content d c) old new).
Proof.
  intros d p i c q old new H Ho Hn Hp Hi.
  assert (Hl : content d c <> []) by (intros X; rewrite X in Hn; cbn in Hn; lia).
  pose proof (live_wf d c H Hl) as [W1 W2].
  assert (P : Permutation (swap_nth (A:=lit) 0 (content d c) old new) (content d c)) by (apply swap_nth_perm; lia).
  assert (N' : NoDup (map vi (swap_nth (A:=lit) 0 (content d c) old new))).
  { eapply Permutation_NoDup; [|exact W2]. apply Permutation_map. now symmetry. }
  unfold update_watch_pos. cbn [cl detach_watch set_wat]. change (lits (cl d c)) with (content d c).
  apply rewritten_intro; auto.
  - split; auto. now rewrite swap_nth_length.
  - intros x Hx. cbn. now apply upd_other.
  - cbn. now rewrite upd_same.
  - destruct (db_links d H) as [W B]. split; [|apply BL_long; auto; rewrite ?swap_nth_length; lia].
    destruct (swap_heads (content d c) old new Ho Hn) as [S1 S2].
    pose proof (detach_WL d _ p i c q W Hi) as D.
    assert (Hno : neg (nth 0 (content d c) 0) <> neg (nth 1 (content d c) 0)) by (apply neg_first_two; auto).
    pose proof (neg_first_two (swap_nth (A:=lit) 0 (content d c) old new) N' ltac:(rewrite swap_nth_length; lia)) as Hnn.
    apply relc_final.
    eapply relc_ext; [apply (relc_insert (detach_watch d p i) (content d) c (fun z => z = neg (nth (1 - old) (content d c) 0)))|].
    + eapply WL_ext; [exact D|]. intros c' p'. cbv beta. unfold relc.
      destruct (Nat.eqb_spec c' c) as [->|Hc]; [|intuition congruence].
      unfold watched. rewrite Hp. destruct old as [|[|]]; cbn [Nat.sub]; lia.
    + rewrite <- S1, <- S2. destruct old as [|[|]]; cbn [Nat.sub]; try lia; congruence.
    + intros z. cbv beta. unfold watched. rewrite upd_same, swap_nth_length.
      rewrite <- S1, <- S2. destruct old as [|[|]]; cbn [Nat.sub]; try lia; intuition (auto; lia).
  - unfold recount. rewrite swap_nth_length. cbn. rewrite upd_same. cbn. splits; auto.
Qed.

Lemma recache_inv : forall d p i q, DbInv d -> DbInv (recache_watch d p i q) /\
  cl (recache_watch d p i q) = cl d.
Proof.
  intros d p i q H. split; [|reflexivity].
  assert (F : forall ws i, map fst (list_set ws i (fst (nth i ws (0, 0)), q)) = map fst ws).
  { clear. induction ws as [|x ws IH]; intros [|i]; cbn; auto. now rewrite IH. }
  destruct (db_links d H) as [W B]. destruct H. constructor; auto. split; [|exact B].
  intros p'. cbn. unfold upd. destruct (p' =? p) eqn:E; [|apply W].
  apply Nat.eqb_eq in E. subst p'. rewrite F. apply W.
Qed.

(** ** reduce *)
Lemma lbd_all_same : forall level d, same_db d (lbd_all level d).
Proof.
  intros level d. unfold lbd_all. generalize (seq 1 (ncl d - 1)). intros l.
  assert (G : forall l d0, same_db d d0 -> same_db d (fold_left (fun d c => if dead d c then d else update_lbd d level c) l d0)).
  { induction l0 as [|c l0 IH]; intros d0 S; cbn [fold_left]; auto. apply IH.
    destruct (dead d0 c); auto. eapply same_db_trans; [exact S|]. apply update_lbd_same. }
  apply G, same_db_refl.
Qed.

End Ops.

(** the sandboxed removal keeps the counters as they are *)
Lemma remove_sandbox_spec : forall d c, @DbInv None d -> content d c <> [] ->
  @Removed None d (remove_clause_sandbox d c) c /\
  n_cl (remove_clause_sandbox d c) = n_cl d /\ n_bi (remove_clause_sandbox d c) = n_bi d /\
  n_lr (remove_clause_sandbox d c) = n_lr d /\ n_bl (remove_clause_sandbox d c) = n_bl d /\
  cert (remove_clause_sandbox d c) = cert d.
Proof.
  intros d c H Hl. unfold remove_clause_sandbox.
  destruct (unlink_clause_cl d c) as (C1 & C2 & C3 & C4 & C5 & C6 & C7 & C8 & _).
  set (U := unlink_clause d c) in *. cbv zeta. split.
  - apply removed_intro; auto; cbn; rewrite ?C1, ?upd_same; cbn; try congruence;
      try (intros x Hx; rewrite upd_other; auto; fail); try reflexivity; intros X; elim X; reflexivity.
  - cbn. splits; auto.
Qed.

(** the solver never uses the sandboxed operations, but the eliminator clears LEARNT flags *)
Definition loose_counters : Mode := None.
#[global] Instance run_counters : Mode := Some false.
