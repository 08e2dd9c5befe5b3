(** Representation invariant of the clause database and its preservation. *)
From Coq Require Import List Arith Bool Lia Permutation.
From Verif Require Import Base HeapModel AsgModel EmaModel EmaProofs LitFacts CdbModel.
Import ListNotations.

(** ** generic facts on deletion from association lists *)
Lemma delete_unstable_in : forall (A : Type) (ws : list (nat * A)) c,
  NoDup (map fst ws) ->
  NoDup (map fst (delete_unstable (fun e => fst e =? c) ws)) /\
  (forall x, In x (delete_unstable (fun e => fst e =? c) ws) <-> In x ws /\ fst x <> c).
Proof.
  intros A ws c N. unfold delete_unstable.
  destruct (position (fun e => fst e =? c) ws) as [i|] eqn:E.
  - apply position_some in E. destruct E as (a & x & b & E1 & E2 & E3 & E4).
    subst ws. subst i. apply Nat.eqb_eq in E3.
    pose proof (swap_remove_perm _ a x b) as P.
    rewrite map_app in N. cbn [map] in N.
    pose proof (NoDup_remove_2 _ _ _ N) as Nx. apply NoDup_remove_1 in N.
    split.
    + eapply Permutation_NoDup; [apply Permutation_map, Permutation_sym; exact P|].
      now rewrite map_app.
    + intros y. split.
      * intros Hy. apply (Permutation_in _ P) in Hy.
        split; [apply in_app_or in Hy; apply in_or_app; destruct Hy; [left|right; right]; auto|].
        intros Ec. apply Nx. rewrite E3, <- Ec, <- map_app. apply in_map; auto.
      * intros [Hy Hc]. apply (Permutation_in _ (Permutation_sym P)).
        apply in_app_or in Hy as [Hy|[->|Hy]]; [| congruence |]; apply in_or_app; auto.
  - split; auto. intros x. split; [|tauto]. intros Hx. split; auto.
    pose proof (position_none _ _ _ E x Hx) as F. cbn in F. now apply Nat.eqb_neq in F.
Qed.

Lemma in_map_fst : forall (A : Type) (ws : list (nat * A)) c,
  In c (map fst ws) <-> exists x, In (c, x) ws.
Proof.
  intros. rewrite in_map_iff. split.
  - intros ([c' x] & E & H). cbn in E. subst. eauto.
  - intros (x & H). exists (c, x). auto.
Qed.

Lemma remove_watch_spec : forall ws c, NoDup (map fst ws) ->
  NoDup (map fst (remove_watch ws c)) /\
  (forall x, In x (map fst (remove_watch ws c)) <-> In x (map fst ws) /\ x <> c).
Proof.
  intros ws c N. destruct (delete_unstable_in _ ws c N) as [A B]. split; auto.
  intros x. rewrite !in_map_fst. split.
  - intros (y & Hy). apply B in Hy. cbn in Hy. destruct Hy. split; eauto.
  - intros [(y & Hy) Hx]. exists y. apply B. auto.
Qed.

Lemma NoDup_snoc_iff : forall (A : Type) (l : list A) x, NoDup l -> ~ In x l -> NoDup (l ++ [x]).
Proof.
  intros A l x N H. apply (Permutation_NoDup (l := x :: l)).
  - apply Permutation_cons_append.
  - constructor; auto.
Qed.

Lemma insert_watch_spec : forall ws c l, NoDup (map fst ws) -> ~ In c (map fst ws) ->
  NoDup (map fst (insert_watch ws c l)) /\
  (forall x, In x (map fst (insert_watch ws c l)) <-> In x (map fst ws) \/ x = c).
Proof.
  intros ws c l N H. unfold insert_watch. rewrite map_app. cbn [map fst]. split.
  - now apply NoDup_snoc_iff.
  - intros x. rewrite in_app_iff. simpl. intuition.
Qed.

Lemma update_watch_fst : forall ws c l, map fst (update_watch ws c l) = map fst ws.
Proof.
  induction ws as [|e ws IH]; intros c l; cbn; auto. destruct (fst e =? c); cbn; auto. now rewrite IH.
Qed.

(** ** the watch lists as a relation: clause [c] is registered under [p] *)
Definition WL (w : lit -> list (nat * lit)) (R : nat -> lit -> Prop) : Prop :=
  forall p, NoDup (map fst (w p)) /\ forall c, In c (map fst (w p)) <-> R c p.

Lemma WL_ext : forall w R R', WL w R -> (forall c p, R c p <-> R' c p) -> WL w R'.
Proof. intros w R R' H E p. destruct (H p) as [A B]. split; auto. intros c. now rewrite B. Qed.

Lemma WL_remove : forall d R p c, WL (wat d) R ->
  WL (wat (w_remove d p c)) (fun c' p' => R c' p' /\ ~ (c' = c /\ p' = p)).
Proof.
  intros d R p c H q. cbn. unfold upd. destruct (Nat.eqb_spec q p) as [->|E].
  - destruct (H p) as [A B]. destruct (remove_watch_spec (wat d p) c A) as [A' B'].
    split; auto. intros x. rewrite B', B. intuition congruence.
  - destruct (H q) as [A B]. split; auto. intros x. rewrite B. intuition congruence.
Qed.

Lemma WL_insert : forall d R p c l, WL (wat d) R -> ~ R c p ->
  WL (wat (w_insert d p c l)) (fun c' p' => R c' p' \/ (c' = c /\ p' = p)).
Proof.
  intros d R p c l H Hn q. cbn. unfold upd. destruct (Nat.eqb_spec q p) as [->|E].
  - destruct (H p) as [A B]. destruct (insert_watch_spec (wat d p) c l A) as [A' B'].
    { rewrite B. auto. }
    split; auto. intros x. rewrite B', B. intuition congruence.
  - destruct (H q) as [A B]. split; auto. intros x. rewrite B. intuition congruence.
Qed.

Lemma WL_update : forall d R p c l, WL (wat d) R -> WL (wat (w_update d p c l)) R.
Proof.
  intros d R p c l H q. cbn. unfold upd. destruct (Nat.eqb_spec q p) as [->|E]; [|apply H].
  rewrite update_watch_fst. apply H.
Qed.

(** ** the binary index as a relation: {l, l'} is the clause [c] *)
Definition BL (bl : lit -> list (lit * nat)) (bm : lit -> lit -> option nat)
  (B : lit -> lit -> nat -> Prop) : Prop :=
  (forall l, NoDup (map fst (bl l))) /\
  (forall l l' c, In (l', c) (bl l) <-> B l l' c) /\
  (forall l l' c, bm (Nat.min l l') (Nat.max l l') = Some c <-> B l l' c).

Lemma BL_ext : forall bl bm B B', BL bl bm B -> (forall l l' c, B l l' c <-> B' l l' c) -> BL bl bm B'.
Proof.
  intros bl bm B B' (H1 & H2 & H3) E. split; [exact H1|]. split; intros; [rewrite H2|rewrite H3]; apply E.
Qed.

Lemma minmax_eq : forall a b x y : nat, a <> b ->
  (Nat.min x y = Nat.min a b /\ Nat.max x y = Nat.max a b <-> (x = a /\ y = b) \/ (x = b /\ y = a)).
Proof. intros; lia. Qed.

Lemma BL_sym : forall bl bm B l l' c, BL bl bm B -> B l l' c -> B l' l c.
Proof.
  intros bl bm B l l' c (H1 & H2 & H3) H. apply H3. apply H3 in H.
  now rewrite Nat.min_comm, Nat.max_comm.
Qed.
Lemma BL_fun : forall bl bm B l l' c c', BL bl bm B -> B l l' c -> B l l' c' -> c = c'.
Proof. intros bl bm B l l' c c' (_ & _ & H3) H H'. apply H3 in H, H'. congruence. Qed.

Lemma BL_add : forall d B a b c, BL (bil d) (bmap d) B -> a <> b -> (forall c', ~ B a b c') ->
  BL (bil (bin_add d a b c)) (bmap (bin_add d a b c))
     (fun l l' c' => B l l' c' \/ (c' = c /\ ((l = a /\ l' = b) \/ (l = b /\ l' = a)))).
Proof.
  intros d B a b c HB Hab Hn. pose proof HB as (H1 & H2 & H3).
  assert (Hn' : forall c', ~ B b a c') by (intros c' X; apply (Hn c'); eapply BL_sym; eauto).
  assert (Na : ~ In b (map fst (bil d a))).
  { intros X. apply in_map_fst in X as (x & X). apply H2 in X. eapply Hn; eauto. }
  assert (Nb : ~ In a (map fst (bil d b))).
  { intros X. apply in_map_fst in X as (x & X). apply H2 in X. eapply Hn'; eauto. }
  unfold bin_add, BL. cbn. unfold upd, upd2. splits.
  - intros l. destruct (Nat.eqb_spec l b) as [->|E].
    + destruct (Nat.eqb_spec b a); [congruence|]. rewrite map_app. cbn. apply NoDup_snoc_iff; auto.
    + destruct (Nat.eqb_spec l a) as [->|E']; auto. rewrite map_app. cbn. apply NoDup_snoc_iff; auto.
  - intros l l' c'. rewrite <- H2. destruct (Nat.eqb_spec l b) as [->|E].
    + destruct (Nat.eqb_spec b a); [congruence|]. rewrite in_app_iff. cbn.
      split; [intros [X|[X|[]]]; auto; injection X as <- <-; auto|].
      intros [X|[-> [[X _]|[_ ->]]]]; auto.
    + destruct (Nat.eqb_spec l a) as [->|E'].
      * rewrite in_app_iff. cbn.
        split; [intros [X|[X|[]]]; auto; injection X as <- <-; auto|].
        intros [X|[-> [[_ ->]|[X _]]]]; auto.
      * split; auto. intros [X|[_ [[X _]|[X _]]]]; auto; congruence.
  - intros l l' c'. 
    destruct ((Nat.min l l' =? Nat.min a b) && (Nat.max l l' =? Nat.max a b)) eqn:E.
    + apply andb_true_iff in E as [E1 E2]. apply Nat.eqb_eq in E1, E2.
      assert (X : (l = a /\ l' = b) \/ (l = b /\ l' = a)) by (apply minmax_eq; auto).
      split; [intros Y; injection Y as <-; auto|].
      intros [Y|[-> _]]; auto. exfalso. destruct X as [[-> ->]|[-> ->]]; [eapply Hn|eapply Hn']; eauto.
    + rewrite H3. split; auto. intros [Y|[-> X]]; auto. exfalso.
      apply andb_false_iff in E. rewrite !Nat.eqb_neq in E.
      apply minmax_eq in X; auto. tauto.
Qed.

Lemma BL_remove : forall d B a b, BL (bil d) (bmap d) B -> a <> b ->
  BL (bil (bin_remove d a b)) (bmap (bin_remove d a b))
     (fun l l' c' => B l l' c' /\ ~ ((l = a /\ l' = b) \/ (l = b /\ l' = a))).
Proof.
  intros d B a b HB Hab. pose proof HB as (H1 & H2 & H3).
  unfold bin_remove, BL. cbn. unfold upd, upd2.
  destruct (delete_unstable_in _ (bil d a) b (H1 a)) as [Da1 Da2].
  destruct (delete_unstable_in _ (bil d b) a (H1 b)) as [Db1 Db2].
  splits.
  - intros l. destruct (Nat.eqb_spec l b) as [->|E].
    + destruct (Nat.eqb_spec b a); [congruence|]. auto.
    + destruct (Nat.eqb_spec l a) as [->|E']; auto.
  - intros l l' c'. rewrite <- H2. destruct (Nat.eqb_spec l b) as [->|E].
    + destruct (Nat.eqb_spec b a); [congruence|]. rewrite Db2. cbn. intuition congruence.
    + destruct (Nat.eqb_spec l a) as [->|E'].
      * rewrite Da2. cbn. intuition congruence.
      * intuition congruence.
  - intros l l' c'.
    destruct ((Nat.min l l' =? Nat.min a b) && (Nat.max l l' =? Nat.max a b)) eqn:E.
    + apply andb_true_iff in E as [E1 E2]. apply Nat.eqb_eq in E1, E2.
      assert (X : (l = a /\ l' = b) \/ (l = b /\ l' = a)) by (apply minmax_eq; auto).
      split; [discriminate|]. tauto.
    + rewrite H3. split; [|tauto]. intros Y. split; auto. intros X.
      apply andb_false_iff in E. rewrite !Nat.eqb_neq in E.
      apply minmax_eq in X; auto. tauto.
Qed.

(** ** what the registrations must be for given clause contents *)
Definition watched (E : nat -> list lit) (c : nat) (p : lit) : Prop :=
  3 <= length (E c) /\ (p = neg (nth 0 (E c) 0) \/ p = neg (nth 1 (E c) 0)).
Definition linked (E : nat -> list lit) (l l' : lit) (c : nat) : Prop :=
  E c = [l; l'] \/ E c = [l'; l].

Definition Links (d : cdb) (E : nat -> list lit) : Prop :=
  WL (wat d) (watched E) /\ BL (bil d) (bmap d) (linked E).

Definition content (d : cdb) : nat -> list lit := fun c => lits (cl d c).

(** *** counting clauses *)
(** number of clause ids with the property [P] *)
Definition cnt (P : nat -> bool) (n : nat) : nat := length (filter P (seq 0 n)).

Lemma cnt_S : forall P n, cnt P (S n) = cnt P n + (if P n then 1 else 0).
Proof.
  intros. unfold cnt. rewrite seq_S, filter_app, app_length. cbn. destruct (P n); reflexivity.
Qed.
Lemma cnt_ext : forall P Q n, (forall x, x < n -> P x = Q x) -> cnt P n = cnt Q n.
Proof. intros P Q n H. induction n as [|n IH]; auto. rewrite !cnt_S, IH, H by auto. reflexivity. Qed.
Lemma cnt_change : forall P Q n c, c < n -> (forall x, x <> c -> P x = Q x) ->
  cnt Q n + (if P c then 1 else 0) = cnt P n + (if Q c then 1 else 0).
Proof.
  intros P Q n c Hc H. induction n as [|n IH]; [lia|]. rewrite !cnt_S.
  destruct (Nat.eq_dec n c) as [->|Hn].
  - rewrite (cnt_ext P Q c); [lia|]. intros x Hx. apply H. lia.
  - rewrite (H n Hn). specialize (IH ltac:(lia)). lia.
Qed.
Lemma cnt_grow : forall P n n', n <= n' -> (forall x, n <= x < n' -> P x = false) -> cnt P n' = cnt P n.
Proof.
  intros P n n' H Z. induction H as [|n' H IH]; auto. rewrite cnt_S, Z by lia. rewrite IH; [lia|].
  intros x Hx. apply Z. lia.
Qed.

Definition is_live (d : cdb) (c : nat) : bool := negb (dead d c).
Definition is_binary (d : cdb) (c : nat) : bool := length (lits (cl d c)) =? 2.
Definition is_learnt (d : cdb) (c : nat) : bool := negb (dead d c) && lrn (cl d c).

(** the counters of clauses and binary clauses are exact, that of learnt clauses is not
    too small, and exact if [e] *)
Definition CntInv (e : bool) (d : cdb) : Prop :=
  n_cl d = cnt (is_live d) (ncl d) /\ n_bi d = cnt (is_binary d) (ncl d) /\
  cnt (is_learnt d) (ncl d) <= n_lr d /\ (e = true -> n_lr d = cnt (is_learnt d) (ncl d)).

Lemma is_live_content : forall d c, is_live d c = match content d c with [] => false | _ => true end.
Proof. intros. unfold is_live, dead, content. destruct (lits (cl d c)); auto. Qed.

Lemma cnt_step : forall d d' c, c < ncl d' -> ncl d <= ncl d' -> (forall x, ncl d <= x -> content d x = []) ->
  (forall x, x <> c -> cl d' x = cl d x) ->
  cnt (is_live d') (ncl d') + (if is_live d c then 1 else 0) = cnt (is_live d) (ncl d) + (if is_live d' c then 1 else 0) /\
  cnt (is_binary d') (ncl d') + (if is_binary d c then 1 else 0) = cnt (is_binary d) (ncl d) + (if is_binary d' c then 1 else 0) /\
  cnt (is_learnt d') (ncl d') + (if is_learnt d c then 1 else 0) = cnt (is_learnt d) (ncl d) + (if is_learnt d' c then 1 else 0).
Proof.
  intros d d' c Hc Hn Z O.
  rewrite <- (cnt_grow (is_live d) (ncl d) (ncl d')), <- (cnt_grow (is_binary d) (ncl d) (ncl d')),
          <- (cnt_grow (is_learnt d) (ncl d) (ncl d')); auto.
  - splits; apply cnt_change; auto; intros x Hx; unfold is_live, is_binary, is_learnt, dead; now rewrite O.
  - intros x [Hx _]. apply Z in Hx. unfold is_learnt, dead. unfold content in Hx. now rewrite Hx.
  - intros x [Hx _]. apply Z in Hx. unfold is_binary, content in *. now rewrite Hx.
  - intros x [Hx _]. apply Z in Hx. unfold is_live, dead. unfold content in Hx. now rewrite Hx.
Qed.

Lemma cnt_pos : forall P n c, c < n -> P c = true -> 1 <= cnt P n.
Proof.
  intros P n c Hc Hp. induction n as [|n IH]; [lia|]. rewrite cnt_S.
  destruct (Nat.eq_dec n c) as [->|]; [rewrite Hp; lia|]. specialize (IH ltac:(lia)). lia.
Qed.

Lemma live_nonnil : forall d c, content d c <> [] -> is_live d c = true.
Proof. intros d c H. rewrite is_live_content. destruct (content d c); congruence. Qed.
Lemma dead_nil : forall d c, content d c = [] -> is_live d c = false /\ is_binary d c = false /\ is_learnt d c = false.
Proof.
  intros d c H. unfold is_live, is_binary, is_learnt, dead. unfold content in H. rewrite H. auto.
Qed.
Lemma learnt_live : forall d c, content d c <> [] -> is_learnt d c = lrn (cl d c).
Proof. intros d c H. unfold is_learnt, dead. unfold content in H. destruct (lits (cl d c)); [congruence|reflexivity]. Qed.


(** The kind of history behind a database: [None] if sandboxed operations, which use dummy
    counters, have taken place; [Some true] if only the other operations of the clause
    database have; [Some false] if moreover the eliminator may have cleared the LEARNT flag
    of a clause directly (subsume.rs:31). *)
Class Mode := mode : option bool.

Section Inv.
Context {md : Mode}.

Record DbInv (d : cdb) : Prop := mkDbInv {
  db_ncl : 1 <= ncl d;
  db_zero : content d 0 = [];
  db_range : forall c, ncl d <= c -> content d c = [];
  db_free_nodup : NoDup (free d);
  db_free_in : forall c, In c (free d) -> 1 <= c < ncl d /\ content d c = [];
  db_len : forall c, content d c <> [] -> 2 <= length (content d c);
  db_vars : forall c, NoDup (map vi (content d c));
  db_links : Links d (content d);
  db_cnt : forall e, mode = Some e -> CntInv e d
}.

Lemma Links_ext : forall d d' E E', Links d E -> wat d' = wat d -> bil d' = bil d -> bmap d' = bmap d ->
  (forall c, E' c = E c) -> Links d' E'.
Proof.
  intros d d' E E' [W B] H1 H2 H3 H. unfold Links. rewrite H1, H2, H3. split.
  - eapply WL_ext; eauto. intros c p. unfold watched. now rewrite H.
  - eapply BL_ext; eauto. intros l l' c. unfold linked. now rewrite H.
Qed.

Lemma nodup_first_two : forall ls, NoDup (map vi ls) -> 2 <= length ls ->
  nth 0 ls 0 <> nth 1 ls 0 /\ vi (nth 0 ls 0) <> vi (nth 1 ls 0).
Proof.
  intros [|a [|b ls]] N H; simpl in H; try lia. cbn in *. inversion N; subst.
  assert (vi a <> vi b) by (intros E; apply H2; left; auto). split; auto; intros X; apply H; now rewrite X.
Qed.

Lemma neg_first_two : forall ls, NoDup (map vi ls) -> 2 <= length ls ->
  neg (nth 0 ls 0) <> neg (nth 1 ls 0).
Proof. intros ls N H E. apply neg_inj in E. destruct (nodup_first_two ls N H); auto. Qed.

(** unlinking clause [c] *)
Lemma unlink_spec : forall d E c, Links d E -> E c = lits (cl d c) -> NoDup (map vi (E c)) ->
  2 <= length (E c) -> Links (unlink_clause d c) (upd E c []).
Proof.
  intros d E c [W B] Ec N L. unfold unlink_clause, lit0, lit1. rewrite <- Ec.
  destruct (nodup_first_two _ N L) as [Hne _]. 
  destruct (Nat.eqb_spec (length (E c)) 2) as [L2|L2].
  - assert (Ec2 : E c = [nth 0 (E c) 0; nth 1 (E c) 0]).
    { destruct (E c) as [|a [|b [|]]]; simpl in L2; try lia. reflexivity. }
    split.
    + cbn. eapply WL_ext; [exact W|]. intros c' p. unfold watched, upd.
      destruct (Nat.eqb_spec c' c) as [->|]; [|tauto]. cbn. rewrite L2. lia.
    + eapply BL_ext; [apply BL_remove; eauto|]. intros l l' c'. unfold linked, upd. cbv beta.
      destruct (Nat.eqb_spec c' c) as [->|Hc].
      * rewrite Ec2 at 1 2. split.
        -- intros [[X|X] Y]; injection X as X1 X2; exfalso; apply Y; [left|right]; auto.
        -- intros [X|X]; discriminate.
      * split; [tauto|]. intros X. split; auto. intros Y. apply Hc.
        apply (BL_fun _ _ _ l l' c' c B); [exact X|]. unfold linked. rewrite Ec2.
        destruct Y as [[-> ->]|[-> ->]]; auto.
  - split.
    + eapply WL_ext; [apply WL_remove, WL_remove; exact W|].
      intros c' p. unfold watched, upd. cbv beta. destruct (Nat.eqb_spec c' c) as [->|Hc].
      * cbn [length nth]. split; [|intros [X _]; simpl in X; lia].
        intros [[[_ [X|X]] Y] Z]; exfalso; [apply Y|apply Z]; auto.
      * split; [tauto|]. intros X. split; [split; auto|]; intros [Y _]; congruence.
    + cbn. eapply BL_ext; [exact B|]. intros l l' c'. unfold linked, upd.
      destruct (Nat.eqb_spec c' c) as [->|]; [|tauto].
      split; intros [X|X]; try discriminate; rewrite X in L2; cbn in L2; lia.
Qed.

(** linking clause [c] *)
Lemma link_spec : forall d E c, Links d E -> E c = [] -> NoDup (map vi (lits (cl d c))) ->
  2 <= length (lits (cl d c)) ->
  (length (lits (cl d c)) = 2 -> forall c', ~ linked E (lit0 (cl d c)) (lit1 (cl d c)) c') ->
  Links (link_clause d c) (upd E c (lits (cl d c))).
Proof.
  intros d E c [W B] Ec N L Hnew. unfold link_clause, lit0, lit1 in *.
  set (ls := lits (cl d c)) in *.
  destruct (nodup_first_two _ N L) as [Hne _]. pose proof (neg_first_two _ N L) as Hnn.
  destruct (Nat.eqb_spec (length ls) 2) as [L2|L2].
  - assert (Ec2 : ls = [nth 0 ls 0; nth 1 ls 0]).
    { destruct ls as [|a [|b [|]]]; simpl in L2; try lia. reflexivity. }
    split.
    + cbn. eapply WL_ext; [exact W|]. intros c' p. unfold watched, upd.
      destruct (Nat.eqb_spec c' c) as [->|]; [|tauto]. rewrite Ec. simpl. lia.
    + eapply BL_ext; [apply BL_add; eauto|]. intros l l' c'. unfold linked, upd. cbv beta.
      destruct (Nat.eqb_spec c' c) as [->|Hc].
      * rewrite Ec. rewrite Ec2 at 1 2. split.
        -- intros [[X|X]|[_ [[-> ->]|[-> ->]]]]; auto; discriminate.
        -- rewrite Ec2 at 1 2. cbn [nth]. intros [X|X]; injection X as X1 X2; right; split; auto.
      * split; [intros [X|[X _]]; auto; congruence|tauto].
  - split.
    + eapply WL_ext; [apply WL_insert; [apply WL_insert; [exact W|]|]|].
      * unfold watched. rewrite Ec. simpl. lia.
      * cbv beta. intros [X|[_ X]].
        -- unfold watched in X. rewrite Ec in X. simpl in X. lia.
        -- congruence.
      * intros c' p. unfold watched, upd. cbv beta. destruct (Nat.eqb_spec c' c) as [->|Hc].
        -- rewrite Ec. simpl. split.
           ++ intros [[[X _]|[_ X]]|[_ X]]; try lia; split; auto; lia.
           ++ intros [_ [X|X]]; auto.
        -- split; [intros [[X|[X _]]|[X _]]; auto; congruence|tauto].
    + cbn. eapply BL_ext; [exact B|]. intros l l' c'. unfold linked, upd.
      destruct (Nat.eqb_spec c' c) as [->|]; [|tauto]. rewrite Ec.
      split; intros [X|X]; try discriminate; rewrite X in L2; cbn in L2; lia.
Qed.

(** ** basic consequences *)
Lemma bin_search_iff : forall d, DbInv d -> forall l l' c,
  bin_search d l l' = Some c <-> content d c = [l; l'] \/ content d c = [l'; l].
Proof. intros d H l l' c. destruct (db_links d H) as [_ (_ & _ & B)]. apply B. Qed.

Lemma bin_search_none : forall d, DbInv d -> forall l l',
  bin_search d l l' = None <-> forall c, ~ linked (content d) l l' c.
Proof.
  intros d H l l'. split.
  - intros E c X. apply (bin_search_iff d H) in X. congruence.
  - intros X. destruct (bin_search d l l') eqn:E; auto. apply (bin_search_iff d H) in E.
    exfalso. exact (X n E).
Qed.

(** update_lbd touches only rank and scratch *)
Definition same_db (d d' : cdb) : Prop :=
  (forall c, lits (cl d' c) = lits (cl d c) /\ lrn (cl d' c) = lrn (cl d c) /\
             cenq (cl d' c) = cenq (cl d c) /\ cocc (cl d' c) = cocc (cl d c) /\
             sfrom (cl d' c) = sfrom (cl d c)) /\
  ncl d' = ncl d /\ free d' = free d /\ bil d' = bil d /\ bmap d' = bmap d /\ wat d' = wat d /\
  n_cl d' = n_cl d /\ n_bi d' = n_bi d /\ n_lr d' = n_lr d /\ n_bl d' = n_bl d /\ cert d' = cert d.
Lemma same_db_refl : forall d, same_db d d.
Proof. intros; unfold same_db; splits; auto. Qed.
Lemma same_db_trans : forall a b c, same_db a b -> same_db b c -> same_db a c.
Proof.
  unfold same_db. intros a b c (A & A') (B & B'). split.
  - intros x. specialize (A x). specialize (B x). intuition congruence.
  - intuition congruence.
Qed.

Lemma update_lbd_same : forall d level c, same_db d (update_lbd d level c).
Proof.
  intros. unfold update_lbd. destruct (lbd_of level (lits (cl d c)) (lbdt d)) as [t r].
  unfold same_db; cbn; splits; auto. intros x. unfold upd.
  destruct (Nat.eqb_spec x c) as [->|]; cbn; auto.
Qed.

Lemma same_content : forall d d', same_db d d' -> forall c, content d' c = content d c.
Proof. intros d d' (S1 & _) c. apply S1. Qed.

Lemma cnt_le : forall P Q n, (forall x, x < n -> P x = true -> Q x = true) -> cnt P n <= cnt Q n.
Proof.
  intros P Q n H. induction n as [|n IH]; auto. rewrite !cnt_S. specialize (IH ltac:(auto)). pose proof (H n ltac:(lia)).
  destruct (P n); [rewrite H0 by auto|]; lia.
Qed.
Lemma CntInv_ext : forall e d d', CntInv e d -> (forall c, content d' c = content d c) ->
  (forall c, lrn (cl d' c) = true -> lrn (cl d c) = true) -> (e = true -> forall c, lrn (cl d' c) = lrn (cl d c)) ->
  ncl d' = ncl d -> n_cl d' = n_cl d -> n_bi d' = n_bi d -> n_lr d' = n_lr d -> CntInv e d'.
Proof.
  intros e d d' (A & B & C & D) X Y Z S2 S7 S8 S9. unfold content in X.
  unfold CntInv. rewrite S2, S7, S8, S9. splits.
  - rewrite A. apply cnt_ext. intros x _. unfold is_live, dead. now rewrite X.
  - rewrite B. apply cnt_ext. intros x _. unfold is_binary. now rewrite X.
  - eapply Nat.le_trans; [|exact C]. apply cnt_le. intros x _. unfold is_learnt, dead. rewrite X.
    rewrite !andb_true_iff. intros [U V]. auto.
  - intros E. rewrite (D E). apply cnt_ext. intros x _. unfold is_learnt, dead. now rewrite X, Z.
Qed.

Lemma DbInv_ext : forall d d', DbInv d -> (forall c, content d' c = content d c) ->
  ncl d' = ncl d -> free d' = free d -> bil d' = bil d -> bmap d' = bmap d -> wat d' = wat d ->
  (forall c, lrn (cl d' c) = lrn (cl d c)) -> n_cl d' = n_cl d -> n_bi d' = n_bi d -> n_lr d' = n_lr d -> DbInv d'.
Proof.
  intros d d' H Ec S2 S3 S4 S5 S6 S7 S8 S9 S10.
  assert (CE : forall e, CntInv e d -> CntInv e d') by (intros e K; eapply CntInv_ext; eauto; intros c; now rewrite S7).
  destruct H. constructor; rewrite ?S2, ?S3; auto.
  - rewrite Ec; auto.
  - intros c Hc. rewrite Ec; auto.
  - intros c Hc. rewrite Ec; auto.
  - intros c. rewrite Ec; auto.
  - intros c. rewrite Ec; auto.
  - eapply Links_ext; eauto.
Qed.

Lemma DbInv_same : forall d d', DbInv d -> same_db d d' -> DbInv d'.
Proof.
  intros d d' H S. pose proof (same_content _ _ S). destruct S as (S1 & S2 & S3 & S4 & S5 & S6 & S7 & S8 & S9 & _).
  eapply DbInv_ext; eauto. intros c. apply S1.
Qed.

Lemma cdb_new_inv : DbInv cdb_new.
Proof.
  constructor; cbn; auto.
  - constructor.
  - intros c [].
  - intros c H. unfold content in H. cbn in H. congruence.
  - intros. constructor.
  - split.
    + intros p. cbn. split; [constructor|]. intros c. unfold watched, content. cbn. lia.
    + unfold BL. cbn. split; [intros; constructor|]. unfold linked, content; cbn.
      split; intros l l' c; split; try tauto; try discriminate; intros [H|H]; discriminate.
  - intros e _. unfold CntInv. cbn. auto.
Qed.

(** ** new_clause *)
(** a clause that may be stored: two or more literals, no variable twice *)
Definition wf_lits (ls : list lit) : Prop := 2 <= length ls /\ NoDup (map vi ls).

Lemma store_spec : forall d vec d1 c, DbInv d -> store_clause d vec = (d1, c) ->
  1 <= c /\ c < ncl d1 /\ content d c = [] /\ ~ In c (free d1) /\ NoDup (free d1) /\
  (forall x, In x (free d1) -> In x (free d)) /\
  ncl d <= ncl d1 /\ (forall x, ncl d1 <= x -> ncl d <= x) /\
  lits (cl d1 c) = vec /\ lrn (cl d1 c) = false /\ cenq (cl d1 c) = false /\ cocc (cl d1 c) = false /\ sfrom (cl d1 c) = 2 /\
  (forall x, x <> c -> cl d1 x = cl d x) /\
  bil d1 = bil d /\ bmap d1 = bmap d /\ wat d1 = wat d /\
  n_cl d1 = n_cl d /\ n_bi d1 = n_bi d /\ n_lr d1 = n_lr d /\ n_bl d1 = n_bl d /\ cert d1 = cert d /\
  (forall x, ncl d <= x < ncl d1 -> x = c).
Proof.
  intros d vec d1 c H E. unfold store_clause in E. destruct (free d) as [|f fl] eqn:Ef.
  - injection E as <- <-. cbn. rewrite !upd_same. cbn. pose proof (db_ncl d H).
    splits; auto; try lia; try (intros x []; fail).
    + apply (db_range d H); auto.
    + rewrite Ef; auto.
    + rewrite Ef; constructor.
    + rewrite Ef; intros x [].
    + intros x Hx. now apply upd_other.
  - injection E as <- <-. cbn. rewrite !upd_same. cbn.
    pose proof (db_free_in d H f) as F. rewrite Ef in F. destruct (F (or_introl eq_refl)) as [F1 F2].
    pose proof (db_free_nodup d H) as N. rewrite Ef in N. inversion N; subst.
    splits; auto; try lia.
    + intros x Hx. now apply upd_other.
Qed.

(** the effect of [new_clause] on a database that does not hold the clause yet *)
Record Added (d d' : cdb) (c : nat) (vec : list lit) : Prop := mkAdded {
  ad_inv : DbInv d';
  ad_dead : content d c = [];
  ad_id : 1 <= c < ncl d';
  ad_lits : content d' c = vec;
  ad_other : forall x, x <> c -> cl d' x = cl d x;
  ad_cenq : cenq (cl d' c) = false;
  ad_cocc : cocc (cl d' c) = false;
  ad_sfrom : sfrom (cl d' c) = 2;
  ad_ncl : ncl d <= ncl d' /\ (forall x, ncl d <= x < ncl d' -> x = c)
}.

Lemma link_clause_cl : forall d c, cl (link_clause d c) = cl d /\ ncl (link_clause d c) = ncl d /\
  free (link_clause d c) = free d /\ n_cl (link_clause d c) = n_cl d /\ n_bi (link_clause d c) = n_bi d /\
  n_lr (link_clause d c) = n_lr d /\ n_bl (link_clause d c) = n_bl d /\ cert (link_clause d c) = cert d /\
  lbdt (link_clause d c) = lbdt d.
Proof. intros. unfold link_clause. destruct (_ =? 2); cbn; splits; auto. Qed.

Lemma added_of_link : forall d d2 c vec, DbInv d -> wf_lits vec ->
  (length vec = 2 -> bin_search d (nth 0 vec 0) (nth 1 vec 0) = None) ->
  content d c = [] -> 1 <= c < ncl d2 -> ~ In c (free d2) -> NoDup (free d2) ->
  (forall x, In x (free d2) -> In x (free d)) ->
  ncl d <= ncl d2 -> (forall x, ncl d <= x < ncl d2 -> x = c) ->
  lits (cl d2 c) = vec -> cenq (cl d2 c) = false -> cocc (cl d2 c) = false -> sfrom (cl d2 c) = 2 ->
  (forall x, x <> c -> cl d2 x = cl d x) ->
  bil d2 = bil d -> bmap d2 = bmap d -> wat d2 = wat d ->
  (mode <> None -> n_cl d2 = n_cl d + 1 /\ n_bi d2 = n_bi d + (if length vec =? 2 then 1 else 0) /\
     n_lr d2 = n_lr d + (if lrn (cl d2 c) then 1 else 0)) ->
  Added d (link_clause d2 c) c vec.
Proof.
  intros d d2 c vec H [W1 W2] Hs Hdead Hid Hf Nf Sf Hn Hn' L E1 E2 E3 O B1 B2 B3 Hc.
  destruct (link_clause_cl d2 c) as (C1 & C2 & C3 & C4 & C5 & C6 & _).
  assert (Ec : forall x, content (link_clause d2 c) x = upd (content d) c vec x).
  { intros x. unfold content. rewrite C1. unfold upd. destruct (Nat.eqb_spec x c) as [->|Hx]; auto.
    now rewrite O. }
  constructor; auto.
  - constructor.
    + rewrite C2. lia.
    + rewrite Ec. rewrite upd_other by lia. apply (db_zero d H).
    + intros x Hx. rewrite C2 in Hx. rewrite Ec, upd_other by lia. apply (db_range d H). lia.
    + rewrite C3; auto.
    + intros x Hx. rewrite C3 in Hx. rewrite C2, Ec.
      assert (x <> c) by congruence. rewrite upd_other by auto.
      destruct (db_free_in d H x (Sf _ Hx)). split; auto. lia.
    + intros x. rewrite Ec. unfold upd. destruct (Nat.eqb_spec x c); auto. apply (db_len d H).
    + intros x. rewrite Ec. unfold upd. destruct (Nat.eqb_spec x c); auto. apply (db_vars d H).
    + eapply Links_ext; [apply link_spec with (E := content d); rewrite ?L; auto|auto|auto|auto|].
      * eapply Links_ext; [apply (db_links d H)|auto|auto|auto|auto].
      * intros L2. unfold lit0, lit1. rewrite L. apply bin_search_none; auto.
      * intros x. rewrite Ec, L. auto.
    + intros e X. destruct Hc as (N1 & N2 & N3); [rewrite X; discriminate|]. destruct (db_cnt d H e X) as (K1 & K2 & K3 & K4).
      destruct (cnt_step d (link_clause d2 c) c) as (S1 & S2 & S3).
      { rewrite C2. lia. } { rewrite C2. lia. } { apply (db_range d H). } { intros x Hx. rewrite C1; auto. }
      pose proof (dead_nil _ _ Hdead) as (Y1 & Y2 & Y3).
      assert (Hl : content (link_clause d2 c) c <> []). { rewrite Ec, upd_same. destruct vec; cbn in W1; [lia|discriminate]. }
      rewrite (live_nonnil _ _ Hl), Y1 in S1. rewrite (learnt_live _ _ Hl), C1, Y3 in S3.
      rewrite Y2 in S2. change (is_binary (link_clause d2 c) c) with (length (content (link_clause d2 c) c) =? 2) in S2. rewrite Ec, upd_same in S2.
      cbv iota in S1, S2, S3. unfold CntInv. rewrite C4, C5, C6. splits; try lia. intros Z. specialize (K4 Z). lia.
  - now rewrite C2.
  - unfold content. now rewrite C1.
  - intros x Hx. rewrite C1; auto.
  - now rewrite C1.
  - now rewrite C1.
  - now rewrite C1.
  - rewrite C2. auto.
Qed.

Lemma new_clause_added : forall level d vec learnt, DbInv d -> wf_lits vec ->
  (length vec = 2 -> bin_search d (nth 0 vec 0) (nth 1 vec 0) = None) ->
  exists d' c, new_clause level d vec learnt = (d', RClause c) /\ Added d d' c vec /\
    lrn (cl d' c) = (learnt && negb (length vec =? 2)) /\
    n_cl d' = n_cl d + 1 /\ n_bi d' = n_bi d + (if length vec =? 2 then 1 else 0) /\
    n_lr d' = n_lr d + (if learnt && negb (length vec =? 2) then 1 else 0) /\
    n_bl d' = n_bl d + (if learnt && (length vec =? 2) then 1 else 0) /\
    cert d' = cert d ++ [CAdd vec].
Proof.
  intros level d vec learnt H W Hs. unfold new_clause.
  assert (Hno : (if length vec =? 2 then bin_search d (nth 0 vec 0) (nth 1 vec 0) else None) = None).
  { destruct (Nat.eqb_spec (length vec) 2); auto. }
  rewrite Hno. destruct (store_clause (log_add d vec) vec) as [d1 c] eqn:Es.
  assert (H' : DbInv (log_add d vec)) by (eapply DbInv_ext; eauto).
  destruct (store_spec _ _ _ _ H' Es) as
    (S1 & S2 & S3 & S4 & S5 & S6 & S7 & S8 & S9 & S10 & S11 & S12 & S13 & S14 & S15 & S16 & S17 & S18 & S19 & S20 & S21 & S22 & S23).
  cbn in S6, S7, S8, S14, S15, S16, S17, S18, S19, S20, S21, S22, S23. change (content d c = []) in S3.
  unfold update_lbd. destruct (lbd_of level (lits (cl d1 c)) (lbdt d1)) as [t r].
  set (len2 := length vec =? 2) in *.
  eexists; eexists; split; [reflexivity|].
  assert (O : forall y x, x <> c -> upd (cl d1) c y x = cl d x).
  { intros y x Hx. rewrite upd_other by auto. auto. }
  assert (O2 : forall y z x, x <> c -> upd (upd (cl d1) c y) c z x = cl d x).
  { intros y z x Hx. rewrite !upd_other by auto. auto. }
  match goal with |- Added _ (link_clause ?D c) _ _ /\ _ =>
    destruct (link_clause_cl D c) as (C1 & C2 & C3 & C4 & C5 & C6 & C7 & C8 & C9) end.
  rewrite C1, C4, C5, C6, C7, C8. clear C1 C2 C3 C4 C5 C6 C7 C8 C9.
  split.
  - apply added_of_link; auto; try match goal with |- mode <> None -> _ => intros _; fold len2 end; destruct len2, learnt; cbn; auto; rewrite ?upd_same; cbn; auto;
      rewrite ?upd_same; cbn; auto; rewrite ?S10; splits; lia.
  - destruct len2, learnt; cbn; rewrite ?upd_same; cbn; rewrite ?upd_same; cbn; splits; auto; try lia; congruence.
Qed.

End Inv.
