(** C20: the rank (LBD) of a clause; and, from it, that reduce never drops a binary clause. *)
From Coq Require Import List Arith Bool Lia Permutation.
From Verif Require Import Base HeapModel AsgModel EmaModel EmaProofs LitFacts SatSpec CdbModel CdbProofs CdbOps C21_Db.
Import ListNotations.
#[local] Existing Instance loose_counters.

(** Specification: the number of distinct nonzero levels among the literals. *)
Definition distinct_levels (level : nat -> nat) (ls : list lit) : nat :=
  length (nodup Nat.eq_dec (filter (fun lv => negb (lv =? 0)) (map (fun l => level (vi l)) ls))).
Definition spec_rank (level : nat -> nat) (ls : list lit) : nat :=
  if 8192 <=? length ls then 65535 else distinct_levels level ls.

Lemma lbd_loop_spec : forall level key ls t n,
  exists S, NoDup S /\ snd (lbd_loop level key ls t n) = n + length S /\
    (forall lv, In lv S <-> lv <> 0 /\ In lv (map (fun l => level (vi l)) ls) /\ t lv <> key) /\
    (forall lv, fst (lbd_loop level key ls t n) lv = t lv \/ fst (lbd_loop level key ls t n) lv = key).
Proof.
  intros level key. induction ls as [|l ls IH]; intros t n; cbn [lbd_loop map].
  - exists []. cbn. splits; auto; try constructor; intros; tauto.
  - destruct (Nat.eqb_spec (level (vi l)) 0) as [E0|E0]; [|destruct (Nat.eqb_spec (t (level (vi l))) key) as [Ek|Ek]].
    + destruct (IH t n) as (S & A & B & C & D). exists S. splits; auto. intros lv. rewrite C. cbn. intuition congruence.
    + destruct (IH t n) as (S & A & B & C & D). exists S. splits; auto. intros lv. rewrite C. cbn. intuition congruence.
    + destruct (IH (upd t (level (vi l)) key) (Datatypes.S n)) as (S & A & B & C & D).
      exists (level (vi l) :: S). splits.
      * constructor; auto. intros X. apply C in X as (_ & _ & X). rewrite upd_same in X. congruence.
      * rewrite B. cbn. lia.
      * intros lv. cbn [In]. rewrite C. unfold upd. destruct (Nat.eqb_spec lv (level (vi l))) as [->|Hl].
        -- intuition congruence.
        -- intuition congruence.
      * intros lv. destruct (D lv) as [X|X]; auto. rewrite X. unfold upd. destruct (lv =? level (vi l)); auto.
Qed.

(** the scratch buffer never holds a stamp above its entry 0 *)
Definition ScratchOk (t : nat -> nat) : Prop := forall lv, t lv <= t 0.

Lemma lbd_of_spec : forall level ls t, ScratchOk t ->
  snd (lbd_of level ls t) = spec_rank level ls /\ ScratchOk (fst (lbd_of level ls t)).
Proof.
  intros level ls t H. unfold lbd_of, spec_rank. destruct (8192 <=? length ls); [split; auto|].
  destruct (lbd_loop_spec level (t 0 + 1) ls (upd t 0 (t 0 + 1)) 0) as (S & A & B & C & D). split.
  - rewrite B. unfold distinct_levels. cbn. apply Permutation_length, NoDup_Permutation; auto.
    { apply NoDup_nodup. }
    intros lv. rewrite C, nodup_In, filter_In. rewrite negb_true_iff, Nat.eqb_neq.
    destruct (Nat.eq_dec lv 0) as [->|Hz]; [intuition|]. rewrite upd_other by auto.
    specialize (H lv). intuition lia.
  - assert (K : forall lv, fst (lbd_loop level (t 0 + 1) ls (upd t 0 (t 0 + 1)) 0) lv <= t 0 + 1).
    { intros lv. destruct (D lv) as [X|X]; rewrite X; [|lia]. unfold upd. specialize (H lv). destruct (lv =? 0); lia. }
    intros lv. destruct (D 0) as [X|X]; rewrite X, ?upd_same; apply K.
Qed.

Lemma fold_stamp_ok : forall k vec t, ScratchOk t -> t 0 = k -> 
  ScratchOk (fold_left (fun t l => upd t (vi l) k) vec t) /\ fold_left (fun t l => upd t (vi l) k) vec t 0 = k.
Proof.
  intros k. induction vec as [|l vec IH]; intros t H E; cbn [fold_left]; auto. apply IH.
  - intros lv. unfold upd. specialize (H lv). destruct (lv =? vi l), (0 =? vi l); lia.
  - unfold upd. destruct (0 =? vi l); auto.
Qed.

Lemma minimize_scratch : forall v d vec, ScratchOk (lbdt d) -> (forall l, In l vec -> vi l <> 0) ->
  (forall l, In l vec -> forall e, In e (bil d l) -> forall x, In x (lits (cl d (snd e))) -> vi x <> 0) ->
  (forall l e, In e (bil d l) -> 2 <= length (lits (cl d (snd e)))) ->
  ScratchOk (lbdt (fst (minimize_with_bi_clauses v d vec))).
Proof.
  intros v d vec H V1 V2 V3. unfold minimize_with_bi_clauses. destruct (Nat.leb_spec (length vec) 1) as [L|L]; [exact H|].
  set (k := lbdt d 0 + 1).
  destruct (fold_stamp_ok k (skipn 1 vec) (upd (lbdt d) 0 k)) as [A1 A2].
  { intros lv. unfold upd. specialize (H lv). rewrite Nat.eqb_refl. destruct (lv =? 0); subst k; lia. }
  { apply upd_same. }
  set (t2 := fold_left (fun t l => upd t (vi l) k) (skipn 1 vec) (upd (lbdt d) 0 k)) in *.
  set (f := fun (s : (nat -> nat) * nat) (e : lit * nat) => _).
  assert (G : forall es s, ScratchOk (fst s) -> fst s 0 = k -> (forall e, In e es -> In e (bil d (nth 0 vec 0))) ->
     ScratchOk (fst (fold_left f es s)) /\ fst (fold_left f es s) 0 = k).
  { induction es as [|e es IH]; intros [t n] S1 S2 I; cbn [fold_left]; auto.
    assert (X : fst (f (t, n) e) 0 = k /\ ScratchOk (fst (f (t, n) e))).
    { unfold f. set (o := nth _ (lits (cl d (snd e))) 0).
      assert (Ho : vi o <> 0).
      { apply (V2 (nth 0 vec 0)) with (e := e); [apply nth_In; lia|apply I; now left|].
        apply nth_In. specialize (V3 _ e (I e (or_introl eq_refl))). destruct (_ =? _); lia. }
      destruct ((t (vi o) =? k) && _); cbn [fst]; auto. cbn [fst] in S1, S2. split.
      - rewrite upd_other; auto.
      - intros lv. unfold upd. rewrite (proj2 (Nat.eqb_neq 0 (vi o))) by auto. specialize (S1 lv). destruct (lv =? vi o); lia. }
    destruct X. apply IH; auto. intros e' He. apply I. now right. }
  destruct (G (bil d (nth 0 vec 0)) (t2, 0)) as [G1 G2]; auto.
  destruct (fold_left f (bil d (nth 0 vec 0)) (t2, 0)) as [t3 n]. cbn [fst] in G1, G2.
  destruct (0 <? n); cbn; auto.
  intros lv. unfold upd. assert (Hl0 : vi (nth 0 vec 0) <> 0) by (apply V1, nth_In; lia).
  rewrite (proj2 (Nat.eqb_neq 0 (vi (nth 0 vec 0)))) by auto.
  specialize (G1 lv). destruct (lv =? vi (nth 0 vec 0)); lia.
Qed.

(** Histories in which variables are numbered from 1, as they are in the solver. *)
Definition vars_ok (o : dop) : Prop :=
  match o with
  | ONew _ vec _ | ONewSandbox _ vec | OMinimize _ vec => forall l, In l vec -> vi l <> 0
  | _ => True
  end.
Inductive lreach : cdb -> Prop :=
| lreach_new : lreach cdb_new
| lreach_step : forall d o, lreach d -> dallowed d o -> vars_ok o -> lreach (dstep d o).

Definition VarsPos (d : cdb) : Prop := forall c l, In l (lits (cl d c)) -> vi l <> 0.

Lemma update_lbd_scratch : forall d level c, ScratchOk (lbdt d) -> ScratchOk (lbdt (update_lbd d level c)).
Proof.
  intros d level c H. unfold update_lbd. pose proof (lbd_of_spec level (lits (cl d c)) (lbdt d) H) as [_ X].
  destruct (lbd_of level (lits (cl d c)) (lbdt d)) as [t r]. exact X.
Qed.
Lemma lbd_all_scratch : forall level cs d, ScratchOk (lbdt d) ->
  ScratchOk (lbdt (fold_left (fun d c => if dead d c then d else update_lbd d level c) cs d)).
Proof.
  intros level. induction cs as [|c cs IH]; intros d H; cbn [fold_left]; auto. apply IH.
  destruct (dead d c); auto. now apply update_lbd_scratch.
Qed.
Lemma remove_scratch : forall d c, lbdt (remove_clause d c) = lbdt d.
Proof.
  intros. unfold remove_clause. destruct (unlink_clause_cl d c) as (C1 & _ & _ & _ & _ & _ & _ & _ & C9).
  destruct (_ =? 2); cbn; rewrite C1; destruct (lrn (cl d c)); cbn; auto.
Qed.
Lemma fold_remove_scratch : forall cs d, lbdt (fold_left remove_clause cs d) = lbdt d.
Proof. induction cs; intros; cbn [fold_left]; auto. rewrite IHcs. apply remove_scratch. Qed.
Lemma relink_simp_scratch : forall d c a b e f, lbdt (relink_simp d c a b e f) = lbdt d.
Proof.
  intros. unfold relink_simp. destruct ((a =? e) && (b =? f)), (a =? e), (a =? f), (b =? e), (b =? f); reflexivity.
Qed.
Lemma simp_scratch : forall v el d c, lbdt (fst (transform_by_simplification v el d c)) = lbdt d.
Proof.
  intros. unfold transform_by_simplification. destruct (existsb _ _); [apply remove_scratch|].
  destruct (negb _); [reflexivity|]. set (new := filter _ _). destruct new as [|x [|y [|z t]]]; try reflexivity.
  - cbn [nth]. destruct (bin_search d x y); [apply remove_scratch|]. cbn. rewrite upd_same. cbn.
    destruct (lrn (cl d c)); reflexivity.
  - cbn [fst]. cbn [log_add log_del set_cert lbdt]. now rewrite relink_simp_scratch.
Qed.
Lemma elim_scratch : forall d c p d' r, transform_by_elimination d c p = Some (d', r) -> lbdt d' = lbdt d.
Proof.
  intros d c p d' r E. unfold transform_by_elimination in E. destruct (_ =? 2).
  - injection E as <- _. reflexivity.
  - destruct (_ =? 2).
    + destruct (bin_search _ _ _); injection E as <- _; reflexivity.
    + unfold relink_elim in E.
      repeat match type of E with context [if ?b then _ else _] => destruct b end;
        try discriminate; injection E as <- _; reflexivity.
Qed.

Lemma new_clause_scratch : forall level d vec learnt, ScratchOk (lbdt d) -> ScratchOk (lbdt (fst (new_clause level d vec learnt))).
Proof.
  intros level d vec learnt H. unfold new_clause. destruct (if length vec =? 2 then _ else None); [exact H|].
  destruct (store_clause (log_add d vec) vec) as [d1 c] eqn:E.
  assert (H1 : ScratchOk (lbdt d1)) by (unfold store_clause in E; destruct (free (log_add d vec)); injection E as <- _; exact H).
  pose proof (update_lbd_scratch d1 level c H1) as H2. cbv zeta. cbn [fst].
  match goal with |- context [link_clause ?D c] => destruct (link_clause_cl D c) as (_ & _ & _ & _ & _ & _ & _ & _ & ->) end.
  destruct (length vec =? 2), learnt; cbn; auto.
Qed.
Lemma new_sandbox_scratch : forall level d vec, ScratchOk (lbdt d) -> ScratchOk (lbdt (fst (new_clause_sandbox level d vec))).
Proof.
  intros level d vec H. unfold new_clause_sandbox. destruct (if length vec =? 2 then _ else None); [exact H|].
  destruct (store_clause d vec) as [d1 c] eqn:E.
  assert (H1 : ScratchOk (lbdt d1)) by (unfold store_clause in E; destruct (free d); injection E as <- _; exact H).
  pose proof (update_lbd_scratch d1 level c H1) as H2. cbv zeta. cbn [fst].
  match goal with |- context [link_clause ?D c] => destruct (link_clause_cl D c) as (_ & _ & _ & _ & _ & _ & _ & _ & ->) end.
  destruct (length vec =? 2); cbn; auto.
Qed.

Lemma filter_pos : forall (f : lit -> bool) ls, (forall l, In l ls -> vi l <> 0) -> forall l, In l (filter f ls) -> vi l <> 0.
Proof. intros f ls H l X. apply filter_In in X as [X _]. auto. Qed.

Lemma varspos_upd : forall d d' c new, VarsPos d -> (forall x, content d' x = upd (content d) c new x) ->
  (forall l, In l new -> vi l <> 0) -> VarsPos d'.
Proof.
  intros d d' c new H E N x l Hl. change (In l (content d' x)) in Hl. rewrite E in Hl. unfold upd in Hl.
  destruct (x =? c); auto. eapply H; eauto.
Qed.
Lemma varspos_rewritten : forall d d' c new, VarsPos d -> Rewritten d d' c new -> (forall l, In l new -> vi l <> 0) -> VarsPos d'.
Proof. intros d d' c new H R N. apply varspos_upd with (d := d) (c := c) (new := new); auto. apply R. Qed.
Lemma varspos_removed : forall d d' c, VarsPos d -> Removed d d' c -> VarsPos d'.
Proof. intros d d' c H R. apply varspos_upd with (d := d) (c := c) (new := []); [exact H|apply R|intros l []]. Qed.
Lemma varspos_added : forall d d' c vec, VarsPos d -> Added d d' c vec -> (forall l, In l vec -> vi l <> 0) -> VarsPos d'.
Proof.
  intros d d' c vec H A N. apply varspos_upd with (d := d) (c := c) (new := vec); auto.
  intros x. unfold upd. destruct (Nat.eqb_spec x c) as [->|Hx]; [apply A|]. unfold content. now rewrite (ad_other _ _ _ _ A).
Qed.
Lemma varspos_same : forall d d', VarsPos d -> same_db d d' -> VarsPos d'.
Proof. intros d d' H S c l Hl. apply (H c). change (In l (content d c)). now rewrite <- (same_content _ _ S). Qed.

Lemma lstep : forall d o, DbInv d -> VarsPos d -> ScratchOk (lbdt d) -> dallowed d o -> vars_ok o ->
  VarsPos (dstep d o) /\ ScratchOk (lbdt (dstep d o)).
Proof.
  intros d o H VP SK A V.
  destruct o as [level vec learnt|level vec|c|c|v el c|c p|level cand order keep|p i c old new|c|p i q|v vec];
    cbn [dstep dallowed vars_ok] in *.
  - split; [|now apply new_clause_scratch].
    destruct (new_clause level d vec learnt) as [d' r] eqn:E. cbn.
    destruct (Nat.eq_dec (length vec) 2) as [L2|L2].
    + destruct (bin_search d (nth 0 vec 0) (nth 1 vec 0)) as [c|] eqn:B.
      * rewrite (new_clause_reg level d vec learnt c L2 B) in E. now injection E as <- _.
      * destruct (new_clause_added level d vec learnt H A (fun _ => B)) as (d1 & c & E1 & X & _).
        rewrite E1 in E. injection E as <- _. eapply varspos_added; eauto.
    + destruct (new_clause_added level d vec learnt H A) as (d1 & c & E1 & X & _); [congruence|].
      rewrite E1 in E. injection E as <- _. eapply varspos_added; eauto.
  - split; [|now apply new_sandbox_scratch].
    destruct (new_clause_sandbox level d vec) as [d' r] eqn:E. cbn.
    destruct (Nat.eq_dec (length vec) 2) as [L2|L2].
    + destruct (bin_search d (nth 0 vec 0) (nth 1 vec 0)) as [c|] eqn:B.
      * rewrite (new_sandbox_reg level d vec c L2 B) in E. now injection E as <- _.
      * destruct (new_sandbox_added level d vec H A (fun _ => B)) as (d1 & c & E1 & X & _).
        rewrite E1 in E. injection E as <- _. eapply varspos_added; eauto.
    + destruct (new_sandbox_added level d vec H A) as (d1 & c & E1 & X & _); [congruence|].
      rewrite E1 in E. injection E as <- _. eapply varspos_added; eauto.
  - rewrite remove_scratch. split; auto. eapply varspos_removed; [exact VP|apply (remove_clause_spec d c H A)].
  - split.
    + eapply varspos_removed; [exact VP|apply (remove_sandbox_spec d c H A)].
    + unfold remove_clause_sandbox. cbn. destruct (unlink_clause_cl d c) as (_ & _ & _ & _ & _ & _ & _ & _ & ->). auto.
  - rewrite simp_scratch. split; auto. destruct (transform_by_simplification v el d c) as [d' r] eqn:E.
    apply (simplification_spec v el d c d' r H A) in E. cbn. inversion E; subst; auto.
    + eapply varspos_removed; [exact VP|apply (remove_clause_spec d c H A)].
    + eapply varspos_removed; [exact VP|apply (remove_clause_spec d c H A)].
    + eapply varspos_rewritten; eauto. apply filter_pos. apply VP.
  - destruct (elimination_spec d c p H A) as (d' & r & E & X). rewrite E. rewrite (elim_scratch _ _ _ _ _ E). split; auto.
    inversion X; subst; (eapply varspos_rewritten; eauto).
    + intros l Hl. apply (VP c). change (In l (content d c)). destruct H0 as [-> | ->]; cbn in *; tauto.
    + apply filter_pos. apply (VP c).
  - unfold reduce. pose proof (lbd_all_same level d) as S. split.
    + pose proof (reduce_list_ok level cand order keep d H A) as [N L].
      destruct (fold_remove (reduce_list level cand order keep d) (lbd_all level d) (DbInv_same _ _ H S) N (fun c Hc => proj1 (L c Hc))) as (_ & B & C & _).
      unfold reduce_list in B, C. cbv zeta in B, C.
      intros c l Hl. destruct (in_dec Nat.eq_dec c (reduce_list level cand order keep d)) as [I|I].
      * specialize (B c I). unfold content in B. rewrite B in Hl. destruct Hl.
      * rewrite (C c I) in Hl. eapply varspos_same; eauto.
    + rewrite fold_remove_scratch. now apply lbd_all_scratch.
  - destruct A as (A1 & A2 & A3 & q & A4). split; [|exact SK].
    eapply varspos_rewritten; [exact VP|eapply move_watch_spec; eauto|].
    intros l Hl. apply (VP c). refine (Permutation_in l _ Hl). unfold content in *. apply swap_nth_perm; lia.
  - split; [|exact SK]. eapply varspos_rewritten; [exact VP|eapply swap_watch_spec; eauto|].
    intros l Hl. apply (VP c). refine (Permutation_in l _ Hl). unfold content in *. apply swap_nth_perm; lia.
  - split; [exact VP|exact SK].
  - split; [eapply varspos_same; [exact VP|apply minimize_same]|].
    apply minimize_scratch; auto.
    + intros l _ e _ x Hx. now apply (VP _ _ Hx).
    + intros l [l' c] He. destruct (db_links d H) as [_ (_ & B & _)]. apply B in He. cbn.
      unfold linked, content in He. destruct He as [-> | ->]; cbn; lia.
Qed.

Lemma lreach_inv : forall d, lreach d -> DbInv d /\ VarsPos d /\ ScratchOk (lbdt d).
Proof.
  induction 1 as [|d o R (A & B & C) D V].
  - split; [apply cdb_new_inv|]. split; [intros c l []|intros lv; cbn; lia].
  - split; [now apply dstep_inv|now apply lstep].
Qed.

(** refreshing the rank of a clause, after any history of the scratch buffer *)
Theorem C20_rank_is_lbd : forall d level c, lreach d ->
  rank (cl (update_lbd d level c) c) = spec_rank level (lits (cl d c)).
Proof.
  intros d level c R. destruct (lreach_inv d R) as (_ & _ & S).
  unfold update_lbd. destruct (lbd_of_spec level (lits (cl d c)) (lbdt d) S) as [X _].
  destruct (lbd_of level (lits (cl d c)) (lbdt d)) as [t r]. cbn in *. now rewrite upd_same.
Qed.

(** the rank given by [new_clause] *)
Theorem C20_rank_of_new_clause : forall d level vec learnt d' c, lreach d ->
  2 <= length vec -> NoDup (map vi vec) -> new_clause level d vec learnt = (d', RClause c) ->
  rank (cl d' c) = if length vec =? 2 then 1 else spec_rank level vec.
Proof.
  intros d level vec learnt d' c R L N E. destruct (lreach_inv d R) as (I & _ & S).
  unfold new_clause in E. destruct (if length vec =? 2 then _ else None); [discriminate|].
  destruct (store_clause (log_add d vec) vec) as [d1 c1] eqn:Es.
  assert (I' : DbInv (log_add d vec)) by (eapply DbInv_ext; eauto).
  pose proof (store_spec _ _ _ _ I' Es) as (_ & _ & _ & _ & _ & _ & _ & _ & L1 & _).
  assert (S1 : ScratchOk (lbdt d1)) by (unfold store_clause in Es; destruct (free (log_add d vec)); injection Es as <- _; exact S).
  cbv zeta in E. injection E as E <-. subst d'.
  match goal with |- context [link_clause ?D c1] => destruct (link_clause_cl D c1) as (-> & _) end.
  unfold update_lbd. destruct (lbd_of_spec level (lits (cl d1 c1)) (lbdt d1) S1) as [X _].
  destruct (lbd_of level (lits (cl d1 c1)) (lbdt d1)) as [t r]. cbn in X. rewrite L1 in X.
  destruct (length vec =? 2), learnt; cbn; rewrite ?upd_same; cbn; rewrite ?upd_same; auto.
Qed.

(** after the refresh made by [reduce] every live clause carries its LBD *)
Lemma lbd_fold_rank : forall level cs d, ScratchOk (lbdt d) -> NoDup cs ->
  let d' := fold_left (fun d c => if dead d c then d else update_lbd d level c) cs d in
  (forall c, In c cs -> dead d c = false -> rank (cl d' c) = spec_rank level (lits (cl d c))) /\
  (forall c, ~ In c cs -> cl d' c = cl d c).
Proof.
  intros level. induction cs as [|c cs IH]; intros d S N; cbn [fold_left].
  - split; [intros c []|auto].
  - inversion N; subst.
    destruct (dead d c) eqn:Ed.
    + destruct (IH d S H2) as [A B]. split.
      * intros x [<-|Hx] Hd; [congruence|auto].
      * intros x Hx. apply B. intros Y. apply Hx. now right.
    + destruct (IH (update_lbd d level c) (update_lbd_scratch d level c S) H2) as [A B].
      pose proof (update_lbd_same d level c) as (S1 & _).
      assert (Oth : forall x, x <> c -> cl (update_lbd d level c) x = cl d x).
      { intros x Hx. unfold update_lbd. destruct (lbd_of _ _ _). cbn. now apply upd_other. }
      split.
      * intros x [<-|Hx] Hd.
        -- rewrite (B c H1). unfold update_lbd. destruct (lbd_of_spec level (lits (cl d c)) (lbdt d) S) as [X _].
           destruct (lbd_of level (lits (cl d c)) (lbdt d)) as [t r]. cbn in *. now rewrite upd_same.
        -- rewrite A; auto; [|unfold dead in *; destruct (S1 x) as (-> & _); auto].
           destruct (S1 x) as (-> & _). reflexivity.
      * intros x Hx. rewrite B by (intros Y; apply Hx; now right). apply Oth. intros ->. apply Hx. now left.
Qed.

Theorem C20_refresh_all : forall d level c, lreach d -> lits (cl d c) <> [] ->
  rank (cl (lbd_all level d) c) = spec_rank level (lits (cl d c)).
Proof.
  intros d level c R Hl. destruct (lreach_inv d R) as (I & _ & S).
  destruct (lbd_fold_rank level (seq 1 (ncl d - 1)) d S (seq_NoDup _ _)) as [A _]. apply A.
  - pose proof (live_range d c I Hl). apply in_seq. lia.
  - now apply content_live.
Qed.

Lemma filter_len : forall (A : Type) (f : A -> bool) l, length (filter f l) <= length l.
Proof. intros A f. induction l; cbn; auto. destruct (f a); cbn; lia. Qed.
Lemma distinct_levels_le : forall level ls, distinct_levels level ls <= length ls.
Proof.
  intros. unfold distinct_levels.
  pose proof (filter_len _ (fun lv => negb (lv =? 0)) (map (fun l => level (vi l)) ls)).
  rewrite map_length in H.
  assert (G : forall l, length (nodup Nat.eq_dec l) <= length l).
  { clear. induction l; cbn; auto. destruct (in_dec _ _ _); cbn; lia. }
  etransitivity; [apply G|exact H].
Qed.

(** reduce removes only learnt clauses with five or more literals (and five or more
    distinct levels): original clauses and all short clauses survive, so the set of
    models of the non-learnt clauses does not change. *)
Theorem C29_reduce_keeps_short : forall d level cand order keep, lreach d -> (forall l, Permutation l (order l)) ->
  forall c, let d' := reduce level cand order keep d in
    lits (cl d' c) = lits (cl d c) \/
    (lits (cl d' c) = [] /\ lrn (cl d c) = true /\ 5 <= length (lits (cl d c)) /\ 4 < spec_rank level (lits (cl d c))).
Proof.
  intros d level cand order keep R P c d'. destruct (lreach_inv d R) as (I & _ & S).
  pose proof (lbd_all_same level d) as Sm. pose proof (DbInv_same _ _ I Sm) as R1.
  destruct (reduce_list_ok level cand order keep d I P) as [N L].
  destruct (fold_remove (reduce_list level cand order keep d) (lbd_all level d) R1 N (fun c Hc => proj1 (L c Hc))) as (A & B & C & D).
  change (fold_left remove_clause (reduce_list level cand order keep d) (lbd_all level d)) with d' in *.
  destruct Sm as (S1 & _). destruct (S1 c) as (X1 & X2 & _).
  destruct (in_dec Nat.eq_dec c (reduce_list level cand order keep d)) as [J|J].
  - right. destruct (L c J) as (L1 & L2 & L3).
    assert (Hl : lits (cl d c) <> []) by (unfold content in L1; congruence).
    rewrite (C20_refresh_all d level c R Hl) in L3. splits; auto; [apply (B c J)|congruence|].
    unfold spec_rank in L3. destruct (Nat.leb_spec 8192 (length (lits (cl d c)))) as [Z|Z].
    + apply Nat.le_trans with 8192; auto. apply Nat.leb_le. vm_compute. reflexivity.
    + pose proof (distinct_levels_le level (lits (cl d c))). lia.
  - left. rewrite (C c J). auto.
Qed.

Theorem C29_models_kept : forall d level cand order keep m, lreach d -> (forall l, Permutation l (order l)) ->
  let d' := reduce level cand order keep d in
  (sat_all m (fun ls => exists c, lits (cl d' c) = ls /\ ls <> [] /\ lrn (cl d' c) = false) <->
   sat_all m (fun ls => exists c, lits (cl d c) = ls /\ ls <> [] /\ lrn (cl d c) = false)) /\
  (sat_all m (stored d) -> sat_all m (stored d')).
Proof.
  intros d level cand order keep m R P d'. destruct (lreach_inv d R) as (I & _ & S).
  pose proof (lbd_all_same level d) as Sm. pose proof (DbInv_same _ _ I Sm) as R1.
  destruct (reduce_list_ok level cand order keep d I P) as [N L].
  destruct (fold_remove (reduce_list level cand order keep d) (lbd_all level d) R1 N (fun c Hc => proj1 (L c Hc))) as (A & B & C & D).
  change (fold_left remove_clause (reduce_list level cand order keep d) (lbd_all level d)) with d' in *.
  destruct Sm as (S1 & _).
  assert (K : forall c, (lits (cl d' c) = lits (cl d c) /\ lrn (cl d' c) = lrn (cl d c)) \/ (lits (cl d' c) = [] /\ lrn (cl d c) = true)).
  { intros c. destruct (S1 c) as (X1 & X2 & _).
    destruct (in_dec Nat.eq_dec c (reduce_list level cand order keep d)) as [J|J].
    - right. destruct (L c J) as (L1 & L2 & L3). split; [apply (B c J)|congruence].
    - left. rewrite (C c J). auto. }
  split; [split|].
  - intros H ls (c & E1 & E2 & E3). destruct (K c) as [[K1 K2]|[K1 K2]]; [|congruence].
    apply H. exists c. splits; auto; congruence.
  - intros H ls (c & E1 & E2 & E3). destruct (K c) as [[K1 K2]|[K1 K2]]; [|congruence].
    apply H. exists c. splits; auto; congruence.
  - intros H ls (c & E1 & E2). destruct (K c) as [[K1 K2]|[K1 K2]]; [|congruence].
    apply H. exists c. split; auto; congruence.
Qed.

(** A concrete history meeting all the hypotheses above: an original clause of 5 literals,
    a learnt copy with other signs, one binary clause; a watch of the first clause is moved.
    Levels are the variable indices, so the rank of the learnt clause is 5 and a reduction
    that keeps nothing drops it and only it. *)
Definition lv5 : nat -> nat := fun v => v.
Definition ex_hist : cdb :=
  dstep (dstep (dstep (dstep cdb_new (ONew lv5 [3; 5; 7; 9; 11] false)) (ONew lv5 [2; 4; 6; 8; 10] true))
          (ONew lv5 [3; 4] true)) (OMoveWatch 4 0 1 1 3).
Lemma nodup_15 : NoDup [1; 2; 3; 4; 5].
Proof. repeat constructor; cbn; lia. Qed.
Example C20_history : lreach ex_hist /\ preach ex_hist /\ dreach ex_hist.
Proof.
  assert (A : dallowed cdb_new (ONew lv5 [3; 5; 7; 9; 11] false)) by (split; [cbn; lia|exact nodup_15]).
  assert (B : dallowed (dstep cdb_new (ONew lv5 [3; 5; 7; 9; 11] false)) (ONew lv5 [2; 4; 6; 8; 10] true))
    by (split; [cbn; lia|exact nodup_15]).
  assert (C : forall d, dallowed d (ONew lv5 [3; 4] true)) by (intros; split; [cbn; lia|exact nodup3]).
  assert (D : dallowed (dstep (dstep (dstep cdb_new (ONew lv5 [3; 5; 7; 9; 11] false)) (ONew lv5 [2; 4; 6; 8; 10] true))
          (ONew lv5 [3; 4] true)) (OMoveWatch 4 0 1 1 3)).
  { cbn [dallowed]. splits; [lia|lia|vm_compute; lia|vm_compute; reflexivity|]. exists 3. vm_compute. reflexivity. }
  splits.
  - repeat apply lreach_step; auto; try constructor; cbn; intuition (subst; discriminate).
  - repeat apply preach_step; auto; try constructor; cbn; exact I.
  - repeat apply dreach_step; auto; try constructor.
Qed.
Example C20_example : rank (cl ex_hist 2) = 5 /\ lits (cl ex_hist 1) = [3; 9; 7; 5; 11] /\
  map fst (wat ex_hist 8) = [1] /\ map fst (wat ex_hist 4) = [] /\ bin_search ex_hist 4 3 = Some 3 /\
  n_cl ex_hist = 3 /\ n_bi ex_hist = 1 /\ n_lr ex_hist = 1.
Proof. vm_compute. splits; reflexivity. Qed.
Example C29_example :
  let d' := reduce lv5 (fun _ => true) (fun l => l) (fun _ => 0) ex_hist in
  lits (cl d' 2) = [] /\ lits (cl d' 1) = [3; 9; 7; 5; 11] /\ lits (cl d' 3) = [3; 4].
Proof. vm_compute. splits; reflexivity. Qed.
