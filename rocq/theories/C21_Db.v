(** Theorems about the clause database: C20 C21 C22 C23 C24 C29 C30 C43. *)
From Coq Require Import List Arith Bool Lia Permutation.
From Verif Require Import Base HeapModel AsgModel EmaModel EmaProofs LitFacts SatSpec CdbModel CdbProofs CdbOps.
Import ListNotations.
#[local] Existing Instance loose_counters.

(** the clauses stored in the database, as literal lists *)
Definition stored (d : cdb) (ls : list lit) : Prop := exists c, lits (cl d c) = ls /\ ls <> [].

(** ** histories of operations *)
Inductive dop :=
| ONew (level : nat -> nat) (vec : list lit) (learnt : bool)
| ONewSandbox (level : nat -> nat) (vec : list lit)
| ORemove (c : nat)
| ORemoveSandbox (c : nat)
| OSimplify (v : lit -> option bool) (el : nat -> bool) (c : nat)
| OStrengthen (c : nat) (p : lit)
| OReduce (level : nat -> nat) (cand : nat -> bool) (order : list nat -> list nat) (keep : nat -> nat)
| OMoveWatch (p : lit) (i c old new : nat)
| OSwapWatch (c : nat)
| ORecache (p : lit) (i : nat) (q : lit)
| OMinimize (v : lit -> option bool) (vec : list lit).

Definition dstep (d : cdb) (o : dop) : cdb :=
  match o with
  | ONew level vec learnt => fst (new_clause level d vec learnt)
  | ONewSandbox level vec => fst (new_clause_sandbox level d vec)
  | ORemove c => remove_clause d c
  | ORemoveSandbox c => remove_clause_sandbox d c
  | OSimplify v el c => fst (transform_by_simplification v el d c)
  | OStrengthen c p => match transform_by_elimination d c p with Some (d', _) => d' | None => d end
  | OReduce level cand order keep => reduce level cand order keep d
  | OMoveWatch p i c old new => update_watch_pos (detach_watch d p i) c old new true
  | OSwapWatch c => swap_watch d c
  | ORecache p i q => recache_watch d p i q
  | OMinimize v vec => fst (minimize_with_bi_clauses v d vec)
  end.

(** the calling conventions: clauses have two or more literals and no repeated variable
    (guaranteed by the callers, which turn units into assertions), only live clauses are
    transformed, the watch list cursor points to the clause that is moved. *)
Definition live (d : cdb) (c : nat) : Prop := lits (cl d c) <> [].
Definition dallowed (d : cdb) (o : dop) : Prop :=
  match o with
  | ONew _ vec _ | ONewSandbox _ vec => 2 <= length vec /\ NoDup (map vi vec)
  | ORemove c | ORemoveSandbox c => live d c
  | OSimplify _ _ c => live d c
  | OStrengthen c p => In p (lits (cl d c))
  | OReduce _ _ order _ => forall l, Permutation l (order l)
  | OMoveWatch p i c old new =>
      old < 2 /\ 2 <= new < length (lits (cl d c)) /\ p = neg (nth old (lits (cl d c)) 0) /\
      exists q, nth_error (wat d p) i = Some (c, q)
  | OSwapWatch c => 3 <= length (lits (cl d c))
  | ORecache _ _ _ => True
  | OMinimize _ _ => True
  end.

Inductive dreach : cdb -> Prop :=
| dreach_new : dreach cdb_new
| dreach_step : forall d o, dreach d -> dallowed d o -> dreach (dstep d o).

(** histories without the sandboxed operations *)
Definition plain (o : dop) : Prop :=
  match o with ONewSandbox _ _ | ORemoveSandbox _ => False | _ => True end.

Inductive preach : cdb -> Prop :=
| preach_new : preach cdb_new
| preach_step : forall d o, preach d -> dallowed d o -> plain o -> preach (dstep d o).

(** *** minimisation only touches the scratch buffer *)
Lemma minimize_same : forall v d vec, same_db d (fst (minimize_with_bi_clauses v d vec)).
Proof.
  intros v d vec. unfold minimize_with_bi_clauses. destruct (length vec <=? 1); [apply same_db_refl|].
  destruct (fold_left _ (bil d (nth 0 vec 0)) _) as [t3 n]. destruct (0 <? n); cbn; unfold same_db; cbn; splits; auto.
Qed.

(** *** reduce removes a duplicate-free list of live clauses *)
Section Steps.
Context {md : Mode}.

Lemma fold_remove : forall cs d, DbInv d -> NoDup cs -> (forall c, In c cs -> content d c <> []) ->
  DbInv (fold_left remove_clause cs d) /\
  (forall c, In c cs -> content (fold_left remove_clause cs d) c = []) /\
  (forall c, ~ In c cs -> cl (fold_left remove_clause cs d) c = cl d c) /\
  ncl (fold_left remove_clause cs d) = ncl d.
Proof.
  induction cs as [|c cs IH]; intros d H N L; cbn [fold_left].
  - splits; auto. intros c [].
  - inversion N; subst. destruct (remove_clause_spec d c H (L c (or_introl eq_refl))) as (R & _).
    destruct (IH (remove_clause d c)) as (A & B & C & D); auto.
    + apply R.
    + intros x Hx. rewrite (rm_content _ _ _ R). rewrite upd_other; [|intros ->; auto]. apply L. now right.
    + splits; auto.
      * intros x [->|Hx]; auto. unfold content. rewrite C by auto. change (content (remove_clause d x) x = []).
        rewrite (rm_content _ _ _ R). apply upd_same.
      * intros x Hx. rewrite C by (intros X; apply Hx; now right). apply (rm_other _ _ _ R).
        intros ->. apply Hx. now left.
      * rewrite D. apply (rm_ncl _ _ _ R).
Qed.

Definition reduce_list (level : nat -> nat) (cand : nat -> bool) (order : list nat -> list nat)
  (keep : nat -> nat) (d : cdb) : list nat :=
  let d1 := lbd_all level d in
  let perm := filter (fun c => negb (dead d1 c) && lrn (cl d1 c) && (4 <? rank (cl d1 c)) && cand c)
                     (seq 1 (ncl d1 - 1)) in
  skipn (keep (length perm)) (order perm).

Lemma skipn_nodup : forall (A : Type) n (l : list A), NoDup l -> NoDup (skipn n l).
Proof.
  intros A n. induction n as [|n IH]; intros l H; [exact H|]. destruct l; [exact H|]. inversion H. now apply IH.
Qed.
Lemma skipn_in : forall (A : Type) n (l : list A) x, In x (skipn n l) -> In x l.
Proof. intros A n l x H. rewrite <- (firstn_skipn n l). apply in_or_app. auto. Qed.

Lemma reduce_list_ok : forall level cand order keep d, DbInv d -> (forall l, Permutation l (order l)) ->
  NoDup (reduce_list level cand order keep d) /\
  (forall c, In c (reduce_list level cand order keep d) ->
     content (lbd_all level d) c <> [] /\ lrn (cl (lbd_all level d) c) = true /\ 4 < rank (cl (lbd_all level d) c)).
Proof.
  intros level cand order keep d H P. unfold reduce_list.
  set (perm := filter _ _). split.
  - apply skipn_nodup. eapply Permutation_NoDup; [apply P|]. apply NoDup_filter, seq_NoDup.
  - intros c Hc. apply skipn_in in Hc. apply (Permutation_in _ (Permutation_sym (P perm))) in Hc.
    apply filter_In in Hc as [_ Hc]. rewrite !andb_true_iff in Hc. destruct Hc as [[[A B] C] _].
    apply negb_true_iff in A. apply content_live in A. apply Nat.ltb_lt in C. auto.
Qed.

Lemma dstep_plain : forall d o, DbInv d -> dallowed d o -> plain o -> DbInv (dstep d o).
Proof.
  intros d o H A P. destruct o as [level vec learnt|level vec|c|c|v el c|c p|level cand order keep|p i c old new|c|p i q|v vec]; cbn [dstep dallowed plain] in *; try tauto.
  - destruct (length vec =? 2) eqn:L2.
    + apply Nat.eqb_eq in L2. destruct (bin_search d (nth 0 vec 0) (nth 1 vec 0)) as [c|] eqn:E.
      * now rewrite (new_clause_reg level d vec learnt c L2 E).
      * destruct (new_clause_added level d vec learnt H A (fun _ => E)) as (d' & c & -> & X & _). apply X.
    + apply Nat.eqb_neq in L2.
      destruct (new_clause_added level d vec learnt H A) as (d' & c & -> & X & _); [congruence|apply X].
  - apply (remove_clause_spec d c H A).
  - destruct (transform_by_simplification v el d c) as [d' r] eqn:E.
    apply (simplification_spec v el d c d' r H A) in E. cbn. inversion E; subst; auto.
    + apply (remove_clause_spec d c H A).
    + apply (remove_clause_spec d c H A).
    + eapply rw_inv; eauto.
  - destruct (elimination_spec d c p H A) as (d' & r & -> & X). inversion X; subst; eapply rw_inv; eauto.
  - unfold reduce. apply fold_remove.
    + eapply DbInv_same; [exact H|apply lbd_all_same].
    + apply (reduce_list_ok level cand order keep d H A).
    + intros c Hc. apply (proj2 (reduce_list_ok level cand order keep d H A) c Hc).
  - destruct A as (A1 & A2 & A3 & q & A4). eapply rw_inv, move_watch_spec; eauto.
  - eapply rw_inv, swap_watch_spec; eauto.
  - now apply recache_inv.
  - eapply DbInv_same; [exact H|apply minimize_same].
Qed.

End Steps.

Lemma dstep_inv : forall d o, DbInv d -> dallowed d o -> DbInv (dstep d o).
Proof.
  intros d o H A. destruct o; try (now apply dstep_plain); cbn [dstep dallowed] in *.
  - destruct (length vec =? 2) eqn:L2.
    + apply Nat.eqb_eq in L2. destruct (bin_search d (nth 0 vec 0) (nth 1 vec 0)) as [c|] eqn:E.
      * now rewrite (new_sandbox_reg level d vec c L2 E).
      * destruct (new_sandbox_added level d vec H A (fun _ => E)) as (d' & c & -> & X & _). apply X.
    + apply Nat.eqb_neq in L2.
      destruct (new_sandbox_added level d vec H A) as (d' & c & -> & X & _); [congruence|apply X].
  - apply (remove_sandbox_spec d c H A).
Qed.

Lemma dreach_inv : forall d, dreach d -> DbInv d.
Proof. induction 1; [apply cdb_new_inv|]. now apply dstep_inv. Qed.
Lemma preach_inv : forall d, preach d -> @DbInv (Some true) d.
Proof. induction 1; [apply cdb_new_inv|]. now apply dstep_plain. Qed.

(** ** C21 *)
Theorem C21_watches_exact : forall d, dreach d ->
  (forall p, NoDup (map fst (wat d p))) /\
  (forall c p, In c (map fst (wat d p)) <->
     3 <= length (lits (cl d c)) /\ (p = neg (nth 0 (lits (cl d c)) 0) \/ p = neg (nth 1 (lits (cl d c)) 0))) /\
  (forall l, NoDup (map fst (bil d l))) /\
  (forall l l' c, In (l', c) (bil d l) <-> lits (cl d c) = [l; l'] \/ lits (cl d c) = [l'; l]) /\
  (forall c, lits (cl d c) = [] \/ 2 <= length (lits (cl d c))).
Proof.
  intros d R. apply dreach_inv in R. destruct (db_links d R) as [W (B1 & B2 & B3)]. splits.
  - intros p. apply W.
  - intros c p. apply W.
  - exact B1.
  - exact B2.
  - intros c. pose proof (db_len d R c) as L. unfold content in L. destruct (lits (cl d c)); [auto|right; apply L; discriminate].
Qed.

(** ** C43 *)
Theorem C43_lookup_exact : forall d, dreach d -> forall a b c,
  (bin_search d a b = Some c <-> lits (cl d c) = [a; b] \/ lits (cl d c) = [b; a]) /\
  bin_search d b a = bin_search d a b.
Proof.
  intros d R a b c. apply dreach_inv in R. split; [apply (bin_search_iff d R)|].
  unfold bin_search. now rewrite Nat.min_comm, Nat.max_comm.
Qed.

(** registering or removing one pair leaves the lookup of every other pair alone *)
Theorem C43_pairs_independent : forall d a b c x y,
  ~ ((x = a /\ y = b) \/ (x = b /\ y = a)) -> a <> b ->
  bin_search (bin_add d a b c) x y = bin_search d x y /\
  bin_search (bin_remove d a b) x y = bin_search d x y /\
  bin_search (bin_add d a b c) a b = Some c /\ bin_search (bin_remove d a b) b a = None.
Proof.
  intros d a b c x y N Hab. unfold bin_search, bin_add, bin_remove. cbn. unfold upd2.
  assert (E : (Nat.min x y =? Nat.min a b) && (Nat.max x y =? Nat.max a b) = false).
  { apply not_true_is_false. intros X. apply andb_true_iff in X as [X1 X2]. apply Nat.eqb_eq in X1, X2.
    apply N. now apply minmax_eq. }
  rewrite E, !Nat.eqb_refl, (Nat.min_comm b a), (Nat.max_comm b a), !Nat.eqb_refl. auto.
Qed.

(** ** C23 *)
Theorem C23_new_clause_fresh : forall d level vec learnt d' r, dreach d ->
  2 <= length vec -> NoDup (map vi vec) -> new_clause level d vec learnt = (d', r) ->
  (exists c, r = RClause c /\ lits (cl d c) = [] /\ lits (cl d' c) = vec /\
     (length vec = 2 -> forall b, lits (cl d b) <> vec /\ lits (cl d b) <> rev vec) /\
     forall x, x <> c -> cl d' x = cl d x)
  \/ (exists c, r = RReg c /\ d' = d /\ length vec = 2 /\ (lits (cl d c) = vec \/ lits (cl d c) = rev vec)).
Proof.
  intros d level vec learnt d' r R L N E. apply dreach_inv in R.
  assert (V2 : length vec = 2 -> vec = [nth 0 vec 0; nth 1 vec 0] /\ rev vec = [nth 1 vec 0; nth 0 vec 0]).
  { intros X. destruct vec as [|x [|y [|]]]; cbn in X; try lia. auto. }
  destruct (Nat.eq_dec (length vec) 2) as [L2|L2].
  - destruct (bin_search d (nth 0 vec 0) (nth 1 vec 0)) as [c|] eqn:B.
    + rewrite (new_clause_reg level d vec learnt c L2 B) in E. injection E as <- <-. right.
      exists c. splits; auto. apply (bin_search_iff d R) in B. destruct (V2 L2) as [-> ->]. exact B.
    + destruct (new_clause_added level d vec learnt R (conj L N) (fun _ => B)) as (d1 & c & E1 & X & _).
      rewrite E1 in E. injection E as <- <-. left. exists c. splits; auto; try apply X.
      intros _ b.
      pose proof (proj1 (bin_search_none d R _ _) B b) as Y. unfold linked, content in Y.
      destruct (V2 L2) as [-> ->]. split; intros Z; apply Y; auto.
  - destruct (new_clause_added level d vec learnt R (conj L N)) as (d1 & c & E1 & X & _); [congruence|].
    rewrite E1 in E. injection E as <- <-. left. exists c. splits; auto; try apply X.
Qed.

Theorem C23_remove_exact : forall d c, dreach d -> lits (cl d c) <> [] ->
  lits (cl (remove_clause d c) c) = [] /\ forall x, x <> c -> cl (remove_clause d c) x = cl d x.
Proof.
  intros d c R Hl. apply dreach_inv in R. destruct (remove_clause_spec d c R Hl) as [X _]. split.
  - pose proof (rm_content _ _ _ X c) as Y. rewrite upd_same in Y. exact Y.
  - apply X.
Qed.

(** ** C22: counters *)
Lemma preach_dreach : forall d, preach d -> dreach d.
Proof. induction 1; [constructor|]. now constructor. Qed.

Theorem C22_counters_exact : forall d, preach d ->
  n_cl d = length (filter (fun c => negb (length (lits (cl d c)) =? 0)) (seq 0 (ncl d))) /\
  n_bi d = length (filter (fun c => length (lits (cl d c)) =? 2) (seq 0 (ncl d))) /\
  n_lr d = length (filter (fun c => negb (length (lits (cl d c)) =? 0) && lrn (cl d c)) (seq 0 (ncl d))) /\
  (forall c, ncl d <= c -> lits (cl d c) = []).
Proof.
  intros d R. pose proof (preach_inv d R) as H. destruct (db_cnt d H true eq_refl) as (A & B & _ & C). specialize (C eq_refl). splits; auto.
  - rewrite A. apply cnt_ext. intros x _. unfold is_live, dead. destruct (lits (cl d x)); auto.
  - rewrite C. apply cnt_ext. intros x _. unfold is_learnt, dead. destruct (lits (cl d x)); auto.
  - apply (db_range d H).
Qed.

Lemma nodup3 : NoDup [1; 2].
Proof. repeat constructor; cbn; lia. Qed.

(** The fourth counter of the property is NOT exact: the number of learnt binary clauses
    is incremented on creation and never decremented. *)
Theorem C22_bi_learnt_counter_refuted : exists d, preach d /\ n_bl d = 1 /\ forall c, lits (cl d c) = [].
Proof.
  exists (dstep (dstep cdb_new (ONew (fun _ => 0) [3; 5] true)) (ORemove 1)). splits.
  - apply preach_step; [apply preach_step; [constructor| |exact I]| |exact I].
    + cbn. split; [lia|]. apply nodup3.
    + cbn. discriminate.
  - reflexivity.
  - intros c. cbn. unfold upd. destruct (c =? 1); auto.
Qed.

(** ** C29: reduce *)
(** Every clause id: either it keeps its literals and flag, or it was a learnt clause whose
    freshly computed rank exceeds 4. Nothing else changes. *)
Theorem C29_reduce_only_learnt : forall d level cand order keep, dreach d -> (forall l, Permutation l (order l)) ->
  forall c,
    let d' := reduce level cand order keep d in
    (lits (cl d' c) = lits (cl d c) /\ lrn (cl d' c) = lrn (cl d c)) \/
    (lits (cl d' c) = [] /\ lrn (cl d c) = true /\ 4 < rank (cl (lbd_all level d) c)).
Proof.
  intros d level cand order keep R P c d'. apply dreach_inv in R.
  pose proof (lbd_all_same level d) as S. pose proof (DbInv_same _ _ R S) as R1.
  destruct (reduce_list_ok level cand order keep d R P) as [N L].
  destruct (fold_remove (reduce_list level cand order keep d) (lbd_all level d) R1 N (fun c Hc => proj1 (L c Hc))) as (A & B & C & D).
  change (fold_left remove_clause (reduce_list level cand order keep d) (lbd_all level d)) with d' in *.
  destruct S as (S1 & _). destruct (S1 c) as (X1 & X2 & _).
  destruct (in_dec Nat.eq_dec c (reduce_list level cand order keep d)) as [I|I].
  - right. destruct (L c I) as (L1 & L2 & L3). splits; auto; [apply (B c I)|congruence].
  - left. rewrite (C c I). auto.
Qed.
