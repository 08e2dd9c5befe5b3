(** The log only grows: every clause that is ever stored stays in it. [fits] is the condition
    under which the 16-bit position of a clause (types/clause.rs:23) never wraps: there are
    fewer than 2^16 variables, or no clause of the log has 2^16 literals. *)
From Coq Require Import List Arith Bool Lia ZArith.
From Verif Require Import Base HeapModel EmaModel AsgModel CdbModel PropModel ConflictModel ElimModel VivifyModel LubyModel LitModel BuildModel SolveModel QueueModel KSolveModel.
Import ListNotations.
Open Scope list_scope.
Open Scope nat_scope.
Local Opaque Nat.pow.

Definition fits (n : nat) (d : cdb) : Prop := n < 2 ^ 16 \/ forall c, In (CAdd c) (cert d) -> length c < 2 ^ 16.

Definition lle (d d' : cdb) : Prop := incl (cert d) (cert d').
Lemma lle_refl : forall d, lle d d.
Proof. intros d x; auto. Qed.
Lemma lle_trans : forall a b c, lle a b -> lle b c -> lle a c.
Proof. intros a b c H K x X; auto. Qed.
Lemma lle_same : forall d d', cert d' = cert d -> lle d d'.
Proof. intros d d' H x. now rewrite H. Qed.
Lemma lle_fits : forall n d d', lle d d' -> fits n d' -> fits n d.
Proof. intros n d d' H [K|K]; [now left|right]. intros c Hc. apply K. now apply H. Qed.
Lemma lle_add : forall d v, lle d (log_add d v).
Proof. intros d v x Hx. cbn. apply in_or_app. now left. Qed.
Lemma lle_del : forall d v, lle d (log_del d v).
Proof. intros d v x Hx. cbn. apply in_or_app. now left. Qed.
Lemma lle_assert : forall d v, lle d (log_assert d v).
Proof. intros d v. apply lle_add. Qed.

(** ** the clause database *)
Lemma w_insert_cert : forall d p c q, cert (w_insert d p c q) = cert d. Proof. reflexivity. Qed.
Lemma bin_add_cert : forall d p q c, cert (bin_add d p q c) = cert d. Proof. reflexivity. Qed.
Lemma bin_remove_cert : forall d p q, cert (bin_remove d p q) = cert d. Proof. reflexivity. Qed.
Lemma link_cert : forall d c, cert (link_clause d c) = cert d.
Proof. intros d c. unfold link_clause. destruct (_ =? _); reflexivity. Qed.
Lemma unlink_cert : forall d c, cert (unlink_clause d c) = cert d.
Proof. intros d c. unfold unlink_clause. destruct (_ =? _); reflexivity. Qed.
Lemma lbd_cert : forall d l c, cert (update_lbd d l c) = cert d.
Proof. intros d l c. unfold update_lbd. destruct (lbd_of l (lits (cl d c)) (lbdt d)) as [t r]. reflexivity. Qed.
Lemma store_cert : forall d vec d' c, store_clause d vec = (d', c) -> cert d' = cert d.
Proof. intros d vec d' c E. unfold store_clause in E. destruct (free d) as [|y fl]; injection E as <- <-; reflexivity. Qed.
Lemma new_cert : forall l d vec b d' r, new_clause l d vec b = (d', r) ->
  (cert d' = cert d /\ length vec = 2) \/ cert d' = cert d ++ [CAdd vec].
Proof.
  intros l d vec b d' r E. unfold new_clause in E.
  destruct (if length vec =? 2 then bin_search d (nth 0 vec 0) (nth 1 vec 0) else None) as [x|] eqn:B.
  { injection E as <- <-. left. split; auto. destruct (Nat.eqb_spec (length vec) 2); [auto|discriminate]. }
  right. destruct (store_clause (log_add d vec) vec) as [d1 c] eqn:Es. apply store_cert in Es. change (cert d1 = cert d ++ [CAdd vec]) in Es.
  injection E as <- <-. rewrite link_cert. rewrite <- Es.
  destruct (length vec =? 2); destruct b; cbn; rewrite ?lbd_cert; reflexivity.
Qed.
Lemma lle_new : forall l d vec b d' r, new_clause l d vec b = (d', r) -> lle d d'.
Proof.
  intros l d vec b d' r E. apply new_cert in E as [[E _]|E]; [now apply lle_same|]. intros x Hx. rewrite E. apply in_or_app. now left.
Qed.
Lemma new_short : forall n l d vec b d' r, new_clause l d vec b = (d', r) -> fits n d' -> n < 2 ^ 16 \/ length vec < 2 ^ 16.
Proof.
  intros n l d vec b d' r E [F|F]; [now left|right]. apply new_cert in E as [[_ E]|E].
  - rewrite E. apply Nat.lt_trans with 3; [lia|]. change 3 with (2 ^ 2 - 1). apply Nat.lt_le_trans with (2 ^ 2); [|apply Nat.pow_le_mono_r; lia].
    assert (2 ^ 2 <> 0) by (apply Nat.pow_nonzero; lia). lia.
  - apply F. rewrite E. apply in_or_app. right. now left.
Qed.
Lemma lle_remove : forall d c, lle d (remove_clause d c).
Proof.
  intros d c x Hx. unfold remove_clause. set (len2 := length _ =? 2). cbv zeta.
  rewrite <- (unlink_cert d c) in Hx. revert Hx. generalize (unlink_clause d c). intros d1 Hx.
  destruct len2; cbn; destruct (lrn _); cbn; apply in_or_app; now left.
Qed.
Lemma lle_fold_remove : forall cs d, lle d (fold_left remove_clause cs d).
Proof.
  induction cs as [|c cs IH]; intros d; cbn [fold_left]; [apply lle_refl|]. eapply lle_trans; [apply lle_remove|apply IH].
Qed.
Lemma lle_reduce : forall l cand order keep d, lle d (reduce l cand order keep d).
Proof.
  intros l cand order keep d. unfold reduce. eapply lle_trans; [|apply lle_fold_remove].
  unfold lbd_all. generalize (seq 1 (ncl d - 1)). intros cs. revert d.
  induction cs as [|c cs IH]; intros d; cbn [fold_left]; [apply lle_refl|].
  eapply lle_trans; [|apply IH]. destruct (dead d c); [apply lle_refl|apply lle_same, lbd_cert].
Qed.
Lemma relink_simp_cert : forall d c a b x y, cert (relink_simp d c a b x y) = cert d.
Proof.
  intros d c a b x y. unfold relink_simp.
  destruct (_ && _); [reflexivity|]. destruct (a =? x); [reflexivity|]. destruct (a =? y); [reflexivity|].
  destruct (b =? x); [reflexivity|]. destruct (b =? y); reflexivity.
Qed.
Lemma lle_simplify : forall v el d c d' r, transform_by_simplification v el d c = (d', r) -> lle d d'.
Proof.
  intros v el d c d' r E. unfold transform_by_simplification in E. destruct (existsb _ _); [injection E as <- <-; apply lle_remove|].
  destruct (negb _); [injection E as <- <-; apply lle_refl|].
  destruct (filter _ _) as [|u [|w [|z t]]]; try (injection E as <- <-; apply lle_refl).
  - destruct (bin_search _ _ _); [injection E as <- <-; apply lle_remove|]. injection E as <- <-.
    eapply lle_trans; [|apply lle_del]. eapply lle_trans; [|apply lle_add]. apply lle_same.
    match goal with |- context [if ?z then _ else _] => destruct z end; reflexivity.
  - injection E as <- <-. eapply lle_trans; [|apply lle_del]. eapply lle_trans; [|apply lle_add]. apply lle_same. rewrite relink_simp_cert. reflexivity.
Qed.
Lemma lle_elimination : forall d c p d' r, transform_by_elimination d c p = Some (d', r) -> lle d d'.
Proof.
  intros d c p d' r E. unfold transform_by_elimination in E. destruct (length _ =? 2); [injection E as <- <-; now apply lle_same|].
  destruct (length (filter _ _) =? 2).
  - destruct (bin_search _ _ _); injection E as <- <-; [now apply lle_same|].
    eapply lle_trans; [|apply lle_del]. eapply lle_trans; [|apply lle_add]. now apply lle_same.
  - destruct (relink_elim _ _ _ _ _ _ _) as [d2|] eqn:Er; [|discriminate]. injection E as <- <-.
    eapply lle_trans; [|apply lle_del]. eapply lle_trans; [|apply lle_add]. apply lle_same.
    unfold relink_elim in Er. repeat match type of Er with (if ?b then _ else _) = _ => destruct b end; try discriminate; injection Er as <-; reflexivity.
Qed.

(** ** propagation *)
Lemma lle_visit : forall sb p i c q a d a1 d1 b r, visit sb p i c q a d = (a1, d1, b, r) -> lle d d1.
Proof.
  intros sb p i c q a d a1 d1 b r E. apply lle_same. unfold visit in E.
  destruct (sb && dead d c); [injection E as <- <- <- <-; reflexivity|].
  destruct (istrue a q); [injection E as <- <- <- <-; reflexivity|].
  destruct (_ && istrue a _); [injection E as <- <- <- <-; reflexivity|].
  destruct (find _ _) as [j|]; [injection E as <- <- <- <-; reflexivity|].
  set (d2 := if negb _ then _ else _) in E.
  assert (Q : cert d2 = cert d).
  { set (d3 := if _ =? 0 then swap_watch d c else d) in d2. assert (Q3 : cert d3 = cert d) by (unfold d3; destruct (_ =? 0); reflexivity).
    unfold d2. destruct (negb _); auto. }
  destruct (litval a _) as [[]|]; injection E as <- <- <- <-; auto.
Qed.
Lemma lle_watch : forall fuel sb p i a d a1 d1 r, watch_loop fuel sb p i a d = (a1, d1, r) -> lle d d1.
Proof.
  induction fuel as [|f IH]; intros sb p i a d a1 d1 r E; cbn [watch_loop] in E; destruct (nth_error _ _) as [[c q]|];
    try (injection E as <- <- <-; apply lle_refl).
  destruct (visit sb p i c q a d) as [[[a2 d2] b] r2] eqn:Ev. apply lle_visit in Ev.
  destruct r2; try (injection E as <- <- <-; auto). apply IH in E. eapply lle_trans; eauto.
Qed.
Lemma lle_prop : forall fuel sb skip a d a1 d1 r, prop_loop fuel sb skip a d = (a1, d1, r) -> lle d d1.
Proof.
  induction fuel as [|f IH]; intros sb skip a d a1 d1 r E; cbn [prop_loop] in E; destruct (nth_error _ _) as [p|];
    try (injection E as <- <- <-; apply lle_refl).
  destruct (bin_loop p (bil d (neg p)) (set_qh a (S (qh a)))) as [a2 r2]. destruct r2; try (injection E as <- <- <-; apply lle_refl).
  destruct (watch_loop _ sb p 0 a2 d) as [[a3 d3] r3] eqn:Ew. apply lle_watch in Ew.
  destruct r3; try (injection E as <- <- <-; auto). destruct sb.
  - apply IH in E. eapply lle_trans; eauto.
  - destruct (reuse_saved_trail _ _ a3) as [a4 r4]. destruct r4; try (injection E as <- <- <-; auto).
    apply IH in E. eapply lle_trans; eauto.
Qed.
Lemma lle_propagate : forall skip a d a1 d1 r, propagate skip a d = (a1, d1, r) -> lle d d1.
Proof.
  intros skip a d a1 d1 r E. unfold propagate in E. destruct (reuse_saved_trail _ _ a) as [a4 r4].
  destruct r4; try (injection E as <- <- <-; apply lle_refl). now apply lle_prop in E.
Qed.
Lemma lle_sandbox : forall a d a1 d1 r, propagate_sandbox a d = (a1, d1, r) -> lle d d1.
Proof. intros a d a1 d1 r E. now apply lle_prop in E. Qed.
Lemma lle_root_propagate : forall a d a1 d1 r, root_propagate a d = (a1, d1, r) -> lle d d1.
Proof.
  intros a d a1 d1 r E. unfold root_propagate in E. destruct (remains a).
  - destruct (propagate_sandbox a d) as [[a2 d2] r2] eqn:Ep. injection E as <- <- <-. now apply lle_sandbox in Ep.
  - injection E as <- <- <-. apply lle_refl.
Qed.
Lemma lle_simp_pass : forall cs a d a1 d1 r, simp_pass cs a d = (a1, d1, r) -> lle d d1.
Proof.
  induction cs as [|c cs IH]; intros a d a1 d1 r E; cbn [simp_pass] in E; [injection E as <- <- <-; apply lle_refl|].
  destruct (dead d c); [eauto|]. destruct (transform_by_simplification (litval a) (eli a) d c) as [d2 rc] eqn:Et. apply lle_simplify in Et.
  destruct rc as [x| | |x|l].
  - apply IH in E. eapply lle_trans; eauto.
  - apply IH in E. eapply lle_trans; eauto.
  - injection E as <- <- <-. auto.
  - apply IH in E. eapply lle_trans; eauto.
  - destruct (assign_at_root_level a l) as [a2 [|]].
    + apply IH in E. eapply lle_trans; [exact Et|]. eapply lle_trans; [|exact E].
      eapply lle_trans; [|apply lle_remove]. apply lle_assert.
    + injection E as <- <- <-. eapply lle_trans; [exact Et|apply lle_assert].
Qed.
Lemma lle_root_passes : forall fuel n a d a1 d1 r, root_passes fuel n a d = (a1, d1, r) -> lle d d1.
Proof.
  induction fuel as [|f IH]; intros n a d a1 d1 r E; cbn [root_passes] in E; destruct (n <? _); try (injection E as <- <- <-; apply lle_refl).
  destruct (simp_pass _ a d) as [[a2 d2] r2] eqn:Es. apply lle_simp_pass in Es.
  destruct r2; [injection E as <- <- <-; auto|]. apply IH in E. eapply lle_trans; eauto.
Qed.
Lemma lle_clear : forall a d a1 d1 r, clear_asserted_literals a d = (a1, d1, r) -> lle d d1.
Proof.
  intros a d. unfold clear_asserted_literals. generalize (S (nv a)). intros fuel. revert a d.
  induction fuel as [|f IH]; intros a d a1 d1 r E; cbn [clear_loop] in E;
    destruct (root_propagate a d) as [[a2 d2] r2] eqn:E2; apply lle_root_propagate in E2;
    (destruct r2; [injection E as <- <- <-; auto|]);
    destruct (propagate_at_root_level a2 d2) as [[a3 d3] r3] eqn:E3; apply lle_root_passes in E3;
    (destruct r3; [injection E as <- <- <-; eapply lle_trans; eauto|]);
    (destruct (remains a3); [|injection E as <- <- <-; eapply lle_trans; eauto]);
    destruct (root_propagate a3 d3) as [[a4 d4] r4] eqn:E4; apply lle_root_propagate in E4;
    (destruct r4; [injection E as <- <- <-; eapply lle_trans; eauto; eapply lle_trans; eauto|]).
  - injection E as <- <- <-; eapply lle_trans; eauto; eapply lle_trans; eauto.
  - apply IH in E. do 3 (eapply lle_trans; eauto).
Qed.

(** ** conflict analysis *)
Lemma minimize_cert : forall v d vec, cert (fst (minimize_with_bi_clauses v d vec)) = cert d.
Proof.
  intros v d vec. unfold minimize_with_bi_clauses. destruct (_ <=? _); [reflexivity|].
  destruct (fold_left _ _ _) as [t n]. destruct (0 <? n); reflexivity.
Qed.
Lemma analyze_cert : forall a d l r d1 s learnt lv, conflict_analyze a d l r = Some (d1, s, learnt, lv) -> cert d1 = cert d.
Proof.
  intros a d l r d1 s learnt lv E. unfold conflict_analyze in E. destruct (ana_loop _ _ _ _ _ _) as [[st p]|]; [|discriminate].
  set (d3 := match an_cid st with Some c => _ | None => _ end) in E.
  assert (Q3 : cert d3 = cert d) by (unfold d3; destruct (an_cid st); [apply lbd_cert|reflexivity]).
  unfold minimize_learnt in E. destruct (retain_loop _ _ _ _ _ _ _ _) as [[[s1 clear] kept]|]; [|discriminate].
  destruct (if 2 <? length kept then minimize_with_bi_clauses (litval a) d3 kept else (d3, kept)) as [d4 v1] eqn:Em.
  assert (Q4 : cert d4 = cert d3).
  { destruct (2 <? length kept).
    - pose proof (minimize_cert (litval a) d3 kept) as X. now rewrite Em in X.
    - injection Em as <- <-. reflexivity. }
  destruct (if 1 <? length v1 then _ else _) as [v2 lv2]. injection E as <- _ _ _. congruence.
Qed.
Lemma lle_handle : forall deepen a d l r a1 d1 h, handle_conflict deepen a d l r = (a1, d1, h) -> lle d d1.
Proof.
  intros deepen a d l r a1 d1 h E. unfold handle_conflict in E.
  match type of E with (if ?b then _ else _) = _ => destruct b end; [injection E as <- <- <-; apply lle_refl|].
  destruct (conflict_analyze a d l r) as [[[[d2 s] learnt] lv]|] eqn:Ea; [|injection E as <- <- <-; apply lle_refl].
  apply analyze_cert, lle_same in Ea. rename Ea into Q.
  assert (QA : forall l0, lle d (log_assert d2 l0)) by (intros l0; eapply lle_trans; [exact Q|apply lle_assert]).
  destruct learnt as [|l0 [|l1 t]]; [injection E as <- <- <-; auto| |].
  - destruct (litval a l0) as [[]|].
    + destruct (0 <? _); [injection E as <- <- <-; auto|]. destruct (assign_at_root_level a l0). injection E as <- <- <-. auto.
    + destruct (_ =? 0); [injection E as <- <- <-; auto|]. destruct (assign_at_root_level a l0). injection E as <- <- <-. auto.
    + destruct (assign_at_root_level a l0). injection E as <- <- <-. auto.
  - destruct (negb _); [injection E as <- <- <-; auto|]. unfold store_learnt in E.
    destruct (new_clause _ d2 _ true) as [d3 rc] eqn:En. apply lle_new in En. apply (lle_trans _ _ _ Q) in En.
    destruct rc; repeat match type of E with (if ?b then _ else _) = _ => destruct b end; injection E as <- <- <-; auto.
Qed.
Lemma store_short : forall n a d ls lv dr, fits n (snd (fst (store_learnt a d ls lv dr))) -> n < 2 ^ 16 \/ length ls < 2 ^ 16.
Proof.
  intros n a d ls lv dr. unfold store_learnt. destruct (new_clause (lev a) d ls true) as [d1 rc] eqn:En. intros F.
  apply (new_short n _ _ _ _ _ _ En). destruct rc; repeat match type of F with context [if ?b then _ else _] => destruct b end; exact F.
Qed.

(** ** vivification *)
Lemma lle_viv_store : forall c b vec a d a1 d1 r, viv_store c b vec a d = (a1, d1, r) -> lle d d1.
Proof.
  intros c b vec a d a1 d1 r E. destruct vec as [|u [|w t]].
  - injection E as <- <- <-. apply lle_refl.
  - cbn [viv_store] in E. destruct (assign_at_root_level a u) as [a2 [|]]; injection E as <- <- <-; apply lle_assert.
  - cbn [viv_store] in E. destruct (new_clause (lev a) d (u :: w :: t) b) as [d2 r2] eqn:En. cbn [fst] in E.
    injection E as <- <- <-. eapply lle_trans; [eapply lle_new; eauto|apply lle_remove].
Qed.
Lemma lle_viv_lits : forall ls c b clits decs a d a1 d1 r, viv_lits c b clits ls decs a d = (a1, d1, r) -> lle d d1.
Proof.
  induction ls as [|l ls IH]; intros c b clits decs a d a1 d1 r E; cbn [viv_lits] in E.
  { injection E as <- <- <-. apply lle_refl. }
  destruct (litval a (neg l)) as [[|]|]; [injection E as <- <- <-; apply lle_refl|eapply IH; eauto|].
  destruct (propagate_sandbox (assign_by_decision a (neg l)) d) as [[a2 d2] [|x rr|]] eqn:Ep; apply lle_sandbox in Ep.
  - eapply lle_trans; [exact Ep|eapply IH; eauto].
  - unfold viv_conflict in E. destruct (is_target _ _ _ _ _); [injection E as <- <- <-; auto|].
    destruct (conflict_lits d2 x rr); [|injection E as <- <- <-; auto].
    destruct (analyze_sandbox a2 d2 (decs ++ [neg l]) l0); [|injection E as <- <- <-; auto].
    eapply lle_trans; [exact Ep|eapply lle_viv_store; eauto].
  - injection E as <- <- <-. auto.
Qed.
Lemma lle_viv_target : forall c a d a1 d1 r, viv_target c a d = (a1, d1, r) -> lle d d1.
Proof.
  intros c a d a1 d1 r E. unfold viv_target in E.
  destruct (root_propagate (backtrack_sandbox a) d) as [[a2 d2] [e|]] eqn:Ep; apply lle_root_propagate in Ep.
  - injection E as <- <- <-. auto.
  - destruct (dead d2 c); [injection E as <- <- <-; auto|]. eapply lle_trans; [exact Ep|eapply lle_viv_lits; eauto].
Qed.
Lemma lle_viv_targets : forall ts a d a1 d1 r, viv_targets ts a d = (a1, d1, r) -> lle d d1.
Proof.
  induction ts as [|c ts IH]; intros a d a1 d1 r E; cbn [viv_targets] in E; [injection E as <- <- <-; apply lle_refl|].
  destruct (viv_target c a d) as [[a2 d2] [e|]] eqn:Ep; apply lle_viv_target in Ep.
  - injection E as <- <- <-. auto.
  - eapply lle_trans; [exact Ep|eapply IH; eauto].
Qed.
Lemma lle_vivify : forall ts a d a1 d1 r, vivify ts a d = (a1, d1, r) -> lle d d1.
Proof.
  intros ts a d a1 d1 r E. unfold vivify in E.
  destruct (root_propagate a d) as [[a2 d2] [e|]] eqn:Ep; apply lle_root_propagate in Ep; [injection E as <- <- <-; auto|].
  destruct ts as [|t ts]; [injection E as <- <- <-; auto|].
  destruct (viv_targets (t :: ts) a2 d2) as [[a3 d3] [e|]] eqn:Et; apply lle_viv_targets in Et;
    [injection E as <- <- <-; eapply lle_trans; eauto|].
  destruct (root_propagate (backtrack_sandbox a3) d3) as [[a4 d4] [e|]] eqn:Eq; apply lle_root_propagate in Eq.
  - injection E as <- <- <-. eapply lle_trans; [exact Ep|]. eapply lle_trans; eauto.
  - apply lle_clear in E. eapply lle_trans; [exact Ep|]. eapply lle_trans; [exact Et|]. eapply lle_trans; eauto.
Qed.

(** ** the eliminator *)
Lemma add_cid_cert : forall evo a d o c, cert (fst (add_cid_occur evo a d o c)) = cert d.
Proof. intros evo a d o c. unfold add_cid_occur. destruct (cocc _); reflexivity. Qed.
Lemma prepare_cert : forall evo a d o, cert (fst (prepare evo a d o)) = cert d.
Proof.
  intros evo a d o. unfold prepare. generalize (seq 1 (ncl d - 1)), (ElimModel.occ_clear o). intros cs. revert d.
  induction cs as [|c cs IH]; intros d o1; cbn [fold_left]; [reflexivity|].
  destruct (dead d c || cocc (cl d c)); [apply IH|]. destruct (add_cid_occur evo a d o1 c) as [d1 o2] eqn:E.
  rewrite IH. pose proof (add_cid_cert evo a d o1 c) as X. now rewrite E in X.
Qed.
Lemma lle_resolve_pair : forall evo v a d o p n a' d' o' r, resolve_pair evo v (a, d, o) p n = ((a', d', o'), r) -> lle d d'.
Proof.
  intros evo v a d o p n a' d' o' r E. unfold resolve_pair in E. destruct (merge _ _ _) as [|l [|l1 t]].
  - injection E as <- <- <- <-. apply lle_refl.
  - destruct (litval a l) as [[]|]; try (injection E as <- <- <- <-; apply lle_refl).
    destruct (assign_at_root_level a l). injection E as <- <- <- <-. apply lle_assert.
  - destruct (new_clause _ _ _ _) as [d1 rc] eqn:En. apply lle_new in En.
    destruct rc as [c| | | |]; try (injection E as <- <- <- <-; exact En).
    destruct (add_cid_occur evo a d1 o c) as [d2 o2] eqn:Ea. injection E as <- <- <- <-. eapply lle_trans; [exact En|].
    apply lle_same. pose proof (add_cid_cert evo a d1 o c) as X. now rewrite Ea in X.
Qed.
Lemma lle_resolve_pairs : forall evo v ps a d o a' d' o' r, resolve_pairs evo v (a, d, o) ps = ((a', d', o'), r) -> lle d d'.
Proof.
  intros evo v. induction ps as [|[p n] ps IH]; intros a d o a' d' o' r E; cbn [resolve_pairs] in E; [injection E as <- <- <- <-; apply lle_refl|].
  destruct (resolve_pair evo v (a, d, o) p n) as [[[a1 d1] o1] [e|]] eqn:E1; apply lle_resolve_pair in E1.
  - injection E as <- <- <- <-. auto.
  - apply IH in E. eapply lle_trans; eauto.
Qed.
Lemma lle_remove_occurring : forall cs a d o, lle d (fst (fold_left (remove_occurring a) cs (d, o))).
Proof.
  induction cs as [|c cs IH]; intros a d o; cbn [fold_left]; [apply lle_refl|]. unfold remove_occurring at 2.
  destruct (dead d c); [apply IH|]. unfold remove_cid_occur. eapply lle_trans; [|apply IH].
  eapply lle_trans; [|apply lle_remove]. now apply lle_same.
Qed.
Lemma lle_eliminate_var : forall evo a d o v a' d' o' r, eliminate_var evo (a, d, o) v = ((a', d', o'), r) -> lle d d'.
Proof.
  intros evo a d o v a' d' o' r E. unfold eliminate_var in E.
  destruct (resolve_pairs _ _ _ _) as [[[a2 d2] o2] [e|]] eqn:E1; apply lle_resolve_pairs in E1; [injection E as <- <- <- <-; auto|].
  match type of E with context [fold_left (remove_occurring a2) ?cs (d2, o2)] => pose proof (lle_remove_occurring cs a2 d2 o2) as L1; destruct (fold_left (remove_occurring a2) cs (d2, o2)) as [d3 o3] end.
  match type of E with context [fold_left (remove_occurring a2) ?cs (d3, o3)] => pose proof (lle_remove_occurring cs a2 d3 o3) as L2; destruct (fold_left (remove_occurring a2) cs (d3, o3)) as [d4 o4] end.
  injection E as <- <- <- <-. eapply lle_trans; [exact E1|]. eapply lle_trans; eauto.
Qed.
Lemma lle_strengthen : forall a d o c p a' d' o' r, strengthen (a, d, o) c p = ((a', d', o'), r) -> lle d d'.
Proof.
  intros a d o c p a' d' o' r E. unfold strengthen in E. destruct (transform_by_elimination d c p) as [[d1 rc]|] eqn:Et;
    [apply lle_elimination in Et|injection E as <- <- <- <-; apply lle_refl].
  destruct rc as [x| | |x|l]; try (injection E as <- <- <- <-; auto using lle_refl; fail).
  - unfold remove_cid_occur in E. injection E as <- <- <- <-. eapply lle_trans; [exact Et|]. eapply lle_trans; [|apply lle_remove]. now apply lle_same.
  - unfold remove_cid_occur in E.
    match type of E with context [remove_clause ?z c] => assert (L : lle d (remove_clause z c)) end.
    { eapply lle_trans; [exact Et|]. eapply lle_trans; [apply (lle_assert d1 l)|]. eapply lle_trans; [|apply lle_remove]. now apply lle_same. }
    destruct (litval a l) as [[]|]; [| |destruct (assign_at_root_level a l)]; injection E as <- <- <- <-; exact L.
Qed.
Lemma lle_subsume : forall a d o c x a' d' o', subsume_clause (a, d, o) c x = (a', d', o') -> lle d d'.
Proof.
  intros a d o c x a' d' o' E. unfold subsume_clause in E. destruct (forallb _ _); [|injection E as <- <- <-; apply lle_refl].
  unfold remove_cid_occur in E. injection E as <- <- <-. eapply lle_trans; [|apply lle_remove]. apply lle_same. destruct (lrn (cl d x)); reflexivity.
Qed.
Lemma lle_elim_step : forall evo s a d o a' d' o' r, elim_step evo (a, d, o) s = ((a', d', o'), r) -> lle d d'.
Proof.
  intros evo s a d o a' d' o' r E. destruct s as [v|v|c x|l x|v|]; unfold elim_step in E.
  - injection E as <- <- <- <-. apply lle_refl.
  - destruct (val a v); [|destruct (oab o v)]; injection E as <- <- <- <-; apply lle_refl.
  - destruct (_ || _); [injection E as <- <- <- <-; apply lle_refl|]. destruct (subsume_clause (a, d, o) c x) as [[a1 d1] o1] eqn:E1.
    injection E as <- <- <- <-. eapply lle_subsume; eauto.
  - destruct (_ && _); [|injection E as <- <- <- <-; apply lle_refl]. eapply lle_strengthen; eauto.
  - destruct (val a v); [injection E as <- <- <- <-; apply lle_refl|]. destruct (_ && _); [|injection E as <- <- <- <-; apply lle_refl].
    eapply lle_eliminate_var; eauto.
  - destruct (propagate_sandbox a d) as [[a1 d1] r1] eqn:E1. apply lle_sandbox in E1. injection E as <- <- <- <-. auto.
Qed.
Lemma lle_elim_run : forall evo ss a d o a' d' o' r, elim_run evo (a, d, o) ss = ((a', d', o'), r) -> lle d d'.
Proof.
  intros evo. induction ss as [|s ss IH]; intros a d o a' d' o' r E; cbn [elim_run] in E; [injection E as <- <- <- <-; apply lle_refl|].
  destruct (elim_step evo (a, d, o) s) as [[[a1 d1] o1] [e|]] eqn:E1; apply lle_elim_step in E1.
  - injection E as <- <- <- <-. auto.
  - apply IH in E. eapply lle_trans; eauto.
Qed.
Lemma lle_elim_simplify : forall evo ss a d o a' d' o' r, elim_simplify evo ss (a, d, o) = ((a', d', o'), r) -> lle d d'.
Proof.
  intros evo ss a d o a' d' o' r E. unfold elim_simplify in E.
  destruct (elim_run evo (a, d, o) ss) as [[[a1 d1] o1] [e|]] eqn:E1; apply lle_elim_run in E1; [injection E as <- <- <- <-; auto|].
  destruct (propagate_sandbox a1 d1) as [[a2 d2] r2] eqn:E2. apply lle_sandbox in E2. apply (lle_trans _ _ _ E1) in E2.
  destruct r2; [|injection E as <- <- <- <-; auto..]. unfold stop in E. injection E as <- <- <- <-. exact E2.
Qed.
Lemma lle_elim_prepare : forall evo ss a d o a' d' o' r, elim_prepare_simplify evo ss (a, d, o) = ((a', d', o'), r) -> lle d d'.
Proof.
  intros evo ss a d o a' d' o' r E. unfold elim_prepare_simplify in E. pose proof (prepare_cert evo a d o) as P.
  destruct (prepare evo a d o) as [d1 o1]. apply lle_elim_simplify in E. eapply lle_trans; [|exact E]. now apply lle_same.
Qed.
Lemma lle_assert_pure : forall vs a d o a' d' ok, assert_pure vs a d o = (a', d', ok) -> lle d d'.
Proof.
  induction vs as [|v vs IH]; intros a d o a' d' ok E; cbn [assert_pure] in E; [injection E as <- <- <-; apply lle_refl|].
  destruct (val a v); [eauto|]. destruct (stats o v) as [[p m]|]; [|eauto].
  destruct (m =? 0).
  - destruct (assign_at_root_level _ _) as [x []]; [apply IH in E; eapply lle_trans; [apply lle_assert|exact E]|injection E as <- <- <-; apply lle_assert].
  - destruct (p =? 0); [|eauto].
    destruct (assign_at_root_level _ _) as [x []]; [apply IH in E; eapply lle_trans; [apply lle_assert|exact E]|injection E as <- <- <-; apply lle_assert].
Qed.

(** ** search and solve *)
Lemma lle_inprocess : forall cf ss a d a' d' r, inprocess cf ss a d = (a', d', r) -> lle d d'.
Proof.
  intros cf ss a d a' d' r E. unfold inprocess in E. destruct (cf_elim cf).
  - destruct (prepare_oob cf a d); [injection E as <- <- <-; apply lle_refl|].
    destruct (elim_prepare_simplify _ _ _) as [[[a1 d1] o1] r1] eqn:E1. apply lle_elim_prepare in E1.
    destruct (simplify_outcome cf d1 r1); injection E as <- <- <-; auto.
  - destruct (propagate_sandbox a d) as [[a1 d1] r1] eqn:E1. apply lle_sandbox in E1. injection E as <- <- <-; auto.
Qed.
Lemma lle_after : forall cf h ended next a d a' d' r, after_conflict cf h ended next a d = (a', d', r) -> lle d d'.
Proof.
  intros cf h ended next a d a' d' r E. unfold after_conflict in E.
  destruct ended; [|destruct (h_restart h); injection E as <- <- <-; apply lle_refl].
  destruct (h_time h) as [[]|]; try (injection E as <- <- <-; apply lle_refl).
  destruct (clear_asserted_literals _ d) as [[a2 d2] [e|]] eqn:E2; apply lle_clear in E2; [injection E as <- <- <-; auto|].
  pose proof (lle_trans _ _ _ E2 (lle_reduce (lev a2) (h_cand h) (h_order h) (h_keep h) d2)) as E3.
  destruct next as [segment|]; [|injection E as <- <- <-; auto].
  destruct (vivify (h_targets h) _ _) as [[a4 d4] [e|]] eqn:E4; apply lle_vivify in E4; apply (lle_trans _ _ _ E3) in E4; [injection E as <- <- <-; auto|].
  destruct segment; [|injection E as <- <- <-; auto].
  destruct (inprocess cf (h_steps h) a4 d4) as [[a5 d5] [e|]] eqn:E5; apply lle_inprocess in E5; injection E as <- <- <-; exact (lle_trans _ _ _ E4 E5).
Qed.
Lemma lle_search : forall cf hs sm n a d a' d' r, search cf hs sm n a d = (a', d', r) -> lle d d'.
Proof.
  intros cf. induction hs as [|h hs IH]; intros sm n a d a' d' r E; cbn [search] in E;
    destruct (_ || _); try (injection E as <- <- <-; apply lle_refl).
  match type of E with match ?z with Some _ => _ | None => _ end = _ => destruct z as [a1|] end; [|injection E as <- <- <-; apply lle_refl].
  destruct (propagate (h_skip h) a1 d) as [[a2 d2] r2] eqn:E2. apply lle_propagate in E2.
  destruct r2 as [|l rr|]; [eapply lle_trans; [exact E2|eauto]| |injection E as <- <- <-; auto].
  destruct (dlevel a2 =? 0); [injection E as <- <- <-; auto|].
  destruct (handle_conflict (h_deepen h) a2 d2 l rr) as [[a3 d3] hr] eqn:E3. apply lle_handle in E3. apply (lle_trans _ _ _ E2) in E3.
  destruct hr as [rk|e|]; [|injection E as <- <- <-; auto..].
  destruct (after_conflict _ _ _ _ _ _) as [[a4 d4] [e|]] eqn:E4; apply lle_after in E4; apply (lle_trans _ _ _ E3) in E4; [injection E as <- <- <-; auto|].
  eapply lle_trans; eauto.
Qed.
Lemma finish_cdb : forall s, snd (fst (finish s)) = snd (fst s).
Proof.
  intros [[a d] r]. destruct r as [|e| | |]; cbn [finish]; try reflexivity.
  - destruct (validate _ _ _); [reflexivity|]. destruct (answer_vals _ _); reflexivity.
  - destruct e as [e| |]; try reflexivity. destruct e; reflexivity.
Qed.
Lemma lle_finish : forall d0 s, lle d0 (snd (fst s)) -> lle d0 (snd (fst (finish s))).
Proof. intros d0 s. now rewrite finish_cdb. Qed.
Lemma lle_solve : forall cf p hs a d, lle d (snd (fst (solve cf p hs a d))).
Proof.
  intros cf p hs a d. unfold solve. destruct (negb (check_size cf d)); [apply lle_refl|].
  destruct (vivify (p_targets p) a d) as [[a1 d1] r1] eqn:E1. apply lle_vivify in E1.
  destruct r1 as [e|]; [destruct e; exact E1|].
  destruct (propagate_sandbox a1 d1) as [[a2 d2] r2] eqn:E2. apply lle_sandbox in E2. apply (lle_trans _ _ _ E1) in E2.
  destruct (root_error r2); [exact E2|]. destruct (negb (check_size cf d2)); [exact E2|]. destruct (_ || _); [exact E2|].
  assert (P : exists d3 o3, (if cf_elim cf then prepare (cf_evo cf) a2 d2 occ_new else (d2, occ_new)) = (d3, o3) /\ lle d d3).
  { destruct (cf_elim cf); [|eauto]. pose proof (prepare_cert (cf_evo cf) a2 d2 occ_new) as P. destruct (prepare _ _ _ _) as [d3 o3].
    exists d3, o3. split; auto. eapply lle_trans; [exact E2|]. now apply lle_same. }
  destruct P as (d3 & o3 & -> & E3).
  destruct (assert_pure (seq 1 (nv a2)) a2 d3 o3) as [[a4 d4] ok] eqn:E4. apply lle_assert_pure in E4. apply (lle_trans _ _ _ E3) in E4.
  destruct ok; [|exact E4].
  destruct (simplify_running cf (p_steps p) (a4, d4, o3)) as [[[a5 d5] o5] r5] eqn:E5.
  assert (E6 : lle d d5).
  { unfold simplify_running in E5. destruct (cf_elim cf); [apply lle_elim_simplify in E5; eapply lle_trans; eauto|].
    destruct (propagate_sandbox a4 d4) as [[a6 d6] r6] eqn:E6. apply lle_sandbox in E6. injection E5 as <- <- <- <-. eapply lle_trans; eauto. }
  destruct r5; [exact E6|]. destruct (negb (check_size cf d5)); [exact E6|]. cbv zeta. apply lle_finish.
  destruct (search _ _ _ _ _ _) as [[a7 d7] r7] eqn:E7. apply lle_search in E7. eapply lle_trans; eauto.
Qed.

(** ** the eliminator with its queues *)
Lemma q_add_cid_cert : forall k a d o q c e d' o' q', q_add_cid k a d o q c e = (d', o', q') -> cert d' = cert d.
Proof.
  intros k a d o q c e d' o' q' E. unfold q_add_cid in E. destruct (cocc _); [injection E as <- <- <-; reflexivity|].
  destruct (fold_left _ _ _) as [o1 q1]. injection E as <- <- <-. reflexivity.
Qed.
Lemma q_remove_cid_cert : forall k a d o q c d' o' q', q_remove_cid k a d o q c = (d', o', q') -> cert d' = cert d.
Proof. intros k a d o q c d' o' q' E. unfold q_remove_cid in E. destruct (fold_left _ _ _) as [o1 q1]. injection E as <- <- <-. reflexivity. Qed.
Lemma q_prepare_cert : forall k a d o q d' o' q', q_prepare k a d o q = (d', o', q') -> cert d' = cert d.
Proof.
  intros k a d o q d' o' q' E. unfold q_prepare in E.
  match type of E with context [fold_left ?f ?cs ?s] => destruct (fold_left f cs s) as [[d1 o1] q1] eqn:F; assert (X : cert d1 = cert d) end.
  { clear E. revert F. generalize (seq 1 (ncl d - 1)), (ElimModel.occ_clear o). intros cs. revert d q.
    induction cs as [|c cs IH]; intros d q o2 F; cbn [fold_left] in F; [injection F as <- <- <-; reflexivity|].
    destruct (dead d c || cocc (cl d c)); [eauto|]. destruct (q_add_cid k a d o2 q c false) as [[d3 o3] q3] eqn:Ea.
    apply q_add_cid_cert in Ea. apply IH in F. congruence. }
  injection E as <- <- <-. exact X.
Qed.
Lemma lle_q_strengthen : forall k a d o q c p a' d' o' q' r, q_strengthen k ((a, d, o), q) c p = ((a', d', o'), q', r) -> lle d d'.
Proof.
  intros k a d o q c p a' d' o' q' r E. unfold q_strengthen in E. destruct (transform_by_elimination d c p) as [[d1 rc]|] eqn:Et;
    [apply lle_elimination in Et|injection E as <- <- <- <- <-; apply lle_refl].
  destruct rc as [x| | |x|l]; try (injection E as <- <- <- <- <-; auto using lle_refl; fail).
  - destruct (q_remove_lit _ _ _ _ _) as [o1 q1]. injection E as <- <- <- <- <-; auto.
  - destruct (q_remove_cid k a d1 o q c) as [[d2 o2] q2] eqn:Er. apply q_remove_cid_cert in Er. injection E as <- <- <- <- <-.
    eapply lle_trans; [exact Et|]. eapply lle_trans; [|apply lle_remove]. now apply lle_same.
  - destruct (q_remove_cid k a _ o q c) as [[d2 o2] q2] eqn:Er. apply q_remove_cid_cert in Er.
    assert (L : lle d (remove_clause d2 c)).
    { eapply lle_trans; [exact Et|]. eapply lle_trans; [apply (lle_assert d1 l)|]. eapply lle_trans; [|apply lle_remove]. now apply lle_same. }
    destruct (litval a l) as [[]|]; [| |destruct (assign_at_root_level a l)]; injection E as <- <- <- <- <-; exact L.
Qed.
Lemma lle_q_try : forall k a d o q i x a' d' o' q' r, q_try_subsume k ((a, d, o), q) i x = ((a', d', o'), q', r) -> lle d d'.
Proof.
  intros k a d o q i x a' d' o' q' r E. unfold q_try_subsume in E. destruct i as [c|l].
  - destruct (forallb _ _); [|injection E as <- <- <- <- <-; apply lle_refl].
    destruct (q_remove_cid k a _ o q x) as [[d2 o2] q2] eqn:Er. apply q_remove_cid_cert in Er. injection E as <- <- <- <- <-.
    eapply lle_trans; [|apply lle_remove]. apply lle_same. rewrite Er. destruct (lrn (cl d x)); reflexivity.
  - destruct (contains _ _); [|injection E as <- <- <- <- <-; apply lle_refl].
    destruct (q_strengthen _ _ _ _) as [[[[a1 d1] o1] q1] [e|]] eqn:Es; apply lle_q_strengthen in Es; injection E as <- <- <- <- <-; auto.
Qed.
Lemma lle_q_dids : forall k i dids a d o q t a' d' o' q' t' r, q_dids k i dids ((a, d, o), q) t = (((a', d', o'), q'), t', r) -> lle d d'.
Proof.
  intros k i. induction dids as [|x dids IH]; intros a d o q t a' d' o' q' t' r E; cbn [q_dids] in E; [injection E as <- <- <- <- <- <-; apply lle_refl|].
  match type of E with (if ?b then _ else _) = _ => destruct b end; [eauto|].
  destruct (_ <=? t); [|injection E as <- <- <- <- <- <-; apply lle_refl]. destruct (_ && _); [|eauto].
  destruct (q_try_subsume k ((a, d, o), q) i x) as [[[[a1 d1] o1] q1] [e|]] eqn:Es; apply lle_q_try in Es; [injection E as <- <- <- <- <- <-; auto|].
  apply IH in E. eapply lle_trans; eauto.
Qed.
Lemma lle_q_against : forall k i b a d o q t a' d' o' q' t' r, q_against k i b ((a, d, o), q) t = (((a', d', o'), q'), t', r) -> lle d d'.
Proof.
  intros k i b a d o q t a' d' o' q' t' r E. unfold q_against in E.
  destruct (q_dids k i _ _ t) as [[[[[a1 d1] o1] q1] t1] [e|]] eqn:E1; apply lle_q_dids in E1; [injection E as <- <- <- <- <- <-; auto|].
  destruct (q_dids k i _ _ t1) as [[[[[a2 d2] o2] q2] t2] [e|]] eqn:E2; apply lle_q_dids in E2; apply (lle_trans _ _ _ E1) in E2; injection E as <- <- <- <- <- <-; auto.
Qed.
Lemma lle_q_backward : forall k fuel a d o q t a' d' o' q' t' r, q_backward k fuel ((a, d, o), q) t = (((a', d', o'), q'), t', r) -> lle d d'.
Proof.
  intros k. induction fuel as [|f IH]; intros a d o q t a' d' o' q' t' r E; cbn [q_backward] in E.
  - destruct (q_cls q); [|injection E as <- <- <- <- <- <-; apply lle_refl].
    destruct (nth_error _ _); [injection E as <- <- <- <- <- <-; apply lle_refl|].
    destruct (remains a); [|injection E as <- <- <- <- <- <-; apply lle_refl].
    destruct (propagate_sandbox a d) as [[a1 d1] r1] eqn:Ep. apply lle_sandbox in Ep. injection E as <- <- <- <- <- <-; auto.
  - assert (H : forall i q1, (if t =? 0 then (((a, d, o), q_clear_vars (q_clear_clauses q1)), t, None)
       else let q2 := match i with QClause c => set_q_flag q1 (upd (q_flag q1) c false) | QLit _ => q1 end in
        if match i with QClause c => dead d c || (k_sub k <? length (lits (cl d c))) | QLit _ => false end
        then q_backward k f ((a, d, o), q2) t
        else
          let best := match i with QClause c => q_best a d o (lits (cl d c)) | QLit l => vi l end in
          if (best =? 0) || eli a best then q_backward k f ((a, d, o), q2) t
          else match q_against k i best ((a, d, o), q2) t with
               | (s1, t1, None) => q_backward k f s1 t1
               | (s1, t1, Some r) => (s1, t1, r)
               end) = (((a', d', o'), q'), t', r) -> lle d d').
    { intros i q1 X. destruct (t =? 0); [injection X as <- <- <- <- <- <-; apply lle_refl|]. cbv zeta in X.
      match type of X with (if ?b then _ else _) = _ => destruct b end; [eauto|].
      destruct (_ || _); [eauto|].
      destruct (q_against k i _ _ t) as [[[[[a1 d1] o1] q2] t1] [e|]] eqn:Ea; apply lle_q_against in Ea; [injection X as <- <- <- <- <- <-; auto|].
      apply IH in X. eapply lle_trans; eauto. }
    destruct (q_cls q) as [|c rest]; [|exact (H (QClause c) _ E)].
    destruct (nth_error _ _) as [l|]; [exact (H (QLit l) _ E)|].
    destruct (remains a); [|injection E as <- <- <- <- <- <-; apply lle_refl].
    destruct (propagate_sandbox a d) as [[a1 d1] r1] eqn:Ep. apply lle_sandbox in Ep. injection E as <- <- <- <- <- <-; auto.
Qed.
Lemma lle_q_check : forall k a d o q t a' d' o' q' t' r, q_check k ((a, d, o), q) t = (((a', d', o'), q'), t', r) -> lle d d'.
Proof. intros k a d o q t a' d' o' q' t' r. unfold q_check. apply lle_q_backward. Qed.
Lemma lle_q_resolve_pair : forall k v a d o q p n a' d' o' q' r, q_resolve_pair k v ((a, d, o), q) p n = ((a', d', o'), q', r) -> lle d d'.
Proof.
  intros k v a d o q p n a' d' o' q' r E. unfold q_resolve_pair in E. destruct (merge _ _ _) as [|l [|l1 t]].
  - injection E as <- <- <- <- <-. apply lle_refl.
  - destruct (litval a l) as [[]|]; try (injection E as <- <- <- <- <-; apply lle_refl).
    destruct (assign_at_root_level a l). injection E as <- <- <- <- <-. apply lle_assert.
  - destruct (new_clause _ _ _ _) as [d1 rc] eqn:En. apply lle_new in En.
    destruct rc as [c| | | |]; try (injection E as <- <- <- <- <-; exact En).
    destruct (q_add_cid k a d1 o _ c true) as [[d2 o2] q2] eqn:Ea. apply q_add_cid_cert in Ea. injection E as <- <- <- <- <-. eapply lle_trans; [exact En|].
    now apply lle_same.
Qed.
Lemma lle_q_resolve_pairs : forall k v ps a d o q a' d' o' q' r, q_resolve_pairs k v ((a, d, o), q) ps = ((a', d', o'), q', r) -> lle d d'.
Proof.
  intros k v. induction ps as [|[p n] ps IH]; intros a d o q a' d' o' q' r E; cbn [q_resolve_pairs] in E; [injection E as <- <- <- <- <-; apply lle_refl|].
  destruct (q_resolve_pair k v ((a, d, o), q) p n) as [[[[a1 d1] o1] q1] [e|]] eqn:E1; apply lle_q_resolve_pair in E1.
  - injection E as <- <- <- <- <-. auto.
  - apply IH in E. eapply lle_trans; eauto.
Qed.
Lemma lle_q_remove_occurring : forall k cs a d o q d' o' q', fold_left (q_remove_occurring k a) cs (d, o, q) = (d', o', q') -> lle d d'.
Proof.
  intros k. induction cs as [|c cs IH]; intros a d o q d' o' q' E; cbn [fold_left] in E; [injection E as <- <- <-; apply lle_refl|].
  unfold q_remove_occurring at 2 in E. destruct (dead d c); [eauto|]. destruct (q_remove_cid k a d o q c) as [[d1 o1] q1] eqn:Er.
  apply q_remove_cid_cert in Er. apply IH in E. eapply lle_trans; [|exact E]. eapply lle_trans; [|apply lle_remove]. now apply lle_same.
Qed.
Lemma lle_q_eliminate_var : forall k v a d o q t a' d' o' q' t' r, q_eliminate_var k v ((a, d, o), q) t = (((a', d', o'), q'), t', r) -> lle d d'.
Proof.
  intros k v a d o q t a' d' o' q' t' r E. unfold q_eliminate_var in E.
  match type of E with (if ?b then _ else _) = _ => destruct b end; [injection E as <- <- <- <- <- <-; apply lle_refl|]. cbv zeta in E.
  match type of E with (if ?b then _ else _) = _ => destruct b end; [injection E as <- <- <- <- <- <-; apply lle_refl|].
  destruct (q_resolve_pairs _ _ _ _) as [[[[a2 d2] o2] q2] [e|]] eqn:E1; apply lle_q_resolve_pairs in E1; [injection E as <- <- <- <- <- <-; auto|].
  destruct (fold_left (q_remove_occurring k a2) _ (d2, o2, q2)) as [[d3 o3] q3] eqn:E3. apply lle_q_remove_occurring in E3.
  destruct (fold_left (q_remove_occurring k a2) _ (d3, o3, q3)) as [[d4 o4] q4] eqn:E4. apply lle_q_remove_occurring in E4.
  apply lle_q_check in E. eapply lle_trans; [exact E1|]. eapply lle_trans; [exact E3|]. eapply lle_trans; eauto.
Qed.
Lemma lle_q_vars : forall k fuel a d o q t a' d' o' q' t' r, q_vars k fuel ((a, d, o), q) t = (((a', d', o'), q'), t', r) -> lle d d'.
Proof.
  intros k. induction fuel as [|f IH]; intros a d o q t a' d' o' q' t' r E; cbn [q_vars] in E;
    destruct (dequeue_var _ _ _) as [x [v|]]; try (injection E as <- <- <- <- <- <-; apply lle_refl).
  destruct (eli a v); [eauto|]. destruct (val a v); [eauto|].
  destruct (q_eliminate_var k v _ t) as [[[[[a1 d1] o1] q1] t1] [e|]] eqn:Ea; apply lle_q_eliminate_var in Ea; [injection E as <- <- <- <- <- <-; auto|].
  apply IH in E. eapply lle_trans; eauto.
Qed.
Lemma lle_q_main : forall k fuel a d o q t a' d' o' q' t' r, q_main k fuel ((a, d, o), q) t = (((a', d', o'), q'), t', r) -> lle d d'.
Proof.
  intros k. induction fuel as [|f IH]; intros a d o q t a' d' o' q' t' r E; cbn [q_main] in E.
  { match type of E with (if ?b then _ else _) = _ => destruct b end; injection E as <- <- <- <- <- <-; apply lle_refl. }
  match type of E with (if ?b then _ else _) = _ => destruct b end; [|injection E as <- <- <- <- <- <-; apply lle_refl].
  assert (H1 : forall a1 d1 o1 q1 t1 r1, (if negb (match q_cls q with [] => true | _ => false end) || (q_bwd q <? length (tr a)) then q_check k ((a, d, o), q) t else (((a, d, o), q), t, None)) = (((a1, d1, o1), q1), t1, r1) -> lle d d1).
  { intros a1 d1 o1 q1 t1 r1 X. destruct (_ || _); [eapply lle_q_check; eauto|injection X as <- <- <- <- <- <-; apply lle_refl]. }
  destruct (if _ || _ then _ else _) as [[[[[a1 d1] o1] q1] t1] [e|]]; specialize (H1 _ _ _ _ _ _ eq_refl); [injection E as <- <- <- <- <- <-; auto|].
  destruct (q_vars _ _ _ _) as [[[[[a2 d2] o2] q2] t2] [e|]] eqn:E2; apply lle_q_vars in E2; apply (lle_trans _ _ _ H1) in E2; [injection E as <- <- <- <- <- <-; auto|].
  destruct (q_check _ _ _) as [[[[[a3 d3] o3] q3] t3] [e|]] eqn:E3; apply lle_q_check in E3; apply (lle_trans _ _ _ E2) in E3; [injection E as <- <- <- <- <- <-; auto|].
  destruct (propagate_sandbox a3 d3) as [[a4 d4] r4] eqn:E4. apply lle_sandbox in E4. apply (lle_trans _ _ _ E3) in E4.
  destruct (root_error r4); [injection E as <- <- <- <- <- <-; auto|]. destruct (t3 =? 0); apply IH in E; exact (lle_trans _ _ _ E4 E).
Qed.
Lemma lle_q_eliminate : forall k fuel clock a d o q a' d' o' q' r, q_eliminate k fuel clock ((a, d, o), q) = (((a', d', o'), q'), r) -> lle d d'.
Proof.
  intros k. induction fuel as [|f IH]; intros clock a d o q a' d' o' q' r E; cbn [q_eliminate] in E; cbv zeta in E;
    destruct (q_main _ _ _ _) as [[[[[a1 d1] o1] q1] t1] [e|]] eqn:E1; apply lle_q_main in E1; try (injection E as <- <- <- <- <-; now auto);
    destruct (propagate_sandbox a1 d1) as [[a2 d2] r2] eqn:E2; apply lle_sandbox in E2; apply (lle_trans _ _ _ E1) in E2;
    (destruct (root_error r2); [injection E as <- <- <- <- <-; now auto|]);
    (destruct (_ && _); [injection E as <- <- <- <- <-; now auto|]);
    (destruct (hd false clock); [injection E as <- <- <- <- <-; now auto|]).
  - injection E as <- <- <- <- <-; auto.
  - apply IH in E. exact (lle_trans _ _ _ E2 E).
Qed.
Lemma lle_q_simplify : forall k clock a d o q a' d' o' r, q_simplify k clock (a, d, o) q = ((a', d', o'), r) -> lle d d'.
Proof.
  intros k clock a d o q a' d' o' r E. unfold q_simplify in E. destruct (q_eliminate _ _ _ _) as [[[[a1 d1] o1] q1] [e|]] eqn:E1; apply lle_q_eliminate in E1.
  - injection E as <- <- <- <-; auto.
  - unfold stop in E. injection E as <- <- <- <-; auto.
Qed.
Lemma lle_q_prepare : forall k clock a d o q a' d' o' r, q_prepare_simplify k clock (a, d, o) q = ((a', d', o'), r) -> lle d d'.
Proof.
  intros k clock a d o q a' d' o' r E. unfold q_prepare_simplify in E. destruct (q_prepare k a d o q) as [[d1 o1] q1] eqn:Ep. apply q_prepare_cert in Ep.
  apply lle_q_simplify in E. eapply lle_trans; [|exact E]. now apply lle_same.
Qed.
Lemma lle_k_pure : forall k vs a d o q a' d' q' ok, k_assert_pure k vs a d o q = (a', d', q', ok) -> lle d d'.
Proof.
  intros k. induction vs as [|v vs IH]; intros a d o q a' d' q' ok E; cbn [k_assert_pure] in E; [injection E as <- <- <- <-; apply lle_refl|].
  destruct (val a v); [eauto|]. destruct (stats o v) as [[p m]|]; [|eauto].
  destruct (m =? 0).
  - destruct (assign_at_root_level _ _) as [x []]; [apply IH in E; eapply lle_trans; [apply lle_assert|exact E]|injection E as <- <- <- <-; apply lle_assert].
  - destruct (p =? 0); [|eauto].
    destruct (assign_at_root_level _ _) as [x []]; [apply IH in E; eapply lle_trans; [apply lle_assert|exact E]|injection E as <- <- <- <-; apply lle_assert].
Qed.
Lemma lle_k_inprocess : forall cf i a d a' d' r, k_inprocess cf i a d = (a', d', r) -> lle d d'.
Proof.
  intros cf i a d a' d' r E. unfold k_inprocess in E. destruct (cf_elim cf).
  - destruct (prepare_oob cf a d); [injection E as <- <- <-; apply lle_refl|].
    destruct (q_prepare_simplify _ _ _ _) as [[[a1 d1] o1] r1] eqn:E1. apply lle_q_prepare in E1.
    destruct (simplify_outcome cf d1 r1); injection E as <- <- <-; auto.
  - destruct (propagate_sandbox a d) as [[a1 d1] r1] eqn:E1. apply lle_sandbox in E1. injection E as <- <- <-; auto.
Qed.
Lemma lle_k_after : forall cf h i ended next a d a' d' r, k_after_conflict cf h i ended next a d = (a', d', r) -> lle d d'.
Proof.
  intros cf h i ended next a d a' d' r E. unfold k_after_conflict in E.
  destruct ended; [|destruct (h_restart h); injection E as <- <- <-; apply lle_refl].
  destruct (h_time h) as [[]|]; try (injection E as <- <- <-; apply lle_refl).
  destruct (clear_asserted_literals _ d) as [[a2 d2] [e|]] eqn:E2; apply lle_clear in E2; [injection E as <- <- <-; auto|].
  pose proof (lle_trans _ _ _ E2 (lle_reduce (lev a2) (h_cand h) (h_order h) (h_keep h) d2)) as E3.
  destruct next as [segment|]; [|injection E as <- <- <-; auto].
  destruct (vivify (h_targets h) _ _) as [[a4 d4] [e|]] eqn:E4; apply lle_vivify in E4; apply (lle_trans _ _ _ E3) in E4; [injection E as <- <- <-; auto|].
  destruct segment; [|injection E as <- <- <-; auto].
  destruct (k_inprocess cf i a4 d4) as [[a5 d5] [e|]] eqn:E5; apply lle_k_inprocess in E5; injection E as <- <- <-; exact (lle_trans _ _ _ E4 E5).
Qed.
Lemma lle_k_search : forall cf hs sm n a d a' d' r, k_search cf hs sm n a d = (a', d', r) -> lle d d'.
Proof.
  intros cf. induction hs as [|[h i] hs IH]; intros sm n a d a' d' r E; cbn [k_search] in E;
    destruct (_ || _); try (injection E as <- <- <-; apply lle_refl).
  match type of E with match ?z with Some _ => _ | None => _ end = _ => destruct z as [a1|] end; [|injection E as <- <- <-; apply lle_refl].
  destruct (propagate (h_skip h) a1 d) as [[a2 d2] r2] eqn:E2. apply lle_propagate in E2.
  destruct r2 as [|l rr|]; [eapply lle_trans; [exact E2|eauto]| |injection E as <- <- <-; auto].
  destruct (dlevel a2 =? 0); [injection E as <- <- <-; auto|].
  destruct (handle_conflict (h_deepen h) a2 d2 l rr) as [[a3 d3] hr] eqn:E3. apply lle_handle in E3. apply (lle_trans _ _ _ E2) in E3.
  destruct hr as [rk|e|]; [|injection E as <- <- <-; auto..].
  destruct (k_after_conflict _ _ _ _ _ _ _) as [[a4 d4] [e|]] eqn:E4; apply lle_k_after in E4; apply (lle_trans _ _ _ E3) in E4; [injection E as <- <- <-; auto|].
  apply IH in E. exact (lle_trans _ _ _ E4 E).
Qed.
