(** No operation of the search links a clause to an occurrence list: the OCCUR_LINKED flag
    is raised by the eliminator only. *)
From Coq Require Import List Arith Bool Lia.
From Verif Require Import Base HeapModel EmaModel AsgModel LitFacts AsgProofs CdbModel CdbProofs PropModel ConflictModel ElimModel C15_Trail C21_Db SatSpec PropProofs PropLoop ElimRun VivifyModel.
Import ListNotations.
Local Opaque Nat.pow.

Definition qle (d d' : cdb) : Prop := forall x, cocc (cl d' x) = true -> cocc (cl d x) = true.
Lemma qle_refl : forall d, qle d d.
Proof. intros d x; auto. Qed.
Lemma qle_trans : forall a b c, qle a b -> qle b c -> qle a c.
Proof. intros a b c H K x X; auto. Qed.
Lemma qle_quiet : forall d d', qle d d' -> Quiet d -> Quiet d'.
Proof.
  intros d d' H Q x. destruct (cocc (cl d' x)) eqn:E; auto. apply H in E. now rewrite Q in E.
Qed.
Lemma qle_set : forall d c x, (cocc x = true -> cocc (cl d c) = true) -> qle d (set_clause d c x).
Proof. intros d c x H y. cbn. unfold upd. destruct (Nat.eqb_spec y c) as [->|]; auto. Qed.
Lemma qle_same : forall d d', cl d' = cl d -> qle d d'.
Proof. intros d d' H x. now rewrite H. Qed.

Lemma w_insert_cl : forall d p c q, cl (w_insert d p c q) = cl d. Proof. reflexivity. Qed.
Lemma w_remove_cl : forall d p c, cl (w_remove d p c) = cl d. Proof. reflexivity. Qed.
Lemma w_update_cl : forall d p c q, cl (w_update d p c q) = cl d. Proof. reflexivity. Qed.
Lemma bin_add_cl : forall d p q c, cl (bin_add d p q c) = cl d.
Proof. intros. unfold bin_add. reflexivity. Qed.
Lemma bin_remove_cl : forall d p q, cl (bin_remove d p q) = cl d.
Proof. intros. unfold bin_remove. destruct (bin_search d p q); reflexivity. Qed.
Lemma log_add_cl : forall d v, cl (log_add d v) = cl d. Proof. reflexivity. Qed.
Lemma log_del_cl : forall d v, cl (log_del d v) = cl d. Proof. reflexivity. Qed.
Lemma log_assert_cl : forall d v, cl (log_assert d v) = cl d. Proof. reflexivity. Qed.
Lemma link_cl : forall d c, cl (link_clause d c) = cl d.
Proof. intros d c. unfold link_clause. destruct (_ =? _); [apply bin_add_cl|reflexivity]. Qed.
Lemma unlink_cl : forall d c, cl (unlink_clause d c) = cl d.
Proof. intros d c. unfold unlink_clause. destruct (_ =? _); [apply bin_remove_cl|reflexivity]. Qed.

Lemma qle_lbd : forall d l c, qle d (update_lbd d l c).
Proof.
  intros d l c. unfold update_lbd. destruct (lbd_of l (lits (cl d c)) (lbdt d)) as [t r].
  intros x. cbn. unfold upd. destruct (Nat.eqb_spec x c) as [->|]; auto.
Qed.
Lemma qle_store : forall d vec d' c, store_clause d vec = (d', c) -> qle d d'.
Proof.
  intros d vec d' c E. unfold store_clause in E. destruct (free d) as [|y fl]; injection E as <- <-.
  - intros x. cbn. unfold upd. destruct (Nat.eqb_spec x (ncl d)) as [->|]; auto. discriminate.
  - intros x. cbn. unfold upd. destruct (Nat.eqb_spec x y) as [->|]; auto. discriminate.
Qed.
Lemma qle_new : forall l d vec b d' r, new_clause l d vec b = (d', r) -> qle d d'.
Proof.
  intros l d vec b d' r E. unfold new_clause in E.
  destruct (if length vec =? 2 then bin_search d (nth 0 vec 0) (nth 1 vec 0) else None); [injection E as <- <-; apply qle_refl|].
  destruct (store_clause (log_add d vec) vec) as [d1 c] eqn:Es. apply qle_store in Es. change (qle d d1) in Es.
  injection E as <- <-. eapply qle_trans; [exact Es|].
  match goal with |- qle _ (link_clause ?z _) => apply (qle_trans _ z); [|apply qle_same, link_cl] end.
  destruct (length vec =? 2).
  - destruct b; intros x; cbn; unfold upd; destruct (Nat.eqb_spec x c) as [->|]; auto.
  - eapply qle_trans; [apply (qle_lbd d1 l c)|]. destruct b; intros x; cbn; auto.
    unfold upd. destruct (Nat.eqb_spec x c) as [->|]; auto.
Qed.
Lemma qle_remove : forall d c, qle d (remove_clause d c).
Proof.
  intros d c. unfold remove_clause. set (len2 := length _ =? 2). 
  apply (qle_trans _ (unlink_clause d c)); [apply qle_same, unlink_cl|]. generalize (unlink_clause d c). intros d1.
  destruct len2.
  - change (cl (set_n_bi d1 (n_bi d1 - 1))) with (cl d1). destruct (lrn (cl d1 c)); intros x; cbn; unfold upd; destruct (Nat.eqb_spec x c) as [->|]; auto.
  - destruct (lrn (cl d1 c)); intros x; cbn; unfold upd; destruct (Nat.eqb_spec x c) as [->|]; auto.
Qed.
Lemma qle_fold_remove : forall cs d, qle d (fold_left remove_clause cs d).
Proof.
  induction cs as [|c cs IH]; intros d; cbn [fold_left]; [apply qle_refl|]. eapply qle_trans; [apply qle_remove|apply IH].
Qed.
Lemma qle_reduce : forall l cand order keep d, qle d (reduce l cand order keep d).
Proof.
  intros l cand order keep d. unfold reduce. eapply qle_trans; [|apply qle_fold_remove].
  unfold lbd_all. generalize (seq 1 (ncl d - 1)). intros cs. revert d.
  induction cs as [|c cs IH]; intros d; cbn [fold_left]; [apply qle_refl|].
  eapply qle_trans; [|apply IH]. destruct (dead d c); [apply qle_refl|apply qle_lbd].
Qed.
Lemma relink_simp_cl : forall d c a b x y, cl (relink_simp d c a b x y) = cl d.
Proof.
  intros d c a b x y. unfold relink_simp.
  destruct (_ && _); [reflexivity|]. destruct (a =? x); [reflexivity|]. destruct (a =? y); [reflexivity|].
  destruct (b =? x); [reflexivity|]. destruct (b =? y); reflexivity.
Qed.
Lemma qle_simplify : forall v el d c d' r, transform_by_simplification v el d c = (d', r) -> qle d d'.
Proof.
  intros v el d c d' r E. unfold transform_by_simplification in E. destruct (existsb _ _); [injection E as <- <-; apply qle_remove|].
  destruct (negb _); [injection E as <- <-; apply qle_refl|].
  destruct (filter _ _) as [|u [|w [|z t]]]; try (injection E as <- <-; apply qle_refl).
  - destruct (bin_search _ _ _); [injection E as <- <-; apply qle_remove|]. injection E as <- <-.
    intros x. match goal with |- context [if ?z then _ else _] => destruct z end; cbn; unfold upd;
      destruct (Nat.eqb_spec x c) as [->|]; rewrite ?upd_same, ?Nat.eqb_refl; auto; try contradiction.
  - injection E as <- <-. set (d1 := set_clause d c _). apply (qle_trans _ d1); [apply qle_set; auto|].
    apply qle_same. rewrite log_del_cl, log_add_cl. apply relink_simp_cl.
Qed.

Lemma qle_dframe : forall d d', dframe d d' -> qle d d'.
Proof.
  intros d d' F x. unfold dframe in F. destruct F as (F1 & F2 & _). destruct (F2 x) as (_ & _ & _ & ->). auto.
Qed.

Lemma qle_same_db : forall d d', same_db d d' -> qle d d'.
Proof. intros d d' (F & _) x. destruct (F x) as (_ & _ & _ & -> & _). auto. Qed.

(** ** propagation *)
Lemma qle_visit : forall sb p i c q a d a1 d1 b r, visit sb p i c q a d = (a1, d1, b, r) -> qle d d1.
Proof.
  intros sb p i c q a d a1 d1 b r E. unfold visit in E.
  destruct (sb && dead d c); [injection E as <- <- <- <-; apply qle_refl|].
  destruct (istrue a q); [injection E as <- <- <- <-; apply qle_refl|].
  destruct (_ && istrue a _); [injection E as <- <- <- <-; now apply qle_same|].
  destruct (find _ _) as [j|].
  - injection E as <- <- <- <-. intros x. cbn. unfold upd. destruct (Nat.eqb_spec x c) as [->|]; auto. now rewrite ?Nat.eqb_refl.
  - set (d2 := if negb _ then _ else _) in E.
    assert (Q : qle d d2).
    { set (d3 := if _ =? 0 then swap_watch d c else d) in d2. assert (Q3 : qle d d3).
      { unfold d3. destruct (_ =? 0); [|apply qle_refl]. now apply qle_set. }
      unfold d2. destruct (negb _); auto. }
    destruct (litval a _) as [[]|]; injection E as <- <- <- <-; auto.
Qed.
Lemma qle_watch : forall fuel sb p i a d a1 d1 r, watch_loop fuel sb p i a d = (a1, d1, r) -> qle d d1.
Proof.
  induction fuel as [|f IH]; intros sb p i a d a1 d1 r E; cbn [watch_loop] in E; destruct (nth_error _ _) as [[c q]|];
    try (injection E as <- <- <-; apply qle_refl).
  destruct (visit sb p i c q a d) as [[[a2 d2] b] r2] eqn:Ev. apply qle_visit in Ev.
  destruct r2; try (injection E as <- <- <-; auto). apply IH in E. eapply qle_trans; eauto.
Qed.
Lemma qle_prop : forall fuel sb skip a d a1 d1 r, prop_loop fuel sb skip a d = (a1, d1, r) -> qle d d1.
Proof.
  induction fuel as [|f IH]; intros sb skip a d a1 d1 r E; cbn [prop_loop] in E; destruct (nth_error _ _) as [p|];
    try (injection E as <- <- <-; apply qle_refl).
  destruct (bin_loop p (bil d (neg p)) (set_qh a (S (qh a)))) as [a2 r2]. destruct r2; try (injection E as <- <- <-; apply qle_refl).
  destruct (watch_loop _ sb p 0 a2 d) as [[a3 d3] r3] eqn:Ew. apply qle_watch in Ew.
  destruct r3; try (injection E as <- <- <-; auto). destruct sb.
  - apply IH in E. eapply qle_trans; eauto.
  - destruct (reuse_saved_trail _ _ a3) as [a4 r4]. destruct r4; try (injection E as <- <- <-; auto).
    apply IH in E. eapply qle_trans; eauto.
Qed.
Lemma qle_propagate : forall skip a d a1 d1 r, propagate skip a d = (a1, d1, r) -> qle d d1.
Proof.
  intros skip a d a1 d1 r E. unfold propagate in E. destruct (reuse_saved_trail _ _ a) as [a4 r4].
  destruct r4; try (injection E as <- <- <-; apply qle_refl). now apply qle_prop in E.
Qed.
Lemma qle_sandbox : forall a d a1 d1 r, propagate_sandbox a d = (a1, d1, r) -> qle d d1.
Proof. intros a d a1 d1 r E. now apply qle_prop in E. Qed.
Lemma qle_root_propagate : forall a d a1 d1 r, root_propagate a d = (a1, d1, r) -> qle d d1.
Proof.
  intros a d a1 d1 r E. unfold root_propagate in E. destruct (remains a).
  - destruct (propagate_sandbox a d) as [[a2 d2] r2] eqn:Ep. injection E as <- <- <-. now apply qle_sandbox in Ep.
  - injection E as <- <- <-. apply qle_refl.
Qed.
Lemma qle_simp_pass : forall cs a d a1 d1 r, simp_pass cs a d = (a1, d1, r) -> qle d d1.
Proof.
  induction cs as [|c cs IH]; intros a d a1 d1 r E; cbn [simp_pass] in E; [injection E as <- <- <-; apply qle_refl|].
  destruct (dead d c); [eauto|]. destruct (transform_by_simplification (litval a) (eli a) d c) as [d2 rc] eqn:Et. apply qle_simplify in Et.
  destruct rc as [x| | |x|l].
  - apply IH in E. eapply qle_trans; eauto.
  - apply IH in E. eapply qle_trans; eauto.
  - injection E as <- <- <-. auto.
  - apply IH in E. eapply qle_trans; eauto.
  - destruct (assign_at_root_level a l) as [a2 [|]].
    + apply IH in E. eapply qle_trans; [exact Et|]. eapply qle_trans; [|exact E].
      eapply qle_trans; [|apply qle_remove]. now apply qle_same.
    + injection E as <- <- <-. eapply qle_trans; [exact Et|now apply qle_same].
Qed.
Lemma qle_root_passes : forall fuel n a d a1 d1 r, root_passes fuel n a d = (a1, d1, r) -> qle d d1.
Proof.
  induction fuel as [|f IH]; intros n a d a1 d1 r E; cbn [root_passes] in E; destruct (n <? _); try (injection E as <- <- <-; apply qle_refl).
  destruct (simp_pass _ a d) as [[a2 d2] r2] eqn:Es. apply qle_simp_pass in Es.
  destruct r2; [injection E as <- <- <-; auto|]. apply IH in E. eapply qle_trans; eauto.
Qed.
Lemma qle_clear : forall a d a1 d1 r, clear_asserted_literals a d = (a1, d1, r) -> qle d d1.
Proof.
  intros a d. unfold clear_asserted_literals. generalize (S (nv a)). intros fuel. revert a d.
  induction fuel as [|f IH]; intros a d a1 d1 r E; cbn [clear_loop] in E;
    destruct (root_propagate a d) as [[a2 d2] r2] eqn:E2; apply qle_root_propagate in E2;
    (destruct r2; [injection E as <- <- <-; auto|]);
    destruct (propagate_at_root_level a2 d2) as [[a3 d3] r3] eqn:E3; apply qle_root_passes in E3;
    (destruct r3; [injection E as <- <- <-; eapply qle_trans; eauto|]);
    (destruct (remains a3); [|injection E as <- <- <-; eapply qle_trans; eauto]);
    destruct (root_propagate a3 d3) as [[a4 d4] r4] eqn:E4; apply qle_root_propagate in E4;
    (destruct r4; [injection E as <- <- <-; eapply qle_trans; eauto; eapply qle_trans; eauto|]).
  - injection E as <- <- <-; eapply qle_trans; eauto; eapply qle_trans; eauto.
  - apply IH in E. do 3 (eapply qle_trans; eauto).
Qed.

(** ** conflict analysis *)
Lemma qle_handle : forall deepen a d l r a1 d1 h, handle_conflict deepen a d l r = (a1, d1, h) -> qle d d1.
Proof.
  intros deepen a d l r a1 d1 h E. unfold handle_conflict in E.
  match type of E with (if ?b then _ else _) = _ => destruct b end; [injection E as <- <- <-; apply qle_refl|].
  destruct (conflict_analyze a d l r) as [[[[d2 s] learnt] lv]|] eqn:Ea; [|injection E as <- <- <-; apply qle_refl].
  assert (Q : qle d d2).
  { unfold conflict_analyze in Ea. destruct (ana_loop _ _ _ _ _ _) as [[st p]|]; [|discriminate].
    set (d3 := match an_cid st with Some c => _ | None => _ end) in Ea.
    assert (Q3 : qle d d3) by (unfold d3; destruct (an_cid st); [apply qle_lbd|apply qle_refl]).
    unfold minimize_learnt in Ea. destruct (retain_loop _ _ _ _ _ _ _ _) as [[[s1 clear] kept]|]; [|discriminate].
    destruct (if 2 <? length kept then minimize_with_bi_clauses (litval a) d3 kept else (d3, kept)) as [d4 v1] eqn:Em.
    assert (Q4 : qle d3 d4).
    { destruct (2 <? length kept).
      - pose proof (minimize_same (litval a) d3 kept) as X. rewrite Em in X. now apply qle_same_db.
      - injection Em as <- <-. apply qle_refl. }
    destruct (if 1 <? length v1 then _ else _) as [v2 lv2]. injection Ea as <- _ _ _. eapply qle_trans; eauto. }
  assert (QA : forall l0, qle d (log_assert d2 l0)) by (intros l0; eapply qle_trans; [exact Q|now apply qle_same]).
  destruct learnt as [|l0 [|l1 t]]; [injection E as <- <- <-; auto| |].
  - destruct (litval a l0) as [[]|].
    + destruct (0 <? _); [injection E as <- <- <-; auto|]. destruct (assign_at_root_level a l0). injection E as <- <- <-. auto.
    + destruct (_ =? 0); [injection E as <- <- <-; auto|]. destruct (assign_at_root_level a l0). injection E as <- <- <-. auto.
    + destruct (assign_at_root_level a l0). injection E as <- <- <-. auto.
  - destruct (negb _); [injection E as <- <- <-; auto|]. unfold store_learnt in E.
    destruct (new_clause _ d2 _ true) as [d3 rc] eqn:En. apply qle_new in En. apply (qle_trans _ _ _ Q) in En.
    destruct rc; repeat match type of E with (if ?b then _ else _) = _ => destruct b end; injection E as <- <- <-; auto.
Qed.

Lemma qle_viv_store : forall c b vec a d a1 d1 r, viv_store c b vec a d = (a1, d1, r) -> qle d d1.
Proof.
  intros c b vec a d a1 d1 r E. destruct vec as [|u [|w t]].
  - injection E as <- <- <-. apply qle_refl.
  - cbn [viv_store] in E. destruct (assign_at_root_level a u) as [a2 [|]]; injection E as <- <- <-; apply qle_same, log_assert_cl.
  - cbn [viv_store] in E. destruct (new_clause (lev a) d (u :: w :: t) b) as [d2 r2] eqn:En. cbn [fst] in E.
    injection E as <- <- <-. eapply qle_trans; [eapply qle_new; eauto|apply qle_remove].
Qed.
Lemma qle_viv_lits : forall ls c b clits decs a d a1 d1 r, viv_lits c b clits ls decs a d = (a1, d1, r) -> qle d d1.
Proof.
  induction ls as [|l ls IH]; intros c b clits decs a d a1 d1 r E; cbn [viv_lits] in E.
  { injection E as <- <- <-. apply qle_refl. }
  destruct (litval a (neg l)) as [[|]|]; [injection E as <- <- <-; apply qle_refl|eapply IH; eauto|].
  destruct (propagate_sandbox (assign_by_decision a (neg l)) d) as [[a2 d2] [|x rr|]] eqn:Ep; apply qle_sandbox in Ep.
  - eapply qle_trans; [exact Ep|eapply IH; eauto].
  - unfold viv_conflict in E. destruct (is_target _ _ _ _ _); [injection E as <- <- <-; auto|].
    destruct (conflict_lits d2 x rr); [|injection E as <- <- <-; auto].
    destruct (analyze_sandbox a2 d2 (decs ++ [neg l]) l0); [|injection E as <- <- <-; auto].
    eapply qle_trans; [exact Ep|eapply qle_viv_store; eauto].
  - injection E as <- <- <-. auto.
Qed.
Lemma qle_viv_target : forall c a d a1 d1 r, viv_target c a d = (a1, d1, r) -> qle d d1.
Proof.
  intros c a d a1 d1 r E. unfold viv_target in E.
  destruct (root_propagate (backtrack_sandbox a) d) as [[a2 d2] [e|]] eqn:Ep; apply qle_root_propagate in Ep.
  - injection E as <- <- <-. auto.
  - destruct (dead d2 c); [injection E as <- <- <-; auto|]. eapply qle_trans; [exact Ep|eapply qle_viv_lits; eauto].
Qed.
Lemma qle_viv_targets : forall ts a d a1 d1 r, viv_targets ts a d = (a1, d1, r) -> qle d d1.
Proof.
  induction ts as [|c ts IH]; intros a d a1 d1 r E; cbn [viv_targets] in E; [injection E as <- <- <-; apply qle_refl|].
  destruct (viv_target c a d) as [[a2 d2] [e|]] eqn:Ep; apply qle_viv_target in Ep.
  - injection E as <- <- <-. auto.
  - eapply qle_trans; [exact Ep|eapply IH; eauto].
Qed.
Lemma qle_vivify : forall ts a d a1 d1 r, vivify ts a d = (a1, d1, r) -> qle d d1.
Proof.
  intros ts a d a1 d1 r E. unfold vivify in E.
  destruct (root_propagate a d) as [[a2 d2] [e|]] eqn:Ep; apply qle_root_propagate in Ep; [injection E as <- <- <-; auto|].
  destruct ts as [|t ts]; [injection E as <- <- <-; auto|].
  destruct (viv_targets (t :: ts) a2 d2) as [[a3 d3] [e|]] eqn:Et; apply qle_viv_targets in Et;
    [injection E as <- <- <-; eapply qle_trans; eauto|].
  destruct (root_propagate (backtrack_sandbox a3) d3) as [[a4 d4] [e|]] eqn:Eq; apply qle_root_propagate in Eq.
  - injection E as <- <- <-. eapply qle_trans; [exact Ep|]. eapply qle_trans; eauto.
  - apply qle_clear in E. eapply qle_trans; [exact Ep|]. eapply qle_trans; [exact Et|]. eapply qle_trans; eauto.
Qed.
