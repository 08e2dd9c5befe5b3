(** The saved trail stays empty as long as nothing is undone by [cancel_until]. *)
From Coq Require Import List Arith Bool Lia.
From Verif Require Import Base HeapModel AsgModel AsgProofs CdbModel PropModel ConflictModel ElimModel VivifyModel.
Import ListNotations.
Local Opaque Nat.pow.

Definition ssame (a a' : asg) : Prop := sav a' = sav a /\ lims a' = lims a.
Lemma ssame_refl : forall a, ssame a a.
Proof. intros. split; auto. Qed.
Lemma ssame_trans : forall a b c, ssame a b -> ssame b c -> ssame a c.
Proof. intros a b c [H1 H2] [H3 H4]. split; congruence. Qed.

Lemma ss_imply : forall a l r lv, ssame a (assign_by_implication a l r lv).
Proof. intros. unfold assign_by_implication. destruct (lv =? 0); split; reflexivity. Qed.
Lemma ss_root : forall a l a1 ok, lims a = [] -> assign_at_root_level a l = (a1, ok) -> ssame a a1.
Proof.
  intros a l a1 ok H E. unfold assign_at_root_level in E. rewrite cancel_noop in E by (rewrite H; auto).
  destruct (val _ _); injection E as <- <-; split; reflexivity.
Qed.
Lemma ss_bin : forall bs p a a1 r, bin_loop p bs a = (a1, r) -> ssame a a1.
Proof.
  induction bs as [|[b c] bs IH]; intros p a a1 r E; cbn [bin_loop] in E; [injection E as <- <-; apply ssame_refl|].
  destruct (litval a b) as [[|]|]; [eauto|injection E as <- <-; apply ssame_refl|].
  apply IH in E. eapply ssame_trans; [apply ss_imply|exact E].
Qed.
Lemma ss_visit : forall sb p i c q a d a1 d1 b r, visit sb p i c q a d = (a1, d1, b, r) -> ssame a a1.
Proof.
  intros sb p i c q a d a1 d1 b r E. unfold visit in E.
  destruct (sb && dead d c); [injection E as <- <- <- <-; apply ssame_refl|].
  destruct (istrue a q); [injection E as <- <- <- <-; apply ssame_refl|].
  destruct (_ && istrue a _); [injection E as <- <- <- <-; apply ssame_refl|].
  destruct (find _ _); [injection E as <- <- <- <-; apply ssame_refl|].
  destruct (litval a _) as [[|]|]; injection E as <- <- <- <-; try apply ssame_refl; apply ss_imply.
Qed.
Lemma ss_watch : forall fuel sb p i a d a1 d1 r, watch_loop fuel sb p i a d = (a1, d1, r) -> ssame a a1.
Proof.
  induction fuel as [|f IH]; intros sb p i a d a1 d1 r E; cbn [watch_loop] in E; destruct (nth_error _ _) as [[c q]|];
    try (injection E as <- <- <-; apply ssame_refl).
  destruct (visit sb p i c q a d) as [[[a2 d2] b] r2] eqn:Ev. apply ss_visit in Ev.
  destruct r2; try (injection E as <- <- <-; auto). apply IH in E. eapply ssame_trans; eauto.
Qed.
Lemma ss_prop : forall fuel skip a d a1 d1 r, prop_loop fuel true skip a d = (a1, d1, r) -> ssame a a1.
Proof.
  induction fuel as [|f IH]; intros skip a d a1 d1 r E; cbn [prop_loop] in E; destruct (nth_error _ _) as [p|];
    try (injection E as <- <- <-; apply ssame_refl).
  destruct (bin_loop p (bil d (neg p)) (set_qh a (S (qh a)))) as [a2 r2] eqn:Eb. apply ss_bin in Eb. change (ssame a a2) in Eb.
  destruct r2; try (injection E as <- <- <-; auto).
  destruct (watch_loop _ true p 0 a2 d) as [[a3 d3] r3] eqn:Ew. apply ss_watch in Ew.
  assert (X : ssame a a3) by (eapply ssame_trans; eauto).
  destruct r3; try (injection E as <- <- <-; auto). apply IH in E. eapply ssame_trans; eauto.
Qed.
Lemma ss_sandbox : forall a d a1 d1 r, propagate_sandbox a d = (a1, d1, r) -> ssame a a1.
Proof. intros a d a1 d1 r E. now apply ss_prop in E. Qed.
Lemma ss_root_propagate : forall a d a1 d1 r, root_propagate a d = (a1, d1, r) -> ssame a a1.
Proof.
  intros a d a1 d1 r E. unfold root_propagate in E. destruct (remains a).
  - destruct (propagate_sandbox a d) as [[a2 d2] r2] eqn:Ep. injection E as <- <- <-. now apply ss_sandbox in Ep.
  - injection E as <- <- <-. apply ssame_refl.
Qed.
Lemma ss_simp_pass : forall cs a d a1 d1 r, lims a = [] -> simp_pass cs a d = (a1, d1, r) -> ssame a a1.
Proof.
  induction cs as [|c cs IH]; intros a d a1 d1 r Hl E; cbn [simp_pass] in E; [injection E as <- <- <-; apply ssame_refl|].
  destruct (dead d c); [eauto|]. destruct (transform_by_simplification (litval a) (eli a) d c) as [d2 rc].
  destruct rc as [x| | |x|l]; eauto.
  - injection E as <- <- <-. apply ssame_refl.
  - destruct (assign_at_root_level a l) as [a2 [|]] eqn:Ea; apply ss_root in Ea; auto.
    + apply IH in E; [eapply ssame_trans; eauto|]. destruct Ea as [_ ->]. auto.
    + injection E as <- <- <-. auto.
Qed.
Lemma ss_root_passes : forall fuel n a d a1 d1 r, lims a = [] -> root_passes fuel n a d = (a1, d1, r) -> ssame a a1.
Proof.
  induction fuel as [|f IH]; intros n a d a1 d1 r Hl E; cbn [root_passes] in E; destruct (n <? _); try (injection E as <- <- <-; apply ssame_refl).
  destruct (simp_pass _ a d) as [[a2 d2] r2] eqn:Es. apply ss_simp_pass in Es; auto.
  destruct r2; [injection E as <- <- <-; auto|]. apply IH in E; [eapply ssame_trans; eauto|]. destruct Es as [_ ->]; auto.
Qed.
Lemma ss_clear : forall a d a1 d1 r, lims a = [] -> clear_asserted_literals a d = (a1, d1, r) -> ssame a a1.
Proof.
  intros a d. unfold clear_asserted_literals. generalize (S (nv a)). intros fuel. revert a d.
  induction fuel as [|f IH]; intros a d a1 d1 r Hl E; cbn [clear_loop] in E;
    destruct (root_propagate a d) as [[a2 d2] r2] eqn:E2; apply ss_root_propagate in E2;
    (destruct r2; [injection E as <- <- <-; auto|]);
    destruct (propagate_at_root_level a2 d2) as [[a3 d3] r3] eqn:E3; (apply ss_root_passes in E3; [|destruct E2 as [_ ->]; auto]);
    pose proof (ssame_trans _ _ _ E2 E3) as S3;
    (destruct r3; [injection E as <- <- <-; auto|]);
    (destruct (remains a3); [|injection E as <- <- <-; exact S3]);
    destruct (root_propagate a3 d3) as [[a4 d4] r4] eqn:E4; apply ss_root_propagate in E4;
    pose proof (ssame_trans _ _ _ S3 E4) as S4; (destruct r4; [injection E as <- <- <-; auto|]).
  - injection E as <- <- <-; auto.
  - apply IH in E; [eapply ssame_trans; eauto|]. destruct S4 as [_ ->]; auto.
Qed.

(** ** vivification *)
Lemma ss_undo : forall ls a, sav (fold_left undo_sandbox ls a) = sav a.
Proof. induction ls as [|l ls IH]; intros a; cbn [fold_left]; auto. now rewrite IH. Qed.
Lemma sandbox_sav : forall a, sav (backtrack_sandbox a) = sav a /\ lims (backtrack_sandbox a) = [].
Proof.
  intros a. unfold backtrack_sandbox. destruct (Nat.eqb_spec (length (lims a)) 0) as [H|H].
  - split; auto. destruct (lims a); [auto|discriminate].
  - split; [|reflexivity]. cbn. apply ss_undo.
Qed.
Lemma sav_viv_store : forall c b vec a d a1 d1 r, lims a = [] -> viv_store c b vec a d = (a1, d1, r) -> sav a1 = sav a.
Proof.
  intros c b vec a d a1 d1 r Hl E. destruct vec as [|u [|w t]].
  - injection E as <- <- <-. auto.
  - cbn [viv_store] in E. destruct (assign_at_root_level a u) as [a2 [|]] eqn:Ea; apply ss_root in Ea; auto; injection E as <- <- <-; apply Ea.
  - cbn [viv_store] in E. injection E as <- <- <-. auto.
Qed.
Lemma sav_viv_lits : forall ls c b clits decs a d a1 d1 r, viv_lits c b clits ls decs a d = (a1, d1, r) -> sav a1 = sav a.
Proof.
  induction ls as [|l ls IH]; intros c b clits decs a d a1 d1 r E; cbn [viv_lits] in E.
  { injection E as <- <- <-. auto. }
  destruct (litval a (neg l)) as [[|]|]; [injection E as <- <- <-; auto|eapply IH; eauto|].
  destruct (propagate_sandbox (assign_by_decision a (neg l)) d) as [[a2 d2] [|x rr|]] eqn:Ep; apply ss_sandbox in Ep;
    destruct Ep as [Ep _]; change (sav a2 = sav a) in Ep.
  - apply IH in E. congruence.
  - unfold viv_conflict in E. destruct (sandbox_sav a2) as [S1 S2].
    destruct (is_target _ _ _ _ _); [injection E as <- <- <-; congruence|].
    destruct (conflict_lits d2 x rr); [|injection E as <- <- <-; auto].
    destruct (analyze_sandbox _ _ _ _); [|injection E as <- <- <-; auto].
    apply sav_viv_store in E; auto. congruence.
  - injection E as <- <- <-. auto.
Qed.
Lemma sav_viv_targets : forall ts a d a1 d1 r, viv_targets ts a d = (a1, d1, r) -> sav a1 = sav a.
Proof.
  induction ts as [|c ts IH]; intros a d a1 d1 r E; cbn [viv_targets] in E; [injection E as <- <- <-; auto|].
  destruct (viv_target c a d) as [[a2 d2] r2] eqn:Ep.
  assert (X : sav a2 = sav a).
  { unfold viv_target in Ep. destruct (sandbox_sav a) as [S1 S2].
    destruct (root_propagate (backtrack_sandbox a) d) as [[a3 d3] [e|]] eqn:E3; apply ss_root_propagate in E3; destruct E3 as [E3 _].
    - injection Ep as <- <- <-. congruence.
    - destruct (dead d3 c); [injection Ep as <- <- <-; congruence|]. apply sav_viv_lits in Ep. congruence. }
  destruct r2; [injection E as <- <- <-; auto|]. apply IH in E. congruence.
Qed.
Lemma sav_vivify : forall ts a d a1 d1 r, lims a = [] -> vivify ts a d = (a1, d1, r) -> sav a1 = sav a.
Proof.
  intros ts a d a1 d1 r Hl E. unfold vivify in E.
  destruct (root_propagate a d) as [[a2 d2] [e|]] eqn:E2; apply ss_root_propagate in E2; destruct E2 as [E2 L2].
  { injection E as <- <- <-. auto. }
  destruct ts as [|t ts]; [injection E as <- <- <-; auto|].
  destruct (viv_targets (t :: ts) a2 d2) as [[a3 d3] [e|]] eqn:E3; apply sav_viv_targets in E3.
  { injection E as <- <- <-. congruence. }
  destruct (sandbox_sav a3) as [S1 S2].
  destruct (root_propagate (backtrack_sandbox a3) d3) as [[a4 d4] [e|]] eqn:E4; apply ss_root_propagate in E4; destruct E4 as [E4 L4].
  { injection E as <- <- <-. congruence. }
  apply ss_clear in E; [|congruence]. destruct E as [E _]. congruence.
Qed.

(** ** the eliminator *)
Lemma ss_eliminated : forall a v, ssame a (make_var_eliminated a v).
Proof. intros a v. unfold make_var_eliminated. destruct (eli a v); split; reflexivity. Qed.
Lemma ss_resolve_pairs : forall ps evo v a d o a1 d1 o1 r, lims a = [] -> resolve_pairs evo v (a, d, o) ps = ((a1, d1, o1), r) -> ssame a a1.
Proof.
  induction ps as [|[p n] ps IH]; intros evo v a d o a1 d1 o1 r Hl E; cbn [resolve_pairs] in E.
  { injection E as <- <- <- <-. apply ssame_refl. }
  destruct (resolve_pair evo v (a, d, o) p n) as [[[a2 d2] o2] r2] eqn:Er.
  assert (X : ssame a a2).
  { unfold resolve_pair in Er. destruct (merge _ _ _) as [|l [|l2 t]].
    - injection Er as <- <- <- <-. apply ssame_refl.
    - destruct (litval a l) as [[|]|]; try (injection Er as <- <- <- <-; apply ssame_refl).
      destruct (assign_at_root_level a l) as [a3 ok] eqn:Ea. injection Er as <- <- <- <-. eapply ss_root; eauto.
    - destruct (new_clause _ _ _ _) as [d3 rc]. destruct rc; try (injection Er as <- <- <- <-; apply ssame_refl).
      destruct (add_cid_occur _ _ _ _ _) as [d4 o4]. injection Er as <- <- <- <-. apply ssame_refl. }
  destruct r2; [injection E as <- <- <- <-; auto|]. apply IH in E; [eapply ssame_trans; eauto|]. destruct X as [_ ->]; auto.
Qed.
Lemma ss_step : forall evo s a d o a1 d1 o1 r, lims a = [] -> elim_step evo (a, d, o) s = ((a1, d1, o1), r) -> ssame a a1.
Proof.
  intros evo s a d o a1 d1 o1 r Hl E. destruct s; cbn [elim_step] in E.
  - injection E as <- <- <- <-. apply ssame_refl.
  - destruct (val a v); [injection E as <- <- <- <-; apply ssame_refl|].
    destruct (oab o v); injection E as <- <- <- <-; apply ssame_refl.
  - destruct (dead d c || dead d other || (c =? other)); [injection E as <- <- <- <-; apply ssame_refl|]. unfold subsume_clause in E.
    destruct (forallb _ _); [|injection E as <- <- <- <-; apply ssame_refl].
    destruct (remove_cid_occur _ _ _ _). injection E as <- <- <- <-. apply ssame_refl.
  - destruct (_ && _); [|injection E as <- <- <- <-; apply ssame_refl]. unfold strengthen in E.
    destruct (transform_by_elimination d other (neg l)) as [[d2 rc]|]; [|injection E as <- <- <- <-; apply ssame_refl].
    destruct rc as [x| | |x|l0]; try (injection E as <- <- <- <-; apply ssame_refl).
    destruct (remove_cid_occur a (log_assert d2 l0) o other) as [d3 o3]. destruct (litval a l0) as [[|]|]; try (injection E as <- <- <- <-; apply ssame_refl).
      destruct (assign_at_root_level a l0) as [a3 ok] eqn:Ea. injection E as <- <- <- <-. eapply ss_root; eauto.
  - destruct (val a v); [injection E as <- <- <- <-; apply ssame_refl|].
    destruct (_ && _); [|injection E as <- <- <- <-; apply ssame_refl]. unfold eliminate_var in E.
    destruct (resolve_pairs _ _ _ _) as [[[a2 d2] o2] [e|]] eqn:Er; apply ss_resolve_pairs in Er; auto.
    + injection E as <- <- <- <-. auto.
    + destruct (fold_left _ _ (d2, o2)) as [d3 o3]. destruct (fold_left _ _ (d3, o3)) as [d4 o4].
      injection E as <- <- <- <-. eapply ssame_trans; [exact Er|apply ss_eliminated].
  - destruct (propagate_sandbox a d) as [[a2 d2] rr] eqn:Ep. injection E as <- <- <- <-. now apply ss_sandbox in Ep.
Qed.
Lemma ss_run : forall evo ss a d o a1 d1 o1 r, lims a = [] -> elim_run evo (a, d, o) ss = ((a1, d1, o1), r) -> ssame a a1.
Proof.
  intros evo ss. induction ss as [|s ss IH]; intros a d o a1 d1 o1 r Hl E; cbn [elim_run] in E; [injection E as <- <- <- <-; apply ssame_refl|].
  destruct (elim_step evo (a, d, o) s) as [[[a2 d2] o2] [e|]] eqn:Es; apply ss_step in Es; auto.
  - injection E as <- <- <- <-. auto.
  - apply IH in E; [eapply ssame_trans; eauto|]. destruct Es as [_ ->]; auto.
Qed.
Lemma ss_elim_simplify : forall evo ss a d o a1 d1 o1 r, lims a = [] -> elim_simplify evo ss (a, d, o) = ((a1, d1, o1), r) -> ssame a a1.
Proof.
  intros evo ss a d o a1 d1 o1 r Hl E. unfold elim_simplify in E.
  destruct (elim_run evo (a, d, o) ss) as [[[a2 d2] o2] [e|]] eqn:Es; apply ss_run in Es; auto.
  - injection E as <- <- <- <-. auto.
  - destruct (propagate_sandbox a2 d2) as [[a3 d3] r3] eqn:Ep. apply ss_sandbox in Ep.
    assert (X : ssame a a3) by (eapply ssame_trans; eauto). destruct r3; injection E as <- <- <- <-; auto.
Qed.
Lemma ss_pure : forall vs a d o a1 d1 ok, lims a = [] -> assert_pure vs a d o = (a1, d1, ok) -> ssame a a1.
Proof.
  induction vs as [|v vs IH]; intros a d o a1 d1 ok Hl E; cbn [assert_pure] in E; [injection E as <- <- <-; apply ssame_refl|].
  destruct (val a v); [eauto|]. destruct (stats o v) as [[p m]|]; [|eauto].
  destruct (if m =? 0 then _ else _) as [[a2 d2] ok2] eqn:E2.
  assert (X : ssame a a2).
  { destruct (m =? 0); [|destruct (p =? 0); [|injection E2 as <- <- <-; apply ssame_refl]];
      destruct (assign_at_root_level a _) as [a3 ok3] eqn:Ea; injection E2 as <- <- <-; eapply ss_root; eauto. }
  destruct ok2; [|injection E as <- <- <-; auto]. apply IH in E; [|cbn; destruct X as [_ ->]; auto].
  change (ssame a2 a1) in E. eapply ssame_trans; eauto.
Qed.
