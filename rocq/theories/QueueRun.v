(** The loops of the eliminator: each follows some list of elementary operations and ends. *)
From Coq Require Import List Arith Bool Lia Permutation.
From Verif Require Import Base HeapModel HeapProofs EmaModel AsgModel LitFacts AsgProofs C15_Trail CdbModel CdbProofs CdbOps PropModel SatSpec PropProofs PropLoop PropOps PropDb RootProofs ConflictModel ConflictProofs HandleProofs PropMisc ElimModel ElimFacts ElimExt ElimProofs ElimVar ElimRun ElimTotal C12_Prop C37_Heap QueueModel QueueProofs LogProofs.
Import ListNotations.
Open Scope nat_scope.
Local Opaque Nat.pow.

Section Run.
Context {GM : Models}.

(** ** the backward check *)
Definition Loop (n : nat) (st : estate) (q : queues) (st' : estate) (q' : queues) : Prop :=
  KI n st' /\ QW n q' /\ q_bwd q <= q_bwd q' /\ q_bwd q' <= length (tr (fst (fst st'))) /\ grown st st'.
Lemma loop_trans : forall n st q st1 q1 st2 q2, Loop n st q st1 q1 -> Loop n st1 q1 st2 q2 -> Loop n st q st2 q2.
Proof.
  intros n st q st1 q1 st2 q2 (A1 & A2 & A3 & A4 & A5) (B1 & B2 & B3 & B4 & B5). unfold Loop. splits; auto; try lia.
  eapply grown_trans; eauto.
Qed.
Lemma prop_reach : forall evo a d o a1 d1 r, propagate_sandbox a d = (a1, d1, r) -> reach evo (a, d, o) (a1, d1, o) (root_error r).
Proof. intros evo a d o a1 d1 r E. apply reach_step with EProp. cbn [elim_step]. now rewrite E. Qed.
Lemma prop_grown : forall n a d o a1 d1 r, KI n (a, d, o) -> propagate_sandbox a d = (a1, d1, r) -> grown (a, d, o) (a1, d1, o).
Proof.
  intros n a d o a1 d1 r (K1 & _) E. pose proof (propagate_sandbox_spec false false a d K1 a1 d1 r E) as (F & _). now apply aframe_grown.
Qed.

Lemma backward_spec : forall k n fuel st q t st' q' t' r, KI n st -> FT n st' -> QW n q -> q_bwd q <= length (tr (fst (fst st))) ->
  weight st q + 2 * (n - q_bwd q) <= fuel -> q_backward k fuel (st, q) t = (st', q', t', r) ->
  reach (k_evo k) st st' r /\ t' <= t /\
  (r = None -> Loop n st q st' q' /\ (q_cls q = [] -> q_bwd q < length (tr (fst (fst st))) -> q_bwd q < q_bwd q')).
Proof.
  intros k n. induction fuel as [|f IH]; intros [[a d] o] q t st' q' t' r K Hft Q Hb Hf E.
  - cbn [q_backward] in E. cbn [fst snd] in *. destruct (q_cls q) as [|i rest] eqn:Eq.
    2:{ unfold weight in Hf. rewrite Eq in Hf. cbn in Hf. lia. }
    destruct (nth_error (tr a) (q_bwd q)) as [l|] eqn:En.
    { assert (q_bwd q < length (tr a)) by (apply nth_error_Some; congruence). pose proof (ki_tr n a d o K). lia. }
    assert (Hlen : length (tr a) <= q_bwd q) by (now apply nth_error_None). destruct (remains a).
    + destruct (propagate_sandbox a d) as [[a1 d1] rr] eqn:Ep. injection E as <- <- <- <-.
      pose proof (prop_reach (k_evo k) a d o a1 d1 rr Ep) as R. split; auto. split; auto. intros Hr. rewrite Hr in R.
      pose proof (ki_reach n _ _ _ None K Hft R) as K1. pose proof (prop_grown n a d o a1 d1 rr K Ep) as G.
      split; [|lia]. unfold Loop. splits; auto. destruct G as [G _]. cbn [fst] in G. cbn [fst]. lia.
    + injection E as <- <- <- <-. split; [apply reach_refl|]. split; auto. intros _. split; [|lia].
      unfold Loop. splits; auto. apply grown_refl.
  - cbn [q_backward] in E. cbn [fst snd] in *.
    (* one round with the item [i] and the rest of the queues [q1] *)
    assert (ROUND : forall i q1, live_item i (a, d, o) \/ (exists c, i = QClause c) -> QW n q1 -> q_bwd q <= q_bwd q1 <= length (tr a) ->
       weight (a, d, o) q1 + 2 * (n - q_bwd q1) <= f ->
       (if t =? 0 then (((a, d, o), q_clear_vars (q_clear_clauses q1)), t, None)
        else
        let q2 := match i with QClause c => set_q_flag q1 (upd (q_flag q1) c false) | QLit _ => q1 end in
        if match i with QClause c => dead d c || (k_sub k <? length (lits (cl d c))) | QLit _ => false end
        then q_backward k f ((a, d, o), q2) t
        else
          let best := match i with QClause c => q_best a d o (lits (cl d c)) | QLit l => vi l end in
          if (best =? 0) || eli a best then q_backward k f ((a, d, o), q2) t
          else match q_against k i best ((a, d, o), q2) t with
               | (s1, t1, None) => q_backward k f s1 t1
               | (s1, t1, Some r) => (s1, t1, r)
               end) = (st', q', t', r) ->
       reach (k_evo k) (a, d, o) st' r /\ t' <= t /\ (r = None -> Loop n (a, d, o) q1 st' q')).
    { clear E Hf. intros i q1 Hi Q1 B1 Hf E. destruct (Nat.eqb_spec t 0) as [->|Ht].
      { injection E as <- <- <- <-. split; [apply reach_refl|]. split; auto. intros _. unfold Loop. splits; auto; try apply grown_refl.
        apply qw_clear_vars, qw_clear_clauses, Q1. cbn. lia. }
      cbv zeta in E.
      set (q2 := match i with QClause c => set_q_flag q1 (upd (q_flag q1) c false) | QLit _ => q1 end) in *.
      assert (Q2 : QW n q2) by (unfold q2; destruct i; auto).
      assert (E2 : q_bwd q2 = q_bwd q1 /\ weight (a, d, o) q2 = weight (a, d, o) q1) by (unfold q2; destruct i; auto).
      destruct E2 as [E2 E3].
      assert (SKIP : q_backward k f ((a, d, o), q2) t = (st', q', t', r) ->
        reach (k_evo k) (a, d, o) st' r /\ t' <= t /\ (r = None -> Loop n (a, d, o) q1 st' q')).
      { intros X. apply IH in X; auto; [|rewrite E2; cbn [fst]; lia|lia]. destruct X as (X1 & X2 & X3). split; auto. split; auto. intros Hr.
        destruct (X3 Hr) as [(L1 & L2 & L3 & L4 & L5) _]. unfold Loop. splits; auto. lia. }
      destruct (match i with QClause c => dead d c || (k_sub k <? length (lits (cl d c))) | QLit _ => false end) eqn:Es; [auto|].
      destruct ((_ =? 0) || _); [auto|].
      match type of E with context [q_against k i ?b ?s t] => destruct (q_against k i b s t) as [[[st1 q3] t1] r1] eqn:Ea end.
      assert (Hl : live_item i (a, d, o)).
      { destruct Hi as [Hi|[c ->]]; auto. cbn. apply dead_content. apply orb_false_iff in Es. apply Es. }
      assert (Hf1 : FT n st1).
      { eapply lle_fits; [|exact Hft]. destruct st1 as [[a1 d1] o1], st' as [[a' d'] o']. cbn [fst snd].
        destruct r1 as [e|]; [injection E as <- <- <- <- <- <-; apply lle_refl|]. eapply lle_q_backward; eauto. }
      destruct (against_spec k n i _ _ _ _ _ _ _ _ K Hf1 Q2 Hl Ea) as (A1 & A2 & A3).
      destruct r1 as [e|]; cbn [err_of] in *.
      - injection E as <- <- <- <-. split; auto. split; auto. intros Hr. destruct (A3 Hr) as (S1 & S2 & S3 & S4 & S5 & S6).
        unfold Loop. splits; auto; [lia|]. destruct S5 as [S5 _]. cbn [fst] in S5. lia.
      - destruct (A3 eq_refl) as (S1 & S2 & S3 & S4 & S5 & S6).
        apply IH in E; auto; [|destruct S5 as [S5 _]; cbn [fst] in S5; lia|lia].
        destruct E as (X1 & X2 & X3). split; [eapply reach_trans; eauto|]. split; [lia|]. intros Hr.
        destruct (X3 Hr) as [(L1 & L2 & L3 & L4 & L5) _]. unfold Loop. splits; auto; [lia|]. eapply grown_trans; eauto. }
    pose proof (ki_tr n a d o K) as Hn.
    destruct (q_cls q) as [|i rest] eqn:Eq.
    + destruct (nth_error (tr a) (q_bwd q)) as [l|] eqn:En.
      * assert (Lt : q_bwd q < length (tr a)) by (apply nth_error_Some; congruence).
        apply (ROUND (QLit l) (mkQueues [] (q_var q) (q_flag q) (q_bwd q + 1))) in E.
        -- destruct E as (E1 & E2 & E3). split; auto. split; auto. intros Hr. destruct (E3 Hr) as (L1 & L2 & L3 & L4 & L5). cbn [q_bwd] in L3.
           split; [|lia]. unfold Loop. splits; auto. lia.
        -- left. cbn. eapply nth_error_In; eauto.
        -- exact Q.
        -- cbn [q_bwd]. lia.
        -- unfold weight in *. cbn [q_cls q_bwd length fst snd] in *. rewrite Eq in Hf. cbn [length] in Hf. lia.
      * assert (Hlen : length (tr a) <= q_bwd q) by (now apply nth_error_None). destruct (remains a).
        -- destruct (propagate_sandbox a d) as [[a1 d1] rr] eqn:Ep. injection E as <- <- <- <-.
           pose proof (prop_reach (k_evo k) a d o a1 d1 rr Ep) as R. split; auto. split; auto. intros Hr. rewrite Hr in R.
           pose proof (ki_reach n _ _ _ None K Hft R) as K1. pose proof (prop_grown n a d o a1 d1 rr K Ep) as G.
           split; [|lia]. unfold Loop. splits; auto. destruct G as [G _]. cbn [fst] in G. cbn [fst]. lia.
        -- injection E as <- <- <- <-. split; [apply reach_refl|]. split; auto. intros _. split; [|lia].
           unfold Loop. splits; auto. apply grown_refl.
    + apply (ROUND (QClause i) (set_q_cls q rest)) in E.
      * destruct E as (E1 & E2 & E3). split; auto. split; auto. intros Hr. destruct (E3 Hr) as (L1 & L2 & L3 & L4 & L5). cbn [q_bwd set_q_cls] in L3.
        split; [|discriminate]. unfold Loop. splits; auto.
      * right. eauto.
      * exact Q.
      * cbn [q_bwd set_q_cls]. lia.
      * unfold weight in *. cbn [q_cls q_bwd set_q_cls length fst snd] in *. rewrite Eq in Hf. cbn [length] in Hf. lia.
Qed.
Lemma check_spec : forall k n st q t st' q' t' r, KI n st -> FT n st' -> QW n q -> q_bwd q <= length (tr (fst (fst st))) ->
  q_check k (st, q) t = (st', q', t', r) ->
  reach (k_evo k) st st' r /\ t' <= t /\
  (r = None -> Loop n st q st' q' /\ (q_cls q = [] -> q_bwd q < length (tr (fst (fst st))) -> q_bwd q < q_bwd q')).
Proof.
  intros k n st q t st' q' t' r K Hft Q Hb E. eapply backward_spec; [exact K|exact Hft|exact Q|exact Hb| |exact E].
  destruct st as [[a d] o]. unfold backward_fuel, weight. cbn [fst snd]. destruct K as (_ & _ & <- & _). lia.
Qed.

(** ** the elimination of one variable *)
Lemma bwd_add_cid : forall k a d o q c e, q_bwd (snd (q_add_cid k a d o q c e)) = q_bwd q.
Proof.
  intros k a d o q c e. unfold q_add_cid. destruct (cocc (cl d c)); auto.
  assert (X : forall ls s, q_bwd (snd (fold_left (q_add_lit k a c) ls s)) = q_bwd (snd s)).
  { induction ls as [|l ls IH]; intros s; cbn [fold_left]; auto. rewrite IH. destruct s as [o0 q0]. unfold q_add_lit.
    destruct (_ <? _); auto. destruct (eli a (vi l)); auto. }
  specialize (X (lits (cl d c)) (o, q)). destruct (fold_left _ _ _) as [o1 q1]. cbn [snd] in *.
  destruct e; auto. unfold q_enqueue_clause. destruct (_ || _); auto.
Qed.
Lemma resolve_pair_qw : forall k n v st q p m st' q' r, KI n st -> FT n st' -> QW n q ->
  In (mklit v true) (content (snd (fst st)) p) -> In (mklit v false) (content (snd (fst st)) m) ->
  q_resolve_pair k v (st, q) p m = (st', q', r) -> r = None ->
  KI n st' /\ QW n q' /\ q_bwd q' = q_bwd q /\ grown st st' /\ grows (snd (fst st)) (snd (fst st')).
Proof.
  intros k n v [[a d] o] q p m [[a' d'] o'] q' r K Hft Q Hp Hm E ->. unfold FT in Hft. cbn [fst snd] in *. pose proof K as (K1 & K2 & K3 & K4 & K5).
  pose proof (resolve_pair_proj k v (a, d, o) q p m) as Pj. rewrite E in Pj.
  pose proof Hft as Hft'. rewrite <- K3 in Hft'.
  pose proof (resolve_pair_spec _ v a d o p m (a', d', o') None K1 K2 Hft' K5 Hp Hm Pj) as (S1 & S2 & S3 & S4 & _).
  assert (K' : KI n (a', d', o')). { destruct S3 as (L & _ & N & _). unfold KI. splits; auto; congruence. }
  assert (G : grown (a, d, o) (a', d', o')) by (now apply aframe_grown).
  assert (X : QW n q' /\ q_bwd q' = q_bwd q); [|destruct X; splits; auto].
  unfold q_resolve_pair in E. destruct (merge _ _ _) as [|l [|l' t]].
  - injection E as <- <- <- <-. auto.
  - destruct (litval a l) as [[|]|]; try discriminate E; [injection E as <- <- <- <-; auto|].
    destruct (assign_at_root_level a l) as [a1 [|]]; [|discriminate E]. injection E as <- <- <- <-. auto.
  - destruct (new_clause _ _ _ _) as [d1 [c| | |c|l2]]; try (injection E as <- <- <- <-; auto; fail).
    set (q0 := set_q_flag q (upd (q_flag q) c false)) in *.
    pose proof (add_cid_proj k a d1 o q0 c true) as Pa. pose proof (bwd_add_cid k a d1 o q0 c true) as Ba.
    pose proof (qw_add_cid k n a d1 o q0 c true) as Qa.
    destruct (q_add_cid k a d1 o q0 c true) as [[d2 o2] q2] eqn:Ea. injection E as <- <- <- <-. cbn [fst snd] in *. split; auto.
    apply Qa; auto. destruct (add_cid_flag _ _ _ _ _ _ _ (eq_sym Pa)) as (F & _).
    change (lits (cl d1 c)) with (content d1 c). rewrite <- (flagonly_content _ _ c F). exact (ki_rng n a d2 o2 c K').
Qed.
Lemma resolve_pairs_qw : forall k n v ps st q st' q' r, KI n st -> FT n st' -> QW n q ->
  (forall p m, In (p, m) ps -> In (mklit v true) (content (snd (fst st)) p) /\ In (mklit v false) (content (snd (fst st)) m)) ->
  q_resolve_pairs k v (st, q) ps = (st', q', r) -> r = None ->
  KI n st' /\ QW n q' /\ q_bwd q' = q_bwd q /\ grown st st'.
Proof.
  intros k n v. induction ps as [|[p m] ps IH]; intros st q st' q' r K Hft Q Hps E ->; cbn [q_resolve_pairs] in E.
  - injection E as <- <-. splits; auto. apply grown_refl.
  - destruct (q_resolve_pair k v (st, q) p m) as [[st1 q1] r1] eqn:E1. destruct (Hps p m (or_introl eq_refl)) as [Hp Hm].
    destruct r1 as [e|]; [discriminate E|].
    assert (Hf1 : FT n st1).
    { eapply lle_fits; [|exact Hft]. destruct st1 as [[a1 d1] o1], st' as [[a' d'] o']. cbn [fst snd]. eapply lle_q_resolve_pairs; eauto. }
    destruct (resolve_pair_qw k n v st q p m st1 q1 None K Hf1 Q Hp Hm E1 eq_refl) as (A1 & A2 & A3 & A4 & A5).
    destruct (IH st1 q1 st' q' None A1 Hft A2) as (B1 & B2 & B3 & B4); auto.
    + intros x y Hxy. destruct (Hps x y (or_intror Hxy)) as [X Y]. unfold content in *.
      assert (X1 : lits (cl (snd (fst st)) x) <> []) by (intros Z; rewrite Z in X; destruct X).
      assert (Y1 : lits (cl (snd (fst st)) y) <> []) by (intros Z; rewrite Z in Y; destruct Y).
      rewrite (A5 x X1), (A5 y Y1). auto.
    + splits; auto; [congruence|eapply grown_trans; eauto].
Qed.
Lemma remove_occurring_qw : forall k n a cs s, QW n (snd s) -> (forall x, rng n (lits (cl (fst (fst s)) x))) ->
  QW n (snd (fold_left (q_remove_occurring k a) cs s)) /\ q_bwd (snd (fold_left (q_remove_occurring k a) cs s)) = q_bwd (snd s) /\
  (forall x, rng n (lits (cl (fst (fst (fold_left (q_remove_occurring k a) cs s))) x))).
Proof.
  intros k n a. induction cs as [|c cs IH]; intros [[d o] q] Q R; cbn [fold_left]; [splits; auto|]. cbn [fst snd] in *.
  unfold q_remove_occurring at 2 4 6. destruct (dead d c); [now apply IH|].
  pose proof (qw_remove_cid k n a d o q c Q (R c)) as A1. pose proof (bwd_remove_cid k a d o q c) as [A2 _].
  destruct (q_remove_cid k a d o q c) as [[d1 o1] q1] eqn:Er. cbn [snd] in *.
  pose proof (remove_both_len _ _ _ _ _ _ _ _ _ Er) as [_ B2].
  destruct (IH (remove_clause d1 c, o1, q1)) as (I1 & I2 & I3); auto.
  - intros x. cbn [fst snd]. specialize (B2 x). unfold content in B2. rewrite B2. unfold upd. destruct (x =? c); [intros l []|apply R].
  - cbn [snd] in I2. splits; auto. congruence.
Qed.

Lemma eliminate_var_q : forall k n v st q t st' q' t' r, KI n st -> FT n st' -> QW n q -> q_bwd q <= length (tr (fst (fst st))) ->
  1 <= v <= n -> eli (fst (fst st)) v = false -> q_eliminate_var k v (st, q) t = (st', q', t', r) ->
  reach (k_evo k) st st' r /\ t' <= t /\
  (r = None -> Loop n st q st' q' /\ (eli (fst (fst st')) v = true \/ q_var q' = q_var q)).
Proof.
  intros k n v [[a d] o] q t st' q' t' r K Hft Q Hb Hv He E. cbn [fst snd] in *. pose proof K as (K1 & K2 & K3 & K4 & K5). unfold q_eliminate_var in E.
  destruct (val a v) eqn:Ev.
  { injection E as <- <- <- <-. split; [apply reach_refl|]. split; auto. intros _. split; auto. unfold Loop. splits; auto. apply grown_refl. }
  destruct (oab o v) eqn:Eo.
  { injection E as <- <- <- <-. split; [apply reach_refl|]. split; auto. intros _. split; auto. unfold Loop. splits; auto. apply grown_refl. }
  set (ro := retain_var d o v) in *.
  destruct ((t <? length (opos ro v) * length (oneg ro v)) || k_skip k a d (opos ro v) (oneg ro v) v) eqn:Es.
  { injection E as <- <- <- <-. assert (R : reach (k_evo k) (a, d, o) (a, d, ro) None).
    { apply reach_step with (ERetain v). cbn [elim_step]. now rewrite Ev, Eo. }
    split; auto. split; auto. intros _. split; auto. unfold Loop. splits; auto.
    - exact (ki_reach n _ _ _ None K Hft R).
    - split; auto. }
  set (o1 := occ_store ro (eliminated_clauses v d (opos ro v) (oneg ro v))) in *.
  match type of E with context [q_resolve_pairs k v ?s ?l] => destruct (q_resolve_pairs k v s l) as [[[[a2 d2] o2] q2] r2] eqn:Ep end.
  pose proof (resolve_pairs_eq k v _ _ _ _ _ _ Ep) as Pj.
  assert (Rev : forall rr st2, eliminate_var (k_evo k) (a, d, o) v = (st2, rr) -> reach (k_evo k) (a, d, o) st2 rr).
  { intros rr st2 X. apply reach_step with (EVar v). cbn [elim_step]. rewrite Ev, Eo, He.
    rewrite (proj2 (Nat.leb_le 1 v)), (proj2 (Nat.leb_le v (nv a))) by lia. exact X. }
  unfold eliminate_var in Rev. fold ro o1 in Rev. rewrite Pj in Rev.
  destruct r2 as [e|].
  { injection E as <- <- <- <-. split; [now apply Rev|]. split; [lia|discriminate]. }
  assert (KO : KI n (a, d, o1)).
  { pose proof (ki_reach n (k_evo k) _ (a, d, ro) None K K4) as X. destruct X as (X1 & X2 & X3 & X4 & X5).
    { apply reach_step with (ERetain v). cbn [elim_step]. now rewrite Ev, Eo. }
    unfold KI. splits; auto. }
  assert (PN : forall p m, In (p, m) (list_prod (opos ro v) (oneg ro v)) -> In (mklit v true) (content d p) /\ In (mklit v false) (content d m)).
  { intros p m H. apply in_prod_iff in H as [H1 H2]. unfold ro, retain_var in H1, H2. cbn [opos oneg] in H1, H2. rewrite upd_same in H1, H2.
    apply filter_In in H1 as [_ H1], H2 as [_ H2]. apply contains_iff in H1, H2. auto. }
  destruct (fold_left (q_remove_occurring k a2) (opos ro v) (d2, o2, q2)) as [[d3 o3] q3] eqn:F3.
  destruct (fold_left (q_remove_occurring k a2) (oneg ro v) (d3, o3, q3)) as [[d4 o4] q4] eqn:F4.
  assert (Hf4 : FT n (make_var_eliminated a2 v, d4, occ_clear_var o4 v)).
  { eapply lle_fits; [|exact Hft]. destruct st' as [[a' d'] o']. cbn [fst snd]. eapply lle_q_check; eauto. }
  assert (Hf2 : FT n (a2, d2, o2)).
  { eapply lle_fits; [|exact Hf4]. cbn [fst snd]. eapply lle_trans; eapply lle_q_remove_occurring; eauto. }
  destruct (resolve_pairs_qw k n v _ _ _ _ _ None KO Hf2 Q PN Ep eq_refl) as (A1 & A2 & A3 & A4).
  pose proof (remove_occurring_proj k a2 (opos ro v) (d2, o2, q2)) as P3. rewrite F3 in P3. cbn [fst] in P3. rewrite <- P3 in Rev.
  pose proof (remove_occurring_proj k a2 (oneg ro v) (d3, o3, q3)) as P4. rewrite F4 in P4. cbn [fst] in P4. rewrite <- P4 in Rev.
  specialize (Rev None _ eq_refl).
  pose proof (ki_reach n _ _ _ None K Hf4 Rev) as K'.
  destruct (remove_occurring_qw k n a2 (opos ro v) (d2, o2, q2)) as (R1 & R2 & R3); [exact A2|intros x; exact (ki_rng n _ _ _ x A1)|].
  rewrite F3 in R1, R2, R3. cbn [fst snd] in *.
  destruct (remove_occurring_qw k n a2 (oneg ro v) (d3, o3, q3)) as (R4 & R5 & R6); [exact R1|exact R3|].
  rewrite F4 in R4, R5, R6. cbn [fst snd] in *.
  destruct A4 as [G1 G2]. cbn [fst] in G1, G2.
  assert (M : tr (make_var_eliminated a2 v) = tr a2 /\ eli (make_var_eliminated a2 v) v = true /\
              forall w, eli a2 w = true -> eli (make_var_eliminated a2 v) w = true).
  { destruct KO as (O1 & O2 & O3 & O4 & O5).
    pose proof Hf2 as Hf2'. unfold FT in Hf2'. rewrite <- O3 in Hf2'.
    pose proof (resolve_pairs_spec _ v _ a d o1 (a2, d2, o2) None O1 O2 Hf2' O5 PN Pj) as (Z1 & _ & _ & _ & Zv & _).
    unfold make_var_eliminated. destruct (eli a2 v) eqn:Ee; [splits; auto|]. cbn. unfold upd. rewrite Nat.eqb_refl. splits; auto.
    - assert (X : forall l, In l (tr a2) -> (vi l =? v) = false).
      { intros l Hl. pose proof (coh_val a2 (pi_coh _ _ _ _ _ (proj1 Z1)) l Hl) as Y. destruct (Nat.eqb_spec (vi l) v); auto. congruence. }
      clear -X. induction (tr a2) as [|l t IH]; cbn [filter]; auto. rewrite (X l) by (left; auto). cbn [negb]. f_equal. apply IH.
      intros y Hy. apply X. right; auto.
    - intros w Hw. destruct (w =? v); auto. }
  destruct M as (M1 & M2 & M3).
  assert (Hb4 : q_bwd q4 <= length (tr (make_var_eliminated a2 v))) by (rewrite M1, R5, R2, A3; lia).
  destruct (check_spec k n _ q4 _ st' q' t' r K' Hft R4 Hb4 E) as (C1 & C2 & C3).
  split; [eapply reach_trans; eauto|]. split; [lia|]. intros Hr. destruct (C3 Hr) as [(L1 & L2 & L3 & L4 & L5) _].
  split; [|left; now apply (proj2 L5)]. unfold Loop. splits; auto; [lia|].
  eapply grown_trans; [|exact L5]. split; cbn [fst]; [rewrite M1; exact G1|auto].
Qed.

(** ** the loop over the variable queue *)
Definition freecount (n : nat) (a : asg) : nat := length (filter (fun v => negb (eli a v)) (seq 1 n)).
Lemma freecount_le : forall n a a', (forall v, eli a v = true -> eli a' v = true) -> freecount n a' <= freecount n a.
Proof.
  intros n a a' H. unfold freecount. induction (seq 1 n) as [|v l IH]; cbn [filter length]; auto.
  specialize (H v). destruct (eli a v), (eli a' v); cbn [negb length]; try lia; now specialize (H eq_refl).
Qed.
Lemma freecount_lt : forall n a a' v, (forall v, eli a v = true -> eli a' v = true) -> 1 <= v <= n -> eli a v = false -> eli a' v = true ->
  freecount n a' < freecount n a.
Proof.
  intros n a a' v H Hv E E'. unfold freecount. assert (I : In v (seq 1 n)) by (apply in_seq; lia). revert I.
  induction (seq 1 n) as [|x l IH]; intros I; [destruct I|]; destruct I as [->|I]; cbn [filter length].
  - rewrite E, E'. cbn [negb length]. pose proof (freecount_le 0 a a' H) as _.
    assert (X : length (filter (fun v => negb (eli a' v)) l) <= length (filter (fun v => negb (eli a v)) l)).
    { clear IH. induction l as [|y l IH]; cbn [filter length]; auto. pose proof (H y) as Hy.
      destruct (eli a y), (eli a' y); cbn [negb length]; try lia; now specialize (Hy eq_refl). }
    lia.
  - specialize (IH I). pose proof (H x) as Hx. destruct (eli a x), (eli a' x); cbn [negb length]; try lia; now specialize (Hx eq_refl).
Qed.
Lemma freecount_max : forall n a, freecount n a <= n.
Proof. intros n a. unfold freecount. rewrite <- (seq_length n 1) at 2. induction (seq 1 n) as [|x l IH]; cbn [filter length]; auto. destruct (negb _); cbn [length]; lia. Qed.

Lemma select_len : forall worse elim k h h' r, WF h -> ix h 0 < k -> occ_select_var worse elim k h = Some (h', r) ->
  match r with Some v => ix h' 0 < ix h 0 /\ 1 <= v <= cap h | None => ix h' 0 = 0 end.
Proof.
  intros worse elim. induction k as [|k IH]; intros h h' r W Hk E; [lia|]. cbn [occ_select_var] in E. unfold occ_get_root in E.
  destruct (Nat.eqb_spec (ix h 0) 0) as [Z|Z].
  - rewrite Nat.eqb_refl in E. injection E as <- <-. exact Z.
  - pose proof (get_heap_root_spec worse h W ltac:(lia)) as G. destruct (get_heap_root worse h) as [h1 v].
    destruct G as (G1 & G2 & G3 & G4 & [G5 G5'] & G6). destruct (Nat.eqb_spec v 0) as [Zv|]; [lia|].
    destruct (elim v).
    + apply IH in E; auto; [|lia]. rewrite G2 in E. destruct r; [split; [lia|apply E]|auto].
    + injection E as <- <-. split; [lia|auto].
Qed.
Lemma qw_len : forall n q, QW n q -> heap_len (fst (q_var q)) <= n.
Proof. intros n q [(_ & _ & W) <-]. exact W. Qed.

Lemma vars_spec : forall k n fuel st q t st' q' t' r, KI n st -> FT n st' -> QW n q -> q_bwd q <= length (tr (fst (fst st))) ->
  freecount n (fst (fst st)) * S n + heap_len (fst (q_var q)) <= fuel -> q_vars k fuel (st, q) t = (st', q', t', r) ->
  reach (k_evo k) st st' r /\ t' <= t /\
  (r = None -> Loop n st q st' q' /\ heap_len (fst (q_var q')) = 0 /\ (heap_len (fst (q_var q)) = 0 -> q_cls q' = q_cls q)).
Proof.
  intros k n. induction fuel as [|f IH]; intros [[a d] o] q t st' q' t' r K Hft Q Hb Hf E.
  - cbn [q_vars] in E. unfold dequeue_var in E. destruct (q_var q) as [h e] eqn:Eq. pose proof Q as [W1 W2]. rewrite Eq in W1, W2. cbn [fst] in *.
    assert (HK : ix h 0 < S (heap_len h)) by (unfold heap_len; lia).
    destruct (occ_select_spec (occ_worse o) (eli a) (S (heap_len h)) h W1 HK) as (h' & s & Es & W3 & W4 & _).
    rewrite Es in E. pose proof (select_len _ _ _ _ _ _ W1 HK Es) as SL. destruct s as [v|].
    + unfold heap_len in Hf. lia.
    + injection E as <- <- <- <-. split; [apply reach_refl|]. split; auto. intros _. split.
      * unfold Loop. splits; auto; [|apply grown_refl]. split; auto. cbn. congruence.
      * split; auto.
  - cbn [q_vars] in E. unfold dequeue_var in E. destruct (q_var q) as [h e] eqn:Eq. pose proof Q as [W1 W2]. rewrite Eq in W1, W2. cbn [fst] in *.
    assert (HK : ix h 0 < S (heap_len h)) by (unfold heap_len; lia).
    destruct (occ_select_spec (occ_worse o) (eli a) (S (heap_len h)) h W1 HK) as (h' & s & Es & W3 & W4 & _).
    rewrite Es in E. pose proof (select_len _ _ _ _ _ _ W1 HK Es) as SL. destruct s as [v|].
    2:{ injection E as <- <- <- <-. split; [apply reach_refl|]. split; auto. intros _. split.
      * unfold Loop. splits; auto; [|apply grown_refl]. split; auto. cbn. congruence.
      * split; auto. }
    destruct SL as [SL1 SL2]. rewrite W2 in SL2.
    set (q1 := set_q_var q (h', upd e v false)) in *.
    assert (Q1 : QW n q1) by (split; [exact W3|cbn; congruence]).
    assert (NZ : heap_len h <> 0) by (unfold heap_len; lia).
    (* nothing was done for [v] *)
    assert (SKIP : forall st1 q2 t1, KI n st1 -> QW n q2 -> q_bwd q <= q_bwd q2 <= length (tr (fst (fst st1))) -> grown (a, d, o) st1 -> t1 <= t ->
       reach (k_evo k) (a, d, o) st1 None ->
       freecount n (fst (fst st1)) * S n + heap_len (fst (q_var q2)) <= f ->
       q_vars k f (st1, q2) t1 = (st', q', t', r) ->
       reach (k_evo k) (a, d, o) st' r /\ t' <= t /\
       (r = None -> Loop n (a, d, o) q st' q' /\ heap_len (fst (q_var q')) = 0 /\ (heap_len h = 0 -> q_cls q' = q_cls q))).
    { intros st1 q2 t1 K1 Q2 B1 G1 T1 R1 F1 E1. destruct (IH st1 q2 t1 st' q' t' r K1 Hft Q2 ltac:(lia) F1 E1) as (I1 & I2 & I3).
      split; [eapply reach_trans; eauto|]. split; [lia|]. intros Hr. destruct (I3 Hr) as ((L1 & L2 & L3 & L4 & L5) & I4 & _).
      split; [|split; auto; lia]. unfold Loop. splits; auto; [lia|]. eapply grown_trans; eauto. }
    assert (STAY : q_vars k f ((a, d, o), q1) t = (st', q', t', r) ->
       reach (k_evo k) (a, d, o) st' r /\ t' <= t /\
       (r = None -> Loop n (a, d, o) q st' q' /\ heap_len (fst (q_var q')) = 0 /\ (heap_len h = 0 -> q_cls q' = q_cls q))).
    { apply SKIP; auto; [apply grown_refl|apply reach_refl|]. cbn [q1 set_q_var q_var fst]. unfold heap_len in *. lia. }
    destruct (eli a v) eqn:Ee; [exact (STAY E)|]. destruct (val a v) eqn:Ev; [exact (STAY E)|].
    match type of E with context [q_eliminate_var k v ?s t] => destruct (q_eliminate_var k v s t) as [[[st1 q2] t1] r1] eqn:Ex end.
    assert (Hf1 : FT n st1).
    { eapply lle_fits; [|exact Hft]. destruct st1 as [[a1 d1] o1], st' as [[a' d'] o']. cbn [fst snd].
      destruct r1 as [er|]; [injection E as <- <- <- <- <- <-; apply lle_refl|]. eapply lle_q_vars; eauto. }
    destruct (eliminate_var_q k n v _ _ _ _ _ _ _ K Hf1 Q1 Hb SL2 Ee Ex) as (X1 & X2 & X3).
    destruct r1 as [er|].
    { injection E as <- <- <- <-. split; auto. split; auto. discriminate. }
    destruct (X3 eq_refl) as ((L1 & L2 & L3 & L4 & L5) & X4).
    apply (SKIP st1 q2 t1); auto. pose proof (qw_len n q2 L2) as Hq. destruct X4 as [X4|X4].
    + pose proof (freecount_lt n a (fst (fst st1)) v (proj2 L5) SL2 Ee X4) as FL. cbn [fst] in *.
      assert (S n * S (freecount n (fst (fst st1))) <= S n * freecount n a) by (apply Nat.mul_le_mono_l; lia).
      unfold heap_len in *. lia.
    + rewrite X4. cbn [q1 set_q_var q_var fst]. pose proof (freecount_le n a (fst (fst st1)) (proj2 L5)) as FL.
      assert (freecount n (fst (fst st1)) * S n <= freecount n a * S n) by (apply Nat.mul_le_mono_r; auto).
      unfold heap_len in *. lia.
Qed.

(** ** the main loop *)
Definition empty_cls (q : queues) : bool := match q_cls q with [] => true | _ => false end.
Definition waiting (q : queues) : bool := negb (heap_len (fst (q_var q)) =? 0) || negb (empty_cls q).
Lemma loop_refl : forall n st q, KI n st -> QW n q -> q_bwd q <= length (tr (fst (fst st))) -> Loop n st q st q.
Proof. intros n st q K Q B. unfold Loop. splits; auto. apply grown_refl. Qed.
Lemma vars_fuel_ok : forall n st q, KI n st -> QW n q -> freecount n (fst (fst st)) * S n + heap_len (fst (q_var q)) <= vars_fuel (st, q).
Proof.
  intros n [[a d] o] q (_ & _ & K & _) Q. unfold vars_fuel. rewrite K. cbn [fst]. pose proof (freecount_max n a) as F. pose proof (qw_len n q Q) as L.
  assert (freecount n a * S n <= n * S n) by (apply Nat.mul_le_mono_r; auto). lia.
Qed.

Lemma lle_rest : forall k f a d o q t a' d' o' q' t' r,
  (let '(a4, d4, rr) := propagate_sandbox a d in
   match root_error rr with
   | Some e => (((a4, d4, o), q), t, Some e)
   | None => if t =? 0 then q_main k f ((a4, d4, o), q_clear_vars (q_clear_clauses q)) 0 else q_main k f ((a4, d4, o), q) (t - 1)
   end) = (((a', d', o'), q'), t', r) -> lle d d'.
Proof.
  intros k f a d o q t a' d' o' q' t' r E. destruct (propagate_sandbox a d) as [[a4 d4] rr] eqn:Ep. apply lle_sandbox in Ep.
  destruct (root_error rr); [injection E as <- <- <- <- <- <-; auto|]. destruct (t =? 0); apply lle_q_main in E; exact (lle_trans _ _ _ Ep E).
Qed.
Lemma main_spec : forall k n fuel st q t st' q' t' r, KI n st -> FT n st' -> QW n q -> q_bwd q <= length (tr (fst (fst st))) ->
  t + (n - q_bwd q) + (if waiting q then 1 else 0) <= fuel -> q_main k fuel (st, q) t = (st', q', t', r) ->
  reach (k_evo k) st st' r /\
  (r = None -> Loop n st q st' q' /\ q_bwd q' = length (tr (fst (fst st'))) /\ waiting q' = false).
Proof.
  intros k n. induction fuel as [|f IH]; intros [[a d] o] q t st' q' t' r K Hft Q Hb Hf E; cbn [q_main] in E; fold (empty_cls q) in E;
    change ((q_bwd q <? length (tr a)) || negb (heap_len (fst (q_var q)) =? 0) || negb (empty_cls q))
      with ((q_bwd q <? length (tr a)) || negb (heap_len (fst (q_var q)) =? 0) || negb (empty_cls q)) in E;
    rewrite <- orb_assoc in E; fold (waiting q) in E; cbn [fst] in Hb; pose proof (ki_tr n a d o K) as Hn.
  - destruct ((q_bwd q <? length (tr a)) || waiting q) eqn:Ec.
    + exfalso. apply orb_prop in Ec as [Ec|Ec]; [apply Nat.ltb_lt in Ec|rewrite Ec in Hf]; lia.
    + apply orb_false_iff in Ec as [Ec1 Ec2]. apply Nat.ltb_ge in Ec1. injection E as <- <- <- <-. split; [apply reach_refl|]. intros _.
      split; [now apply loop_refl|]. cbn [fst]. split; [lia|auto].
  - destruct ((q_bwd q <? length (tr a)) || waiting q) eqn:Ec.
    2:{ apply orb_false_iff in Ec as [Ec1 Ec2]. apply Nat.ltb_ge in Ec1. injection E as <- <- <- <-. split; [apply reach_refl|]. intros _.
      split; [now apply loop_refl|]. cbn [fst]. split; [lia|auto]. }
    match type of E with context [if ?b then ?x else ?y] => destruct (if b then x else y) as [[[st1 q1] t1] r1] eqn:E1 end.
    assert (Hf1 : FT n st1).
    { eapply lle_fits; [|exact Hft]. clear -E. destruct st1 as [[a1 d1] o1], st' as [[a' d'] o']; cbn [fst snd].
      destruct r1 as [e1|]; [injection E as <- <- <- <- <- <-; apply lle_refl|].
      destruct (q_vars _ _ _ _) as [[[[[a2 d2] o2] q2] t2] [e|]] eqn:E2; apply lle_q_vars in E2; [injection E as <- <- <- <- <- <-; auto|].
      destruct (q_check _ _ _) as [[[[[a3 d3] o3] q3] t3] [e|]] eqn:E3; apply lle_q_check in E3; apply (lle_trans _ _ _ E2) in E3; [injection E as <- <- <- <- <- <-; auto|].
      exact (lle_trans _ _ _ E3 (lle_rest _ _ _ _ _ _ _ _ _ _ _ _ _ E)). }
    assert (A : reach (k_evo k) (a, d, o) st1 r1 /\ t1 <= t /\
        (r1 = None -> Loop n (a, d, o) q st1 q1 /\ (q_cls q = [] -> q_bwd q < length (tr a) -> q_bwd q < q_bwd q1))).
    { destruct (negb (empty_cls q) || (q_bwd q <? length (tr a))) eqn:Eb.
      - exact (check_spec k n _ _ _ _ _ _ _ K Hf1 Q Hb E1).
      - injection E1 as <- <- <- <-. split; [apply reach_refl|]. split; auto. intros _. split; [now apply loop_refl|].
        intros _ X. apply orb_false_iff in Eb as [_ Eb]. apply Nat.ltb_ge in Eb. lia. }
    clear E1. destruct A as (A1 & A2 & A3). destruct r1 as [e1|]; [injection E as <- <- <- <-; split; auto; discriminate|].
    destruct (A3 eq_refl) as [L1 P1]. pose proof L1 as (K1 & Q1 & B1 & B1' & G1).
    match type of E with context [q_vars k ?f1 ?s1 t1] => destruct (q_vars k f1 s1 t1) as [[[st2 q2] t2] r2] eqn:E2 end.
    assert (Hf2 : FT n st2).
    { eapply lle_fits; [|exact Hft]. clear -E. destruct st2 as [[a2 d2] o2], st' as [[a' d'] o']; cbn [fst snd].
      destruct r2 as [e2|]; [injection E as <- <- <- <- <- <-; apply lle_refl|].
      destruct (q_check _ _ _) as [[[[[a3 d3] o3] q3] t3] [e|]] eqn:E3; apply lle_q_check in E3; [injection E as <- <- <- <- <- <-; auto|].
      exact (lle_trans _ _ _ E3 (lle_rest _ _ _ _ _ _ _ _ _ _ _ _ _ E)). }
    destruct (vars_spec k n _ _ _ _ _ _ _ _ K1 Hf2 Q1 B1' (vars_fuel_ok n st1 q1 K1 Q1) E2) as (V1 & V2 & V3).
    destruct r2 as [e2|]; [injection E as <- <- <- <-; split; [eapply reach_trans; eauto|discriminate]|].
    destruct (V3 eq_refl) as (L2 & _). pose proof L2 as (K2 & Q2 & B2 & B2' & G2).
    match type of E with context [q_check k ?s2 t2] => destruct (q_check k s2 t2) as [[[[[a3 d3] o3] q3] t3] r3] eqn:E3 end.
    assert (Hf3 : FT n (a3, d3, o3)).
    { eapply lle_fits; [|exact Hft]. clear -E. destruct st' as [[a' d'] o']; cbn [fst snd].
      destruct r3 as [e3|]; [injection E as <- <- <- <- <- <-; apply lle_refl|].
      exact (lle_rest _ _ _ _ _ _ _ _ _ _ _ _ _ E). }
    destruct (check_spec k n _ _ _ _ _ _ _ K2 Hf3 Q2 B2' E3) as (C1 & C2 & C3).
    pose proof (reach_trans _ _ _ _ _ A1 (reach_trans _ _ _ _ _ V1 C1)) as R3.
    destruct r3 as [e3|]; [injection E as <- <- <- <-; split; [exact R3|discriminate]|].
    destruct (C3 eq_refl) as (L3 & _). pose proof (loop_trans _ _ _ _ _ _ _ L1 (loop_trans _ _ _ _ _ _ _ L2 L3)) as L.
    pose proof L as (K3 & Q3 & B3 & B3' & G3). cbn [fst] in B3'.
    assert (Prog : waiting q = true \/ q_bwd q < q_bwd q3).
    { destruct (waiting q) eqn:Ew; auto. right. rewrite orb_false_r in Ec. apply Nat.ltb_lt in Ec.
      unfold waiting in Ew. apply orb_false_iff in Ew as [_ Ew]. apply negb_false_iff in Ew. unfold empty_cls in Ew.
      assert (Eq : q_cls q = []) by (destruct (q_cls q); [auto|discriminate]). specialize (P1 Eq Ec).
      destruct L2 as (_ & _ & X2 & _), L3 as (_ & _ & X3 & _). lia. }
    destruct (propagate_sandbox a3 d3) as [[a4 d4] rr] eqn:Ep.
    pose proof (prop_reach (k_evo k) a3 d3 o3 a4 d4 rr Ep) as Rp.
    pose proof (prop_grown n a3 d3 o3 a4 d4 rr K3 Ep) as Gp.
    destruct (root_error rr) as [er|]; [injection E as <- <- <- <-; split; [eapply reach_trans; eauto|discriminate]|].
    assert (Hf4 : FT n (a4, d4, o3)).
    { eapply lle_fits; [|exact Hft]. clear -E. destruct st' as [[a' d'] o']; cbn [fst snd]. destruct (t3 =? 0); eapply lle_q_main; eauto. }
    pose proof (ki_reach n _ _ _ None K3 Hf4 Rp) as K4. pose proof (ki_tr n a4 d4 o3 K4) as Hn4.
    assert (B4 : q_bwd q3 <= length (tr a4)) by (destruct Gp as [Gp _]; cbn [fst] in Gp; lia).
    assert (FIN : forall q5 t5, QW n q5 -> q_bwd q5 = q_bwd q3 -> t5 + (n - q_bwd q5) + (if waiting q5 then 1 else 0) <= f ->
       q_main k f ((a4, d4, o3), q5) t5 = (st', q', t', r) ->
       reach (k_evo k) (a, d, o) st' r /\ (r = None -> Loop n (a, d, o) q st' q' /\ q_bwd q' = length (tr (fst (fst st'))) /\ waiting q' = false)).
    { intros q5 t5 Q5 B5 F5 E5. destruct (IH (a4, d4, o3) q5 t5 st' q' t' r K4 Hft Q5 ltac:(cbn [fst]; lia) F5 E5) as [I1 I2].
      split; [eapply reach_trans; [exact R3|eapply reach_trans; eauto]|]. intros Hr. destruct (I2 Hr) as ((M1 & M2 & M3 & M4 & M5) & I3 & I4).
      split; auto. unfold Loop. splits; auto; [lia|]. eapply grown_trans; [exact G3|]. eapply grown_trans; [exact Gp|exact M5]. }
    destruct (Nat.eqb_spec t3 0) as [Zt|Zt].
    + apply (FIN (q_clear_vars (q_clear_clauses q3)) 0); auto.
      * apply qw_clear_vars, qw_clear_clauses, Q3.
      * assert (Wf : waiting (q_clear_vars (q_clear_clauses q3)) = false).
        { unfold waiting. cbn. reflexivity. }
        rewrite Wf. change (q_bwd (q_clear_vars (q_clear_clauses q3))) with (q_bwd q3). destruct Prog as [Pw|Pw]; [rewrite Pw in Hf|]; lia.
    + apply (FIN q3 (t3 - 1)); auto. destruct Prog as [Pw|Pw]; [rewrite Pw in Hf|]; destruct (waiting q3); lia.
Qed.

(** a run that ends with a propagation *)
Definition ends (evo : nat) (st st' : estate) (r : option serror) : Prop :=
  exists ss, match elim_run evo st ss with
             | ((a, d, o), None) => let '(a1, d1, rr) := propagate_sandbox a d in ((a1, d1, o), root_error rr)
             | x => x
             end = (st', r).
Lemma ends_trans : forall evo st st1 st' r, reach evo st st1 None -> ends evo st1 st' r -> ends evo st st' r.
Proof. intros evo st st1 st' r [s1 H1] [s2 H2]. exists (s1 ++ s2). now rewrite elim_run_app, H1. Qed.
Lemma ends_err : forall evo st st' e, reach evo st st' (Some e) -> ends evo st st' (Some e).
Proof. intros evo st [[a d] o] e [ss H]. exists ss. now rewrite H. Qed.
Lemma ends_prop : forall evo st a d o a1 d1 rr, reach evo st (a, d, o) None -> propagate_sandbox a d = (a1, d1, rr) ->
  ends evo st (a1, d1, o) (root_error rr).
Proof. intros evo st a d o a1 d1 rr [ss H] E. exists ss. now rewrite H, E. Qed.

Lemma eliminate_q : forall k n fuel clock st q st' q' r, KI n st -> FT n st' -> QW n q -> q_bwd q <= length (tr (fst (fst st))) ->
  n - length (tr (fst (fst st))) < fuel -> q_eliminate k fuel clock (st, q) = (st', q', r) ->
  ends (k_evo k) st st' r.
Proof.
  intros k n. induction fuel as [|f IH]; intros clock [[a d] o] q st' q' r K Hft Q Hb Hf E; [lia|]. cbn [q_eliminate] in E.
  match type of E with context [q_main k ?mf ?s ?t] => destruct (q_main k mf s t) as [[[[[a1 d1] o1] q1] t1] r1] eqn:E1 end.
  assert (Hm : forall t, t + (n - q_bwd q) + (if waiting q then 1 else 0) <= main_fuel ((a, d, o), q) t).
  { intros t. unfold main_fuel. destruct K as (_ & _ & -> & _). destruct (waiting q); lia. }
  assert (Hf2 : FT n (a1, d1, o1) /\ forall a2 d2 rr, propagate_sandbox a1 d1 = (a2, d2, rr) -> root_error rr = None -> r1 = None -> FT n (a2, d2, o1)).
  { assert (X : forall a2 d2 rr, propagate_sandbox a1 d1 = (a2, d2, rr) -> r1 = None -> lle d2 (snd (fst st'))).
    { intros a2 d2 rr X ->. rewrite X in E. destruct st' as [[a' d'] o'].
      destruct (root_error rr); [injection E as <- <- <- <- <-; apply lle_refl|]. destruct (_ && _); [injection E as <- <- <- <- <-; apply lle_refl|].
      destruct (hd false clock); [injection E as <- <- <- <- <-; apply lle_refl|]. eapply lle_q_eliminate; eauto. }
    split.
    - eapply lle_fits; [|exact Hft]. destruct r1 as [e|]; [injection E as <- <- <-; apply lle_refl|].
      destruct (propagate_sandbox a1 d1) as [[a2 d2] rr] eqn:Ep. eapply lle_trans; [eapply lle_sandbox; eauto|]. eauto.
    - intros a2 d2 rr X1 X2 X3. eapply lle_fits; [|exact Hft]. eauto. }
  destruct Hf2 as [Hf1 Hf2].
  destruct (main_spec k n _ _ _ _ _ _ _ _ K Hf1 Q Hb (Hm _) E1) as [A1 A2].
  destruct r1 as [e|]; [injection E as <- <- <-; now apply ends_err|]. destruct (A2 eq_refl) as ((K1 & Q1 & B1 & B1' & G1) & A3 & A4).
  destruct (propagate_sandbox a1 d1) as [[a2 d2] rr] eqn:Ep.
  pose proof (reach_trans _ _ _ _ _ A1 (prop_reach (k_evo k) a1 d1 o1 a2 d2 rr Ep)) as R2.
  pose proof (ends_prop _ _ _ _ _ _ _ _ A1 Ep) as X2.
  pose proof (prop_grown n a1 d1 o1 a2 d2 rr K1 Ep) as Gp.
  specialize (Hf2 _ _ _ eq_refl).
  destruct (root_error rr) as [e|]; [injection E as <- <- <-; auto|]. specialize (Hf2 eq_refl eq_refl).
  pose proof (ki_reach n _ _ _ None K Hf2 R2) as K2. pose proof (ki_tr n a2 d2 o1 K2) as Hn2.
  destruct G1 as [G1 _], Gp as [Gp _]. cbn [fst] in *.
  unfold waiting, empty_cls in A4. apply orb_false_iff in A4 as [A4 A5]. apply negb_false_iff in A4, A5. rewrite A4, A5 in E. cbn [andb] in E.
  rewrite andb_true_r in E. destruct (Nat.eqb_spec (length (tr a)) (length (tr a2))) as [El|El]; [injection E as <- <- <-; auto|].
  destruct (hd false clock); [injection E as <- <- <-; auto|].
  eapply ends_trans; [exact R2|]. eapply (IH (tl clock)); [exact K2|exact Hft|exact Q1| | |exact E]; cbn [fst]; lia.
Qed.

(** ** the whole of [simplify] *)
Lemma simplify_q : forall k n clock st q, KI n st -> FT n (fst (q_simplify k clock st q)) -> QW n q -> q_bwd q <= length (tr (fst (fst st))) ->
  exists ss, q_simplify k clock st q = elim_simplify (k_evo k) ss st.
Proof.
  intros k n clock st q K Hft Q Hb. unfold q_simplify in *.
  destruct (q_eliminate k (S (nv (fst (fst st)))) clock (st, q)) as [[[[a d] o] q1] r] eqn:E.
  assert (Hf : n - length (tr (fst (fst st))) < S (nv (fst (fst st)))).
  { destruct st as [[a0 d0] o0]. destruct K as (_ & _ & <- & _). cbn [fst]. lia. }
  assert (Hf1 : FT n (a, d, o)) by (eapply lle_fits; [|exact Hft]; destruct r; [|unfold stop]; intros x Hx; exact Hx).
  destruct (eliminate_q k n _ clock st q _ _ _ K Hf1 Q Hb Hf E) as [ss H]. exists ss. unfold elim_simplify.
  destruct (elim_run (k_evo k) st ss) as [[[a1 d1] o1] [e|]].
  - injection H as <- <- <- <-. auto.
  - destruct (propagate_sandbox a1 d1) as [[a2 d2] rr]. destruct rr; injection H as <- <- <- <-; auto.
Qed.
End Run.

(** ** a new eliminator *)
Lemma queues_new_qw : forall n e1 e2, QW n (queues_new n e1 e2).
Proof. intros n e1 e2. split; [apply heap_new_WF; lia|reflexivity]. Qed.
Lemma bwd_prepare : forall k a d o q, q_bwd (snd (q_prepare k a d o q)) = q_bwd q.
Proof.
  intros k a d o q. unfold q_prepare.
  assert (X : forall cs s, q_bwd (snd (fold_left (fun s c => let '(d, o, q) := s in
                 if dead d c || cocc (cl d c) then (d, o, q) else q_add_cid k a d o q c false) cs s)) = q_bwd (snd s)).
  { induction cs as [|c cs IH]; intros [[d0 o0] q0]; cbn [fold_left]; auto. destruct (_ || _); [apply IH|]. rewrite IH. apply bwd_add_cid. }
  specialize (X (seq 1 (ncl d - 1)) (d, ElimModel.occ_clear o, q)).
  destruct (fold_left _ (seq 1 (ncl d - 1)) _) as [[d1 o1] q1]. cbn [snd] in *.
  rewrite <- X. clear X. revert q1. induction (seq 1 (nv a)) as [|v vs IH]; intros q1; cbn [fold_left]; auto.
  rewrite IH. destruct (val a v); auto. destruct (eli a v); auto.
Qed.
Lemma prepare_simplify_q : forall (GM : Models) k clock e1 e2 a d o, PInv false false a d none -> lims a = [] -> fits (nv a) (snd (fst (fst (q_prepare_simplify k clock (a, d, o) (queues_new (nv a) e1 e2))))) -> Quiet d ->
  exists ss, q_prepare_simplify k clock (a, d, o) (queues_new (nv a) e1 e2) = elim_prepare_simplify (k_evo k) ss (a, d, o).
Proof.
  intros GM k clock e1 e2 a d o PI Hl Hn Hq. unfold q_prepare_simplify, elim_prepare_simplify in *.
  pose proof (prepare_proj k a d o (queues_new (nv a) e1 e2)) as Pj. pose proof (bwd_prepare k a d o (queues_new (nv a) e1 e2)) as Bp.
  pose proof (qw_prepare k (nv a) a d o (queues_new (nv a) e1 e2) eq_refl (queues_new_qw _ _ _)) as Qp.
  destruct (q_prepare k a d o (queues_new (nv a) e1 e2)) as [[d1 o1] q1]. cbn [fst snd] in *. rewrite <- Pj.
  pose proof (prepare_spec (k_evo k) a d o d1 o1 (pi_db _ _ _ _ _ (proj1 PI)) Hq (eq_sym Pj)) as (F1 & F2 & F3 & F4).
  pose proof (flag_inv _ _ _ _ _ _ PI F1) as P1.
  apply (simplify_q k (nv a) clock (a, d1, o1) q1); cbn [fst].
  - unfold KI. splits; auto. eapply lle_fits; [|exact Hn]. destruct (q_simplify k clock (a, d1, o1) q1) as [[[a2 d2] o2] r2] eqn:E2. eapply lle_q_simplify; eauto.
  - exact Hn.
  - apply Qp. intros c l Hc. apply (pi_vars _ _ _ _ _ (proj1 PI) c l Hc).
  - rewrite Bp. cbn. lia.
Qed.

