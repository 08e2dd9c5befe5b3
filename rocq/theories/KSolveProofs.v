(** [k_solve] is [solve] for some steps of the eliminator. *)
From Coq Require Import List Arith Bool Lia ZArith Permutation.
From Verif Require Import Base HeapModel EmaModel AsgModel LitFacts AsgProofs C15_Trail CdbModel CdbProofs CdbOps PropModel SatSpec PropProofs PropLoop PropOps PropDb RootProofs ConflictModel ConflictProofs HandleProofs PropMisc ElimModel ElimFacts ElimExt ElimProofs ElimVar ElimRun ElimTotal C12_Prop VivifyModel VivifyProofs QuietProofs LitModel BuildModel Spec SavProofs LubyModel SolveModel SolveProofs QueueModel QueueProofs QueueRun KSolveModel LogProofs.
Import ListNotations.
Open Scope nat_scope.
Local Opaque Nat.pow.

Definition set_steps (h : heur) (ss : list estep) : heur :=
  mkHeur (h_skip h) (h_deepen h) (h_time h) (h_pha1 h) (h_cand h) (h_order h) (h_keep h) (h_pha2 h) (h_targets h) ss (h_restart h).
Definition set_psteps (p : prep) (ss : list estep) : prep := mkPrep (p_targets p) ss (p_pha p) (p_stm p).

Lemma assert_pure_q : forall k n o vs a d q, QW n q -> (forall v, In v vs -> 1 <= v <= n) ->
  let '(a1, d1, q1, ok) := k_assert_pure k vs a d o q in
  assert_pure vs a d o = (a1, d1, ok) /\ QW n q1 /\ q_bwd q1 = q_bwd q.
Proof.
  intros k n o. induction vs as [|v vs IH]; intros a d q Q Hv; cbn [k_assert_pure assert_pure]; [splits; auto|].
  assert (SKIP : forall a d q1, QW n q1 -> q_bwd q1 = q_bwd q -> let '(a1, d1, q1, ok) := k_assert_pure k vs a d o q1 in
    assert_pure vs a d o = (a1, d1, ok) /\ QW n q1 /\ q_bwd q1 = q_bwd q).
  { intros a0 d0 q1 Q1 B1. specialize (IH a0 d0 q1 Q1 (fun w H => Hv w (or_intror H))).
    destruct (k_assert_pure k vs a0 d0 o q1) as [[[a1 d1] q2] ok]. rewrite <- B1. auto. }
  destruct (val a v); [now apply SKIP|]. destruct (stats o v) as [[p m]|]; [|now apply SKIP].
  set (q1 := q_enqueue_var k o q v false).
  assert (Q1 : QW n q1) by (apply qw_enqueue_var; auto; apply Hv; left; auto).
  assert (B1 : q_bwd q1 = q_bwd q) by reflexivity.
  assert (GO : forall x d0 (ok : bool),
    let '(a1, d1, q2, ok0) := (if ok then k_assert_pure k vs (set_pha x (upd (pha x) v (m <? p))) d0 o q1 else (x, d0, q, false)) in
    (if ok then assert_pure vs (set_pha x (upd (pha x) v (m <? p))) d0 o else (x, d0, false)) = (a1, d1, ok0) /\ QW n q2 /\ q_bwd q2 = q_bwd q).
  { intros x d0 [|]; [now apply SKIP|splits; auto]. }
  clearbody q1. destruct (m =? 0); [|destruct (p =? 0)].
  - destruct (assign_at_root_level a (mklit v true)) as [x ok]. apply GO.
  - destruct (assign_at_root_level a (mklit v false)) as [x ok]. apply GO.
  - apply (GO a d true).
Qed.

Lemma k_inprocess_eq : forall {OP : Prop} cf i a d, @PInv (mkModels (Sem a d) OP) false false a d none -> lims a = [] -> fits (nv a) (snd (fst (k_inprocess cf i a d))) -> Quiet d -> cf_nv cf = nv a ->
  exists ss, k_inprocess cf i a d = inprocess cf ss a d.
Proof.
  intros OP cf i a d P Hl Hn Q Hc. unfold k_inprocess, inprocess in *. destruct (cf_elim cf); [|exists []; auto].
  destruct (prepare_oob cf a d); [exists []; auto|].
  unfold kin_queues in *. rewrite Hc in *.
  assert (Hf : fits (nv a) (snd (fst (fst (q_prepare_simplify (kin_lim cf i) (i_clock i) (a, d, occ_new) (queues_new (nv a) (i_venq i) (i_cenq i))))))).
  { destruct (q_prepare_simplify _ _ _ _) as [[[a1 d1] o1] r1]. cbn [fst snd]. destruct (simplify_outcome cf d1 r1); exact Hn. }
  destruct (prepare_simplify_q (mkModels (Sem a d) OP) (kin_lim cf i) (i_clock i) (i_venq i) (i_cenq i) a d occ_new P Hl Hf Q) as [ss ->].
  exists ss. reflexivity.
Qed.

Lemma k_after_conflict_eq : forall F cf h i en nx a d, good_heur h -> J F a d -> fits (nv a) (snd (fst (k_after_conflict cf h i en nx a d))) -> cf_nv cf = nv a ->
  exists ss, k_after_conflict cf h i en nx a d = after_conflict cf (set_steps h ss) en nx a d.
Proof.
  intros F cf h i en nx a d GH (P & G & Q & Hn) Hf Hc. unfold k_after_conflict, after_conflict in *.
  cbn [set_steps h_time h_pha1 h_cand h_order h_keep h_pha2 h_targets h_restart h_steps].
  pose proof (restart_keep F false true a d G P) as R0. cbv zeta in R0. set (b := cancel_until a 0) in *.
  destruct R0 as (G0 & P0 & L0 & N0).
  assert (P0' : @PInv (mkModels (Sem b d) True) false true b d none) by (destruct (dlevel a =? 0); auto). clear P0.
  destruct en; [|exists []; auto].
  destruct (h_time h) as [[|]|]; try (exists []; now auto).
  destruct (phases_keep F _ _ _ _ _ (h_pha1 h) G0 P0') as [G1 P1].
  assert (N1 : nv (set_phases b (h_pha1 h)) = nv a) by exact N0.
  assert (L1 : lims (set_phases b (h_pha1 h)) = []) by exact L0.
  set (a1 := set_phases b (h_pha1 h)) in *. clearbody a1. clear b G0 P0' L0 N0.
  destruct (clear_asserted_literals a1 d) as [[a2 d2] r2] eqn:E2.
  pose proof (@clear_asserted_spec (mkModels (Sem a1 d) True) _ _ _ _ P1 L1 _ _ _ E2) as S2.
  assert (Q2 : Quiet d2) by (eapply qle_quiet; [eapply qle_clear; eauto|auto]).
  destruct r2 as [e|]; [exists []; auto|].
  destruct S2 as (S1 & S2 & S3 & S4 & S5 & S6).
  destruct (gi_keep F _ _ _ _ _ _ _ G1 S1 (rframe_wframe _ _ S2) S3) as [G2 P2].
  assert (L2 : lims a2 = []) by (destruct S2 as (-> & _); auto).
  assert (N2 : nv a2 = nv a) by (destruct S2 as (_ & _ & -> & _); auto).
  clear S1 S2 S3 S4 S5 S6. cbv zeta.
  set (d3 := reduce (lev a2) (h_cand h) (h_order h) (h_keep h) d2) in *.
  assert (Q3 : Quiet d3) by (eapply qle_quiet; [apply qle_reduce|auto]).
  destruct (@reduce_inv (mkModels (Sem a2 d2) True) (lev a2) (h_cand h) (h_order h) (h_keep h) _ _ _ _ _ P2 L2 GH) as [R1 R2].
  fold d3 in R1, R2. clearbody d3.
  destruct (gi_keep F _ _ _ _ _ _ _ G2 R1 (wframe_refl _) R2) as [G3 P3]. clear R1 R2.
  destruct nx as [seg|]; [|exists []; auto].
  destruct (phases_keep F _ _ _ _ _ (h_pha2 h) G3 P3) as [G4 P4].
  destruct (vivify (h_targets h) (set_phases a2 (h_pha2 h)) d3) as [[a5 d5] r5] eqn:E5.
  assert (L4 : lims (set_phases a2 (h_pha2 h)) = []) by exact L2.
  pose proof (@vivify_spec (mkModels (Sem (set_phases a2 (h_pha2 h)) d3) True) _ _ _ _ P4 L4 _ _ _ E5) as S.
  assert (Q5 : Quiet d5) by (eapply qle_quiet; [eapply qle_vivify; eauto|auto]).
  destruct r5 as [e|]; [exists []; auto|].
  destruct S as (S1 & S2 & S3 & S4 & S5).
  destruct (gi_keep F _ _ _ _ _ _ _ G4 S1 S4 S5) as [G5 P5].
  assert (N5 : nv a5 = nv a) by (destruct S4 as (_ & -> & _); exact N2).
  apply full_weaken in P5. destruct seg; [|exists []; auto].
  assert (Hf5 : fits (nv a5) (snd (fst (k_inprocess cf i a5 d5)))).
  { rewrite N5. destruct (k_inprocess cf i a5 d5) as [[a6 d6] [r6|]]; exact Hf. }
  destruct (k_inprocess_eq cf i a5 d5 P5 S2 Hf5 Q5 ltac:(congruence)) as [ss ->].
  exists ss. reflexivity.
Qed.

(** the same choices with other steps of the eliminator *)
Definition same_choices (hs : list (heur * kin)) (hs' : list heur) : Prop :=
  Forall2 (fun x h => exists ss, h = set_steps (fst x) ss) hs hs'.

Lemma same_refl : forall hs, same_choices hs (map (fun x => set_steps (fst x) []) hs).
Proof. induction hs as [|x hs IH]; constructor; auto. now exists []. Qed.

Lemma k_search_eq : forall F cf hs sm n a d, (forall x, In x hs -> good_heur (fst x)) -> J F a d -> fits (nv a) (snd (fst (k_search cf hs sm n a d))) -> cf_nv cf = nv a ->
  exists hs', same_choices hs hs' /\ k_search cf hs sm n a d = search cf hs' sm n a d.
Proof.
  intros F cf hs. induction hs as [|[h i] hs IH]; intros sm n a d GH Jd Hf Hc.
  - exists []. split; [constructor|]. reflexivity.
  - assert (TAIL : forall ss x, ((forall t, same_choices hs t -> search cf (set_steps h ss :: t) sm n a d = x)) -> k_search cf ((h, i) :: hs) sm n a d = x ->
        exists hs', same_choices ((h, i) :: hs) hs' /\ k_search cf ((h, i) :: hs) sm n a d = search cf hs' sm n a d).
    { intros ss x H1 H2. exists (set_steps h ss :: map (fun x => set_steps (fst x) []) hs). split.
      - constructor; [cbn; eauto|apply same_refl].
      - rewrite H2. symmetry. apply H1. apply same_refl. }
    cbn [k_search search] in *. cbn [set_steps h_skip h_deepen] in *.
    destruct ((0 <? unassigned_left a) || remains a) eqn:Ew; [|eapply (TAIL []); reflexivity].
    pose proof Jd as (P & G & Q & Hn).
    assert (D : exists a1, (if remains a then Some a
             else match select_decision_literal (branch_fuel a) a with
                  | Some (b, l) => Some (assign_by_decision b l)
                  | None => None
                  end) = Some a1 /\ @PInv (mkModels (Sem a d) True) false true a1 d none /\ oframe a a1).
    { destruct (remains a) eqn:Er; [exists a; splits; auto; apply oframe_refl|].
      rewrite orb_false_r in Ew. apply Nat.ltb_lt in Ew.
      destruct (some_unassigned a (pi_coh _ _ _ _ _ (proj1 P)) (gi_nel _ _ _ G) Ew) as (v & Hv).
      destruct (@branch_inv (mkModels (Sem a d) True) false true a d Logic.I P (remains_false a (pi_coh _ _ _ _ _ (proj1 P)) Er) (ex_intro _ v Hv)) as (b & l & Es & Sc & As & Pb).
      exists (assign_by_decision b l). rewrite Es. splits; auto.
      apply oframe_trans with b; [now apply oframe_core|].
      assert (Vb : val b (vi l) = None). { destruct As as (_ & As & _). destruct Sc as (-> & _). auto. }
      pose proof (decide_frame b l Vb) as DF. cbv zeta in DF.
      destruct DF as (D1 & D2 & D3 & D4 & D5 & D6 & D7 & D8 & D9 & D10 & D11). unfold oframe. splits; auto.
      intros x y Hx Hz. assert (Nx : vi x <> vi l). { intros Z. rewrite <- Z in Vb. apply litval_none_iff in Vb. congruence. }
      apply Nat.eqb_neq in Nx. unfold litval in *. rewrite D4, D5, Nx. auto. }
    destruct D as (a1 & Ed & P1 & O1). rewrite Ed in *.
    destruct (propagate (h_skip h) a1 d) as [[a2 d2] pr] eqn:Ep.
    destruct (propagate_spec false (h_skip h) a1 d P1 a2 d2 pr Ep) as (F1 & F2 & X).
    assert (O2 : oframe a a2) by (eapply oframe_trans; [exact O1|now apply aframe_oframe]).
    assert (Q2 : Quiet d2) by (eapply qle_quiet; [eapply qle_propagate; eauto|auto]).
    assert (B2 : back a d a2 d2).
    { apply oframe_back; auto. intros c Hd K. split; [apply (dframe_keep d d2); auto|apply F2]. }
    assert (N2 : nv a2 = nv a) by (destruct O2 as (_ & -> & _); auto).
    assert (GH' : forall x, In x hs -> good_heur (fst x)) by (intros x Hx; apply GH; right; auto).
    destruct pr as [|l rr|]; [| |contradiction].
    + destruct X as [X1 X2]. destruct (gi_keep F _ _ _ _ _ _ _ G X1 (oframe_wframe _ _ O2) B2) as [G2 P2].
      destruct (IH sm n a2 d2 GH') as (hs' & I1 & I2); [unfold J; splits; auto; congruence|rewrite N2; exact Hf|congruence|].
      exists (set_steps h [] :: hs'). split; [constructor; cbn; eauto|].
      cbn [search set_steps h_skip]. rewrite Ew, Ed, Ep. exact I2.
    + destruct X as [X1 X2]. destruct (gi_keep F _ _ _ _ _ _ _ G X1 (oframe_wframe _ _ O2) B2) as [G2 P2].
      destruct (Nat.eqb_spec (dlevel a2) 0) as [Ez|Ez]; [eapply (TAIL []); reflexivity|].
      assert (HF2 : fits (nv a2) (snd (fst (handle_conflict (h_deepen h) a2 d2 l rr)))).
      { rewrite N2. eapply lle_fits; [|exact Hf]. destruct (Nat.eqb_spec (dlevel a2) 0); [contradiction|].
        destruct (handle_conflict (h_deepen h) a2 d2 l rr) as [[a3 d3] hr]. cbn [fst snd]. destruct hr as [rk|e|]; [|apply lle_refl..]. cbv zeta.
        match goal with |- context [k_after_conflict ?q1 ?q2 ?q3 ?q4 ?q5 ?q6 ?q7] => destruct (k_after_conflict q1 q2 q3 q4 q5 q6 q7) as [[a4 d4] [e|]] eqn:E4 end;
          apply lle_k_after in E4; [exact E4|].
        match goal with |- context [k_search ?q1 ?q2 ?q3 ?q4 ?q5 ?q6] => destruct (k_search q1 q2 q3 q4 q5 q6) as [[a5 d5] r5] eqn:E5 end.
        apply lle_k_search in E5. exact (lle_trans _ _ _ E4 E5). }
      destruct (handle_conflict_gen (GM := mkModels (Sem a2 d2) True) (h_deepen h) false true a2 d2 l rr P2 X2) as (a3 & d3 & rk & d4 & s & learnt & lv & _ & H & P3 & O3 & B3 & _); [lia|exact HF2|].
      rewrite H in *. cbv zeta in *.
      destruct (gi_keep F _ _ _ _ _ _ _ G2 P3 (oframe_wframe _ _ O3) B3) as [G3 P3'].
      assert (N3 : nv a3 = nv a) by (destruct O3 as (_ & -> & _); auto).
      assert (J3 : J F a3 d3). { unfold J. splits; auto; [|congruence]. eapply qle_quiet; [eapply qle_handle; eauto|auto]. }
      set (n1 := if 1 <? rk then S n else n) in *.
      assert (HF3 : fits (nv a3) (snd (fst (k_after_conflict cf h i (stage_ended sm n1) (fst (next_stage sm n1)) a3 d3)))).
      { rewrite N3. eapply lle_fits; [|exact Hf]. destruct (k_after_conflict cf h i (stage_ended sm n1) (fst (next_stage sm n1)) a3 d3) as [[a4 d5] [e|]]; [apply lle_refl|].
        match goal with |- context [k_search ?q1 ?q2 ?q3 ?q4 ?q5 ?q6] => destruct (k_search q1 q2 q3 q4 q5 q6) as [[a5 d6] r5] eqn:E5 end.
        apply lle_k_search in E5. exact E5. }
      destruct (k_after_conflict_eq F cf h i (stage_ended sm n1) (fst (next_stage sm n1)) a3 d3 (GH _ (or_introl eq_refl)) J3 HF3 ltac:(congruence)) as [ss Ek].
      rewrite Ek in *.
      destruct (after_conflict cf (set_steps h ss) (stage_ended sm n1) (fst (next_stage sm n1)) a3 d3) as [[a5 d5] r5] eqn:E5.
      destruct r5 as [x|].
      * apply (TAIL ss (a5, d5, x)); auto. intros t Ht. fold n1. now rewrite E5.
      * pose proof (after_conflict_spec F cf (set_steps h ss) _ _ a3 d3 a5 d5 None (GH _ (or_introl eq_refl)) J3 HF3 E5) as [S5 N5].
        destruct (IH (if stage_ended sm n1 then snd (next_stage sm n1) else sm) n1 a5 d5 GH' S5) as (hs' & I1 & I2); [rewrite N5, N3; exact Hf|congruence|].
        exists (set_steps h ss :: hs'). split; [constructor; cbn; eauto|].
        cbn [search]. cbn [set_steps h_skip h_deepen]. rewrite Ew, Ed, Ep.
        destruct (Nat.eqb_spec (dlevel a2) 0); [contradiction|]. rewrite H. cbv zeta. fold n1.
        fold (set_steps h ss). rewrite E5. exact I2.
Qed.

Definition same_prep (p p' : prep) : Prop := exists ss, p' = set_psteps p ss.

Lemma k_solve_eq : forall {OP : Prop} F cf p i hs a d, cf_elim cf = true -> (forall x, In x hs -> good_heur (fst x)) ->
  @PInv (mkModels (Sem a d) OP) true true a d none -> GI F a d -> Quiet d -> lims a = [] -> (forall v, eli a v = false) -> sav a = [] ->
  (Z.of_nat (nv a) < 2 ^ 31)%Z -> fits (nv a) (snd (fst (k_solve cf p i hs a d))) -> cf_nv cf = nv a ->
  exists p' hs', same_prep p p' /\ same_choices hs hs' /\ k_solve cf p i hs a d = solve cf p' hs' a d.
Proof.
  intros OP F cf p i hs a d Hc GH P G Q Hl He Hs Hn Hf Hv.
  assert (EARLY : forall ss x, k_solve cf p i hs a d = x -> (forall t, same_choices hs t -> solve cf (set_psteps p ss) t a d = x) ->
    exists p' hs', same_prep p p' /\ same_choices hs hs' /\ k_solve cf p i hs a d = solve cf p' hs' a d).
  { intros ss x H2 H1. exists (set_psteps p ss), (map (fun x => set_steps (fst x) []) hs). splits; [exists ss; auto|apply same_refl|].
    rewrite H2. symmetry. apply H1. apply same_refl. }
  unfold k_solve, solve in *. cbn [set_psteps p_targets p_steps p_pha p_stm] in *. rewrite Hc in *. cbn [negb andb] in *.
  destruct (check_size cf d) eqn:Ck1; [|eapply (EARLY []); [reflexivity|intros; reflexivity]]. cbn [negb] in *.
  destruct (vivify (p_targets p) a d) as [[a1 d1] r1] eqn:E1.
  pose proof (@vivify_spec (mkModels (Sem a d) OP) _ _ _ _ P Hl _ _ _ E1) as S1.
  pose proof (sav_vivify _ _ _ _ _ _ Hl E1) as V1.
  assert (Q1 : Quiet d1) by (eapply qle_quiet; [eapply qle_vivify; eauto|auto]).
  destruct r1 as [e|]; [destruct e; (eapply (EARLY []); [reflexivity|intros; reflexivity])|].
  destruct S1 as (S1 & S2 & S3 & S4 & S5). destruct (gi_keep F _ _ _ _ _ _ _ G S1 S4 S5) as [G1 P1]. clear S1 S5.
  destruct S4 as (W1 & W2 & _).
  destruct (propagate_sandbox a1 d1) as [[a2 d2] r2] eqn:E2.
  destruct (propagate_sandbox_spec true false a1 d1 P1 a2 d2 r2 E2) as (F1 & F2 & X2).
  pose proof (ss_sandbox _ _ _ _ _ E2) as V2.
  assert (Q2 : Quiet d2) by (eapply qle_quiet; [eapply qle_sandbox; eauto|auto]).
  pose proof F1 as (A1 & A2 & A3 & _).
  destruct r2 as [|l rr|]; [| |contradiction].
  2:{ eapply (EARLY []); [reflexivity|intros; reflexivity]. }
  destruct X2 as [X1 X2]. cbn [root_error] in *.
  destruct (gi_keep F _ _ _ _ _ _ _ G1 X1 (oframe_wframe _ _ (aframe_oframe _ _ F1))) as [G2 P2].
  { apply back_frame; auto. }
  destruct (check_size cf d2) eqn:Ck2; [|eapply (EARLY []); [reflexivity|intros; reflexivity]]. cbn [negb] in *. assert (N2 : nv a2 = nv a) by congruence.
  destruct (_ || _) eqn:Eo; [eapply (EARLY []); [reflexivity|intros; reflexivity]|].
  pose proof (prepare_proj (kin_lim cf i) a2 d2 occ_new (kin_queues cf i)) as Pj.
  pose proof (bwd_prepare (kin_lim cf i) a2 d2 occ_new (kin_queues cf i)) as Bp.
  assert (Qn : QW (nv a2) (kin_queues cf i)) by (unfold kin_queues; rewrite Hv, <- N2; apply queues_new_qw).
  pose proof (qw_prepare (kin_lim cf i) (nv a2) a2 d2 occ_new _ eq_refl Qn) as Qp.
  assert (Qr : forall c, rng (nv a2) (lits (cl d2 c))) by (intros c l Hx; apply (pi_vars _ _ _ _ _ (proj1 P2) c l Hx)).
  specialize (Qp Qr).
  destruct (q_prepare (kin_lim cf i) a2 d2 occ_new (kin_queues cf i)) as [[d3 o3] q3]. cbn [fst snd] in *.
  change (k_evo (kin_lim cf i)) with (cf_evo cf) in Pj. rewrite <- Pj in *.
  destruct (prepare_spec (cf_evo cf) a2 d2 occ_new d3 o3 (pi_db _ _ _ _ _ (proj1 P2)) Q2 (eq_sym Pj)) as (B1 & B2 & B3 & B4).
  apply full_weaken in P2. destruct (flag_keep F _ _ _ _ _ _ G2 P2 B1 B2) as [G3 P3].
  assert (L2 : lims a2 = []) by congruence.
  pose proof (assert_pure_q (kin_lim cf i) (nv a2) o3 (seq 1 (nv a2)) a2 d3 q3 Qp) as AP.
  destruct (k_assert_pure (kin_lim cf i) (seq 1 (nv a2)) a2 d3 o3 q3) as [[[a4 d4] q4] ok] eqn:Ea.
  destruct AP as (E4 & Q4 & B4'); [intros v Hx; apply in_seq in Hx; lia|]. rewrite E4 in *.
  assert (RG : forall v, In v (seq 1 (nv a2)) -> 1 <= v <= nv a2 /\ eli a2 v = false).
  { intros v Hx. apply in_seq in Hx. split; [lia|]. rewrite A2, W1. apply He. }
  destruct (assert_pure_spec o3 _ _ _ _ _ _ P3 L2 B3 RG E4) as (-> & Pu & P4 & O4).
  pose proof (ss_pure _ _ _ _ _ _ _ L2 E4) as V4.
  pose proof (pure_keep F _ _ _ _ G3 Pu) as G4. destruct Pu as ((Y1 & Y2 & _) & _).
  assert (L4 : lims a4 = []) by congruence. assert (N4 : nv a4 = nv a) by congruence.
  assert (HF4 : fits (nv a4) (snd (fst (fst (q_simplify (kin_lim cf i) (i_clock i) (a4, d4, o3) q4))))).
  { rewrite N4. eapply lle_fits; [|exact Hf]. destruct (q_simplify _ _ _ q4) as [[[a5 d5] o5] [e|]]; cbn [fst snd].
    - unfold elim_failed. destruct e; try destruct (check_size cf d5); apply lle_refl.
    - destruct (check_size cf d5); cbn [negb]; [|apply lle_refl]. rewrite finish_cdb.
      match goal with |- context [k_search ?q1 ?q2 ?q3 ?q4 ?q5 ?q6] => destruct (k_search q1 q2 q3 q4 q5 q6) as [[a8 d8] r8] eqn:E8 end.
      eapply lle_k_search; eauto. }
  assert (KQ : exists ss, q_simplify (kin_lim cf i) (i_clock i) (a4, d4, o3) q4 = elim_simplify (cf_evo cf) ss (a4, d4, o3)).
  { apply (@simplify_q (mkModels (Sem a4 d4) OP) (kin_lim cf i) (nv a4)); cbn [fst].
    - unfold KI. splits; auto. eapply lle_fits; [|exact HF4]. destruct (q_simplify _ _ _ q4) as [[[a5 d5] o5] r5] eqn:E5. eapply lle_q_simplify; eauto.
    - exact HF4.
    - rewrite N4, <- N2. exact Q4.
    - rewrite B4', Bp. cbn. lia. }
  destruct KQ as [ss KQ]. rewrite KQ in *. clear KQ.
  unfold simplify_running in *. rewrite Hc in *.
  destruct (elim_simplify (cf_evo cf) ss (a4, d4, o3)) as [[[a5 d5] o5] r5] eqn:E5.
  pose proof (elim_simplify_spec (mkModels (Sem a4 d4) OP) _ _ _ _ _ _ _ _ _ P4 L4 HF4 O4 E5) as S5.
  pose proof (ss_elim_simplify _ _ _ _ _ _ _ _ _ L4 E5) as V5.
  pose proof (elim_keep F a4 d4 o3 a5 d5 o5 r5 G4 P4 L4) as K. rewrite B4 in K. specialize (K eq_refl).
  destruct r5 as [e|].
  { apply (EARLY ss (a5, d5, elim_failed cf d5 e)); auto. intros t Ht. now rewrite E5. }
  destruct S5 as (S5 & S6 & S7 & S8). destruct K as (K1 & K2 & K3 & K4); auto; try discriminate.
  destruct (check_size cf d5) eqn:Ck3.
  2:{ apply (EARLY ss (a5, d5, Err XMemory)); auto. intros t Ht. now rewrite E5, Ck3. }
  cbn [negb] in *. cbv zeta in *.
  set (b := set_estk a5 (estk a5 ++ olits o5)) in *.
  destruct (phases_keep F _ _ _ _ _ (p_pha p) K1 K2) as [G6 P6].
  destruct (rebuild_keep F _ _ _ _ _ G6 P6) as [G7 P7].
  change (set_estk (asg_rebuild_order (set_phases a5 (p_pha p))) (estk (asg_rebuild_order (set_phases a5 (p_pha p))) ++ olits o5))
    with (asg_rebuild_order (set_phases b (p_pha p))) in *.
  set (c := asg_rebuild_order (set_phases b (p_pha p))) in *.
  assert (Sc : sav c = []).
  { change (sav a5 = []). destruct V2 as [V2 _], V4 as [V4 _], V5 as [V5 _]. congruence. }
  assert (Nc : nv c = nv a) by (change (nv a5 = nv a); change (nv a5 = nv a4) in K4; congruence).
  assert (Jc : J F c d5).
  { unfold J. splits; auto; [|congruence]. destruct P7 as [[C D V L K Rs Qh W S Kl Sm] Ca]. split; auto. constructor; auto.
    - intros x w Ef. apply W. revert Ef. apply rz_sub; auto. intros _ l HlS. rewrite Sc in HlS. elim HlS.
    - intros _ pre x post X. rewrite Sc in X. destruct pre; discriminate. }
  assert (HF5 : fits (nv c) (snd (fst (k_search cf hs (stage_initialize (p_stm p) 32) 0 c d5)))).
  { rewrite Nc. rewrite finish_cdb in Hf. exact Hf. }
  destruct (k_search_eq F cf hs (stage_initialize (p_stm p) 32) 0 c d5 GH Jc HF5 ltac:(congruence)) as (hs' & H1 & H2).
  exists (set_psteps p ss), hs'. splits; [exists ss; auto|exact H1|].
  cbn [set_psteps p_targets p_steps p_pha p_stm]. rewrite E1, E2. cbn [root_error]. rewrite Ck2, Eo, <- Pj, E4, E5, Ck3. cbn [negb]. cbv zeta.
  rewrite H2. reflexivity.
Qed.

Lemma lle_k_solve : forall cf p i hs a d, lle d (snd (fst (k_solve cf p i hs a d))).
Proof.
  intros cf p i hs a d. unfold k_solve. destruct (negb (check_size cf d)); [apply lle_refl|].
  destruct (vivify (p_targets p) a d) as [[a1 d1] r1] eqn:E1. apply lle_vivify in E1.
  destruct r1 as [e|]; [destruct e; exact E1|].
  destruct (propagate_sandbox a1 d1) as [[a2 d2] r2] eqn:E2. apply lle_sandbox in E2. apply (lle_trans _ _ _ E1) in E2.
  destruct (root_error r2); [exact E2|]. destruct (negb (check_size cf d2)); [exact E2|]. destruct (_ || _); [exact E2|].
  assert (P : exists d3 o3 q3, (if cf_elim cf then q_prepare (kin_lim cf i) a2 d2 occ_new (kin_queues cf i) else (d2, occ_new, kin_queues cf i)) = (d3, o3, q3) /\ lle d d3).
  { destruct (cf_elim cf); [|eauto]. destruct (q_prepare _ _ _ _ _) as [[d3 o3] q3] eqn:P. apply q_prepare_cert in P.
    exists d3, o3, q3. split; auto. eapply lle_trans; [exact E2|]. now apply lle_same. }
  destruct P as (d3 & o3 & q3 & -> & E3).
  destruct (k_assert_pure _ (seq 1 (nv a2)) a2 d3 o3 q3) as [[[a4 d4] q4] ok] eqn:E4. apply lle_k_pure in E4. apply (lle_trans _ _ _ E3) in E4.
  destruct ok; [|exact E4].
  match goal with |- context [if cf_elim cf then ?x else ?y] => destruct (if cf_elim cf then x else y) as [[[a5 d5] o5] r5] eqn:E5 end.
  assert (E6 : lle d d5).
  { destruct (cf_elim cf); [apply lle_q_simplify in E5; eapply lle_trans; eauto|].
    destruct (propagate_sandbox a4 d4) as [[a6 d6] r6] eqn:E6. apply lle_sandbox in E6. injection E5 as <- <- <- <-. eapply lle_trans; eauto. }
  destruct r5; [exact E6|]. destruct (negb (check_size cf d5)); [exact E6|]. cbv zeta. apply lle_finish.
  destruct (k_search _ _ _ _ _ _) as [[a7 d7] r7] eqn:E7. apply lle_k_search in E7. eapply lle_trans; eauto.
Qed.
