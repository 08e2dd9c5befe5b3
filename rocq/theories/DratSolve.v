(** The proof log of the search and of [solve]. *)
From Coq Require Import List Arith Bool Lia ZArith Permutation.
From Verif Require Import Base HeapModel EmaModel AsgModel LitFacts AsgProofs C15_Trail CdbModel CdbProofs CdbOps PropModel SatSpec PropProofs PropLoop PropOps PropDb RootProofs RupSpec DratSpec DratRun DratOps DratRoot DratSearch ConflictModel ConflictProofs LogProofs HandleProofs PropMisc ElimModel ElimFacts ElimExt ElimProofs ElimVar ElimRun ElimTotal C12_Prop VivifyModel VivifyProofs QuietProofs LitModel BuildModel SolveModel C24_Simplify LitProofs SavProofs SolveProofs DratElim DratViv BuildProofs C04_Build DratLoad DratPure.
Import ListNotations.
Open Scope nat_scope.
Local Opaque Nat.pow.

(** the log is refuted when the answer will be UNSAT; a run that reads the tables of the
    eliminator past their end reached a state in which [prepare] does so *)
Definition refutes (cf : config) (n : nat) (a : asg) (d d' : cdb) (r : sres) : Prop :=
  match r with
  | SErr (XSolver EmptyClause) | SErr (XSolver RootLevelConflict) => Fail false a d d'
  | SOob => exists b e, Run false a d b e /\ nv b = n /\ prepare_oob cf b e = true
  | _ => True
  end.
Lemma refutes_err : forall cf n a d d' e, Fail false a d d' -> refutes cf n a d d' (SErr (XSolver e)).
Proof. intros cf n a d d' e H. destruct e; cbn; auto. Qed.
Lemma refutes_run : forall cf n a d a1 d1 d' r, Run false a d a1 d1 -> refutes cf n a1 d1 d' r -> refutes cf n a d d' r.
Proof. intros cf n a d a1 d1 d' r H1 H2. destruct r as [|[e| |]| | |]; cbn in *; auto; [destruct e; auto; eapply Run_fail; eauto|]. destruct H2 as (b & e & H2 & H3). exists b, e. split; auto. eapply Run_trans; eauto. Qed.

Lemma Run_restart : forall (G : Models) b full sv a d, @PInv G full sv a d none -> Run b a d (cancel_until a 0) d.
Proof.
  intros G b full sv a d P. apply Run_asg. intros l. destruct (Nat.eqb_spec (dlevel a) 0) as [E|E].
  - rewrite cancel_noop by (unfold dlevel in E; lia). tauto.
  - apply (root_cancel full sv a d 0); [|lia]. eapply inv_weaken; [exact P|]. intros c w [].
Qed.
Lemma Run_stage : forall b a d, Run b a d (asg_stage a) d.
Proof. intros b a d. apply Run_asg. destruct (clear_saved_core a) as (H1 & H2 & _). now apply root_core. Qed.
Lemma Run_val : forall b a d a', val a' = val a -> lev a' = lev a -> Run b a d a' d.
Proof. intros b a d a' H1 H2. apply Run_asg. now apply root_core. Qed.

Lemma inprocess_run : forall {OP : Prop} F cf ss a d a' d' r, GI F a d -> @PInv (mkModels (Sem a d) OP) false false a d none -> lims a = [] ->
  fits (nv a) d' -> Quiet d -> inprocess cf ss a d = (a', d', r) ->
  match r with None => Run false a d a' d' | Some x => refutes cf (nv a) a d d' x end.
Proof.
  intros OP F cf ss a d a' d' r G P Hl Hn Q E. unfold inprocess in E. destruct (cf_elim cf).
  - destruct (prepare_oob cf a d) eqn:Eo; [injection E as <- <- <-; exists a, d; splits; auto; apply Run_refl|].
    destruct (elim_prepare_simplify (cf_evo cf) ss (a, d, occ_new)) as [[[a1 d1] o1] r1] eqn:E1.
    assert (Hn1 : fits (nv a) d1).
    { eapply lle_fits; [|exact Hn]. destruct (simplify_outcome cf d1 r1); injection E as <- <- <-; apply lle_refl. }
    pose proof (@elim_prepare_simplify_run (mkModels (Sem a d) OP) _ _ _ _ _ _ _ _ _ P Hl Hn1 Q E1) as S.
    destruct r1 as [e|].
    + destruct e; cbn [simplify_outcome] in E; injection E as <- <- <-; cbn; auto.
    + cbn [simplify_outcome] in E. destruct (check_size cf d1); injection E as <- <- <-; [|exact I].
      eapply Run_trans; [exact S|]. now apply Run_val.
  - destruct (propagate_sandbox a d) as [[a1 d1] pr] eqn:Ep.
    destruct (sandbox_run false _ _ _ _ P _ _ _ Ep) as [S1 S2].
    destruct pr as [|l rr|]; cbn [root_error simplify_outcome] in E.
    + destruct (check_size cf d1); injection E as <- <- <-; [|exact I]. auto.
    + injection E as <- <- <-. cbn. eapply S2; eauto.
    + injection E as <- <- <-. exact I.
Qed.

Lemma after_conflict_run : forall F cf h en nx a d a' d' r, good_heur h -> J F a d -> fits (nv a) d' -> after_conflict cf h en nx a d = (a', d', r) ->
  match r with None => Run false a d a' d' | Some x => refutes cf (nv a) a d d' x end.
Proof.
  intros F cf h en nx a d a' d' r GH (P & G & Q & Hn) Hf E. unfold after_conflict in E.
  pose proof (restart_keep F false true a d G P) as R0. cbv zeta in R0.
  pose proof (Run_restart (mkModels (Sem a d) True) false false true a d P) as U0. set (b := cancel_until a 0) in *.
  destruct R0 as (G0 & P0 & L0 & N0).
  assert (P0' : @PInv (mkModels (Sem b d) True) false true b d none) by (destruct (dlevel a =? 0); auto). clear P0.
  destruct en.
  - destruct (h_time h) as [[|]|]; try (injection E as <- <- <-; exact I).
    destruct (phases_keep F _ _ _ _ _ (h_pha1 h) G0 P0') as [G1 P1].
    assert (N1 : nv (set_phases b (h_pha1 h)) = nv a) by exact N0.
    assert (L1 : lims (set_phases b (h_pha1 h)) = []) by exact L0.
    assert (U1 : Run false a d (set_phases b (h_pha1 h)) d) by (eapply Run_trans; [exact U0|now apply Run_val]).
    set (a1 := set_phases b (h_pha1 h)) in *. clearbody a1. clear b G0 P0' L0 N0 U0.
    destruct (clear_asserted_literals a1 d) as [[a2 d2] r2] eqn:E2.
    pose proof (@clear_asserted_spec (mkModels (Sem a1 d) True) _ _ _ _ P1 L1 _ _ _ E2) as S2.
    pose proof (@clear_asserted_run (mkModels (Sem a1 d) True) _ _ _ _ P1 L1 _ _ _ E2) as V2.
    assert (Q2 : Quiet d2) by (eapply qle_quiet; [eapply qle_clear; eauto|auto]).
    destruct r2 as [e|].
    { injection E as <- <- <-. apply refutes_err. eapply Run_fail; [exact U1|eapply Fail_weaken; eauto]. }
    destruct S2 as (S1 & S2 & S3 & S4 & S5 & S6).
    destruct (gi_keep F _ _ _ _ _ _ _ G1 S1 (rframe_wframe _ _ S2) S3) as [G2 P2].
    assert (L2 : lims a2 = []) by (destruct S2 as (-> & _); auto).
    assert (N2 : nv a2 = nv a) by (destruct S2 as (_ & _ & -> & _); auto).
    assert (U2 : Run false a d a2 d2) by (eapply Run_trans; [exact U1|eapply Run_weaken; eauto]).
    clear S1 S2 S3 S4 S5 S6 U1 V2.
    set (d3 := reduce (lev a2) (h_cand h) (h_order h) (h_keep h) d2) in *.
    assert (Q3 : Quiet d3) by (eapply qle_quiet; [apply qle_reduce|auto]).
    assert (U3 : Run false a d a2 d3).
    { eapply Run_trans; [exact U2|]. apply reduce_run; [apply P2| |].
      - intros l Hl. eapply Permutation_NoDup; [apply GH|auto].
      - intros l x Hx. eapply Permutation_in; [symmetry; apply GH|auto]. }
    destruct (@reduce_inv (mkModels (Sem a2 d2) True) (lev a2) (h_cand h) (h_order h) (h_keep h) _ _ _ _ _ P2 L2 GH) as [R1 R2].
    fold d3 in R1, R2. clearbody d3.
    destruct (gi_keep F _ _ _ _ _ _ _ G2 R1 (wframe_refl _) R2) as [G3 P3]. clear R1 R2.
    destruct nx as [seg|].
    + destruct (phases_keep F _ _ _ _ _ (h_pha2 h) G3 P3) as [G4 P4].
      destruct (vivify (h_targets h) (set_phases a2 (h_pha2 h)) d3) as [[a5 d5] r5] eqn:E5.
      assert (L4 : lims (set_phases a2 (h_pha2 h)) = []) by exact L2.
      pose proof (@vivify_spec (mkModels (Sem (set_phases a2 (h_pha2 h)) d3) True) _ _ _ _ P4 L4 _ _ _ E5) as S.
      pose proof (@vivify_run (mkModels (Sem (set_phases a2 (h_pha2 h)) d3) True) _ _ _ _ P4 L4 _ _ _ E5) as V5.
      assert (Q5 : Quiet d5) by (eapply qle_quiet; [eapply qle_vivify; eauto|auto]).
      assert (U4 : Run false a d (set_phases a2 (h_pha2 h)) d3) by (eapply Run_trans; [exact U3|now apply Run_val]).
      destruct r5 as [e|].
      { injection E as <- <- <-. apply refutes_err. eapply Run_fail; [exact U4|eapply Fail_weaken; eauto]. }
      destruct S as (S1 & S2 & S3 & S4 & S5).
      destruct (gi_keep F _ _ _ _ _ _ _ G4 S1 S4 S5) as [G5 P5].
      assert (N5 : nv a5 = nv a) by (destruct S4 as (_ & -> & _); exact N2).
      assert (U5 : Run false a d a5 d5) by (eapply Run_trans; [exact U4|eapply Run_weaken; eauto]).
      apply full_weaken in P5. destruct seg.
      * destruct (inprocess cf (h_steps h) a5 d5) as [[a6 d6] r6] eqn:E6.
        assert (Hf6 : fits (nv a5) d6).
        { rewrite N5. destruct r6; injection E as <- <- <-; exact Hf. }
        pose proof (inprocess_run F cf _ a5 d5 a6 d6 r6 G5 P5 S2 Hf6 Q5 E6) as S6.
        destruct r6 as [x|]; injection E as <- <- <-; [rewrite N5 in S6; eapply refutes_run; eauto|].
        eapply Run_trans; [exact U5|]. eapply Run_trans; [exact S6|]. apply Run_stage.
      * injection E as <- <- <-. eapply Run_trans; [exact U5|]. apply Run_stage.
    + injection E as <- <- <-. eapply Run_trans; [exact U3|]. apply Run_stage.
  - destruct (h_restart h); injection E as <- <- <-; [exact U0|apply Run_refl].
Qed.

Lemma search_run : forall F cf hs sm n a d a' d' r, (forall h, In h hs -> good_heur h) -> J F a d -> fits (nv a) d' -> search cf hs sm n a d = (a', d', r) ->
  refutes cf (nv a) a d d' r.
Proof.
  intros F cf hs. induction hs as [|h hs IH]; intros sm n a d a' d' r GH Jd Hf E; cbn [search] in E.
  - destruct ((0 <? unassigned_left a) || remains a) eqn:Ew; injection E as <- <- <-; exact I.
  - destruct ((0 <? unassigned_left a) || remains a) eqn:Ew; [|injection E as <- <- <-; exact I].
    pose proof Jd as (P & G & Q & Hn).
    assert (D : exists a1, (if remains a then Some a
             else match select_decision_literal (branch_fuel a) a with
                  | Some (b, l) => Some (assign_by_decision b l)
                  | None => None
                  end) = Some a1 /\ @PInv (mkModels (Sem a d) True) false true a1 d none /\ oframe a a1 /\ Run false a d a1 d).
    { destruct (remains a) eqn:Er; [exists a; splits; auto; [apply oframe_refl|apply Run_refl]|].
      rewrite orb_false_r in Ew. apply Nat.ltb_lt in Ew.
      destruct (some_unassigned a (pi_coh _ _ _ _ _ (proj1 P)) (gi_nel _ _ _ G) Ew) as (v & Hv).
      destruct (@branch_inv (mkModels (Sem a d) True) false true a d Logic.I P (remains_false a (pi_coh _ _ _ _ _ (proj1 P)) Er) (ex_intro _ v Hv)) as (b & l & Es & Sc & As & Pb).
      exists (assign_by_decision b l). rewrite Es.
      assert (Vb : val b (vi l) = None). { destruct As as (_ & As & _). destruct Sc as (-> & _). auto. }
      splits; auto.
      - apply oframe_trans with b; [now apply oframe_core|].
        pose proof (decide_frame b l Vb) as DF. cbv zeta in DF.
        destruct DF as (D1 & D2 & D3 & D4 & D5 & D6 & D7 & D8 & D9 & D10 & D11). unfold oframe. splits; auto.
        intros x y Hx Hz. assert (Nx : vi x <> vi l). { intros Z. rewrite <- Z in Vb. apply litval_none_iff in Vb. congruence. }
        apply Nat.eqb_neq in Nx. unfold litval in *. rewrite D4, D5, Nx. auto.
      - eapply Run_trans; [destruct Sc as (H1 & H2 & _); apply (Run_val false a d b); auto|]. apply Run_asg. now apply root_decide. }
    destruct D as (a1 & Ed & P1 & O1 & U1). rewrite Ed in E.
    destruct (propagate (h_skip h) a1 d) as [[a2 d2] pr] eqn:Ep.
    destruct (propagate_spec false (h_skip h) a1 d P1 a2 d2 pr Ep) as (F1 & F2 & X).
    destruct (propagate_run false false (h_skip h) a1 d P1 a2 d2 pr Ep) as [V2 V3].
    assert (U2 : Run false a d a2 d2) by (eapply Run_trans; eauto).
    assert (O2 : oframe a a2) by (eapply oframe_trans; [exact O1|now apply aframe_oframe]).
    assert (Q2 : Quiet d2) by (eapply qle_quiet; [eapply qle_propagate; eauto|auto]).
    assert (B2 : back a d a2 d2).
    { apply oframe_back; auto. intros c Hc K. split; [apply (dframe_keep d d2); auto|apply F2]. }
    assert (N2 : nv a2 = nv a) by (destruct O2 as (_ & -> & _); auto).
    destruct pr as [|l rr|]; [| |contradiction].
    + destruct X as [X1 X2]. destruct (gi_keep F _ _ _ _ _ _ _ G X1 (oframe_wframe _ _ O2) B2) as [G2 P2].
      eapply refutes_run; [exact U2|]. rewrite <- N2. apply (IH sm n a2 d2 a' d' r); auto.
      * intros x Hx. apply GH. right; auto.
      * unfold J. splits; auto; congruence.
      * now rewrite N2.
    + destruct X as [X1 X2]. destruct (gi_keep F _ _ _ _ _ _ _ G X1 (oframe_wframe _ _ O2) B2) as [G2 P2].
      destruct (Nat.eqb_spec (dlevel a2) 0) as [Ez|Ez].
      { injection E as <- <- <-. cbn. eapply Run_fail; [exact U1|]. eapply V3; eauto. }
      assert (HF : fits (nv a2) (snd (fst (handle_conflict (h_deepen h) a2 d2 l rr)))).
      { rewrite N2. eapply lle_fits; [|exact Hf]. destruct (handle_conflict (h_deepen h) a2 d2 l rr) as [[a3 d3] hr]. cbn [fst snd].
        destruct hr as [rk| |]; try (injection E as <- <- <-; apply lle_refl). cbv zeta in E.
        destruct (after_conflict _ _ _ _ a3 d3) as [[a5 d5] r5] eqn:E5. apply lle_after in E5.
        destruct r5; [injection E as <- <- <-; exact E5|]. exact (lle_trans _ _ _ E5 (lle_search _ _ _ _ _ _ _ _ _ E)). }
      destruct (handle_conflict_gen (GM := mkModels (Sem a2 d2) True) (h_deepen h) false true a2 d2 l rr P2 X2) as (a3 & d3 & rk & d4 & s & learnt & lv & _ & H & P3 & O3 & B3 & _); [lia|exact HF|].
      pose proof (@handle_run (mkModels (Sem a2 d2) True) false (h_deepen h) false true a2 d2 l rr P2 X2 ltac:(lia) a3 d3 rk H) as V4.
      rewrite H in E. cbv zeta in E.
      destruct (gi_keep F _ _ _ _ _ _ _ G2 P3 (oframe_wframe _ _ O3) B3) as [G3 P3'].
      assert (N3 : nv a3 = nv a) by (destruct O3 as (_ & -> & _); auto).
      assert (J3 : J F a3 d3). { unfold J. splits; auto; [|congruence]. eapply qle_quiet; [eapply qle_handle; eauto|auto]. }
      assert (U3 : Run false a d a3 d3) by (eapply Run_trans; eauto).
      destruct (after_conflict _ _ _ _ a3 d3) as [[a5 d5] r5] eqn:E5.
      assert (Hf5 : fits (nv a3) d5).
      { rewrite N3. eapply lle_fits; [|exact Hf]. destruct r5; [injection E as <- <- <-; apply lle_refl|]. eapply lle_search; eauto. }
      pose proof (after_conflict_spec F cf h _ _ a3 d3 a5 d5 r5 (GH h (or_introl eq_refl)) J3 Hf5 E5) as S5.
      pose proof (after_conflict_run F cf h _ _ a3 d3 a5 d5 r5 (GH h (or_introl eq_refl)) J3 Hf5 E5) as V5.
      destruct r5 as [x|].
      * injection E as <- <- <-. rewrite N3 in V5. eapply refutes_run; eauto.
      * destruct S5 as [S5 N5]. eapply refutes_run; [eapply Run_trans; [exact U3|exact V5]|]. rewrite <- N3, <- N5.
        eapply (IH _ _ a5 d5 a' d' r); eauto; [intros x Hx; apply GH; right; auto|]. now rewrite N5, N3.
Qed.

Lemma finish_cert : forall a d r a' d', finish (a, d, r) = (a', d', UNSAT) -> d' = d /\
  (r = SErr (XSolver EmptyClause) \/ r = SErr (XSolver RootLevelConflict)).
Proof.
  intros a d r a' d' E. destruct r as [|e| | |]; cbn [finish] in E; try discriminate.
  - destruct (validate _ _ _); [discriminate|]. destruct (answer_vals _ _); discriminate.
  - destruct e as [e| |]; try discriminate. destruct e; try discriminate; injection E as <- <-; auto.
Qed.

Lemma fail_refutation : forall F a d d' b, PF F (root a) (live d) (cert d) -> Fail b a d d' -> drat_refutation F (cert d') /\ forall e, In e (cert d') -> readable e.
Proof.
  intros F a d d' b P (R & L & H1 & H2). apply (pf_refuted F R L); auto. eapply pf_run; eauto.
Qed.
Lemma Run_pf : forall F a d a' d' b, PF F (root a) (live d) (cert d) -> Run b a d a' d' -> PF F (root a') (live d') (cert d').
Proof. intros F a d a' d' b P H. eapply pf_run; eauto. Qed.

Lemma solve_run : forall {OP : Prop} F N cf p hs a d a' d', cf_elim cf = true -> (forall h, In h hs -> good_heur h) ->
  @PInv (mkModels (Sem a d) OP) true true a d none -> GI F a d -> Quiet d -> lims a = [] -> (forall v, eli a v = false) -> sav a = [] ->
  (Z.of_nat (nv a) < 2 ^ 31)%Z -> fits (nv a) d' -> PF N (root a) (live d) (cert d) -> Hist N (root a) (live d) (cert d) ->
  solve cf p hs a d = (a', d', UNSAT) -> drat_refutation N (cert d') /\ forall e, In e (cert d') -> readable e.
Proof.
  intros OP F N cf p hs a d a' d' Hc GH P G Q Hl He Hs Hn Hf PF0 H0. unfold solve. rewrite Hc. cbn [negb andb].
  destruct (check_size cf d); [|discriminate]. cbn [negb].
  destruct (vivify (p_targets p) a d) as [[a1 d1] r1] eqn:E1.
  pose proof (@vivify_spec (mkModels (Sem a d) OP) _ _ _ _ P Hl _ _ _ E1) as S1.
  pose proof (@vivify_run (mkModels (Sem a d) OP) _ _ _ _ P Hl _ _ _ E1) as U1.
  pose proof (sav_vivify _ _ _ _ _ _ Hl E1) as V1.
  assert (Q1 : Quiet d1) by (eapply qle_quiet; [eapply qle_vivify; eauto|auto]).
  destruct r1 as [e|].
  { intros E. assert (X : d' = d1) by (destruct e; try discriminate; now injection E as <- <-). rewrite X. eapply fail_refutation; eauto. }
  pose proof (Run_pf _ _ _ _ _ _ PF0 U1) as PF1. pose proof (hist_run N _ _ _ _ _ _ U1 H0) as H1.
  destruct S1 as (S1 & S2 & S3 & S4 & S5). destruct (gi_keep F _ _ _ _ _ _ _ G S1 S4 S5) as [G1 P1]. clear S1 S5.
  destruct S4 as (W1 & W2 & _).
  destruct (propagate_sandbox a1 d1) as [[a2 d2] r2] eqn:E2.
  destruct (propagate_sandbox_spec true false a1 d1 P1 a2 d2 r2 E2) as (F1 & F2 & X2).
  destruct (sandbox_run true true false a1 d1 P1 a2 d2 r2 E2) as [U2 U2'].
  pose proof (ss_sandbox _ _ _ _ _ E2) as V2.
  assert (Q2 : Quiet d2) by (eapply qle_quiet; [eapply qle_sandbox; eauto|auto]).
  pose proof F1 as (A1 & A2 & A3 & _).
  destruct r2 as [|l rr|]; [| |contradiction].
  2:{ cbn [root_error]. intros E. assert (X : d' = d2) by (destruct (elim_failed cf d2 RootLevelConflict); try discriminate; now injection E as <- <-).
      rewrite X. eapply fail_refutation; [exact PF1|]. eapply U2'; eauto. }
  destruct X2 as [X1 X2]. cbn [root_error].
  pose proof (Run_pf _ _ _ _ _ _ PF1 U2) as PF2. pose proof (hist_run N _ _ _ _ _ _ U2 H1) as H2.
  pose proof (settled_of _ _ _ _ (proj1 X1) X2) as St2.
  destruct (gi_keep F _ _ _ _ _ _ _ G1 X1 (oframe_wframe _ _ (aframe_oframe _ _ F1))) as [G2 P2].
  { apply back_frame; auto. }
  destruct (check_size cf d2); [|discriminate]. cbn [negb]. assert (N2 : nv a2 = nv a) by congruence.
  destruct (_ || _) eqn:Eo; [discriminate|].
  destruct (prepare (cf_evo cf) a2 d2 occ_new) as [d3 o3] eqn:E3.
  pose proof (prepare_cert _ _ _ _ _ _ E3) as Ce.
  destruct (prepare_spec (cf_evo cf) a2 d2 occ_new d3 o3 (pi_db _ _ _ _ _ (proj1 P2)) Q2 E3) as (B1 & B2 & B3 & B4).
  assert (PH3 : PH N a2 d3).
  { assert (LE : live d3 = live d2) by (apply live_eq; [apply B1|intros c; now apply flagonly_content]).
    unfold PH. rewrite LE, Ce. splits; auto. intros c Hc2. change (lits (cl d3 c)) with (content d3 c) in *.
    assert (Y : forall x, content d3 x = content d2 x) by (intros x; now apply flagonly_content). rewrite Y in *. now apply St2. }
  apply full_weaken in P2. destruct (flag_keep F _ _ _ _ _ _ G2 P2 B1 B2) as [G3 P3].
  assert (L2 : lims a2 = []) by congruence.
  destruct (assert_pure (seq 1 (nv a2)) a2 d3 o3) as [[a4 d4] ok] eqn:E4.
  assert (RG : forall v, In v (seq 1 (nv a2)) -> 1 <= v <= nv a2 /\ eli a2 v = false).
  { intros v Hv. apply in_seq in Hv. split; [lia|]. rewrite A2, W1. apply He. }
  destruct (assert_pure_spec o3 _ _ _ _ _ _ P3 L2 B3 RG E4) as (-> & Pu & P4 & O4).
  destruct (assert_pure_run N o3 _ _ _ _ _ _ P3 L2 ltac:(rewrite N2; auto) B3 RG PH3 E4) as (PF4 & _ & _).
  pose proof (ss_pure _ _ _ _ _ _ _ L2 E4) as V4.
  pose proof (pure_keep F _ _ _ _ G3 Pu) as G4. destruct Pu as ((Y1 & Y2 & _) & _).
  unfold simplify_running. rewrite Hc.
  destruct (elim_simplify (cf_evo cf) (p_steps p) (a4, d4, o3)) as [[[a5 d5] o5] r5] eqn:E5.
  assert (L4 : lims a4 = []) by congruence. assert (N4 : nv a4 = nv a) by congruence.
  intros ES. assert (Hn4 : fits (nv a4) d5).
  { rewrite N4. eapply lle_fits; [|exact Hf]. change d' with (snd (fst (a', d', UNSAT))). rewrite <- ES. destruct r5 as [e|].
    - unfold elim_failed. destruct e; try destruct (check_size cf d5); apply lle_refl.
    - destruct (check_size cf d5); cbn [negb]; [|apply lle_refl]. cbv zeta. destruct (search _ _ _ _ _ d5) as [[a8 d8] r8] eqn:E8.
      rewrite finish_cdb. eapply lle_search; eauto. }
  revert ES.
  pose proof (elim_simplify_spec (mkModels (Sem a4 d4) OP) _ _ _ _ _ _ _ _ _ P4 L4 Hn4 O4 E5) as S5.
  pose proof (@elim_simplify_run (mkModels (Sem a4 d4) OP) _ _ _ _ _ _ _ _ _ P4 L4 Hn4 O4 E5) as U5.
  pose proof (ss_elim_simplify _ _ _ _ _ _ _ _ _ L4 E5) as V5.
  pose proof (elim_keep F a4 d4 o3 a5 d5 o5 r5 G4 P4 L4) as K. rewrite B4 in K. specialize (K eq_refl).
  destruct r5 as [e|].
  { intros E. assert (X : d' = d5) by (destruct (elim_failed cf d5 e); try discriminate; now injection E as <- <-).
    rewrite X. eapply fail_refutation; eauto. }
  pose proof (Run_pf _ _ _ _ _ _ PF4 U5) as PF5.
  destruct S5 as (S5 & S6 & S7 & S8). destruct K as (K1 & K2 & K3 & K4); auto; try discriminate.
  destruct (check_size cf d5); [|discriminate]. cbn [negb]. cbv zeta.
  set (b := set_estk a5 (estk a5 ++ olits o5)) in *.
  destruct (phases_keep F _ _ _ _ _ (p_pha p) K1 K2) as [G6 P6].
  destruct (rebuild_keep F _ _ _ _ _ G6 P6) as [G7 P7].
  change (set_estk (asg_rebuild_order (set_phases a5 (p_pha p))) (estk (asg_rebuild_order (set_phases a5 (p_pha p))) ++ olits o5))
    with (asg_rebuild_order (set_phases b (p_pha p))).
  set (c := asg_rebuild_order (set_phases b (p_pha p))) in *.
  assert (Sc : sav c = []).
  { change (sav a5 = []). destruct V2 as [V2 _], V4 as [V4 _], V5 as [V5 _]. congruence. }
  assert (Nc : nv c = nv a) by (change (nv a5 = nv a); change (nv a5 = nv a4) in K4; congruence).
  assert (Jc : J F c d5).
  { unfold J. splits; auto; [|congruence]. destruct P7 as [[C D V L K Rs Qh W S Kl Sm] Ca]. split; auto. constructor; auto.
    - intros x w Ef. apply W. revert Ef. apply rz_sub; auto. intros _ l HlS. rewrite Sc in HlS. elim HlS.
    - intros _ pre x post X. rewrite Sc in X. destruct pre; discriminate. }
  destruct (search cf hs _ _ c d5) as [[a8 d8] r8] eqn:E8. intros E.
  apply finish_cert in E as [-> Er].
  assert (Hfc : fits (nv c) d8) by (now rewrite Nc).
  pose proof (search_run F cf hs _ _ c d5 a8 d8 r8 GH Jc Hfc E8) as S.
  assert (PFc : PF N (root c) (live d5) (cert d5)) by exact PF5.
  destruct Er as [-> | ->]; exact (fail_refutation _ _ _ _ _ PFc S).
Qed.
