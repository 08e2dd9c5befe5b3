(** The invariant of the whole search: equisatisfiability with the problem, redundancy of the
    learnt clauses, and the stack of eliminated clauses. *)
From Coq Require Import List Arith Bool Lia ZArith Permutation.
From Verif Require Import Base HeapModel EmaModel AsgModel LitFacts AsgProofs C15_Trail CdbModel CdbProofs CdbOps PropModel SatSpec PropProofs PropLoop PropOps PropDb RootProofs ConflictModel ConflictProofs LogProofs HandleProofs PropMisc ElimModel ElimFacts ElimExt ElimProofs ElimVar ElimRun ElimTotal C12_Prop VivifyModel VivifyProofs QuietProofs LitModel BuildModel LubyModel SolveModel ErrProofs C24_Simplify LitProofs SavProofs.
Import ListNotations.
Open Scope nat_scope.
Local Opaque Nat.pow.

(** [F] is the set of models of the problem *)
Record GI (F : model -> Prop) (a : asg) (d : cdb) : Prop := mkGI {
  gi_fwd : (exists m, F m) -> exists m, Sem a d m;
  gi_red : Red a d;
  gi_ext : exists es, estk a = flat es /\ EStk a es /\ forall m, SemK a d m -> F (ext es m);
  gi_nel : NelInv a
}.

Lemma gi_keep : forall {OP : Prop} F full sv a d a' d' ex, GI F a d -> @PInv (mkModels (Sem a d) OP) full sv a' d' ex -> wframe a a' -> back a d a' d' ->
  GI F a' d' /\ @PInv (mkModels (Sem a' d') OP) full sv a' d' ex.
Proof.
  intros OP F full sv a d a' d' ex [G1 G2 (es & G3 & G4 & G5) G6] P (W1 & W2 & W3 & W4 & W5 & W6) B.
  assert (S : forall m, Sem a d m -> Sem a' d' m) by (apply (pi_sem _ _ _ _ _ (proj1 P))).
  split.
  - constructor.
    + intros H. destruct (G1 H) as (m & Hm). eauto.
    + intros m Hm. auto.
    + exists es. rewrite W4. splits; auto. eapply estk_same; eauto.
    + eapply nel_a; eauto.
  - exact (inv_gm (mkModels (Sem a d) OP) (mkModels (Sem a' d') OP) _ _ _ _ _ P (fun m H => H) (fun p => p)).
Qed.
Lemma gi_unsat : forall F a d, GI F a d -> (forall m, ~ Sem a d m) -> forall m, ~ F m.
Proof. intros F a d G H m Hm. destruct (gi_fwd _ _ _ G (ex_intro _ m Hm)) as (x & Hx). now apply (H x). Qed.

Lemma phases_keep : forall {OP : Prop} F full sv a d ex f, GI F a d -> @PInv (mkModels (Sem a d) OP) full sv a d ex ->
  GI F (set_phases a f) d /\ @PInv (mkModels (Sem (set_phases a f) d) OP) full sv (set_phases a f) d ex.
Proof.
  intros OP F full sv a d ex f G P. eapply gi_keep; eauto.
  - apply phases_inv. exact P.
  - unfold wframe. cbn. splits; auto.
  - apply back_a; auto.
Qed.
Lemma rebuild_keep : forall {OP : Prop} F full sv a d ex, GI F a d -> @PInv (mkModels (Sem a d) OP) full sv a d ex ->
  GI F (asg_rebuild_order a) d /\ @PInv (mkModels (Sem (asg_rebuild_order a) d) True) full sv (asg_rebuild_order a) d ex.
Proof.
  intros OP F full sv a d ex G P.
  destruct (@gi_keep OP F full sv a d (asg_rebuild_order a) d ex G) as [X Y].
  - apply rebuild_inv. exact P.
  - unfold wframe. cbn. splits; auto.
  - apply back_a; auto.
  - split; auto. exact (@rebuild_full (mkModels (Sem a d) OP) full sv a d ex P).
Qed.
Lemma stage_keep : forall {OP : Prop} F full sv a d, GI F a d -> @PInv (mkModels (Sem a d) OP) full sv a d none ->
  GI F (asg_stage a) d /\ @PInv (mkModels (Sem (asg_stage a) d) OP) full true (asg_stage a) d none.
Proof.
  intros OP F full sv a d G P. eapply gi_keep; eauto.
  - eapply clear_saved_inv; eauto.
  - apply oframe_wframe, oframe_core, clear_saved_core.
  - apply oframe_back; [apply oframe_core, clear_saved_core|auto].
Qed.
Lemma stage_nv : forall a, nv (asg_stage a) = nv a.
Proof. intros a. pose proof (oframe_core _ _ (clear_saved_core a)) as (_ & H & _). exact H. Qed.
(** RESTART *)
Lemma restart_keep : forall {OP : Prop} F full sv a d, GI F a d -> @PInv (mkModels (Sem a d) OP) full sv a d none ->
  let b := cancel_until a 0 in GI F b d /\ @PInv (mkModels (Sem b d) OP) full (if dlevel a =? 0 then sv else true) b d none /\ lims b = [] /\
  nv b = nv a.
Proof.
  intros OP F full sv a d G P b. destruct (Nat.eqb_spec (dlevel a) 0) as [E|E].
  - unfold b. rewrite cancel_noop by (unfold dlevel in E; lia). splits; auto.
    unfold dlevel in E. destruct (lims a); [auto|discriminate].
  - assert (H : 0 < dlevel a) by lia.
    assert (P1 : @PInv (mkModels (Sem a d) OP) full sv a d (top a)). { eapply inv_weaken; [exact P|]. intros c w []. }
    destruct (cancel_inv full sv a d 0 P1 H) as (C1 & C2 & C3).
    pose proof (oframe_cancel full sv a d 0 P1 H) as O.
    destruct (gi_keep F full true a d b d none G C1 (oframe_wframe _ _ O)) as [X Y].
    { apply oframe_back; auto. }
    splits; auto.
    + unfold b. destruct (cancel_fields a 0 H) as (_ & _ & _ & _ & _ & _ & _ & F8 & _). rewrite F8. reflexivity.
    + apply O.
Qed.

(** ** the eliminator between two segments *)
Lemma elim_keep : forall {OP : Prop} F a d o a' d' o' r, GI F a d -> @PInv (mkModels (Sem a d) OP) false false a d none -> lims a = [] ->
  olits o = [] ->
  (r = None -> StepOk a d o a' d' o') -> (r = None -> @PInv (mkModels (Sem a d) OP) false false a' d' none) ->
  (forall e, r = Some e -> e <> Fuel /\ forall m, ~ Sem a d m) ->
  match r with
  | None => let b := set_estk a' (estk a' ++ olits o') in
            GI F b d' /\ @PInv (mkModels (Sem b d') OP) false false b d' none /\ lims b = [] /\ nv b = nv a
  | Some e => e <> Fuel /\ forall m, ~ F m
  end.
Proof.
  intros OP F a d o a' d' o' r G P Hl Ho S1 S2 S3. destruct r as [e|].
  - destruct (S3 e eq_refl) as [X Y]. split; auto. eapply gi_unsat; eauto.
  - specialize (S1 eq_refl). specialize (S2 eq_refl). cbv zeta. set (b := set_estk a' (estk a' ++ olits o')).
    destruct S1 as (Ef & Nl & new & Eo & ES & SR). destruct G as [G1 G2 (es & G3 & G4 & G5) G6].
    destruct Ef as (F1 & F2 & F3 & F4 & F5 & F6 & F7). destruct (SR G2) as [R' X].
    assert (P' : @PInv (mkModels (Sem b d') OP) false false b d' none).
    { pose proof (inv_gm (mkModels (Sem a d) OP) (mkModels (Sem a' d') OP) _ _ _ _ _ S2 (fun m H => H) (fun p => p)) as [Q Ca]. split.
      - destruct Q as [C D V L K Rs Q W S Kl Sm]. constructor; auto.
        destruct C; constructor; auto.
      - apply (cand_shrink a'); auto. }
    splits; auto; try (cbn; congruence). constructor.
    + intros H. destruct (G1 H) as (m & Hm). exists m. apply (pi_sem _ _ _ _ _ (proj1 S2)). exact Hm.
    + exact R'.
    + exists (es ++ new). splits.
      * cbn. rewrite F4, G3, Eo, Ho, flat_app. reflexivity.
      * apply (estk_same a'); auto.
      * intros m Hm. rewrite ext_app. apply G5, X. exact Hm.
    + destruct (Nl G6) as (L & L1 & L2 & L3). exists L. auto.
Qed.

(** the counter says zero exactly when every variable that is not eliminated has a value *)
Lemma some_unassigned : forall a, Coh a -> NelInv a -> 0 < unassigned_left a ->
  exists v, 1 <= v <= nv a /\ val a v = None /\ eli a v = false.
Proof.
  intros a C NI H. rewrite (unassigned_sub a C NI) in H. destruct NI as (L & L1 & L2 & L3).
  destruct (coh_ghost a C) as (k & K1 & K2 & K3 & _).
  set (f := fun v => match val a v with None => negb (eli a v) | Some _ => false end).
  destruct (existsb f (seq 1 (nv a))) eqn:E.
  - apply existsb_exists in E as (v & Hv & Fv). apply in_seq in Hv. unfold f in Fv. exists v.
    destruct (val a v); [discriminate|]. splits; auto; try lia. now apply negb_true_iff.
  - exfalso. assert (I : incl (seq 1 (nv a)) (L ++ k ++ map vi (tr a))).
    { intros v Hv. apply in_or_app. destruct (val a v) eqn:Ev.
      - right. apply K3. congruence.
      - left. apply L3. destruct (eli a v) eqn:Ee; auto. exfalso.
        assert (X : existsb f (seq 1 (nv a)) = true); [|congruence]. apply existsb_exists. exists v. split; auto. unfold f. now rewrite Ev, Ee. }
    apply NoDup_incl_length in I; [|apply seq_NoDup]. rewrite seq_length, !app_length, map_length in I. lia.
Qed.

(** ** one iteration of the loop *)
(** the order in which clauses are reduced only permutes them *)
Definition good_heur (h : heur) : Prop := forall l, Permutation l (h_order h l).

Definition J (F : model -> Prop) (a : asg) (d : cdb) : Prop :=
  @PInv (mkModels (Sem a d) True) false true a d none /\ GI F a d /\ Quiet d /\ (Z.of_nat (nv a) < 2 ^ 31)%Z.

(** an answer that is not [Ok(SAT)] *)
Definition bad (cf : config) (n : nat) (F : model -> Prop) (r : sres) : Prop :=
  match r with
  | SErr (XSolver EmptyClause) | SErr (XSolver RootLevelConflict) => forall m, ~ F m
  | SErr (XSolver Fuel) | SErr (XSolver TimeOut) => False
  | SSat | SMore => False
  | SPanic => False
  | SOob => cf_nv cf < n
  | _ => True
  end.

Lemma bad_err : forall cf n F e, perr (Some e) -> e <> Fuel -> (forall m, ~ F m) -> bad cf n F (SErr (XSolver e)).
Proof. intros cf n F e H0 H1 H2. destruct e; cbn; auto. Qed.
Lemma prepare_oob_nv : forall cf a d, prepare_oob cf a d = true -> cf_nv cf < nv a.
Proof.
  intros cf a d H. unfold prepare_oob in H. apply existsb_exists in H as (v & Hv & H). apply in_seq in Hv.
  apply andb_prop in H as [H _]. apply Nat.ltb_lt in H. lia.
Qed.
Lemma stats_oob_nv : forall cf a, stats_oob cf a = true -> cf_nv cf < nv a.
Proof.
  intros cf a H. unfold stats_oob in H. apply existsb_exists in H as (v & Hv & H). apply in_seq in Hv.
  apply andb_prop in H as [H _]. apply Nat.ltb_lt in H. lia.
Qed.

Lemma inprocess_spec : forall {OP : Prop} F cf ss a d a' d' r, GI F a d -> @PInv (mkModels (Sem a d) OP) false false a d none -> lims a = [] ->
  fits (nv a) d' -> Quiet d -> inprocess cf ss a d = (a', d', r) ->
  match r with
  | None => GI F a' d' /\ @PInv (mkModels (Sem a' d') OP) false false a' d' none /\ nv a' = nv a /\ Quiet d'
  | Some x => bad cf (nv a) F x
  end.
Proof.
  intros OP F cf ss a d a' d' r G P Hl Hn Q E. unfold inprocess in E. destruct (cf_elim cf).
  - destruct (prepare_oob cf a d) eqn:Eo; [injection E as <- <- <-; cbn; eapply prepare_oob_nv; eauto|].
    destruct (elim_prepare_simplify (cf_evo cf) ss (a, d, occ_new)) as [[[a1 d1] o1] r1] eqn:E1.
    assert (Hn1 : fits (nv a) d1).
    { eapply lle_fits; [|exact Hn]. destruct (simplify_outcome cf d1 r1); injection E as <- <- <-; apply lle_refl. }
    pose proof (elim_prepare_simplify_spec (mkModels (Sem a d) OP) _ _ _ _ _ _ _ _ _ P Hl Hn1 Q E1) as S.
    assert (K := elim_keep F a d occ_new a1 d1 o1 r1 G P Hl eq_refl).
    destruct r1 as [e|].
    + destruct K as [K1 K2]; [discriminate|discriminate|intros x X; injection X as <-; auto|].
      assert (X : simplify_outcome cf d1 (Some e) = Some (SErr (XSolver e))) by (destruct e; auto; now elim K1).
      rewrite X in E. injection E as <- <- <-. apply bad_err; auto.
      unfold elim_prepare_simplify in E1. destruct (prepare _ _ _ _) as [d0 o0]. pose proof (perr_elim (cf_evo cf) ss (a, d0, o0)) as PE. rewrite E1 in PE. exact PE.
    + destruct S as (S1 & S2 & S3 & S4). destruct K as (K1 & K2 & K3 & K4); auto; try discriminate.
      cbn [simplify_outcome] in E. destruct (check_size cf d1); injection E as <- <- <-; [|exact I]. splits; auto.
  - destruct (propagate_sandbox a d) as [[a1 d1] pr] eqn:Ep.
    destruct (propagate_sandbox_spec false false a d P a1 d1 pr Ep) as (F1 & F2 & X).
    assert (Q1 : Quiet d1) by (eapply qle_quiet; [eapply qle_sandbox; eauto|auto]).
    destruct pr as [|l rr|]; [| |contradiction].
    + destruct X as [X1 X2]. destruct (gi_keep F false false a d a1 d1 none G X1) as [Y1 Y2].
      { apply oframe_wframe, aframe_oframe; auto. }
      { apply back_frame; auto. }
      cbn [root_error simplify_outcome] in E. destruct (check_size cf d1); injection E as <- <- <-; [|exact I]. splits; auto. apply F1.
    + destruct X as [X1 X2]. injection E as <- <- <-. cbn. eapply gi_unsat; eauto.
      eapply (@conflict_root (mkModels (Sem a d) OP)); [apply X1| |exact X2]. destruct F1 as (-> & _). auto.
Qed.

Lemma after_conflict_spec : forall F cf h en nx a d a' d' r, good_heur h -> J F a d -> fits (nv a) d' -> after_conflict cf h en nx a d = (a', d', r) ->
  match r with None | Some (SErr (XSolver TimeOut)) => J F a' d' /\ nv a' = nv a | Some x => bad cf (nv a) F x end.
Proof.
  intros F cf h en nx a d a' d' r GH (P & G & Q & Hn) Hf E. unfold after_conflict in E.
  pose proof (restart_keep F false true a d G P) as R0. cbv zeta in R0. set (b := cancel_until a 0) in *.
  destruct R0 as (G0 & P0 & L0 & N0).
  assert (P0' : @PInv (mkModels (Sem b d) True) false true b d none) by (destruct (dlevel a =? 0); auto). clear P0.
  destruct en.
  - destruct (h_time h) as [[|]|]; [injection E as <- <- <-; unfold J; auto 6| |injection E as <- <- <-; exact I].
    destruct (phases_keep F _ _ _ _ _ (h_pha1 h) G0 P0') as [G1 P1].
    assert (N1 : nv (set_phases b (h_pha1 h)) = nv a) by exact N0.
    assert (L1 : lims (set_phases b (h_pha1 h)) = []) by exact L0.
    set (a1 := set_phases b (h_pha1 h)) in *. clearbody a1. clear b G0 P0' L0 N0.
    destruct (clear_asserted_literals a1 d) as [[a2 d2] r2] eqn:E2.
    pose proof (@clear_asserted_spec (mkModels (Sem a1 d) True) _ _ _ _ P1 L1 _ _ _ E2) as S2.
    assert (Q2 : Quiet d2) by (eapply qle_quiet; [eapply qle_clear; eauto|auto]).
    destruct r2 as [e|].
    { injection E as <- <- <-. destruct S2 as [S2 S3]. pose proof (perr_clear (Datatypes.S (nv a1)) a1 d) as PE. unfold clear_asserted_literals in E2. rewrite E2 in PE.
      assert (B : bad cf (nv a) F (SErr (XSolver e))) by (apply bad_err; auto; eapply gi_unsat; eauto). destruct e; try exact B; contradiction PE. }
    destruct S2 as (S1 & S2 & S3 & S4 & S5 & S6).
    destruct (gi_keep F _ _ _ _ _ _ _ G1 S1 (rframe_wframe _ _ S2) S3) as [G2 P2].
    assert (L2 : lims a2 = []) by (destruct S2 as (-> & _); auto).
    assert (N2 : nv a2 = nv a) by (destruct S2 as (_ & _ & -> & _); auto).
    clear S1 S2 S3 S4 S5 S6.
    set (d3 := reduce (lev a2) (h_cand h) (h_order h) (h_keep h) d2) in *.
    assert (Q3 : Quiet d3) by (eapply qle_quiet; [apply qle_reduce|auto]).
    destruct (@reduce_inv (mkModels (Sem a2 d2) True) (lev a2) (h_cand h) (h_order h) (h_keep h) _ _ _ _ _ P2 L2 GH) as [R1 R2].
    fold d3 in R1, R2. clearbody d3.
    destruct (gi_keep F _ _ _ _ _ _ _ G2 R1 (wframe_refl _) R2) as [G3 P3]. clear R1 R2.
    destruct nx as [seg|].
    + destruct (phases_keep F _ _ _ _ _ (h_pha2 h) G3 P3) as [G4 P4].
      destruct (vivify (h_targets h) (set_phases a2 (h_pha2 h)) d3) as [[a5 d5] r5] eqn:E5.
      assert (L4 : lims (set_phases a2 (h_pha2 h)) = []) by exact L2.
      pose proof (@vivify_spec (mkModels (Sem (set_phases a2 (h_pha2 h)) d3) True) _ _ _ _ P4 L4 _ _ _ E5) as S.
      assert (Q5 : Quiet d5) by (eapply qle_quiet; [eapply qle_vivify; eauto|auto]).
      destruct r5 as [e|].
      { injection E as <- <- <-. destruct S as [S2 S3]. pose proof (perr_vivify (h_targets h) (set_phases a2 (h_pha2 h)) d3) as PE. rewrite E5 in PE.
        assert (B : bad cf (nv a) F (SErr (XSolver e))) by (apply bad_err; auto; eapply gi_unsat; eauto). destruct e; try exact B; contradiction PE. }
      destruct S as (S1 & S2 & S3 & S4 & S5).
      destruct (gi_keep F _ _ _ _ _ _ _ G4 S1 S4 S5) as [G5 P5].
      assert (N5 : nv a5 = nv a) by (destruct S4 as (_ & -> & _); exact N2).
      apply full_weaken in P5. destruct seg.
      * destruct (inprocess cf (h_steps h) a5 d5) as [[a6 d6] r6] eqn:E6.
        assert (Hf6 : fits (nv a5) d6).
        { rewrite N5. destruct r6; injection E as <- <- <-; exact Hf. }
        pose proof (inprocess_spec F cf _ a5 d5 a6 d6 r6 G5 P5 S2 Hf6 Q5 E6) as S6. rewrite N5 in S6.
        destruct r6 as [x|].
        { injection E as <- <- <-. destruct x as [|[e| |]| | |]; auto. destruct e; auto. contradiction S6. } injection E as <- <- <-.
        destruct S6 as (X1 & X2 & X3 & X4). destruct (stage_keep F _ _ _ _ X1 X2) as [Y1 Y2].
        assert (N6 : nv (asg_stage a6) = nv a) by (transitivity (nv a6); [apply stage_nv|congruence]).
        splits; auto. unfold J. splits; auto. rewrite N6; auto.
      * injection E as <- <- <-. destruct (stage_keep F _ _ _ _ G5 P5) as [Y1 Y2].
        assert (N6 : nv (asg_stage a5) = nv a) by (transitivity (nv a5); [apply stage_nv|congruence]).
        splits; auto. unfold J. splits; auto. rewrite N6; auto.
    + injection E as <- <- <-. apply full_weaken in P3. destruct (stage_keep F _ _ _ _ G3 P3) as [Y1 Y2].
      assert (N6 : nv (asg_stage a2) = nv a) by (transitivity (nv a2); [apply stage_nv|congruence]).
      splits; auto. unfold J. splits; auto. rewrite N6; auto.
  - destruct (h_restart h); injection E as <- <- <-.
    + splits; auto. unfold J. splits; auto. rewrite N0; auto.
    + splits; auto. unfold J. splits; auto.
Qed.

Lemma search_spec : forall F cf hs sm n a d a' d' r, (forall h, In h hs -> good_heur h) -> J F a d -> fits (nv a) d' -> search cf hs sm n a d = (a', d', r) ->
  match r with
  | SSat => J F a' d' /\ unassigned_left a' = 0 /\ nv a' = nv a
  | SMore | SErr (XSolver TimeOut) => J F a' d' /\ nv a' = nv a
  | x => bad cf (nv a) F x
  end.
Proof.
  intros F cf hs. induction hs as [|h hs IH]; intros sm n a d a' d' r GH Jd Hf E; cbn [search] in E.
  - destruct ((0 <? unassigned_left a) || remains a) eqn:Ew; injection E as <- <- <-; [auto|].
    apply orb_false_elim in Ew as [Ew _]. apply Nat.ltb_ge in Ew. splits; auto. lia.
  - destruct ((0 <? unassigned_left a) || remains a) eqn:Ew.
    2:{ injection E as <- <- <-. apply orb_false_elim in Ew as [Ew _]. apply Nat.ltb_ge in Ew. splits; auto. lia. }
    pose proof Jd as (P & G & Q & Hn).
    assert (D : exists a1, (if remains a then Some a
             else match select_decision_literal (branch_fuel a) a with
                  | Some (b, l) => Some (assign_by_decision b l)
                  | None => None
                  end) = Some a1 /\ @PInv (mkModels (Sem a d) True) false true a1 d none /\ oframe a a1).
    { destruct (remains a) eqn:Er; [exists a; splits; auto; apply oframe_refl|].
      rewrite orb_false_r in Ew. apply Nat.ltb_lt in Ew.
      destruct (some_unassigned a (pi_coh _ _ _ _ _ (proj1 P)) (gi_nel _ _ _ G) Ew) as (v & Hv).
      destruct (@branch_inv (mkModels (Sem a d) True) false true a d Logic.I P (remains_false a (pi_coh _ _ _ _ _ (proj1 P)) Er) (ex_intro _ v Hv)) as (b & l & Es & Sc & As & Pb).
      exists (assign_by_decision b l). rewrite Es. splits; auto.
      apply oframe_trans with b; [now apply oframe_core|].
      assert (Vb : val b (vi l) = None). { destruct As as (_ & As & _). destruct Sc as (-> & _). auto. }
      pose proof (decide_frame b l Vb) as DF. cbv zeta in DF.
      destruct DF as (D1 & D2 & D3 & D4 & D5 & D6 & D7 & D8 & D9 & D10 & D11). unfold oframe. splits; auto.
      intros x y Hx Hz. assert (Nx : vi x <> vi l). { intros Z. rewrite <- Z in Vb. apply litval_none_iff in Vb. congruence. }
      apply Nat.eqb_neq in Nx. unfold litval in *. rewrite D4, D5, Nx. auto. }
    destruct D as (a1 & Ed & P1 & O1). rewrite Ed in E.
    destruct (propagate (h_skip h) a1 d) as [[a2 d2] pr] eqn:Ep.
    destruct (propagate_spec false (h_skip h) a1 d P1 a2 d2 pr Ep) as (F1 & F2 & X).
    assert (O2 : oframe a a2) by (eapply oframe_trans; [exact O1|now apply aframe_oframe]).
    assert (Q2 : Quiet d2) by (eapply qle_quiet; [eapply qle_propagate; eauto|auto]).
    assert (B2 : back a d a2 d2).
    { apply oframe_back; auto. intros c Hc K. split; [apply (dframe_keep d d2); auto|apply F2]. }
    assert (N2 : nv a2 = nv a) by (destruct O2 as (_ & -> & _); auto).
    destruct pr as [|l rr|]; [| |contradiction].
    + destruct X as [X1 X2]. destruct (gi_keep F _ _ _ _ _ _ _ G X1 (oframe_wframe _ _ O2) B2) as [G2 P2].
      pose proof (IH sm n a2 d2 a' d' r ltac:(intros x Hx; apply GH; right; auto)) as S. rewrite N2 in S.
      destruct r; auto; try (apply S; auto; unfold J; splits; auto; congruence).
    + destruct X as [X1 X2]. destruct (gi_keep F _ _ _ _ _ _ _ G X1 (oframe_wframe _ _ O2) B2) as [G2 P2].
      destruct (Nat.eqb_spec (dlevel a2) 0) as [Ez|Ez].
      { injection E as <- <- <-. cbn. eapply gi_unsat; eauto.
        eapply (@conflict_root (mkModels (Sem a2 d2) True)); [apply P2| |exact X2]. unfold dlevel in Ez. destruct (lims a2); [auto|discriminate]. }
      assert (HF : fits (nv a2) (snd (fst (handle_conflict (h_deepen h) a2 d2 l rr)))).
      { rewrite N2. eapply lle_fits; [|exact Hf]. destruct (handle_conflict (h_deepen h) a2 d2 l rr) as [[a3 d3] hr]. cbn [fst snd].
        destruct hr as [rk| |]; try (injection E as <- <- <-; apply lle_refl). cbv zeta in E.
        destruct (after_conflict _ _ _ _ a3 d3) as [[a5 d5] r5] eqn:E5. apply lle_after in E5.
        destruct r5; [injection E as <- <- <-; exact E5|]. exact (lle_trans _ _ _ E5 (lle_search _ _ _ _ _ _ _ _ _ E)). }
      destruct (handle_conflict_gen (GM := mkModels (Sem a2 d2) True) (h_deepen h) false true a2 d2 l rr P2 X2) as (a3 & d3 & rk & d4 & s & learnt & lv & _ & H & P3 & O3 & B3 & _); [lia|exact HF|].
      * rewrite H in E. cbv zeta in E.
        destruct (gi_keep F _ _ _ _ _ _ _ G2 P3 (oframe_wframe _ _ O3) B3) as [G3 P3'].
        assert (N3 : nv a3 = nv a) by (destruct O3 as (_ & -> & _); auto).
        assert (J3 : J F a3 d3). { unfold J. splits; auto; [|congruence]. eapply qle_quiet; [eapply qle_handle; eauto|auto]. }
        destruct (after_conflict _ _ _ _ a3 d3) as [[a5 d5] r5] eqn:E5.
        assert (Hf5 : fits (nv a3) d5).
        { rewrite N3. eapply lle_fits; [|exact Hf]. destruct r5; [injection E as <- <- <-; apply lle_refl|]. eapply lle_search; eauto. }
        pose proof (after_conflict_spec F cf h _ _ a3 d3 a5 d5 r5 (GH h (or_introl eq_refl)) J3 Hf5 E5) as S5.
        rewrite N3 in S5. destruct r5 as [x|].
        -- injection E as <- <- <-. destruct x as [|[x| |]| | |]; auto; try contradiction S5.
        -- destruct S5 as [S5 N5]. assert (Hf6 : fits (nv a5) d') by (rewrite N5; exact Hf). pose proof (IH _ _ a5 d5 a' d' r ltac:(intros x Hx; apply GH; right; auto) S5 Hf6 E) as S. rewrite N5, ?N3 in S. destruct r; auto.
Qed.

(** ** the answer *)
Definition signed (v : nat) (b : bool) : Z := if b then Z.of_nat v else Z.opp (Z.of_nat v).

Lemma ext_other : forall es m v, (forall t os, In (t :: os) es -> vi t <> v) -> ext es m v = m v.
Proof.
  induction es as [|e es IH]; intros m v H; auto. cbn [ext fold_right]. change (fold_right ext1 m es) with (ext es m).
  destruct e as [|t os]; cbn [ext1]; [apply IH; intros; eapply H; right; eauto|].
  destruct (existsb _ _); [apply IH; intros; eapply H; right; eauto|].
  rewrite upd_other; [apply IH; intros; eapply H; right; eauto|]. intros X. eapply H; [left; eauto|auto].
Qed.

Lemma answer_vals_spec : forall (m : model) (q : pmodel) vs r, (forall v, In v vs -> (Z.of_nat v < 2 ^ 31)%Z) -> (forall v b, q v = Some b -> m v = b) ->
  answer_vals q vs = Some r -> r = map (fun v => signed v (m v)) vs.
Proof.
  intros m q vs. induction vs as [|v vs IH]; intros r Hv Hq E; cbn [answer_vals] in E; [injection E as <-; auto|].
  destruct (q v) as [b|] eqn:Eq; [|discriminate]. destruct (answer_vals q vs) as [t|] eqn:Et; [|discriminate].
  injection E as <-. cbn [map]. rewrite (IH t); auto; [|intros w Hw; apply Hv; right; auto]. f_equal.
  rewrite (Hq v b Eq).
  assert (R : (0 <= Z.of_nat v < 2 ^ 31)%Z) by (split; [lia|apply Hv; left; auto]).
  rewrite lit_of_var_parts, i32_of_lit_parts; auto.
Qed.
Lemma answer_vals_total : forall (q : pmodel) vs, (forall v, In v vs -> q v <> None) -> answer_vals q vs <> None.
Proof.
  intros q vs. induction vs as [|v vs IH]; intros H; cbn [answer_vals]; [discriminate|].
  destruct (q v) eqn:E; [|now elim (H v (or_introl eq_refl))].
  destruct (answer_vals q vs) eqn:Et; [discriminate|]. elim IH; auto. intros w Hw. apply H. right; auto.
Qed.

(** what an answer says about the models [F] of the problem with [n] variables *)
Definition right_answer (cf : config) (F : model -> Prop) (n : nat) (x : answer) : Prop :=
  match x with
  | SAT vs => exists m, F m /\ vs = map (fun v => signed v (m v)) (seq 1 n)
  | UNSAT => forall m, ~ F m
  | Err (XSolver e) => e = SolverBug \/ e = TimeOut \/ e = InvalidLiteral
  | Panic => False
  | OutOfBounds => cf_nv cf < n
  | _ => True
  end.

Lemma sat_answer : forall F a d, J F a d -> unassigned_left a = 0 ->
  let q := extend_model (estk a) (val a) in
  (forall v, 1 <= v <= nv a -> q v <> None) /\
  (validate d q false = None -> exists m, F m /\ forall v b, q v = Some b -> m v = b).
Proof.
  intros F a d (P & G & Q & Hn) Hu q. destruct G as [G1 G2 (es & G3 & G4 & G5) G6].
  pose proof (all_assigned a (pi_coh _ _ _ _ _ (proj1 P)) G6 Hu) as All.
  destruct (extend_total a es (val a) G4 All) as [T1 T2]. unfold q. rewrite G3. set (q0 := extend_model (flat es) (val a)) in *.
  split; auto. intros V. rewrite (validate_lax d q0 (pi_db _ _ _ _ _ (proj1 P))) in V.
  exists (ext es (total_of (val a))). split; auto. apply G5.
  assert (NE : forall v, eli a v = false -> ext es (total_of (val a)) v = total_of (val a) v).
  { intros v Hv. apply ext_other. intros t os Ht X. destruct G4 as (_ & _ & _ & E4). apply E4 in Ht. congruence. }
  split.
  - intros c Hc _. destruct (V c Hc) as (l & L1 & L2). exists l. split; auto.
    destruct (pi_vars _ _ _ _ _ (proj1 P) c l L1) as [R1 R2].
    specialize (T1 (vi l) R1). destruct (q0 (vi l)) as [b|] eqn:Eb; [|congruence]. apply T2 in Eb. rewrite NE in Eb by auto.
    unfold ltrue. rewrite Eb. destruct b, (sgn l); auto; now elim L2.
  - intros l Hv _. apply litval_true_iff in Hv. unfold ltrue, total_of. now rewrite Hv.
Qed.

Lemma finish_spec : forall cf F n a d r, match r with SSat => J F a d /\ unassigned_left a = 0 /\ nv a = n | SMore | SErr (XSolver TimeOut) => J F a d /\ nv a = n | x => bad cf n F x end ->
  right_answer cf F n (snd (finish (a, d, r))).
Proof.
  intros cf F n a d r H. destruct r as [|e| | |]; cbn [finish]; try exact I; try exact H.
  - destruct H as (Jd & Hu & Hn). destruct (sat_answer F a d Jd Hu) as [T1 T2]. cbv zeta in T1, T2.
    set (q := extend_model (estk a) (val a)) in *.
    destruct (validate d q false); [cbn; auto|]. destruct (T2 eq_refl) as (m & M1 & M2).
    destruct (answer_vals q (seq 1 (nv a))) as [vs|] eqn:E.
    2:{ exfalso. revert E. apply answer_vals_total. intros v Hv. apply T1. apply in_seq in Hv. lia. }
    cbn. exists m. split; auto.
    rewrite <- Hn. eapply answer_vals_spec; eauto. destruct Jd as (_ & _ & _ & Hb). intros v Hv. apply in_seq in Hv. lia.
  - destruct e as [e| |]; try exact I. destruct e; cbn; auto. contradiction H.
Qed.

Lemma pure_keep : forall F a d a' d', GI F a d -> PureOk a d a' d' -> GI F a' d'.
Proof.
  intros F a d a' d' [G1 G2 (es & G3 & G4 & G5) G6] ((E1 & E2 & E3 & E4 & _) & P2 & P3 & P4 & P5 & P6 & P7). constructor; auto.
  - exists es. splits; auto; [congruence|]. eapply estk_same; eauto.
  - eapply nel_a; eauto.
Qed.
Lemma flag_keep : forall {OP : Prop} F full sv a d d' ex, GI F a d -> @PInv (mkModels (Sem a d) OP) full sv a d ex -> flagonly d d' ->
  (forall x, lrn (cl d' x) = lrn (cl d x)) -> GI F a d' /\ @PInv (mkModels (Sem a d') OP) full sv a d' ex.
Proof.
  intros OP F full sv a d d' ex G P H1 H2. eapply gi_keep; eauto.
  - eapply flag_inv; eauto.
  - apply wframe_refl.
  - now apply flag_back.
Qed.

Lemma check_size_lim : forall cf d, check_size cf d = false -> cf_limit cf <> 0.
Proof. intros cf d H X. unfold check_size in H. rewrite X in H. discriminate. Qed.
(** an answer given before the search *)
Definition early_answer (cf : config) (F : model -> Prop) (n : nat) (x : answer) : Prop :=
  match x with
  | UNSAT => forall m, ~ F m
  | OutOfBounds => cf_nv cf < n
  | Err XMemory => cf_limit cf <> 0
  | _ => False
  end.
Lemma solve_cases : forall {OP : Prop} F cf p hs a d, cf_elim cf = true ->
  @PInv (mkModels (Sem a d) OP) true true a d none -> GI F a d -> Quiet d -> lims a = [] -> (forall v, eli a v = false) -> sav a = [] ->
  (Z.of_nat (nv a) < 2 ^ 31)%Z -> fits (nv a) (snd (fst (solve cf p hs a d))) -> early_answer cf F (nv a) (snd (solve cf p hs a d)) \/
  exists c e, J F c e /\ nv c = nv a /\
    solve cf p hs a d = (finish (search cf hs (stage_initialize (p_stm p) 32) 0 c e)).
Proof.
  intros OP F cf p hs a d Hc P G Q Hl He Hs Hn. unfold solve. rewrite Hc. cbn [negb andb].
  destruct (check_size cf d) eqn:Ck1; [|intros _; left; exact (check_size_lim _ _ Ck1)]. cbn [negb].
  destruct (vivify (p_targets p) a d) as [[a1 d1] r1] eqn:E1.
  pose proof (@vivify_spec (mkModels (Sem a d) OP) _ _ _ _ P Hl _ _ _ E1) as S1.
  pose proof (sav_vivify _ _ _ _ _ _ Hl E1) as V1.
  assert (Q1 : Quiet d1) by (eapply qle_quiet; [eapply qle_vivify; eauto|auto]).
  destruct r1 as [e|].
  { destruct S1 as [X Y]. destruct e; try (now elim X); intros _; left; cbn; eapply gi_unsat; eauto. }
  destruct S1 as (S1 & S2 & S3 & S4 & S5). destruct (gi_keep F _ _ _ _ _ _ _ G S1 S4 S5) as [G1 P1]. clear S1 S5.
  destruct S4 as (W1 & W2 & _).
  destruct (propagate_sandbox a1 d1) as [[a2 d2] r2] eqn:E2.
  destruct (propagate_sandbox_spec true false a1 d1 P1 a2 d2 r2 E2) as (F1 & F2 & X2).
  pose proof (ss_sandbox _ _ _ _ _ E2) as V2.
  assert (Q2 : Quiet d2) by (eapply qle_quiet; [eapply qle_sandbox; eauto|auto]).
  pose proof F1 as (A1 & A2 & A3 & _).
  destruct r2 as [|l rr|]; [| |contradiction].
  2:{ intros _. left. destruct X2 as [X1 X2]. cbn [root_error]. unfold elim_failed. destruct (check_size cf d2) eqn:Ck; cbn; [|exact (check_size_lim _ _ Ck)]. eapply gi_unsat; eauto.
      eapply (@conflict_root (mkModels (Sem a1 d1) OP)); [apply X1| |exact X2]. congruence. }
  destruct X2 as [X1 X2]. cbn [root_error].
  destruct (gi_keep F _ _ _ _ _ _ _ G1 X1 (oframe_wframe _ _ (aframe_oframe _ _ F1))) as [G2 P2].
  { apply back_frame; auto. }
  destruct (check_size cf d2) eqn:Ck2; [|intros _; left; exact (check_size_lim _ _ Ck2)]. cbn [negb]. assert (N2 : nv a2 = nv a) by congruence.
  destruct (_ || _) eqn:Eo.
  { intros _. left. cbn. rewrite <- N2. apply orb_prop in Eo as [Eo|Eo]; [eapply prepare_oob_nv|eapply stats_oob_nv]; eauto. }
  destruct (prepare (cf_evo cf) a2 d2 occ_new) as [d3 o3] eqn:E3.
  destruct (prepare_spec (cf_evo cf) a2 d2 occ_new d3 o3 (pi_db _ _ _ _ _ (proj1 P2)) Q2 E3) as (B1 & B2 & B3 & B4).
  apply full_weaken in P2. destruct (flag_keep F _ _ _ _ _ _ G2 P2 B1 B2) as [G3 P3].
  assert (L2 : lims a2 = []) by congruence.
  destruct (assert_pure (seq 1 (nv a2)) a2 d3 o3) as [[a4 d4] ok] eqn:E4.
  assert (RG : forall v, In v (seq 1 (nv a2)) -> 1 <= v <= nv a2 /\ eli a2 v = false).
  { intros v Hv. apply in_seq in Hv. split; [lia|]. rewrite A2, W1. apply He. }
  destruct (assert_pure_spec o3 _ _ _ _ _ _ P3 L2 B3 RG E4) as (-> & Pu & P4 & O4).
  pose proof (ss_pure _ _ _ _ _ _ _ L2 E4) as V4.
  pose proof (pure_keep F _ _ _ _ G3 Pu) as G4. destruct Pu as ((Y1 & Y2 & _) & _).
  unfold simplify_running. rewrite Hc.
  destruct (elim_simplify (cf_evo cf) (p_steps p) (a4, d4, o3)) as [[[a5 d5] o5] r5] eqn:E5.
  assert (L4 : lims a4 = []) by congruence. assert (N4 : nv a4 = nv a) by congruence.
  intros Hf. assert (Hn4 : fits (nv a4) d5).
  { rewrite N4. eapply lle_fits; [|exact Hf]. destruct r5 as [e|].
    - unfold elim_failed. destruct e; try destruct (check_size cf d5); apply lle_refl.
    - destruct (check_size cf d5); cbn [negb]; [|apply lle_refl]. cbv zeta. destruct (search _ _ _ _ _ d5) as [[a8 d8] r8] eqn:E8.
      rewrite finish_cdb. eapply lle_search; eauto. }
  pose proof (elim_simplify_spec (mkModels (Sem a4 d4) OP) _ _ _ _ _ _ _ _ _ P4 L4 Hn4 O4 E5) as S5.
  pose proof (ss_elim_simplify _ _ _ _ _ _ _ _ _ L4 E5) as V5.
  pose proof (elim_keep F a4 d4 o3 a5 d5 o5 r5 G4 P4 L4) as K. rewrite B4 in K. specialize (K eq_refl).
  destruct r5 as [e|].
  { destruct K as [K1 K2]; [discriminate|discriminate|intros x X; injection X as <-; auto|].
    left. unfold elim_failed. destruct e; try (now elim K1); destruct (check_size cf d5) eqn:Ck; cbn; auto; exact (check_size_lim _ _ Ck). }
  destruct S5 as (S5 & S6 & S7 & S8). destruct K as (K1 & K2 & K3 & K4); auto; try discriminate.
  destruct (check_size cf d5) eqn:Ck3; [|left; exact (check_size_lim _ _ Ck3)]. cbn [negb]. cbv zeta.
  set (b := set_estk a5 (estk a5 ++ olits o5)) in *.
  destruct (phases_keep F _ _ _ _ _ (p_pha p) K1 K2) as [G6 P6].
  destruct (rebuild_keep F _ _ _ _ _ G6 P6) as [G7 P7].
  change (set_estk (asg_rebuild_order (set_phases a5 (p_pha p))) (estk (asg_rebuild_order (set_phases a5 (p_pha p))) ++ olits o5))
    with (asg_rebuild_order (set_phases b (p_pha p))).
  set (c := asg_rebuild_order (set_phases b (p_pha p))) in *.
  assert (Sc : sav c = []).
  { change (sav a5 = []). destruct V2 as [V2 _], V4 as [V4 _], V5 as [V5 _]. congruence. }
  assert (Nc : nv c = nv a) by (change (nv a5 = nv a); change (nv a5 = nv a4) in K4; congruence).
  assert (Jc : J F c d5).
  { unfold J. splits; auto; [|congruence]. destruct P7 as [[C D V L K Rs Qh W S Kl Sm] Ca]. split; auto. constructor; auto.
    - intros x w Ef. apply W. revert Ef. apply rz_sub; auto. intros _ l HlS. rewrite Sc in HlS. elim HlS.
    - intros _ pre x post X. rewrite Sc in X. destruct pre; discriminate. }
  right. exists c, d5. splits; auto.
Qed.
Lemma solve_spec : forall {OP : Prop} F cf p hs a d, cf_elim cf = true -> (forall h, In h hs -> good_heur h) ->
  @PInv (mkModels (Sem a d) OP) true true a d none -> GI F a d -> Quiet d -> lims a = [] -> (forall v, eli a v = false) -> sav a = [] ->
  (Z.of_nat (nv a) < 2 ^ 31)%Z -> fits (nv a) (snd (fst (solve cf p hs a d))) -> right_answer cf F (nv a) (snd (solve cf p hs a d)).
Proof.
  intros OP F cf p hs a d Hc GH P G Q Hl He Hs Hn Hf.
  destruct (solve_cases F cf p hs a d Hc P G Q Hl He Hs Hn Hf) as [R|(c & e & Jc & Nc & EQ)].
  - destruct (snd (solve cf p hs a d)) as [| |[]| | |]; cbn in *; auto; contradiction.
  - rewrite EQ in *. destruct (search cf hs _ _ c e) as [[a8 d8] r8] eqn:E8. rewrite finish_cdb in Hf. cbn [fst snd] in Hf. rewrite <- Nc in Hf. apply finish_spec.
    pose proof (search_spec F cf hs _ _ c e a8 d8 r8 GH Jc Hf E8) as S. rewrite Nc in S. exact S.
Qed.
