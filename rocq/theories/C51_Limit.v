(** The limit on the number of clauses, and variables added without the eliminator (SolveModel.v): C51, C46. *)
From Coq Require Import String List Arith Bool Lia ZArith Permutation.
From Verif Require Import Base HeapModel EmaModel AsgModel LitFacts AsgProofs C15_Trail CdbModel CdbProofs CdbOps PropModel SatSpec PropProofs PropLoop PropOps PropDb RootProofs RupSpec DratSpec DratRun DratOps DratRoot DratSearch ConflictModel ConflictProofs LogProofs HandleProofs PropMisc ElimModel ElimFacts ElimExt ElimProofs ElimVar ElimRun ElimTotal C12_Prop VivifyModel VivifyProofs QuietProofs Text CnfModel LitModel BuildModel Spec SolveModel C24_Simplify LitProofs SavProofs BuildProofs C04_Build LubyModel SolveProofs DratElim DratViv DratLoad DratPure DratSolve C01_Solve.
From Verif Require Import C01_Solve C46_AddVar.
Import ListNotations.
Open Scope list_scope.
Open Scope nat_scope.
Local Opaque Nat.pow.

Lemma check_size_false : forall cf d, check_size cf d = false <-> 0 < cf_limit cf < n_cl d.
Proof.
  intros cf d. unfold check_size. rewrite orb_false_iff, Nat.eqb_neq, Nat.leb_gt. lia.
Qed.
Lemma simplify_outcome_end : forall cf d r x, simplify_outcome cf d r = Some x ->
  (x = SErr XMemory -> check_size cf d = false) /\ x <> SOob.
Proof.
  intros cf d r x E. unfold simplify_outcome in E. destruct r as [e|].
  - destruct e; injection E as <-; split; discriminate.
  - destruct (check_size cf d); [discriminate|]. injection E as <-. split; [auto|discriminate].
Qed.
Lemma inprocess_end : forall cf ss a d a' d' x, inprocess cf ss a d = (a', d', Some x) ->
  (x = SErr XMemory -> check_size cf d' = false) /\ (x = SOob -> cf_elim cf = true).
Proof.
  intros cf ss a d a' d' x E. unfold inprocess in E. destruct (cf_elim cf).
  - destruct (prepare_oob cf a d); [injection E as <- <- <-; split; [discriminate|auto]|].
    destruct (elim_prepare_simplify (cf_evo cf) ss (a, d, occ_new)) as [[[a1 d1] o1] r].
    destruct (simplify_outcome cf d1 r) as [y|] eqn:O; [|discriminate]. injection E as <- <- <-.
    destruct (simplify_outcome_end _ _ _ _ O). auto.
  - destruct (propagate_sandbox a d) as [[a1 d1] r]. injection E as <- <- E.
    destruct (simplify_outcome_end _ _ _ _ E) as [H1 H2]. split; [auto|]. intros ->. congruence.
Qed.
Lemma after_end : forall cf h ended next a d a' d' x, after_conflict cf h ended next a d = (a', d', Some x) ->
  (x = SErr XMemory -> check_size cf d' = false) /\ (x = SOob -> cf_elim cf = true).
Proof.
  intros cf h ended next a d a' d' x E. unfold after_conflict in E. destruct ended.
  2:{ destruct (h_restart h); discriminate. }
  destruct (h_time h) as [[|]|]; try (injection E as <- <- <-; split; discriminate).
  destruct (clear_asserted_literals _ d) as [[a2 d2] [e|]]; [injection E as <- <- <-; split; discriminate|].
  cbv zeta in E. destruct next as [segment|]; [|discriminate].
  destruct (vivify _ _ _) as [[a4 d4] [e|]]; [injection E as <- <- <-; split; discriminate|].
  destruct segment; [|discriminate].
  destruct (inprocess cf (h_steps h) a4 d4) as [[a5 d5] [y|]] eqn:I; [|discriminate].
  injection E as <- <- <-. eapply inprocess_end; eauto.
Qed.
Lemma search_end : forall cf hs sm n a d a' d' x, search cf hs sm n a d = (a', d', x) ->
  (x = SErr XMemory -> check_size cf d' = false) /\ (x = SOob -> cf_elim cf = true).
Proof.
  intros cf hs. induction hs as [|h t IH]; intros sm n a d a' d' x E; cbn [search] in E.
  - destruct ((0 <? unassigned_left a) || remains a); injection E as <- <- <-; split; discriminate.
  - destruct ((0 <? unassigned_left a) || remains a); [|injection E as <- <- <-; split; discriminate].
    match type of E with match ?s with _ => _ end = _ => destruct s as [a1|] end; [|injection E as <- <- <-; split; discriminate].
    destruct (propagate (h_skip h) a1 d) as [[a2 d2] [|l r|]]; [eauto| |injection E as <- <- <-; split; discriminate].
    destruct (dlevel a2 =? 0); [injection E as <- <- <-; split; discriminate|].
    destruct (handle_conflict (h_deepen h) a2 d2 l r) as [[a3 d3] [rk|e|]]; try (injection E as <- <- <-; split; discriminate).
    cbv zeta in E.
    destruct (after_conflict _ _ _ _ a3 d3) as [[a4 d4] [y|]] eqn:K; [|eauto].
    injection E as <- <- <-. eapply after_end; eauto.
Qed.
Lemma finish_end : forall cf s a' d' x, finish s = (a', d', x) ->
  (snd s = SErr XMemory -> check_size cf (snd (fst s)) = false) -> (snd s = SOob -> cf_elim cf = true) ->
  (x = Err XMemory -> check_size cf d' = false) /\ (x = OutOfBounds -> cf_elim cf = true).
Proof.
  intros cf [[a d] r] a' d' x E H1 H2. unfold finish in E. cbn [fst snd] in *. destruct r as [|e| | |].
  - cbv zeta in E. destruct (validate _ _ _); [injection E as <- <- <-; split; discriminate|].
    destruct (answer_vals _ _); injection E as <- <- <-; split; discriminate.
  - destruct e as [e| |].
    + destruct e; injection E as <- <- <-; split; discriminate.
    + injection E as <- <- <-. split; [auto|discriminate].
    + injection E as <- <- <-. split; discriminate.
  - injection E as <- <- <-; split; discriminate.
  - injection E as <- <- <-; split; [discriminate|auto].
  - injection E as <- <- <-; split; discriminate.
Qed.
Lemma elim_failed_end : forall cf d e x, elim_failed cf d e = x -> (x = Err XMemory -> check_size cf d = false) /\ x <> OutOfBounds.
Proof.
  intros cf d e x <-. unfold elim_failed. destruct e; try (split; discriminate); (destruct (check_size cf d); split; auto; discriminate).
Qed.
Lemma solve_end : forall cf p hs a d a' d' x, solve cf p hs a d = (a', d', x) -> x = Err XMemory -> check_size cf d' = false.
Proof.
  intros cf p hs a d a' d' x E. unfold solve in E.
  destruct (check_size cf d) eqn:C0; cbn [negb] in E; [|injection E as <- <- <-; auto].
  destruct (vivify (p_targets p) a d) as [[a1 d1] [e|]]; [destruct e; injection E as <- <- <-; discriminate|].
  destruct (propagate_sandbox a1 d1) as [[a2 d2] r2]. destruct (root_error r2) as [e|].
  { injection E as <- <- E. now apply (elim_failed_end _ _ _ _ E). }
  destruct (check_size cf d2) eqn:C2; cbn [negb] in E; [|injection E as <- <- <-; auto].
  destruct ((cf_elim cf && prepare_oob cf a2 d2) || stats_oob cf a2); [injection E as <- <- <-; discriminate|].
  destruct (if cf_elim cf then prepare (cf_evo cf) a2 d2 occ_new else (d2, occ_new)) as [d3 o3].
  destruct (assert_pure (seq 1 (nv a2)) a2 d3 o3) as [[a4 d4] [|]]; [|injection E as <- <- <-; discriminate].
  destruct (simplify_running cf (p_steps p) (a4, d4, o3)) as [[[a5 d5] o5] [e|]].
  { injection E as <- <- E. now apply (elim_failed_end _ _ _ _ E). }
  destruct (check_size cf d5) eqn:C5; cbn [negb] in E; [|injection E as <- <- <-; auto].
  cbv zeta in E. eapply finish_end; eauto.
  - intros Z. destruct (search _ _ _ _ _ d5) as [[a8 d8] r8] eqn:S. cbn [fst snd] in *. destruct (search_end _ _ _ _ _ _ _ _ _ S). auto.
  - intros Z. destruct (search _ _ _ _ _ d5) as [[a8 d8] r8] eqn:S. cbn [fst snd] in *. destruct (search_end _ _ _ _ _ _ _ _ _ S). auto.
Qed.

(** [OutOfMemory] is answered only when there is a limit and the number of clauses exceeds it; and at once when it does at the
    start. *)
Theorem C51_memory : forall cf p hs a d,
  (forall a' d', solve cf p hs a d = (a', d', Err XMemory) -> 0 < cf_limit cf < n_cl d') /\
  (0 < cf_limit cf < n_cl d -> solve cf p hs a d = (a, d, Err XMemory)).
Proof.
  intros cf p hs a d. split.
  - intros a' d' E. apply check_size_false. eapply solve_end; eauto.
  - intros H. apply check_size_false in H. unfold solve. rewrite H. reflexivity.
Qed.
(** [add_var] when the eliminator is disabled: the first free variable is harmless, the second is not. *)
Theorem C46_disabled : forall cs a d cf p hs, session cs a d -> narrow (nv a) d -> cf_elim cf = false -> nv a <= cf_nv cf + 1 ->
  snd (solve cf p hs a d) <> OutOfBounds.
Proof.
  intros cs a d cf p hs S Hw Hc Hk. destruct (session_inv _ _ _ S) as [I1 I2 I3 I4 I5 I6]. pose proof (narrow_fits _ _ Hw) as N.
  assert (P : @PInv (mkModels (Sem a d) False) true true a d none) by now apply linv_pinv.
  pose proof (start_gi a d I1) as G. pose proof (li_lims _ _ I1) as Hl.
  unfold solve. rewrite Hc.
  destruct (check_size cf d); cbn [negb]; [|discriminate].
  destruct (vivify (p_targets p) a d) as [[a1 d1] r1] eqn:E1.
  pose proof (@vivify_spec (mkModels (Sem a d) False) _ _ _ _ P Hl _ _ _ E1) as S1.
  destruct r1 as [e|]; [destruct e; discriminate|].
  destruct S1 as (S1 & S2 & S3 & S4 & S5). destruct (gi_keep _ _ _ _ _ _ _ _ G S1 S4 S5) as [G1 P1].
  destruct S4 as (W1 & W2 & _).
  destruct (propagate_sandbox a1 d1) as [[a2 d2] r2] eqn:E2.
  destruct (propagate_sandbox_spec true false a1 d1 P1 a2 d2 r2 E2) as (F1 & _). pose proof F1 as (A1 & A2 & A3 & _).
  destruct (root_error r2) as [e|]; [cbn [snd]; now apply (elim_failed_end _ _ _ _ eq_refl)|].
  destruct (check_size cf d2); cbn [negb andb orb]; [|discriminate].
  assert (O : stats_oob cf a2 = false).
  { unfold stats_oob. destruct (existsb _ _) eqn:X; auto. exfalso. apply existsb_exists in X as (v & V1 & V2). apply in_seq in V1.
    apply andb_true_iff in V2 as [V2 _]. apply Nat.ltb_lt in V2. rewrite A3, W2 in V1. lia. }
  rewrite O. destruct (assert_pure (seq 1 (nv a2)) a2 d2 occ_new) as [[a4 d4] [|]]; [|discriminate].
  destruct (simplify_running cf (p_steps p) (a4, d4, occ_new)) as [[[a5 d5] o5] [e|]]; [cbn [snd]; now apply (elim_failed_end _ _ _ _ eq_refl)|].
  destruct (check_size cf d5); cbn [negb]; [|discriminate]. cbv zeta.
  match goal with |- snd (finish ?s) <> _ => destruct s as [[a8 d8] r8] eqn:S8 end.
  destruct (search_end _ _ _ _ _ _ _ _ _ S8) as [_ K].
  destruct (finish (a8, d8, r8)) as [[a9 d9] x] eqn:E9. cbn [snd]. intros ->.
  destruct (finish_end cf (a8, d8, r8) a9 d9 OutOfBounds E9) as [_ Z].
  - cbn [fst snd]. intros R. destruct (search_end _ _ _ _ _ _ _ _ _ S8) as [T _]. auto.
  - exact K.
  - specialize (Z eq_refl). congruence.
Qed.
Theorem C46_disabled_refuted : forall cs a0 d0 a d a' d' cf p hs, session cs a0 d0 -> add_var a0 d0 = (a, d) -> add_var a d = (a', d') ->
  narrow (nv a') d' -> (Z.of_nat (nv a') < 2 ^ 31)%Z -> cf_nv cf <= nv a0 ->
  match snd (solve cf p hs a' d') with
  | UNSAT | Err XMemory | OutOfBounds => True
  | _ => False
  end.
Proof.
  intros cs a0 d0 a d a' d' cf p hs S0 E0 E Hw Hn Hk.
  destruct (C46_add_var_keeps _ _ _ _ _ S0 E0) as (Nv0 & _ & _ & _ & _ & S1).
  assert (Nva : nv a' = Datatypes.S (nv a)) by (unfold add_var in E; injection E as <- _; reflexivity).
  assert (S : session cs a d) by (apply S1; rewrite Nva, Nv0 in Hn; lia). clear S1.
  destruct (C46_add_var_keeps _ _ _ _ _ S E) as (Nv & _ & _ & Vn & Cn & S').
  assert (Sx : session cs a' d') by (apply S'; rewrite Nv in Hn; lia). clear S'.
  destruct (session_inv cs a' d' Sx) as [I1 I2 I3 I4 I5 I6]. set (n := nv a') in *.
  pose proof (narrow_fits _ _ Hw) as N.
  assert (P : @PInv (mkModels (Sem a' d') False) true true a' d' none) by now apply linv_pinv.
  pose proof (start_gi a' d' I1) as G. pose proof (li_lims _ _ I1) as Hl.
  unfold solve.
  destruct (check_size cf d'); [|exact I]. cbn [negb].
  destruct (vivify (p_targets p) a' d') as [[a1 d1] r1] eqn:E1.
  pose proof (@vivify_spec (mkModels (Sem a' d') False) _ _ _ _ P Hl _ _ _ E1) as S1.
  pose proof (@vivify_run (mkModels (Sem a' d') False) _ _ _ _ P Hl _ _ _ E1) as U1.
  destruct r1 as [e|]; [destruct S1 as [X _]; destruct e; try exact I; congruence|].
  destruct S1 as (S1 & S2 & S3 & S4 & S5). destruct (gi_keep _ _ _ _ _ _ _ _ G S1 S4 S5) as [G1 P1]. clear S1 S5.
  destruct S4 as (W1 & W2 & _).
  destruct (propagate_sandbox a1 d1) as [[a2 d2] r2] eqn:E2.
  destruct (propagate_sandbox_spec true false a1 d1 P1 a2 d2 r2 E2) as (F1 & F2 & X2).
  destruct (sandbox_run true true false a1 d1 P1 a2 d2 r2 E2) as [U2 _].
  pose proof F1 as (A1 & A2 & A3 & _).
  destruct r2 as [|l rr|]; [| |contradiction].
  2:{ cbn [root_error elim_failed snd]. destruct (check_size cf d2); exact I. }
  cbn [root_error]. destruct (check_size cf d2); [|exact I]. cbn [negb].
  assert (O : stats_oob cf a2 = true).
  { unfold stats_oob. apply existsb_exists. exists n. split; [apply in_seq; rewrite A3, W2; fold n; lia|].
    rewrite (proj2 (Nat.ltb_lt _ _)) by lia. cbn [andb].
    destruct (val a2 n) as [b|] eqn:V; auto. exfalso.
    pose proof (Run_trans _ _ _ _ _ _ _ U1 U2) as U. destruct (free_run _ _ _ _ _ _ _ U n) as [R _].
    - intros x [Rx _] <-. unfold litval in Rx. rewrite Vn in Rx. discriminate.
    - intros c x Hx Hi. unfold live, live_of in Hx. apply filter_In in Hx as [Hx _]. apply in_map_iff in Hx as (i & <- & _). eauto.
    - apply (R (mklit n b)); [|now rewrite vi_mklit]. destruct X2 as [X2 _]. split.
      + apply litval_true_iff. now rewrite vi_mklit, sgn_mklit.
      + rewrite vi_mklit. apply root_level; [apply X2|congruence|congruence]. }
  rewrite O, orb_true_r. exact I.
Qed.

(** The hypotheses are met. *)
Example C46_disabled_example : exists a d a1 d1 a2 d2 vals, session [[1; 2]]%Z a d /\ add_var a d = (a1, d1) /\ add_var a1 d1 = (a2, d2) /\
  session [[1; 2]]%Z a1 d1 /\ nv a1 = 3 /\
  snd (solve (mkConfig false 0 100 2) p1 (repeat h1 10) a1 d1) = SAT vals /\
  snd (solve (mkConfig false 0 100 2) p1 (repeat h1 10) a2 d2) = OutOfBounds.
Proof.
  assert (K : match solver_try_from orc0 [[1; 2]]%Z with
              | BOk a d => let '(a1, d1) := add_var a d in let '(a2, d2) := add_var a1 d1 in
                match snd (solve (mkConfig false 0 100 2) p1 (repeat h1 10) a1 d1), snd (solve (mkConfig false 0 100 2) p1 (repeat h1 10) a2 d2) with
                | SAT vals, OutOfBounds => nv a =? 2 = true | _, _ => False end
              | _ => False end) by (vm_compute; auto).
  destruct (solver_try_from orc0 [[1; 2]]%Z) as [a d| | |] eqn:E0; try contradiction.
  destruct (add_var a d) as [a1 d1] eqn:E1. destruct (add_var a1 d1) as [a2 d2] eqn:E2.
  destruct (snd (solve (mkConfig false 0 100 2) p1 (repeat h1 10) a1 d1)) as [vals| | | | |] eqn:E4; try contradiction.
  destruct (snd (solve (mkConfig false 0 100 2) p1 (repeat h1 10) a2 d2)) as [| | | | |] eqn:E5; try contradiction.
  apply Nat.eqb_eq in K.
  assert (S : session [[1; 2]]%Z a d).
  { apply ses_vec with orc0; auto. intros c x [<-|[]] Hx. cbn in Hx. repeat (destruct Hx as [<-|Hx]; [lia|]). destruct Hx. }
  destruct (C46_add_var_keeps _ _ _ _ _ S E1) as (N & _ & _ & _ & _ & S1).
  exists a, d, a1, d1, a2, d2, vals. splits; auto; [apply S1; rewrite K; lia|lia].
Qed.
Example C51_memory_example : exists a d b e vals, session [[1; 2]]%Z a d /\ session [[1; 2]; [-1; 2]]%Z b e /\
  snd (solve (mkConfig true 1 100 2) p1 (repeat h1 10) a d) = SAT vals /\
  snd (solve (mkConfig true 1 100 2) p1 (repeat h1 10) b e) = Err XMemory.
Proof.
  assert (K : match solver_try_from orc0 [[1; 2]]%Z, solver_try_from orc0 [[1; 2]; [-1; 2]]%Z with
              | BOk a d, BOk b e =>
                match snd (solve (mkConfig true 1 100 2) p1 (repeat h1 10) a d), snd (solve (mkConfig true 1 100 2) p1 (repeat h1 10) b e) with
                | SAT vals, Err XMemory => True | _, _ => False end
              | _, _ => False end) by (vm_compute; auto).
  destruct (solver_try_from orc0 [[1; 2]]%Z) as [a d| | |] eqn:E0; try contradiction.
  destruct (solver_try_from orc0 [[1; 2]; [-1; 2]]%Z) as [b e| | |] eqn:E1; try contradiction.
  destruct (snd (solve (mkConfig true 1 100 2) p1 (repeat h1 10) a d)) as [vals| | | | |] eqn:E4; try contradiction.
  destruct (snd (solve (mkConfig true 1 100 2) p1 (repeat h1 10) b e)) as [| |[| |]| | |] eqn:E5; try contradiction.
  exists a, d, b, e, vals. splits; auto; eapply ses_vec; try eassumption; intros c x Hc Hx; cbn in Hc;
    repeat (destruct Hc as [<-|Hc]; [cbn in Hx; repeat (destruct Hx as [<-|Hx]; [lia|]); destruct Hx|]); destruct Hc.
Qed.
