(** C46: [solve] after [add_var]. The eliminator has tables for the variables that the solver
    had when it was created. *)
From Coq Require Import String List Arith Bool Lia ZArith Permutation.
From Verif Require Import Base HeapModel EmaModel AsgModel LitFacts AsgProofs C15_Trail CdbModel CdbProofs CdbOps PropModel SatSpec PropProofs PropLoop PropOps PropDb RootProofs RupSpec DratSpec DratRun DratOps DratRoot DratSearch ConflictModel ConflictProofs LogProofs HandleProofs PropMisc ElimModel ElimFacts ElimExt ElimProofs ElimVar ElimRun ElimTotal C12_Prop VivifyModel VivifyProofs QuietProofs Text CnfModel LitModel BuildModel Spec SolveModel C24_Simplify LitProofs SavProofs BuildProofs C04_Build LubyModel SolveProofs DratElim DratViv DratLoad DratPure DratSolve C01_Solve.
Import ListNotations.
Open Scope list_scope.
Open Scope nat_scope.
Local Opaque Nat.pow.

(** * Specification *)

(** A session on a solver created for [k] variables, in which [add_clause] and
    [add_assignment] are called, and every [add_var] is followed at once by an
    [add_assignment] of the new variable (the use in the documentation of [add_var],
    build.rs:76-95). *)
Inductive careful (k : nat) : list zclause -> asg -> cdb -> Prop :=
| car_start : forall cs a d, session cs a d -> nv a = k -> careful k cs a d
| car_clause : forall cs a d c a' d', careful k cs a d -> add_clause a d c = (a', d', None) -> careful k (c :: cs) a' d'
| car_assign : forall cs a d x a' d', careful k cs a d -> add_assignment a d x = (a', d', None) -> careful k ([x] :: cs) a' d'
| car_clause_err : forall cs a d c a' d' e, careful k cs a d -> add_clause a d c = (a', d', Some e) -> careful k cs a' d'
| car_assign_err : forall cs a d x a' d' e, careful k cs a d -> add_assignment a d x = (a', d', Some e) -> careful k cs a' d'
| car_var : forall cs a d a1 d1 x a' d', careful k cs a d -> (Z.of_nat (nv a) + 1 < 2 ^ 31)%Z -> add_var a d = (a1, d1) ->
    Z.abs x = Z.of_nat (nv a1) -> add_assignment a1 d1 x = (a', d', None) -> careful k ([x] :: cs) a' d'.

(** * Proofs *)

(** the variables from [k] on have a value and occur in no clause *)
Definition fixed (k : nat) (a : asg) (d : cdb) : Prop := forall v, k < v <= nv a ->
  (exists x, vi x = v /\ root a x) /\ forall c l, In c (live d) -> In l c -> vi l <> v.

Lemma fixed_run : forall k b a d a' d', Run b a d a' d' -> nv a' = nv a -> fixed k a d -> fixed k a' d'.
Proof.
  intros k b a d a' d' H N F v Hv. rewrite N in Hv. destruct (F v Hv) as [(x & X1 & X2) Y]. destruct (occ_run b _ _ _ _ _ _ H) as [H1 H2].
  split; [exists x; split; auto|]. intros c l. apply H2. exact Y.
Qed.
Lemma live_occurs : forall d v, occurs d v = true <-> exists c l, In c (live d) /\ In l c /\ vi l = v.
Proof.
  intros d v. unfold occurs, live, live_of. rewrite existsb_exists. split.
  - intros (c & Hc & H). apply existsb_exists in H as (l & Hl & E). apply Nat.eqb_eq in E. exists (content d c), l. splits; auto.
    apply filter_In. split; [apply in_map; auto|]. unfold content. destruct (lits (cl d c)); [destruct Hl|auto].
  - intros (c & l & Hc & Hl & E). apply filter_In in Hc as [Hc _]. apply in_map_iff in Hc as (i & <- & Hi). exists i. split; auto.
    apply existsb_exists. exists l. split; auto. now apply Nat.eqb_eq.
Qed.
Lemma fixed_oob : forall cf a d, fixed (cf_nv cf) a d -> prepare_oob cf a d = false /\ stats_oob cf a = false.
Proof.
  intros cf a d F.
  assert (V : forall v, cf_nv cf < v -> In v (seq 1 (nv a)) -> val a v <> None /\ occurs d v = false).
  { intros v H1 H2. apply in_seq in H2. destruct (F v ltac:(lia)) as [(x & <- & R & _) Y]. split.
    - intros X. unfold litval in R. rewrite X in R. discriminate.
    - destruct (occurs d (vi x)) eqn:E; auto. apply live_occurs in E as (c & l & H3 & H4 & H5). elim (Y c l H3 H4 H5). }
  split.
  - unfold prepare_oob. destruct (existsb _ _) eqn:E; auto. apply existsb_exists in E as (v & Hv & E). apply andb_prop in E as [E1 E2].
    apply Nat.ltb_lt in E1. destruct (V v E1 Hv) as [V1 V2]. rewrite V2, orb_false_r in E2. unfold free_var in E2.
    destruct (val a v); [discriminate|congruence].
  - unfold stats_oob. destruct (existsb _ _) eqn:E; auto. apply existsb_exists in E as (v & Hv & E). apply andb_prop in E as [E1 E2].
    apply Nat.ltb_lt in E1. destruct (V v ltac:(lia) Hv) as [V1 V2]. destruct (val a v); [discriminate|congruence].
Qed.

Lemma finish_oob : forall a d r, snd (finish (a, d, r)) = OutOfBounds -> r = SOob.
Proof.
  intros a d r E. destruct r as [|e| | |]; cbn [finish] in E; try discriminate; auto.
  - destruct (validate _ _ _); [discriminate|]. destruct (answer_vals _ _); discriminate.
  - destruct e as [e| |]; try discriminate. destruct e; discriminate.
Qed.
Lemma failed_oob : forall cf d e, elim_failed cf d e <> OutOfBounds.
Proof. intros cf d e. unfold elim_failed. destruct e; try discriminate; destruct (check_size cf d); discriminate. Qed.

(** [solve] stays within its tables *)
Lemma solve_fixed : forall {OP : Prop} F cf p hs a d, cf_elim cf = true -> (forall h, In h hs -> good_heur h) ->
  @PInv (mkModels (Sem a d) OP) true true a d none -> GI F a d -> Quiet d -> lims a = [] -> (forall v, eli a v = false) -> sav a = [] ->
  (Z.of_nat (nv a) < 2 ^ 31)%Z -> fixed (cf_nv cf) a d -> fits (nv a) (snd (fst (solve cf p hs a d))) -> snd (solve cf p hs a d) <> OutOfBounds.
Proof.
  intros OP F cf p hs a d Hc GH P G Q Hl He Hs Hn FX. unfold solve. rewrite Hc. cbn [negb andb].
  destruct (check_size cf d); [|intros _; discriminate]. cbn [negb].
  destruct (vivify (p_targets p) a d) as [[a1 d1] r1] eqn:E1.
  pose proof (@vivify_spec (mkModels (Sem a d) OP) _ _ _ _ P Hl _ _ _ E1) as S1.
  pose proof (@vivify_run (mkModels (Sem a d) OP) _ _ _ _ P Hl _ _ _ E1) as U1.
  pose proof (sav_vivify _ _ _ _ _ _ Hl E1) as V1.
  assert (Q1 : Quiet d1) by (eapply qle_quiet; [eapply qle_vivify; eauto|auto]).
  destruct r1 as [e|]; [intros _; destruct e; discriminate|].
  destruct S1 as (S1 & S2 & S3 & S4 & S5). destruct (gi_keep F _ _ _ _ _ _ _ G S1 S4 S5) as [G1 P1]. clear S1 S5.
  destruct S4 as (W1 & W2 & _). pose proof (fixed_run _ _ _ _ _ _ U1 W2 FX) as FX1.
  destruct (propagate_sandbox a1 d1) as [[a2 d2] r2] eqn:E2.
  destruct (propagate_sandbox_spec true false a1 d1 P1 a2 d2 r2 E2) as (F1 & F2 & X2).
  destruct (sandbox_run true true false a1 d1 P1 a2 d2 r2 E2) as [U2 U2'].
  pose proof (ss_sandbox _ _ _ _ _ E2) as V2.
  assert (Q2 : Quiet d2) by (eapply qle_quiet; [eapply qle_sandbox; eauto|auto]).
  pose proof F1 as (A1 & A2 & A3 & _). pose proof (fixed_run _ _ _ _ _ _ U2 A3 FX1) as FX2.
  destruct (root_error r2) as [e|] eqn:Er; [intros _; apply failed_oob|].
  destruct r2 as [|l rr|]; try discriminate. destruct X2 as [X1 X2].
  destruct (gi_keep F _ _ _ _ _ _ _ G1 X1 (oframe_wframe _ _ (aframe_oframe _ _ F1))) as [G2 P2].
  { apply back_frame; auto. }
  destruct (check_size cf d2); [|intros _; discriminate]. cbn [negb]. assert (N2 : nv a2 = nv a) by congruence.
  destruct (fixed_oob _ _ _ FX2) as [-> ->]. cbn [orb].
  destruct (prepare (cf_evo cf) a2 d2 occ_new) as [d3 o3] eqn:E3.
  destruct (prepare_spec (cf_evo cf) a2 d2 occ_new d3 o3 (pi_db _ _ _ _ _ (proj1 P2)) Q2 E3) as (B1 & B2 & B3 & B4).
  assert (FX3 : fixed (cf_nv cf) a2 d3).
  { assert (LE : live d3 = live d2) by (apply live_eq; [apply B1|intros c; now apply flagonly_content]). unfold fixed. rewrite LE. exact FX2. }
  apply full_weaken in P2. destruct (flag_keep F _ _ _ _ _ _ G2 P2 B1 B2) as [G3 P3].
  assert (L2 : lims a2 = []) by congruence.
  destruct (assert_pure (seq 1 (nv a2)) a2 d3 o3) as [[a4 d4] ok] eqn:E4.
  assert (RG : forall v, In v (seq 1 (nv a2)) -> 1 <= v <= nv a2 /\ eli a2 v = false).
  { intros v Hv. apply in_seq in Hv. split; [lia|]. rewrite A2, W1. apply He. }
  destruct (assert_pure_spec o3 _ _ _ _ _ _ P3 L2 B3 RG E4) as (-> & Pu & P4 & O4).
  pose proof (ss_pure _ _ _ _ _ _ _ L2 E4) as V4.
  pose proof (pure_keep F _ _ _ _ G3 Pu) as G4. destruct Pu as ((Y1 & Y2 & _ & _ & _ & _ & Y7) & _ & _ & Y4 & _).
  assert (FX4 : fixed (cf_nv cf) a4 d4).
  { intros v Hv. rewrite Y2 in Hv. destruct (FX3 v Hv) as [(x & <- & R1 & R2) Y]. split.
    - exists x. split; auto. assert (Nx : val a2 (vi x) <> None) by (intros Z; unfold litval in R1; rewrite Z in R1; discriminate).
      destruct (Y7 _ Nx) as [Z1 Z2]. split; [unfold litval in *; now rewrite Z1|congruence].
    - intros c l H1 H2 H3. assert (Oc : occurs d4 (vi x) = true) by (apply live_occurs; eauto).
      unfold occurs in Oc. apply existsb_exists in Oc as (i & I1 & I2). apply existsb_exists in I2 as (y & I2 & I3). rewrite Y4 in I2.
      apply Nat.eqb_eq in I3. assert (Li : In (content d3 i) (live d3)).
      { apply live_in; [apply P3|]. intros Z. unfold content in Z. rewrite Z in I2. elim I2. }
      exact (Y _ _ Li I2 I3). }
  unfold simplify_running. rewrite Hc.
  destruct (elim_simplify (cf_evo cf) (p_steps p) (a4, d4, o3)) as [[[a5 d5] o5] r5] eqn:E5.
  assert (L4 : lims a4 = []) by congruence. assert (N4 : nv a4 = nv a) by congruence.
  intros Hf. assert (Hn4 : fits (nv a4) d5).
  { rewrite N4. eapply lle_fits; [|exact Hf]. destruct r5 as [e|].
    - unfold elim_failed. destruct e; try destruct (check_size cf d5); apply lle_refl.
    - destruct (check_size cf d5); cbn [negb]; [|apply lle_refl]. cbv zeta. destruct (search _ _ _ _ _ d5) as [[a8 d8] r8] eqn:E8.
      rewrite finish_cdb. eapply lle_search; eauto. }
  pose proof (elim_simplify_spec (mkModels (Sem a4 d4) OP) _ _ _ _ _ _ _ _ _ P4 L4 Hn4 O4 E5) as S5.
  pose proof (@elim_simplify_run (mkModels (Sem a4 d4) OP) _ _ _ _ _ _ _ _ _ P4 L4 Hn4 O4 E5) as U5.
  pose proof (ss_elim_simplify _ _ _ _ _ _ _ _ _ L4 E5) as V5.
  pose proof (elim_keep F a4 d4 o3 a5 d5 o5 r5 G4 P4 L4) as K. rewrite B4 in K. specialize (K eq_refl).
  destruct r5 as [e|]; [apply failed_oob|].
  destruct S5 as (S5 & S6 & S7 & S8). destruct K as (K1 & K2 & K3 & K4); auto; try discriminate.
  destruct (check_size cf d5); [|discriminate]. cbn [negb] in *. cbv zeta in *.
  set (b := set_estk a5 (estk a5 ++ olits o5)) in *.
  destruct (phases_keep F _ _ _ _ _ (p_pha p) K1 K2) as [G6 P6].
  destruct (rebuild_keep F _ _ _ _ _ G6 P6) as [G7 P7].
  change (set_estk (asg_rebuild_order (set_phases a5 (p_pha p))) (estk (asg_rebuild_order (set_phases a5 (p_pha p))) ++ olits o5))
    with (asg_rebuild_order (set_phases b (p_pha p))) in *.
  set (c := asg_rebuild_order (set_phases b (p_pha p))) in *.
  assert (Sc : sav c = []).
  { change (sav a5 = []). destruct V2 as [V2 _], V4 as [V4 _], V5 as [V5 _]. congruence. }
  assert (Nc : nv c = nv a) by (change (nv a5 = nv a); change (nv a5 = nv a4) in K4; congruence).
  assert (Jc : J F c d5).
  { unfold J. splits; auto; [|congruence]. destruct P7 as [[C D V L K Rs Qh W S Kl Sm] Ca]. split; auto. constructor; auto.
    - intros x w Ef. apply W. revert Ef. apply rz_sub; auto. intros _ l HlS. rewrite Sc in HlS. elim HlS.
    - intros _ pre x post X. rewrite Sc in X. destruct pre; discriminate. }
  assert (FXc : fixed (cf_nv cf) c d5).
  { apply (fixed_run _ false a4 d4); auto. }
  destruct (search cf hs _ _ c d5) as [[a8 d8] r8] eqn:E8. rewrite finish_cdb in Hf. cbn [fst snd] in Hf. rewrite <- Nc in Hf. intros E. apply finish_oob in E. subst r8.
  destruct (search_run F cf hs _ _ c d5 a8 d8 SOob GH Jc Hf E8) as (b8 & e8 & R8 & N8 & O8).
  pose proof (fixed_run _ _ _ _ _ _ R8 N8 FXc) as FX8. apply fixed_oob in FX8 as [FX8 _]. congruence.
Qed.

(** ** sessions *)
Definition unused (v : nat) (a : asg) (d : cdb) : Prop := val a v <> None /\ forall c l, In l (content d c) -> vi l <> v.
Lemma unused_load : forall a d ls a' d' r v, LInv a d -> (forall l, In l ls -> 1 <= vi l <= nv a) -> unused v a d ->
  add_unchecked_clause a d ls = (a', d', r) -> unused v a' d'.
Proof.
  intros a d ls a' d' r v I R [U1 U2] E. pose proof (add_unchecked_spec a d ls I R) as X. rewrite E in X.
  destruct X as (X1 & [X2 _] & _). split; [destruct (val a v) as [b|] eqn:Ev; [|congruence]; rewrite (X2 v b Ev); discriminate|].
  unfold add_unchecked_clause in E. destruct ls as [|l0 ls0]; [now injection E as <- <- <-|]. set (ls := l0 :: ls0) in *.
  destruct (norm_loop (litval a) None (lsort ls)) as [vec|] eqn:En; [|now injection E as <- <- <-].
  destruct (norm_some _ _ _ _ En (lsort_sorted _)) as (_ & M & ND & _); [discriminate|].
  destruct vec as [|l1 [|l2 vec]]; [now injection E as <- <- <-|destruct (assign_at_root_level a l1) as [a1 []]; now injection E as <- <- <-|].
  set (w := l1 :: l2 :: vec) in *.
  assert (WF : wf_lits w) by (split; auto; cbn; lia).
  destruct (new_clause (lev a) d w false) as [d1 r1] eqn:Ec. injection E as <- <- <-.
  destruct (if length w =? 2 then bin_search d (nth 0 w 0) (nth 1 w 0) else None) as [c|] eqn:B.
  - unfold new_clause in Ec. rewrite B in Ec. injection Ec as <- <-. exact U2.
  - destruct (new_clause_added (lev a) d w false (li_db _ _ I) WF) as (d2 & c & E1 & Ad & _).
    { intros L. now rewrite L in B. }
    rewrite Ec in E1. injection E1 as -> ->. destruct Ad as [A1 A2 A3 A4 A5 A6 A7 A8 A9].
    intros x l Hl. destruct (Nat.eq_dec x c) as [->|Nx].
    + rewrite A4 in Hl. apply M in Hl as (_ & Hl & _). intros <-. apply U1. now apply litval_none_iff.
    + unfold content in Hl. rewrite A5 in Hl by auto. now apply (U2 x).
Qed.
Lemma unused_clause : forall a d c a' d' e v, LInv a d -> (Z.of_nat (nv a) < 2 ^ 31)%Z -> add_clause a d c = (a', d', e) -> nv a' = nv a /\
  (unused v a d -> unused v a' d').
Proof.
  intros a d c a' d' e v I Hn E. pose proof (add_clause_spec a d c I Hn) as X. rewrite E in X. destruct X as (_ & [_ X2] & _). split; auto.
  intros U. unfold add_clause in E. destruct (existsb (bad_lit (nv a)) c) eqn:B; [now injection E as <- <- <-|]. apply bad_false in B.
  destruct c as [|x0 c0]; [now injection E as <- <- <-|]. set (c := x0 :: c0) in *.
  destruct (add_unchecked_clause a d (map from_i32 c)) as [[a1 d1] r] eqn:E1.
  assert (W : unused v a1 d1).
  { eapply unused_load; eauto. intros l Hl. apply in_map_iff in Hl as (x & <- & Hx). apply inrange_vi; auto. rewrite Forall_forall in B. auto. }
  destruct r; now injection E as <- <- <-.
Qed.
Lemma unused_assign : forall a d x a' d' e v, LInv a d -> (Z.of_nat (nv a) < 2 ^ 31)%Z -> add_assignment a d x = (a', d', e) -> nv a' = nv a /\
  (unused v a d -> unused v a' d') /\ (e = None -> v = Z.abs_nat x -> (forall c l, In l (content d c) -> vi l <> v) -> unused v a' d').
Proof.
  intros a d x a' d' e v I Hn E. pose proof (add_assignment_spec a d x I Hn) as X. rewrite E in X. destruct X as (_ & [X1 X2] & _ & X3).
  assert (C : forall c, cl d' c = cl d c).
  { unfold add_assignment in E. destruct (bad_lit (nv a) x); [now injection E as <- <- <-|].
    destruct (litval a (from_i32 x)) as [[]|]; [now injection E as <- <- <-..|]. destruct (assign_at_root_level _ _) as [a1 []]; now injection E as <- <- <-. }
  splits; auto.
  - intros [U1 U2]. split.
    + destruct (val a v) as [b|] eqn:Ev; [|congruence]. rewrite (X1 v b Ev). discriminate.
    + intros c l. unfold content. rewrite C. apply U2.
  - intros -> -> U. split.
    + destruct (bad_lit (nv a) x) eqn:B; [unfold add_assignment in E; rewrite B in E; discriminate|]. apply bad_lit_false in B.
      destruct (X3 B) as (_ & _ & V & _). unfold zval in V. intros Z. rewrite Z in V. discriminate.
    + intros c l. unfold content. rewrite C. apply U.
Qed.
Lemma careful_inv : forall k cs a d, careful k cs a d -> session cs a d /\ k <= nv a /\ forall v, k < v <= nv a -> unused v a d.
Proof.
  induction 1 as [cs a d S N|cs a d c a' d' _ (S & L & U) E|cs a d x a' d' _ (S & L & U) E|cs a d c a' d' e _ (S & L & U) E|cs a d x a' d' e _ (S & L & U) E|cs a d a1 d1 x a' d' _ (S & L & U) Hn Ev Hx E].
  - splits; auto; [lia|intros v Hv; lia].
  - destruct (session_inv _ _ _ S) as [I1 _ I3 _ _ _]. destruct (unused_clause a d c a' d' _ 0 I1 I3 E) as [-> _]. splits; auto; [eapply ses_clause; eauto|].
    intros v Hv. eapply unused_clause; eauto.
  - destruct (session_inv _ _ _ S) as [I1 _ I3 _ _ _]. destruct (unused_assign a d x a' d' _ 0 I1 I3 E) as [-> _]. splits; auto; [eapply ses_assign; eauto|].
    intros v Hv. destruct (unused_assign _ _ _ _ _ _ v I1 I3 E) as (_ & X & _). auto.
  - destruct (session_inv _ _ _ S) as [I1 _ I3 _ _ _]. destruct (unused_clause a d c a' d' _ 0 I1 I3 E) as [-> _]. splits; auto; [eapply ses_clause_err; eauto|].
    intros v Hv. eapply unused_clause; eauto.
  - destruct (session_inv _ _ _ S) as [I1 _ I3 _ _ _]. destruct (unused_assign a d x a' d' _ 0 I1 I3 E) as [-> _]. splits; auto; [eapply ses_assign_err; eauto|].
    intros v Hv. destruct (unused_assign _ _ _ _ _ _ v I1 I3 E) as (_ & X & _). auto.
  - assert (S1 : session cs a1 d1) by (eapply ses_var; eauto).
    destruct (session_inv _ _ _ S) as [I1 _ I3 _ _ _]. destruct (session_inv _ _ _ S1) as [J1 _ J3 _ _ _].
    unfold add_var, cdb_new_var in Ev. injection Ev as <- <-.
    destruct (unused_assign _ d x a' d' _ 0 J1 J3 E) as [-> _]. cbn [nv asg_new_var set_nv] in *. splits; auto; [eapply ses_assign; eauto|].
    intros v Hv. destruct (Nat.eq_dec v (Datatypes.S (nv a))) as [->|Ne].
    + destruct (unused_assign _ _ _ _ _ _ (Datatypes.S (nv a)) J1 J3 E) as (_ & _ & X). apply X; auto; [lia|]. intros c l Hl Z. pose proof (li_vars _ _ I1 c l Hl). lia.
    + destruct (unused_assign _ _ _ _ _ _ v J1 J3 E) as (_ & X & _). apply X. apply U. lia.
Qed.

Lemma unused_fixed : forall k a d, LInv a d -> (forall v, k < v <= nv a -> unused v a d) -> fixed k a d.
Proof.
  intros k a d I U v Hv. destruct (U v Hv) as [U1 U2]. split.
  - destruct (val a v) as [b|] eqn:Ev; [|congruence]. exists (mklit v b). rewrite vi_mklit. split; auto. split.
    + apply litval_true_iff. now rewrite vi_mklit, sgn_mklit.
    + rewrite vi_mklit. eapply li_lev; eauto. congruence.
  - intros c l Hc Hl. unfold live, live_of in Hc. apply filter_In in Hc as [Hc _]. apply in_map_iff in Hc as (i & <- & _). eauto.
Qed.

(** * C46 *)

(** [add_var] adds one variable, and the clauses and values stay; the new variable has no value
    and is in no clause. *)
Theorem C46_add_var_keeps : forall cs a d a' d', session cs a d -> add_var a d = (a', d') ->
  nv a' = S (nv a) /\ (forall v, val a' v = val a v) /\ (forall c, content d' c = content d c) /\
  val a' (nv a') = None /\ (forall c l, In l (content d' c) -> vi l <> nv a') /\
  ((Z.of_nat (nv a) + 1 < 2 ^ 31)%Z -> session cs a' d').
Proof.
  intros cs a d a' d' S E. destruct (session_inv _ _ _ S) as [I1 _ I3 _ _ _]. pose proof E as E0.
  unfold add_var, cdb_new_var in E. injection E as <- <-. cbn. splits; auto.
  - destruct (val a (Datatypes.S (nv a))) eqn:V; auto. pose proof (coh_range _ (li_coh _ _ I1) (Datatypes.S (nv a))) as R. pose proof (R ltac:(congruence)). lia.
  - intros c l Hl X. pose proof (li_vars _ _ I1 c l Hl). lia.
  - intros Hn. eapply ses_var; eauto.
Qed.

(** The documented use: new variables are fixed at once. Then [solve] stays within the tables of
    the eliminator and its answers are right. *)
Theorem C46_documented_use : forall k cs a d cf p hs, careful k cs a d -> narrow (nv a) (snd (fst (solve cf p hs a d))) ->
  cf_elim cf = true -> cf_nv cf = k -> schedule hs ->
  match snd (solve cf p hs a d) with
  | SAT vals => length vals = nv a /\ forall c, In c cs -> exists x, In x c /\ In x vals
  | UNSAT => ~ zsatisfiable cs
  | Err _ | Running => True
  | Panic | OutOfBounds => False
  end.
Proof.
  intros k cs a d cf p hs Ca Hn Hc Hk Hs. destruct (careful_inv _ _ _ _ Ca) as (S & L & U).
  destruct (session_inv cs a d S) as [I1 I2 I3 I4 I5 I6].
  pose proof (narrow_fits _ _ Hn) as N. pose proof (lle_fits _ _ _ (lle_solve cf p hs a d) N) as N0.
  assert (O : snd (solve cf p hs a d) <> OutOfBounds).
  { apply (@solve_fixed False (fun m => holds m a d)); auto.
    - now apply linv_pinv.
    - now apply start_gi.
    - apply (li_lims _ _ I1).
    - apply (li_eli _ _ I1).
    - apply (li_sav _ _ I1).
    - rewrite Hk. now apply unused_fixed. }
  pose proof (session_solve cs a d cf p hs S Hn Hc Hs) as R.
  destruct (solve cf p hs a d) as [[a' d'] x] eqn:E. cbn [fst snd] in *. destruct x as [vals| | | | |]; auto.
  - split; [eapply (C03_solve cs a d); eauto|eapply (C01_solve cs a d); eauto].
  - eapply (C02_solve cs a d); eauto.
Qed.

(** Otherwise: after [add_var] alone, [solve] never answers SAT. If it does not find the clauses
    contradictory (or too many) before, it reads the tables past their end. *)
Theorem C46_free_variable_refuted : forall cs a d a' d' cf p hs, session cs a d -> add_var a d = (a', d') ->
  narrow (nv a') d' -> (Z.of_nat (nv a') < 2 ^ 31)%Z -> cf_elim cf = true -> cf_nv cf <= nv a ->
  match snd (solve cf p hs a' d') with
  | UNSAT | Err XMemory | OutOfBounds => True
  | _ => False
  end.
Proof.
  intros cs a d a' d' cf p hs S E Hw Hn Hc Hk. destruct (C46_add_var_keeps _ _ _ _ _ S E) as (Nv & _ & _ & Vn & Cn & S').
  assert (Sx : session cs a' d') by (apply S'; rewrite Nv in Hn; lia). clear S'.
  destruct (session_inv cs a' d' Sx) as [I1 I2 I3 I4 I5 I6]. set (n := nv a') in *.
  pose proof (narrow_fits _ _ Hw) as N.
  assert (P : @PInv (mkModels (Sem a' d') False) true true a' d' none) by now apply linv_pinv.
  pose proof (start_gi a' d' I1) as G. pose proof (li_lims _ _ I1) as Hl. pose proof (li_eli _ _ I1) as He.
  unfold solve. rewrite Hc. cbn [negb andb].
  destruct (check_size cf d'); [|exact I]. cbn [negb].
  destruct (vivify (p_targets p) a' d') as [[a1 d1] r1] eqn:E1.
  pose proof (@vivify_spec (mkModels (Sem a' d') False) _ _ _ _ P Hl _ _ _ E1) as S1.
  pose proof (@vivify_run (mkModels (Sem a' d') False) _ _ _ _ P Hl _ _ _ E1) as U1.
  destruct r1 as [e|]; [destruct S1 as [X _]; destruct e; try exact I; congruence|].
  destruct S1 as (S1 & S2 & S3 & S4 & S5). destruct (gi_keep _ _ _ _ _ _ _ _ G S1 S4 S5) as [G1 P1]. clear S1 S5.
  destruct S4 as (W1 & W2 & _).
  destruct (propagate_sandbox a1 d1) as [[a2 d2] r2] eqn:E2.
  destruct (propagate_sandbox_spec true false a1 d1 P1 a2 d2 r2 E2) as (F1 & F2 & X2).
  destruct (sandbox_run true true false a1 d1 P1 a2 d2 r2 E2) as [U2 _].
  pose proof F1 as (A1 & A2 & A3 & _).
  destruct r2 as [|l rr|]; [| |contradiction].
  2:{ cbn [root_error elim_failed snd]. destruct (check_size cf d2); exact I. }
  cbn [root_error]. destruct (check_size cf d2); [|exact I]. cbn [negb].
  assert (O : prepare_oob cf a2 d2 = true).
  { unfold prepare_oob. apply existsb_exists. exists n. split; [apply in_seq; rewrite A3, W2; fold n; lia|].
    rewrite (proj2 (Nat.ltb_lt _ _)) by lia. cbn [andb]. apply orb_true_iff. left. unfold free_var.
    rewrite A2, W1, He. destruct (val a2 n) as [b|] eqn:V; auto. exfalso.
    pose proof (Run_trans _ _ _ _ _ _ _ U1 U2) as U. destruct (free_run _ _ _ _ _ _ _ U n) as [R _].
    - intros x [Rx _] <-. unfold litval in Rx. rewrite Vn in Rx. discriminate.
    - intros c x Hx Hi. unfold live, live_of in Hx. apply filter_In in Hx as [Hx _]. apply in_map_iff in Hx as (i & <- & _). eauto.
    - apply (R (mklit n b)); [|now rewrite vi_mklit]. destruct X2 as [X2 _]. split.
      + apply litval_true_iff. now rewrite vi_mklit, sgn_mklit.
      + rewrite vi_mklit. apply root_level; [apply X2|congruence|congruence]. }
  rewrite O. exact I.
Qed.

(** The hypotheses are met: [try_from([[1, 2]])], [add_var], [add_assignment(-3)],
    [add_clause([3, -1, -2])], [solve]. *)
Example careful_ex : exists a d vals, careful 2 [[3; -1; -2]; [-3]; [1; 2]]%Z a d /\ nv a = 3 /\
  snd (solve (mkConfig true 0 100 2) p1 (repeat h1 10) a d) = SAT vals /\ nth 2 vals 0%Z = (-3)%Z.
Proof.
  assert (K : match solver_try_from orc0 [[1; 2]]%Z with
              | BOk a d => let '(a1, d1) := add_var a d in
                match add_assignment a1 d1 (-3)%Z with
                | (a2, d2, None) => match add_clause a2 d2 [3; -1; -2]%Z with
                   | (a3, d3, None) => match snd (solve (mkConfig true 0 100 2) p1 (repeat h1 10) a3 d3) with
                       | SAT vals => nv a =? 2 = true /\ nv a1 =? 3 = true /\ nv a3 =? 3 = true /\ nth 2 vals 0%Z = (-3)%Z
                       | _ => False end
                   | _ => False end
                | _ => False end
              | _ => False end) by (vm_compute; auto).
  destruct (solver_try_from orc0 [[1; 2]]%Z) as [a d| | |] eqn:E0; try contradiction.
  destruct (add_var a d) as [a1 d1] eqn:E1. destruct (add_assignment a1 d1 (-3)) as [[a2 d2] [e|]] eqn:E2; [contradiction|].
  destruct (add_clause a2 d2 [3; -1; -2]%Z) as [[a3 d3] [e|]] eqn:E3; [contradiction|].
  destruct (snd (solve (mkConfig true 0 100 2) p1 (repeat h1 10) a3 d3)) as [vals| | | | |] eqn:E4; try contradiction.
  destruct K as (K1 & K2 & K3 & K4). apply Nat.eqb_eq in K1, K2, K3. exists a3, d3, vals. splits; auto.
  apply car_clause with a2 d2; auto. apply car_var with a d a1 d1; auto; [|rewrite K1; reflexivity|rewrite K2; reflexivity].
  apply car_start; auto. apply ses_vec with orc0; auto. intros c x [<-|[]] Hx. cbn in Hx. repeat (destruct Hx as [<-|Hx]; [lia|]). destruct Hx.
Qed.


Print Assumptions C46_add_var_keeps.
Print Assumptions C46_documented_use.
Print Assumptions C46_free_variable_refuted.
