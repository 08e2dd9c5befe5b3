(** C64: the best assignment so far, and rephasing (RephaseModel.v). *)
From Coq Require Import String List Arith Bool Lia ZArith Permutation Sorting.Sorted.
From Verif Require Import Base HeapModel EmaModel AsgModel LitFacts AsgProofs C15_Trail CdbModel CdbProofs CdbOps PropModel SatSpec PropProofs PropLoop PropOps PropDb RootProofs ConflictModel ConflictProofs LogProofs HandleProofs PropMisc ElimModel ElimFacts ElimExt ElimProofs ElimVar ElimRun ElimTotal C12_Prop VivifyModel VivifyProofs QuietProofs Text CnfModel LitModel BuildModel Spec LitProofs BuildProofs C04_Build LubyModel SolveModel SolveProofs.
From Verif Require Import C01_Solve C57_Count RephaseModel RephaseProofs.
Import ListNotations.
Open Scope list_scope.
Open Scope nat_scope.
Local Opaque Nat.pow.

(** * Specification *)
Definition r_schedule (hs : list rheur) : Prop := forall h, In h hs -> forall l, Permutation l (h_order (r_h h) l).
(** the best assignment is a partial assignment of variables that exist, and the number of variables that
    were never reached ([NumUnreachableVar], shown as "unreachable core") is a number between 0 and the number of variables; while an assignment waits to be
    saved, at least as many variables are assigned or eliminated as were counted *)
Definition best_ok (a : asg) (b : best) : Prop :=
  NoDup (map fst (b_ph b)) /\ (forall v x, In (v, x) (b_ph b) -> 1 <= v <= nv a) /\
  (exists n, unreachable_vars a b = Some n /\ n <= nv a) /\
  (b_new b = true -> b_num b <= how_many a (fun v => gone a v || valued a v)).
(** the phase of a variable of the map *)
Fixpoint assoc (l : list (nat * bool)) (v : nat) : option bool :=
  match l with [] => None | (w, x) :: t => if v =? w then Some x else assoc t v end.

(** * Proofs *)
Lemma b_ok : forall a b, Coh a -> NelInv a -> BInv a b -> best_ok a b.
Proof.
  intros a b C N (B1 & B2 & B3 & B4). unfold best_ok. splits; auto.
  - unfold unreachable_vars. replace (b_num b <=? nv a) with true by (symmetry; now apply Nat.leb_le). eexists. split; eauto. lia.
  - intros F. destruct (B2 F) as [_ B]. eapply Nat.le_trans; [exact B|].
    destruct (coh_counted a C N) as (_ & D1 & D2 & _). cbn [derefer] in D1, D2. injection D1 as D1. injection D2 as D2.
    rewrite (how_many_split a _ (gone a) (valued a)); auto.
    + rewrite (how_many_split a (valued a) (fun v => valued a v && negb (on_trail a v)) (on_trail a)).
      * rewrite <- D1, <- D2. assert (T : how_many a (on_trail a) = length (tr a)); [|lia].
        rewrite <- (map_length vi). apply how_many_list; [now apply trail_vars|]. intros v. rewrite in_trail. split; [|tauto].
        intros Hv. split; auto. apply in_map_iff in Hv as (l & <- & Hl). apply (coh_range a C). rewrite (coh_val a C l Hl). discriminate.
      * intros v _. destruct (on_trail a v) eqn:T; [|now rewrite andb_true_r, orb_false_r].
        rewrite orb_true_r. apply in_trail, in_map_iff in T as (l & <- & Hl). unfold valued. now rewrite (coh_val a C l Hl).
      * intros v Hv T. rewrite T, andb_false_r in Hv. discriminate.
    + intros v G V. unfold gone in G. unfold valued in V. destruct (val a v) eqn:E; [|discriminate].
      destruct (coh_range a C v ltac:(congruence)). congruence.
Qed.

(** either the search is not reached, or it starts in a state that does not depend on the schedule *)
Lemma r_pre : forall cf p hs a d,
  r_solve cf p hs a d = (solve cf p [] a d, best_new) \/
  exists c e, solve cf p [] a d = finish (search cf [] (stage_initialize (p_stm p) 32) 0 c e) /\
    r_solve cf p hs a d = let '(s, b) := r_search cf hs (stage_initialize (p_stm p) 32) 0 c e best_new in (finish s, finish_best s b).
Proof.
  intros cf p hs a d. unfold r_solve, solve.
  destruct (negb (check_size cf d)); [auto|].
  destruct (vivify _ a d) as [[a1 d1] [e|]]; [left; destruct e; reflexivity|].
  destruct (propagate_sandbox a1 d1) as [[a2 d2] r2]. destruct (root_error r2); [auto|].
  destruct (negb (check_size cf d2)); [auto|]. destruct (_ || _); [auto|].
  destruct (if cf_elim cf then _ else _) as [d3 o3]. destruct (assert_pure _ a2 d3 o3) as [[a4 d4] [|]]; [|auto].
  destruct (simplify_running _ _ _) as [[[a5 d5] o5] [e|]]; [auto|].
  destruct (negb (check_size cf d5)); [auto|]. right. do 2 eexists. split; reflexivity.
Qed.
Lemma B_new : forall a, BInv a best_new.
Proof. intros a. unfold BInv, best_new. cbn. split; [lia|]. split; [discriminate|]. split; [constructor|intros v x []]. Qed.
(** the end of the search, by the answer *)
Lemma finish_ends : forall a d r a' d' x, finish (a, d, r) = (a', d', x) ->
  match x with
  | Running => r = SMore /\ a = a' /\ d = d'
  | SAT _ => r = SSat /\ cancel_until (set_eli a (fun _ => false)) 0 = a' /\ d = d'
  | Err (XSolver TimeOut) => r = SErr (XSolver TimeOut) /\ cancel_until a 0 = a' /\ d = d'
  | _ => True
  end.
Proof.
  intros a d r a' d' x EQ. destruct r as [|y| | |]; cbn [finish] in EQ.
  - destruct (validate _ _ _); [injection EQ as -> -> <-; exact I|].
    destruct (answer_vals _ _); injection EQ as X -> <-; auto.
  - destruct y as [y| |]; [|injection EQ as X -> <-; exact I..]. destruct y; injection EQ as X -> <-; auto.
  - injection EQ as _ _ <-. exact I.
  - injection EQ as _ _ <-. exact I.
  - injection EQ as -> -> <-. auto.
Qed.
Definition ends (x : answer) : Prop := match x with Running | SAT _ | Err (XSolver TimeOut) => True | _ => False end.
Lemma BInv_nv : forall a b, BInv a b -> b_new b = false -> best_ok a b.
Proof.
  intros a b (B1 & B2 & B3 & B4) F. unfold best_ok. splits; auto; [|congruence].
  unfold unreachable_vars. replace (b_num b <=? nv a) with true by (symmetry; now apply Nat.leb_le). eexists. split; eauto. lia.
Qed.
Lemma r_session_ends : forall cs a d cf p hs a' d' x b, session cs a d -> narrow (nv a) d' -> cf_elim cf = true -> r_schedule hs ->
  r_solve cf p hs a d = (a', d', x, b) -> ends x -> best_ok a' b.
Proof.
  intros cs a d cf p hs a' d' x b S Hn Hc Hs E En.
  destruct (r_pre cf p hs a d) as [X|(c & e & X1 & X2)].
  { rewrite X in E. injection E as _ <-. apply BInv_nv; [apply B_new|reflexivity]. }
  destruct (solve_sim cf p hs a d Hs) as (hs' & G' & _ & SE). rewrite E in SE. cbn [fst] in SE.
  destruct (session_inv cs a d S) as [I1 I2 I3 I4 I5 I6]. pose proof (narrow_fits _ _ Hn) as Hf.
  assert (N : fits (nv a) (snd (fst (solve cf p hs' a d)))) by (rewrite SE; exact Hf).
  pose proof (lle_fits _ _ _ (lle_solve cf p hs' a d) N) as N0.
  rewrite X2 in E. destruct (r_search _ _ _ _ c e best_new) as [[[a7 d7] r7] b7] eqn:E7. injection E as E Eb. clear X2.
  destruct (search_sim cf hs (stage_initialize (p_stm p) 32) 0 c e best_new Hs) as (hs2 & G2 & _ & S2). rewrite E7 in S2. cbn [fst] in S2.
  pose proof (finish_ends _ _ _ _ _ _ E) as FE.
  assert (De : d7 = d'). { pose proof (finish_cdb (a7, d7, r7)) as Y. unfold finish in Y. rewrite E in Y. cbn in Y. congruence. } subst d7.
  pose proof (lle_search _ _ _ _ _ _ _ _ _ S2) as LE.
  cbn [search] in X1. destruct ((0 <? unassigned_left c) || remains c) eqn:Ew.
  2:{ (* the search is over at once *)
      assert (Y : r_search cf hs (stage_initialize (p_stm p) 32) 0 c e best_new = (c, e, SSat, best_new)) by (destruct hs; cbn [r_search]; rewrite Ew; reflexivity).
      rewrite Y in E7. injection E7 as <- <- <- <-. cbn [finish_best] in Eb. subst b.
      cbn [finish] in E. destruct (validate _ _ _); [injection E as <- <-; contradiction En|].
      apply BInv_nv; [|unfold save; destruct (_ <=? _); reflexivity]. unfold save. destruct (_ <=? _); apply B_new. }
  cbn [finish] in X1.
  assert (N1 : fits (nv a) (snd (fst (solve cf p [] a d)))) by (rewrite X1; cbn; eapply lle_fits; eauto).
  destruct (@solve_cases False (fun m => holds m a d) cf p [] a d Hc) as [R|(c' & e' & Jc & Nc & EQ)]; auto.
  - now apply linv_pinv.
  - now apply start_gi.
  - apply (li_lims _ _ I1).
  - apply (li_eli _ _ I1).
  - apply (li_sav _ _ I1).
  - rewrite X1 in R. contradiction R.
  - rewrite X1 in EQ. cbn [search] in EQ. destruct ((0 <? unassigned_left c') || remains c').
    2:{ symmetry in EQ. apply finish_ends in EQ as (EQ & _). discriminate. }
    cbn [finish] in EQ. injection EQ as <- <-. rewrite <- Nc in Hf.
    pose proof (r_search_best _ cf hs _ _ c e best_new a7 d' r7 b7 Hs Jc Hf E7 (B_new c)) as BB.
    pose proof (search_spec _ cf hs2 _ _ c e a7 d' r7 G2 Jc Hf S2) as SS.
    assert (Z : (r7 = SSat \/ r7 = SErr (XSolver TimeOut)) -> nv a' = nv a7 -> best_ok a' b).
    { intros Hr Nv. assert (K : BInv a7 b7 /\ J (fun m => holds m a d) a7 d' /\ save a7 0 b7 = b).
      { destruct Hr as [-> | ->]; cbn [finish_best] in Eb; tauto. }
      destruct K as (K1 & (K2 & _) & K3). destruct (B_save0 a7 b7 (pi_coh _ _ _ _ _ (proj1 K2)) K1) as [W1 W2]. rewrite K3 in W1, W2.
      apply BInv_nv; auto. now apply (B_move a7). }
    destruct x as [vs| |[y| |]| | |]; try contradiction En.
    + destruct FE as (-> & Fa & _). apply Z; auto. rewrite <- Fa. apply (cancel_nel (set_eli a7 (fun _ => false)) 0).
    + destruct y; try contradiction En. destruct FE as (-> & Fa & _). apply Z; auto. rewrite <- Fa. apply (cancel_nel a7 0).
    + destruct FE as (-> & <- & _). cbn [finish_best] in Eb. subst b7. destruct SS as [(K & K2 & _) _]. apply b_ok; auto; [apply (pi_coh _ _ _ _ _ (proj1 K))|apply (gi_nel _ _ _ K2)].
Qed.
(** ** Rephasing *)
Lemma assoc_none : forall l v, ~ In v (map fst l) -> assoc l v = None.
Proof.
  induction l as [|[w x] l IH]; intros v H; auto. cbn in *. destruct (Nat.eqb_spec v w); [exfalso; auto|]. auto.
Qed.
Lemma rephased_assoc : forall l f v, NoDup (map fst l) -> rephased f l v = match assoc l v with Some x => x | None => f v end.
Proof.
  unfold rephased. induction l as [|[w x] l IH]; intros f v N; auto. cbn [fold_left fst snd map assoc] in *. inversion N as [|? ? N1 N2]; subst.
  rewrite IH by auto. destruct (Nat.eqb_spec v w) as [->|Hv].
  - rewrite assoc_none by auto. now rewrite upd_same.
  - destruct (assoc l v); auto. rewrite upd_other; auto.
Qed.
Lemma assoc_in : forall l v x, NoDup (map fst l) -> (In (v, x) l <-> assoc l v = Some x).
Proof.
  induction l as [|[w y] l IH]; intros v x N; cbn [assoc In map fst] in *; [split; [contradiction|discriminate]|].
  inversion N as [|? ? N1 N2]; subst. specialize (IH v x N2). destruct (Nat.eqb_spec v w) as [->|Hv].
  - split; [|intros [= <-]; auto]. intros [[= <-]|H]; auto. exfalso. apply N1. apply in_map_iff. exists (w, x). auto.
  - rewrite <- IH. split; auto. intros [[= -> ->]|H]; auto. congruence.
Qed.
Lemma opposed_iff : forall a v x, opposed a (v, x) = true <-> val a v = Some (negb x).
Proof.
  intros a v x. unfold opposed. cbn [fst snd]. destruct (val a v) as [y|]; [|split; discriminate]. rewrite eqb_true_iff. split; [now intros ->|now intros [= ->]].
Qed.
Lemma level0_iff : forall l i, StronglySorted lt l -> l <> [] -> (level_of l i = 0 <-> i < nth 0 l 0).
Proof.
  intros [|k l] i Hs Hn; [easy|]. cbn [nth]. inversion Hs as [|? ? S1 S2]; subst. unfold level_of. cbn [filter]. split.
  - intros H. destruct (k <=? i) eqn:E; [discriminate H|]. now apply Nat.leb_gt in E.
  - intros H. replace (k <=? i) with false by (symmetry; now apply Nat.leb_gt).
    assert (X : filter (fun p => p <=? i) l = []); [|now rewrite X].
    clear -S2 H. induction l as [|x l IH]; auto. inversion S2; subst. cbn. replace (x <=? i) with false by (symmetry; apply Nat.leb_gt; lia). auto.
Qed.
Lemma nth_error_skipn : forall (A : Type) n (l : list A) i, nth_error (skipn n l) i = nth_error l (n + i).
Proof. induction n as [|n IH]; intros [|x l] i; cbn; auto. destruct i; auto. Qed.
Lemma entries_iff : forall a, Coh a -> 0 < dlevel a -> forall v x, In (v, x) (best_entries a) <-> val a v = Some x /\ 0 < lev a v.
Proof.
  intros a C D v x. assert (L : lims a <> []) by (unfold dlevel in D; destruct (lims a); [cbn in D; lia|discriminate]).
  split.
  - intros H. split; [now apply (entries_ok a C)|]. unfold best_entries in H. apply in_flat_map in H as (l & Hl & H).
    apply In_nth_error in Hl as (i & Hi). rewrite nth_error_skipn in Hi. pose proof (coh_lev a C _ _ Hi) as Lv.
    destruct (val a (vi l)); [|destruct H]. destruct H as [[= <- _]|[]]. rewrite Lv.
    destruct (Nat.eq_dec (level_of (lims a) (len_upto a 0 + i)) 0) as [Z|Z]; [|lia].
    apply level0_iff in Z; auto; [|apply (coh_sorted a C)]. unfold len_upto in Z. lia.
  - intros [V Lv]. destruct (coh_ghost a C) as (k & _ & _ & K1 & K2).
    assert (T : In v (map vi (tr a))).
    { assert (X : In v (k ++ map vi (tr a))) by (apply K1; congruence). apply in_app_or in X as [X|X]; auto. apply K2 in X. lia. }
    apply in_map_iff in T as (l & <- & Hl). apply In_nth_error in Hl as (i & Hi).
    unfold best_entries. apply in_flat_map. exists l. split; [|rewrite V; left; reflexivity].
    pose proof (coh_lev a C _ _ Hi) as Lv'. rewrite Lv' in Lv.
    assert (G : len_upto a 0 <= i).
    { destruct (le_lt_dec (len_upto a 0) i) as [|Z]; auto. apply (proj2 (level0_iff (lims a) i (coh_sorted a C) L)) in Z. lia. }
    apply (nth_error_In _ (i - len_upto a 0)). rewrite nth_error_skipn. now replace (len_upto a 0 + (i - len_upto a 0)) with i by lia.
Qed.

(** * Theorems *)
(** The answers: with the phases that the code computes they are right, and the run does not panic. *)
Theorem C64_answers : forall cs a d cf p hs a' d' x b, session cs a d -> narrow (nv a) d' -> cf_elim cf = true -> r_schedule hs ->
  r_solve cf p hs a d = (a', d', x, b) ->
  (forall vals, x = SAT vals -> forall c, In c cs -> exists y, In y c /\ In y vals) /\
  (x = UNSAT -> ~ zsatisfiable cs) /\ (nv a <= cf_nv cf -> x <> Panic /\ x <> OutOfBounds).
Proof.
  intros cs a d cf p hs a' d' x b S Hn Hc Hs E. destruct (solve_sim cf p hs a d Hs) as (hs' & G' & _ & SE). rewrite E in SE. cbn [fst] in SE. splits.
  - intros vals ->. exact (C01_solve cs a d cf p hs' a' d' vals S Hn Hc G' SE).
  - intros ->. exact (C02_solve cs a d cf p hs' a' d' S Hn Hc G' SE).
  - intros Hv. destruct (C48_solve cs a d cf p hs' S) as (X1 & X2 & _); auto; [rewrite SE; auto|]. rewrite SE in *. auto.
Qed.
(** At any moment of the search, after a time out and after an answer SAT: *)
Theorem C64_during_partial : forall cs a d cf p hs a' d' x b, session cs a d -> narrow (nv a) d' -> cf_elim cf = true -> r_schedule hs ->
  r_solve cf p hs a d = (a', d', x, b) -> ends x -> best_ok a' b.
Proof. exact r_session_ends. Qed.
(** What is saved at any moment of the search above the root level: the variables that are assigned above
    the root level, with their values. *)
Theorem C64_saved_partial : forall cs a d cf p hs a' d' b, session cs a d -> narrow (nv a) d' -> cf_elim cf = true -> r_schedule hs ->
  r_solve cf p hs a d = (a', d', Running, b) -> 0 < dlevel a' -> b_new b = true ->
  forall v x, In (v, x) (b_ph (save a' 0 b)) <-> val a' v = Some x /\ 0 < lev a' v.
Proof.
  intros cs a d cf p hs a' d' b S Hn Hc Hs E Dl F v x. destruct (solve_sim cf p hs a d Hs) as (hs' & G' & _ & SE). rewrite E in SE. cbn [fst] in SE.
  destruct (session_stopped cs a d cf p hs' a' d' Running S Hn Hc G' SE (or_introl eq_refl)) as [(P & _) _].
  unfold save. replace (length (lims a') <=? 0) with false by (symmetry; apply Nat.leb_gt; exact Dl). rewrite F. cbn [b_ph].
  apply entries_iff; auto. apply (pi_coh _ _ _ _ _ (proj1 P)).
Qed.
(** Rephasing changes only phases. A map with an entry opposed to an assigned variable is dropped; so is a map that
    covers every variable that is left. Otherwise every variable of the map has the phase of
    the map, and the other variables keep theirs. *)
Theorem C64_rephase : forall a b a' b', best_ok a b -> rephase a b = (a', b') ->
  a' = set_phases a (pha a') /\
  (forall v, pha a' v = match assoc (b_ph b') v with Some x => x | None => pha a v end) /\
  (forall v x, In (v, x) (b_ph b') <->
    In (v, x) (b_ph b) /\ ~ (exists w y, In (w, y) (b_ph b) /\ val a w = Some (negb y)) /\ length (b_ph b) < nv a - nas a - nel a) /\
  ((exists w y, In (w, y) (b_ph b) /\ val a w = Some (negb y)) -> b_num b' = nas a + nel a) /\
  (~ (exists w y, In (w, y) (b_ph b) /\ val a w = Some (negb y)) -> b_num b' = b_num b) /\
  b_new b' = b_new b.
Proof.
  intros a b a' b' (N & _ & _ & _) E. pose proof (rephase_asg a b) as R. rewrite E in R. cbn [fst] in R.
  assert (O : existsb (opposed a) (b_ph b) = true <-> exists w y, In (w, y) (b_ph b) /\ val a w = Some (negb y)).
  { rewrite existsb_exists. split.
    - intros ([w y] & H1 & H2). apply opposed_iff in H2. eauto.
    - intros (w & y & H1 & H2). exists (w, y). split; auto. now apply opposed_iff. }
  split; [exact R|]. unfold rephase in E. destruct (b_ph b) as [|e0 l0] eqn:Eb.
  { injection E as <- <-. rewrite Eb. cbn [assoc In]. splits; auto; [tauto|]. intros (w & y & [] & _). }
  rewrite <- Eb in *. clear e0 l0 Eb. cbv zeta in E. unfold check_consistency in E.
  destruct (existsb (opposed a) (b_ph b)) eqn:Eo.
  - pose proof (proj1 O eq_refl) as W. cbn [b_ph b_new b_num length] in E.
    assert (X : a' = set_phases a (pha a) /\ b' = mkBest (b_new b) (nas a + nel a) []).
    { destruct (_ <=? _); injection E as <- <-; split; auto. }
    destruct X as [-> ->]. cbn [b_ph b_num b_new assoc In set_phases pha]. splits; auto; tauto.
  - assert (W : ~ exists w y, In (w, y) (b_ph b) /\ val a w = Some (negb y)) by (intros W; apply O in W; discriminate).
    destruct (_ <=? _) eqn:El; injection E as <- <-.
    + apply Nat.leb_le in El. cbn [b_ph b_num b_new assoc In]. splits; auto; try tauto. intros v x. split; [contradiction|]. intros (_ & _ & H). lia.
    + apply Nat.leb_gt in El. splits; auto; try tauto.
      * intros v. cbn [set_phases pha]. now apply rephased_assoc.
Qed.

(** ** A run *)
Definition rh (h : heur) : rheur := mkR h 0 0 0.
Lemma rh_schedule : forall h n, (forall l, Permutation l (h_order h l)) -> r_schedule (repeat (rh h) n).
Proof. intros h n H x Hx. apply repeat_spec in Hx as ->. exact H. Qed.
(** [parity5]: after 5 iterations seven variables of ten are assigned or eliminated, and the assignment waits to be saved *)
Example C64_example : exists a d a' d' b, session parity5 a d /\ narrow (nv a) d' /\ r_schedule (repeat (rh h1) 5) /\
  r_solve cf1 p1 (repeat (rh h1) 5) a d = (a', d', Running, b) /\ b_new b = true /\ 0 < dlevel a' /\ unreachable_vars a' b = Some 3.
Proof.
  assert (K : match solver_try_from orc0 parity5 with
    | BOk a d => match r_solve cf1 p1 (repeat (rh h1) 5) a d with (a', d', Running, b) => nv a = 10 /\ b_new b = true /\ Nat.ltb 0 (dlevel a') = true /\ unreachable_vars a' b = Some 3 | _ => False end
    | _ => False end) by (vm_compute; auto).
  destruct (solver_try_from orc0 parity5) as [a d| | |] eqn:E; try contradiction K.
  destruct (r_solve cf1 p1 _ a d) as [[[a' d'] x] b] eqn:Es. destruct x; try contradiction K. destruct K as (K0 & K1 & K2 & K3).
  exists a, d, a', d', b. splits; auto.
  - apply (ses_vec orc0); auto. intros c x Hc Hx. destruct (parity5_range c x Hc Hx). lia.
  - left. rewrite K0. reflexivity.
  - apply rh_schedule. intros l. apply Permutation_rev.
  - now apply Nat.ltb_lt.
Qed.
(** The assignment kept as "best so far" is not one that was reached without conflict: it is saved when the solver next
    backtracks, and by then the trail has grown into the conflict. In this run it counts 7 of the ten variables,
    has entries for all ten, and falsifies a clause of the problem. *)
Definition falsified_by (l : list (nat * bool)) (c : zclause) : Prop :=
  forall x, In x c -> assoc l (Z.to_nat (Z.abs x)) = Some (Z.ltb x 0).
Theorem C64_best_refuted : exists a d a' d' b c, session parity5 a d /\ narrow (nv a) d' /\ r_schedule (repeat (rh h1) 6) /\
  r_solve cf1 p1 (repeat (rh h1) 6) a d = (a', d', Running, b) /\
  b_num b = 7 /\ length (b_ph b) = 10 /\ In c parity5 /\ falsified_by (b_ph b) c.
Proof.
  assert (K : match solver_try_from orc0 parity5 with
    | BOk a d => match r_solve cf1 p1 (repeat (rh h1) 6) a d with (a', d', Running, b) => nv a = 10 /\ b_num b = 7 /\ length (b_ph b) = 10 /\
        existsb (fun c => forallb (fun x => match assoc (b_ph b) (Z.to_nat (Z.abs x)) with Some y => eqb y (Z.ltb x 0) | None => false end) c) parity5 = true
        | _ => False end
    | _ => False end) by (vm_compute; auto).
  destruct (solver_try_from orc0 parity5) as [a d| | |] eqn:E; try contradiction K.
  destruct (r_solve cf1 p1 _ a d) as [[[a' d'] x] b] eqn:Es. destruct x; try contradiction K. destruct K as (K0 & K1 & K2 & K3).
  apply existsb_exists in K3 as (c & Kc & K3). exists a, d, a', d', b, c. splits; auto.
  - apply (ses_vec orc0); auto. intros c0 x Hc Hx. destruct (parity5_range c0 x Hc Hx). lia.
  - left. rewrite K0. reflexivity.
  - apply rh_schedule. intros l. apply Permutation_rev.
  - intros x Hx. rewrite forallb_forall in K3. specialize (K3 x Hx). destruct (assoc _ _) as [y|]; [|discriminate]. apply eqb_prop in K3. congruence.
Qed.
