(** C57: the counters of variables ([asg.derefer(Tusize::…)], assign/mod.rs:192-250) are exact at
    every iteration of the search, and their subtractions never underflow. *)
From Coq Require Import String List Arith Bool Lia ZArith Permutation.
From Verif Require Import Base HeapModel EmaModel AsgModel LitFacts AsgProofs C15_Trail CdbModel CdbProofs CdbOps PropModel SatSpec PropProofs PropLoop PropOps PropDb RootProofs ConflictModel ConflictProofs LogProofs HandleProofs PropMisc ElimModel ElimFacts ElimExt ElimProofs ElimVar ElimRun ElimTotal C12_Prop VivifyModel VivifyProofs QuietProofs Text CnfModel LitModel BuildModel Spec LitProofs BuildProofs C04_Build LubyModel SolveModel SolveProofs.
From Verif Require Import C01_Solve.
Import ListNotations.
Open Scope list_scope.
Open Scope nat_scope.
Local Opaque Nat.pow.

(** * Model *)
(** assign/mod.rs:184-200 [Tusize], the counters of variables *)
Inductive tusize := NumVar | NumAssertedVar | NumEliminatedVar | NumUnassertedVar | NumUnassignedVar.
(** subtraction of [usize]: [None] where it underflows (a debug build panics, a release build
    wraps) *)
Definition sub_usize (x : option nat) (y : nat) : option nat :=
  match x with Some x => if y <=? x then Some (x - y) else None | None => None end.
(** assign/mod.rs:222-247 [derefer], the counters of variables *)
Definition derefer (a : asg) (k : tusize) : option nat :=
  match k with
  | NumVar => Some (nv a)
  | NumAssertedVar => Some (nas a)
  | NumEliminatedVar => Some (nel a)
  | NumUnassertedVar => sub_usize (sub_usize (Some (nv a)) (nas a)) (nel a)
  | NumUnassignedVar => sub_usize (sub_usize (sub_usize (Some (nv a)) (nas a)) (nel a)) (length (tr a))
  end.

(** * Specification *)
(** the number of variables with a property *)
Definition how_many (a : asg) (P : nat -> bool) : nat := length (filter P (seq 1 (nv a))).
(** [Var::is(ELIMINATED)], [assign(vi).is_some()], and the variables of the trail *)
Definition gone (a : asg) (v : nat) : bool := eli a v.
Definition valued (a : asg) (v : nat) : bool := match val a v with Some _ => true | None => false end.
Definition on_trail (a : asg) (v : nat) : bool := existsb (fun l => vi l =? v) (tr a).

Definition counted (a : asg) : Prop :=
  derefer a NumVar = Some (how_many a (fun _ => true)) /\
  derefer a NumEliminatedVar = Some (how_many a (gone a)) /\
  derefer a NumAssertedVar = Some (how_many a (fun v => valued a v && negb (on_trail a v))) /\
  derefer a NumUnassertedVar = Some (how_many a (fun v => negb (gone a v) && (negb (valued a v) || on_trail a v))) /\
  derefer a NumUnassignedVar = Some (how_many a (fun v => negb (gone a v) && negb (valued a v))).

(** * Proofs *)
Lemma how_many_list : forall a P l, NoDup l -> (forall v, In v l <-> (1 <= v <= nv a /\ P v = true)) -> how_many a P = length l.
Proof.
  intros a P l N H. unfold how_many. apply Nat.le_antisymm; apply NoDup_incl_length; auto.
  - apply NoDup_filter, seq_NoDup.
  - intros v Hv. apply filter_In in Hv as [Hv1 Hv2]. apply in_seq in Hv1. apply H. split; auto; lia.
  - intros v Hv. apply H in Hv as [Hv1 Hv2]. apply filter_In. split; auto. apply in_seq. lia.
Qed.
Lemma how_many_split : forall a P Q R, (forall v, 1 <= v <= nv a -> P v = Q v || R v) -> (forall v, Q v = true -> R v = true -> False) ->
  how_many a P = how_many a Q + how_many a R.
Proof.
  intros a P Q R H D. unfold how_many. assert (X : forall v, In v (seq 1 (nv a)) -> P v = Q v || R v) by (intros v Hv; apply in_seq in Hv; apply H; lia).
  induction (seq 1 (nv a)) as [|v l IH]; auto. cbn [filter]. rewrite (X v) by (left; auto).
  assert (IH' := IH (fun w Hw => X w (or_intror Hw))). specialize (D v).
  destruct (Q v), (R v); cbn [orb length]; try lia; exfalso; auto.
Qed.
Lemma in_trail : forall a v, on_trail a v = true <-> In v (map vi (tr a)).
Proof.
  intros a v. unfold on_trail. rewrite existsb_exists, in_map_iff. split.
  - intros (l & H1 & H2). apply Nat.eqb_eq in H2. eauto.
  - intros (l & H1 & H2). exists l. split; auto. now apply Nat.eqb_eq.
Qed.

Lemma filter_true : forall l : list nat, filter (fun _ => true) l = l.
Proof. induction l as [|x l IH]; cbn; auto. now rewrite IH. Qed.
Lemma coh_counted : forall a, Coh a -> NelInv a -> counted a.
Proof.
  intros a C NI. pose proof (counters_fit a C NI) as Fit. destruct NI as (L & L1 & L2 & L3).
  destruct (coh_ghost a C) as (k & K2 & K1 & K3 & _).
  destruct (NoDup_app_inv _ _ _ K1) as (Nk & Nt & Dk).
  assert (VE : forall v, valued a v = true -> 1 <= v <= nv a /\ eli a v = false).
  { intros v Hv. apply (coh_range a C). unfold valued in Hv. destruct (val a v); congruence. }
  assert (VK : forall v, valued a v = true <-> In v (k ++ map vi (tr a))).
  { intros v. rewrite <- K3. unfold valued. destruct (val a v); split; congruence. }
  assert (A0 : how_many a (fun _ => true) = nv a) by (unfold how_many; rewrite filter_true, seq_length; auto).
  assert (A1 : how_many a (gone a) = nel a).
  { rewrite <- L2. apply how_many_list; auto. intros v. rewrite <- L3. unfold gone. split; [intros H; split; auto; now apply (coh_elim a C)|tauto]. }
  assert (A2 : how_many a (fun v => valued a v && negb (on_trail a v)) = nas a).
  { rewrite <- K2. apply how_many_list; auto. intros v. split.
    - intros Hv. assert (X : valued a v = true) by (apply VK, in_or_app; auto). split; [now apply VE|]. rewrite X. cbn.
      destruct (on_trail a v) eqn:E; auto. apply in_trail in E. now elim (Dk v).
    - intros [_ Hv]. apply andb_prop in Hv as [H1 H2]. apply VK, in_app_or in H1 as [H1|H1]; auto.
      apply in_trail in H1. rewrite H1 in H2. discriminate. }
  assert (A3 : how_many a (on_trail a) = length (tr a)).
  { rewrite <- (map_length vi). apply how_many_list; auto. intros v. rewrite in_trail. split; [|tauto].
    intros Hv. split; auto. apply VE, VK, in_or_app. auto. }
  assert (B1 : nv a = nas a + nel a + how_many a (fun v => negb (gone a v) && (negb (valued a v) || on_trail a v))).
  { rewrite <- A0 at 1. rewrite (how_many_split a _ (fun v => (valued a v && negb (on_trail a v)) || gone a v) (fun v => negb (gone a v) && (negb (valued a v) || on_trail a v))).
    - rewrite (how_many_split a _ (fun v => valued a v && negb (on_trail a v)) (gone a)); [lia|auto|].
      intros v H1 H2. apply andb_prop in H1 as [H1 _]. apply VE in H1. unfold gone in H2. destruct H1; congruence.
    - intros v _. destruct (valued a v), (on_trail a v), (gone a v); reflexivity.
    - intros v. destruct (valued a v), (on_trail a v), (gone a v); discriminate. }
  assert (B2 : how_many a (fun v => negb (gone a v) && (negb (valued a v) || on_trail a v)) = length (tr a) + how_many a (fun v => negb (gone a v) && negb (valued a v))).
  { rewrite <- A3. apply how_many_split.
    - intros v _. destruct (on_trail a v) eqn:E; [|rewrite orb_false_r; reflexivity].
      apply in_trail in E. assert (X : valued a v = true) by (apply VK, in_or_app; auto). apply VE in X as [_ X]. unfold gone. now rewrite X, orb_true_r.
    - intros v H1 H2. apply in_trail in H1. assert (X : valued a v = true) by (apply VK, in_or_app; auto). rewrite X in H2. rewrite andb_false_r in H2. discriminate. }
  unfold counted, derefer. splits; try congruence.
  - cbn [sub_usize]. replace (nas a <=? nv a) with true by (symmetry; apply Nat.leb_le; lia). cbn [sub_usize].
    replace (nel a <=? nv a - nas a) with true by (symmetry; apply Nat.leb_le; lia). f_equal. lia.
  - cbn [sub_usize]. replace (nas a <=? nv a) with true by (symmetry; apply Nat.leb_le; lia). cbn [sub_usize].
    replace (nel a <=? nv a - nas a) with true by (symmetry; apply Nat.leb_le; lia). cbn [sub_usize].
    replace (length (tr a) <=? nv a - nas a - nel a) with true by (symmetry; apply Nat.leb_le; lia). f_equal. lia.
Qed.

(** * The states in which a run stops *)
(** A run of the search that is looked at between two iterations (with fewer choices in the
    schedule than the run has iterations, [Running] is the answer), or that ended by a time-out. *)
Definition stopped (x : answer) : Prop := x = Running \/ x = Err (XSolver TimeOut).
Lemma session_stopped : forall cs a d cf p hs a' d' x, session cs a d -> narrow (nv a) d' -> cf_elim cf = true -> schedule hs ->
  solve cf p hs a d = (a', d', x) -> stopped x -> J (fun m => holds m a d) a' d' /\ nv a' = nv a.
Proof.
  intros cs a d cf p hs a' d' x S Hn Hc Hs E St. destruct (session_inv cs a d S) as [I1 I2 I3 I4 I5 I6].
  apply narrow_fits in Hn. assert (N : fits (nv a) (snd (fst (solve cf p hs a d)))) by (rewrite E; exact Hn).
  pose proof (lle_fits _ _ _ (lle_solve cf p hs a d) N) as N0.
  destruct (@solve_cases False (fun m => holds m a d) cf p hs a d Hc) as [R|(c & e & Jc & Nc & EQ)]; auto.
  - now apply linv_pinv.
  - now apply start_gi.
  - apply (li_lims _ _ I1).
  - apply (li_eli _ _ I1).
  - apply (li_sav _ _ I1).
  - rewrite E in R. destruct St as [->| ->]; contradiction R.
  - rewrite E in EQ. destruct (search cf hs _ _ c e) as [[a8 d8] r8] eqn:E8.
    assert (X : (r8 = SMore /\ a8 = a' /\ d8 = d') \/ (r8 = SErr (XSolver TimeOut) /\ cancel_until a8 0 = a' /\ d8 = d')).
    { destruct r8 as [|y| | |]; cbn [finish] in EQ; try (injection EQ as -> -> ->; destruct St; discriminate).
      - destruct (validate _ _ _); [injection EQ as -> -> ->; destruct St; discriminate|].
        destruct (answer_vals _ _); injection EQ as -> -> ->; destruct St; discriminate.
      - right. destruct y as [y| |]; [|injection EQ as -> -> ->; destruct St; discriminate..].
        destruct y; injection EQ as -> -> ->; auto; destruct St; discriminate.
      - left. injection EQ as -> -> _. auto. }
    rewrite <- Nc in Hn. rewrite <- Nc. destruct X as [(-> & -> & ->)|(-> & <- & ->)].
    + exact (search_spec _ cf hs _ _ c e a' d' SMore Hs Jc Hn E8).
    + destruct (search_spec _ cf hs _ _ c e a8 d' _ Hs Jc Hn E8) as ((P & G & Q & B) & N8).
      destruct (restart_keep (fun m => holds m a d) false true a8 d' G P) as (G9 & P9 & L9 & N9).
      split; [|congruence]. unfold J. splits; auto; [|congruence]. now destruct (dlevel a8 =? 0).
Qed.

(** * C57 *)
(** While clauses are added, and at every iteration of the main loop of every run, on every
    problem, with every schedule, and after a time-out, the counters are exact and no subtraction underflows. *)
Theorem C57_before : forall cs a d, session cs a d -> counted a.
Proof.
  intros cs a d S. destruct (session_inv cs a d S) as [I1 I2 I3 I4 I5 I6]. apply coh_counted; [apply (li_coh _ _ I1)|].
  apply (gi_nel _ _ _ (start_gi a d I1)).
Qed.
Theorem C57_during : forall cs a d cf p hs a' d', session cs a d -> narrow (nv a) d' -> cf_elim cf = true -> schedule hs ->
  solve cf p hs a d = (a', d', Running) \/ solve cf p hs a d = (a', d', Err (XSolver TimeOut)) -> counted a' /\ nv a' = nv a.
Proof.
  intros cs a d cf p hs a' d' S Hn Hc Hs E. 
  assert (X : exists x, solve cf p hs a d = (a', d', x) /\ stopped x) by (destruct E as [E|E]; eexists; (split; [exact E|]); [now left|now right]).
  destruct X as (x & X1 & X2). destruct (session_stopped cs a d cf p hs a' d' x S Hn Hc Hs X1 X2) as [Jd Hv].
  split; auto. apply coh_counted; [apply Jd|apply Jd].
Qed.

Lemma coh_flags : forall a, Coh a -> Coh (set_eli a (fun _ => false)).
Proof.
  intros a C. destruct C. constructor; auto; try (intros v Hv; discriminate).
  intros v Hv. destruct (coh_range v Hv). auto.
Qed.
Lemma cancel_nel : forall a lv, nel (cancel_until a lv) = nel a /\ eli (cancel_until a lv) = eli a /\ nv (cancel_until a lv) = nv a.
Proof.
  intros a lv. destruct (le_lt_dec (length (lims a)) lv) as [H|H]; [now rewrite cancel_noop|].
  pose proof (cancel_fields a lv H) as X. cbv zeta in X. tauto.
Qed.
(** After an answer SAT the counters are exact when nothing had been eliminated. *)
Theorem C57_after_sat : forall cs a d cf p hs a' d' vals, session cs a d -> narrow (nv a) d' -> cf_elim cf = true -> schedule hs ->
  solve cf p hs a d = (a', d', SAT vals) -> derefer a' NumEliminatedVar = Some 0 -> counted a'.
Proof.
  intros cs a d cf p hs a' d' vals S Hn Hc Hs E Z. destruct (session_inv cs a d S) as [I1 I2 I3 I4 I5 I6].
  apply narrow_fits in Hn. assert (N : fits (nv a) (snd (fst (solve cf p hs a d)))) by (rewrite E; exact Hn).
  pose proof (lle_fits _ _ _ (lle_solve cf p hs a d) N) as N0.
  destruct (@solve_cases False (fun m => holds m a d) cf p hs a d Hc) as [R|(c & e & Jc & Nc & EQ)]; auto.
  - now apply linv_pinv.
  - now apply start_gi.
  - apply (li_lims _ _ I1).
  - apply (li_eli _ _ I1).
  - apply (li_sav _ _ I1).
  - rewrite E in R. contradiction R.
  - rewrite E in EQ. destruct (search cf hs _ _ c e) as [[a8 d8] r8] eqn:E8.
    assert (X : r8 = SSat /\ a' = cancel_until (set_eli a8 (fun _ => false)) 0 /\ d8 = d').
    { destruct r8 as [|x| | |]; cbn [finish] in EQ; try discriminate.
      - destruct (validate _ _ _); [discriminate|]. destruct (answer_vals _ _); [|discriminate]. injection EQ as -> -> ->. auto.
      - destruct x as [x| |]; try discriminate. destruct x; discriminate. }
    destruct X as (-> & -> & ->).
    rewrite <- Nc in Hn. destruct (search_spec _ cf hs _ _ c e a8 d' SSat Hs Jc Hn E8) as (J8 & _ & N8).
    destruct (cancel_nel (set_eli a8 (fun _ => false)) 0) as (K1 & K2 & K3). apply coh_counted.
    + apply cancel_coh, coh_flags. apply J8.
    + cbn [derefer] in Z. injection Z as Z. exists []. splits; [constructor|now rewrite Z|]. intros v. rewrite K2. cbn. split; [discriminate|tauto].
Qed.

(** ** What fails *)
(** After an answer SAT the flags of the eliminated variables are turned off (search.rs:190-195)
    but the counter is not: with one variable eliminated it says 1 where no variable is
    eliminated. [C47_again_refuted] is what this does to the next call. *)
Theorem C57_after_sat_refuted : exists cf p hs oracle cs a d, small cs /\ schedule hs /\ cf_elim cf = true /\
  solver_try_from oracle cs = BOk a d /\
  let '(a1, d1, r1) := solve cf p hs a d in
  r1 = SAT [1; -2; -3]%Z /\ derefer a1 NumEliminatedVar = Some 1 /\ (forall v, gone a1 v = false) /\ ~ counted a1.
Proof.
  exists cf0, (mkPrep [] [EVar 1] (fun _ => false) (stage_new 1)), (repeat h0 4 ++ repeat h1 0), orc0, [[1; 2; 3]; [-1; -2; 3]; [1; -2; -3]; [-1; 2; -3]]%Z.
  eexists. eexists. splits.
  - intros c x Hc Hx. cbn in Hc. repeat (destruct Hc as [<-|Hc]; [cbn in Hx; repeat (destruct Hx as [<-|Hx]; [lia|]); destruct Hx|]). destruct Hc.
  - apply h0_schedule.
  - reflexivity.
  - vm_compute. reflexivity.
  - vm_compute. splits; try reflexivity. intros (_ & X & _). discriminate.
Qed.

(** ** Non-triviality *)
(** A run on [parity5] stopped after 3 iterations: one of ten variables is eliminated, four are
    assigned, and the search goes on. *)
Example C57_example : exists a d a' d', solver_try_from orc0 parity5 = BOk a d /\ session parity5 a d /\
  solve cf1 (mkPrep [] [EVar 6; EVar 7] (fun _ => true) (stage_new 1)) (repeat h0 3 ++ repeat h1 0) a d = (a', d', Running) /\
  map (derefer a') [NumVar; NumAssertedVar; NumEliminatedVar; NumUnassertedVar; NumUnassignedVar] = map Some [10; 0; 1; 9; 5].
Proof.
  assert (K : match solver_try_from orc0 parity5 with
    | BOk a d => let '(a', d', r) := solve cf1 (mkPrep [] [EVar 6; EVar 7] (fun _ => true) (stage_new 1)) (repeat h0 3 ++ repeat h1 0) a d in
        r = Running /\ map (derefer a') [NumVar; NumAssertedVar; NumEliminatedVar; NumUnassertedVar; NumUnassignedVar] = map Some [10; 0; 1; 9; 5]
    | _ => False end).
  { vm_compute. split; reflexivity. }
  destruct (solver_try_from orc0 parity5) as [a d| | |] eqn:E; try contradiction K.
  destruct (solve _ _ _ a d) as [[a' d'] r] eqn:Es. destruct K as [-> K]. exists a, d, a', d'. splits; auto.
  apply (ses_vec orc0); auto. intros c x Hc Hx. destruct (parity5_range c x Hc Hx). lia.
Qed.
