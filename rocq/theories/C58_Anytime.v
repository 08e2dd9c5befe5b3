(** C58: between any two iterations of the search, and after a time-out, the solver still holds
    the problem: what it stores is equisatisfiable with the input, learnt clauses are redundant,
    a model of what is stored extends to a model of the input, and every assigned literal follows
    from the decisions. *)
From Coq Require Import String List Arith Bool Lia ZArith Permutation.
From Verif Require Import Base HeapModel EmaModel AsgModel LitFacts AsgProofs C15_Trail CdbModel CdbProofs CdbOps PropModel SatSpec PropProofs PropLoop PropOps PropDb RootProofs ConflictModel ConflictProofs LogProofs HandleProofs PropMisc ElimModel ElimFacts ElimExt ElimProofs ElimVar ElimRun ElimTotal C12_Prop VivifyModel VivifyProofs QuietProofs Text CnfModel LitModel BuildModel Spec LitProofs BuildProofs C04_Build LubyModel SolveModel SolveProofs.
From Verif Require Import C01_Solve C57_Count.
Import ListNotations.
Open Scope list_scope.
Open Scope nat_scope.
Local Opaque Nat.pow.

(** * Specification *)
(** [m] satisfies the live clauses [c] with [P c], and the literals assigned at the root level *)
Definition state_true (P : nat -> Prop) (m : zmodel) (a : asg) (d : cdb) : Prop :=
  (forall c, lits (cl d c) <> [] -> P c -> exists l, In l (lits (cl d c)) /\ m (Z.of_nat (vi l)) = sgn l) /\
  (forall v b, val a v = Some b -> lev a v = 0 -> m (Z.of_nat v) = b).
(** all the live clauses; those that are never forgotten: not learnt, or of two literals *)
Definition every (c : nat) : Prop := True.
Definition permanent (d : cdb) (c : nat) : Prop := lrn (cl d c) = false \/ length (lits (cl d c)) = 2.
(** the assignment that the solver would turn into its answer *)
Definition answer_of (a : asg) (m : zmodel) : nat -> option bool :=
  extend_model (estk a) (fun v => if eli a v then None else Some (m (Z.of_nat v))).
(** a decision: a literal assigned above the root without a reason *)
Definition decision (a : asg) (v : nat) : Prop := exists k, rsn a v = RDecision k /\ 0 < k.

(** * Proofs *)
Lemma state_sem : forall m a d, state_true every m a d <-> Sem a d (tm m).
Proof.
  intros m a d. unfold state_true, Sem, sat, ltrue, tm, content, every. split; intros [H1 H2]; split; auto.
  - intros l Hl Hv. apply litval_true_iff in Hl. auto.
  - intros v b Hv Hl. specialize (H2 (mklit v b)). rewrite vi_mklit, sgn_mklit in H2. apply H2; auto.
    apply litval_true_iff. now rewrite vi_mklit, sgn_mklit.
Qed.
Lemma state_semk : forall m a d, state_true (permanent d) m a d <-> SemK a d (tm m).
Proof.
  intros m a d. unfold state_true, SemK, sat, ltrue, tm, content, permanent, keep. split; intros [H1 H2]; split; auto.
  - intros l Hl Hv. apply litval_true_iff in Hl. auto.
  - intros v b Hv Hl. specialize (H2 (mklit v b)). rewrite vi_mklit, sgn_mklit in H2. apply H2; auto.
    apply litval_true_iff. now rewrite vi_mklit, sgn_mklit.
Qed.
Lemma tm_zm : forall m, tm (zm m) = fun v => m (Z.to_nat (Z.of_nat v)).
Proof. reflexivity. Qed.
Lemma sem_ext : forall a d m m', (forall v, m v = m' v) -> Sem a d m -> Sem a d m'.
Proof.
  intros a d m m' H [H1 H2]. split.
  - intros c Hc. destruct (H1 c Hc) as (l & L1 & L2). exists l. split; auto. unfold ltrue in *. now rewrite <- H.
  - intros l Hl Hv. unfold ltrue in *. rewrite <- H. now apply H2.
Qed.

Lemma neg_contra : forall (m : model) x, ltrue m (neg x) -> ltrue m x -> False.
Proof. intros m x. unfold ltrue. rewrite vi_neg, sgn_neg. destruct (m (vi x)), (sgn x); discriminate. Qed.
(** everything assigned follows from the decisions below it *)
Lemma implied_from : forall {GM : Models} full sv a d ex (m : model), PRest full sv a d ex -> Sem a d m ->
  forall i l, nth_error (tr a) i = Some l ->
  (forall v b, val a v = Some b -> decision a v -> lev a v <= lev a (vi l) -> m v = b) -> ltrue m l.
Proof.
  intros GM full sv a d ex m P [S1 S2] i. pose proof (pi_coh _ _ _ _ _ P) as C.
  induction i as [i IH] using (well_founded_induction lt_wf). intros l Hi Hd.
  pose proof (coh_val a C l (nth_error_In _ _ Hi)) as Vl.
  destruct (Nat.eq_dec (lev a (vi l)) 0) as [Z|Z]; [apply S2; auto; now apply litval_true_iff|].
  assert (B : forall x, before a i x -> ltrue m x).
  { intros x [(j & J1 & J2)|[X1 X2]]; [|now apply S2]. apply (IH j J1 x J2). intros v b Hv Hdec Hl. apply Hd; auto.
    rewrite (coh_lev a C j x J2) in Hl. rewrite (coh_lev a C i l Hi).
    pose proof (level_of_mono (lims a) j i (Nat.lt_le_incl _ _ J1)). lia. }
  assert (Z' : 0 < lev a (vi l)) by lia. pose proof (pi_rsn _ _ _ _ _ P i l Hi Z') as R. destruct (rsn a (vi l)) as [k|k|c|] eqn:Er; cbn in R.
  - destruct R as [(c & Pc) Bk]. apply B in Bk.
    destruct (S1 c) as (x & X1 & X2). { intros E. rewrite E in Pc. apply Permutation_length in Pc. discriminate. }
    apply (Permutation_in _ Pc) in X1 as [<-|[<-|[]]]; auto. exfalso. exact (neg_contra m _ X2 Bk).
  - unfold ltrue. apply Hd; auto. exists k. split; auto. lia.
  - destruct R as (R1 & R2 & R3). destruct (S1 c R1) as (x & X1 & X2).
    destruct (Nat.eq_dec x l) as [->|N]; auto. apply (R3 x X1) in N. apply B in N. exfalso. exact (neg_contra m _ N X2).
  - contradiction.
Qed.

(** * C58 *)
Section Stopped.
Context (cs : list zclause) (a : asg) (d : cdb) (cf : config) (p : prep) (hs : list heur) (a' : asg) (d' : cdb) (x : answer)
  (S : session cs a d) (Hn : narrow (nv a) d') (Hc : cf_elim cf = true) (Hs : schedule hs)
  (E : solve cf p hs a d = (a', d', x)) (St : stopped x).
Lemma stopped_fwd : zsatisfiable cs -> exists m, state_true every m a' d'.
Proof.
  destruct (session_stopped cs a d cf p hs a' d' x S Hn Hc Hs E St) as [(P & G & _) _].
  destruct (session_inv cs a d S) as [I1 I2 I3 I4 I5 I6]. intros (m & Hm0). assert (Hm : holds (tm m) a d) by (apply holds_contents, I5; exact Hm0).
  destruct (gi_fwd _ _ _ G (ex_intro (fun z => holds z a d) (tm m) Hm)) as (m' & Hm'). exists (zm m'). apply state_sem. rewrite tm_zm.
  revert Hm'. apply sem_ext. intros v. now rewrite Nat2Z.id.
Qed.
Lemma stopped_learnt : forall m, state_true (permanent d') m a' d' -> state_true every m a' d'.
Proof.
  destruct (session_stopped cs a d cf p hs a' d' x S Hn Hc Hs E St) as [(P & G & _) _].
  intros m Hm. apply state_semk in Hm. apply state_sem. now apply (gi_red _ _ _ G).
Qed.
Lemma stopped_extends : forall m, state_true (permanent d') m a' d' ->
  (forall v, 1 <= v <= nv a' -> answer_of a' m v <> None) /\
  zcnf_true (fun z => match answer_of a' m (Z.to_nat z) with Some b => b | None => false end) cs.
Proof.
  destruct (session_stopped cs a d cf p hs a' d' x S Hn Hc Hs E St) as [(P & G & _) N].
  destruct (session_inv cs a d S) as [I1 I2 I3 I4 I5 I6]. destruct G as [_ _ (es & G3 & G4 & G5) _].
  intros m Hm. apply state_semk in Hm. unfold answer_of. rewrite G3.
  set (q := fun v => if eli a' v then None else Some (m (Z.of_nat v))).
  destruct (extend_total a' es q G4) as [T1 T2]. { intros v Hv He. unfold q. rewrite He. discriminate. }
  split; auto.
  assert (K : SemK a' d' (total_of q)).
  { destruct Hm as [M1 M2]. split.
    - intros c Hc1 Hc2. destruct (M1 c Hc1 Hc2) as (l & L1 & L2). exists l. split; auto. unfold ltrue, total_of, q.
      destruct (pi_vars _ _ _ _ _ (proj1 P) c l L1) as [_ ->]. exact L2.
    - intros l Hl1 Hl2. specialize (M2 l Hl1 Hl2). unfold ltrue, total_of, q.
      assert (X : val a' (vi l) <> None) by (apply litval_true_iff in Hl1; congruence).
      apply (coh_range a' (pi_coh _ _ _ _ _ (proj1 P))) in X as [_ ->]. exact M2. }
  apply G5 in K. apply zm_contents, I5 in K. intros c Hin. destruct (K c Hin) as (y & Y1 & Y2). exists y. split; auto.
  destruct (I4 c y Hin Y1) as [Y3 Y4].
  assert (R : 1 <= Z.to_nat (Z.abs y) <= nv a') by (rewrite N; lia).
  specialize (T1 _ R). destruct (extend_model (flat es) q (Z.to_nat (Z.abs y))) as [b|] eqn:Eb; [|now elim T1].
  pose proof (T2 _ _ Eb) as Eb'. unfold zlit_true, zm in *. rewrite Eb' in Y2. cbv beta. destruct (y <? 0)%Z; rewrite Eb; exact Y2.
Qed.
Lemma stopped_implied : forall m v b, state_true every m a' d' -> val a' v = Some b ->
  (forall w c, val a' w = Some c -> decision a' w -> lev a' w <= lev a' v -> m (Z.of_nat w) = c) -> m (Z.of_nat v) = b.
Proof.
  destruct (session_stopped cs a d cf p hs a' d' x S Hn Hc Hs E St) as [(P & G & _) _].
  intros m v b Hm Hv Hd. apply state_sem in Hm. pose proof (pi_coh _ _ _ _ _ (proj1 P)) as C.
  destruct (Nat.eq_dec (lev a' v) 0) as [Z|Z].
  - destruct Hm as [_ M2]. specialize (M2 (mklit v b)). unfold ltrue, tm in M2. rewrite vi_mklit, sgn_mklit in M2. apply M2; auto.
    apply litval_true_iff. now rewrite vi_mklit, sgn_mklit.
  - destruct (coh_ghost a' C) as (k & K1 & K2 & K3 & K4).
    assert (X : In v (k ++ map vi (tr a'))) by (apply K3; congruence).
    apply in_app_or in X as [X|X]; [now elim (Z (K4 v X))|]. apply in_map_iff in X as (l & <- & Hl).
    rewrite (coh_val a' C l Hl) in Hv. injection Hv as <-. apply In_nth_error in Hl as [i Hi].
    apply (implied_from _ _ _ _ _ (tm m) (proj1 P) Hm i l Hi). auto.
Qed.
End Stopped.

(** The problem and what is stored, with the root-level literals, are equisatisfiable. *)
Theorem C58_equisatisfiable : forall cs a d cf p hs a' d' x, session cs a d -> narrow (nv a) d' -> cf_elim cf = true -> schedule hs ->
  solve cf p hs a d = (a', d', x) -> stopped x -> (zsatisfiable cs <-> exists m, state_true every m a' d').
Proof.
  intros cs a d cf p hs a' d' x S Hn Hc Hs E St. split; [eapply stopped_fwd; eauto|]. intros (m & M1 & M2).
  eexists. eapply stopped_extends; eauto. split; [|exact M2]. intros c Hc1 _. apply M1; auto. exact I.
Qed.
(** Learnt clauses are consequences of the others. *)
Theorem C58_learnt : forall cs a d cf p hs a' d' x m, session cs a d -> narrow (nv a) d' -> cf_elim cf = true -> schedule hs ->
  solve cf p hs a d = (a', d', x) -> stopped x -> state_true (permanent d') m a' d' -> state_true every m a' d'.
Proof. intros cs a d cf p hs a' d' x m S Hn Hc Hs E St. eapply stopped_learnt; eauto. Qed.
(** Every model of what is stored extends, through the stack of eliminated clauses, to a model of the problem. *)
Theorem C58_extends : forall cs a d cf p hs a' d' x m, session cs a d -> narrow (nv a) d' -> cf_elim cf = true -> schedule hs ->
  solve cf p hs a d = (a', d', x) -> stopped x -> state_true (permanent d') m a' d' ->
  (forall v, 1 <= v <= nv a' -> answer_of a' m v <> None) /\
  zcnf_true (fun z => match answer_of a' m (Z.to_nat z) with Some b => b | None => false end) cs.
Proof. intros cs a d cf p hs a' d' x m S Hn Hc Hs E St. eapply stopped_extends; eauto. Qed.
(** Every assigned literal follows from what is stored and the decisions of its level and below. *)
Theorem C58_implied : forall cs a d cf p hs a' d' x m v b, session cs a d -> narrow (nv a) d' -> cf_elim cf = true -> schedule hs ->
  solve cf p hs a d = (a', d', x) -> stopped x -> state_true every m a' d' -> val a' v = Some b ->
  (forall w c, val a' w = Some c -> decision a' w -> lev a' w <= lev a' v -> m (Z.of_nat w) = c) -> m (Z.of_nat v) = b.
Proof. intros cs a d cf p hs a' d' x m v b S Hn Hc Hs E St. eapply stopped_implied; eauto. Qed.

(** ** Non-triviality *)
(** a schedule whose time is over at the first end of a stage, and a problem with a solution *)
Definition ht : heur := mkHeur (fun _ _ => false) (fun _ => true) (Some true) (fun _ => true) (fun _ => true) (@rev nat)
  (fun _ => 1) (fun _ => false) [] [] false.
Definition pe : prep := mkPrep [] [EVar 6] (fun _ => true) (stage_new 1).
Lemma ht_schedule : forall n, schedule (repeat ht n).
Proof. intros n h H l. apply repeat_spec in H. subst h. cbn. apply Permutation_rev. Qed.
Lemma parity5_tl : forall c x, In c (tl parity5) -> In x c -> x <> 0%Z /\ (Z.abs x <= 10)%Z.
Proof. intros c x Hc Hx. apply (parity5_range c x); auto. destruct parity5 as [|y l]; [destruct Hc|]. right. exact Hc. Qed.
(** A run that ends by a time-out with one variable eliminated and 32 learnt clauses. *)
Example C58_example : exists a d a' d', solver_try_from orc0 (tl parity5) = BOk a d /\ session (tl parity5) a d /\
  narrow (nv a) d' /\ cf_elim cf1 = true /\ schedule (repeat ht 120) /\
  solve cf1 pe (repeat ht 120) a d = (a', d', Err (XSolver TimeOut)) /\
  nel a' = 1 /\ length (filter (fun c => lrn (cl d' c)) (seq 1 (ncl d'))) = 32.
Proof.
  assert (K : match solver_try_from orc0 (tl parity5) with
    | BOk a d => let '(a', d', r) := solve cf1 pe (repeat ht 120) a d in
        r = Err (XSolver TimeOut) /\ nel a' = 1 /\ length (filter (fun c => lrn (cl d' c)) (seq 1 (ncl d'))) = 32 /\ nv a = 10
    | _ => False end) by (vm_compute; splits; reflexivity).
  destruct (solver_try_from orc0 (tl parity5)) as [a d| | |] eqn:E; try contradiction K.
  destruct (solve _ _ _ a d) as [[a' d'] r] eqn:Es. destruct K as (-> & K1 & K2 & K3). exists a, d, a', d'. splits; auto.
  - apply (ses_vec orc0); auto. intros c x Hc Hx. destruct (parity5_tl c x Hc Hx). lia.
  - left. rewrite K3. reflexivity.
  - apply ht_schedule.
Qed.

(** ** What fails *)
(** After that time-out the solver holds the problem, but calling [solve] again panics: the
    eliminated variable is asserted as a pure literal (search.rs:95-119 does not skip it), and is then
    counted twice. *)
Theorem C58_again_refuted : exists cf p p' hs hs' oracle cs a d, small cs /\ schedule hs /\ schedule hs' /\ cf_elim cf = true /\
  solver_try_from oracle cs = BOk a d /\ zsatisfiable cs /\
  let '(a1, d1, r1) := solve cf p hs a d in
  r1 = Err (XSolver TimeOut) /\ snd (solve cf p' hs' a1 d1) = Panic.
Proof.
  exists cf1, pe, p1, (repeat ht 120), (repeat h0 0 ++ repeat h1 200), orc0, (tl parity5).
  assert (K : match solver_try_from orc0 (tl parity5) with
    | BOk a d => let '(a1, d1, r1) := solve cf1 pe (repeat ht 120) a d in
        r1 = Err (XSolver TimeOut) /\ snd (solve cf1 p1 (repeat h0 0 ++ repeat h1 200) a1 d1) = Panic
    | _ => False end) by (vm_compute; splits; reflexivity).
  destruct (solver_try_from orc0 (tl parity5)) as [a d| | |] eqn:E; try contradiction K. exists a, d. splits.
  - intros c x Hc Hx. destruct (parity5_tl c x Hc Hx). lia.
  - apply ht_schedule.
  - apply h0_schedule.
  - reflexivity.
  - reflexivity.
  - exists (fun _ => false). intros c Hc.
    assert (F : forallb (fun c => existsb (fun x => (x <? 0)%Z) c) (tl parity5) = true) by reflexivity.
    rewrite forallb_forall in F. apply F in Hc. apply existsb_exists in Hc as (x & X1 & X2). exists x. split; auto.
    unfold zlit_true. now rewrite X2.
  - exact K.
Qed.
