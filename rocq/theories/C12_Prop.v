(** C12, C13, C14, C41, C45: unit propagation is sound, complete, and reports only real
    conflicts; replaying the saved trail does not change the meaning; the search for a
    new watch inspects every literal. Also C29: at level 0 no clause is a reason. *)
From Coq Require Import List Arith Bool Lia Permutation.
From Verif Require Import Base HeapModel AsgModel LitFacts AsgProofs C15_Trail CdbModel CdbProofs CdbOps C21_Db SatSpec PropModel PropProofs PropLoop PropOps PropDb RootProofs PropMisc ConflictModel ConflictProofs HandleProofs VivifyModel VivifyProofs.
Import ListNotations.

(** * Histories of the search engine *)

(** the assignment stack, the clause database, the conflict under treatment, and whether
    the saved trail is stale (a clause was removed, or a sandbox was left, since it was
    saved: the code always clears or overwrites it before the next [propagate]) *)
Record pstate := mkPs { ps_a : asg; ps_d : cdb; ps_cf : option (lit * areason); ps_stale : bool }.

Inductive pop :=
| PAdd (vec : list lit) (learnt : bool)          (* new_clause *)
| PAssert (l : lit)                              (* assign_at_root_level at level 0 *)
| PDecide (l : lit)                              (* assign_by_decision *)
| PBranch                                        (* select_decision_literal, assign_by_decision *)
| PPropagate (skip : nat -> nat -> bool)         (* propagate *)
| PSandbox                                       (* propagate_sandbox *)
| PCancel (lv : nat)                             (* cancel_until *)
| PBacktrack                                     (* backtrack_sandbox *)
| PHandle (deepen : list lit -> bool)            (* handle_conflict *)
| PRemove (c : nat)                              (* remove_clause at level 0 *)
| PReduce (cand : nat -> bool) (order : list nat -> list nat) (keep : nat -> nat)   (* reduce at level 0 *)
| PClear                                         (* clear_asserted_literals at level 0 *)
| PEliminate (v : nat)                           (* make_var_eliminated, no clause on v left *)
| PStage                                         (* event Stage: clear_saved_trail *)
| PPhases (f : nat -> bool)                      (* rephasing *)
| PRebuild                                       (* rebuild_order *)
| PBump (v : nat)                                (* update_order after an activity change *)
| PVivify (ts : list nat).                       (* vivify at level 0, any targets *)

Definition report (r : presult) : option (lit * areason) :=
  match r with PErr l x => Some (l, x) | _ => None end.

Definition pstep (s : pstate) (o : pop) : pstate :=
  let a := ps_a s in let d := ps_d s in let st := ps_stale s in
  match o with
  | PAdd vec learnt => mkPs a (fst (new_clause (lev a) d vec learnt)) None st
  | PAssert l => mkPs (fst (assign_at_root_level a l)) d None st
  | PDecide l => mkPs (assign_by_decision a l) d None st
  | PBranch => match select_decision_literal (branch_fuel a) a with
               | Some (b, l) => mkPs (assign_by_decision b l) d None st | None => s end
  | PPropagate skip => let '(a', d', r) := propagate skip a d in mkPs a' d' (report r) st
  | PSandbox => let '(a', d', r) := propagate_sandbox a d in mkPs a' d' (report r) st
  | PCancel lv => mkPs (cancel_until a lv) d None false
  | PBacktrack => mkPs (backtrack_sandbox a) d None true
  | PHandle deepen => match ps_cf s with
                      | Some (l, r) => let '(a', d', _) := handle_conflict deepen a d l r in mkPs a' d' None false
                      | None => s end
  | PRemove c => mkPs a (remove_clause d c) None true
  | PReduce cand order keep => mkPs a (reduce (lev a) cand order keep d) None true
  | PClear => let '(a', d', _) := clear_asserted_literals a d in mkPs a' d' None true
  | PEliminate v => mkPs (make_var_eliminated a v) d None true
  | PStage => mkPs (clear_saved_trail a) d None false
  | PPhases f => mkPs (set_phases a f) d None st
  | PRebuild => mkPs (asg_rebuild_order a) d None st
  | PBump v => mkPs (heap_upd a v) d None st
  | PVivify ts => let '(a', d', _) := vivify ts a d in mkPs a' d' None true
  end.

(** preconditions, as the callers in the code guarantee them *)
Definition pallowed (s : pstate) (o : pop) : Prop :=
  let a := ps_a s in let d := ps_d s in
  match o with
  | PCancel lv => lv < dlevel a
  | PBacktrack => 0 < dlevel a
  | PHandle _ => ps_cf s <> None /\ 0 < dlevel a /\ nv a < 2 ^ 16
  | _ =>
    ps_cf s = None /\
    match o with
    | PAdd vec _ => 2 <= length vec /\ NoDup (map vi vec) /\ length vec < 2 ^ 16 /\
                    forall l, In l vec -> 1 <= vi l <= nv a /\ val a (vi l) = None /\ eli a (vi l) = false
    | PAssert l => lims a = [] /\ 1 <= vi l <= nv a /\ val a (vi l) = None /\ eli a (vi l) = false
    | PDecide l => remains a = false /\ 1 <= vi l <= nv a /\ val a (vi l) = None /\ eli a (vi l) = false
    | PBranch => remains a = false /\ exists v, 1 <= v <= nv a /\ val a v = None /\ eli a v = false
    | PPropagate _ => ps_stale s = false
    | PRemove c => lims a = [] /\ lits (cl d c) <> []
    | PReduce _ order _ => lims a = [] /\ forall l, Permutation l (order l)
    | PClear => lims a = [] /\ snd (clear_asserted_literals a d) = None
    | PEliminate v => lims a = [] /\ 1 <= v <= nv a /\ val a v = None /\
                      forall c l, In l (lits (cl d c)) -> vi l <> v
    | PBump v => 1 <= v <= nv a
    | PVivify ts => lims a = [] /\ snd (vivify ts a d) = None
    | _ => True
    end
  end.

Inductive reachable : pstate -> Prop :=
| reach_new : forall n oracle, reachable (mkPs (asg_new n oracle) cdb_new None false)
| reach_step : forall s o, reachable s -> pallowed s o -> reachable (pstep s o).

(** * The invariant *)
Definition nomodels : Models := Full (fun _ => False).
Definition PI (s : pstate) : Prop :=
  match ps_cf s with
  | None => @PInv nomodels true (negb (ps_stale s)) (ps_a s) (ps_d s) none
  | Some (l, r) => @PInv nomodels true (negb (ps_stale s)) (ps_a s) (ps_d s) (top (ps_a s)) /\
                   ConflictOk (ps_a s) (ps_d s) l r
  end.

Lemma PI_top : forall s, PI s -> @PInv nomodels true (negb (ps_stale s)) (ps_a s) (ps_d s) (top (ps_a s)).
Proof.
  intros s P. unfold PI in P. destruct (ps_cf s) as [[l r]|]; [tauto|]. eapply inv_weaken; [exact P|]. intros c w [].
Qed.

Lemma remains_false : forall a, Coh a -> remains a = false -> qh a = length (tr a).
Proof. intros a C H. unfold remains in H. apply Nat.ltb_ge in H. pose proof (coh_qh a C). lia. Qed.

Lemma pstep_inv : forall s o, PI s -> pallowed s o -> PI (pstep s o).
Proof.
  intros [a d cf st] o P A. pose proof (PI_top _ P) as T. unfold PI in P.
  assert (N : (match o with PCancel _ | PBacktrack | PHandle _ => False | _ => True end) -> cf = None /\ @PInv nomodels true (negb st) a d none).
  { intros H. destruct o; try contradiction; cbn [pallowed ps_a ps_d ps_cf ps_stale] in A; destruct A as [A0 _]; subst cf; split; auto. }
  destruct o; cbn [pallowed pstep ps_a ps_d ps_cf ps_stale] in *;
    try (specialize (N I); destruct N as [-> N]; destruct A as [_ A]; pose proof N as [N0 Ca];
         pose proof (pi_coh _ _ _ _ _ N0) as C).
  - destruct A as (A1 & A2 & A3 & A4).
    unfold PI. cbn. pose proof (pi_db _ _ _ _ _ N0) as D.
    destruct (if length vec =? 2 then bin_search d (nth 0 vec 0) (nth 1 vec 0) else None) as [c|] eqn:B.
    + unfold new_clause. rewrite B. exact N.
    + assert (Bn : length vec = 2 -> bin_search d (nth 0 vec 0) (nth 1 vec 0) = None).
      { intros E. rewrite E in B. exact B. }
      destruct (new_clause_added (lev a) d vec learnt D (conj A1 A2) Bn) as (d' & c & Nc & Ad & _).
      pose proof (new_clause_wincl _ _ _ _ _ _ A1 Nc) as Wi. rewrite Nc. cbn. split; auto.
      apply (added_rest true (negb st) true a d d' none none c vec N0 Ad Wi); auto.
      * intros l Hl. destruct (A4 l Hl) as (R & _ & E). auto.
      * intros w _ Hw Hf. exfalso.
        assert (Hi : In w vec) by (destruct Hw as [-> | ->]; apply nth_In; lia).
        destruct (A4 w Hi) as (_ & V & _). apply litval_none_iff in V. congruence.
      * intros l Hl Hv. destruct (A4 l Hl) as (_ & V & _). contradiction.
      * intros m [].
  - destruct A as (A1 & A2 & A3 & A4). unfold PI. cbn.
    pose proof (root_assert_inv true (negb st) a d none l N A1) as R. 
    specialize (R (conj A2 (conj A3 A4))). specialize (R (fun m (H : False) => match H with end)).
    destruct (assign_at_root_level a l) as [b ok]. apply R.
  - destruct A as (A1 & A2). unfold PI. cbn. apply decide_inv; auto. now apply remains_false.
  - destruct A as (A1 & A2). unfold PI.
    destruct (@branch_inv nomodels true (negb st) a d I N (remains_false a C A1) A2) as (b & l & E & _ & _ & Q).
    rewrite E. exact Q.
  - subst st. cbn [negb] in *. unfold PI. destruct (propagate skip a d) as [[a' d'] r] eqn:E.
    destruct (propagate_spec true skip a d N a' d' r E) as (_ & _ & R).
    destruct r; cbn; try tauto.
  - unfold PI. destruct (propagate_sandbox a d) as [[a' d'] r] eqn:E.
    destruct (propagate_sandbox_spec true (negb st) a d N a' d' r E) as (_ & _ & R).
    destruct r; cbn; try tauto.
  - unfold PI. cbn. apply (cancel_inv true (negb st) a d lv T A).
  - unfold PI. cbn. eapply sandbox_inv; eauto.
  - destruct A as (A1 & A2 & A3). destruct cf as [[l r]|]; [|congruence]. destruct P as [P CO].
    destruct (handle_conflict_spec deepen (negb st) a d l r P CO A2 (or_introl A3)) as (a' & d' & rk & d1 & s1 & ln & lv & E1 & E2 & Q & _).
    rewrite E2. exact Q.
  - destruct A as (A1 & A2). unfold PI. cbn. eapply remove_inv; eauto.
  - destruct A as (A1 & A2). unfold PI. cbn. eapply reduce_inv; eauto.
  - destruct A as (A1 & A2). unfold PI. destruct (clear_asserted_literals a d) as [[a' d'] r] eqn:E.
    pose proof (clear_asserted_spec true (negb st) a d N A1 a' d' r E) as R. cbn in A2. subst r. apply R.
  - destruct A as (A1 & A2 & A3 & A4). unfold PI. cbn. eapply eliminate_inv; eauto.
  - unfold PI. cbn. eapply clear_saved_inv; eauto.
  - unfold PI. cbn. apply phases_inv; auto.
  - unfold PI. cbn. apply rebuild_inv; auto.
  - unfold PI. cbn. apply bump_inv; auto.
  - destruct A as (A1 & A2). unfold PI. destruct (vivify ts a d) as [[a' d'] r] eqn:E.
    pose proof (vivify_spec ts (negb st) a d N A1 a' d' r E) as R. cbn in A2. subst r. apply R.
Qed.

Lemma reachable_inv : forall s, reachable s -> PI s.
Proof.
  induction 1; [apply init_inv|now apply pstep_inv].
Qed.

(** * Statements *)

(** literal [x] is true and was assigned before position [i] of the trail, or at level 0 *)
Definition earlier (a : asg) (i : nat) (x : lit) : Prop :=
  (exists j, j < i /\ nth_error (tr a) j = Some x) \/ (val a (vi x) = Some (sgn x) /\ lev a (vi x) = 0).
(** the recorded reason of the literal [l] at position [i] is a live clause that contains
    [l] and whose other literals are false, because of earlier assignments *)
Definition reason_real (a : asg) (d : cdb) (i : nat) (l : lit) : Prop :=
  match rsn a (vi l) with
  | RBinary k => (exists c, lits (cl d c) = [l; neg k] \/ lits (cl d c) = [neg k; l]) /\ earlier a i k
  | RImplied c => exists rest, lits (cl d c) = l :: rest /\ forall x, In x rest -> earlier a i (neg x)
  | _ => False
  end.
(** a falsified live clause named by the report [(l, r)] *)
Definition conflict_real (a : asg) (d : cdb) (l : lit) (r : areason) : Prop :=
  match r with
  | RBinary k => (exists c, lits (cl d c) = [l; neg k] \/ lits (cl d c) = [neg k; l]) /\
                 val a (vi l) = Some (negb (sgn l)) /\ val a (vi k) = Some (sgn k)
  | RImplied c => exists rest, lits (cl d c) = l :: rest /\
                  forall x, In x (l :: rest) -> val a (vi x) = Some (negb (sgn x))
  | _ => False
  end.
(** the effect of a propagation from [(a, d)] to [(a', d')] *)
Definition sound_step (a : asg) (d : cdb) (a' : asg) (d' : cdb) : Prop :=
  (* the trail grows, nothing assigned changes, no clause changes but for literal order *)
  (exists new, tr a' = tr a ++ new) /\ lims a' = lims a /\
  (forall v, val a v <> None -> val a' v = val a v /\ lev a' v = lev a v /\ rsn a' v = rsn a v) /\
  (forall c, Permutation (lits (cl d' c)) (lits (cl d c))) /\
  (* every new assignment follows from the clauses and the assignments before *)
  (forall m, sat_all m (stored d) -> agrees m (val a) -> agrees m (val a')) /\
  (* above level 0, it has a real reason *)
  (forall i l, length (tr a) <= i -> nth_error (tr a') i = Some l -> 0 < dlevel a -> reason_real a' d' i l).

Lemma perm2 : forall (ls : list lit) x y, Permutation ls [x; y] -> ls = [x; y] \/ ls = [y; x].
Proof.
  intros ls x y H. symmetry in H. apply Permutation_length_2_inv in H. tauto.
Qed.

Lemma before_earlier : forall a i x, before a i x -> earlier a i x.
Proof. intros a i x [H|[H1 H2]]; [left; auto|right; split; auto]. now apply litval_true_iff. Qed.

Lemma conflict_real_of : forall a d l r, ConflictOk a d l r -> conflict_real a d l r.
Proof.
  intros a d l r H. destruct r; cbn in *; auto.
  - destruct H as ((c & Hc) & H1 & H2 & _). splits; auto.
    + exists c. now apply perm2.
    + apply litval_false_iff, litval_true_iff in H1. now rewrite vi_neg, sgn_neg in H1.
    + now apply litval_true_iff.
  - destruct H as (H1 & H2 & H3 & _). unfold content in *. destruct (lits (cl d cid)) as [|y t]; [congruence|].
    cbn in H2. subst y. exists t. split; auto. intros x Hx. specialize (H3 x Hx).
    apply litval_false_iff, litval_true_iff in H3. now rewrite vi_neg, sgn_neg in H3.
Qed.

Lemma ltrue_neg : forall m x, ltrue m (neg x) <-> ~ ltrue m x.
Proof.
  intros m x. unfold ltrue. rewrite vi_neg, sgn_neg. destruct (m (vi x)), (sgn x); cbn; intuition congruence.
Qed.

(** the trail is implied by its first [n] literals *)
Lemma trail_implied : forall (G : Models) full sv a d ex m n, @PRest G full sv a d ex -> G m ->
  sat_all m (stored d) -> (forall k, In k (lims a) -> k < n) ->
  (forall i l, i < n -> nth_error (tr a) i = Some l -> ltrue m l) ->
  forall i l, nth_error (tr a) i = Some l -> ltrue m l.
Proof.
  intros G full sv a d ex m n P Gm Sa Hl Hn. pose proof (pi_coh _ _ _ _ _ P) as C.
  destruct (pi_sem _ _ _ _ _ P m Gm) as [_ Sr].
  induction i as [i IH] using lt_wf_ind. intros l Hi.
  destruct (Nat.lt_ge_cases i n) as [Lt|Ge]; [eapply Hn; eauto|].
  assert (Tl : litval a l = Some true). { apply litval_true_iff, (coh_val a C). eapply nth_error_In; eauto. }
  destruct (Nat.eq_dec (lev a (vi l)) 0) as [E|E]; [apply Sr; auto|].
  assert (B : forall x, before a i x -> ltrue m x).
  { intros x [(j & J1 & J2)|[X1 X2]]; eauto. }
  pose proof (pi_rsn _ _ _ _ _ P i l Hi ltac:(lia)) as R. destruct (rsn a (vi l)); cbn in R.
  - destruct R as ((c & Hc) & K). specialize (B _ K).
    assert (Sc : sat m (content d c)).
    { apply Sa. exists c. split; auto. intros X. rewrite X in Hc. apply Permutation_nil in Hc. discriminate. }
    destruct Sc as (x & X1 & X2). eapply Permutation_in in X1; [|exact Hc]. destruct X1 as [<-|[<-|[]]]; auto.
    exfalso. apply ltrue_neg in X2. auto.
  - destruct R as [R1 R2]. apply nth_error_In in R2. specialize (Hl _ R2). lia.
  - destruct R as (R1 & R2 & R3).
    assert (Sc : sat m (content d cid)) by (apply Sa; exists cid; split; auto).
    destruct Sc as (x & X1 & X2). destruct (Nat.eq_dec x l) as [->|N]; auto.
    exfalso. specialize (B _ (R3 x X1 N)). apply ltrue_neg in B. contradiction.
  - contradiction.
Qed.

Lemma sound_of : forall a d a' d', Coh a -> aframe a a' -> dframe d d' ->
  (forall G : Models, (forall m, G m -> Sem a d m) -> exists full sv (ex : nat -> lit -> Prop), @PRest G full sv a' d' ex) ->
  sound_step a d a' d'.
Proof.
  intros a d a' d' C Fa Fd H.
  pose proof Fa as (A1 & A2 & A3 & A4 & A5 & A6 & A7 & A8 & A9 & (new & A10) & A11). pose proof Fd as (D1 & _).
  assert (Lm : forall k, In k (lims a') -> k < length (tr a)).
  { intros k. rewrite A1. apply (coh_lims a C). }
  unfold sound_step. splits; auto; [eauto| |].
  - intros m Sa Ag.
    set (G := Full (fun m' => m' = m)).
    destruct (H G) as (full & sv & ex & P).
    { intros m' ->. split.
      - intros c Hc. apply Sa. exists c. split; auto.
      - intros l Hl _. apply litval_true_iff in Hl. apply (Ag _ _ Hl). }
    assert (Sa' : sat_all m (stored d')).
    { intros ls (c & <- & Hc). destruct (Sa (lits (cl d c))) as (x & X1 & X2).
      - exists c. split; auto. intros X. pose proof (D1 c) as Y. unfold content in Y. rewrite X in Y.
        symmetry in Y. apply Permutation_nil in Y. contradiction.
      - exists x. split; auto. eapply Permutation_in; [symmetry; apply (D1 c)|exact X1]. }
    assert (T : forall i l, nth_error (tr a') i = Some l -> ltrue m l).
    { apply (trail_implied G full sv a' d' ex m (length (tr a)) P eq_refl Sa' Lm).
      intros i l Hi Hn. rewrite A10, nth_error_app1 in Hn by auto. apply nth_error_In in Hn.
      apply (Ag _ _ (coh_val a C l Hn)). }
    intros v b Hv. set (x := mklit v b). assert (Hx : litval a' x = Some true).
    { apply litval_true_iff. unfold x. now rewrite vi_mklit, sgn_mklit. }
    assert (ltrue m x); [|unfold ltrue, x in *; now rewrite vi_mklit, sgn_mklit in *].
    destruct (true_before a' x (pi_coh _ _ _ _ _ P) Hx) as [(j & _ & J)|[X1 X2]]; eauto.
    apply (pi_sem _ _ _ _ _ P m eq_refl); auto.
  - intros i l Hi Hn Hd. destruct (H nomodels) as (full & sv & ex & P); [intros m []|].
    assert (L : lev a' (vi l) = dlevel a).
    { rewrite (coh_lev a' (pi_coh _ _ _ _ _ P) i l Hn). unfold dlevel. rewrite <- A1. apply level_of_all.
      intros k Hk. apply Lm in Hk. lia. }
    pose proof (pi_rsn _ _ _ _ _ P i l Hn ltac:(lia)) as R. unfold reason_real.
    destruct (rsn a' (vi l)); cbn in R.
    + destruct R as ((c & Hc) & K). split; [exists c; now apply perm2|now apply before_earlier].
    + destruct R as [R1 R2]. apply nth_error_In, Lm in R2. lia.
    + destruct R as (R1 & R2 & R3). unfold content in *. destruct (lits (cl d' cid)) as [|y t] eqn:E; [congruence|].
      cbn in R2. subst y. exists t. split; auto. intros x Hx. apply before_earlier, R3; [right; auto|].
      intros ->. pose proof (db_vars _ (pi_db _ _ _ _ _ P) cid) as V. unfold content in V. rewrite E in V. cbn in V.
      inversion V as [|? ? V1 _]; subst. apply V1. now apply in_map.
    + contradiction.
Qed.

Lemma with_models : forall (G : Models) s, PI s -> ps_cf s = None ->
  (forall m, G m -> Sem (ps_a s) (ps_d s) m) -> @PInv G true (negb (ps_stale s)) (ps_a s) (ps_d s) none.
Proof.
  intros G s P E H. unfold PI in P. rewrite E in P. exact (regm nomodels G _ _ _ _ _ P H (fun _ => I)).
Qed.

(** ** C12 *)
Theorem C12_propagate_sound : forall s skip a' d' r, reachable s -> ps_cf s = None -> ps_stale s = false ->
  propagate skip (ps_a s) (ps_d s) = (a', d', r) -> sound_step (ps_a s) (ps_d s) a' d'.
Proof.
  intros s skip a' d' r R E St H. apply reachable_inv in R.
  pose proof (with_models nomodels s R E (fun m (X : False) => match X with end)) as P0. rewrite St in P0.
  destruct (propagate_spec _ _ _ _ P0 _ _ _ H) as (F1 & F2 & _).
  apply sound_of; auto; [apply P0|]. intros G HG.
  pose proof (with_models G s R E HG) as P. rewrite St in P.
  destruct (propagate_spec _ _ _ _ P _ _ _ H) as (_ & _ & X). destruct r; [| |contradiction]; destruct X as [[X _] _]; eauto.
Qed.

Theorem C12_sandbox_sound : forall s a' d' r, reachable s -> ps_cf s = None ->
  propagate_sandbox (ps_a s) (ps_d s) = (a', d', r) -> sound_step (ps_a s) (ps_d s) a' d'.
Proof.
  intros s a' d' r R E H. apply reachable_inv in R.
  pose proof (with_models nomodels s R E (fun m (X : False) => match X with end)) as P0.
  destruct (propagate_sandbox_spec _ _ _ _ P0 _ _ _ H) as (F1 & F2 & _).
  apply sound_of; auto; [apply P0|]. intros G HG.
  pose proof (with_models G s R E HG) as P.
  destruct (propagate_sandbox_spec _ _ _ _ P _ _ _ H) as (_ & _ & X). destruct r; [| |contradiction]; destruct X as [[X _] _]; eauto.
Qed.

(** ** C13 *)
(** no live clause is false or unit: it has a true literal or two unassigned ones *)
Definition settled (a : asg) (d : cdb) : Prop :=
  forall c, lits (cl d c) <> [] ->
    (exists t, In t (lits (cl d c)) /\ val a (vi t) = Some (sgn t)) \/
    (exists x y, In x (lits (cl d c)) /\ In y (lits (cl d c)) /\ vi x <> vi y /\
                 val a (vi x) = None /\ val a (vi y) = None).

Lemma settled_of : forall (G : Models) sv a d, @PRest G true sv a d none -> qh a = length (tr a) -> settled a d.
Proof.
  intros G sv a d P Hq c Hc. pose proof (fun c w => pi_watch _ _ _ _ _ P c w (or_introl (or_introl eq_refl))) as W.
  pose proof (db_len _ (pi_db _ _ _ _ _ P) c Hc) as L. pose proof (db_vars _ (pi_db _ _ _ _ _ P) c) as V.
  assert (X : forall w, head d c w -> litval a w = Some false -> exists t, In t (content d c) /\ litval a t = Some true).
  { intros w Hw Hf. destruct (W c w Hc Hw Hf) as (t & T1 & T2 & _); [ | |eauto].
    - unfold pending. rewrite Hq, skipn_all. intros [].
    - intros []. }
  destruct (nodup_first_two _ V L) as [_ N].
  set (x := nth 0 (content d c) 0) in *. set (y := nth 1 (content d c) 0) in *.
  assert (Ix : In x (content d c)) by (apply nth_In; lia). assert (Iy : In y (content d c)) by (apply nth_In; lia).
  assert (T : forall t, In t (content d c) -> litval a t = Some true -> 
             (exists t, In t (lits (cl d c)) /\ val a (vi t) = Some (sgn t))).
  { intros t T1 T2. exists t. split; auto. now apply litval_true_iff. }
  destruct (litval a x) as [[|]|] eqn:Ex.
  - left. eauto.
  - left. destruct (X x) as (t & T1 & T2); auto; [left; reflexivity|eauto].
  - destruct (litval a y) as [[|]|] eqn:Ey.
    + left. eauto.
    + left. destruct (X y) as (t & T1 & T2); auto; [right; reflexivity|eauto].
    + right. exists x, y. splits; auto; now apply litval_none_iff.
Qed.

Theorem C13_propagate_complete : forall s skip a' d', reachable s -> ps_cf s = None -> ps_stale s = false ->
  propagate skip (ps_a s) (ps_d s) = (a', d', POk) -> settled a' d' /\ remains a' = false.
Proof.
  intros s skip a' d' R E St H. apply reachable_inv in R.
  pose proof (with_models nomodels s R E (fun m (X : False) => match X with end)) as P0. rewrite St in P0.
  destruct (propagate_spec _ _ _ _ P0 _ _ _ H) as (_ & _ & [X _] & Q). split; [eapply settled_of; eauto|].
  unfold remains. rewrite Q. apply Nat.ltb_irrefl.
Qed.
Theorem C13_sandbox_complete : forall s a' d', reachable s -> ps_cf s = None ->
  propagate_sandbox (ps_a s) (ps_d s) = (a', d', POk) -> settled a' d' /\ remains a' = false.
Proof.
  intros s a' d' R E H. apply reachable_inv in R.
  pose proof (with_models nomodels s R E (fun m (X : False) => match X with end)) as P0.
  destruct (propagate_sandbox_spec _ _ _ _ P0 _ _ _ H) as (_ & _ & [X _] & Q). split; [eapply settled_of; eauto|].
  unfold remains. rewrite Q. apply Nat.ltb_irrefl.
Qed.

(** ** C14 *)
Theorem C14_conflict_real : forall s skip a' d' r, reachable s -> ps_cf s = None -> ps_stale s = false ->
  propagate skip (ps_a s) (ps_d s) = (a', d', r) ->
  r = POk \/ exists l rr, r = PErr l rr /\ conflict_real a' d' l rr.
Proof.
  intros s skip a' d' r R E St H. apply reachable_inv in R.
  pose proof (with_models nomodels s R E (fun m (X : False) => match X with end)) as P0. rewrite St in P0.
  destruct (propagate_spec _ _ _ _ P0 _ _ _ H) as (_ & _ & X). destruct r as [|l rr|]; [auto| |contradiction].
  right. exists l, rr. split; auto. apply conflict_real_of, X.
Qed.
Theorem C14_sandbox_conflict_real : forall s a' d' r, reachable s -> ps_cf s = None ->
  propagate_sandbox (ps_a s) (ps_d s) = (a', d', r) ->
  r = POk \/ exists l rr, r = PErr l rr /\ conflict_real a' d' l rr.
Proof.
  intros s a' d' r R E H. apply reachable_inv in R.
  pose proof (with_models nomodels s R E (fun m (X : False) => match X with end)) as P0.
  destruct (propagate_sandbox_spec _ _ _ _ P0 _ _ _ H) as (_ & _ & X). destruct r as [|l rr|]; [auto| |contradiction].
  right. exists l, rr. split; auto. apply conflict_real_of, X.
Qed.

(** ** C41 *)
Theorem C41_replay_sound : forall s skip a' r, reachable s -> ps_cf s = None -> ps_stale s = false ->
  reuse_saved_trail skip (fun c => nth 0 (lits (cl (ps_d s) c)) 0) (ps_a s) = (a', r) ->
  sound_step (ps_a s) (ps_d s) a' (ps_d s) /\
  (r = POk \/ exists l rr, r = PErr l rr /\ conflict_real a' (ps_d s) l rr).
Proof.
  intros s skip a' r R E St H. apply reachable_inv in R.
  pose proof (with_models nomodels s R E (fun m (X : False) => match X with end)) as P0. rewrite St in P0.
  unfold reuse_saved_trail in H.
  destruct (reuse_spec _ _ _ _ _ [] P0 (sav_rev _) (fun l (X : In l []) => match X with end) _ _ H) as ([F1 _] & _ & X).
  split.
  - apply sound_of; auto using dframe_refl; [apply P0|]. intros G HG.
    pose proof (with_models G s R E HG) as P. rewrite St in P.
    destruct (reuse_spec _ _ _ _ _ [] P (sav_rev _) (fun l (X : In l []) => match X with end) _ _ H) as (_ & _ & Y).
    destruct r; [| |contradiction]; [destruct Y as [Y _]|destruct Y as [[Y _] _]]; eauto.
  - destruct r as [|l rr|]; [auto| |contradiction]. right. exists l, rr. split; auto. apply conflict_real_of, X.
Qed.

(** ** C29: at level 0, where [reduce] is called, no clause is a reason *)
Theorem C29_no_reason_at_root : forall s v, reachable s -> lims (ps_a s) = [] ->
  rsn (ps_a s) v = RNone \/ rsn (ps_a s) v = RDecision 0.
Proof.
  intros s v R H. apply reachable_inv in R. pose proof (PI_top _ R) as [P _].
  pose proof (pi_coh _ _ _ _ _ P) as C. destruct (val (ps_a s) v) eqn:E.
  - right. apply (coh_root _ C); [congruence|]. apply root_level; auto. congruence.
  - left. now apply (coh_none _ C).
Qed.

(** ** C45 *)
Lemma seq_split : forall n k len, n <= len -> seq k len = seq k n ++ seq (k + n) (len - n).
Proof. intros n k len H. rewrite <- seq_app. f_equal. lia. Qed.
Lemma scan_perm : forall start len, 2 <= start -> Permutation (scan_order start len) (seq 2 (len - 2)).
Proof.
  intros start len H. unfold scan_order. rewrite (proj2 (Nat.ltb_ge start 2)) by lia.
  destruct (Nat.le_gt_cases start len) as [L|L].
  - rewrite Nat.min_l by lia. rewrite (seq_split (start - 2) 2 (len - 2)) by lia.
    replace (2 + (start - 2)) with start by lia. replace (len - 2 - (start - 2)) with (len - start) by lia.
    apply Permutation_app_comm.
  - replace (len - start) with 0 by lia. rewrite Nat.min_r by lia. cbn [seq app]. apply Permutation_refl.
Qed.

(** in every reachable state, from wherever the previous search stopped, every literal but
    the two watched ones is inspected exactly once; a non-false literal is found iff there
    is one *)
Theorem C45_scan_complete : forall s c, reachable s ->
  Permutation (scan_order (sfrom (cl (ps_d s) c)) (length (lits (cl (ps_d s) c))))
              (seq 2 (length (lits (cl (ps_d s) c)) - 2)) /\
  forall f, (exists j, find f (scan_order (sfrom (cl (ps_d s) c)) (length (lits (cl (ps_d s) c)))) = Some j) <->
            (exists j, 2 <= j < length (lits (cl (ps_d s) c)) /\ f j = true).
Proof.
  intros s c R. apply reachable_inv in R. pose proof (PI_top _ R) as [P _].
  destruct (pi_len _ _ _ _ _ P c) as [_ S]. split; [now apply scan_perm|].
  intros f. split.
  - intros [j H]. apply find_some in H as [H1 H2]. apply scan_in in H1; eauto.
  - intros (j & H1 & H2). apply (scan_in _ _ j S) in H1.
    destruct (find f _) as [k|] eqn:E; eauto. pose proof (find_none _ _ E j H1). congruence.
Qed.

(** The position is kept in 16 bits. For a clause of 2^16 literals or more the next start
    wraps to 0, and the scan then inspects the watched literals too: the property holds
    only because reachable states above are limited to shorter clauses. *)
Theorem C45_u16_wrap_refuted : next_from false (2 ^ 16 - 1) = 0 /\
  forall len, 2 ^ 16 < len -> In 0 (scan_order 0 len) /\ In 1 (scan_order 0 len) /\
    ~ NoDup (scan_order 0 len).
Proof.
  assert (Z : 2 ^ 16 <> 0) by (apply Nat.pow_nonzero; lia). split.
  - unfold next_from, u16. rewrite Nat.sub_add by lia. now apply Nat.mod_same.
  - intros len H. assert (L : 3 <= len).
    { apply Nat.le_trans with (2 ^ 16); [|lia]. change 3 with (1 + 2). apply Nat.ltb_lt. vm_compute. reflexivity. }
    unfold scan_order. change (0 <? 2) with true. cbv iota. rewrite Nat.sub_0_r. splits.
    + apply in_or_app. left. apply in_seq. lia.
    + apply in_or_app. left. apply in_seq. lia.
    + intros N. apply NoDup_app_inv in N as (_ & _ & N). apply (N 2).
      * apply in_seq. lia.
      * apply in_seq. lia.
Qed.

(** * Concrete cases *)
Lemma lt16 : forall n, n <= 100 -> n < 2 ^ 16.
Proof.
  intros n H. apply Nat.le_lt_trans with 100; auto. apply Nat.ltb_lt. vm_compute. reflexivity.
Qed.
Definition prun (s : pstate) (ops : list pop) : pstate := fold_left pstep ops s.
Fixpoint pall (s : pstate) (ops : list pop) : Prop :=
  match ops with [] => True | o :: t => pallowed s o /\ pall (pstep s o) t end.
Lemma prun_reachable : forall ops s, reachable s -> pall s ops -> reachable (prun s ops).
Proof.
  induction ops as [|o t IH]; intros s R H; cbn; auto. destruct H. apply IH; auto. now apply reach_step.
Qed.
Definition pos (v : nat) := mklit v true.
Definition nega (v : nat) := mklit v false.
Definition ex_start : pstate := mkPs (asg_new 6 (fun _ x y => x <? y)) cdb_new None false.
(** clauses (-1 2) (-1 -2 3) (-4 -2 -3) (-5 -6 4), decisions 4, 5, 1 *)
Definition ex_ops : list pop :=
  [PAdd [nega 1; pos 2] false; PAdd [nega 1; nega 2; pos 3] false; PAdd [nega 4; nega 2; nega 3] false;
   PAdd [nega 5; nega 6; pos 4] false;
   PDecide (pos 6); PPropagate (fun _ _ => false); PDecide (pos 5); PPropagate (fun _ _ => false); PDecide (pos 1)].

(** proves [pall s ops] for concrete histories *)
Ltac allowed1 :=
  match goal with
  | |- _ /\ _ => split; allowed1
  | |- _ < 2 ^ 16 => apply lt16; vm_compute; repeat constructor
  | |- _ <= _ => vm_compute; repeat constructor
  | |- _ < _ => vm_compute; repeat constructor
  | |- NoDup _ => vm_compute; repeat constructor; vm_compute; intuition discriminate
  | |- ps_cf _ <> None => vm_compute; discriminate
  | |- forall l, In l _ -> _ =>
      let l := fresh in let H := fresh in intros l H;
      repeat (destruct H as [<-|H]; [allowed1|]); destruct H
  | |- True => exact I
  | |- _ => vm_compute; reflexivity
  end.
Ltac allow :=
  cbv beta iota zeta delta [pall];
  repeat (split; [cbv beta iota zeta delta [pallowed]; allowed1|]); exact I.

Lemma ex_allowed : pall ex_start ex_ops.
Proof.
  unfold ex_ops. allow.
Qed.
Lemma ex_reachable : reachable (prun ex_start ex_ops).
Proof. apply prun_reachable; [apply reach_new|apply ex_allowed]. Qed.

(** the state of [ex_ops] propagates two literals and reports the conflict of clause 3 *)
Example C12_nonvacuous :
  let s := prun ex_start ex_ops in
  let '(a', d', r) := propagate (fun _ _ => false) (ps_a s) (ps_d s) in
  ps_cf s = None /\ ps_stale s = false /\
  tr (ps_a s) = [pos 6; pos 5; pos 4; pos 1] /\ tr a' = [pos 6; pos 5; pos 4; pos 1; pos 2; pos 3] /\
  r = PErr (nega 3) (RImplied 3) /\ lits (cl d' 3) = [nega 3; nega 2; nega 4].
Proof. vm_compute. splits; reflexivity. Qed.

(** a saved trail whose replay implies a literal: decisions 6, 5 (implies 4), -3, -2,
    back to level 1, decision 5 again *)
Definition ex_ops2 : list pop :=
  firstn 8 ex_ops ++ [PDecide (nega 3); PPropagate (fun _ _ => false); PDecide (nega 2); PPropagate (fun _ _ => false);
   PCancel 1; PPropagate (fun _ _ => false); PDecide (pos 5)].
Lemma ex_reachable2 : reachable (prun ex_start ex_ops2).
Proof. apply prun_reachable; [apply reach_new|]. unfold ex_ops2, ex_ops. cbn [firstn app]. allow. Qed.
Example C41_nonvacuous :
  let s := prun ex_start ex_ops2 in
  let '(a', r) := reuse_saved_trail (fun _ => false) (fun c => nth 0 (lits (cl (ps_d s) c)) 0) (ps_a s) in
  ps_cf s = None /\ ps_stale s = false /\ sav (ps_a s) = [pos 4; pos 5] /\
  tr (ps_a s) = [pos 6; pos 5] /\ tr a' = [pos 6; pos 5; pos 4] /\ rsn a' 4 = RImplied 4 /\ r = POk.
Proof. vm_compute. splits; reflexivity. Qed.
(** a propagation without conflict that implies a literal *)
Lemma ex_reachable3 : reachable (prun ex_start (firstn 7 ex_ops)).
Proof. apply prun_reachable; [apply reach_new|]. unfold ex_ops. cbn [firstn]. allow. Qed.
Example C13_nonvacuous :
  let s := prun ex_start (firstn 7 ex_ops) in
  let '(a', d', r) := propagate (fun _ _ => false) (ps_a s) (ps_d s) in
  ps_cf s = None /\ ps_stale s = false /\ r = POk /\
  tr (ps_a s) = [pos 6; pos 5] /\ tr a' = [pos 6; pos 5; pos 4].
Proof. vm_compute. splits; reflexivity. Qed.
