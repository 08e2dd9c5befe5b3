(** C25, C26, C27: subsumption, strengthening, variable elimination and the extension of a
    model over the eliminated variables. *)
From Coq Require Import List Arith Bool Lia Permutation.
From Verif Require Import Base HeapModel EmaModel AsgModel LitFacts AsgProofs C15_Trail CdbModel CdbProofs CdbOps C21_Db PropModel SatSpec PropProofs PropLoop PropOps PropDb RootProofs ConflictModel HandleProofs PropMisc C12_Prop ElimModel ElimFacts ElimExt ElimProofs ElimVar ElimRun ElimTotal VivifyModel QuietProofs.
Import ListNotations.
Local Opaque Nat.pow.

(** * Specification *)
(** [m] satisfies all clauses of the database and contains the assignment *)
Definition models_of (a : asg) (d : cdb) (m : model) : Prop := sat_all m (stored d) /\ agrees m (val a).
(** the irredundant clauses: not learnt, or binary (a binary clause never carries the
    learnt flag in the code) *)
Definition irredundant (d : cdb) (ls : list lit) : Prop :=
  exists c, lits (cl d c) = ls /\ ls <> [] /\ (lrn (cl d c) = false \/ length ls = 2).
(** [m] with variable [v] set to [b] *)
Definition setting (m : model) (v : nat) (b : bool) : model := fun x => if x =? v then b else m x.

(** * Histories *)
(** The eliminator is prepared at level 0 of the search engine, then does any elementary
    operations in any order. *)
Inductive running (evo : nat) : estate -> Prop :=
| run_start : forall s d o, reachable s -> ps_cf s = None -> lims (ps_a s) = [] -> nv (ps_a s) < 2 ^ 16 ->
    prepare evo (ps_a s) (ps_d s) occ_new = (d, o) -> running evo (ps_a s, d, o)
| run_step : forall st op st', running evo st -> elim_step evo st op = (st', None) -> running evo st'.

Lemma reachable_quiet : forall s, reachable s -> Quiet (ps_d s).
Proof.
  induction 1 as [n oracle|s o R IH A]; [intros x; reflexivity|].
  destruct s as [a d cf st]. cbn [ps_d] in IH. destruct o; cbn [pstep ps_a ps_d ps_cf ps_stale]; auto.
  - destruct (new_clause (lev a) d vec learnt) as [d1 r] eqn:E. cbn. eapply qle_quiet; [eapply qle_new; eauto|auto].
  - destruct (select_decision_literal (branch_fuel a) a) as [[b l]|]; auto.
  - destruct (propagate skip a d) as [[a1 d1] r] eqn:E. cbn. eapply qle_quiet; [eapply qle_propagate; eauto|auto].
  - destruct (propagate_sandbox a d) as [[a1 d1] r] eqn:E. cbn. eapply qle_quiet; [eapply qle_sandbox; eauto|auto].
  - destruct cf as [[l r]|]; auto. destruct (handle_conflict deepen a d l r) as [[a1 d1] h] eqn:E. cbn.
    eapply qle_quiet; [eapply qle_handle; eauto|auto].
  - eapply qle_quiet; [apply qle_remove|auto].
  - eapply qle_quiet; [apply qle_reduce|auto].
  - destruct (clear_asserted_literals a d) as [[a1 d1] r] eqn:E. cbn. eapply qle_quiet; [eapply qle_clear; eauto|auto].
  - destruct (vivify ts a d) as [[a1 d1] r] eqn:E. cbn. eapply qle_quiet; [eapply qle_vivify; eauto|auto].
Qed.

Definition RInv (st : estate) : Prop :=
  let '(a, d, o) := st in @PInv nomodels false false a d none /\ lims a = [] /\ nv a < 2 ^ 16 /\ OccInv a d o.
Lemma reach_root : forall s, reachable s -> ps_cf s = None -> @PInv nomodels false false (ps_a s) (ps_d s) none.
Proof.
  intros s R E. apply reachable_inv in R. unfold PI in R. rewrite E in R. eapply sv_weaken, full_weaken; eauto.
Qed.
Lemma running_inv : forall evo st, running evo st -> RInv st.
Proof.
  induction 1 as [s d o R E Hl Hn Ep|[[a d] o] op [[a' d'] o'] R IH E].
  - pose proof (reach_root s R E) as P. pose proof (reachable_quiet s R) as Q.
    destruct (prepare_spec evo _ _ _ _ _ (pi_db _ _ _ _ _ (proj1 P)) Q Ep) as (F1 & F2 & F3 & F4).
    unfold RInv. splits; auto. eapply flag_inv; eauto.
  - unfold RInv in *. destruct IH as (I1 & I2 & I3 & I4).
    destruct (elim_step_spec nomodels evo op a d o a' d' o' None I1 I2 (or_introl I3) I4 E) as (S1 & S2 & S3).
    destruct S3 as ((F1 & F2 & _) & _). splits; auto; congruence.
Qed.

Lemma sem_models : forall (G : Models) full sv a d ex m, @PRest G full sv a d ex -> lims a = [] ->
  (Sem a d m <-> models_of a d m).
Proof.
  intros G full sv a d ex m P Hl. unfold Sem, models_of. split; intros [H1 H2]; split.
  - intros ls (c & <- & Hc). now apply H1.
  - intros v b Hv. assert (X : litval a (mklit v b) = Some true) by (apply litval_true_iff; now rewrite vi_mklit, sgn_mklit).
    specialize (H2 _ X (root_true _ _ _ _ _ _ P Hl X)). unfold ltrue in H2. now rewrite vi_mklit, sgn_mklit in H2.
  - intros c Hc. apply H1. exists c. split; auto.
  - intros l Hv _. apply litval_true_iff in Hv. now apply H2.
Qed.
Lemma semk_models : forall (G : Models) full sv a d ex m, @PRest G full sv a d ex -> lims a = [] ->
  (SemK a d m <-> sat_all m (irredundant d) /\ agrees m (val a)).
Proof.
  intros G full sv a d ex m P Hl. unfold SemK. split; intros [H1 H2]; split.
  - intros ls (c & <- & Hc & Hk). now apply H1.
  - intros v b Hv. assert (X : litval a (mklit v b) = Some true) by (apply litval_true_iff; now rewrite vi_mklit, sgn_mklit).
    specialize (H2 _ X (root_true _ _ _ _ _ _ P Hl X)). unfold ltrue in H2. now rewrite vi_mklit, sgn_mklit in H2.
  - intros c Hc Hk. apply H1. exists c. split; auto.
  - intros l Hv _. apply litval_true_iff in Hv. now apply H2.
Qed.

(** the models are not lost by a step *)
Lemma step_forward : forall evo a d o op a' d' o', RInv (a, d, o) -> elim_step evo (a, d, o) op = ((a', d', o'), None) ->
  forall m, models_of a d m -> models_of a' d' m.
Proof.
  intros evo a d o op a' d' o' (I1 & I2 & I3 & I4) E m Hm.
  assert (K : forall G' : Models, @PInv G' false false a d none -> @PInv G' false false a' d' none).
  { intros G' X. apply (elim_step_spec G' evo op a d o a' d' o' None X I2 (or_introl I3) I4 E). }
  pose proof (red_fwd nomodels _ _ _ _ _ _ _ _ _ _ I1 K m) as F.
  destruct (elim_step_spec nomodels evo op a d o a' d' o' None I1 I2 (or_introl I3) I4 E) as (S1 & _ & ((L & _) & _)).
  apply (sem_models nomodels false false a' d' none m (proj1 S1)); [congruence|]. apply F.
  apply (sem_models nomodels false false a d none m (proj1 I1)); auto.
Qed.
Lemma step_error : forall evo a d o op st' e, RInv (a, d, o) -> elim_step evo (a, d, o) op = (st', Some e) ->
  e <> Fuel /\ forall m, ~ models_of a d m.
Proof.
  intros evo a d o op [[a' d'] o'] e (I1 & I2 & I3 & I4) E.
  set (G := Full (Sem a d)).
  assert (P : @PInv G false false a d none) by exact (inv_gm nomodels G _ _ _ _ _ I1 (fun m H => H) (fun p => p)).
  destruct (elim_step_spec G evo op a d o a' d' o' (Some e) P I2 (or_introl I3) I4 E) as [H1 H2]. split; auto.
  intros m Hm. apply (H2 m). apply (sem_models nomodels false false a d none m (proj1 I1)); auto.
Qed.

(** ** C25: subsumption *)
Theorem C25_subsumption : forall evo a d o c other a' d' o' r, running evo (a, d, o) ->
  elim_step evo (a, d, o) (ESub c other) = ((a', d', o'), r) ->
  r = None /\ a' = a /\
  (forall m, models_of a d m <-> models_of a' d' m) /\
  (forall x, x <> other -> lits (cl d' x) = lits (cl d x)) /\
  (forall x, x <> other -> x <> c -> lrn (cl d' x) = lrn (cl d x)) /\
  (lits (cl d' other) = lits (cl d other) /\ lrn (cl d' c) = lrn (cl d c) \/
   c <> other /\ lits (cl d c) <> [] /\ incl (lits (cl d c)) (lits (cl d other)) /\ lits (cl d' other) = [] /\
   (* the subsuming clause takes over the role of an irredundant clause *)
   lrn (cl d' c) = lrn (cl d c) && lrn (cl d other)).
Proof.
  intros evo a d o c other a' d' o' r R E. apply running_inv in R. pose proof R as (I1 & I2 & I3 & I4).
  pose proof E as E0. cbn [elim_step] in E.
  assert (EFF : r = None /\ a' = a /\ (forall x, x <> other -> lits (cl d' x) = lits (cl d x)) /\
    (forall x, x <> other -> x <> c -> lrn (cl d' x) = lrn (cl d x)) /\
    (lits (cl d' other) = lits (cl d other) /\ lrn (cl d' c) = lrn (cl d c) \/
     c <> other /\ lits (cl d c) <> [] /\ incl (lits (cl d c)) (lits (cl d other)) /\ lits (cl d' other) = [] /\
     lrn (cl d' c) = lrn (cl d c) && lrn (cl d other))).
  { destruct (dead d c || dead d other || (c =? other)) eqn:Eg; [injection E as <- <- <- <-; splits; auto|].
    apply orb_false_elim in Eg as [Eg Eg3]. apply orb_false_elim in Eg as [Eg1 Eg2]. apply Nat.eqb_neq in Eg3.
    destruct (subsume_clause (a, d, o) c other) as [[a1 dd] o1] eqn:Es. injection E as <- <- <- <-. rename Es into E.
    unfold subsume_clause in E. destruct (forallb _ _) eqn:Ef; [|injection E as <- <- <-; splits; auto].
    set (d1 := if lrn (cl d other) then d else set_clause d c (set_lrn (cl d c) false)) in *.
    assert (F1 : flagonly d d1).
    { unfold d1. destruct (lrn (cl d other)); [unfold flagonly; splits; auto|]. now apply flagonly_set. }
    assert (EC : forall x, content d1 x = content d x) by (intros x; now apply flagonly_content).
    pose proof (flag_inv _ _ _ _ _ _ I1 F1) as P1.
    assert (O1 : OccInv a d1 o) by (eapply occ_inv_shrink; [exact I4| | |]; auto; intros x z; now rewrite EC).
    destruct (remove_cid_occur a d1 o other) as [d2 o2] eqn:Er.
    assert (Ho1 : content d1 other <> []).
    { rewrite EC. unfold dead, content in *. destruct (lits (cl d other)); congruence. }
    destruct (remove_both_spec nomodels a d1 o other d2 o2 P1 I2 O1 Ho1 Er) as (B1 & B2 & B3 & B4 & B5 & B6).
    injection E as <- <- <-. remember (remove_clause d2 other) as dd eqn:Edd. splits; auto.
    - intros x Hx. change (content dd x = content d x). rewrite B4, upd_other by auto. apply EC.
    - intros x Hx Hc. rewrite B5 by auto. unfold d1. destruct (lrn (cl d other)); auto. cbn. now rewrite upd_other.
    - right. splits; auto.
      + unfold dead in Eg1. destruct (lits (cl d c)); congruence.
      + intros x Hx. rewrite forallb_forall in Ef. apply contains_iff. now apply Ef.
      + change (content dd other = []). rewrite B4. apply upd_same.
      + rewrite B5 by auto. unfold d1. destruct (lrn (cl d other)); [now rewrite andb_true_r|].
        cbn. rewrite upd_same. cbn. now rewrite andb_false_r. }
  destruct EFF as (-> & -> & F1 & F2 & F3). splits; auto. intros m. split; [eapply step_forward; eauto|].
  intros [M1 M2]. split; auto. intros ls (x & <- & Hx). destruct (Nat.eq_dec x other) as [->|Hne].
  - destruct F3 as [[F3 _]|(N1 & N2 & N3 & N4 & _)].
    + apply M1. exists other. rewrite F3. auto.
    + destruct (M1 (lits (cl d c))) as (l & L1 & L2); [exists c; rewrite F1; auto|]. exists l. split; auto.
  - apply M1. exists x. rewrite F1; auto.
Qed.

(** ** C25: removal of a false literal *)
(** what [strengthen] does to the clauses *)
Lemma strengthen_effect : forall a d o c p a' d' o', @PInv nomodels false false a d none -> lims a = [] -> OccInv a d o ->
  In p (content d c) -> litval a p = Some false -> strengthen (a, d, o) c p = ((a', d', o'), None) ->
  (forall x, x <> c -> cl d' x = cl d x) /\ (forall v, val a v <> None -> val a' v = val a v) /\
  ((content d' c = filter (fun l : lit => negb (l =? p)) (content d c) /\ lrn (cl d' c) = lrn (cl d c) /\ a' = a) \/
   (content d' c = [] /\ a' = a /\ exists b, b <> c /\ Permutation (content d b) (filter (fun l : lit => negb (l =? p)) (content d c))) \/
   (content d' c = [] /\ exists q, Permutation (content d c) [q; p] /\ litval a' q = Some true)).
Proof.
  intros a d o c p a' d' o' PI Hl O Hp Hf E. pose proof PI as [P Ca]. pose proof (pi_db _ _ _ _ _ P) as D.
  assert (Lc : content d c <> []) by (intros X; rewrite X in Hp; destruct Hp).
  pose proof (strengthen_spec (GM:=nomodels) a d o c p _ None PI Hl O Hp Hf E) as (_ & _ & AF & _ & _).
  assert (AV : forall v, val a v <> None -> val a' v = val a v).
  { destruct AF as (_ & _ & _ & _ & _ & _ & _ & _ & _ & _ & A). intros v Hv. now destruct (A v Hv). }
  pose proof (live_wf d c D Lc) as [W1 W2].
  destruct (elimination_spec d c p D Hp) as (d1 & rc & Et & Sp). unfold strengthen in E. rewrite Et in E.
  destruct Sp as [d1 q Cq RW E1 E2 E3 E4 E5 E6 E7 E8 E9|d1 b l0 l1 Fl Nb Cb RW E1 E2 E3 E4 E5 E6 E7 E8 E9
                 |d1 L2 RW E1 E2 E3 E4 E5 E6 E7 E8 E9]; pose proof RW as [R1 R2 R3 R4 R5].
  - assert (Wt : wat d1 = wat d).
    { unfold transform_by_elimination in Et. fold (content d c) in Et.
      assert (X : length (content d c) =? 2 = true) by (destruct Cq as [-> | ->]; reflexivity). rewrite X in Et.
      injection Et as <- _. reflexivity. }
    assert (Pm : Permutation [q; p] (content d c)) by (destruct Cq as [-> | ->]; [apply perm_swap|auto]).
    assert (P1 : @PInv nomodels false false a (log_assert d1 q) none).
    { apply log_inv. split; auto. eapply (rewritten_rest false false false a d d1 none c [q; p]); eauto.
      - now apply wincl_refl.
      - rewrite E5. apply (pi_len _ _ _ _ _ P).
      - intros x Hx. eapply Permutation_in; eauto.
      - intros x Hx. left. eapply Permutation_in; [|exact Hx]. now apply Permutation_sym.
      - discriminate. }
    assert (Cc : content d1 c = [q; p]) by (rewrite R2; apply upd_same).
    assert (O1 : OccInv a (log_assert d1 q) o).
    { eapply occ_inv_shrink; [exact O| | |]; auto. intros x z. change (In z (content d1 x) -> In z (content d x)). rewrite R2. unfold upd. destruct (Nat.eqb_spec x c) as [->|]; auto.
      intros Hz. eapply Permutation_in; eauto. }
    destruct (remove_cid_occur a (log_assert d1 q) o c) as [d2 o2] eqn:Er.
    assert (Lc2 : content (log_assert d1 q) c <> []).
    { change (content d1 c <> []). rewrite Cc. discriminate. }
    destruct (remove_both_spec nomodels a (log_assert d1 q) o c d2 o2 P1 Hl O1 Lc2 Er) as (B1 & B2 & B3 & B4 & B5 & B6).
    remember (remove_clause d2 c) as dd eqn:Edd.
    assert (D0 : forall x, x <> c -> cl dd x = cl d x) by (intros x Hx; rewrite B5 by auto; now apply R3).
    assert (Dc : content dd c = []) by (rewrite B4; apply upd_same).
    assert (QT : litval a' q = Some true -> d' = dd -> (forall x, x <> c -> cl d' x = cl d x) /\ (forall v, val a v <> None -> val a' v = val a v) /\
       ((content d' c = filter (fun l : lit => negb (l =? p)) (content d c) /\ lrn (cl d' c) = lrn (cl d c) /\ a' = a) \/
        (content d' c = [] /\ a' = a /\ exists b, b <> c /\ Permutation (content d b) (filter (fun l : lit => negb (l =? p)) (content d c))) \/
        (content d' c = [] /\ exists q, Permutation (content d c) [q; p] /\ litval a' q = Some true))).
    { intros Hq ->. splits; auto. right. right. split; auto. exists q. split; auto. now apply Permutation_sym. }
    destruct (litval a q) as [[]|] eqn:Ev.
    + injection E as <- <- <-. auto.
    + discriminate E.
    + destruct (assign_at_root_level a q) as [a1 ok] eqn:Ea. destruct ok; [|discriminate E]. injection E as <- <- <-.
      apply QT; auto. assert (Hq : In q (content d c)) by (eapply Permutation_in; [exact Pm|left; auto]).
      destruct (pi_vars _ _ _ _ _ P c q Hq) as [V1 V2].
      pose proof (assign_at_root_level_spec a q (pi_coh _ _ _ _ _ P) V1 V2) as X. cbv zeta in X. rewrite Ea in X.
      apply litval_true_iff. now apply X.
  - assert (L3 : 3 <= length (content d c)).
    { pose proof (remove_lit_length p (content d c) W2 Hp) as Len. rewrite Fl in Len. cbn [length] in Len. lia. }
    pose proof (elimination_wincl d c p d1 (RReg b) L3 Et) as Wi. rewrite Fl in Wi. specialize (Wi (le_n 2)).
    assert (FI : incl [l0; l1] (content d c)).
    { intros x Hx. rewrite <- Fl in Hx. apply filter_In in Hx. tauto. }
    assert (P1 : @PInv nomodels false false a d1 none).
    { split; auto. eapply (rewritten_rest false false false a d d1 none c (content d c)); eauto.
      - eapply wincl_incl; eauto.
      - now rewrite E5.
      - apply incl_refl.
      - discriminate. }
    assert (EC : forall x, content d1 x = content d x).
    { intros x. rewrite R2. unfold upd. destruct (Nat.eqb_spec x c) as [->|]; auto. }
    assert (O1 : OccInv a d1 o).
    { eapply occ_inv_shrink; [exact O| | |]; auto. intros x z. now rewrite EC. }
    destruct (remove_cid_occur a d1 o c) as [d2 o2] eqn:Er.
    assert (Lc2 : content d1 c <> []) by (now rewrite EC).
    destruct (remove_both_spec nomodels a d1 o c d2 o2 P1 Hl O1 Lc2 Er) as (B1 & B2 & B3 & B4 & B5 & B6).
    remember (remove_clause d2 c) as dd eqn:Edd. injection E as <- <- <-. splits; auto.
    + intros x Hx. rewrite B5 by auto. now apply R3.
    + right. left. splits; auto; [rewrite B4; apply upd_same|]. exists b. split; auto. rewrite Fl.
      destruct Cb as [-> | ->]; [auto|apply perm_swap].
  - injection E as <- <- <-. splits; auto. left. splits; auto. rewrite R2. apply upd_same.
Qed.

Theorem C25_strengthening : forall evo a d o l other a' d' o' r, running evo (a, d, o) ->
  elim_step evo (a, d, o) (ELift l other) = ((a', d', o'), r) ->
  match r with
  | Some _ => forall m, ~ models_of a d m
  | None =>
    (forall m, models_of a d m <-> models_of a' d' m) /\
    (forall x, x <> other -> lits (cl d' x) = lits (cl d x) /\ lrn (cl d' x) = lrn (cl d x)) /\
    (forall y, In y (lits (cl d' other)) -> In y (lits (cl d other)) /\ (In l (tr a) -> y <> neg l))
  end.
Proof.
  intros evo a d o l other a' d' o' r R E. apply running_inv in R. pose proof R as (I1 & I2 & I3 & I4).
  destruct r as [e|]; [apply (step_error evo a d o _ _ e R E)|]. pose proof E as E0. cbn [elim_step] in E.
  assert (Tl : In l (tr a) -> litval a (neg l) = Some false).
  { intros H. apply litval_false_iff. rewrite neg_neg. apply litval_true_iff. apply (coh_val a); auto. apply I1. }
  destruct (contains (tr a) l && negb (dead d other) && contains (lits (cl d other)) (neg l)) eqn:Eg.
  - apply andb_prop in Eg as [Eg Eg3]. apply andb_prop in Eg as [Eg1 Eg2]. apply contains_iff in Eg1, Eg3.
    specialize (Tl Eg1).
    destruct (strengthen_effect a d o other (neg l) a' d' o' I1 I2 I4 Eg3 Tl E) as (F1 & F2 & F3).
    assert (Sub : forall y, In y (lits (cl d' other)) -> In y (lits (cl d other)) /\ y <> neg l).
    { intros y Hy. fold (content d' other) in Hy. destruct F3 as [(F3 & _)|[(F3 & _)|(F3 & _)]]; rewrite F3 in Hy; [|destruct Hy|destruct Hy].
      apply filter_In in Hy as [Y1 Y2]. split; auto. intros ->. rewrite Nat.eqb_refl in Y2. discriminate. }
    splits.
    + intros m. split; [eapply step_forward; eauto|]. intros [M1 M2]. split.
      * intros ls (x & <- & Hx). destruct (Nat.eq_dec x other) as [->|Hne].
        -- destruct F3 as [(F3 & _)|[(F3 & -> & b & Nb & Pb)|(F3 & q & Pq & Hq)]].
           ++ destruct (M1 (lits (cl d' other))) as (z & Z1 & Z2).
              { exists other. split; auto. unfold content in F3. rewrite F3. intros X.
                destruct (live_wf d other (pi_db _ _ _ _ _ (proj1 I1)) Hx) as [W1 W2].
                pose proof (remove_lit_length (neg l) (content d other) W2 Eg3) as Len. unfold content in *. rewrite X in Len. cbn in Len. lia. }
              exists z. split; auto. now apply Sub.
           ++ assert (X : lits (cl d' b) = content d b) by (now rewrite F1).
              destruct (M1 (content d b)) as (z & Z1 & Z2).
              { exists b. split; auto. intros Y. rewrite Y in Pb. apply Permutation_nil in Pb.
                destruct (live_wf d other (pi_db _ _ _ _ _ (proj1 I1)) Hx) as [W1 W2].
                pose proof (remove_lit_length (neg l) (content d other) W2 Eg3) as Len. unfold content in *. rewrite Pb in Len. cbn in Len. lia. }
              exists z. split; auto. eapply Permutation_in in Z1; [|exact Pb]. apply filter_In in Z1. tauto.
           ++ exists q. split; [eapply Permutation_in; [apply Permutation_sym; exact Pq|left; auto]|].
              apply litval_true_iff in Hq. now apply M2.
        -- apply M1. exists x. rewrite F1; auto.
      * intros v b Hv. apply M2. rewrite F2; congruence.
    + intros x Hx. rewrite F1; auto.
    + intros y Hy. destruct (Sub y Hy). auto.
  - injection E as <- <- <-. splits; auto; [tauto|]. intros y Hy. split; auto. intros Ht ->.
    assert (X : contains (tr a) l && negb (dead d other) && contains (lits (cl d other)) (neg l) = true); [|congruence].
    rewrite (proj2 (contains_iff _ _) Ht), (proj2 (contains_iff _ _) Hy), andb_true_r. unfold dead.
    destruct (lits (cl d other)); [destruct Hy|reflexivity].
Qed.

(** ** C26: the resolvent *)
(** [p] and [n] have, besides [v], a variable with opposite signs *)
Definition tautological (v : nat) (p n : list lit) : Prop := exists l, vi l <> v /\ In l p /\ In (neg l) n.

Theorem C26_merge_is_resolvent : forall v p n,
  2 <= length p -> 2 <= length n -> NoDup (map vi p) -> NoDup (map vi n) ->
  (merge v p n = [] <-> tautological v p n) /\
  (~ tautological v p n -> NoDup (map vi (merge v p n)) /\
     forall l, In l (merge v p n) <-> (In l p \/ In l n) /\ vi l <> v).
Proof.
  intros v p n P1 N1 P2 N2. destruct (merge_cases v p n (conj P1 P2) (conj N1 N2)) as [[H1 (x & X1 & X2 & X3)]|(H1 & H2 & H3 & H4 & _)].
  - assert (T : tautological v p n) by (exists x; auto). split; [tauto|]. intros X. contradiction.
  - split; [|auto]. split; [contradiction|]. intros (x & X1 & X2 & X3). exfalso. apply H1. exists x. auto.
Qed.
Theorem C26_resolvent_entailed : forall v p n m,
  2 <= length p -> 2 <= length n -> NoDup (map vi p) -> NoDup (map vi n) ->
  In (mklit v true) p -> In (mklit v false) n -> sat m p -> sat m n ->
  merge v p n = [] \/ sat m (merge v p n).
Proof.
  intros v p n m P1 N1 P2 N2 Hp Hn Sp Sn. destruct (merge v p n) eqn:E; [left; auto|right].
  rewrite <- E. apply merge_sound; auto; [split; auto|split; auto|congruence].
Qed.
(** both parents can be satisfied by a value of [v] when the resolvent holds or is
    tautological *)
Theorem C26_resolvent_sufficient : forall v p n m,
  2 <= length p -> 2 <= length n -> NoDup (map vi p) -> NoDup (map vi n) ->
  In (mklit v true) p -> In (mklit v false) n -> merge v p n = [] \/ sat m (merge v p n) ->
  exists b, sat (setting m v b) p /\ sat (setting m v b) n.
Proof.
  intros v p n m P1 N1 P2 N2 Hp Hn H.
  destruct (merge_complete v p n m (conj P1 P2) (conj N1 N2) H) as [T|T]; [exists false|exists true]; split;
    solve [now apply sat_upd_tt | now apply sat_upd_side].
Qed.

(** ** C26: elimination of a variable *)
Lemma varelim_sem : forall (G : Models) a d a' d' v pos ng b es, @PInv G false false a d none ->
  VarElim a d a' d' v ->
  (forall c, In c pos <-> In (mklit v true) (content d c)) -> (forall c, In c ng <-> In (mklit v false) (content d c)) ->
  Forall2 (fun c e => entry_of v (negb b) (content d c) e) (if b then ng else pos) es ->
  forall m, Sem a' d' m -> Sem a d (ext (es ++ [[mklit v b]]) m) /\ forall w, w <> v -> ext (es ++ [[mklit v b]]) m w = m w.
Proof.
  intros G a d a' d' v pos ng b es PI VE IP IN F m Hm.
  assert (D : DbInv d) by apply PI. destruct VE as [V1 V2 V3 [V4 V5] V6 V7].
  assert (W : forall c (l : lit), In l (content d c) -> wf_lits (content d c)).
  { intros c l Hc. apply live_wf; auto. intros X. rewrite X in Hc. destruct Hc. }
  destruct (ext_clauses v d pos ng b es m) as [X1 X2].
  { intros c Hc. now apply IP. }
  { intros c Hc. now apply IN. }
  { exact F. }
  { intros p n Hp Hn. apply IP in Hp. apply IN in Hn. apply merge_complete; [eapply W; eauto|eapply W; eauto|].
    eapply resolved_sem; [apply V3; auto|exact Hm|exact V7]. }
  split; auto. destruct Hm as [M1 M2]. split.
  - intros c Hc. destruct (existsb (fun l => vi l =? v) (content d c)) eqn:Ex.
    + apply existsb_exists in Ex as (l & L1 & L2). apply Nat.eqb_eq in L2. apply X2.
      destruct (sgn l) eqn:Es; [left; apply IP|right; apply IN]; rewrite <- L2, <- Es, <- lit_cases; auto.
    + assert (Hn : forall l, In l (content d c) -> vi l <> v).
      { intros l Hl X. assert (Y : existsb (fun l => vi l =? v) (content d c) = true); [|congruence].
        apply existsb_exists. exists l. split; auto. now apply Nat.eqb_eq. }
      apply (sat_same m); [intros l Hl; symmetry; apply X1; auto|].
      specialize (M1 c). specialize (V1 c Hc Hn). unfold content in *. rewrite V1 in M1. auto.
  - intros l L1 L2. unfold ltrue. rewrite X1; [apply M2; apply V6; auto|]. intros X. apply litval_true_iff in L1. congruence.
Qed.

Lemma models_ext : forall a d m m', (forall x, m x = m' x) -> models_of a d m -> models_of a d m'.
Proof.
  intros a d m m' H [M1 M2]. split.
  - intros ls Hls. destruct (M1 ls Hls) as (l & L1 & L2). exists l. split; auto. unfold ltrue in *. now rewrite <- H.
  - intros v b Hv. rewrite <- H. now apply M2.
Qed.

Theorem C26_elimination : forall evo a d o v a' d' o' r, running evo (a, d, o) ->
  elim_step evo (a, d, o) (EVar v) = ((a', d', o'), r) ->
  match r with
  | Some _ => forall m, ~ models_of a d m
  | None =>
    (a', d', o') = (a, d, o) \/
    (eli a v = false /\ eli a' v = true /\ (forall w, w <> v -> eli a' w = eli a w) /\
     (* [v] occurs in no clause any more, the clauses without [v] are untouched *)
     (forall c l, In l (lits (cl d' c)) -> vi l <> v) /\
     (forall c, lits (cl d c) <> [] -> (forall l, In l (lits (cl d c)) -> vi l <> v) -> cl d' c = cl d c) /\
     (* what remains is exactly the projection *)
     (forall m, models_of a' d' m <-> exists b, models_of a d (setting m v b)))
  end.
Proof.
  intros evo a d o v a' d' o' r R E. apply running_inv in R. pose proof R as (I1 & I2 & I3 & I4).
  destruct r as [e|]; [apply (step_error evo a d o _ _ e R E)|].
  pose proof (step_forward evo a d o (EVar v) a' d' o' R E) as Fw.
  cbn [elim_step] in E. destruct (val a v) eqn:Hv; [injection E as <- <- <-; auto|].
  destruct ((1 <=? v) && (v <=? nv a) && negb (eli a v) && negb (oab o v)) eqn:Eg; [|injection E as <- <- <-; auto].
  right. apply andb_prop in Eg as [Eg Eg4]. apply andb_prop in Eg as [Eg Eg3]. apply andb_prop in Eg as [Eg1 Eg2].
  apply Nat.leb_le in Eg1, Eg2. apply negb_true_iff in Eg3, Eg4.
  destruct (eliminate_var_gm nomodels evo a d o v _ None I1 I2 (or_introl I3) I4 Hv (conj Eg1 Eg2) Eg3 Eg4 E)
    as (S1 & S2 & S3 & S4 & S5 & S6 & b & es & pos & ng & Eo & FF & IP & IN).
  assert (Hl' : lims a' = []) by (destruct S3 as (-> & _); auto).
  splits; auto.
  - rewrite S4. apply upd_same.
  - intros w Hw. rewrite S4. now apply upd_other.
  - apply (ve_gone _ _ _ _ _ S6).
  - apply (ve_old _ _ _ _ _ S6).
  - intros m. split.
    + intros Hm. apply (sem_models nomodels _ _ _ _ _ _ (proj1 S1) Hl') in Hm.
      destruct (varelim_sem nomodels a d a' d' v pos ng b es I1 S6 IP IN FF m Hm) as [X1 X2].
      set (m1 := ext (es ++ [[mklit v b]]) m) in *. exists (m1 v).
      apply (models_ext a d m1).
      * intros x. unfold setting. destruct (Nat.eqb_spec x v) as [->|Hx]; auto.
      * apply (sem_models nomodels _ _ _ _ _ _ (proj1 I1) I2). exact X1.
    + intros (c & Hc). apply Fw in Hc. apply (sem_models nomodels _ _ _ _ _ _ (proj1 S1) Hl') in Hc.
      apply (sem_models nomodels _ _ _ _ _ _ (proj1 S1) Hl').
      pose proof (sem_off a' d' _ v (m v) Hc (ve_gone _ _ _ _ _ S6) (proj2 (ve_val _ _ _ _ _ S6))) as [M1 M2].
      assert (X : forall x, upd (setting m v c) v (m v) x = m x).
      { intros x. unfold upd, setting. destruct (Nat.eqb_spec x v) as [->|]; auto. }
      split.
      * intros y Hy. destruct (M1 y Hy) as (l & L1 & L2). exists l. split; auto. unfold ltrue in *. now rewrite X in L2.
      * intros l L1 L2. specialize (M2 l L1 L2). unfold ltrue in *. now rewrite X in M2.
Qed.

(** Any run of the eliminator keeps satisfiability; an error means unsatisfiable. *)
Theorem C26_run_equisatisfiable : forall evo a d o ss a' d' o' r, running evo (a, d, o) ->
  elim_run evo (a, d, o) ss = ((a', d', o'), r) ->
  match r with
  | Some _ => forall m, ~ models_of a d m
  | None => (exists m, models_of a d m) <-> (exists m, models_of a' d' m)
  end.
Proof.
  intros evo a d o ss. revert a d o. induction ss as [|s ss IH]; intros a d o a' d' o' r R E; cbn [elim_run] in E.
  - injection E as <- <- <- <-. tauto.
  - destruct (elim_step evo (a, d, o) s) as [[[a1 d1] o1] r1] eqn:E1. pose proof (running_inv _ _ R) as RI.
    destruct r1 as [e|].
    + injection E as <- <- <- <-. apply (step_error evo a d o s _ e RI E1).
    + pose proof (step_forward evo a d o s a1 d1 o1 RI E1) as Fw.
      assert (R1 : running evo (a1, d1, o1)) by (eapply run_step; eauto).
      specialize (IH a1 d1 o1 a' d' o' r R1 E).
      assert (Bk : (exists m, models_of a1 d1 m) -> exists m, models_of a d m).
      { destruct RI as (I1 & I2 & I3 & I4). pose proof (running_inv _ _ R1) as (J1 & J2 & J3 & J4).
        destruct s as [v|v|c other|l other|v|].
        - cbn [elim_step] in E1. injection E1 as <- <- <-. auto.
        - cbn [elim_step] in E1. destruct (val a v); [injection E1 as <- <- <-; auto|].
          destruct (oab o v); injection E1 as <- <- <-; auto.
        - destruct (C25_subsumption evo a d o c other a1 d1 o1 None R E1) as (_ & _ & X & _). intros (m & Hm). exists m. now apply X.
        - pose proof (C25_strengthening evo a d o l other a1 d1 o1 None R E1) as (X & _). intros (m & Hm). exists m. now apply X.
        - destruct (C26_elimination evo a d o v a1 d1 o1 None R E1) as [X|(_ & _ & _ & _ & _ & X)]; [injection X as -> -> ->; auto|].
          intros (m & Hm). apply X in Hm as (b & Hb). eauto.
        - cbn [elim_step] in E1. destruct (propagate_sandbox a d) as [[a2 d2] rr] eqn:Ep. injection E1 as -> -> -> Er.
          pose proof (propagate_sandbox_spec false false a d I1 a1 d1 rr Ep) as (F1 & F2 & F3).
          intros (m & [M1 M2]). exists m. split.
          + intros ls (c & <- & Hc). destruct (M1 (lits (cl d1 c))) as (l & L1 & L2).
            * exists c. split; auto. intros X. destruct F2 as (F2 & _). specialize (F2 c). unfold content in F2. rewrite X in F2.
              apply Permutation_nil in F2. auto.
            * exists l. split; auto. eapply Permutation_in; [apply F2|auto].
          + intros v b Hv. apply M2. destruct F1 as (_ & _ & _ & _ & _ & _ & _ & _ & _ & _ & A).
            destruct (A v) as (-> & _); congruence. }
      destruct r as [e|].
      * intros m Hm. apply (IH m). now apply Fw.
      * rewrite <- IH. split; auto. intros (m & Hm). eauto.
Qed.

(** ** C27: extension of a model *)
(** any number of runs of the eliminator (each a fresh eliminator that is prepared, does any
    operations, propagates and stops) from a state of the search engine at level 0 without
    eliminated variables; the stack collects what the runs recorded *)
Inductive eliminations (a0 : asg) (d0 : cdb) : asg -> cdb -> list lit -> Prop :=
| el_start : eliminations a0 d0 a0 d0 []
| el_run : forall evo ss a d stk a' d' o', eliminations a0 d0 a d stk ->
    elim_prepare_simplify evo ss (a, d, occ_new) = ((a', d', o'), None) ->
    eliminations a0 d0 a' d' (stk ++ olits o').

Lemma eliminations_spec : forall a0 d0 a d stk, @PInv nomodels false false a0 d0 none -> lims a0 = [] -> nv a0 < 2 ^ 16 ->
  Quiet d0 -> EStk a0 [] -> Red a0 d0 -> eliminations a0 d0 a d stk ->
  @PInv nomodels false false a d none /\ lims a = [] /\ nv a = nv a0 /\ Quiet d /\ Red a d /\
  exists es, stk = flat es /\ EStk a es /\ forall m, SemK a d m -> SemK a0 d0 (ext es m).
Proof.
  intros a0 d0 a d stk P L N Q Es Rd H. induction H as [|evo ss a d stk a' d' o' H IH E].
  - splits; auto. exists []. splits; auto.
  - destruct IH as (I1 & I2 & I3 & I4 & I5 & es & I6 & I7 & I8).
    assert (N1 : nv a < 2 ^ 16) by (rewrite I3; auto).
    destruct (elim_prepare_simplify_spec nomodels evo ss a d occ_new a' d' o' None I1 I2 (or_introl N1) I4 E) as (S1 & S2 & S3 & S4).
    destruct S2 as ((F1 & F2 & _) & _ & new & Eo & ES & SR). destruct (SR I5) as [R' Bk].
    splits; auto; try congruence. exists (es ++ new). splits.
    + rewrite flat_app, <- I6, Eo. reflexivity.
    + now apply ES.
    + intros m Hm. rewrite ext_app. auto.
Qed.

Theorem C27_extend_model : forall s a d stk (p : pmodel),
  reachable s -> ps_cf s = None -> lims (ps_a s) = [] -> nv (ps_a s) < 2 ^ 16 ->
  (forall v, eli (ps_a s) v = false) ->
  (* learnt clauses follow from the others *)
  (forall m, sat_all m (irredundant (ps_d s)) -> agrees m (val (ps_a s)) -> sat_all m (stored (ps_d s))) ->
  eliminations (ps_a s) (ps_d s) a d stk ->
  (* an assignment of the variables that are left, which satisfies the irredundant clauses *)
  (forall v, 1 <= v <= nv a -> eli a v = false -> p v <> None) ->
  (forall v b, val a v = Some b -> p v = Some b) ->
  (forall ls, irredundant d ls -> exists l, In l ls /\ p (vi l) = Some (sgn l)) ->
  let q := extend_model stk p in
  (forall v, 1 <= v <= nv a -> q v <> None) /\
  (forall ls, stored (ps_d s) ls -> exists l, In l ls /\ q (vi l) = Some (sgn l)) /\
  (forall v b, val (ps_a s) v = Some b -> q v = Some b).
Proof.
  intros s a d stk p R Ec Hl Hn He Hred H P1 P2 P3 q.
  pose proof (reach_root s R Ec) as P. pose proof (reachable_quiet s R) as Q.
  assert (ES : EStk (ps_a s) []).
  { unfold EStk. splits.
    - intros e [].
    - intros es1 t os es2 X. destruct es1; discriminate.
    - intros v X. rewrite He in X. discriminate.
    - intros t os []. }
  assert (RD : Red (ps_a s) (ps_d s)).
  { intros m Hm. apply (sem_models nomodels _ _ _ _ _ _ (proj1 P) Hl).
    apply (semk_models nomodels _ _ _ _ _ _ (proj1 P) Hl) in Hm as [M1 M2]. split; auto. }
  destruct (eliminations_spec _ _ _ _ _ P Hl Hn Q ES RD H) as (I1 & I2 & I3 & I4 & I5 & es & -> & I7 & I8).
  destruct (extend_total a es p I7 P1) as [T1 T2]. fold q in T1, T2.
  assert (M : SemK a d (total_of p)).
  { apply (semk_models nomodels _ _ _ _ _ _ (proj1 I1) I2). split.
    - intros ls Hls. destruct (P3 ls Hls) as (l & L1 & L2). exists l. split; auto. unfold ltrue, total_of. now rewrite L2.
    - intros v b Hv. unfold total_of. now rewrite (P2 v b Hv). }
  apply I8, RD, (sem_models nomodels _ _ _ _ _ _ (proj1 P) Hl) in M. destruct M as [M1 M2].
  assert (EQ : forall v, 1 <= v <= nv a -> q v = Some (ext es (total_of p) v)).
  { intros v Hv. destruct (q v) as [b|] eqn:Eq; [|now elim (T1 v Hv)]. f_equal. symmetry. now apply T2. }
  splits; auto.
  - intros ls Hls. destruct (M1 ls Hls) as (l & L1 & L2). exists l. split; auto. rewrite EQ; [now rewrite L2|].
    destruct Hls as (c & <- & _). rewrite I3. apply (pi_vars _ _ _ _ _ (proj1 P) c l L1).
  - intros v b Hv. rewrite EQ; [f_equal; now apply M2|]. rewrite I3. apply (coh_range _ (pi_coh _ _ _ _ _ (proj1 P)) v). congruence.
Qed.

(** * Concrete cases *)
(** clauses (1 2) (-1 3) (1 2 4) (-2 -3) (-5 -3 4), 5 asserted *)
Definition el_ops : list pop :=
  [PAdd [pos 1; pos 2] false; PAdd [nega 1; pos 3] false; PAdd [pos 1; pos 2; pos 4] false;
   PAdd [nega 2; nega 3] false; PAdd [nega 5; nega 3; pos 4] false; PAssert (pos 5)].
Definition el_s : pstate := prun ex_start el_ops.
Lemma el_reach : reachable el_s.
Proof. apply prun_reachable; [apply reach_new|]. unfold el_ops. allow. Qed.
Lemma el_start_ok : ps_cf el_s = None /\ lims (ps_a el_s) = [] /\ nv (ps_a el_s) = 6.
Proof. vm_compute. splits; reflexivity. Qed.
Lemma running_run : forall evo ss st st', running evo st -> elim_run evo st ss = (st', None) -> running evo st'.
Proof.
  intros evo. induction ss as [|s ss IH]; intros st st' R E; cbn [elim_run] in E.
  - injection E as <-. auto.
  - destruct (elim_step evo st s) as [st1 [e|]] eqn:E1; [discriminate|]. apply (IH st1); auto. eapply run_step; eauto.
Qed.
Definition el_p : cdb * occ := prepare 100 (ps_a el_s) (ps_d el_s) occ_new.
Definition el_st : estate := (ps_a el_s, fst el_p, snd el_p).
Lemma el_p_eq : prepare 100 (ps_a el_s) (ps_d el_s) occ_new = (fst el_p, snd el_p).
Proof. unfold el_p. apply surjective_pairing. Qed.
Lemma el_small : nv (ps_a el_s) < 2 ^ 16.
Proof. destruct el_start_ok as (_ & _ & H). rewrite H. apply lt16. lia. Qed.
Lemma el_st_running : running 100 el_st.
Proof.
  unfold el_st. apply run_start.
  - apply el_reach.
  - apply el_start_ok.
  - apply el_start_ok.
  - apply el_small.
  - apply el_p_eq.
Qed.
Definition el_run0 (ss : list estep) : eresult := elim_run 100 el_st ss.
Lemma el_running : forall ss st, el_run0 ss = (st, None) -> running 100 st.
Proof. intros ss st E. exact (running_run 100 ss el_st st el_st_running E). Qed.
(** (1 2) subsumes (1 2 4); the asserted literal 5 shortens (-5 -3 4); eliminating 1 gives the
    resolvent (2 3), eliminating 3 then leaves only tautologies and (-2 or 2) *)
Example C25_nonvacuous :
  let '((a1, d1, o1), r1) := el_run0 [ESub 1 3] in
  let '((a2, d2, o2), r2) := el_run0 [ESub 1 3; ELift (pos 5) 5] in
  r1 = None /\ lits (cl d1 3) = [] /\ lits (cl d1 1) = [pos 1; pos 2] /\
  r2 = None /\ lits (cl d1 5) = [nega 5; nega 3; pos 4] /\ lits (cl d2 5) = [nega 3; pos 4].
Proof. vm_compute. splits; reflexivity. Qed.
Example C26_nonvacuous :
  let '((a1, d1, o1), r1) := el_run0 [ESub 1 3; ELift (pos 5) 5; EVar 1] in
  r1 = None /\ eli a1 1 = true /\ lits (cl d1 1) = [] /\ lits (cl d1 2) = [] /\ lits (cl d1 3) = [pos 3; pos 2] /\
  olits o1 = [pos 1; pos 2; 2; nega 1; 1].
Proof. vm_compute. splits; reflexivity. Qed.
(** the whole run as in the solver, and a completed assignment *)
Lemma el_generic : forall evo ss a0 d0, snd (elim_prepare_simplify evo ss (a0, d0, occ_new)) = None ->
  let '((a, d, o), r) := elim_prepare_simplify evo ss (a0, d0, occ_new) in eliminations a0 d0 a d (olits o).
Proof.
  intros evo ss a0 d0 H. destruct (elim_prepare_simplify evo ss (a0, d0, occ_new)) as [[[a d] o] r] eqn:E.
  cbn [snd] in H. subst r. exact (el_run _ _ _ _ _ _ [] a d o (el_start _ _) E).
Qed.
Definition el_done := elim_prepare_simplify 100 [ESub 1 3; ELift (pos 5) 5; EVar 1] (ps_a el_s, ps_d el_s, occ_new).
Lemma el_done_ok : snd el_done = None.
Proof. vm_compute. reflexivity. Qed.
Lemma el_eliminations : let '((a, d, o), r) := el_done in
  eliminations (ps_a el_s) (ps_d el_s) a d (olits o).
Proof. pose proof el_done_ok as H. revert H. unfold el_done. apply el_generic. Qed.
Example C27_nonvacuous :
  let '((a, d, o), r) := el_done in
  let p := fun v => match v with 2 => Some false | 3 => Some true | 4 => Some true | 5 => Some true | 6 => Some false | _ => None end in
  let q := extend_model (olits o) p in
  r = None /\
  map (eli a) [1; 2; 3; 4; 5; 6] = [true; false; false; false; false; false] /\
  lits (cl d 3) = [pos 3; pos 2] /\ lits (cl d 4) = [nega 2; nega 3] /\ lits (cl d 5) = [nega 3; pos 4] /\
  map q [1; 2; 3; 4; 5; 6] = [Some true; Some false; Some true; Some true; Some true; Some false].
Proof. vm_compute. splits; reflexivity. Qed.
Example C27_nonvacuous_start : forall v, eli (ps_a el_s) v = false.
Proof. intros v. vm_compute. reflexivity. Qed.
Example C27_nonvacuous_irredundant : forall c, lrn (cl (ps_d el_s) c) = false.
Proof. intros c. do 9 (destruct c as [|c]; [vm_compute; reflexivity|]). vm_compute. reflexivity. Qed.
