(** C24: root-level simplification keeps the models. C30: the validator. *)
From Coq Require Import List Arith Bool Lia Permutation.
From Verif Require Import Base HeapModel AsgModel EmaModel LitFacts SatSpec CdbModel CdbProofs CdbOps C21_Db.
Import ListNotations.
#[local] Existing Instance loose_counters.

Lemma sat_perm2 : forall m a b, sat m [a; b] <-> sat m [b; a].
Proof. intros. unfold sat. cbn. split; intros (l & H & T); exists l; split; auto; tauto. Qed.

Lemma agrees_true : forall m a l, agrees m (val a) -> litval a l = Some true -> ltrue m l.
Proof. intros m a l A H. apply litval_true_iff in H. apply (A _ _ H). Qed.
Lemma agrees_false : forall m a l, agrees m (val a) -> litval a l = Some false -> ~ ltrue m l.
Proof.
  intros m a l A H T. apply litval_false_iff in H. apply (agrees_true m a _ A) in H.
  unfold ltrue in *. rewrite vi_neg, sgn_neg in H. rewrite H in T. destruct (sgn l); discriminate.
Qed.

(** removing false literals of variables that are not eliminated *)
Lemma sat_filter : forall m a el ls, agrees m (val a) -> existsb (tru (litval a)) ls = false ->
  (forall l, In l ls -> el (vi l) = false) ->
  sat m (filter (unfixed (litval a) el) ls) <-> sat m ls.
Proof.
  intros m a el ls A N El. split; intros (l & I & T).
  - apply filter_In in I as [I _]. exists l. auto.
  - exists l. split; auto. apply filter_In. split; auto. unfold unfixed. rewrite (El l I).
    destruct (litval a l) as [[]|] eqn:E; auto.
    + exfalso. assert (X : existsb (tru (litval a)) ls = true); [|congruence].
      apply existsb_exists. exists l. split; auto. unfold tru. now rewrite E.
    + exfalso. eapply agrees_false; eauto.
Qed.

Lemma sat_all_removed {md : Mode} : forall m d d' c, Removed d d' c ->
  sat_all m (stored d) <-> sat_all m (stored d') /\ (content d c <> [] -> sat m (content d c)).
Proof.
  intros m d d' c R. split.
  - intros H. split.
    + intros ls (x & E & N). apply H. exists x. split; auto. change (content d' x = ls) in E.
      rewrite (rm_content _ _ _ R) in E. unfold upd in E. destruct (x =? c); [congruence|exact E].
    + intros N. apply H. exists c. split; auto.
  - intros [H1 H2] ls (x & E & N). destruct (Nat.eq_dec x c) as [->|Hx].
    + change (content d c = ls) in E. rewrite <- E. apply H2. congruence.
    + apply H1. exists x. split; auto. now rewrite (rm_other _ _ _ R x Hx).
Qed.

Lemma sat_all_rewritten {md : Mode} : forall m d d' c new, Rewritten d d' c new -> content d c <> [] -> new <> [] ->
  (sat m new <-> sat m (content d c)) -> (sat_all m (stored d) <-> sat_all m (stored d')).
Proof.
  intros m d d' c new R N1 N2 E. split; intros H ls (x & X & N).
  - change (content d' x = ls) in X. rewrite (rw_content _ _ _ _ R) in X. unfold upd in X.
    destruct (Nat.eqb_spec x c) as [Hx|Hx]; [subst x|].
    + subst ls. apply E, H. exists c. split; auto.
    + apply H. exists x. split; auto.
  - change (content d x = ls) in X. destruct (Nat.eq_dec x c) as [->|Hx].
    + subst ls. apply E, H. exists c. split; auto. change (content d' c = new). rewrite (rw_content _ _ _ _ R). apply upd_same.
    + apply H. exists x. split; auto. rewrite (rw_other _ _ _ _ R x Hx). exact X.
Qed.

(** [a] is the assignment at root level; none of the literals of the clause belongs to
    an eliminated variable (elimination removes all its clauses). [extra] is what the
    caller is told to add. *)
Definition extra (m : model) (r : refclause) : Prop :=
  match r with
  | RUnit u => ltrue m u
  | REmpty => False
  | _ => True
  end.

Theorem C24_models_preserved : forall d a el c d' r m, dreach d -> lits (cl d c) <> [] ->
  (forall l, In l (lits (cl d c)) -> el (vi l) = false) ->
  transform_by_simplification (litval a) el d c = (d', r) ->
  agrees m (val a) ->
  (sat_all m (stored d) <-> sat_all m (stored d') /\ extra m r /\
     (match r with RUnit _ | REmpty => forall ls, stored d' ls -> stored d ls | _ => True end)).
Proof.
  intros d a el c d' r m R Hl El E A. apply dreach_inv in R.
  apply (simplification_spec _ _ _ _ _ _ R Hl) in E.
  assert (SC : sat_all m (stored d) -> sat m (content d c)).
  { intros H. apply H. exists c. auto. }
  inversion E; subst; cbn [extra].
  - destruct (remove_clause_spec d c R Hl) as [X _]. rewrite (sat_all_removed m _ _ _ X).
    split; [tauto|]. intros [H1 _]. split; auto. intros _.
    apply existsb_exists in H as (l & I & T). exists l. split; auto. unfold tru in T.
    destruct (litval a l) as [[]|] eqn:F; try discriminate. eapply agrees_true; eauto.
  - tauto.
  - split; [|tauto]. intros H2. exfalso. apply SC in H2.
    apply (sat_filter m a el (content d' c) A H El) in H2. rewrite H1 in H2. destruct H2 as (l & [] & _).
  - split; [|tauto]. intros H2. splits; auto. apply SC in H2.
    apply (sat_filter m a el (content d' c) A H El) in H2. rewrite H1 in H2.
    destruct H2 as (l & [->|[]] & T). exact T.
  - destruct (remove_clause_spec d c R Hl) as [X _]. rewrite (sat_all_removed m _ _ _ X).
    split; [tauto|]. intros [Z _]. split; auto. intros _.
    apply (sat_filter m a el (content d c) A H El). rewrite H1.
    assert (Y : sat m (content d b)).
    { apply Z. exists b. rewrite (rm_other _ _ _ X b H2). split; auto. destruct H3 as [Y|Y]; rewrite Y; discriminate. }
    destruct H3 as [Y'|Y']; rewrite Y' in Y; auto. now apply sat_perm2.
  - rewrite (sat_all_rewritten m _ _ _ _ H2 Hl); [tauto| |].
    + intros X. rewrite X in H1. cbn in H1. lia.
    + apply (sat_filter m a el (content d c) A H El).
Qed.

(** what each answer means for the clause itself *)
Theorem C24_answers : forall d a el c d' r, dreach d -> lits (cl d c) <> [] ->
  (forall l, In l (lits (cl d c)) -> el (vi l) = false) ->
  transform_by_simplification (litval a) el d c = (d', r) ->
  match r with
  | RDead => (exists l, In l (lits (cl d c)) /\ litval a l = Some true) /\ lits (cl d' c) = []
  | REmpty => (forall l, In l (lits (cl d c)) -> litval a l = Some false) /\ d' = d
  | RUnit u => In u (lits (cl d c)) /\ litval a u = None /\ d' = d /\
               forall l, In l (lits (cl d c)) -> l <> u -> litval a l = Some false
  | RReg b => lits (cl d' c) = [] /\ b <> c /\ length (lits (cl d b)) = 2 /\
               (forall l, In l (lits (cl d b)) <-> In l (lits (cl d c)) /\ litval a l = None)
  | RClause c' => c' = c /\ 2 <= length (lits (cl d' c)) /\ (forall l, In l (lits (cl d c)) -> litval a l <> Some true) /\
               (forall l, In l (lits (cl d' c)) <-> In l (lits (cl d c)) /\ litval a l = None)
  end.
Proof.
  intros d a el c d' r R Hl El E. apply dreach_inv in R.
  apply (simplification_spec _ _ _ _ _ _ R Hl) in E.
  assert (NT : existsb (tru (litval a)) (content d c) = false -> forall l, In l (content d c) -> litval a l <> Some true).
  { intros H l I X. assert (Y : existsb (tru (litval a)) (content d c) = true); [|congruence].
    apply existsb_exists. exists l. split; auto. unfold tru. now rewrite X. }
  assert (FI : forall l, In l (filter (unfixed (litval a) el) (content d c)) <-> In l (content d c) /\ litval a l = None).
  { intros l. rewrite filter_In. unfold unfixed. split; intros [I X]; split; auto.
    - destruct (litval a l); [discriminate|auto].
    - rewrite X. now rewrite (El l I). }
  assert (FF : existsb (tru (litval a)) (content d c) = false -> forall l, In l (content d c) ->
     ~ In l (filter (unfixed (litval a) el) (content d c)) -> litval a l = Some false).
  { intros H l I N. destruct (litval a l) as [[]|] eqn:X; auto.
    - exfalso. eapply NT; eauto.
    - exfalso. apply N, FI. auto. }
  inversion E; subst.
  - destruct (remove_clause_spec d c R Hl) as [X _]. split.
    + apply existsb_exists in H as (l & I & T). exists l. split; auto. unfold tru in T.
      destruct (litval a l) as [[]|]; congruence.
    + pose proof (rm_content _ _ _ X c) as Y. rewrite upd_same in Y. exact Y.
  - splits; auto.
    + apply (db_len d' R c Hl).
    + intros l. split; [|tauto]. intros I. split; auto. destruct (litval a l) eqn:F; auto.
      exfalso. assert (Y : existsb (fixed (litval a) el) (content d' c) = true); [|congruence].
      apply existsb_exists. exists l. split; auto. unfold fixed. now rewrite F.
  - split; auto. intros l I. apply FF; auto. rewrite H1. auto.
  - assert (Hu : In u (filter (unfixed (litval a) el) (content d' c))) by (rewrite H1; now left).
    apply FI in Hu as [U1 U2]. splits; auto. intros l I N. apply FF; auto. rewrite H1. cbn. intuition congruence.
  - destruct (remove_clause_spec d c R Hl) as [X _]. splits; auto.
    + pose proof (rm_content _ _ _ X c) as Y. rewrite upd_same in Y. exact Y.
    + change (lits (cl d b)) with (content d b). destruct H3 as [Y|Y]; rewrite Y; reflexivity.
    + intros l. change (lits (cl d b)) with (content d b). rewrite <- FI, H1. destruct H3 as [Y|Y]; rewrite Y; cbn; tauto.
  - pose proof (rw_content _ _ _ _ H2 c) as Y. rewrite upd_same in Y. unfold content at 1 in Y. rewrite Y. splits; auto.
Qed.

(** a concrete case: database { 1∨2∨3, 1∨2 } with 3 false at root: the first clause
    becomes a duplicate of the second and is merged into it *)
Definition ex_db : cdb := dstep (dstep cdb_new (ONew (fun _ => 0) [3; 5; 7] false)) (ONew (fun _ => 0) [3; 5] false).
Definition ex_asg : asg := set_val (asg_new 3 (fun _ _ _ => false)) (upd (fun _ => None) 3 (Some false)).
Lemma nodup_123 : NoDup [1; 2; 3].
Proof. repeat constructor; cbn; lia. Qed.
Example C24_example : dreach ex_db /\ lits (cl ex_db 1) <> [] /\
  snd (transform_by_simplification (litval ex_asg) (fun _ => false) ex_db 1) = RReg 2 /\
  agrees (fun v => v =? 1) (val ex_asg) /\ sat_all (fun v => v =? 1) (stored ex_db).
Proof.
  splits.
  - apply dreach_step; [apply dreach_step; [constructor|]|]; cbn; split; try lia; [apply nodup_123|apply nodup3].
  - discriminate.
  - vm_compute. reflexivity.
  - intros x b. cbn. unfold upd. destruct (Nat.eqb_spec x 3) as [->|]; [|discriminate]. intros H; injection H as <-. reflexivity.
  - intros ls (c & E & N). unfold ex_db in E. cbn in E. unfold upd in E.
    destruct (Nat.eqb_spec c 2); [|destruct (Nat.eqb_spec c 1)]; cbn in E; try congruence; subst ls;
      exists 3; split; cbn; auto; reflexivity.
Qed.

(** ** C30 *)
Lemma evaluate_true : forall ls m acc, acc <> Some true ->
  (evaluate ls m acc = Some true <-> exists l, In l ls /\ m (vi l) = Some (sgn l)).
Proof.
  induction ls as [|l ls IH]; intros m acc N; cbn [evaluate].
  - split; [congruence|]. intros (l & [] & _).
  - destruct (m (vi l)) as [x|] eqn:E.
    + destruct (eqb x (sgn l)) eqn:F.
      * apply eqb_prop in F. subst x. split; auto. intros _. exists l. split; cbn; auto.
      * rewrite IH by auto. split; intros (k & I & T).
        -- exists k. split; cbn; auto.
        -- destruct I as [->|I]; [|exists k; auto]. rewrite E in T. injection T as ->. rewrite eqb_reflx in F. discriminate.
    + rewrite IH by discriminate. split; intros (k & I & T).
      * exists k. split; cbn; auto.
      * destruct I as [->|I]; [congruence|]. exists k; auto.
Qed.
Lemma evaluate_false : forall ls m acc,
  (evaluate ls m acc = Some false <-> acc = Some false /\ forall l, In l ls -> m (vi l) = Some (negb (sgn l))).
Proof.
  induction ls as [|l ls IH]; intros m acc; cbn [evaluate].
  - split; [intros ->; split; auto; intros l []|tauto].
  - destruct (m (vi l)) as [x|] eqn:E.
    + destruct (eqb x (sgn l)) eqn:F.
      * apply eqb_prop in F. subst x. split; [discriminate|]. intros [_ H].
        specialize (H l (or_introl eq_refl)). rewrite E in H. destruct (sgn l); discriminate.
      * rewrite IH. split; intros [H1 H2]; split; auto.
        -- intros k [<-|I]; auto. rewrite E. destruct x, (sgn l); try discriminate; auto.
        -- intros k I. apply H2. now right.
    + rewrite IH. split; intros [H1 H2]; [discriminate|].
      specialize (H2 l (or_introl eq_refl)). congruence.
Qed.

Lemma validate_strict {md : Mode} : forall d m, DbInv d ->
  (validate d m true = None <->
   forall c, lits (cl d c) <> [] -> lrn (cl d c) = false ->
     exists l, In l (lits (cl d c)) /\ m (vi l) = Some (sgn l)).
Proof.
  intros d m R. unfold validate. split.
  - intros H c Hl Hn. pose proof (live_range d c R Hl) as Rg.
    pose proof (find_none _ _ H c) as X. cbv beta in X.
    assert (I0 : In c (seq 1 (ncl d - 1))) by (apply in_seq; lia). specialize (X I0).
    apply (proj2 (content_live d c)) in Hl. rewrite Hl, Hn in X. cbn in X.
    destruct (evaluate (lits (cl d c)) m (Some false)) as [[]|] eqn:E; try discriminate.
    apply evaluate_true in E; auto. discriminate.
  - intros H. destruct (find _ _) as [c|] eqn:F; auto. exfalso.
    apply find_some in F as [_ F]. apply andb_true_iff in F as [F1 F2]. apply negb_true_iff, orb_false_iff in F1 as [F1 F1'].
    cbn in F1'. apply content_live in F1. destruct (H c F1 F1') as (l & I & T).
    assert (E : evaluate (lits (cl d c)) m (Some false) = Some true) by (apply evaluate_true; [discriminate|eauto]).
    rewrite E in F2. discriminate.
Qed.
(** strict mode, as used by [Solver::validate]: no report iff every non-learnt clause has a
    true literal; a reported clause is a live, non-learnt clause without a true literal *)
Theorem C30_strict_none : forall d m, dreach d ->
  (validate d m true = None <->
   forall c, lits (cl d c) <> [] -> lrn (cl d c) = false ->
     exists l, In l (lits (cl d c)) /\ m (vi l) = Some (sgn l)).
Proof. intros d m R. apply validate_strict. now apply dreach_inv. Qed.

Theorem C30_strict_report : forall d m c, validate d m true = Some c ->
  lits (cl d c) <> [] /\ lrn (cl d c) = false /\ forall l, In l (lits (cl d c)) -> m (vi l) <> Some (sgn l).
Proof.
  intros d m c F. apply find_some in F as [_ F].
  apply andb_true_iff in F as [F1 F2]. apply negb_true_iff, orb_false_iff in F1 as [F1 F1']. cbn in F1'.
  apply content_live in F1. splits; auto. intros l I T.
  assert (E : evaluate (lits (cl d c)) m (Some false) = Some true) by (apply evaluate_true; [discriminate|eauto]).
  rewrite E in F2. discriminate.
Qed.

(** lax mode, as used inside [solve]: reports falsified clauses only, learnt ones included *)
Lemma validate_lax {md : Mode} : forall d m, DbInv d ->
  (validate d m false = None <->
   forall c, lits (cl d c) <> [] -> exists l, In l (lits (cl d c)) /\ m (vi l) <> Some (negb (sgn l))).
Proof.
  intros d m R. unfold validate. split.
  - intros H c Hl. pose proof (live_range d c R Hl) as Rg.
    pose proof (find_none _ _ H c) as X. cbv beta in X.
    assert (I0 : In c (seq 1 (ncl d - 1))) by (apply in_seq; lia). specialize (X I0).
    apply (proj2 (content_live d c)) in Hl. rewrite Hl in X. cbn in X.
    destruct (evaluate (lits (cl d c)) m (Some false)) as [[]|] eqn:E; try discriminate.
    + apply evaluate_true in E as (l & I & T); [|discriminate]. exists l. split; auto. rewrite T. destruct (sgn l); discriminate.
    + destruct (existsb (fun l => match m (vi l) with None => true | _ => false end) (lits (cl d c))) eqn:Ex.
      * apply existsb_exists in Ex as (l & I & T). exists l. split; auto. destruct (m (vi l)); congruence.
      * exfalso. clear - E Ex.
        assert (G : forall ls acc, existsb (fun l => match m (vi l) with None => true | _ => false end) ls = false ->
                  evaluate ls m acc = None -> acc = None).
        { induction ls as [|l ls IH]; intros acc X Y; cbn in *; auto. apply orb_false_iff in X as [X1 X2].
          destruct (m (vi l)); [|discriminate]. destruct (eqb b (sgn l)); [discriminate|]. eauto. }
        apply G in E; auto. discriminate.
  - intros H. destruct (find _ _) as [c|] eqn:F; auto. exfalso.
    apply find_some in F as [_ F]. apply andb_true_iff in F as [F1 F2]. apply negb_true_iff, orb_false_iff in F1 as [F1 _].
    apply content_live in F1. destruct (H c F1) as (l & I & T).
    destruct (evaluate (lits (cl d c)) m (Some false)) as [[]|] eqn:E; try discriminate.
    apply evaluate_false in E as [_ E]. auto.
Qed.
Theorem C30_lax : forall d m, dreach d ->
  (validate d m false = None <->
   forall c, lits (cl d c) <> [] -> exists l, In l (lits (cl d c)) /\ m (vi l) <> Some (negb (sgn l))).
Proof. intros d m R. apply validate_lax. now apply dreach_inv in R. Qed.
Example C30_example : validate ex_db (fun v => Some (v =? 1)) true = None /\
  validate ex_db (fun v => Some (v =? 3)) true = Some 2.
Proof. split; vm_compute; reflexivity. Qed.
