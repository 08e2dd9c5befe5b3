(** C67: the marks of the clause queue of the eliminator (QueueModel.v). *)
From Coq Require Import String List Arith Bool Lia ZArith Permutation.
From Verif Require Import Base HeapModel EmaModel AsgModel LitFacts AsgProofs C15_Trail CdbModel CdbProofs CdbOps PropModel SatSpec PropProofs PropLoop PropOps PropDb RootProofs ConflictModel ConflictProofs LogProofs HandleProofs PropMisc ElimModel ElimFacts ElimExt ElimProofs ElimVar ElimRun ElimTotal C12_Prop VivifyModel VivifyProofs QuietProofs Text CnfModel LitModel BuildModel Spec LitProofs BuildProofs C04_Build LubyModel LubyProofs SolveModel SolveProofs C01_Solve TermProofs C50_Term DratSpec C49_Drat QueueModel QueueProofs QueueRun KSolveModel KSolveProofs.
Import ListNotations.
Open Scope list_scope.
Open Scope nat_scope.
Local Opaque Nat.pow.

(** * Specification *)
(** a clause that is marked as waiting is in the queue *)
Definition marks_kept (q : queues) : Prop := forall c, q_flag q c = true -> In c (q_cls q).

(** * Proofs *)
Lemma mk_var : forall q x, marks_kept q -> marks_kept (set_q_var q x).
Proof. intros q x H c. exact (H c). Qed.
Lemma mk_enq_var : forall k o q v u, marks_kept q -> marks_kept (q_enqueue_var k o q v u).
Proof. intros. now apply mk_var. Qed.
Lemma mk_enq : forall k d q c, marks_kept q -> marks_kept (q_enqueue_clause k d q c).
Proof.
  intros k d q c H. unfold q_enqueue_clause. destruct (_ || _); auto. intros x. cbn. unfold upd.
  destruct (Nat.eqb_spec x c) as [->|N]; [now left|]. intros F. right. now apply H.
Qed.
Lemma mk_unmark : forall q c, marks_kept q -> marks_kept (set_q_flag q (upd (q_flag q) c false)).
Proof. intros q c H x. cbn. unfold upd. destruct (x =? c); [discriminate|apply H]. Qed.
Lemma fold_off : forall cs f x, fold_left (fun f c => upd f c false) cs f x = true -> f x = true /\ ~ In x cs.
Proof.
  induction cs as [|c t IH]; intros f x H; cbn in H; [auto|]. apply IH in H as [H1 H2]. unfold upd in H1.
  destruct (x =? c) eqn:Q; [discriminate|]. apply Nat.eqb_neq in Q. split; auto. intros [E|E]; [congruence|auto].
Qed.
Lemma mk_clear : forall q, marks_kept q -> forall c, q_flag (q_clear_vars (q_clear_clauses q)) c = false.
Proof.
  intros q H c. cbn. destruct (fold_left _ _ _ _) eqn:E; auto. apply fold_off in E as [E1 E2]. exfalso. apply E2. now apply H.
Qed.
Lemma mk_add_lit : forall k a c s l, marks_kept (snd s) -> marks_kept (snd (q_add_lit k a c s l)).
Proof.
  intros k a c [o q] l H. unfold q_add_lit. destruct (_ <? _); auto. destruct (eli a (vi l)); auto.
Qed.
Lemma mk_fold : forall (A : Type) (f : occ * queues -> A -> occ * queues) ls s,
  (forall s l, marks_kept (snd s) -> marks_kept (snd (f s l))) -> marks_kept (snd s) -> marks_kept (snd (fold_left f ls s)).
Proof. intros A f. induction ls as [|l t IH]; intros s F H; cbn; auto. Qed.
Lemma mk_fold3 : forall (A : Type) (f : cdb * occ * queues -> A -> cdb * occ * queues) ls s,
  (forall s l, marks_kept (snd s) -> marks_kept (snd (f s l))) -> marks_kept (snd s) -> marks_kept (snd (fold_left f ls s)).
Proof. intros A f. induction ls as [|l t IH]; intros s F H; cbn; auto. Qed.
Lemma mk_add_cid : forall k a d o q c e, marks_kept q -> marks_kept (snd (q_add_cid k a d o q c e)).
Proof.
  intros k a d o q c e H. unfold q_add_cid. destruct (cocc (cl d c)); auto.
  pose proof (mk_fold _ (q_add_lit k a c) (lits (cl d c)) (o, q) (mk_add_lit k a c) H) as M.
  destruct (fold_left _ _ _) as [o1 q1]. cbn [snd] in *. destruct e; auto. now apply mk_enq.
Qed.
Lemma mk_remove_lit : forall k o q l c, marks_kept q -> marks_kept (snd (q_remove_lit k o q l c)).
Proof. intros k o q l c H. unfold q_remove_lit. destruct (oab o (vi l)); auto. Qed.
Lemma mk_remove_cid_lit : forall k a c s l, marks_kept (snd s) -> marks_kept (snd (q_remove_cid_lit k a c s l)).
Proof.
  intros k a c s l H. unfold q_remove_cid_lit. destruct (val a (vi l)); auto.
  pose proof (mk_remove_lit k (fst s) (snd s) l c H) as M. destruct (q_remove_lit _ _ _ _ _) as [o1 q1]. cbn [snd] in *. now apply mk_enq_var.
Qed.
Lemma mk_remove_cid : forall k a d o q c, marks_kept q -> marks_kept (snd (q_remove_cid k a d o q c)).
Proof.
  intros k a d o q c H. unfold q_remove_cid.
  pose proof (mk_fold _ (q_remove_cid_lit k a c) (lits (cl d c)) (o, q) (mk_remove_cid_lit k a c) H) as M.
  destruct (fold_left _ _ _) as [o1 q1]. auto.
Qed.
Lemma mk_prepare : forall k a d o q, marks_kept q -> marks_kept (snd (q_prepare k a d o q)).
Proof.
  intros k a d o q H. unfold q_prepare.
  match goal with |- context [fold_left ?f (seq 1 (ncl d - 1)) ?s] => pose proof (mk_fold3 _ f (seq 1 (ncl d - 1)) s) as M; destruct (fold_left f (seq 1 (ncl d - 1)) s) as [[d1 o1] q1] end.
  cbn [snd] in *. assert (M1 : marks_kept q1).
  { apply M; auto. intros [[d2 o2] q2] c H2. destruct (_ || _); auto. now apply mk_add_cid. }
  clear M. generalize dependent q1. induction (seq 1 (nv a)) as [|v t IH]; intros q1 M1; cbn; auto. apply IH.
  destruct (val a v); auto. destruct (eli a v); auto.
Qed.
Lemma mk_strengthen : forall k s c p, marks_kept (snd s) -> marks_kept (snd (fst (q_strengthen k s c p))).
Proof.
  intros k [[[a d] o] q] c p H. unfold q_strengthen. cbn [snd] in H.
  destruct (transform_by_elimination d c p) as [[d1 [x| | |x|l0]]|]; auto.
  - pose proof (mk_remove_lit k o (q_enqueue_clause k d1 q c) p c (mk_enq k d1 q c H)) as M.
    destruct (q_remove_lit _ _ _ _ _) as [o1 q1]. exact M.
  - pose proof (mk_remove_cid k a d1 o q c H) as M. destruct (q_remove_cid _ _ _ _ _ _) as [[d2 o2] q2]. exact M.
  - pose proof (mk_remove_cid k a (log_assert d1 l0) o q c H) as M. destruct (q_remove_cid _ _ _ _ _ _) as [[d2 o2] q2]. cbv zeta.
    destruct (litval a l0) as [[|]|]; auto. destruct (assign_at_root_level a l0) as [a1 ok]. exact M.
Qed.
Lemma mk_try : forall k s i other, marks_kept (snd s) -> marks_kept (snd (fst (q_try_subsume k s i other))).
Proof.
  intros k [[[a d] o] q] i other H. unfold q_try_subsume. destruct i as [c|l].
  - destruct (forallb _ _); auto. pose proof (mk_remove_cid k a (if lrn (cl d other) then d else set_clause d c (set_lrn (cl d c) false)) o q other H) as M.
    cbv zeta. destruct (q_remove_cid _ _ _ _ _ _) as [[d2 o2] q2]. exact M.
  - destruct (contains _ _); auto. pose proof (mk_strengthen k ((a, d, o), q) other (neg l) H) as M.
    destruct (q_strengthen _ _ _ _) as [[[[a1 d1] o1] q1] [e|]]; auto.
Qed.
Lemma mk_dids : forall k i dids s t s' t' r, q_dids k i dids s t = (s', t', r) -> t' <= t /\ (marks_kept (snd s) -> marks_kept (snd s')).
Proof.
  intros k i. induction dids as [|did rest IH]; intros s t s' t' r E; cbn [q_dids] in E.
  - injection E as <- <- <-. auto.
  - destruct (match i with QClause c => did =? c | QLit _ => false end); [eauto|].
    destruct s as [[[a d] o] q]. cbv zeta in E. destruct (_ <=? t); [|injection E as <- <- <-; split; [lia|auto]].
    destruct (negb (dead d did) && _).
    + pose proof (mk_try k ((a, d, o), q) i did) as M. destruct (q_try_subsume _ _ _ _) as [s1 [e|]].
      * injection E as <- <- <-. split; [lia|exact M].
      * apply IH in E as [L K]. split; [lia|]. intros H. apply K, M, H.
    + apply IH in E as [L K]. split; [lia|exact K].
Qed.
Lemma mk_against : forall k i best s t s' t' r, q_against k i best s t = (s', t', r) -> t' <= t /\ (marks_kept (snd s) -> marks_kept (snd s')).
Proof.
  intros k i best [[[a d] o] q] t s' t' r E. unfold q_against in E. cbv zeta in E.
  destruct (q_dids k i (opos (q_purge d o best) best) _ t) as [[s1 t1] r1] eqn:E1. apply mk_dids in E1 as [L1 M1]. cbn [snd] in *.
  destruct r1 as [r1|]; [injection E as <- <- <-; auto|].
  destruct (q_dids k i (oneg (q_purge d o best) best) s1 t1) as [[s2 t2] r2] eqn:E2. apply mk_dids in E2 as [L2 M2].
  destruct s2 as [[[a2 d2] o2] q2]. cbn [snd] in *. destruct r2; injection E as <- <- <-; (split; [lia|cbn [snd]; auto]).
Qed.
Lemma mk_backward : forall k fuel s t s' t' r, q_backward k fuel s t = (s', t', r) ->
  t' <= t /\ (0 < t' -> r <> Some Fuel -> marks_kept (snd s) -> marks_kept (snd s')).
Proof.
  intros k. induction fuel as [|f IH]; intros [[[a d] o] q] t s' t' r E; cbn [q_backward] in E.
  - destruct (q_cls q) as [|c rest] eqn:Ec.
    + destruct (nth_error (tr a) (q_bwd q)); [injection E as <- <- <-; split; auto; congruence|].
      destruct (remains a); [|injection E as <- <- <-; auto].
      destruct (propagate_sandbox a d) as [[a1 d1] rr]. injection E as <- <- <-. auto.
    + injection E as <- <- <-. split; auto. congruence.
  - cbv zeta in E.
    assert (ROUND : forall i q1, (marks_kept q -> forall x, q_flag q1 x = true -> In x (q_cls q1) \/ i = QClause x) ->
      (if t =? 0 then (((a, d, o), q_clear_vars (q_clear_clauses q1)), t, None)
        else
        if match i with QClause c => dead d c || (k_sub k <? length (lits (cl d c))) | QLit _ => false end
        then q_backward k f ((a, d, o), match i with QClause c => set_q_flag q1 (upd (q_flag q1) c false) | QLit _ => q1 end) t
        else
          if (match i with QClause c => q_best a d o (lits (cl d c)) | QLit l => vi l end =? 0) || eli a (match i with QClause c => q_best a d o (lits (cl d c)) | QLit l => vi l end)
          then q_backward k f ((a, d, o), match i with QClause c => set_q_flag q1 (upd (q_flag q1) c false) | QLit _ => q1 end) t
          else match q_against k i (match i with QClause c => q_best a d o (lits (cl d c)) | QLit l => vi l end) ((a, d, o), match i with QClause c => set_q_flag q1 (upd (q_flag q1) c false) | QLit _ => q1 end) t with
               | (s1, t1, None) => q_backward k f s1 t1
               | (s1, t1, Some r) => (s1, t1, r)
               end) = (s', t', r) ->
      t' <= t /\ (0 < t' -> r <> Some Fuel -> marks_kept q -> marks_kept (snd s'))).
    { clear E. intros i q1 Hi E. destruct (Nat.eqb_spec t 0) as [->|Nt]; [injection E as <- <- <-; split; [auto|lia]|].
      assert (M : marks_kept q -> marks_kept (match i with QClause c => set_q_flag q1 (upd (q_flag q1) c false) | QLit _ => q1 end)).
      { intros H. specialize (Hi H). destruct i as [c|l].
        - intros x. cbn. unfold upd. destruct (Nat.eqb_spec x c) as [->|N]; [discriminate|]. intros F.
          destruct (Hi x F) as [K|K]; auto. congruence.
        - intros x F. destruct (Hi x F) as [K|K]; auto. discriminate. }
      destruct (match i with QClause c => _ | QLit _ => false end); [apply IH in E as [L K]; auto|].
      destruct (_ || _); [apply IH in E as [L K]; auto|].
      destruct (q_against _ _ _ _ _) as [[s1 t1] r1] eqn:E1. apply mk_against in E1 as [L1 M1]. cbn [snd] in M1. destruct r1 as [r1|].
      - injection E as <- <- <-. split; [auto|]. intros _ _ H. auto.
      - apply IH in E as [L2 M2]. split; [lia|]. intros H1 H2 H3. auto. }
    destruct (q_cls q) as [|c rest] eqn:Ec.
    + destruct (nth_error (tr a) (q_bwd q)) as [l|].
      * apply (ROUND (QLit l) (mkQueues [] (q_var q) (q_flag q) (q_bwd q + 1))); [|exact E].
        intros H x F. apply H in F. rewrite Ec in F. destruct F.
      * destruct (remains a); [|injection E as <- <- <-; auto].
        destruct (propagate_sandbox a d) as [[a1 d1] rr]. injection E as <- <- <-. auto.
    + apply (ROUND (QClause c) (set_q_cls q rest)); [|exact E].
      intros H x F. cbn in *. apply H in F. rewrite Ec in F. destruct F as [->|F]; auto.
Qed.
Lemma mk_pair : forall k v s p n s' r, q_resolve_pair k v s p n = (s', r) -> marks_kept (snd s) -> marks_kept (snd s').
Proof.
  intros k v [[[a d] o] q] p n s' r E H. unfold q_resolve_pair in E. cbn [snd] in H.
  destruct (merge v _ _) as [|l [|l2 ls]]; [injection E as <- <-; exact H| |].
  - destruct (litval a l) as [[|]|]; try (injection E as <- <-; exact H). destruct (assign_at_root_level a l) as [a1 ok]. injection E as <- <-. exact H.
  - destruct (new_clause _ _ _ _) as [d1 [c| | |c|l0]]; try (injection E as <- <-; exact H).
    pose proof (mk_add_cid k a d1 o (set_q_flag q (upd (q_flag q) c false)) c true (mk_unmark q c H)) as M.
    destruct (q_add_cid _ _ _ _ _ _ _) as [[d2 o2] q2]. injection E as <- <-. exact M.
Qed.
Lemma mk_pairs : forall k v ps s s' r, q_resolve_pairs k v s ps = (s', r) -> marks_kept (snd s) -> marks_kept (snd s').
Proof.
  intros k v. induction ps as [|[p n] t IH]; intros s s' r E H; cbn [q_resolve_pairs] in E; [injection E as <- <-; exact H|].
  destruct (q_resolve_pair k v s p n) as [s1 [e|]] eqn:E1; apply mk_pair in E1; auto; [injection E as <- <-; exact E1|eauto].
Qed.
Lemma mk_remove_occ : forall k a s c, marks_kept (snd s) -> marks_kept (snd (q_remove_occurring k a s c)).
Proof.
  intros k a [[d o] q] c H. unfold q_remove_occurring. destruct (dead d c); auto.
  pose proof (mk_remove_cid k a d o q c H) as M. destruct (q_remove_cid _ _ _ _ _ _) as [[d1 o1] q1]. exact M.
Qed.
Lemma mk_elim_var : forall k v s t s' t' r, q_eliminate_var k v s t = (s', t', r) ->
  t' <= t /\ (0 < t' -> r <> Some Fuel -> marks_kept (snd s) -> marks_kept (snd s')).
Proof.
  intros k v [[[a d] o0] q] t s' t' r E. unfold q_eliminate_var in E. cbn [snd]. destruct (match val a v with Some _ => true | None => oab o0 v end); [injection E as <- <- <-; auto|].
  cbv zeta in E. destruct (_ || _); [injection E as <- <- <-; auto|].
  destruct (q_resolve_pairs _ _ _ _) as [[[[a2 d2] o2] q2] [e|]] eqn:E1; pose proof (mk_pairs _ _ _ _ _ _ E1) as M; cbn [snd] in M.
  - injection E as <- <- <-. split; [lia|]. intros _ _ H. auto.
  - match type of E with context [fold_left (q_remove_occurring k a2) ?l (d2, o2, q2)] => pose proof (mk_fold3 _ _ l (d2, o2, q2) (mk_remove_occ k a2)) as M3; destruct (fold_left (q_remove_occurring k a2) l (d2, o2, q2)) as [[d3 o3] q3] end.
    match type of E with context [fold_left (q_remove_occurring k a2) ?l (d3, o3, q3)] => pose proof (mk_fold3 _ _ l (d3, o3, q3) (mk_remove_occ k a2)) as M4; destruct (fold_left (q_remove_occurring k a2) l (d3, o3, q3)) as [[d4 o4] q4] end.
    cbn [snd] in *. unfold q_check in E. apply mk_backward in E as [L K]. split; [lia|]. intros H1 H2 H3. apply K; auto.
Qed.
Lemma mk_vars : forall k fuel s t s' t' r, q_vars k fuel s t = (s', t', r) ->
  t' <= t /\ (0 < t' -> r <> Some Fuel -> marks_kept (snd s) -> marks_kept (snd s')).
Proof.
  intros k. induction fuel as [|f IH]; intros [[[a d] o] q] t s' t' r E; cbn [q_vars] in E; cbn [snd];
    destruct (dequeue_var _ _ _) as [x [v|]]; try (injection E as <- <- <-; split; [apply le_n|]; intros _ _ H; exact H).
  assert (K : forall s1 t1 r1, (if eli a v then ((a, d, o, set_q_var q x), t, None)
             else match val a v with
                  | Some _ => ((a, d, o, set_q_var q x), t, None)
                  | None => q_eliminate_var k v ((a, d, o), set_q_var q x) t
                  end) = (s1, t1, r1) -> t1 <= t /\ (0 < t1 -> r1 <> Some Fuel -> marks_kept q -> marks_kept (snd s1))).
  { intros s1 t1 r1 X. destruct (eli a v); [injection X as <- <- <-; split; auto|]. destruct (val a v); [injection X as <- <- <-; split; auto|].
    apply mk_elim_var in X as [L M]. split; auto. }
  match type of E with (match ?m with _ => _ end) = _ => destruct m as [[s1 t1] r1] end.
  destruct (K _ _ _ eq_refl) as [L M]. destruct r1 as [e|].
  - injection E as <- <- <-. auto.
  - apply IH in E as [L2 M2]. split; [lia|]. intros H1 H2 H3. apply M2; auto. apply M; auto; [lia|discriminate].
Qed.
Lemma mk_main : forall k fuel s t s' t' r, q_main k fuel s t = (s', t', r) ->
  t' <= t /\ (0 < t' -> r <> Some Fuel -> marks_kept (snd s) -> marks_kept (snd s')) /\ (r = None -> q_cls (snd s') = []).
Proof.
  intros k. induction fuel as [|f IH]; intros [[[a d] o] q] t s' t' r E; cbn [q_main] in E.
  - destruct (_ || _ || _) eqn:W; injection E as <- <- <-; splits; auto; try discriminate.
    intros _. apply orb_false_iff in W as [_ W]. apply negb_false_iff in W. cbn. now destruct (q_cls q).
  - destruct (_ || _ || _) eqn:W.
    2:{ injection E as <- <- <-; splits; auto. intros _. apply orb_false_iff in W as [_ W]. apply negb_false_iff in W. cbn. now destruct (q_cls q). }
    assert (K : forall s1 t1 r1, (if negb (match q_cls q with [] => true | _ => false end) || (q_bwd q <? length (tr a)) then q_check k ((a, d, o), q) t else (((a, d, o), q), t, None)) = (s1, t1, r1) ->
      t1 <= t /\ (0 < t1 -> r1 <> Some Fuel -> marks_kept q -> marks_kept (snd s1))).
    { intros s1 t1 r1 X. match type of X with (if ?b then _ else _) = _ => destruct b end; [unfold q_check in X; now apply mk_backward in X|]. inversion X; subst. split; auto. }
    match type of E with (match ?m with _ => _ end) = _ => destruct m as [[s1 t1] r1] eqn:Em end.
    destruct (K _ _ _ Em) as [L1 M1]. clear K. cbn [snd]. destruct r1 as [e|]; [injection E as <- <- <-; splits; auto; discriminate|].
    destruct (q_vars k (vars_fuel s1) s1 t1) as [[s2 t2] r2] eqn:E2. apply mk_vars in E2 as [L2 M2].
    destruct r2 as [e|].
    { injection E as <- <- <-. splits; [lia| |discriminate]. intros H1 H2 H3. apply M2; auto. apply M1; auto; [lia|discriminate]. }
    destruct (q_check k s2 t2) as [[s3 t3] r3] eqn:E3. unfold q_check in E3. apply mk_backward in E3 as [L3 M3].
    assert (A : forall x, 0 < t3 -> x <> Some Fuel -> r3 = x -> marks_kept q -> marks_kept (snd s3)).
    { intros x H1 H2 <- H3. apply M3; auto. apply M2; auto; [lia|discriminate|]. apply M1; auto; [lia|discriminate]. }
    destruct s3 as [[[a3 d3] o3] q3]. cbn [snd] in *.
    destruct r3 as [e|]; [injection E as <- <- <-; splits; [lia| |discriminate]; intros; eapply A; eauto|].
    destruct (propagate_sandbox a3 d3) as [[a4 d4] rr]. destruct (root_error rr) as [e|].
    { injection E as <- <- <-. splits; [lia| |discriminate]. intros H1 H2 H3. eapply (A None); eauto. discriminate. }
    destruct (Nat.eqb_spec t3 0) as [Z|Z].
    + apply IH in E as (L & M & C). splits; [lia| |exact C]. intros. lia.
    + apply IH in E as (L & M & C). splits; [lia| |exact C]. intros H1 H2 H3. apply M; auto. cbn [snd]. eapply (A None); eauto; [lia|discriminate].
Qed.

(** * Theorems *)
(** the round of preprocessing that starts without marks: while the work budget lasts, a clause that is marked is in the queue, and
    when it ends well the queue is empty and no clause is left marked *)
Theorem C67_marks_partial : forall k a d n venq, let '(d1, o1, q1) := q_prepare k a d occ_new (queues_new n venq (fun _ => false)) in
  forall fuel t s' t' r, q_main k fuel ((a, d1, o1), q1) t = (s', t', r) -> 0 < t' -> r <> Some Fuel ->
  marks_kept (snd s') /\ (r = None -> q_cls (snd s') = [] /\ forall c, q_flag (snd s') c = false).
Proof.
  intros k a d n venq. pose proof (mk_prepare k a d occ_new (queues_new n venq (fun _ => false))) as M.
  destruct (q_prepare _ _ _ _ _) as [[d1 o1] q1]. intros fuel t s' t' r E T F. cbn [snd] in M.
  assert (M1 : marks_kept q1) by (apply M; intros c; discriminate).
  destruct (mk_main _ _ _ _ _ _ _ E) as (_ & K & C). specialize (K T F M1). split; auto.
  intros Hr. specialize (C Hr). split; auto. intros c. destruct (q_flag (snd s') c) eqn:Q; auto. apply K in Q. rewrite C in Q. destruct Q.
Qed.
(** from any marks, each of the operations that the preprocessor chooses keeps marked clauses in the queue *)
Theorem C67_operations : forall k fuel v s t s' t' r, marks_kept (snd s) -> 0 < t' -> r <> Some Fuel ->
  q_backward k fuel s t = (s', t', r) \/ q_eliminate_var k v s t = (s', t', r) \/ q_vars k fuel s t = (s', t', r) \/ q_main k fuel s t = (s', t', r) ->
  marks_kept (snd s') /\ t' <= t.
Proof.
  intros k fuel v s t s' t' r H T F [E|[E|[E|E]]].
  - apply mk_backward in E as [L K]. auto.
  - apply mk_elim_var in E as [L K]. auto.
  - apply mk_vars in E as [L K]. auto.
  - apply mk_main in E as (L & K & _). auto.
Qed.
(** when the work budget is used up, the clause that was taken last keeps its mark although the queue is empty: it will not be queued
    again *)
Definition lim_one : klim := mkKlim 100 100 100 (fun _ _ _ _ _ => false) (fun _ _ => 1).
Definition leak_cs : list zclause := [[1; 2; 3]; [-1; 4; 5]; [-2; -3]; [-4; -5]; [2; -3; 4]; [3; -2; 5]; [-4; 2; 5]; [-5; 4; 3]]%Z.
Theorem C67_leak_refuted : exists k a d d1 o1 q1 a2 d2 o2 q2 c, session leak_cs a d /\
  q_prepare k a d occ_new (queues_new (nv a) (fun _ => false) (fun _ => false)) = (d1, o1, q1) /\
  q_main k (main_fuel ((a, d1, o1), q1) 1) ((a, d1, o1), q1) 1 = (((a2, d2, o2), q2), 0, None) /\
  q_cls q2 = [] /\ dead d2 c = false /\ length (lits (cl d2 c)) <= k_sub k /\ q_flag q2 c = true /\
  q_enqueue_clause k d2 q2 c = q2.
Proof.
  assert (K : match solver_try_from orc0 leak_cs with
    | BOk a d => let '(d1, o1, q1) := q_prepare lim_one a d occ_new (queues_new (nv a) (fun _ => false) (fun _ => false)) in
      match q_main lim_one (main_fuel ((a, d1, o1), q1) 1) ((a, d1, o1), q1) 1 with
      | (((a2, d2, o2), q2), 0, None) => (q_cls q2 = [] /\ dead d2 9 = false /\ length (lits (cl d2 9)) = 4) /\ q_flag q2 9 = true
      | _ => False
      end
    | _ => False
    end) by (vm_compute; auto).
  destruct (solver_try_from orc0 leak_cs) as [a d| | |] eqn:E0; try contradiction.
  destruct (q_prepare _ _ _ _ _) as [[d1 o1] q1] eqn:E1.
  destruct (q_main _ _ _ _) as [[[[[a2 d2] o2] q2] [|t2]] [r|]] eqn:E2; try contradiction.
  destruct K as ((K1 & K2 & K3) & K4).
  exists lim_one, a, d, d1, o1, q1, a2, d2, o2, q2, 9. splits; auto.
  - apply ses_vec with orc0; auto. intros c x Hc Hx. cbn in Hc.
    repeat (destruct Hc as [<-|Hc]; [cbn in Hx; repeat (destruct Hx as [<-|Hx]; [lia|]); destruct Hx|]). destruct Hc.
  - rewrite K3. cbn. lia.
  - unfold q_enqueue_clause. now rewrite K4.
Qed.
(** The hypotheses are met, with a budget that lasts: a clause gets into the queue and out of it. *)
Definition keep_cs : list zclause := [[1; 2; 3]; [-1; 4; 5]; [-2; -3]; [-4; -5]]%Z.
Example C67_example : exists a d d1 o1 q1 s' t', session keep_cs a d /\
  q_prepare lim_one a d occ_new (queues_new (nv a) (fun _ => false) (fun _ => false)) = (d1, o1, q1) /\
  q_main lim_one (main_fuel ((a, d1, o1), q1) 1000) ((a, d1, o1), q1) 1000 = (s', S t', None) /\
  waiting q1 = true /\ forall c, q_flag (snd s') c = false.
Proof.
  assert (K : match solver_try_from orc0 keep_cs with
    | BOk a d => let '(d1, o1, q1) := q_prepare lim_one a d occ_new (queues_new (nv a) (fun _ => false) (fun _ => false)) in
      match q_main lim_one (main_fuel ((a, d1, o1), q1) 1000) ((a, d1, o1), q1) 1000 with
      | (s', S t', None) => waiting q1 = true
      | _ => False
      end
    | _ => False
    end) by (vm_compute; auto).
  destruct (solver_try_from orc0 keep_cs) as [a d| | |] eqn:E0; try contradiction.
  pose proof (C67_marks_partial lim_one a d (nv a) (fun _ => false)) as M.
  destruct (q_prepare _ _ _ _ _) as [[d1 o1] q1] eqn:E1.
  destruct (q_main _ _ _ 1000) as [[s' [|t']] [r|]] eqn:E2; try contradiction.
  exists a, d, d1, o1, q1, s', t'. splits; auto.
  - apply ses_vec with orc0; auto. intros c x Hc Hx. cbn in Hc.
    repeat (destruct Hc as [<-|Hc]; [cbn in Hx; repeat (destruct Hx as [<-|Hx]; [lia|]); destruct Hx|]). destruct Hc.
  - apply (M _ _ _ _ _ E2); [lia|discriminate|reflexivity].
Qed.
