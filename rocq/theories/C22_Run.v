(** C22 for whole runs: the counters of clauses ([cdb.derefer(Tusize::…)], cdb/mod.rs:183-200) while
    a problem is loaded, at every iteration of the search, after a time-out and after an answer
    SAT. (C21_Db.v has C22 for every history of the operations of the database alone.) *)
From Coq Require Import String List Arith Bool Lia ZArith Permutation.
From Verif Require Import Base HeapModel EmaModel AsgModel LitFacts AsgProofs C15_Trail CdbModel CdbProofs CdbOps PropModel SatSpec PropProofs PropLoop PropOps PropDb RootProofs ConflictModel ConflictProofs LogProofs HandleProofs PropMisc ElimModel ElimFacts ElimExt ElimProofs ElimVar ElimRun ElimTotal C12_Prop VivifyModel VivifyProofs QuietProofs Text CnfModel LitModel BuildModel Spec LitProofs BuildProofs C04_Build LubyModel SolveModel SolveProofs.
From Verif Require Import C01_Solve C57_Count.
Import ListNotations.
Open Scope list_scope.
Open Scope nat_scope.
Local Opaque Nat.pow.

(** * Model *)
(** cdb/mod.rs:167-180 [Tusize], three of the counters of clauses *)
Inductive ctusize := NumClause | NumBiClause | NumLearnt.
(** cdb/mod.rs:191-197 [derefer] *)
Definition cdb_derefer (d : cdb) (k : ctusize) : nat :=
  match k with NumClause => n_cl d | NumBiClause => n_bi d | NumLearnt => n_lr d end.
(** state.rs:767-771 [record_stats]: RemovableClause, BiClause and PermanentClause; [None] where the
    subtraction of [usize] underflows *)
Definition removable_clause (d : cdb) : nat := cdb_derefer d NumLearnt.
Definition permanent_clause (d : cdb) : option nat := sub_usize (Some (cdb_derefer d NumClause)) (removable_clause d).

(** * Specification *)
(** the number of clauses, of binary clauses, of learnt and of permanent clauses in the store; a clause without
    literals is a free slot *)
Definition stored (d : cdb) (P : clause -> bool) : nat :=
  length (filter (fun c => negb (length (lits (cl d c)) =? 0) && P (cl d c)) (seq 0 (ncl d))).
Definition clauses_counted (d : cdb) : Prop :=
  cdb_derefer d NumClause = stored d (fun _ => true) /\
  cdb_derefer d NumBiClause = stored d (fun c => length (lits c) =? 2) /\
  stored d lrn <= cdb_derefer d NumLearnt /\
  (forall n, permanent_clause d = Some n -> n <= stored d (fun c => negb (lrn c))) /\
  (forall c, ncl d <= c -> lits (cl d c) = []).

(** * Proofs *)
Lemma stored_split : forall d, stored d (fun _ => true) = stored d lrn + stored d (fun c => negb (lrn c)).
Proof.
  intros d. unfold stored. induction (seq 0 (ncl d)) as [|x l IH]; auto. cbn [filter].
  destruct (negb (length (lits (cl d x)) =? 0)); cbn [andb]; auto. destruct (lrn (cl d x)); cbn [negb length]; lia.
Qed.
Lemma inv_counted : forall d, DbInv d -> clauses_counted d.
Proof.
  intros d H. destruct (db_cnt d H false eq_refl) as (A & B & C & _).
  assert (A' : n_cl d = stored d (fun _ => true)).
  { rewrite A. apply cnt_ext. intros x _. unfold is_live, dead. destruct (lits (cl d x)); auto. }
  assert (C' : stored d lrn <= n_lr d).
  { eapply Nat.le_trans; [|exact C]. apply cnt_le. intros x _. unfold is_learnt, dead. destruct (lits (cl d x)); auto. }
  unfold clauses_counted, permanent_clause, removable_clause, cdb_derefer. splits; auto.
  - rewrite B. apply cnt_ext. intros x _. unfold is_binary. destruct (lits (cl d x)); auto.
  - intros n E. cbn [sub_usize] in E. destruct (n_lr d <=? n_cl d) eqn:L; [|discriminate]. injection E as <-.
    apply Nat.leb_le in L. rewrite A', stored_split. lia.
  - apply (db_range d H).
Qed.

(** * C22 *)
(** While clauses are added; at every iteration of the main loop of every run, on every
    problem, with every schedule; after a time-out; and after every answer SAT: the numbers of clauses and of binary
    clauses are exact, the number of learnt clauses is not under-counted, and the
    number of permanent clauses that is reported is, when its subtraction does not underflow, at most the real number. *)
Theorem C22_before : forall cs a d, session cs a d -> clauses_counted d.
Proof. intros cs a d S. apply inv_counted. destruct (session_inv cs a d S) as [I1 I2 I3 I4 I5 I6]. apply (li_db _ _ I1). Qed.
Theorem C22_during : forall cs a d cf p hs a' d', session cs a d -> narrow (nv a) d' -> cf_elim cf = true -> schedule hs ->
  solve cf p hs a d = (a', d', Running) \/ solve cf p hs a d = (a', d', Err (XSolver TimeOut)) -> clauses_counted d'.
Proof.
  intros cs a d cf p hs a' d' S Hn Hc Hs E.
  assert (X : exists x, solve cf p hs a d = (a', d', x) /\ stopped x) by (destruct E as [E|E]; eexists; (split; [exact E|]); [now left|now right]).
  destruct X as (x & X1 & X2). destruct (session_stopped cs a d cf p hs a' d' x S Hn Hc Hs X1 X2) as [Jd Hv].
  apply inv_counted. destruct Jd as (P & _). apply P.
Qed.
Theorem C22_after_sat : forall cs a d cf p hs a' d' vals, session cs a d -> narrow (nv a) d' -> cf_elim cf = true -> schedule hs ->
  solve cf p hs a d = (a', d', SAT vals) -> clauses_counted d'.
Proof.
  intros cs a d cf p hs a' d' vals S Hn Hc Hs E. destruct (session_inv cs a d S) as [I1 I2 I3 I4 I5 I6].
  apply narrow_fits in Hn. assert (N : fits (nv a) (snd (fst (solve cf p hs a d)))) by (rewrite E; exact Hn).
  pose proof (lle_fits _ _ _ (lle_solve cf p hs a d) N) as N0.
  destruct (@solve_cases False (fun m => holds m a d) cf p hs a d Hc) as [R|(c & e & Jc & Nc & EQ)]; auto.
  - now apply linv_pinv.
  - now apply start_gi.
  - apply (li_lims _ _ I1).
  - apply (li_eli _ _ I1).
  - apply (li_sav _ _ I1).
  - rewrite E in R. contradiction R.
  - rewrite E in EQ. destruct (search cf hs _ _ c e) as [[a8 d8] r8] eqn:E8.
    assert (X : r8 = SSat /\ d8 = d').
    { destruct r8 as [|x| | |]; cbn [finish] in EQ; try discriminate.
      - destruct (validate _ _ _); [discriminate|]. destruct (answer_vals _ _); [|discriminate]. injection EQ as -> -> ->. auto.
      - destruct x as [x| |]; try discriminate. destruct x; discriminate. }
    destruct X as (-> & ->).
    rewrite <- Nc in Hn. destruct (search_spec _ cf hs _ _ c e a8 d' SSat Hs Jc Hn E8) as (J8 & _ & N8).
    apply inv_counted. destruct J8 as (P & _). apply P.
Qed.

(** ** What fails *)
(** [try_subsume] (subsume.rs:30-31) turns off the flag LEARNT of a clause that subsumes a permanent one, without
    decrementing the counter: after the first in-processing of this run, 21 learnt clauses are counted where 20 are
    stored, and one permanent clause too few is reported. *)
Definition gadget : list zclause :=
  ([[-1; -2; -3; -4]; [-1; -2; -3; 5]; [-1; -2; -3; -5]; [1; 2; 3; 6]; [1; 4; 2; -6]; [3; 4; 6]] ++
   map (map (fun x => if Z.ltb x 0 then x - 6 else x + 6)) parity5)%Z.
(** an iteration that, when a segment ends, tries whether clause 47 (learnt) subsumes clause 1 *)
Definition h_sub : heur := mkHeur (fun _ _ => false) (fun _ => true) (Some false) (fun _ => true) (fun _ => false) (fun l => l)
  (fun n => n) (fun _ => true) [] [ESub 47 1] false.
Lemma gadget_small : small gadget.
Proof.
  intros c x Hc Hx. unfold gadget in Hc. apply in_app_or in Hc as [Hc|Hc].
  - cbn in Hc. repeat (destruct Hc as [<-|Hc]; [cbn in Hx; repeat (destruct Hx as [<-|Hx]; [lia|]); destruct Hx|]). destruct Hc.
  - apply in_map_iff in Hc as (c0 & <- & Hc). apply in_map_iff in Hx as (x0 & <- & Hx).
    destruct (parity5_range c0 x0 Hc Hx). destruct (Z.ltb x0 0); lia.
Qed.
Theorem C22_learnt_counter_refuted : exists cf p hs oracle cs a d, small cs /\ schedule hs /\ cf_elim cf = true /\
  solver_try_from oracle cs = BOk a d /\
  let '(a1, d1, r1) := solve cf p hs a d in
  r1 = Running /\ cdb_derefer d1 NumLearnt = 21 /\ stored d1 lrn = 20 /\
  cdb_derefer d1 NumClause = 58 /\ permanent_clause d1 = Some 37 /\ stored d1 (fun c => negb (lrn c)) = 38.
Proof.
  assert (K : match solver_try_from orc0 gadget with
    | BOk a d => let '(a1, d1, r1) := solve (mkConfig true 0 100 16) p1 (repeat h_sub 90) a d in
        r1 = Running /\ cdb_derefer d1 NumLearnt = 21 /\ stored d1 lrn = 20 /\
        cdb_derefer d1 NumClause = 58 /\ permanent_clause d1 = Some 37 /\ stored d1 (fun c => negb (lrn c)) = 38
    | _ => False end) by (vm_compute; splits; reflexivity).
  destruct (solver_try_from orc0 gadget) as [a d| | |] eqn:E; try contradiction K.
  exists (mkConfig true 0 100 16), p1, (repeat h_sub 90), orc0, gadget, a, d. splits; auto.
  - apply gadget_small.
  - intros h H l. apply repeat_spec in H. subst h. reflexivity.
Qed.

(** ** Non-triviality *)
(** A run that is running after 120 iterations, with learnt and binary clauses in the store. *)
Example C22_run_example : exists a d a' d', session parity5 a d /\
  solve cf1 p1 (repeat h0 0 ++ repeat h1 120) a d = (a', d', Running) /\ narrow (nv a) d' /\
  1 <= stored d' lrn /\ 1 <= cdb_derefer d' NumBiClause /\ stored d' lrn < cdb_derefer d' NumClause.
Proof.
  assert (K : match solver_try_from orc0 parity5 with
    | BOk a d => let '(a', d', r) := solve cf1 p1 (repeat h0 0 ++ repeat h1 120) a d in
        r = Running /\ nv a = 10 /\ (1 <=? stored d' lrn) && (1 <=? cdb_derefer d' NumBiClause) && (stored d' lrn <? cdb_derefer d' NumClause) = true
    | _ => False end) by (vm_compute; splits; reflexivity).
  destruct (solver_try_from orc0 parity5) as [a d| | |] eqn:E; try contradiction K.
  destruct (solve _ _ _ a d) as [[a' d'] r] eqn:Es. destruct K as (-> & Kn & K). exists a, d, a', d'.
  apply andb_prop in K as [K K3]. apply andb_prop in K as [K1 K2].
  apply Nat.leb_le in K1. apply Nat.leb_le in K2. apply Nat.ltb_lt in K3. splits; auto.
  - apply (ses_vec orc0); auto. intros c x Hc Hx. destruct (parity5_range c x Hc Hx). lia.
  - left. rewrite Kn. lia.
Qed.
