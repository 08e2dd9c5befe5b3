(** C52: the eliminator with its own queues and work budget returns, and the answers of a
    solver that uses it are right. *)
From Coq Require Import String List Arith Bool Lia ZArith Permutation.
From Verif Require Import Base HeapModel EmaModel AsgModel LitFacts AsgProofs C15_Trail CdbModel CdbProofs CdbOps PropModel SatSpec PropProofs PropLoop PropOps PropDb RootProofs ConflictModel ConflictProofs LogProofs HandleProofs PropMisc ElimModel ElimFacts ElimExt ElimProofs ElimVar ElimRun ElimTotal C12_Prop VivifyModel VivifyProofs QuietProofs Text CnfModel LitModel BuildModel Spec LitProofs BuildProofs C04_Build LubyModel LubyProofs SolveModel SolveProofs C01_Solve TermProofs C50_Term DratSpec C49_Drat QueueModel QueueProofs QueueRun KSolveModel KSolveProofs.
Import ListNotations.
Open Scope list_scope.
Open Scope nat_scope.
Local Opaque Nat.pow.

(** * Specification *)

(** The sessions are those of C01. The inputs of a run of the eliminator ([kin]) are
    arbitrary: any limits, any estimates, any initial work budget, any answers of the clock,
    any ENQUEUED flags left by earlier runs. In the model a loop of the eliminator that
    does not end in time gives the error [Fuel], and then [solve] gives [Panic]. *)

(** what an answer of [solve] says about the clauses given, for [n] variables *)
Definition answer_ok (cs : list zclause) (n : nat) (x : answer) : Prop :=
  match x with
  | SAT vals =>
      (forall c, In c cs -> exists z, In z c /\ In z vals) /\
      length vals = n /\
      (forall j z, nth_error vals j = Some z -> z = Z.of_nat (S j) \/ z = (- Z.of_nat (S j))%Z)
  | UNSAT => ~ zsatisfiable cs
  | Err (XSolver e) => e <> EmptyClause /\ e <> RootLevelConflict
  | Err _ => True
  | Running => True
  | Panic => False
  | OutOfBounds => False
  end.

(** as [tame] of C01 *)
Definition k_tame (cf : config) (p : prep) (i : kin) (hs : list (heur * kin)) (oracle : nat -> nat -> nat -> bool) (cs : list zclause) : Prop :=
  i32_problem cs /\ forall a d, solver_try_from oracle cs = BOk a d -> narrow (nv a) (snd (fst (k_solve cf p i hs a d))).

(** * Proofs *)
Lemma small_k_tame : forall cf p i hs o cs, small cs -> k_tame cf p i hs o cs.
Proof. intros cf p i hs o cs H. pose proof (small_i32 cs H) as X. split; auto. intros a d E. left. eapply small_nv; eauto. Qed.
Lemma same_schedule : forall hs hs', schedule (map fst hs) -> same_choices hs hs' -> schedule hs' /\ length hs' = length hs.
Proof.
  intros hs hs' H S. split; [|clear H; symmetry; induction S; cbn; auto].
  intros h Hh l. revert Hh. induction S as [|x h' t t' [ss ->] S IH]; [intros []|]. intros [<-|Hh].
  - cbn. apply H. left; auto.
  - apply IH; auto. intros y Hy. apply H. right; auto.
Qed.

(** Every run of the solver with the real eliminator is a run of the solver with some
    sequence of the elementary operations of the eliminator. *)
Lemma session_q : forall cs a d cf p i hs, session cs a d -> narrow (nv a) (snd (fst (k_solve cf p i hs a d))) -> cf_elim cf = true -> cf_nv cf = nv a ->
  schedule (map fst hs) ->
  exists ss hs', same_choices hs hs' /\ k_solve cf p i hs a d = solve cf (set_psteps p ss) hs' a d.
Proof.
  intros cs a d cf p i hs S Hn Hc Hv Hs. destruct (session_inv cs a d S) as [I1 I2 I3 I4 I5 I6].
  pose proof (narrow_fits _ _ Hn) as N. pose proof (lle_fits _ _ _ (lle_k_solve cf p i hs a d) N) as N0.
  destruct (@k_solve_eq False (fun m => holds m a d) cf p i hs a d Hc) as (p' & hs' & (ss & ->) & H2 & H3); auto.
  - intros x Hx l. apply Hs. now apply in_map.
  - now apply linv_pinv.
  - now apply start_gi.
  - apply (li_lims _ _ I1).
  - apply (li_eli _ _ I1).
  - apply (li_sav _ _ I1).
  - eauto.
Qed.

(** * C52 *)

(** Any run of a new eliminator on any problem returns. *)
Theorem C52_eliminator_returns : forall cs a d k clock venq cenq, session cs a d ->
  narrow (nv a) (snd (fst (fst (q_prepare_simplify k clock (a, d, occ_new) (queues_new (nv a) venq cenq))))) ->
  snd (q_prepare_simplify k clock (a, d, occ_new) (queues_new (nv a) venq cenq)) <> Some Fuel.
Proof.
  intros cs a d k clock e1 e2 S Hn E. destruct (session_inv cs a d S) as [I1 I2 I3 I4 I5 I6].
  apply narrow_fits in Hn.
  assert (N : LogProofs.fits (nv a) d).
  { eapply lle_fits; [|exact Hn]. destruct (q_prepare_simplify _ _ _ _) as [[[a1 d1] o1] r1] eqn:X. eapply lle_q_prepare; eauto. }
  assert (P : @PInv (mkModels (Sem a d) False) false false a d none).
  { eapply sv_weaken, full_weaken, (linv_pinv (mkModels (Sem a d) False) a d I1 I2 N). auto. }
  destruct (prepare_simplify_q (mkModels (Sem a d) False) k clock e1 e2 a d occ_new P (li_lims _ _ I1) Hn I6) as [ss X]. rewrite X in E, Hn.
  destruct (elim_prepare_simplify (k_evo k) ss (a, d, occ_new)) as [[[a1 d1] o1] r] eqn:E1. cbn [snd] in E. subst r.
  destruct (elim_prepare_simplify_spec (mkModels (Sem a d) False) _ _ _ _ _ _ _ _ _ P (li_lims _ _ I1) Hn I6 E1) as [X1 _]. congruence.
Qed.

(** The answers are right: C01, C02, C03 and C48 with the real eliminator. *)
Theorem C52_answers : forall cs a d cf p i hs, session cs a d -> narrow (nv a) (snd (fst (k_solve cf p i hs a d))) ->
  cf_elim cf = true -> cf_nv cf = nv a -> schedule (map fst hs) ->
  answer_ok cs (nv a) (snd (k_solve cf p i hs a d)).
Proof.
  intros cs a d cf p i hs S Hn Hc Hv Hs. destruct (session_q cs a d cf p i hs S Hn Hc Hv Hs) as (ss & hs' & H & EQ). rewrite EQ in *. clear EQ.
  destruct (same_schedule _ _ Hs H) as [H1 H2].
  destruct (C48_solve cs a d cf (set_psteps p ss) hs' S Hn Hc H1 ltac:(lia)) as (X1 & X2 & X3 & X4).
  destruct (solve cf (set_psteps p ss) hs' a d) as [[a' d'] x] eqn:E. cbn [snd] in *.
  destruct x as [vals| |[e| |]| | |]; cbn [answer_ok]; auto.
  - split; [exact (C01_solve cs a d cf _ hs' a' d' vals S Hn Hc H1 E)|exact (C03_solve cs a d cf _ hs' a' d' vals S Hn Hc H1 E)].
  - exact (C02_solve cs a d cf _ hs' a' d' S Hn Hc H1 E).
  - split; congruence.
Qed.

(** The proof log: C49 with the real eliminator. *)
Theorem C52_proof_log : forall cs a d cf p i hs a' d', logged cs a d -> narrow (nv a) d' ->
  cf_elim cf = true -> cf_nv cf = nv a -> schedule (map fst hs) -> k_solve cf p i hs a d = (a', d', UNSAT) ->
  drat_refutation (problem cs) (cert d').
Proof.
  intros cs a d cf p i hs a' d' L Hn Hc Hv Hs E.
  destruct (session_q cs a d cf p i hs (logged_session _ _ _ L) ltac:(rewrite E; exact Hn) Hc Hv Hs) as (ss & hs' & H & X).
  destruct (same_schedule _ _ Hs H) as [H1 H2]. rewrite X in E.
  exact (C49_unsat_log_is_refutation cs a d cf _ hs' a' d' L Hn Hc H1 E).
Qed.

(** The whole call returns: C50 with the real eliminator. *)
Theorem C52_solve_terminates : forall n j, exists N, forall cs a d cf p i hs,
  session cs a d -> nv a = n -> narrow n (snd (fst (k_solve cf p i hs a d))) -> cf_elim cf = true -> cf_nv cf = n -> schedule (map fst hs) ->
  stages_made j (p_stm p) -> N <= length hs -> snd (k_solve cf p i hs a d) <> Running.
Proof.
  intros n j. destruct (C50_solve_terminates n j) as (N & T). exists N. intros cs a d cf p i hs S <- Hn Hc Hv Hs Hj Hl.
  destruct (session_q cs a d cf p i hs S Hn Hc Hv Hs) as (ss & hs' & H & EQ). rewrite EQ in *. clear EQ.
  destruct (same_schedule _ _ Hs H) as [H1 H2]. apply (T cs a d cf (set_psteps p ss) hs'); auto. lia.
Qed.

(** The same for [Certificate::try_from]; the solver is created for the variables of the
    vector. *)
Theorem C52_certificate : forall cf p i hs oracle cs, k_tame cf p i hs oracle cs -> cf_elim cf = true -> schedule (map fst hs) ->
  num_of_variables cs = Some (cf_nv cf) -> answer_ok cs (cf_nv cf) (k_certificate cf p i hs oracle cs).
Proof.
  intros cf p i hs o cs [H N] Hc Hs Hv. unfold k_certificate. pose proof (C04_classification o cs H) as C.
  destruct (solver_try_from o cs) as [a d|e| |] eqn:Et; try contradiction C.
  - destruct (try_from_ok o cs a d H Et) as (_ & _ & _ & _ & T & _).
    assert (X : cf_nv cf = nv a) by congruence. rewrite X. apply C52_answers; auto; now apply ses_vec with o.
  - destruct e; try contradiction C; cbn.
    + destruct C as (pre & c & post & -> & _ & C). intros (m & Hm). apply C. exists m. intros k Hk. apply Hm.
      apply in_or_app. apply in_app_or in Hk as [Hk|[<-|[]]]; [left; auto|right; left; auto].
    + split; discriminate.
Qed.

(** C51 with the real eliminator. *)
Theorem C51_own_queues_partial : forall n j, exists N, forall cs a d cf p i hs,
  session cs a d -> nv a = n -> narrow n (snd (fst (k_solve cf p i hs a d))) -> cf_elim cf = true -> cf_nv cf = n -> schedule (map fst hs) ->
  stages_made j (p_stm p) -> no_limit cf (map fst hs) n -> N <= length hs ->
  match snd (k_solve cf p i hs a d) with
  | SAT vals => forall c, In c cs -> exists x, In x c /\ In x vals
  | UNSAT => ~ zsatisfiable cs
  | Err e => e = XSolver SolverBug
  | _ => False
  end.
Proof.
  intros n j. destruct (C51_solve_decides_partial n j) as (N & T). exists N. intros cs a d cf p i hs S <- Hn Hc Hv Hs Hj (L1 & L2 & L3) Hl.
  destruct (session_q cs a d cf p i hs S Hn Hc Hv Hs) as (ss & hs' & H & EQ). rewrite EQ in *. clear EQ.
  destruct (same_schedule _ _ Hs H) as [H1 H2]. apply (T cs a d cf (set_psteps p ss) hs'); auto; [|lia].
  split; auto. split; auto. clear - L2 H. intros h Hh. induction H as [|x h' t t' [ss ->] S IH]; [contradiction|]. destruct Hh as [<-|Hh].
  - cbn. apply L2. left; auto.
  - apply IH; auto. intros y Hy. apply L2. right; auto.
Qed.

(** * Cases that meet the hypotheses *)
(** limits as in the default configuration; [skip] counts the resolvents; the budget is 6 * variables * clauses *)
Definition skip_ex (a : asg) (d : cdb) (pos neg : list nat) (v : nat) : bool :=
  length pos + length neg <?
  length (filter (fun pn => negb (match merge v (lits (cl d (fst pn))) (lits (cl d (snd pn))) with [] => true | _ => false end)) (list_prod pos neg)).
Definition lim_ex : klim := mkKlim 20000 800 64 skip_ex (fun a d => 6 * nv a * n_cl d).
Definition i_ex : kin := mkKin lim_ex [] (fun _ => false) (fun _ => false).
Definition after_elim (cs : list zclause) : option (list nat * list lit * list (list lit) * list lit * option serror) :=
  match solver_try_from orc0 cs with
  | BOk a d => let '((a1, d1, o1), r) := q_prepare_simplify lim_ex [] (a, d, occ_new) (queues_new (nv a) (fun _ => false) (fun _ => false)) in
               Some (filter (eli a1) (seq 1 (nv a1)), tr a1, map (fun c => lits (cl d1 c)) (seq 1 (ncl d1 - 1)), olits o1, r)
  | _ => None
  end.
(** the eliminator eliminates two of three variables and asserts the third; it refutes the
    eight clauses over three variables *)
Example C52_run_example :
  after_elim (tl all8) = Some ([1; 3], [4], repeat [] 10, [3; 5; 6; 3; 3; 4; 7; 3; 3; 4; 6; 3; 2; 1; 7; 4; 2; 6; 1], None) /\
  exists x, after_elim all8 = Some (x, Some RootLevelConflict).
Proof. split; [vm_compute; reflexivity|]. eexists. vm_compute. reflexivity. Qed.
(** answers of the solver with it; with a short budget; with a clock that stops it at once *)
Definition lim_short : klim := mkKlim 20000 800 64 (fun _ _ _ _ _ => false) (fun _ _ => 7).
Definition i_short : kin := mkKin lim_short [true] (fun v => v =? 2) (fun c => c =? 3).
Example C52_example :
  num_of_variables (tl all8) = Some 3 /\ num_of_variables parity5 = Some 10 /\
  k_certificate cf0 p1 i_ex (repeat (h1, i_ex) 5) orc0 (tl all8) = SAT [-1; -2; -3]%Z /\
  k_certificate cf0 p1 i_ex (repeat (h1, i_ex) 5) orc0 all8 = UNSAT /\
  k_certificate cf0 p1 i_short (repeat (h1, i_short) 9) orc0 all8 = UNSAT /\
  k_certificate cf1 p1 i_short (repeat (h1, i_short) 200) orc0 parity5 = UNSAT.
Proof. vm_compute. splits; reflexivity. Qed.
