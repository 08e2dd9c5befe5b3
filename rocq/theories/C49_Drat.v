(** C49: the proof log of an UNSAT answer is a DRAT refutation of the problem. *)
From Coq Require Import List Arith Bool Lia ZArith Permutation.
From Verif Require Import Text CertModel C31_Cert Base HeapModel EmaModel AsgModel LitFacts AsgProofs C15_Trail CdbModel CdbProofs CdbOps PropModel SatSpec PropProofs RupSpec DratSpec DratRun DratOps CnfModel LitModel BuildModel Spec LitProofs BuildProofs C04_Build SolveModel SolveProofs C01_Solve DratLoad DratPure DratSolve.
Import ListNotations.
Open Scope nat_scope.
Local Opaque Nat.pow.

(** * Specification *)

(** the literal of a checker for an integer of the problem *)
Definition ordinal (x : Z) : lit := 2 * Z.abs_nat x + (if Z.ltb 0 x then 1 else 0).
(** The problem that the checker reads (see DratSpec for tautologies and for
    [drat_refutation]). *)
Definition problem (cs : list zclause) : list (list lit) := proper (map (map ordinal) cs).

(** A session as in C01 in which no [add_assignment] was refused. *)
Inductive logged : list zclause -> asg -> cdb -> Prop :=
| log_vec : forall oracle cs a d, i32_problem cs -> solver_try_from oracle cs = BOk a d -> logged cs a d
| log_file : forall oracle file n lines cs a d, read_header (read_lines file) = Some (Some (n, lines)) -> body lines cs ->
    (Z.of_nat n < 2 ^ 31)%Z -> (forall c x, In c cs -> In x c -> x <> 0%Z /\ (Z.abs x <= Z.of_nat n)%Z) ->
    build_file oracle file = FOk a d -> logged cs a d
| log_new : forall n oracle, (Z.of_nat n < 2 ^ 31)%Z -> logged [] (asg_new n oracle) cdb_new
| log_clause : forall cs a d c a' d', logged cs a d -> add_clause a d c = (a', d', None) -> logged (c :: cs) a' d'
| log_assign : forall cs a d x a' d', logged cs a d -> add_assignment a d x = (a', d', None) -> logged ([x] :: cs) a' d'
| log_clause_err : forall cs a d c a' d' e, logged cs a d -> add_clause a d c = (a', d', Some e) -> logged cs a' d'
| log_var : forall cs a d a' d', logged cs a d -> (Z.of_nat (nv a) + 1 < 2 ^ 31)%Z -> add_var a d = (a', d') -> logged cs a' d'.

(** The proof file: the literals of the log are converted to integers
    (cdb/unsat_certificate.rs:71-88, [i32::from]), written with some flush interval, and the
    file is closed (C31). The checker reads its steps. *)
Definition written (e : cevent) : step :=
  match e with
  | CAdd c => (true, map (fun l => i32_of_lit (Z.of_nat l)) c)
  | CDel c => (false, map (fun l => i32_of_lit (Z.of_nat l)) c)
  end.
Definition proof_file (interval : nat) (log : list cevent) : str :=
  out (cert_close (fold_left (cert_step interval) (map written log) cert_new)).
Definition step_event (s : step) : cevent := if fst s then CAdd (map ordinal (snd s)) else CDel (map ordinal (snd s)).

(** * Proofs *)
Lemma logged_session : forall cs a d, logged cs a d -> session cs a d.
Proof.
  induction 1 as [o cs a d H E|o file n lines cs a d Hh Hb Hn Hr E|n o H|cs a d c a' d' S IH E|cs a d x a' d' S IH E|cs a d c a' d' e S IH E|cs a d a' d' S IH Hn E].
  - eapply ses_vec; eauto.
  - eapply ses_file; eauto.
  - now apply ses_new.
  - eapply ses_clause; eauto.
  - eapply ses_assign; eauto.
  - eapply ses_clause_err; eauto.
  - eapply ses_var; eauto.
Qed.
Lemma ordinal_from : forall x, zrange x -> ordinal x = from_i32 x.
Proof. intros x H. rewrite from_i32_eq by auto. unfold ordinal, mklit. destruct (Z.ltb 0 x); lia. Qed.
Lemma problem_from : forall cs, (forall c x, In c cs -> In x c -> zrange x) -> problem cs = proper (map (map from_i32) cs).
Proof.
  intros cs H. unfold problem. f_equal. apply map_ext_in. intros c Hc. apply map_ext_in. intros x Hx. apply ordinal_from. eauto.
Qed.

Lemma logged_lp : forall cs a d, logged cs a d -> LP (proper (map (map from_i32) cs)) a d.
Proof.
  induction 1 as [o cs a d H E|o file n lines cs a d Hh Hb Hn Hr E|n o H|cs a d c a' d' S IH E|cs a d x a' d' S IH E|cs a d c a' d' e S IH E|cs a d a' d' S IH Hn E].
  - eapply load_vec; eauto.
  - unfold build_file in E. rewrite Hh in E. rewrite (file_is_vector lines cs Hb) in E by (auto using init_linv).
    destruct (inject_from_vec (asg_new n o) cdb_new cs) as [[a1 d1] e1] eqn:Ei.
    destruct e1 as [e1|]; [discriminate|]. injection E as <- <-.
    apply (load_inject cs (asg_new n o) cdb_new a1 d1 [] (load_new n o) (init_linv n o) Hn) in Ei.
    rewrite app_nil_r in Ei. eapply load_perm; [exact Ei|]. intros x. unfold proper. rewrite !filter_In, <- in_rev. tauto.
  - apply load_new.
  - destruct (session_inv _ _ _ (logged_session _ _ _ S)) as [I1 I2 I3 I4 I5 I6].
    pose proof (load_clause _ _ _ _ _ _ IH I1 I3 E) as X. rewrite <- proper_app in X. exact X.
  - destruct (session_inv _ _ _ (logged_session _ _ _ S)) as [I1 I2 I3 I4 I5 I6].
    pose proof (load_assign _ _ _ _ _ _ IH I1 I3 E) as X.
    assert (T : tautology [from_i32 x] = false).
    { destruct (tautology [from_i32 x]) eqn:T; auto. apply taut_iff in T as (l & [<-|[]] & [L|[]]). symmetry in L. now apply neg_neq in L. }
    cbn [map proper filter]. rewrite T. exact X.
  - pose proof (session_inv _ _ _ (logged_session _ _ _ S)) as I.
    assert (X : a' = a /\ d' = d).
    { destruct I as [I1 I2 I3 I4 I5 I6]. pose proof (add_clause_spec a d c I1 I3) as X. rewrite E in X. destruct X as (_ & _ & _ & X4).
      destruct (existsb (bad_lit (nv a)) c) eqn:B.
      - unfold add_clause in E. rewrite B in E. injection E as <- <- <-. auto.
      - apply bad_false in B. specialize (X4 B). destruct e; try contradiction; try tauto. }
    destruct X as [-> ->]. auto.
  - unfold add_var, cdb_new_var in E. injection E as <- <-. apply load_var. exact IH.
Qed.

(** * C49 *)

(** Whenever [solve] answers UNSAT, the events logged since the solver was created are a
    DRAT refutation of the clauses given: every clause added to the log is accepted by the
    checker when it is read, and at the end unit propagation refutes what is left. *)
Lemma unsat_log : forall cs a d cf p hs a' d', logged cs a d -> narrow (nv a) d' ->
  cf_elim cf = true -> schedule hs -> solve cf p hs a d = (a', d', UNSAT) -> drat_refutation (problem cs) (cert d') /\ forall e, In e (cert d') -> readable e.
Proof.
  intros cs a d cf p hs a' d' L Hn Hc Hs E. pose proof (session_inv _ _ _ (logged_session _ _ _ L)) as [I1 I2 I3 I4 I5 I6].
  pose proof (narrow_fits _ _ Hn) as N.
  assert (N0 : LogProofs.fits (nv a) d) by (eapply LogProofs.lle_fits; [|exact N]; pose proof (LogProofs.lle_solve cf p hs a d) as Y; rewrite E in Y; exact Y).
  rewrite problem_from.
  2:{ intros c x H1 H2. destruct (I4 c x H1 H2). split; auto. lia. }
  destruct (logged_lp _ _ _ L) as [P1 P2 P3].
  apply (@solve_run False (fun m => holds m a d) _ cf p hs a d a' d'); auto.
  - now apply linv_pinv.
  - now apply start_gi.
  - apply (li_lims _ _ I1).
  - apply (li_eli _ _ I1).
  - apply (li_sav _ _ I1).
  - apply P1. intros x; auto.
Qed.

Theorem C49_unsat_log_is_refutation : forall cs a d cf p hs a' d', logged cs a d -> narrow (nv a) d' ->
  cf_elim cf = true -> schedule hs -> solve cf p hs a d = (a', d', UNSAT) -> drat_refutation (problem cs) (cert d').
Proof. intros cs a d cf p hs a' d' L Hn Hc Hs E. exact (proj1 (unsat_log cs a d cf p hs a' d' L Hn Hc Hs E)). Qed.

Lemma i32_lit : forall l, vok l -> let z := i32_of_lit (Z.of_nat l) in z <> 0%Z /\ ordinal z = l.
Proof.
  intros l [H1 H2]. pose proof (lit_cases l) as Hl. unfold mklit in Hl.
  assert (Z : Z.of_nat l = (2 * Z.of_nat (vi l) + Z.b2z (sgn l))%Z) by (destruct (sgn l); cbn [Z.b2z]; lia).
  cbv zeta. rewrite Z. rewrite i32_of_lit_parts by lia. unfold ordinal. destruct (sgn l).
  - destruct (Z.ltb_spec 0 (Z.of_nat (vi l))); lia.
  - destruct (Z.ltb_spec 0 (- Z.of_nat (vi l))); lia.
Qed.
Lemma i32_lits : forall c, (forall l, In l c -> vok l) -> let zs := map (fun l => i32_of_lit (Z.of_nat l)) c in
  Forall (fun z => z <> 0%Z) zs /\ map ordinal zs = c.
Proof.
  induction c as [|l c IH]; intros H; cbn; auto. destruct (i32_lit l (H l (or_introl eq_refl))) as [H1 H2].
  destruct IH as [I1 I2]; [intros x Hx; apply H; right; auto|]. split; auto. cbn in *. now rewrite H2, I2.
Qed.
Lemma refutation_closed : forall F E, drat_refutation F E -> drat_refutation F (E ++ [CAdd []]).
Proof.
  intros F E [V R]. split.
  - apply valid_app. split; auto. cbn. split; auto. left. exact R.
  - left. exists []. split; [|intros x []]. rewrite run_snoc. left. left. reflexivity.
Qed.

(** From the problem to the bytes: for every flush interval the proof file is readable, and
    the steps read are a DRAT refutation of the problem. *)
Theorem C49_proof_file : forall cs a d cf p hs a' d' interval, logged cs a d -> narrow (nv a) d' ->
  cf_elim cf = true -> schedule hs -> solve cf p hs a d = (a', d', UNSAT) ->
  exists steps, drat_read (proof_file interval (cert d')) = Some steps /\ drat_refutation (problem cs) (map step_event steps).
Proof.
  intros cs a d cf p hs a' d' i L Hn Hc Hs E. destruct (unsat_log cs a d cf p hs a' d' L Hn Hc Hs E) as [R O].
  exists (map written (cert d') ++ [(true, [])]). split.
  - apply C31_proof_file. apply Forall_forall. intros s Hin. apply in_map_iff in Hin as (e & <- & He). specialize (O e He).
    destruct e as [c|c]; cbn [written fst snd]; cbn in O.
    + split; [now apply i32_lits|discriminate].
    + destruct O as [O1 O2]. split; [now apply i32_lits|]. intros _ X. apply map_eq_nil in X. contradiction.
  - rewrite map_app. change (map step_event [(true, [])]) with [CAdd []]. apply refutation_closed.
    replace (map step_event (map written (cert d'))) with (cert d'); auto.
    rewrite map_map. rewrite <- map_id at 1. apply map_ext_in. intros e He. specialize (O e He).
    destruct e as [c|c]; unfold step_event; cbn [written fst snd]; cbn in O; f_equal; symmetry; apply i32_lits; tauto.
Qed.

(** so that whoever checks the log knows, without trusting the solver, that the problem has
    no model *)
Theorem C49_refutation_sound : forall cs E, (forall c x, In c cs -> In x c -> x <> 0%Z) ->
  drat_refutation (problem cs) E -> ~ zsatisfiable cs.
Proof.
  intros cs E H R (m & Hm). apply (drat_sound _ _ R (tm m)). intros c Hc. unfold problem, proper in Hc. apply filter_In in Hc as [Hc _].
  apply in_map_iff in Hc as (k & <- & Hk). destruct (Hm k Hk) as (x & X1 & X2). exists (ordinal x). split; [now apply in_map|].
  unfold ltrue, tm, zlit_true in *. specialize (H k x Hk X1).
  assert (V : ordinal x = mklit (Z.abs_nat x) (Z.ltb 0 x)) by (unfold ordinal, mklit; destruct (Z.ltb 0 x); lia).
  rewrite V, vi_mklit, sgn_mklit. replace (Z.of_nat (Z.abs_nat x)) with (Z.abs x) by lia.
  destruct (Z.ltb_spec x 0), (Z.ltb_spec 0 x); rewrite ?X2; auto; lia.
Qed.

(** * Examples *)
Definition no_state : asg * cdb := (asg_new 0 orc0, cdb_new).
Definition start (cs : list zclause) : asg * cdb := match solver_try_from orc0 cs with BOk a d => (a, d) | _ => no_state end.
Definition is_del (e : cevent) : bool := match e with CDel _ => true | CAdd _ => false end.

Lemma start_logged : forall cs n, small cs -> match solver_try_from orc0 cs with BOk a _ => (nv a =? n) && (Z.of_nat n <? 65536)%Z | _ => false end = true ->
  logged cs (fst (start cs)) (snd (start cs)) /\ (Z.of_nat (nv (fst (start cs))) < 65536)%Z.
Proof.
  intros cs n Sm H. unfold start. destruct (solver_try_from orc0 cs) as [a d| | |] eqn:E; try discriminate. cbn [fst snd].
  apply andb_true_iff in H as [H1 H2]. apply Nat.eqb_eq in H1. apply Z.ltb_lt in H2. subst n. split; auto.
  apply (log_vec orc0); auto. now apply small_i32.
Qed.
Definition log_summary (r : asg * cdb * answer) :=
  (snd r, length (filter is_del (cert (snd (fst r)))), length (cert (snd (fst r))),
   option_map (fun s => (length s, nth_error s 142)) (drat_read (proof_file 3 (cert (snd (fst r)))))).
(** the hypotheses are met by runs that learn, simplify, reduce, vivify and eliminate, with a
    log of additions and deletions *)
Example C49_example :
  let run p hs cs := solve cf1 p hs (fst (start cs)) (snd (start cs)) in
  let r1 := run p1 (repeat h0 0 ++ repeat h1 200) parity5 in
  let r2 := run p0 (repeat h0 5 ++ repeat h1 0) all8 in
  snd r1 = UNSAT /\ snd r2 = UNSAT /\
  length (filter is_del (cert (snd (fst r1)))) = 31 /\ length (cert (snd (fst r1))) = 142 /\
  option_map (fun s => (length s, nth_error s 142)) (drat_read (proof_file 3 (cert (snd (fst r1))))) = Some (143, Some (true, [])) /\
  drat_refutation (problem parity5) (cert (snd (fst r1))) /\ drat_refutation (problem all8) (cert (snd (fst r2))).
Proof.
  destruct (start_logged all8 3 all8_small) as [L N]; [vm_compute; reflexivity|].
  destruct (start_logged parity5 10 (proj1 C48_example)) as [L1 N1]; [vm_compute; reflexivity|].
  intros run r1 r2. unfold run in r1, r2. clear run.
  assert (X : log_summary r1 = (UNSAT, 31, 142, Some (143, Some (true, [])))) by (vm_compute; reflexivity).
  assert (Y : snd r2 = UNSAT) by (vm_compute; reflexivity).
  assert (E1 : r1 = solve cf1 p1 (repeat h0 0 ++ repeat h1 200) (fst (start parity5)) (snd (start parity5))) by reflexivity.
  assert (E2 : r2 = solve cf1 p0 (repeat h0 5 ++ repeat h1 0) (fst (start all8)) (snd (start all8))) by reflexivity.
  clearbody r1 r2. destruct r1 as [[a1 d1] q1], r2 as [[a2 d2] q2]. cbn [fst snd] in *. unfold log_summary in X. cbn [fst snd] in X.
  injection X as X1 X2 X3 X4. subst q1 q2.
  split; [reflexivity|]. split; [reflexivity|]. split; [exact X2|]. split; [exact X3|]. split; [exact X4|]. split.
  - exact (C49_unsat_log_is_refutation parity5 _ _ cf1 p1 _ _ _ L1 (or_introl N1) eq_refl (h0_schedule 0 200) (eq_sym E1)).
  - exact (C49_unsat_log_is_refutation all8 _ _ cf1 p0 _ _ _ L (or_introl N) eq_refl (h0_schedule 5 0) (eq_sym E2)).
Qed.

(** * A refused assignment spoils the log *)

(** [add_assignment] writes the literal before it finds out that the literal is false. The
    solver goes on as if the call had not happened, but the log contains a unit clause that
    no checker accepts. Here: the clauses 1, and all clauses over 2 and 3; [add_assignment(-1)]
    is refused; [solve] answers UNSAT, rightly. *)
Definition spoilt : list zclause := [[1]; [2; 3]; [2; -3]; [-2; 3]; [-2; -3]]%Z.
Theorem C49_refused_assignment_refuted : exists cf p hs a d a1 d1 a2 d2, schedule hs /\ cf_elim cf = true /\
  logged spoilt a d /\ add_assignment a d (-1) = (a1, d1, Some RootLevelConflict) /\
  solve cf p hs a1 d1 = (a2, d2, UNSAT) /\ ~ zsatisfiable spoilt /\ ~ drat_refutation (problem spoilt) (cert d2).
Proof.
  set (a := fst (start spoilt)). set (d := snd (start spoilt)).
  assert (L : logged spoilt a d).
  { apply (log_vec orc0); [|vm_compute; reflexivity]. intros c x Hc Hx. unfold spoilt in Hc. cbn in Hc.
    repeat (destruct Hc as [<-|Hc]; [cbn in Hx; repeat (destruct Hx as [<-|Hx]; [lia|]); destruct Hx|]). destruct Hc. }
  exists cf0, p1, (repeat h0 7 ++ repeat h1 0), a, d. do 4 eexists.
  split; [apply h0_schedule|]. split; [reflexivity|]. split; [exact L|]. split; [vm_compute; reflexivity|]. split; [vm_compute; reflexivity|].
  split.
  { refine (C02_solve spoilt a d cf0 p1 (repeat h0 7 ++ repeat h1 0) _ _ (logged_session _ _ _ L) (or_introl eq_refl) eq_refl (h0_schedule 7 0) _).
    vm_compute. reflexivity. }
  intros [V _]. unfold cert in V.
  change (ck_valid (ck_init (problem spoilt)) ([CAdd [3]; CAdd [5; 7]; CAdd [5; 6]; CAdd [4; 7]; CAdd [4; 6]] ++ CAdd [2] :: [CAdd [4]])) in V.
  apply valid_app in V as [_ [V _]].
  set (E := [CAdd [3]; CAdd [5; 7]; CAdd [5; 6]; CAdd [4; 7]; CAdd [4; 6]]) in *. set (s := ck_run (ck_init (problem spoilt)) E) in *.
  set (T := fun l : lit => l = 3).
  assert (C : forall c, In c (problem spoilt ++ adds E) -> (c = [3] \/ exists x y, c = [x; y] /\ 4 <= x /\ 4 <= y /\ x <> y)).
  { intros c Hc. change (In c [[3]; [5; 7]; [5; 6]; [4; 7]; [4; 6]; [3]; [5; 7]; [5; 6]; [4; 7]; [4; 6]]) in Hc.
    repeat (destruct Hc as [<-|Hc]; [first [left; reflexivity|right; eexists; eexists; splits; [reflexivity|lia..]]|]). destruct Hc. }
  assert (Tn : forall x, 4 <= x -> ~ T (neg x)).
  { intros x Hx N. unfold T in N. apply (f_equal neg) in N. rewrite neg_neg in N. change (neg 3) with 2 in N. lia. }
  assert (Cl : forall c, In c (problem spoilt ++ adds E) -> tclosed T c).
  { intros c Hc. destruct (C c Hc) as [-> | (x & y & -> & H1 & H2 & H3)]; intros l Hl H.
    - destruct Hl as [<-|[]]. reflexivity.
    - exfalso. destruct (Nat.eq_dec x l) as [<-|N].
      + apply (Tn y H2). apply H; [right; left|]; auto.
      + apply (Tn x H1). apply H; [left|]; auto. }
  assert (Us : forall x, ck_us s x -> T x).
  { apply us_tclosed; auto. cbn [ck_init ck_us]. apply up_tclosed. intros c Hc. apply Cl. apply in_or_app; auto. }
  assert (Up : forall l, up (active s) (fun x => In (neg x) [2]) l -> T l).
  { intros l U. induction U as [l [X|[]]|c l Hc Hl _ IH].
    - unfold T. apply (f_equal neg) in X. rewrite neg_neg in X. exact (eq_sym X).
    - destruct Hc as [Hc|(x & Hx & ->)].
      + apply db_history in Hc. exact (Cl c Hc l Hl IH).
      + destruct Hl as [<-|[]]. auto. }
  assert (NR : ~ rup_ok s [2]).
  { intros [(c & Hc & H)|(l & H1 & H2)].
    - destruct Hc as [Hc|(x & Hx & ->)].
      + apply db_history in Hc. destruct (C c Hc) as [-> | (x & y & -> & H1 & _)].
        * specialize (H 3 (or_introl eq_refl)). apply Up in H. discriminate H.
        * apply (Tn x H1). apply Up, H. left; auto.
      + apply Us in Hx. specialize (H x (or_introl eq_refl)). apply Up in H. rewrite Hx in H. discriminate H.
    - apply Up in H1. apply Up in H2. rewrite H1 in H2. discriminate H2. }
  destruct V as [V|(l & t & El & V)]; [exact (NR V)|]. injection El as <- <-.
  apply NR. exact (V [3] (or_introl (nodel_keeps E (ck_init (problem spoilt)) ltac:(intros c Hc; repeat (destruct Hc as [Hc|Hc]; [discriminate|]); destruct Hc) [3] (or_introl eq_refl))) (or_introl eq_refl)).
Qed.
