(** C01, C02, C03: the answers of [solve] and [Certificate::try_from]. *)
From Coq Require Import String List Arith Bool Lia ZArith Permutation.
From Verif Require Import Base HeapModel EmaModel AsgModel LitFacts AsgProofs C15_Trail CdbModel CdbProofs CdbOps PropModel SatSpec PropProofs PropLoop PropOps PropDb RootProofs ConflictModel ConflictProofs LogProofs HandleProofs PropMisc ElimModel ElimFacts ElimExt ElimProofs ElimVar ElimRun ElimTotal C12_Prop VivifyModel VivifyProofs QuietProofs Text CnfModel LitModel BuildModel Spec LitProofs BuildProofs C04_Build LubyModel SolveModel SolveProofs.
Import ListNotations.
Open Scope list_scope.
Open Scope nat_scope.
Local Opaque Nat.pow.

(** * Specification *)

(** A session: a solver is built from a vector of clauses, from a file (a header announcing
    [n] variables, and lines that contain the clauses, whose literals are in that range), or
    empty for [n] variables, and then [add_clause], [add_assignment] and [add_var] are called. [session cs a d]: the calls that
    returned [Ok] gave the clauses [cs] (an assignment is a unit clause); calls that
    returned an error give nothing. *)
Inductive session : list zclause -> asg -> cdb -> Prop :=
| ses_vec : forall oracle cs a d, i32_problem cs -> solver_try_from oracle cs = BOk a d -> session cs a d
| ses_file : forall oracle file n lines cs a d, read_header (read_lines file) = Some (Some (n, lines)) -> body lines cs ->
    (Z.of_nat n < 2 ^ 31)%Z -> (forall c x, In c cs -> In x c -> x <> 0%Z /\ (Z.abs x <= Z.of_nat n)%Z) ->
    build_file oracle file = FOk a d -> session cs a d
| ses_new : forall n oracle, (Z.of_nat n < 2 ^ 31)%Z -> session [] (asg_new n oracle) cdb_new
| ses_clause : forall cs a d c a' d', session cs a d -> add_clause a d c = (a', d', None) -> session (c :: cs) a' d'
| ses_assign : forall cs a d x a' d', session cs a d -> add_assignment a d x = (a', d', None) -> session ([x] :: cs) a' d'
| ses_clause_err : forall cs a d c a' d' e, session cs a d -> add_clause a d c = (a', d', Some e) -> session cs a' d'
| ses_assign_err : forall cs a d x a' d' e, session cs a d -> add_assignment a d x = (a', d', Some e) -> session cs a' d'
| ses_var : forall cs a d a' d', session cs a d -> (Z.of_nat (nv a) + 1 < 2 ^ 31)%Z -> add_var a d = (a', d') -> session cs a' d'.

(** The schedule of the search: any choices; sorting clauses permutes them. *)
Definition schedule (hs : list heur) : Prop := forall h, In h hs -> forall l, Permutation l (h_order h l).

(** Positions within a clause are kept in 16 bits (types/clause.rs:23): either there are fewer
    than [2^16] variables, or no clause that was ever stored has [2^16] literals. The log of
    the final state lists every clause that was stored. *)
Definition narrow (n : nat) (d : cdb) : Prop :=
  (Z.of_nat n < 65536)%Z \/ forall c, In (CAdd c) (cert d) -> (Z.of_nat (length c) < 65536)%Z.
(** the same for a run on a vector of clauses *)
Definition tame (cf : config) (p : prep) (hs : list heur) (oracle : nat -> nat -> nat -> bool) (cs : list zclause) : Prop :=
  i32_problem cs /\ forall a d, solver_try_from oracle cs = BOk a d -> narrow (nv a) (snd (fst (solve cf p hs a d))).
(** the number of variables of a vector is below [2^16] *)
Definition small (cs : list zclause) : Prop := forall c x, In c cs -> In x c -> (Z.abs x < 65536)%Z.

(** * Proofs *)
Record SInv (cs : list zclause) (a : asg) (d : cdb) : Prop := mkSInv {
  si_l : LInv a d;
  si_c : CandP False a;
  si_n : (Z.of_nat (nv a) < 2 ^ 31)%Z;
  si_r : forall c x, In c cs -> In x c -> x <> 0%Z /\ (Z.abs x <= Z.of_nat (nv a))%Z;
  si_m : forall m, contents_true m a d <-> zcnf_true m cs;
  si_q : Quiet d
}.

Lemma quiet_new : Quiet cdb_new.
Proof. intros x. reflexivity. Qed.
Lemma qle_add_unchecked : forall a d ls a' d' r, add_unchecked_clause a d ls = (a', d', r) -> qle d d'.
Proof.
  intros a d ls a' d' r E. unfold add_unchecked_clause in E. destruct ls as [|l ls]; [injection E as <- <- <-; apply qle_refl|].
  destruct (norm_loop _ _ _) as [[|l0 [|l1 t]]|]; try (injection E as <- <- <-; apply qle_refl).
  - destruct (assign_at_root_level a l0) as [a1 [|]]; injection E as <- <- <-; now apply qle_same.
  - destruct (new_clause _ _ _ _) as [d1 r1] eqn:En. injection E as <- <- <-. eapply qle_new; eauto.
Qed.
Lemma qle_add_clause : forall a d c a' d' e, add_clause a d c = (a', d', e) -> qle d d'.
Proof.
  intros a d c a' d' e E. unfold add_clause in E. destruct (existsb _ c); [injection E as <- <- <-; apply qle_refl|].
  destruct c as [|x c]; [injection E as <- <- <-; apply qle_refl|].
  destruct (add_unchecked_clause a d (map from_i32 (x :: c))) as [[a1 d1] r] eqn:Eu. apply qle_add_unchecked in Eu.
  destruct r; injection E as <- <- <-; auto.
Qed.
Lemma qle_add_assignment : forall a d x a' d' e, add_assignment a d x = (a', d', e) -> qle d d'.
Proof.
  intros a d x a' d' e E. unfold add_assignment in E. destruct (bad_lit _ _); [injection E as <- <- <-; apply qle_refl|].
  destruct (litval a (from_i32 x)) as [[|]|]; [injection E as <- <- <-; now apply qle_same..|].
  destruct (assign_at_root_level _ _) as [a1 [|]]; injection E as <- <- <-; now apply qle_same.
Qed.
Lemma qle_inject : forall cs a d a' d' e, inject_from_vec a d cs = (a', d', e) -> qle d d'.
Proof.
  induction cs as [|c cs IH]; intros a d a' d' e E; cbn [inject_from_vec] in E; [injection E as <- <- <-; apply qle_refl|].
  destruct (existsb _ c); [injection E as <- <- <-; apply qle_refl|].
  destruct (add_unchecked_clause a d (map from_i32 c)) as [[a1 d1] r] eqn:Eu. apply qle_add_unchecked in Eu.
  destruct r; try (injection E as <- <- <-; now auto); apply IH in E; eapply qle_trans; eauto.
Qed.

Lemma zcnf_cons : forall m c cs, zcnf_true m (c :: cs) <-> zclause_true m c /\ zcnf_true m cs.
Proof.
  intros m c cs. unfold zcnf_true. split.
  - intros H. split; [apply H; left; auto|intros x Hx; apply H; right; auto].
  - intros [H1 H2] x [<-|Hx]; auto.
Qed.
Lemma zclause_unit : forall m x, zclause_true m [x] <-> zlit_true m x.
Proof.
  intros m x. unfold zclause_true. split.
  - intros (y & [<-|[]] & H). auto.
  - intros H. exists x. split; [left|]; auto.
Qed.

Lemma session_inv : forall cs a d, session cs a d -> SInv cs a d.
Proof.
  induction 1 as [o cs a d H E|o file n lines cs a d Hh Hb Hn Hr E|n o H|cs a d c a' d' S IH E|cs a d x a' d' S IH E|cs a d c a' d' e S IH E|cs a d x a' d' e S IH E|cs a d a' d' S IH Hn E].
  - destruct (try_from_ok o cs a d H E) as (T1 & T2 & T3 & T4 & T5 & T6). constructor; auto; [now apply cand_any|].
    unfold solver_try_from in E. rewrite T5 in E.
    destruct (inject_from_vec (asg_new (nv a) o) cdb_new cs) as [[a1 d1] e1] eqn:Ei. apply qle_inject in Ei.
    destruct e1 as [[]|]; try discriminate. injection E as <- <-. eapply qle_quiet; [exact Ei|apply quiet_new].
  - unfold build_file in E. rewrite Hh in E. rewrite (file_is_vector lines cs Hb) in E by (auto using init_linv).
    pose proof (inject_spec cs (asg_new n o) cdb_new (init_linv n o) Hn) as X.
    destruct (inject_from_vec (asg_new n o) cdb_new cs) as [[a1 d1] e1] eqn:Ei. apply qle_inject in Ei.
    destruct e1 as [e1|]; [discriminate|]. injection E as <- <-. destruct X as (X1 & [_ X2] & X3 & X4 & X5 & _).
    change (nv (asg_new n o)) with n in X2. constructor; auto.
    + apply X3. apply cand_any, asg_new_cand.
    + now rewrite X2.
    + intros c x Hc Hx. rewrite X2. eauto.
    + intros m. rewrite X5. split; [tauto|]. intros Hz; split; auto. split; [intros c Hc; cbn in Hc; congruence|discriminate].
    + eapply qle_quiet; [exact Ei|apply quiet_new].
  - constructor; auto; try (now intros c x []).
    + apply init_linv.
    + apply cand_any, asg_new_cand.
    + intros m. split; [intros _ c []|]. intros _. split; [intros c Hc; cbn in Hc; congruence|discriminate].
    + apply quiet_new.
  - destruct IH as [I1 I2 I3 I4 I5 I6]. pose proof (qle_quiet _ _ (qle_add_clause _ _ _ _ _ _ E) I6) as Q.
    pose proof (add_clause_spec a d c I1 I3) as X. rewrite E in X. destruct X as (X1 & [_ X2] & X3 & X4).
    assert (R : forall x, In x c -> x <> 0%Z /\ (Z.abs x <= Z.of_nat (nv a))%Z).
    { destruct (C06_invalid_literal a d) as [C6 _]. destruct (C6 c a' d' None E) as [C6' _]. intros x Hx.
      destruct (Z.eq_dec x 0) as [Ez|Ez].
      - exfalso. assert (B : @None serror = Some InvalidLiteral) by (apply C6'; exists x; auto). discriminate.
      - split; auto. destruct (Z.le_gt_cases (Z.abs x) (Z.of_nat (nv a))); auto. exfalso.
        assert (B : @None serror = Some InvalidLiteral) by (apply C6'; exists x; split; auto; right; lia). discriminate. }
    destruct (X4 (proj2 (Forall_forall _ _) R)) as [X5 X6]. constructor; auto.
    + now rewrite X2.
    + intros c0 x [<-|H0] Hx; rewrite X2; eauto.
    + intros m. rewrite X5, I5, zcnf_cons. tauto.
  - destruct IH as [I1 I2 I3 I4 I5 I6]. pose proof (qle_quiet _ _ (qle_add_assignment _ _ _ _ _ _ E) I6) as Q.
    pose proof (add_assignment_spec a d x I1 I3) as X. rewrite E in X. destruct X as (X1 & [_ X2] & X3 & X4).
    assert (R : x <> 0%Z /\ (Z.abs x <= Z.of_nat (nv a))%Z).
    { unfold add_assignment in E. destruct (bad_lit (nv a) x) eqn:B; [discriminate|]. unfold bad_lit in B.
      apply orb_false_elim in B as [B1 B2]. apply Z.eqb_neq in B1. apply Z.ltb_ge in B2. auto. }
    destruct (X4 R) as (_ & X5 & X6 & X7). constructor; auto.
    + now rewrite X2.
    + intros c0 y [<-|H0] Hx; rewrite X2; eauto. destruct Hx as [<-|[]]. auto.
    + intros m. rewrite X7, I5, zcnf_cons, zclause_unit. tauto.
  - destruct IH as [I1 I2 I3 I4 I5 I6]. pose proof (qle_quiet _ _ (qle_add_clause _ _ _ _ _ _ E) I6) as Q.
    assert (X : a' = a /\ d' = d).
    { pose proof (add_clause_spec a d c I1 I3) as X. rewrite E in X. destruct X as (_ & _ & _ & X4).
      destruct (C06_invalid_literal a d) as [C6 _]. destruct (C6 c a' d' (Some e) E) as [C6' C6''].
      destruct (existsb (bad_lit (nv a)) c) eqn:B.
      - unfold add_clause in E. rewrite B in E. injection E as <- <- <-. auto.
      - apply bad_false in B. specialize (X4 B). destruct e; try contradiction; try tauto. }
    destruct X as [-> ->]. constructor; auto.
  - destruct IH as [I1 I2 I3 I4 I5 I6]. pose proof (qle_quiet _ _ (qle_add_assignment _ _ _ _ _ _ E) I6) as Q.
    pose proof (add_assignment_spec a d x I1 I3) as X. rewrite E in X. destruct X as (X1 & [_ X2] & X3 & X4).
    assert (A : a' = a /\ cl d' = cl d).
    { unfold add_assignment in E. destruct (bad_lit (nv a) x) eqn:B; [injection E as <- <- <-; auto|].
      assert (R : x <> 0%Z /\ (Z.abs x <= Z.of_nat (nv a))%Z).
      { unfold bad_lit in B. apply orb_false_elim in B as [B1 B2]. apply Z.eqb_neq in B1. apply Z.ltb_ge in B2. auto. }
      specialize (X4 R). destruct X4 as [_ X4].
      destruct (litval a (from_i32 x)) as [[|]|]; [discriminate|injection E as <- <- <-; auto|].
      destruct (assign_at_root_level a (from_i32 x)) as [a1 [|]] eqn:Ea; [discriminate|]. injection E as <- <- <-. destruct X4 as [_ ->]. auto. }
    destruct A as [-> A]. constructor; auto. intros m. rewrite <- I5. unfold contents_true. now rewrite A.
  - destruct IH as [I1 I2 I3 I4 I5 I6]. unfold add_var, cdb_new_var in E. injection E as <- <-. constructor; auto.
    + now apply new_var_linv.
    + split; [apply new_var_cand0, I2|intros []].
    + cbn. lia.
    + intros c x Hc Hx. destruct (I4 c x Hc Hx). cbn. split; auto. lia.
Qed.

Definition zm (m : model) : zmodel := fun z => m (Z.to_nat z).
Lemma zm_contents : forall m a d, holds m a d <-> contents_true (zm m) a d.
Proof.
  intros m a d. unfold contents_true, holds, sat, agrees, ltrue, zm, content. split; intros [H1 H2]; split.
  - intros c Hc. destruct (H1 c Hc) as (l & L1 & L2). exists l. rewrite Nat2Z.id. auto.
  - intros v b Hv. rewrite Nat2Z.id. auto.
  - intros c Hc. destruct (H1 c Hc) as (l & L1 & L2). exists l. rewrite Nat2Z.id in L2. auto.
  - intros v b Hv. specialize (H2 v b Hv). now rewrite Nat2Z.id in H2.
Qed.

Lemma start_gi : forall a d, LInv a d -> GI (fun m => holds m a d) a d.
Proof.
  intros a d I. constructor.
  - intros (m & Hm). exists m. now apply holds_sem.
  - intros m [M1 M2]. split; auto. intros c Hc. apply M1; auto. left. now apply (li_lrn _ _ I).
  - exists []. split; [now rewrite (li_estk _ _ I)|]. split.
    + unfold EStk. splits; try (now intros e []); try (now intros t os []).
      * intros es1 t os es2 X. destruct es1; discriminate.
      * intros v Hv. rewrite (li_eli _ _ I) in Hv. discriminate.
    + intros m [M1 M2]. cbn. apply holds_sem; auto. split; auto. intros c Hc. apply M1; auto. left. now apply (li_lrn _ _ I).
  - exists []. splits; [constructor|now rewrite (li_nel _ _ I)|]. intros v. rewrite (li_eli _ _ I). split; [discriminate|intros []].
Qed.

Lemma pow16 : Z.of_nat (2 ^ 16) = 65536%Z.
Proof. rewrite Nat2Z.inj_pow. reflexivity. Qed.

Lemma narrow_fits : forall n d, narrow n d -> fits n d.
Proof.
  intros n d [H|H]; [left|right; intros c Hc; specialize (H c Hc)]; apply Nat2Z.inj_lt; now rewrite pow16.
Qed.
Lemma session_solve : forall cs a d cf p hs, session cs a d -> narrow (nv a) (snd (fst (solve cf p hs a d))) -> cf_elim cf = true -> schedule hs ->
  right_answer cf (fun m => holds m a d) (nv a) (snd (solve cf p hs a d)).
Proof.
  intros cs a d cf p hs S Hn Hc Hs. destruct (session_inv cs a d S) as [I1 I2 I3 I4 I5 I6].
  apply narrow_fits in Hn.
  apply (@solve_spec False); auto.
  - apply linv_pinv; auto. eapply lle_fits; [apply lle_solve|exact Hn].
  - now apply start_gi.
  - apply (li_lims _ _ I1).
  - apply (li_eli _ _ I1).
  - apply (li_sav _ _ I1).
Qed.

Lemma signed_in : forall (m : model) n x, x <> 0%Z -> (Z.abs x <= Z.of_nat n)%Z -> zlit_true (zm m) x ->
  In x (map (fun v => signed v (m v)) (seq 1 n)).
Proof.
  intros m n x H0 Hr T. apply in_map_iff. exists (Z.to_nat (Z.abs x)). split.
  - unfold zlit_true, zm in T. unfold signed. rewrite Z2Nat.id by lia. destruct (Z.ltb_spec x 0); rewrite T; lia.
  - apply in_seq. lia.
Qed.

(** * C01 *)

(** Every clause given has a literal that is in the answer. *)
Theorem C01_solve : forall cs a d cf p hs a' d' vals, session cs a d -> narrow (nv a) d' ->
  cf_elim cf = true -> schedule hs -> solve cf p hs a d = (a', d', SAT vals) ->
  forall c, In c cs -> exists x, In x c /\ In x vals.
Proof.
  intros cs a d cf p hs a' d' vals S Hn Hc Hs E c Hin. assert (Hn' : narrow (nv a) (snd (fst (solve cf p hs a d)))) by (rewrite E; exact Hn).
  pose proof (session_solve cs a d cf p hs S Hn' Hc Hs) as R. rewrite E in R.
  cbn [snd right_answer] in R. destruct R as (m & Hm & ->). destruct (session_inv cs a d S) as [I1 I2 I3 I4 I5 I6].
  apply zm_contents, I5 in Hm. destruct (Hm c Hin) as (x & X1 & X2). exists x. split; auto.
  destruct (I4 c x Hin X1). now apply signed_in.
Qed.

Lemma small_nv : forall o cs a d, i32_problem cs -> small cs -> solver_try_from o cs = BOk a d -> (Z.of_nat (nv a) < 65536)%Z.
Proof.
  intros o cs a d H Sm E. destruct (try_from_ok o cs a d H E) as (_ & _ & _ & _ & T & _).
  destruct (num_vars_spec cs H) as (n & E1 & _ & _ & [->|(c & x & H1 & H2 & H3)]); rewrite E1 in T; injection T as <-; [lia|].
  rewrite <- H3. eapply Sm; eauto.
Qed.
Lemma small_i32 : forall cs, small cs -> i32_problem cs.
Proof. intros cs H c x Hc Hx. specialize (H c x Hc Hx). lia. Qed.
(** a vector with fewer than [2^16] variables is never a problem *)
Lemma small_tame : forall cf p hs o cs, small cs -> tame cf p hs o cs.
Proof. intros cf p hs o cs H. pose proof (small_i32 cs H) as X. split; auto. intros a d E. left. eapply small_nv; eauto. Qed.

Lemma nar : forall a d a' d' x cf p hs, narrow (nv a) (snd (fst (solve cf p hs a d))) -> solve cf p hs a d = (a', d', x) -> narrow (nv a) d'.
Proof. intros a d a' d' x cf p hs H E. now rewrite E in H. Qed.

(** the same for [Certificate::try_from(vec)] *)
Theorem C01_certificate : forall cf p hs oracle cs vals, tame cf p hs oracle cs -> cf_elim cf = true -> schedule hs ->
  certificate cf p hs oracle cs = SAT vals -> forall c, In c cs -> exists x, In x c /\ In x vals.
Proof.
  intros cf p hs o cs vals Sm Hc Hs E c Hin. unfold certificate in E.
  destruct Sm as [H N].
  destruct (solver_try_from o cs) as [a d|e| |] eqn:Et; try (destruct e); try discriminate.
  destruct (solve cf p hs a d) as [[a' d'] x] eqn:Es. cbn [snd] in E. subst x.
  exact (C01_solve cs a d cf p hs a' d' vals (ses_vec o cs a d H Et) (nar a d a' d' _ cf p hs (N a d eq_refl) Es) Hc Hs Es c Hin).
Qed.

(** * C02 *)
Theorem C02_solve : forall cs a d cf p hs a' d', session cs a d -> narrow (nv a) d' ->
  cf_elim cf = true -> schedule hs -> solve cf p hs a d = (a', d', UNSAT) -> ~ zsatisfiable cs.
Proof.
  intros cs a d cf p hs a' d' S Hn Hc Hs E (m & Hm). assert (Hn' : narrow (nv a) (snd (fst (solve cf p hs a d)))) by (rewrite E; exact Hn).
  pose proof (session_solve cs a d cf p hs S Hn' Hc Hs) as R. rewrite E in R.
  destruct (session_inv cs a d S) as [I1 I2 I3 I4 I5 I6]. apply I5, holds_contents in Hm. exact (R (tm m) Hm).
Qed.
Theorem C02_certificate : forall cf p hs oracle cs, tame cf p hs oracle cs -> cf_elim cf = true -> schedule hs ->
  certificate cf p hs oracle cs = UNSAT -> ~ zsatisfiable cs.
Proof.
  intros cf p hs o cs Sm Hc Hs E. unfold certificate in E.
  destruct Sm as [H N]. pose proof (C04_classification o cs H) as C.
  destruct (solver_try_from o cs) as [a d|e| |] eqn:Et; try contradiction C.
  - destruct (solve cf p hs a d) as [[a' d'] x] eqn:Es. cbn [snd] in E. subst x.
    exact (C02_solve cs a d cf p hs a' d' (ses_vec o cs a d H Et) (nar a d a' d' _ cf p hs (N a d eq_refl) Es) Hc Hs Es).
  - destruct e; try contradiction C; try discriminate E.
    destruct C as (pre & c & post & -> & _ & U). intros (m & Hm). apply U. exists m. intros x Hx. apply Hm.
    apply in_or_app. apply in_app_or in Hx as [Hx|[<-|[]]]; [left; auto|right; left; auto].
Qed.

(** * C03 *)
(** The answer has one entry for each variable: the [i]-th is [i] or [-i]. *)
Theorem C03_solve : forall cs a d cf p hs a' d' vals, session cs a d -> narrow (nv a) d' ->
  cf_elim cf = true -> schedule hs -> solve cf p hs a d = (a', d', SAT vals) ->
  length vals = nv a /\
  forall i x, nth_error vals i = Some x -> x = Z.of_nat (S i) \/ x = (- Z.of_nat (S i))%Z.
Proof.
  intros cs a d cf p hs a' d' vals S Hn Hc Hs E. assert (Hn' : narrow (nv a) (snd (fst (solve cf p hs a d)))) by (rewrite E; exact Hn).
  pose proof (session_solve cs a d cf p hs S Hn' Hc Hs) as R. rewrite E in R.
  cbn [snd right_answer] in R. destruct R as (m & Hm & ->). split; [now rewrite map_length, seq_length|].
  intros i x Hx. rewrite nth_error_map in Hx. destruct (nth_error (seq 1 (nv a)) i) as [v|] eqn:Ev; [|discriminate].
  assert (v = 1 + i). { assert (i < nv a) by (rewrite <- (seq_length (nv a) 1); apply nth_error_Some; congruence).
    apply nth_error_nth with (d := 0) in Ev. rewrite seq_nth in Ev; auto. }
  subst v. injection Hx as <-. unfold signed. change (1 + i) with (Datatypes.S i). destruct (m (Datatypes.S i)); [left|right]; reflexivity.
Qed.
Theorem C03_certificate : forall cf p hs oracle cs vals, tame cf p hs oracle cs -> cf_elim cf = true -> schedule hs ->
  certificate cf p hs oracle cs = SAT vals ->
  (forall c x, In c cs -> In x c -> (Z.abs x <= Z.of_nat (length vals))%Z) /\
  (vals = [] \/ exists c x, In c cs /\ In x c /\ Z.abs x = Z.of_nat (length vals)) /\
  forall i x, nth_error vals i = Some x -> x = Z.of_nat (S i) \/ x = (- Z.of_nat (S i))%Z.
Proof.
  intros cf p hs o cs vals Sm Hc Hs E. unfold certificate in E.
  destruct Sm as [H N].
  destruct (solver_try_from o cs) as [a d|e| |] eqn:Et; try (destruct e); try discriminate.
  destruct (solve cf p hs a d) as [[a' d'] x] eqn:Es. cbn [snd] in E. subst x.
  destruct (C03_solve cs a d cf p hs a' d' vals (ses_vec o cs a d H Et) (nar a d a' d' _ cf p hs (N a d eq_refl) Es) Hc Hs Es) as [L X].
  destruct (try_from_ok o cs a d H Et) as (_ & _ & _ & T4 & T5 & _).
  destruct (num_vars_spec cs H) as (n & E1 & _ & N1 & N2); rewrite E1 in T5; injection T5 as ->. rewrite L. splits; auto.
  destruct N2 as [N2|N2]; auto. left. destruct vals; auto. rewrite N2 in L. discriminate.
Qed.

(** * C48 *)

(** [solve] ends without a panic and reads no table of the eliminator past its end (the
    tables have an entry for each of the [cf_nv] variables of the CNF description); an
    error is a limit (clauses, time) or an internal inconsistency that is reported. *)
Theorem C48_solve : forall cs a d cf p hs, session cs a d -> narrow (nv a) (snd (fst (solve cf p hs a d))) ->
  cf_elim cf = true -> schedule hs -> nv a <= cf_nv cf ->
  let x := snd (solve cf p hs a d) in
  x <> Panic /\ x <> OutOfBounds /\ x <> Err (XSolver EmptyClause) /\ x <> Err (XSolver RootLevelConflict).
Proof.
  intros cs a d cf p hs S Hn Hc Hs Hv. pose proof (session_solve cs a d cf p hs S Hn Hc Hs) as R. cbv zeta.
  destruct (snd (solve cf p hs a d)) as [vs| |[e| |]| | |]; cbn in R; try contradiction; splits; try discriminate; try lia;
    intros X; injection X as ->; destruct R as [R|[R|R]]; discriminate.
Qed.
Theorem C48_certificate : forall cf p hs oracle cs, tame cf p hs oracle cs -> cf_elim cf = true -> schedule hs ->
  (forall c x, In c cs -> In x c -> (Z.abs x <= Z.of_nat (cf_nv cf))%Z) ->
  certificate cf p hs oracle cs <> Panic /\ certificate cf p hs oracle cs <> OutOfBounds.
Proof.
  intros cf p hs o cs Sm Hc Hs Hv. unfold certificate.
  destruct Sm as [H N]. pose proof (C04_classification o cs H) as C.
  destruct (solver_try_from o cs) as [a d|e| |] eqn:Et; try contradiction C; try (destruct e; split; discriminate); try (split; discriminate).
  destruct (C48_solve cs a d cf p hs (ses_vec o cs a d H Et) (N a d eq_refl) Hc Hs) as (X1 & X2 & _); auto.
  destruct (try_from_ok o cs a d H Et) as (_ & _ & _ & _ & T & _).
  destruct (num_vars_spec cs H) as (n & E1 & _ & _ & [->|(c & x & H1 & H2 & H3)]); rewrite E1 in T; injection T as <-; [lia|].
  apply Nat2Z.inj_le. rewrite <- H3. eapply Hv; eauto.
Qed.

(** * Examples *)
Definition h0 : heur := mkHeur (fun _ _ => false) (fun _ => false) None (fun _ => true) (fun _ => false) (fun l => l)
  (fun n => n) (fun _ => false) [] [] false.
(** an iteration that, when a stage ends, does: simplification, reduction,
    vivification of the clauses 1-4 and an elimination *)
Definition h1 : heur := mkHeur (fun _ _ => false) (fun _ => true) (Some false) (fun _ => true) (fun _ => true) (@rev nat)
  (fun _ => 1) (fun _ => false) [1; 2; 3; 4] [ESub 1 2; EVar 3; EProp] false.
Definition cf0 : config := mkConfig true 0 100 3.
Definition p0 : prep := mkPrep [1; 2; 3] [EVar 1; EProp] (fun _ => false) (stage_new 1).
Definition p1 : prep := mkPrep [] [] (fun _ => true) (stage_new 1).

(** all eight clauses over three variables, and the same without one of them *)
Definition all8 : list zclause := [[1; 2; 3]; [1; 2; -3]; [1; -2; 3]; [1; -2; -3]; [-1; 2; 3]; [-1; 2; -3]; [-1; -2; 3]; [-1; -2; -3]]%Z.

(** parity constraints: every vertex of the complete graph with five vertices has an odd
    (the first) or even number of chosen edges. 40 clauses, 10 variables; its refutation
    takes more than 32 conflicts, so that stages end. *)
Fixpoint parity (vs : list Z) (odd : bool) : list zclause :=
  match vs with
  | [] => if odd then [[]] else []
  | v :: t => map (cons v) (parity t odd) ++ map (cons (- v)%Z) (parity t (negb odd))
  end.
Definition parity5 : list zclause :=
  parity [1; 2; 3; 4]%Z true ++ parity [1; 5; 6; 7]%Z false ++ parity [2; 5; 8; 9]%Z false ++
  parity [3; 6; 8; 10]%Z false ++ parity [4; 7; 9; 10]%Z false.
Definition cf1 : config := mkConfig true 0 100 10.

Lemma h0_schedule : forall n k, schedule (repeat h0 n ++ repeat h1 k).
Proof.
  intros n k h H l. apply in_app_or in H as [H|H]; apply repeat_spec in H; subst h; cbn [h_order h0 h1]; [auto|apply Permutation_rev].
Qed.
Lemma all8_small : small all8.
Proof.
  intros c x Hc Hx. unfold all8 in Hc. cbn in Hc.
  repeat (destruct Hc as [<-|Hc]; [cbn in Hx; repeat (destruct Hx as [<-|Hx]; [lia|]); destruct Hx|]). destruct Hc.
Qed.
(** with an elimination; by plain search; with stages that simplify, reduce, vivify and eliminate *)
Example C01_example :
  certificate cf0 p0 (repeat h0 5 ++ repeat h1 0) orc0 (tl all8) = SAT [-1; -2; -3]%Z /\
  certificate cf0 p1 (repeat h0 7 ++ repeat h1 0) orc0 (tl all8) = SAT [-1; -2; -3]%Z /\
  certificate cf1 p1 (repeat h0 0 ++ repeat h1 200) orc0 (tl parity5) = SAT [-1; -2; -3; -4; -5; -6; -7; -8; -9; -10]%Z.
Proof. vm_compute. splits; reflexivity. Qed.
Example C02_example :
  certificate cf0 p0 (repeat h0 5 ++ repeat h1 0) orc0 all8 = UNSAT /\
  certificate cf0 p1 (repeat h0 7 ++ repeat h1 0) orc0 all8 = UNSAT /\
  certificate cf1 p1 (repeat h0 0 ++ repeat h1 200) orc0 parity5 = UNSAT.
Proof. vm_compute. splits; reflexivity. Qed.
Example C03_example : forall c, In c (tl all8) -> exists x, In x c /\ In x [-1; -2; -3]%Z.
Proof.
  apply (C01_certificate cf0 p0 (repeat h0 5 ++ repeat h1 0) orc0); [|reflexivity|apply h0_schedule|apply C01_example].
  apply small_tame. intros c x Hc Hx. apply (all8_small c x); [right; exact Hc|exact Hx].
Qed.

(** the clauses of a vector added one after the other *)
Fixpoint add_all (cs : list zclause) (a : asg) (d : cdb) : option (asg * cdb) :=
  match cs with
  | [] => Some (a, d)
  | c :: t => match add_clause a d c with (a', d', None) => add_all t a' d' | _ => None end
  end.
Lemma add_all_session : forall cs acc a d a' d', session acc a d -> add_all cs a d = Some (a', d') -> session (rev cs ++ acc) a' d'.
Proof.
  induction cs as [|c t IH]; intros acc a d a' d' H E; cbn in E; [injection E as <- <-; exact H|].
  destruct (add_clause a d c) as [[a1 d1] [e|]] eqn:E1; [discriminate|].
  cbn [rev]. rewrite <- app_assoc. apply (IH (c :: acc) a1 d1); auto. now apply (ses_clause acc a d).
Qed.
(** a solver with 70000 variables whose clauses are short: the second case of [narrow];
    UNSAT is found by the vivification of the preprocessing *)
Definition wide_prep : prep := mkPrep [1; 2; 3; 4; 5; 6; 7; 8; 1; 2; 3; 4; 5; 6; 7; 8; 9; 10; 11; 12] [] (fun _ => true) (stage_new 1).
Example C02_wide_example : exists a d, session (rev all8 ++ []) a d /\ (Z.of_nat (nv a) = 70000)%Z /\
  let '(a', d', x) := solve (mkConfig true 0 100 (nv a)) wide_prep [] a d in narrow (nv a) d' /\ x = UNSAT.
Proof.
  assert (X : match add_all all8 (asg_new (Z.to_nat 70000) orc0) cdb_new with
    | Some (a, d) => Z.eqb (Z.of_nat (nv a)) 70000 = true /\
       let '(a', d', x) := solve (mkConfig true 0 100 (nv a)) wide_prep [] a d in
       forallb (fun s => match s with CAdd c => Nat.ltb (length c) 4 | _ => true end) (cert d') = true /\ x = UNSAT
    | None => False end) by (vm_compute; splits; reflexivity).
  destruct (add_all all8 (asg_new (Z.to_nat 70000) orc0) cdb_new) as [[a d]|] eqn:E; [|destruct X].
  exists a, d. destruct X as [X1 X2]. splits; [|now apply Z.eqb_eq|].
  - eapply add_all_session; [|exact E]. apply ses_new. lia.
  - destruct (solve (mkConfig true 0 100 (nv a)) wide_prep [] a d) as [[a' d'] x]. destruct X2 as [X2 X3]. split; auto.
    right. intros c Hc. rewrite forallb_forall in X2. specialize (X2 _ Hc). cbn in X2. apply Nat.leb_le in X2. lia.
Qed.

(** a session from a file: a comment, the header, one clause per line, a clause added *)
Definition ex_file : str := CertModel.chars "c text"%string ++ [nl] ++ file_text 3 7 (tl all8).
Example C01_file_example : exists a d a1 d1 a2 d2,
  build_file orc0 ex_file = FOk a d /\ session (tl all8) a d /\
  add_clause a d [-1; -2]%Z = (a1, d1, None) /\ session ([-1; -2]%Z :: tl all8) a1 d1 /\
  solve cf0 p1 (repeat h0 0 ++ repeat h1 7) a1 d1 = (a2, d2, SAT [-1; -2; -3]%Z).
Proof.
  destruct (build_file orc0 ex_file) as [a d|e| |] eqn:E; [|vm_compute in E; discriminate E..].
  assert (S : session (tl all8) a d).
  { eapply (ses_file orc0 ex_file 3 (read_lines (flat_map (fun c => show_nums c ++ CertModel.chars "0"%string ++ [nl]) (tl all8)))); [vm_compute; reflexivity|apply body_text|reflexivity| |exact E].
    intros c x Hc Hx. unfold all8 in Hc. cbn in Hc.
    repeat (destruct Hc as [<-|Hc]; [cbn in Hx; repeat (destruct Hx as [<-|Hx]; [lia|]); destruct Hx|]). destruct Hc. }
  assert (X : FOk a d = build_file orc0 ex_file) by auto. exists a, d.
  destruct (add_clause a d [-1; -2]%Z) as [[a1 d1] e] eqn:E1.
  assert (Q : e = None /\ snd (solve cf0 p1 (repeat h0 0 ++ repeat h1 7) a1 d1) = SAT [-1; -2; -3]%Z).
  { vm_compute in X. injection X as -> ->. vm_compute in E1. injection E1 as <- <- <-. vm_compute. split; reflexivity. }
  destruct Q as [-> Q]. destruct (solve cf0 p1 (repeat h0 0 ++ repeat h1 7) a1 d1) as [[a2 d2] r] eqn:E2. cbn [snd] in Q. subst r.
  exists a1, d1, a2, d2. splits; auto. eapply ses_clause; eauto.
Qed.

(** the hypotheses of C48 are met: conflicts, learning, stages, eliminations *)
Lemma parity5_range : forall c x, In c parity5 -> In x c -> x <> 0%Z /\ (Z.abs x <= 10)%Z.
Proof.
  assert (H : forallb (forallb (fun x => negb (Z.eqb x 0) && Z.leb (Z.abs x) 10)) parity5 = true) by (vm_compute; reflexivity).
  intros c x Hc Hx. rewrite forallb_forall in H. specialize (H c Hc). rewrite forallb_forall in H. specialize (H x Hx).
  apply andb_true_iff in H as [H1 H2]. apply negb_true_iff, Z.eqb_neq in H1. apply Z.leb_le in H2. auto.
Qed.
Example C48_example : small parity5 /\ schedule (repeat h0 0 ++ repeat h1 200) /\
  (forall c x, In c parity5 -> In x c -> (Z.abs x <= Z.of_nat (cf_nv cf1))%Z) /\
  certificate cf1 p1 (repeat h0 0 ++ repeat h1 200) orc0 parity5 = UNSAT.
Proof.
  split; [|split; [apply h0_schedule|split; [|apply C02_example]]]; intros c x Hc Hx; destruct (parity5_range c x Hc Hx).
  - lia.
  - exact H0.
Qed.

(** * Refutations *)

(** The hypothesis [cf_elim] is needed: with [enable_eliminator = false] no occurrence
    lists are built, every variable is taken for a pure literal and asserted, and a
    satisfiable formula is answered UNSAT. *)
Theorem C02_eliminator_off_refuted : exists cf p hs oracle cs,
  small cs /\ schedule hs /\ cf_elim cf = false /\ certificate cf p hs oracle cs = UNSAT /\ zsatisfiable cs.
Proof.
  exists (mkConfig false 0 100 2), p1, [], orc0, [[-1; -2]]%Z. splits.
  - intros c x [<-|[]] Hx. cbn in Hx. repeat (destruct Hx as [<-|Hx]; [lia|]). destruct Hx.
  - intros h [].
  - reflexivity.
  - vm_compute. reflexivity.
  - exists (fun _ => false). intros c [<-|[]]. exists (-1)%Z. split; [left; auto|reflexivity].
Qed.

(** After [add_var] the eliminator's tables, as long as the CNF description, are read past
    their end: here [Solver::try_from([[1, 2]])], [add_var], [solve]. *)
Theorem C46_solve_after_add_var_refuted : exists cf p oracle cs a d, solver_try_from oracle cs = BOk a d /\ cf_nv cf = nv a /\
  cf_elim cf = true /\
  let '(a1, d1) := add_var a d in snd (solve cf p [] a1 d1) = OutOfBounds.
Proof.
  exists (mkConfig true 0 100 2), p1, orc0, [[1; 2]]%Z. eexists. eexists. split; [vm_compute; reflexivity|]. splits; vm_compute; reflexivity.
Qed.

(** Solving again after a SAT answer (documented as unsupported since 0.18.0, but the API
    allows it). First: a pure literal stays asserted, so a clause that the formula allows is
    rejected as contradictory. *)
Theorem C47_pure_literal_refuted : exists cf p hs oracle cs a d c, small (c :: cs) /\ schedule hs /\ cf_elim cf = true /\
  solver_try_from oracle cs = BOk a d /\
  (let '(a1, d1, x) := solve cf p hs a d in
   x = SAT [1; 2]%Z /\ exists a2 d2, add_clause a1 d1 c = (a2, d2, Some EmptyClause)) /\
  zsatisfiable (c :: cs).
Proof.
  exists (mkConfig true 0 100 2), p1, (repeat h0 0 ++ repeat h1 0), orc0, [[1; 2]]%Z. eexists. eexists. exists [-1]%Z. splits.
  - intros c x [<-|[<-|[]]] Hx; cbn in Hx; repeat (destruct Hx as [<-|Hx]; [lia|]); destruct Hx.
  - apply h0_schedule.
  - reflexivity.
  - vm_compute. reflexivity.
  - vm_compute. split; [reflexivity|]. eexists. eexists. reflexivity.
  - exists (fun z => Z.eqb z 2). intros c [<-|[<-|[]]]; [exists (-1)%Z|exists 2%Z]; (split; [cbn; auto|reflexivity]).
Qed.
(** Second: the counter of eliminated variables survives although their flags are turned off
    (search.rs:190-195), so the second run counts every variable eliminated by the first one twice: the
    number of unassigned variables wraps around and the search asks an empty heap for a decision. So
    a second call panics, without any addition. *)
Theorem C47_again_refuted : exists cf p p' hs oracle cs a d, small cs /\ schedule hs /\ cf_elim cf = true /\
  solver_try_from oracle cs = BOk a d /\
  let '(a1, d1, r1) := solve cf p hs a d in
  r1 = SAT [1; -2; -3]%Z /\ snd (solve cf p' hs a1 d1) = Panic.
Proof.
  exists cf0, (mkPrep [] [EVar 1] (fun _ => false) (stage_new 1)), p1, (repeat h0 4 ++ repeat h1 0), orc0, [[1; 2; 3]; [-1; -2; 3]; [1; -2; -3]; [-1; 2; -3]]%Z.
  eexists. eexists. splits.
  - intros c x Hc Hx. cbn in Hc. repeat (destruct Hc as [<-|Hc]; [cbn in Hx; repeat (destruct Hx as [<-|Hx]; [lia|]); destruct Hx|]). destruct Hc.
  - apply h0_schedule.
  - reflexivity.
  - vm_compute. reflexivity.
  - vm_compute. splits; reflexivity.
Qed.
(** Third: so does a second call after a clause about an eliminated variable has been added. *)
Theorem C47_eliminated_variable_refuted : exists cf p hs oracle cs a d x,
  small ([x] :: cs) /\ schedule hs /\ cf_elim cf = true /\ solver_try_from oracle cs = BOk a d /\
  zsatisfiable ([x] :: cs) /\
  let '(a1, d1, r1) := solve cf p hs a d in
  let '(a2, d2, e) := add_clause a1 d1 [x] in
  let '(a3, d3, r3) := solve cf p hs a2 d2 in
  r1 = SAT [1; -2; -3]%Z /\ e = None /\ r3 = Panic.
Proof.
  exists cf0, (mkPrep [] [EVar 1] (fun _ => false) (stage_new 1)), (repeat h0 4 ++ repeat h1 0), orc0, [[1; 2; 3]; [-1; -2; 3]; [1; -2; -3]; [-1; 2; -3]]%Z.
  eexists. eexists. exists (-1)%Z. splits.
  - intros c x Hc Hx. cbn in Hc. repeat (destruct Hc as [<-|Hc]; [cbn in Hx; repeat (destruct Hx as [<-|Hx]; [lia|]); destruct Hx|]). destruct Hc.
  - apply h0_schedule.
  - reflexivity.
  - vm_compute. reflexivity.
  - exists (fun z => Z.eqb z 2). intros c Hc. cbn in Hc.
    destruct Hc as [<-|[<-|[<-|[<-|[<-|[]]]]]]; [exists (-1)%Z|exists 2%Z|exists (-1)%Z|exists (-3)%Z|exists (-1)%Z]; (split; [cbn; tauto|reflexivity]).
  - vm_compute. splits; reflexivity.
Qed.
