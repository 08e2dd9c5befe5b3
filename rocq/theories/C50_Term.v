(** C50: a call of [solve] terminates, and without limits it decides the problem. *)
From Coq Require Import String List Arith Bool Lia ZArith Permutation.
From Verif Require Import Base HeapModel EmaModel AsgModel LitFacts AsgProofs C15_Trail CdbModel CdbProofs CdbOps PropModel SatSpec PropProofs PropLoop PropOps PropDb RootProofs ConflictModel ConflictProofs LogProofs HandleProofs PropMisc ElimModel ElimFacts ElimExt ElimProofs ElimVar ElimRun ElimTotal C12_Prop VivifyModel VivifyProofs QuietProofs Text CnfModel LitModel BuildModel Spec LitProofs BuildProofs C04_Build LubyModel LubyProofs SolveModel ErrProofs SolveProofs C01_Solve TermProofs.
Import ListNotations.
Open Scope list_scope.
Open Scope nat_scope.
Local Opaque Nat.pow.

(** * Specification *)

(** The stage manager of a solver: new, and used by earlier runs of the search that made
    [i] new stages in total. *)
Inductive stages_made : nat -> stage_manager -> Prop :=
| made_new : forall u, stages_made 0 (stage_new u)
| made_init : forall i sm u, stages_made i sm -> stages_made i (stage_initialize sm u)
| made_next : forall i sm now r sm', stages_made i sm -> prepare_new_stage sm now = Some (r, sm') -> stages_made (i + 1) sm'.

(** No limit is set: no soft limit on the number of clauses, the clock says that time is
    left, and all variables were declared before the solver was created. *)
Definition no_limit (cf : config) (hs : list heur) (n : nat) : Prop :=
  cf_limit cf = 0 /\ (forall h, In h hs -> h_time h = Some false) /\ n <= cf_nv cf.

(** * Proofs *)
Lemma made_luby : forall i sm, stages_made i sm -> luby_inv i (sm_luby sm).
Proof.
  intros i sm H. induction H as [u|i sm u H IH|i sm now r sm' H IH E]; [apply luby_default_inv|exact IH|].
  unfold prepare_new_stage in E. destruct (luby_next_correct i (sm_luby sm) IH) as (v & lb & El & _ & L & _). rewrite El in E.
  injection E as _ <-. exact L.
Qed.
Lemma initial_stage : forall i sm, stages_made i sm -> StageInv (i + 1) i (stage_initialize sm 32).
Proof.
  intros i sm H. unfold StageInv. cbn [stage_initialize sm_luby sm_unit_size sm_cycle]. splits; auto; [now apply made_luby|].
  clear. replace (i + 1 + 0 + 1) with (i + 2) by lia. apply Nat.lt_le_incl, Nat.pow_gt_lin_r. lia.
Qed.
Definition bound (i n : nat) : nat := weight n (stages_left (i + 1) (cmax n) i) (cmax n) (pmax n).
Lemma weight_mono : forall n l m p m' p', m' <= m -> p' <= p -> weight n l m' p' <= weight n l m p.
Proof.
  intros n l m p m' p' H K. unfold weight. apply Nat.add_le_mono; auto. apply Nat.mul_le_mono_r. lia.
Qed.
Lemma search_bound : forall F cf hs i sm a d a' d' r, (forall h, In h hs -> good_heur h) -> J F a d -> fits (nv a) d' -> stages_made i sm ->
  bound i (nv a) <= length hs -> search cf hs (stage_initialize sm 32) 0 a d = (a', d', r) -> r <> SMore.
Proof.
  intros F cf hs i sm a d a' d' r GH Jd Hf Sm Hb E.
  eapply (search_ends F cf (nv a) (i + 1) hs (stage_initialize sm 32) i 0 a d a' d' r GH Jd Hf eq_refl (initial_stage i sm Sm)); [| |exact E].
  - intros Z. exfalso. unfold stages_left in Z. pose proof (Nat.pow_gt_lin_r 2 (i + 1 + cmax (nv a) + 1) ltac:(lia)). lia.
  - eapply Nat.le_trans; [|exact Hb]. unfold bound. apply weight_mono; [apply cmeas_max|apply pmeas_max].
Qed.

Definition serr_ok (r : sres) : Prop := match r with SErr (XSolver e) => perr (Some e) | SErr _ => False | _ => True end.
Definition oserr_ok (r : option sres) : Prop := match r with Some x => serr_ok x | None => True end.
Lemma outcome_ok : forall cf d r, cf_limit cf = 0 -> perr r -> oserr_ok (simplify_outcome cf d r).
Proof.
  intros cf d r L H. destruct r as [e|]; cbn.
  - destruct e; cbn; auto.
  - unfold check_size. rewrite L. exact I.
Qed.
Lemma inprocess_ok : forall cf ss a d, cf_limit cf = 0 -> oserr_ok (snd (inprocess cf ss a d)).
Proof.
  intros cf ss a d L. unfold inprocess. destruct (cf_elim cf).
  - destruct (prepare_oob cf a d); [exact I|]. unfold elim_prepare_simplify. destruct (prepare _ _ _ _) as [d0 o0].
    pose proof (perr_elim (cf_evo cf) ss (a, d0, o0)) as H. destruct (elim_simplify _ _ _) as [[[a1 d1] o1] r].
    pose proof (outcome_ok cf d1 r L H) as K. destruct (simplify_outcome cf d1 r); [exact K|exact I].
  - destruct (propagate_sandbox a d) as [[a1 d1] r]. apply outcome_ok; auto. apply perr_root.
Qed.
Lemma after_conflict_ok : forall cf h en nx a d, cf_limit cf = 0 -> h_time h = Some false -> oserr_ok (snd (after_conflict cf h en nx a d)).
Proof.
  intros cf h en nx a d L T. unfold after_conflict. rewrite T. destruct en; [|destruct (h_restart h); exact I].
  unfold clear_asserted_literals. set (x := set_phases _ _). pose proof (perr_clear (S (nv x)) x d) as H.
  destruct (clear_loop _ x d) as [[a2 d2] [e|]]; [exact H|]. cbv zeta. destruct nx as [seg|]; [|exact I].
  match goal with |- context [vivify ?t ?b ?e] => pose proof (perr_vivify t b e) as K; destruct (vivify t b e) as [[a4 d4] [e0|]] end; [exact K|].
  destruct seg; [|exact I]. pose proof (inprocess_ok cf (h_steps h) a4 d4 L) as M.
  destruct (inprocess cf (h_steps h) a4 d4) as [[a5 d5] [r|]]; [exact M|exact I].
Qed.
Lemma search_ok : forall cf hs sm n a d, cf_limit cf = 0 -> (forall h, In h hs -> h_time h = Some false) -> serr_ok (snd (search cf hs sm n a d)).
Proof.
  intros cf hs. induction hs as [|h hs IH]; intros sm n a d L T; cbn [search].
  - destruct (_ || _); exact I.
  - destruct (_ || _); [|exact I].
    destruct (if remains a then _ else _) as [a1|]; [|exact I].
    destruct (propagate (h_skip h) a1 d) as [[a2 d2] [|l r|]]; [|destruct (dlevel a2 =? 0)|]; try exact I.
    + apply IH; auto. intros x Hx. apply T. right; auto.
    + pose proof (handle_err (h_deepen h) a2 d2 l r) as H. destruct (handle_conflict _ a2 d2 l r) as [[a3 d3] [rk|e|]]; try exact I; [|exact H].
      cbv zeta. match goal with |- context [after_conflict ?c ?x ?e ?nx ?b ?dd] =>
        pose proof (after_conflict_ok c x e nx b dd L (T h (or_introl eq_refl))) as K; destruct (after_conflict c x e nx b dd) as [[a4 d4] [q|]] end; [exact K|].
      apply IH; auto. intros x Hx. apply T. right; auto.
Qed.

(** * C50 *)
(** For every number of variables, and every use of the stage manager by earlier runs, there
    is a number of iterations of the main loop that no call of [solve] reaches, whatever the
    clauses, the heuristics and the configuration are. *)
Theorem C50_solve_terminates : forall n i, exists N, forall cs a d cf p hs,
  session cs a d -> nv a = n -> narrow n (snd (fst (solve cf p hs a d))) -> cf_elim cf = true -> schedule hs -> stages_made i (p_stm p) ->
  N <= length hs -> snd (solve cf p hs a d) <> Running.
Proof.
  intros n i. exists (bound i n). intros cs a d cf p hs S <- Hn Hc Hs Sm Hb.
  pose proof Hn as Hn0. destruct (session_inv cs a d S) as [I1 I2 I3 I4 I5 I6].
  pose proof (narrow_fits _ _ Hn) as N. pose proof (lle_fits _ _ _ (lle_solve cf p hs a d) N) as N0.
  destruct (@solve_cases False (fun m => holds m a d) cf p hs a d Hc) as [R|(c & e & Jc & Nc & EQ)]; auto.
  - now apply linv_pinv.
  - now apply start_gi.
  - apply (li_lims _ _ I1).
  - apply (li_eli _ _ I1).
  - apply (li_sav _ _ I1).
  - intros X. rewrite X in R. exact R.
  - rewrite EQ in *. destruct (search cf hs _ _ c e) as [[a8 d8] r8] eqn:E8. rewrite finish_cdb in N. cbn [fst snd] in N. rewrite <- Nc in N.
    assert (r8 <> SMore) by (eapply search_bound; eauto; rewrite Nc; auto).
    destruct r8 as [|x| | |]; cbn [finish]; try discriminate; [|destruct x as [x| |]; try destruct x; discriminate|congruence].
    destruct (validate _ _ _); [discriminate|]. destruct (answer_vals _ _); discriminate.
Qed.

(** The same for [Certificate::try_from]: [n] bounds the variables of the vector. *)
Theorem C50_certificate_terminates : forall n i, exists N, forall cs cf p hs oracle, tame cf p hs oracle cs ->
  (forall c x, In c cs -> In x c -> (Z.abs x <= Z.of_nat n)%Z) -> cf_elim cf = true -> schedule hs -> stages_made i (p_stm p) ->
  N <= length hs -> certificate cf p hs oracle cs <> Running.
Proof.
  intros n i.
  assert (X : exists N, forall k, k <= n -> forall cs a d cf p hs,
    session cs a d -> nv a = k -> narrow k (snd (fst (solve cf p hs a d))) -> cf_elim cf = true -> schedule hs -> stages_made i (p_stm p) ->
    N <= length hs -> snd (solve cf p hs a d) <> Running).
  { induction n as [|n (N & IH)].
    - destruct (C50_solve_terminates 0 i) as (N & H). exists N. intros k Hk. replace k with 0 by lia. exact H.
    - destruct (C50_solve_terminates (S n) i) as (M & H). exists (Nat.max N M). intros k Hk cs a d cf p hs A B C D E G L.
      destruct (Nat.eq_dec k (S n)) as [->|Ne].
      + apply (H cs a d cf p hs); auto. lia.
      + apply (IH k ltac:(lia) cs a d cf p hs); auto. lia. }
  destruct X as (N & H). exists N. intros cs cf p hs o [H32 Nv] Hr Hc Hs Hp L. unfold certificate.
  destruct (solver_try_from o cs) as [a d|e| |] eqn:Et; try discriminate; [|destruct e; discriminate].
  apply (H (nv a)) with (cs := cs); auto; [|now apply ses_vec with o].
  destruct (try_from_ok o cs a d H32 Et) as (_ & _ & _ & _ & T & _).
  destruct (num_vars_spec cs H32) as (m & E1 & _ & _ & [->|(c & x & H1 & H2 & H3)]); rewrite E1 in T; injection T as <-; [lia|].
  specialize (Hr c x H1 H2). lia.
Qed.

(** * C51 *)
(** Without limits [solve] decides the problem. Missing from the full claim "every call
    answers [SAT] or [UNSAT]": the error [SolverBug], with which the solver rejects its own
    assignment. *)
Theorem C51_solve_decides_partial : forall n i, exists N, forall cs a d cf p hs,
  session cs a d -> nv a = n -> narrow n (snd (fst (solve cf p hs a d))) -> cf_elim cf = true -> schedule hs -> stages_made i (p_stm p) ->
  no_limit cf hs n -> N <= length hs ->
  match snd (solve cf p hs a d) with
  | SAT vals => forall c, In c cs -> exists x, In x c /\ In x vals
  | UNSAT => ~ zsatisfiable cs
  | Err e => e = XSolver SolverBug
  | _ => False
  end.
Proof.
  intros n i. exists (bound i n). intros cs a d cf p hs S <- Hn Hc Hs Sm (Lm & Lt & Ln) Hb.
  pose proof (session_solve cs a d cf p hs S Hn Hc Hs) as R.
  pose proof Hn as Hn0. destruct (session_inv cs a d S) as [I1 I2 I3 I4 I5 I6].
  pose proof (narrow_fits _ _ Hn) as N. pose proof (lle_fits _ _ _ (lle_solve cf p hs a d) N) as N0.
  assert (E : match snd (solve cf p hs a d) with Err e => e = XSolver SolverBug | Running => False | _ => True end).
  { destruct (@solve_cases False (fun m => holds m a d) cf p hs a d Hc) as [Q|(c & e & Jc & Nc & EQ)]; auto.
    - now apply linv_pinv.
    - now apply start_gi.
    - apply (li_lims _ _ I1).
    - apply (li_eli _ _ I1).
    - apply (li_sav _ _ I1).
    - destruct (snd (solve cf p hs a d)) as [| |[]| | |] eqn:Es; auto; try contradiction.
    - pose proof (search_ok cf hs (stage_initialize (p_stm p) 32) 0 c e Lm Lt) as K. rewrite EQ in N |- *. clear EQ.
      destruct (search cf hs _ _ c e) as [[a8 d8] r8] eqn:E8. cbn [snd] in K. rewrite finish_cdb in N. cbn [fst snd] in N. rewrite <- Nc in N.
      assert (r8 <> SMore) by (eapply search_bound; eauto; rewrite Nc; auto).
      destruct r8 as [|x| | |]; cbn [finish]; try exact I; [|destruct x as [x| |]; try contradiction K; destruct x; try contradiction K|congruence].
      + destruct (validate _ _ _); [reflexivity|]. destruct (answer_vals _ _); exact I.
      + exact I.
      + exact I.
      + exfalso. pose proof (search_spec _ cf hs _ _ c e a8 d8 _ Hs Jc N E8) as Z. exact Z. }
  destruct (snd (solve cf p hs a d)) as [vs| |e| | |] eqn:Es; auto; cbn [right_answer] in R.
  - destruct (solve cf p hs a d) as [[a' d'] x] eqn:Eq. cbn [snd] in Es. subst x.
    exact (C01_solve cs a d cf p hs a' d' vs S Hn0 Hc Hs Eq).
  - destruct (solve cf p hs a d) as [[a' d'] x] eqn:Eq. cbn [snd] in Es. subst x.
    exact (C02_solve cs a d cf p hs a' d' S Hn0 Hc Hs Eq).
  - lia.
Qed.

(** ** Cases that meet the hypotheses *)
(** The hypotheses hold for schedules of every length; short ones do not finish. *)
Example C50_example : small parity5 /\ stages_made 0 (p_stm p1) /\ (forall N, exists hs, schedule hs /\ N <= length hs) /\
  certificate cf1 p1 (repeat h1 20) orc0 parity5 = Running /\ certificate cf1 p1 (repeat h1 200) orc0 parity5 = UNSAT.
Proof.
  split; [apply C48_example|]. split; [apply made_new|]. split; [|split].
  - intros N. exists (repeat h1 N). split; [exact (h0_schedule 0 N)|now rewrite repeat_length].
  - vm_compute. reflexivity.
  - exact (proj2 (proj2 C02_example)).
Qed.
Example C50_stage_example : exists sm, stages_made 2 sm /\ sm_stage sm = 2.
Proof.
  destruct (prepare_new_stage (stage_new 1) 5) as [[r1 s1]|] eqn:E1; [|discriminate E1].
  destruct (prepare_new_stage (stage_initialize s1 32) 7) as [[r2 s2]|] eqn:E2.
  - exists s2. split.
    + apply (made_next 1 _ 7 r2 s2 (made_init 1 s1 32 (made_next 0 _ 5 r1 s1 (made_new 1) E1)) E2).
    + vm_compute in E1. injection E1 as <- <-. vm_compute in E2. injection E2 as <- <-. reflexivity.
  - exfalso. vm_compute in E1. injection E1 as <- <-. vm_compute in E2. discriminate E2.
Qed.
Example C51_example : forall N, no_limit cf1 (repeat h1 N) 10.
Proof.
  intros N. split; [reflexivity|]. split; [|exact (le_n 10)]. intros h Hh. apply repeat_spec in Hh. now subst h.
Qed.
