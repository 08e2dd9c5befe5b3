(** C28: vivification replaces a clause by an entailed sub-clause, or asserts an entailed
    literal of it; the models do not change. *)
From Coq Require Import List Arith Bool Lia Permutation.
From Verif Require Import Base HeapModel AsgModel LitFacts AsgProofs C15_Trail CdbModel CdbProofs CdbOps C21_Db SatSpec PropModel PropProofs PropLoop PropOps PropDb RootProofs PropMisc ConflictModel ConflictProofs HandleProofs VivifyModel VivifyProofs C12_Prop.
Import ListNotations.
Local Opaque Nat.pow.

(** * Specification *)
(** the models of the database: the live clauses and the literals asserted at level 0 *)
Definition root_models (a : asg) (d : cdb) (m : model) : Prop :=
  sat_all m (stored d) /\ forall v b, val a v = Some b -> lev a v = 0 -> m v = b.
(** the same for the irredundant clauses: not learnt, or binary *)
Definition root_models_irr (a : asg) (d : cdb) (m : model) : Prop :=
  sat_all m (fun ls => exists c, lits (cl d c) = ls /\ ls <> [] /\ (lrn (cl d c) = false \/ length ls = 2)) /\
  forall v b, val a v = Some b -> lev a v = 0 -> m v = b.
(** the effect on the clauses of looking at target [c] *)
Inductive outcome (c : nat) (d : cdb) (a' : asg) (d' : cdb) : Prop :=
| kept : (forall x, Permutation (lits (cl d' x)) (lits (cl d x))) -> outcome c d a' d'
| asserted : forall u, In u (lits (cl d c)) -> val a' (vi u) = Some (sgn u) -> lims a' = [] ->
    (forall x, Permutation (lits (cl d' x)) (lits (cl d x))) -> outcome c d a' d'
| replaced : forall vec c', 2 <= length vec -> NoDup (map vi vec) -> incl vec (lits (cl d c)) ->
    lits (cl d' c) = [] -> c' <> c -> Permutation (lits (cl d' c')) vec ->
    (forall x, x <> c -> x <> c' -> Permutation (lits (cl d' x)) (lits (cl d x))) -> outcome c d a' d'.

(** * Proofs *)
Lemma sem_root : forall a d m, Sem a d m <-> root_models a d m.
Proof.
  intros a d m. unfold Sem, root_models. split; intros [H1 H2]; split.
  - intros ls (c & <- & Hc). apply H1. auto.
  - intros v b Hv Hl. set (x := mklit v b). assert (T : ltrue m x).
    { apply H2; [apply litval_true_iff|]; unfold x; rewrite ?vi_mklit, ?sgn_mklit; auto. }
    unfold ltrue, x in T. now rewrite vi_mklit, sgn_mklit in T.
  - intros c Hc. apply H1. exists c. auto.
  - intros l Hl Hz. apply litval_true_iff in Hl. apply (H2 _ _ Hl Hz).
Qed.
Lemma semk_root : forall a d m, SemK a d m <-> root_models_irr a d m.
Proof.
  intros a d m. unfold SemK, root_models_irr, keep. split; intros [H1 H2]; split.
  - intros ls (c & <- & Hc & K). apply H1; auto.
  - intros v b Hv Hl. set (x := mklit v b). assert (T : ltrue m x).
    { apply H2; [apply litval_true_iff|]; unfold x; rewrite ?vi_mklit, ?sgn_mklit; auto. }
    unfold ltrue, x in T. now rewrite vi_mklit, sgn_mklit in T.
  - intros c Hc K. apply H1. exists c. auto.
  - intros l Hl Hz. apply litval_true_iff in Hl. apply (H2 _ _ Hl Hz).
Qed.
Lemma vivified_sem : forall c a d a' d' m, oframe a a' -> vivified c a d a' d' -> Sem a' d' m -> Sem a d m.
Proof.
  intros c a d a' d' m OF V [M1 M2]. destruct OF as (_ & _ & _ & _ & _ & _ & OF).
  assert (Rt : forall l, litval a l = Some true -> lev a (vi l) = 0 -> ltrue m l).
  { intros l H1 H2. destruct (OF l true H1 H2). apply M2; auto. }
  assert (K : forall x y, content d x <> [] -> incl (content d' y) (content d x) -> content d' y <> [] -> sat m (content d x)).
  { intros x y Hx Hi Hy. destruct (M1 y Hy) as (q & Q1 & Q2). exists q. auto. }
  assert (Pm : forall x, Permutation (content d' x) (content d x) -> content d x <> [] -> sat m (content d x)).
  { intros x H Hx. apply (K x x Hx).
    - intros q Hq. eapply Permutation_in; eauto.
    - intros E. rewrite E in H. apply Permutation_nil in H. auto. }
  split; auto. intros x Hx. destruct V as [(V & _)|u U1 U2 U3 U4|vec c' V1 V2 V3 V4 V5 V6 V7 V8 V9]; auto.
  destruct (Nat.eq_dec x c) as [->|N1].
  - apply (K c c'); auto.
    + intros q Hq. apply V3. eapply Permutation_in; eauto.
    + intros E. rewrite E in V6. apply Permutation_nil in V6. subst vec. cbn in V1. lia.
  - destruct (Nat.eq_dec x c') as [->|N2]; auto. destruct V8 as [V8|V8]; [contradiction|auto].
Qed.

(** one target of the main loop *)
Theorem C28_target : forall s c a' d' r, reachable s -> ps_cf s = None ->
  viv_target c (ps_a s) (ps_d s) = (a', d', r) ->
  match r with
  | Some _ => forall m, ~ root_models (ps_a s) (ps_d s) m
  | None => (forall m, root_models (ps_a s) (ps_d s) m <-> root_models a' d' m) /\ outcome c (ps_d s) a' d'
  end.
Proof.
  intros s c a' d' r R E H. apply reachable_inv in R. set (a := ps_a s) in *. set (d := ps_d s) in *.
  set (G := Full (Sem a d)).
  pose proof (with_models G s R E (fun m X => X)) as P. apply sv_weaken in P. fold a d in P.
  pose proof (viv_target_spec c a d P a' d' r H) as V. destruct r as [e|].
  - destruct V as [_ V]. intros m Hm. apply (V m). apply sem_root. auto.
  - destruct V as (V1 & V2 & V3 & V4). split.
    + intros m. rewrite <- !sem_root. split.
      * intros Hm. apply (pi_sem _ _ _ _ _ (proj1 V1) m Hm).
      * intros Hm. eapply vivified_sem; eauto.
    + destruct V4 as [(V & _)|u U1 U2 U3 U4|vec c' W1 W2 W3 W4 W5 W6 W7 W8 W9].
      * apply kept. auto.
      * apply (asserted c d a' d' u); auto. now apply litval_true_iff.
      * apply (replaced c d a' d' vec c'); auto.
Qed.

(** a whole run, with the final simplification: every model stays, and the models of the
    irredundant clauses do not grow *)
Theorem C28_vivify : forall s ts a' d' r, reachable s -> ps_cf s = None -> lims (ps_a s) = [] ->
  vivify ts (ps_a s) (ps_d s) = (a', d', r) ->
  match r with
  | Some _ => forall m, ~ root_models (ps_a s) (ps_d s) m
  | None => (forall m, root_models (ps_a s) (ps_d s) m -> root_models a' d' m) /\
            (forall m, root_models_irr a' d' m -> root_models_irr (ps_a s) (ps_d s) m) /\
            lims a' = [] /\ remains a' = false
  end.
Proof.
  intros s ts a' d' r R E L H. apply reachable_inv in R. set (a := ps_a s) in *. set (d := ps_d s) in *.
  set (G := Full (Sem a d)).
  pose proof (with_models G s R E (fun m X => X)) as P. fold a d in P.
  pose proof (vivify_spec ts _ a d P L a' d' r H) as V. destruct r as [e|].
  - destruct V as [_ V]. intros m Hm. apply (V m). apply sem_root. auto.
  - destruct V as (V1 & V2 & V3 & V4 & V5). splits; auto.
    + intros m Hm. apply sem_root. apply (pi_sem _ _ _ _ _ (proj1 V1)). apply sem_root. auto.
    + intros m Hm. apply semk_root. apply V5. apply semk_root. auto.
    + unfold remains. rewrite V3. apply Nat.ltb_irrefl.
Qed.

(** the model never runs out of fuel and never reaches an [unreachable!] *)
Theorem C28_no_panic : forall s ts a' d' r, reachable s -> ps_cf s = None -> lims (ps_a s) = [] ->
  vivify ts (ps_a s) (ps_d s) = (a', d', r) -> r <> Some Fuel.
Proof.
  intros s ts a' d' r R E L H. apply reachable_inv in R.
  pose proof (with_models nomodels s R E (fun m (X : False) => match X with end)) as P.
  pose proof (vivify_spec ts _ _ _ P L a' d' r H) as V. destruct r as [e|]; [|discriminate].
  intros X. injection X as ->. destruct V as [V _]. congruence.
Qed.

(** * Concrete cases *)
(** (1 2 3 4) with (1 2 5), (1 2 -5): shortened to (1 2); (3 4 6) with (3 -4), (3 -6): 3 *)
Definition vv_ops : list pop :=
  [PAdd [pos 1; pos 2; pos 3; pos 4] false; PAdd [pos 1; pos 2; pos 5] false; PAdd [pos 1; pos 2; nega 5] false;
   PAdd [pos 3; pos 4; pos 6] false; PAdd [pos 3; nega 4] false; PAdd [pos 3; nega 6] false].
Definition vv_s : pstate := prun ex_start vv_ops.
Lemma vv_reach : reachable vv_s.
Proof. apply prun_reachable; [apply reach_new|]. unfold vv_ops. allow. Qed.
Lemma vv_ok : ps_cf vv_s = None /\ lims (ps_a vv_s) = [].
Proof. vm_compute. splits; reflexivity. Qed.
Example C28_nonvacuous_replaced :
  let '(a, d, r) := viv_target 1 (ps_a vv_s) (ps_d vv_s) in
  r = None /\ lits (cl (ps_d vv_s) 1) = [pos 1; pos 2; pos 3; pos 4] /\ lits (cl d 1) = [] /\ lits (cl d 7) = [pos 2; pos 1].
Proof. vm_compute. splits; reflexivity. Qed.
Example C28_nonvacuous_asserted :
  let '(a, d, r) := viv_target 4 (ps_a vv_s) (ps_d vv_s) in
  r = None /\ tr a = [pos 3].
Proof. vm_compute. splits; reflexivity. Qed.
Example C28_nonvacuous_run :
  let '(a, d, r) := vivify [1; 4] (ps_a vv_s) (ps_d vv_s) in
  r = None /\ val a 3 = Some true /\ map (fun c => lits (cl d c)) [1; 2; 3; 4; 5; 6; 7] =
    [[]; [pos 5; pos 2; pos 1]; [nega 5; pos 2; pos 1]; []; []; []; [pos 2; pos 1]].
Proof. vm_compute. splits; reflexivity. Qed.
