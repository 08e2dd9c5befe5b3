(** C17, C18, C19, C32: conflict analysis terminates, and its clause is entailed by the
    database (it even has the reverse unit propagation property), asserting, and drives
    the search forward. *)
From Coq Require Import List Arith Bool Lia Permutation.
From Verif Require Import Base HeapModel AsgModel LitFacts AsgProofs C15_Trail CdbModel CdbProofs CdbOps C21_Db SatSpec RupSpec PropModel PropProofs PropLoop PropOps PropDb RootProofs PropMisc ConflictModel ConflictProofs HandleProofs C12_Prop.
Import ListNotations.

(** the clauses at hand: the live clauses and the unit clauses asserted at level 0 *)
Definition at_hand (a : asg) (d : cdb) (ls : list lit) : Prop :=
  stored d ls \/ exists x, ls = [x] /\ val a (vi x) = Some (sgn x) /\ lev a (vi x) = 0.

Lemma known_at_hand : forall a d ls, known a d ls <-> at_hand a d ls.
Proof.
  intros a d ls. unfold known, at_hand, stored, content. split.
  - intros [(i & H)|(x & H1 & H2 & H3)]; [left; eauto|right; exists x; splits; auto]. now apply litval_true_iff.
  - intros [(i & H)|(x & H1 & H2 & H3)]; [left; eauto|right; exists x; splits; auto]. now apply litval_true_iff.
Qed.

Lemma rup_mono : forall (F F' : list lit -> Prop) C, (forall c, F c -> F' c) -> rup F C -> rup F' C.
Proof.
  intros F F' C H (c & Hc & X). exists c. split; auto. intros x Hx. specialize (X x Hx).
  induction X; [apply up_given; auto|eapply up_unit; eauto].
Qed.

Lemma conflict_inv : forall s l r, reachable s -> ps_cf s = Some (l, r) ->
  @PInv nomodels true (negb (ps_stale s)) (ps_a s) (ps_d s) (top (ps_a s)) /\ ConflictOk (ps_a s) (ps_d s) l r.
Proof. intros s l r R E. apply reachable_inv in R. unfold PI in R. now rewrite E in R. Qed.

(** ** C19 *)
Theorem C19_terminates : forall s l r, reachable s -> ps_cf s = Some (l, r) -> 0 < dlevel (ps_a s) ->
  exists d1 flags learnt lv, conflict_analyze (ps_a s) (ps_d s) l r = Some (d1, flags, learnt, lv) /\ learnt <> [].
Proof.
  intros s l r R E H. destruct (conflict_inv s l r R E) as [[P _] CO].
  destruct (conflict_analyze_spec _ _ _ _ _ P CO H) as (d1 & f & ln & lv & H1 & _ & _ & H2 & _).
  exists d1, f, ln, lv. split; auto. intros ->. cbn in H2. lia.
Qed.
(** the CA_SEEN flags are all off again *)
Theorem C19_flags_cleared : forall s l r d1 flags learnt lv, reachable s -> ps_cf s = Some (l, r) ->
  0 < dlevel (ps_a s) -> conflict_analyze (ps_a s) (ps_d s) l r = Some (d1, flags, learnt, lv) ->
  forall v, flags v = false.
Proof.
  intros s l r d1 flags learnt lv R E H X. destruct (conflict_inv s l r R E) as [[P _] CO].
  destruct (conflict_analyze_spec _ _ _ _ _ P CO H) as (d1' & f & ln & lv' & H1 & _ & H2 & _).
  rewrite X in H1. injection H1 as -> -> -> ->. exact H2.
Qed.
(** no panic and no error: the conflict is resolved *)
Theorem C19_conflict_resolved : forall s l r deepen, reachable s -> ps_cf s = Some (l, r) ->
  0 < dlevel (ps_a s) -> nv (ps_a s) < 2 ^ 16 ->
  exists a' d' rk, handle_conflict deepen (ps_a s) (ps_d s) l r = (a', d', HOk rk).
Proof.
  intros s l r deepen R E H N. destruct (conflict_inv s l r R E) as [P CO].
  destruct (handle_conflict_spec deepen _ _ _ _ _ P CO H (or_introl N)) as (a' & d' & rk & d1 & f & ln & lv & _ & H2 & _). eauto.
Qed.

(** ** C17 *)
Theorem C17_learnt_entailed : forall s l r d1 flags learnt lv, reachable s -> ps_cf s = Some (l, r) ->
  0 < dlevel (ps_a s) -> conflict_analyze (ps_a s) (ps_d s) l r = Some (d1, flags, learnt, lv) ->
  entails (at_hand (ps_a s) (ps_d s)) learnt.
Proof.
  intros s l r d1 flags learnt lv R E H X. destruct (conflict_inv s l r R E) as [[P _] CO].
  destruct (conflict_analyze_spec _ _ _ _ _ P CO H) as (d1' & f & ln & lv' & H1 & _ & _ & _ & _ & _ & _ & _ & _ & _ & H2).
  rewrite X in H1. injection H1 as -> -> -> ->. intros m Hm. apply (rup_entails _ _ H2).
  intros ls Hl. apply Hm. now apply known_at_hand.
Qed.

(** ** C32 *)
Theorem C32_learnt_rup : forall s l r d1 flags learnt lv, reachable s -> ps_cf s = Some (l, r) ->
  0 < dlevel (ps_a s) -> conflict_analyze (ps_a s) (ps_d s) l r = Some (d1, flags, learnt, lv) ->
  rup (at_hand (ps_a s) (ps_d s)) learnt.
Proof.
  intros s l r d1 flags learnt lv R E H X. destruct (conflict_inv s l r R E) as [[P _] CO].
  destruct (conflict_analyze_spec _ _ _ _ _ P CO H) as (d1' & f & ln & lv' & H1 & _ & _ & _ & _ & _ & _ & _ & _ & _ & H2).
  rewrite X in H1. injection H1 as -> -> -> ->. eapply rup_mono; [|exact H2]. intros c. apply known_at_hand.
Qed.

(** ** C18 *)
Definition false_in (a : asg) (q : lit) : Prop := val a (vi q) = Some (negb (sgn q)).
Lemma litval_false_in : forall a q, litval a q = Some false <-> false_in a q.
Proof.
  intros a q. unfold false_in. rewrite litval_false_iff, litval_true_iff, vi_neg, sgn_neg. tauto.
Qed.
(** the learnt clause at conflict time *)
Theorem C18_learnt_shape : forall s l r d1 flags learnt lv, reachable s -> ps_cf s = Some (l, r) ->
  0 < dlevel (ps_a s) -> conflict_analyze (ps_a s) (ps_d s) l r = Some (d1, flags, learnt, lv) ->
  let a := ps_a s in
  NoDup (map vi learnt) /\
  (* all its literals are false *)
  (forall q, In q learnt -> false_in a q) /\
  (* the first one, and no other, belongs to the conflict level *)
  (exists u rest, learnt = u :: rest /\ lev a (vi u) = dlevel a /\
     (forall q, In q rest -> lev a (vi q) < dlevel a) /\
     (* the level to go back to is the highest of the others, held by the second one *)
     (rest = [] -> lv = 0) /\
     (forall w t, rest = w :: t -> lev a (vi w) = lv /\ forall q, In q rest -> lev a (vi q) <= lv)).
Proof.
  intros s l r d1 flags learnt lv R E H X a. destruct (conflict_inv s l r R E) as [[P _] CO].
  destruct (conflict_analyze_spec _ _ _ _ _ P CO H) as (d1' & f & ln & lv' & H1 & _ & _ & H2 & H3 & H4 & H5 & H6 & H7 & H8 & _).
  rewrite X in H1. injection H1 as -> -> -> ->. splits; auto.
  - intros q Hq. apply litval_false_in. apply (H4 q Hq).
  - destruct ln as [|u rest]; [cbn in H2; lia|]. exists u, rest. splits; auto.
    + intros ->. now apply H7.
    + intros w t ->. cbn [length skipn nth] in *. destruct H8 as [H8 H9]; [lia|]. auto.
Qed.

(** after backtracking to that level the clause is unit: its first literal is unassigned,
    the others are still false *)
Theorem C18_unit_after_backjump : forall s l r d1 flags u rest lv, reachable s -> ps_cf s = Some (l, r) ->
  0 < dlevel (ps_a s) -> conflict_analyze (ps_a s) (ps_d s) l r = Some (d1, flags, u :: rest, lv) ->
  let b := cancel_until (ps_a s) lv in
  dlevel b = lv /\ lv < dlevel (ps_a s) /\ val b (vi u) = None /\ forall q, In q rest -> false_in b q.
Proof.
  intros s l r d1 flags u rest lv R E H X b.
  destruct (C18_learnt_shape s l r d1 flags _ lv R E H X) as (N & F & u' & rest' & Eq & L1 & L2 & L3 & L4).
  injection Eq as <- <-. destruct (conflict_inv s l r R E) as [P CO].
  assert (Hlv : lv < dlevel (ps_a s)).
  { destruct rest as [|w t]; [rewrite L3; auto|]. destruct (L4 w t eq_refl) as [<- _]. apply L2. left; auto. }
  destruct (cancel_inv _ _ _ _ lv P Hlv) as (_ & K1 & K2).
  destruct (cancel_fields (ps_a s) lv Hlv) as (_ & _ & _ & _ & _ & _ & _ & F8 & _).
  splits; auto.
  - unfold dlevel, b. rewrite F8, firstn_length. unfold dlevel in Hlv. lia.
  - apply litval_none_iff. destruct (litval b u) as [y|] eqn:Y; auto. destruct (K2 u y Y). lia.
  - intros q Hq. apply litval_false_in. apply K1.
    + apply litval_false_in, F. right; auto.
    + destruct rest as [|w t]; [destruct Hq|]. now apply (L4 w t eq_refl).
Qed.

(** what handle_conflict leaves: the clause is in the database (or asserted, when unit);
    either its first literal has been assigned at the backjump level and the others are
    false, or (BT_deepen) the search went one level deeper and two literals are free *)
Theorem C18_progress : forall s l r deepen a' d' rk d1 flags learnt lv, reachable s -> ps_cf s = Some (l, r) ->
  0 < dlevel (ps_a s) -> nv (ps_a s) < 2 ^ 16 ->
  conflict_analyze (ps_a s) (ps_d s) l r = Some (d1, flags, learnt, lv) ->
  handle_conflict deepen (ps_a s) (ps_d s) l r = (a', d', HOk rk) ->
  dlevel a' < dlevel (ps_a s) /\
  (forall c, lits (cl (ps_d s) c) <> [] -> lits (cl d' c) = lits (cl (ps_d s) c)) /\
  match learnt with
  | [] => False
  | [u] => dlevel a' = 0 /\ val a' (vi u) = Some (sgn u)
  | u :: w :: rest =>
      (exists c, Permutation (lits (cl d' c)) learnt) /\
      ((dlevel a' = lv /\ val a' (vi u) = Some (sgn u) /\ forall q, In q (w :: rest) -> false_in a' q) \/
       (0 < lv /\ dlevel a' = lv - 1 /\ val a' (vi u) = None /\ val a' (vi w) = None /\
        forall q, In q rest -> val a' (vi q) <> Some (sgn q)))
  end.
Proof.
  intros s l r deepen a' d' rk d1 flags learnt lv R E H Nv X Y.
  destruct (C18_learnt_shape s l r d1 flags _ lv R E H X) as (N & F & u & rest & -> & L1 & L2 & L3 & L4).
  destruct (conflict_inv s l r R E) as [P CO].
  destruct (handle_conflict_spec deepen _ _ _ _ _ P CO H (or_introl Nv))
    as (a2 & d2 & rk2 & d3 & f & ln & lv' & Z1 & Z2 & _ & _ & _ & Z3 & Z4 & Z5).
  rewrite X in Z1. injection Z1 as <- <- <- <-. rewrite Y in Z2. injection Z2 as <- <- _.
  destruct rest as [|w rest].
  - destruct (Z4 eq_refl) as [U1 U2]. splits; auto; [lia|]. now apply litval_true_iff.
  - cbn [length skipn nth] in *. destruct (Z5 ltac:(lia)) as [(vc & V1 & _) V2].
    destruct (L4 w rest eq_refl) as [M1 M2]. pose proof (L2 w ltac:(left; auto)) as M3.
    assert (Lt : dlevel a' < dlevel (ps_a s)) by (destruct V2 as [(V2 & _)|(_ & V2 & _)]; lia).
    splits; auto; [exists vc; exact V1|]. destruct V2 as [(W1 & W2 & W3)|(W1 & W2 & W3 & W4 & W5)]; [left|right]; splits; auto.
    + now apply litval_true_iff.
    + intros q Hq. apply litval_false_in. auto.
    + now apply litval_none_iff.
    + now apply litval_none_iff.
    + intros q Hq Q. apply (W5 q); [right; auto|]. now apply litval_true_iff.
Qed.

(** * A concrete conflict: the state of [ex_ops], propagated; the learnt clause is (-1 -4) *)
Definition ex_conflict : pstate := pstep (prun ex_start ex_ops) (PPropagate (fun _ _ => false)).
Lemma ex_conflict_reachable : reachable ex_conflict.
Proof. apply reach_step; [apply ex_reachable|]. vm_compute. auto. Qed.
Example C17_nonvacuous :
  ps_cf ex_conflict = Some (nega 3, RImplied 3) /\ dlevel (ps_a ex_conflict) = 3 /\
  match conflict_analyze (ps_a ex_conflict) (ps_d ex_conflict) (nega 3) (RImplied 3) with
  | Some (_, _, learnt, lv) => learnt = [nega 1; nega 4] /\ lv = 2
  | None => False
  end /\
  let '(a', d', r) := handle_conflict (fun _ => false) (ps_a ex_conflict) (ps_d ex_conflict) (nega 3) (RImplied 3) in
  r = HOk 1 /\ dlevel a' = 2 /\ tr a' = [pos 6; pos 5; pos 4; nega 1] /\ lits (cl d' 5) = [nega 1; nega 4].
Proof. vm_compute. splits; reflexivity. Qed.
