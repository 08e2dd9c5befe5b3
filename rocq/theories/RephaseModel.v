(** The best assignment so far and rephasing (feature [rephase], on by default): assign/propagate.rs,
    assign/select.rs, assign/stack.rs, and [solve] with them. In SolveModel.v the phases after the
    two calls of [select_rephasing_target] are arbitrary inputs ([h_pha1], [h_pha2]); here they are what the code computes, and those two fields
    of [heur] are not used. *)
From Coq Require Import List Arith Bool ZArith.
From Verif Require Import Base HeapModel AsgModel CdbModel PropModel ConflictModel ElimModel VivifyModel LubyModel LitModel BuildModel SolveModel.
Import ListNotations.
Open Scope nat_scope.

(** assign/stack.rs:36-47: [best_assign], [num_best_assign], [best_phases] (a HashMap from variables to values; the
    reasons that are stored with them are never read; as a list of entries, whose order is
    never used) *)
Record best := mkBest { b_new : bool; b_num : nat; b_ph : list (nat * bool) }.
(** assign/stack.rs:117-124 *)
Definition best_new : best := mkBest false 0 [].

(** assign/propagate.rs:557-561: the end of a [propagate] without conflict *)
Definition track (a : asg) (b : best) : best :=
  let na := qh a + nel a + nas a in
  if (b_num b <=? na) && (0 <? dlevel a) then mkBest true na (b_ph b) else b.

(** assign/propagate.rs:810-826 [save_best_phases]; the root level is 0, and it is called above it *)
Definition best_entries (a : asg) : list (nat * bool) :=
  flat_map (fun l => match val a (vi l) with Some x => [(vi l, x)] | None => [] end) (skipn (len_upto a 0) (tr a)).
(** assign/propagate.rs:197-204: the beginning of [cancel_until] *)
Definition save (a : asg) (lv : nat) (b : best) : best :=
  if length (lims a) <=? lv then b
  else if b_new b then mkBest false (b_num b) (best_entries a) else b.

(** assign/stack.rs:600-615 [check_best_phase], called for every variable that is asserted
    (stack.rs:544-556). Simplified: an operation that may assert several variables is followed by one test of
    the variables of the map; [n] is the value of [num_asserted_vars + num_eliminated_vars] when the first of them was
    asserted. *)
Definition opposed (a : asg) (e : nat * bool) : bool :=
  match val a (fst e) with Some x => eqb x (negb (snd e)) | None => false end.
Definition check_best (a : asg) (n : nat) (b : best) : best :=
  if existsb (fun e => opposed a e && (lev a (fst e) =? 0)) (b_ph b) then mkBest (b_new b) n [] else b.

(** assign/select.rs:118-128 [check_consistency_of_best_phases] *)
Definition check_consistency (a : asg) (b : best) : best :=
  if existsb (opposed a) (b_ph b) then mkBest (b_new b) (nas a + nel a) [] else b.
(** assign/select.rs:113-116: the phases of the variables of the map *)
Definition rephased (f : nat -> bool) (l : list (nat * bool)) : nat -> bool :=
  fold_left (fun g e => upd g (fst e) (snd e)) l f.
(** assign/select.rs:98-117 [select_rephasing_target]; the subtraction of [NumUnassertedVar] does not
    underflow (C57) *)
Definition rephase (a : asg) (b : best) : asg * best :=
  match b_ph b with
  | [] => (a, b)
  | _ =>
    let b1 := check_consistency a b in
    if nv a - nas a - nel a <=? length (b_ph b1) then (a, mkBest (b_new b1) (b_num b1) [])
    else (set_phases a (rephased (pha a) (b_ph b1)), b1)
  end.

(** the choices of an iteration, and the counters that [check_best] needs in the operations that change
    them: [clear_asserted_literals], [vivify], [simplify]; cut to what the counters are after the operation *)
Record rheur := mkR { r_h : heur; r_n1 : nat; r_n2 : nat; r_n3 : nat }.
Definition at_most (a : asg) (n : nat) : nat := Nat.min n (nas a + nel a).

(** search.rs:254-400, as [after_conflict] of SolveModel.v *)
Definition r_after_conflict (cf : config) (h : rheur) (ended : bool) (next : option bool) (a : asg) (d : cdb) (b : best)
  : asg * cdb * option sres * best :=
  if ended then
    match h_time (r_h h) with
    | None => (a, d, Some (SErr XUndescribed), b)
    | Some true => (a, d, Some (SErr (XSolver TimeOut)), b)
    | Some false =>
      let '(a1, b1) := rephase (cancel_until a 0) (save a 0 b) in
      match clear_asserted_literals a1 d with
      | (a2, d2, Some e) => (a2, d2, Some (SErr (XSolver e)), b1)
      | (a2, d2, None) =>
        let b2 := check_best a2 (at_most a2 (r_n1 h)) b1 in
        let d3 := reduce (lev a2) (h_cand (r_h h)) (h_order (r_h h)) (h_keep (r_h h)) d2 in
        match next with
        | None => (asg_stage a2, d3, None, b2)
        | Some segment =>
          let '(a3, b3) := rephase a2 b2 in
          match vivify (h_targets (r_h h)) a3 d3 with
          | (a4, d4, Some e) => (a4, d4, Some (SErr (XSolver e)), b3)
          | (a4, d4, None) =>
            let b4 := check_best a4 (at_most a4 (r_n2 h)) b3 in
            if segment then
              match inprocess cf (h_steps (r_h h)) a4 d4 with
              | (a5, d5, None) => (asg_stage a5, d5, None, check_best a5 (at_most a5 (r_n3 h)) b4)
              | r => (r, b4)
              end
            else (asg_stage a4, d4, None, b4)
          end
        end
      end
    end
  else if h_restart (r_h h) then (cancel_until a 0, d, None, save a 0 b)
  else (a, d, None, b).

(** search.rs:223-422 [search]. [handle_conflict] backtracks once, so the trail that is saved is that of
    the conflict (conflict.rs:77 does nothing, 188-206; assign/propagate.rs:110-111 for a learnt unit clause). *)
Fixpoint r_search (cf : config) (hs : list rheur) (sm : stage_manager) (n : nat) (a : asg) (d : cdb) (b : best)
  : asg * cdb * sres * best :=
  if (0 <? unassigned_left a) || remains a then
    match hs with
    | [] => (a, d, SMore, b)
    | h :: t =>
      match (if remains a then Some a
             else match select_decision_literal (branch_fuel a) a with
                  | Some (b, l) => Some (assign_by_decision b l)
                  | None => None
                  end) with
      | None => (a, d, SPanic, b)
      | Some a1 =>
        match propagate (h_skip (r_h h)) a1 d with
        | (a2, d2, POk) => r_search cf t sm n a2 d2 (track a2 (check_best a2 (nas a2 + nel a2) b))
        | (a2, d2, PPanic) => (a2, d2, SPanic, b)
        | (a2, d2, PErr l r) =>
          let b2 := check_best a2 (nas a2 + nel a2) b in
          if dlevel a2 =? 0 then (a2, d2, SErr (XSolver RootLevelConflict), b2)
          else
            match handle_conflict (h_deepen (r_h h)) a2 d2 l r with
            | (a3, d3, HPanic) => (a3, d3, SPanic, b2)
            | (a3, d3, HErr e) => (a3, d3, SErr (XSolver e), b2)
            | (a3, d3, HOk rk) =>
              let b3 := check_best a3 (nas a3 + nel a3) (save a2 (dlevel a3) b2) in
              let n1 := if 1 <? rk then S n else n in
              let ended := stage_ended sm n1 in
              match r_after_conflict cf h ended (fst (next_stage sm n1)) a3 d3 b3 with
              | (a4, d4, None, b4) => r_search cf t (if ended then snd (next_stage sm n1) else sm) n1 a4 d4 b4
              | (a4, d4, Some r, b4) => (a4, d4, r, b4)
              end
            end
        end
      end
    end
  else (a, d, SSat, b).

(** search.rs:130-219: the backtracking at the end of a run *)
Definition finish_best (s : asg * cdb * sres) (b : best) : best :=
  match s with
  | (a, _, SSat) | (a, _, SErr _) => save a 0 b
  | _ => b
  end.
(** search.rs:47-219 [solve], as in SolveModel.v; before the search no assignment is tracked, because
    [propagate_sandbox] does not (propagate.rs:564-572), and nothing is saved. *)
Definition r_solve (cf : config) (p : prep) (hs : list rheur) (a : asg) (d : cdb) : asg * cdb * answer * best :=
  if negb (check_size cf d) then (a, d, Err XMemory, best_new)
  else
    match vivify (p_targets p) a d with
    | (a1, d1, Some Fuel) => (a1, d1, Panic, best_new)
    | (a1, d1, Some _) => (a1, d1, UNSAT, best_new)
    | (a1, d1, None) =>
      let '(a2, d2, r2) := propagate_sandbox a1 d1 in
      match root_error r2 with
      | Some e => (a2, d2, elim_failed cf d2 e, best_new)
      | None =>
        if negb (check_size cf d2) then (a2, d2, Err XMemory, best_new)
        else if (cf_elim cf && prepare_oob cf a2 d2) || stats_oob cf a2 then (a2, d2, OutOfBounds, best_new)
        else
          let '(d3, o3) := if cf_elim cf then prepare (cf_evo cf) a2 d2 occ_new else (d2, occ_new) in
          match assert_pure (seq 1 (nv a2)) a2 d3 o3 with
          | (a4, d4, false) => (a4, d4, UNSAT, best_new)
          | (a4, d4, true) =>
            let '((a5, d5, o5), r5) := simplify_running cf (p_steps p) (a4, d4, o3) in
            match r5 with
            | Some e => (a5, d5, elim_failed cf d5 e, best_new)
            | None =>
              if negb (check_size cf d5) then (a5, d5, Err XMemory, best_new)
              else
                let a6 := asg_rebuild_order (set_phases a5 (p_pha p)) in
                let '(s, b) := r_search cf hs (stage_initialize (p_stm p) 32) 0 (set_estk a6 (estk a6 ++ olits o5)) d5 best_new in
                (finish s, finish_best s b)
            end
          end
      end
    end.

(** assign/mod.rs:243 [NumUnreachableVar], and assign/stack.rs:272-274 [best_assigned]; [None] is a subtraction that
    underflows *)
Definition unreachable_vars (a : asg) (b : best) : option nat :=
  if b_num b <=? nv a then Some (nv a - b_num b) else None.
