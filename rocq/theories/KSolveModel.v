(** [solve] and [search] with the eliminator of QueueModel.v, which chooses its own steps
    (solver/search.rs, solver/mod.rs). The rest is as in SolveModel.v; the field [h_steps] of
    [heur] and the field [p_steps] of [prep] are not used here. *)
From Coq Require Import List Arith Bool ZArith.
From Verif Require Import Base HeapModel AsgModel CdbModel PropModel ConflictModel ElimModel VivifyModel LubyModel LitModel BuildModel SolveModel QueueModel.
Import ListNotations.
Open Scope nat_scope.

(** the inputs of one run of the eliminator: its limits and estimates (floating point numbers), the
    wall clock, and the ENQUEUED flags that earlier eliminators left on the variables and
    on the clauses *)
Record kin := mkKin { i_lim : klim; i_clock : list bool; i_venq : nat -> bool; i_cenq : nat -> bool }.
(** simplify.rs:189-200 [instantiate]: the occurrence limit is that of the configuration *)
Definition kin_lim (cf : config) (i : kin) : klim :=
  mkKlim (cf_evo cf) (k_occ (i_lim i)) (k_sub (i_lim i)) (k_skip (i_lim i)) (k_budget (i_lim i)).
Definition kin_queues (cf : config) (i : kin) : queues := queues_new (cf_nv cf) (i_venq i) (i_cenq i).

(** search.rs:94-120: the pure literals are asserted, and the variables enqueued *)
Fixpoint k_assert_pure (k : klim) (vs : list nat) (a : asg) (d : cdb) (o : occ) (q : queues) : asg * cdb * queues * bool :=
  match vs with
  | [] => (a, d, q, true)
  | v :: t =>
    match val a v, stats o v with
    | None, Some (p, m) =>
      let '(a1, d1, ok) :=
        if m =? 0 then let '(x, ok) := assign_at_root_level a (mklit v true) in (x, log_assert d (mklit v true), ok)
        else if p =? 0 then let '(x, ok) := assign_at_root_level a (mklit v false) in (x, log_assert d (mklit v false), ok)
        else (a, d, true) in
      if ok then k_assert_pure k t (set_pha a1 (upd (pha a1) v (m <? p))) d1 o (q_enqueue_var k o q v false) else (a1, d1, q, false)
    | _, _ => k_assert_pure k t a d o q
    end
  end.

(** search.rs:351-368: a fresh eliminator between two segments *)
Definition k_inprocess (cf : config) (i : kin) (a : asg) (d : cdb) : asg * cdb * option sres :=
  if cf_elim cf then
    if prepare_oob cf a d then (a, d, Some SOob)
    else let '((a1, d1, o1), r) := q_prepare_simplify (kin_lim cf i) (i_clock i) (a, d, occ_new) (kin_queues cf i) in
         match simplify_outcome cf d1 r with
         | None => (set_estk a1 (estk a1 ++ olits o1), d1, None)
         | x => (a1, d1, x)
         end
  else let '(a1, d1, r) := propagate_sandbox a d in (a1, d1, simplify_outcome cf d1 (root_error r)).

(** search.rs:254-400: what follows a conflict, as [after_conflict] of SolveModel.v *)
Definition k_after_conflict (cf : config) (h : heur) (i : kin) (ended : bool) (next : option bool) (a : asg) (d : cdb)
  : asg * cdb * option sres :=
  if ended then
    match h_time h with
    | None => (a, d, Some (SErr XUndescribed))
    | Some true => (a, d, Some (SErr (XSolver TimeOut)))
    | Some false =>
      match clear_asserted_literals (set_phases (cancel_until a 0) (h_pha1 h)) d with
      | (a2, d2, Some e) => (a2, d2, Some (SErr (XSolver e)))
      | (a2, d2, None) =>
        let d3 := reduce (lev a2) (h_cand h) (h_order h) (h_keep h) d2 in
        match next with
        | None => (asg_stage a2, d3, None)
        | Some segment =>
          match vivify (h_targets h) (set_phases a2 (h_pha2 h)) d3 with
          | (a4, d4, Some e) => (a4, d4, Some (SErr (XSolver e)))
          | (a4, d4, None) =>
            if segment then
              match k_inprocess cf i a4 d4 with
              | (a5, d5, None) => (asg_stage a5, d5, None)
              | r => r
              end
            else (asg_stage a4, d4, None)
          end
        end
      end
    end
  else if h_restart h then (cancel_until a 0, d, None)
  else (a, d, None).

(** search.rs:223-422 [search] *)
Fixpoint k_search (cf : config) (hs : list (heur * kin)) (sm : stage_manager) (n : nat) (a : asg) (d : cdb) : asg * cdb * sres :=
  if (0 <? unassigned_left a) || remains a then
    match hs with
    | [] => (a, d, SMore)
    | (h, i) :: t =>
      match (if remains a then Some a
             else match select_decision_literal (branch_fuel a) a with
                  | Some (b, l) => Some (assign_by_decision b l)
                  | None => None
                  end) with
      | None => (a, d, SPanic)
      | Some a1 =>
        match propagate (h_skip h) a1 d with
        | (a2, d2, POk) => k_search cf t sm n a2 d2
        | (a2, d2, PPanic) => (a2, d2, SPanic)
        | (a2, d2, PErr l r) =>
          if dlevel a2 =? 0 then (a2, d2, SErr (XSolver RootLevelConflict))
          else
            match handle_conflict (h_deepen h) a2 d2 l r with
            | (a3, d3, HPanic) => (a3, d3, SPanic)
            | (a3, d3, HErr e) => (a3, d3, SErr (XSolver e))
            | (a3, d3, HOk rk) =>
              let n1 := if 1 <? rk then S n else n in
              let ended := stage_ended sm n1 in
              match k_after_conflict cf h i ended (fst (next_stage sm n1)) a3 d3 with
              | (a4, d4, None) => k_search cf t (if ended then snd (next_stage sm n1) else sm) n1 a4 d4
              | (a4, d4, Some r) => (a4, d4, r)
              end
            end
        end
      end
    end
  else (a, d, SSat).

(** search.rs:47-219 [solve] *)
Definition k_solve (cf : config) (p : prep) (i : kin) (hs : list (heur * kin)) (a : asg) (d : cdb) : asg * cdb * answer :=
  if negb (check_size cf d) then (a, d, Err XMemory)
  else
    match vivify (p_targets p) a d with
    | (a1, d1, Some Fuel) => (a1, d1, Panic)
    | (a1, d1, Some _) => (a1, d1, UNSAT)
    | (a1, d1, None) =>
      let '(a2, d2, r2) := propagate_sandbox a1 d1 in
      match root_error r2 with
      | Some e => (a2, d2, elim_failed cf d2 e)
      | None =>
        if negb (check_size cf d2) then (a2, d2, Err XMemory)
        else if (cf_elim cf && prepare_oob cf a2 d2) || stats_oob cf a2 then (a2, d2, OutOfBounds)
        else
          let '(d3, o3, q3) := if cf_elim cf then q_prepare (kin_lim cf i) a2 d2 occ_new (kin_queues cf i)
                               else (d2, occ_new, kin_queues cf i) in
          match k_assert_pure (kin_lim cf i) (seq 1 (nv a2)) a2 d3 o3 q3 with
          | (a4, d4, q4, false) => (a4, d4, UNSAT)
          | (a4, d4, q4, true) =>
            let '((a5, d5, o5), r5) :=
              if cf_elim cf then q_simplify (kin_lim cf i) (i_clock i) (a4, d4, o3) q4
              else let '(a5, d5, r) := propagate_sandbox a4 d4 in ((a5, d5, o3), root_error r) in
            match r5 with
            | Some e => (a5, d5, elim_failed cf d5 e)
            | None =>
              if negb (check_size cf d5) then (a5, d5, Err XMemory)
              else
                let a6 := asg_rebuild_order (set_phases a5 (p_pha p)) in
                finish (k_search cf hs (stage_initialize (p_stm p) 32) 0 (set_estk a6 (estk a6 ++ olits o5)) d5)
            end
          end
      end
    end.

(** solver/mod.rs:103-118 [Certificate::try_from(vec)] *)
Definition k_certificate (cf : config) (p : prep) (i : kin) (hs : list (heur * kin)) (oracle : nat -> nat -> nat -> bool)
  (cs : list (list Z)) : answer :=
  match solver_try_from oracle cs with
  | BOk a d => snd (k_solve cf p i hs a d)
  | BErr EmptyClause => UNSAT
  | BErr e => Err (XSolver e)
  | BUnsat => UNSAT
  | BPanic => Panic
  end.
