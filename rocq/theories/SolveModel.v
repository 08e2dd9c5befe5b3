(** Model of solver/search.rs: [solve] and [search]; and of [Certificate::try_from]
    (solver/mod.rs:103-118).

    - Everything the search decides by statistics, activities, elapsed time or randomness
      is an input: one record [heur] for each iteration of the search loop, one record
      [prep] for the preprocessing. The theorems hold for all of them.
    - Statistics, progress output and logging are not modelled.
    - The search loop consumes one [heur] per iteration; when the list is exhausted the
      result is [Running]: the program has not answered yet.
    - [Panic] is a Rust panic. [OutOfBounds] is an access past the end of one of the
      eliminator's tables, which are made for the CNF description (simplify.rs:189-200): the
      queue of variables (indexing panics) or the table of occurrences (one entry longer;
      read without a bound check, lines 38-61). *)
From Coq Require Import List Arith Bool ZArith.
From Verif Require Import Base HeapModel AsgModel CdbModel PropModel ConflictModel ElimModel VivifyModel LubyModel LitModel BuildModel.
Import ListNotations.
Open Scope nat_scope.

(** the fields of the configuration that matter (config.rs), and the number of variables
    of the CNF description the solver was created with ([state.cnf]) *)
Record config := mkConfig {
  cf_elim : bool;        (* enable_eliminator *)
  cf_limit : nat;        (* c_cls_lim, the soft limit of the number of clauses; 0 = none *)
  cf_evo : nat;          (* elm_var_occ *)
  cf_nv : nat            (* state.cnf.num_of_variables *)
}.

(** the choices made in one iteration of the loop of [search] *)
Record heur := mkHeur {
  h_skip : nat -> nat -> bool;      (* reuse_saved_trail: the rank test *)
  h_deepen : list lit -> bool;      (* handle_conflict: the BT_deepen test *)
  h_time : option bool;             (* state.elapsed: is the time over? *)
  h_pha1 : nat -> bool;             (* the phases after select_rephasing_target *)
  h_cand : nat -> bool;             (* reduce: candidates, order, number to keep *)
  h_order : list nat -> list nat;
  h_keep : nat -> nat;
  h_pha2 : nat -> bool;             (* the phases after the second select_rephasing_target *)
  h_targets : list nat;             (* vivify: the clauses to try, in order *)
  h_steps : list estep;             (* the steps of the eliminator *)
  h_restart : bool                  (* the LBD trend test *)
}.
(** the choices made before the search, and the stage manager that the earlier runs of the
    solver left behind *)
Record prep := mkPrep { p_targets : list nat; p_steps : list estep; p_pha : nat -> bool; p_stm : stage_manager }.

(** types/mod.rs:110-129: the errors that [solve] returns *)
Inductive serr := XSolver (e : serror) | XMemory | XUndescribed.
Inductive sres := SSat | SErr (e : serr) | SPanic | SOob | SMore.
Inductive answer := SAT (vals : list Z) | UNSAT | Err (e : serr) | Panic | OutOfBounds | Running.

(** db.rs:1141-1148 [check_size].is_ok() *)
Definition check_size (cf : config) (d : cdb) : bool := (cf_limit cf =? 0) || (n_cl d <=? cf_limit cf).

(** variable [v] occurs in a live clause *)
Definition occurs (d : cdb) (v : nat) : bool :=
  existsb (fun c => existsb (fun l => vi l =? v) (lits (cl d c))) (seq 1 (ncl d - 1)).
(** simplify.rs:222-249 [prepare] enqueues every variable of a live clause, and every
    variable without value that is not eliminated; heap.rs:81-100 [insert] indexes its table *)
Definition prepare_oob (cf : config) (a : asg) (d : cdb) : bool :=
  existsb (fun v => (cf_nv cf <? v) && (free_var a v || occurs d v)) (seq 1 (nv a)).
(** search.rs:94-98: [elim.stats(vi)] for every variable without value; the table has an
    entry more than the queue (heap.rs:27-33) *)
Definition stats_oob (cf : config) (a : asg) : bool :=
  existsb (fun v => (cf_nv cf + 1 <? v) && match val a v with None => true | Some _ => false end) (seq 1 (nv a)).

(** simplify.rs:260-306 [simplify] of a Running eliminator; a disabled one propagates *)
Definition simplify_running (cf : config) (ss : list estep) (st : estate) : eresult :=
  if cf_elim cf then elim_simplify (cf_evo cf) ss st
  else let '(a, d, o) := st in
       let '(a1, d1, r) := propagate_sandbox a d in ((a1, d1, o), root_error r).
(** the outcome of [simplify], with the final [check_size] (line 301) *)
Definition simplify_outcome (cf : config) (d : cdb) (r : option serror) : option sres :=
  match r with
  | Some Fuel => Some SPanic
  | Some e => Some (SErr (XSolver e))
  | None => if check_size cf d then None else Some (SErr XMemory)
  end.

(** search.rs:351-368: a fresh eliminator is run between two segments *)
Definition inprocess (cf : config) (ss : list estep) (a : asg) (d : cdb) : asg * cdb * option sres :=
  if cf_elim cf then
    if prepare_oob cf a d then (a, d, Some SOob)
    else let '((a1, d1, o1), r) := elim_prepare_simplify (cf_evo cf) ss (a, d, occ_new) in
         match simplify_outcome cf d1 r with
         | None => (set_estk a1 (estk a1 ++ olits o1), d1, None)
         | x => (a1, d1, x)
         end
  else let '(a1, d1, r) := propagate_sandbox a d in (a1, d1, simplify_outcome cf d1 (root_error r)).

(** search.rs:270-271: [stm.prepare_new_stage]. Its Luby iterator never runs out of fuel
    (luby_next_correct), so the last line is never used. *)
Definition next_stage (sm : stage_manager) (n : nat) : option bool * stage_manager :=
  match prepare_new_stage sm n with Some x => x | None => (None, sm) end.

(** search.rs:254-400: what follows a conflict in the loop; [ended] is the value of
    [stm.stage_ended], [next] that of [stm.prepare_new_stage] *)
Definition after_conflict (cf : config) (h : heur) (ended : bool) (next : option bool) (a : asg) (d : cdb)
  : asg * cdb * option sres :=
  if ended then
    match h_time h with
    | None => (a, d, Some (SErr XUndescribed))
    | Some true => (a, d, Some (SErr (XSolver TimeOut)))
    | Some false =>
      match clear_asserted_literals (set_phases (cancel_until a 0) (h_pha1 h)) d with
      | (a2, d2, Some e) => (a2, d2, Some (SErr (XSolver e)))
      | (a2, d2, None) =>
        let d3 := reduce (lev a2) (h_cand h) (h_order h) (h_keep h) d2 in
        match next with
        | None => (asg_stage a2, d3, None)
        | Some segment =>
          match vivify (h_targets h) (set_phases a2 (h_pha2 h)) d3 with
          | (a4, d4, Some e) => (a4, d4, Some (SErr (XSolver e)))
          | (a4, d4, None) =>
            if segment then
              match inprocess cf (h_steps h) a4 d4 with
              | (a5, d5, None) => (asg_stage a5, d5, None)
              | r => r
              end
            else (asg_stage a4, d4, None)
          end
        end
      end
    end
  else if h_restart h then (cancel_until a 0, d, None)
  else (a, d, None).

(** search.rs:223-422 [search]: [sm] is the stage manager [state.stm], [n] is [num_learnt] *)
Fixpoint search (cf : config) (hs : list heur) (sm : stage_manager) (n : nat) (a : asg) (d : cdb) : asg * cdb * sres :=
  if (0 <? unassigned_left a) || remains a then
    match hs with
    | [] => (a, d, SMore)
    | h :: t =>
      match (if remains a then Some a
             else match select_decision_literal (branch_fuel a) a with
                  | Some (b, l) => Some (assign_by_decision b l)
                  | None => None
                  end) with
      | None => (a, d, SPanic)
      | Some a1 =>
        match propagate (h_skip h) a1 d with
        | (a2, d2, POk) => search cf t sm n a2 d2
        | (a2, d2, PPanic) => (a2, d2, SPanic)
        | (a2, d2, PErr l r) =>
          if dlevel a2 =? 0 then (a2, d2, SErr (XSolver RootLevelConflict))
          else
            match handle_conflict (h_deepen h) a2 d2 l r with
            | (a3, d3, HPanic) => (a3, d3, SPanic)
            | (a3, d3, HErr e) => (a3, d3, SErr (XSolver e))
            | (a3, d3, HOk rk) =>
              let n1 := if 1 <? rk then S n else n in
              let ended := stage_ended sm n1 in
              match after_conflict cf h ended (fst (next_stage sm n1)) a3 d3 with
              | (a4, d4, None) => search cf t (if ended then snd (next_stage sm n1) else sm) n1 a4 d4
              | (a4, d4, Some r) => (a4, d4, r)
              end
            end
        end
      end
    end
  else (a, d, SSat).

(** search.rs:190-195: the signed variables; [None] = [unwrap] of a variable without value *)
Fixpoint answer_vals (m : pmodel) (vs : list nat) : option (list Z) :=
  match vs with
  | [] => Some []
  | v :: t => match m v, answer_vals m t with
              | Some b, Some r => Some (i32_of_lit (lit_of_var (Z.of_nat v) b) :: r)
              | _, _ => None
              end
  end.

(** search.rs:166-218: from the result of the search to the answer *)
Definition finish (s : asg * cdb * sres) : asg * cdb * answer :=
  match s with
  | (a, d, SSat) =>
    let m := extend_model (estk a) (val a) in
    match validate d m false with
    | Some _ => (a, d, Err (XSolver SolverBug))
    | None => match answer_vals m (seq 1 (nv a)) with
              | None => (a, d, Panic)
              | Some vs => (cancel_until (set_eli a (fun _ => false)) 0, d, SAT vs)
              end
    end
  | (a, d, SErr (XSolver EmptyClause)) => (cancel_until a 0, d, UNSAT)
  | (a, d, SErr (XSolver RootLevelConflict)) => (cancel_until a 0, d, UNSAT)
  | (a, d, SErr e) => (cancel_until a 0, d, Err e)
  | (a, d, SPanic) => (a, d, Panic)
  | (a, d, SOob) => (a, d, OutOfBounds)
  | (a, d, SMore) => (a, d, Running)
  end.

(** search.rs:72-78, 126-134: an error of the eliminator *)
Definition elim_failed (cf : config) (d : cdb) (e : serror) : answer :=
  match e with
  | Fuel => Panic
  | _ => if check_size cf d then UNSAT else Err XMemory
  end.

(** search.rs:47-219 [solve]. [simplify(true)] of the fresh (Dormant) eliminator, line
    72, only propagates (simplify.rs:510-546, 260-306). *)
Definition solve (cf : config) (p : prep) (hs : list heur) (a : asg) (d : cdb) : asg * cdb * answer :=
  if negb (check_size cf d) then (a, d, Err XMemory)
  else
    match vivify (p_targets p) a d with
    | (a1, d1, Some Fuel) => (a1, d1, Panic)
    | (a1, d1, Some _) => (a1, d1, UNSAT)
    | (a1, d1, None) =>
      let '(a2, d2, r2) := propagate_sandbox a1 d1 in
      match root_error r2 with
      | Some e => (a2, d2, elim_failed cf d2 e)
      | None =>
        if negb (check_size cf d2) then (a2, d2, Err XMemory)
        else if (cf_elim cf && prepare_oob cf a2 d2) || stats_oob cf a2 then (a2, d2, OutOfBounds)
        else
          let '(d3, o3) := if cf_elim cf then prepare (cf_evo cf) a2 d2 occ_new else (d2, occ_new) in
          match assert_pure (seq 1 (nv a2)) a2 d3 o3 with
          | (a4, d4, false) => (a4, d4, UNSAT)
          | (a4, d4, true) =>
            let '((a5, d5, o5), r5) := simplify_running cf (p_steps p) (a4, d4, o3) in
            match r5 with
            | Some e => (a5, d5, elim_failed cf d5 e)
            | None =>
              if negb (check_size cf d5) then (a5, d5, Err XMemory)
              else
                let a6 := asg_rebuild_order (set_phases a5 (p_pha p)) in
                finish (search cf hs (stage_initialize (p_stm p) 32) 0 (set_estk a6 (estk a6 ++ olits o5)) d5)
            end
          end
      end
    end.

(** solver/mod.rs:103-118 [Certificate::try_from(vec)]; the solver is created for the
    variables of the vector *)
Definition certificate (cf : config) (p : prep) (hs : list heur) (oracle : nat -> nat -> nat -> bool)
  (cs : list (list Z)) : answer :=
  match solver_try_from oracle cs with
  | BOk a d => snd (solve cf p hs a d)
  | BErr EmptyClause => UNSAT
  | BErr e => Err (XSolver e)
  | BUnsat => UNSAT
  | BPanic => Panic
  end.
