{
 "claims": [
  {
   "property": "C01",
   "status": "proved",
   "theorems": [
    "C01_solve",
    "C01_certificate"
   ],
   "note": "Every vector, every file (announced variables, one clause per line, literals in range) and every session of add_clause/add_assignment/add_var before the first solve, every schedule of heuristic choices, any prefix of the run; fewer than 2^16 variables, or no clause with 2^16 literals in the log of the run (narrow, C45; C02_wide_example has 70000 variables) and enable_eliminator (C02_eliminator_off_refuted shows why). After add_var an answer is still right, but there may be none: see C46."
  },
  {
   "property": "C02",
   "status": "proved",
   "theorems": [
    "C02_solve",
    "C02_certificate",
    "C02_eliminator_off_refuted"
   ],
   "note": "Same quantification as C01."
  },
  {
   "property": "C03",
   "status": "proved",
   "theorems": [
    "C03_solve",
    "C03_certificate"
   ],
   "note": "Same quantification as C01."
  },
  {
   "property": "C04",
   "status": "proved",
   "theorems": [
    "C04_classification"
   ],
   "note": "Every vector of i32 clauses except those containing i32::MIN (whose abs overflows)."
  },
  {
   "property": "C05",
   "status": "proved",
   "theorems": [
    "C05_add_clause"
   ],
   "note": "Over every history of new, add_var, add_clause and add_assignment calls."
  },
  {
   "property": "C06",
   "status": "proved",
   "theorems": [
    "C06_invalid_literal"
   ],
   "note": ""
  },
  {
   "property": "C07",
   "status": "proved",
   "theorems": [
    "C07_add_assignment"
   ],
   "note": "Over the same histories as C05."
  },
  {
   "property": "C08",
   "status": "proved",
   "theorems": [
    "C08_lit_roundtrip",
    "C08_lit_injective",
    "C08_lit_operations",
    "C08_lit_surjective",
    "C08_lit_order",
    "C08_lit_checked",
    "C08_lit_excluded"
   ],
   "note": ""
  },
  {
   "property": "C09",
   "status": "proved",
   "theorems": [
    "C09_lift_roundtrip",
    "C09_lift_disjoint",
    "C09_lift_out_of_range"
   ],
   "note": ""
  },
  {
   "property": "C10",
   "status": "partial",
   "theorems": [
    "C10_add_clause_roundtrip",
    "C10_from_vec_roundtrip_partial",
    "C10_from_vec_units",
    "C10_from_vec_refusal",
    "C10_after_zero_ignored",
    "C10_units_lost_refuted",
    "C10_empty_refuted"
   ],
   "note": "Exact for CNFs built by add_clause; same models for from_vec_i32 without units; refuted for unit clauses in from_vec_i32 and for the CNF without clauses."
  },
  {
   "property": "C11",
   "status": "partial",
   "theorems": [
    "C11_file_is_vector",
    "C11_text_is_vector",
    "C11_out_of_range_refuted",
    "C11_satlib_trailer_refuted"
   ],
   "note": "Equivalence proved for in-range literals; the InvalidLiteral promise for out-of-range literals is refuted (panic), and the SATLIB trailer is read as an empty clause (refuted)."
  },
  {
   "property": "C12",
   "status": "proved",
   "theorems": [
    "C12_propagate_sound",
    "C12_sandbox_sound"
   ],
   "note": "Over every history of the search engine (clause additions and removals, assertions, decisions, propagations, backtracks, conflict handling, reductions, root simplification, elimination flags); clauses shorter than 2^16 literals."
  },
  {
   "property": "C13",
   "status": "proved",
   "theorems": [
    "C13_propagate_complete",
    "C13_sandbox_complete"
   ],
   "note": "Same histories as C12."
  },
  {
   "property": "C14",
   "status": "proved",
   "theorems": [
    "C14_conflict_real",
    "C14_sandbox_conflict_real"
   ],
   "note": "Same histories as C12; the outcome is never a panic."
  },
  {
   "property": "C15",
   "status": "proved",
   "theorems": [
    "C15_backtrack_exact",
    "C15_backtrack_noop",
    "C15_reinitialize",
    "C15_stage"
   ],
   "note": ""
  },
  {
   "property": "C16",
   "status": "proved",
   "theorems": [
    "C16_coherent"
   ],
   "note": ""
  },
  {
   "property": "C17",
   "status": "proved",
   "theorems": [
    "C17_learnt_entailed"
   ],
   "note": "Same histories as C12; the database is its live clauses and root-level units."
  },
  {
   "property": "C18",
   "status": "proved",
   "theorems": [
    "C18_learnt_shape",
    "C18_unit_after_backjump",
    "C18_progress"
   ],
   "note": "Shape at conflict time, unit after the backjump, and the state left by handle_conflict including the BT_deepen variant."
  },
  {
   "property": "C19",
   "status": "proved",
   "theorems": [
    "C19_terminates",
    "C19_flags_cleared",
    "C19_conflict_resolved"
   ],
   "note": "Analysis answers, flags are cleared, and handle_conflict neither panics nor fails above level 0 (fewer than 2^16 variables)."
  },
  {
   "property": "C20",
   "status": "proved",
   "theorems": [
    "C20_rank_is_lbd",
    "C20_rank_of_new_clause",
    "C20_refresh_all"
   ],
   "note": ""
  },
  {
   "property": "C21",
   "status": "proved",
   "theorems": [
    "C21_watches_exact"
   ],
   "note": "Quantifies over every history of new_clause, remove_clause (and sandboxed versions), simplification, strengthening, reduction and watch moves with arbitrary arguments obeying the stated calling conventions."
  },
  {
   "property": "C22",
   "status": "partial",
   "theorems": [
    "C22_counters_exact",
    "C22_bi_learnt_counter_refuted",
    "C22_before",
    "C22_during",
    "C22_after_sat",
    "C22_learnt_counter_refuted"
   ],
   "note": "Clauses, binary clauses, learnt clauses exact over histories of the database without sandboxed operations; over whole runs (loading, every iteration, time-out, SAT) clauses and binary clauses exact and learnt clauses never under-counted. Two counters are refuted: binary learnt clauses are never decremented, and try_subsume clears LEARNT without decrementing the number of learnt clauses (C22_learnt_counter_refuted: one clause too many, and one permanent clause too few is reported)."
  },
  {
   "property": "C23",
   "status": "proved",
   "theorems": [
    "C23_new_clause_fresh",
    "C23_remove_exact"
   ],
   "note": ""
  },
  {
   "property": "C24",
   "status": "proved",
   "theorems": [
    "C24_models_preserved",
    "C24_answers"
   ],
   "note": ""
  },
  {
   "property": "C25",
   "status": "proved",
   "theorems": [
    "C25_subsumption",
    "C25_strengthening"
   ],
   "note": "Over every state reached by the search engine at level 0, after prepare and any sequence of eliminator steps (any order, any candidates): covers every queue and heuristic order."
  },
  {
   "property": "C26",
   "status": "proved",
   "theorems": [
    "C26_merge_is_resolvent",
    "C26_resolvent_entailed",
    "C26_resolvent_sufficient",
    "C26_elimination",
    "C26_run_equisatisfiable"
   ],
   "note": "Same states as C25; the resolvent, one elimination (exact projection) and a whole run."
  },
  {
   "property": "C27",
   "status": "proved",
   "theorems": [
    "C27_extend_model"
   ],
   "note": "Any number of eliminator runs between which nothing else happens; learnt clauses must follow from the irredundant ones in the start state (the solver invariant; see C01 for the whole solve)."
  },
  {
   "property": "C28",
   "status": "proved",
   "theorems": [
    "C28_target",
    "C28_vivify",
    "C28_no_panic"
   ],
   "note": "Vivification of any list of target clauses (the selection and its order are left open, which covers every value the heuristics can compute), started at the root level in any state the solver reaches."
  },
  {
   "property": "C29",
   "status": "proved",
   "theorems": [
    "C29_no_reason_at_root",
    "C29_reduce_keeps_short",
    "C29_models_kept",
    "C29_reduce_only_learnt"
   ],
   "note": "reduce is only called at decision level 0, where no clause is a reason (C29_no_reason_at_root over every history)."
  },
  {
   "property": "C30",
   "status": "proved",
   "theorems": [
    "C30_strict_none",
    "C30_strict_report",
    "C30_lax"
   ],
   "note": ""
  },
  {
   "property": "C31",
   "status": "proved",
   "theorems": [
    "C31_proof_file",
    "C31_flush_independent",
    "C31_closed_file_is_final",
    "C31_empty_deletion_misread"
   ],
   "note": "Quantifies over every flush threshold; nonempty deletions only (an empty deletion would be misread, proved)."
  },
  {
   "property": "C32",
   "status": "proved",
   "theorems": [
    "C32_learnt_rup"
   ],
   "note": "Reverse unit propagation as an independent deductive closure (RupSpec.v)."
  },
  {
   "property": "C33",
   "status": "proved",
   "theorems": [
    "C33_luby_sequence",
    "C33_luby_spec_functional",
    "C33_luby_reset",
    "C33_no_panic",
    "C33_iterator_ends"
   ],
   "note": "On unbounded integers, and on 64-bit integers for the first 2^62 - 3 calls (C33_no_panic). The iterator of the series (not used by the solver) ends at the number 2^32 (C33_iterator_ends)."
  },
  {
   "property": "C34",
   "status": "partial",
   "theorems": [
    "C34_stage_ends_in_future",
    "C34_stage_cycles_and_segments",
    "C34_stage_reinitialised_refuted",
    "C34_search_schedule",
    "C34_later_search"
   ],
   "note": "Proved for the first solve of a solver, for the stage manager alone and for the counter of the main loop (C34_search_schedule: no end of a stage is jumped over); refuted for a re-initialised stage manager (second solve). C34_later_search (C69_Stages.v) says exactly which later searches are affected: those that begin when the Luby number in turn is not 1 and that count a conflict just after 32."
  },
  {
   "property": "C35",
   "status": "proved",
   "theorems": [
    "C35_ema_bounded",
    "C35_ema2_bounded",
    "C35_ema_converges",
    "C35_ema_value",
    "C35_ema2_value",
    "C35_ema2_trend_constant",
    "C35_emasu_value",
    "C35_ema_f64",
    "C35_emasu_f64",
    "C35_ema_f64_exact_refuted"
   ],
   "note": "Over exact numbers as stated; in binary64 (C35_ema_f64, C35_emasu_f64) the average stays finite and within twice the largest input, and the exact bound fails (C35_ema_f64_exact_refuted)."
  },
  {
   "property": "C36",
   "status": "partial",
   "theorems": [
    "C36_ewa_mean_zero_initial_partial",
    "C36_ewa2_mean_zero_initial_partial",
    "C36_ewa2_slow_value",
    "C36_ewa2_default_slow_value",
    "C36_ewa_full_window_offset",
    "C36_ewa_mean_refuted"
   ],
   "note": "Proved for initial value 0 (the only use in the solver); refuted for nonzero initial values, with the exact offset proved."
  },
  {
   "property": "C37",
   "status": "proved",
   "theorems": [
    "C37_no_candidate_lost",
    "C37_branching",
    "C37_membership",
    "C37_selection"
   ],
   "note": ""
  },
  {
   "property": "C38",
   "status": "partial",
   "theorems": [
    "C38_root_is_max_partial",
    "C38_refuted"
   ],
   "note": "Proved while nothing has been popped since the last rebuild; refuted in general (percolate_down ignores the last element)."
  },
  {
   "property": "C39",
   "status": "partial",
   "theorems": [
    "C39_queue_partial",
    "C39_flag_refuted",
    "C39_min_refuted"
   ],
   "note": "Container part proved for every history; the flag and the minimality claims are refuted by theorems."
  },
  {
   "property": "C40",
   "status": "partial",
   "theorems": [
    "C40_ordered_proxy_total_preorder_partial",
    "C40_numbers_by_value_nan_last",
    "C40_ordered_proxy_consistent_refuted"
   ],
   "note": "Total preorder proved; consistency with == refuted."
  },
  {
   "property": "C41",
   "status": "proved",
   "theorems": [
    "C41_replay_sound"
   ],
   "note": "Histories where the saved trail is not stale: the code clears or overwrites it before propagate."
  },
  {
   "property": "C42",
   "status": "proved",
   "theorems": [
    "C42_answer_file",
    "C42_unsat_file"
   ],
   "note": ""
  },
  {
   "property": "C43",
   "status": "proved",
   "theorems": [
    "C43_lookup_exact",
    "C43_pairs_independent"
   ],
   "note": ""
  },
  {
   "property": "C44",
   "status": "proved",
   "theorems": [
    "C44_delete_unstable"
   ],
   "note": ""
  },
  {
   "property": "C45",
   "status": "partial",
   "theorems": [
    "C45_scan_complete",
    "C45_u16_wrap_refuted"
   ],
   "note": "Proved for clauses shorter than 2^16 literals; refuted beyond: the 16-bit position wraps to 0 and the watched literals are scanned."
  },
  {
   "property": "C46",
   "status": "partial",
   "theorems": [
    "C46_solve_after_add_var_refuted",
    "C46_new_variable_not_candidate",
    "C46_candidate_after_rebuild",
    "C46_add_var_keeps",
    "C46_documented_use",
    "C46_free_variable_refuted",
    "C46_disabled",
    "C46_disabled_refuted"
   ],
   "note": "add_var keeps clauses and values, over every session (C46_add_var_keeps). In the documented use (every new variable fixed at once by add_assignment) solve stays within its tables and its answers are right (C46_documented_use). A new variable is not a decision candidate until the order is rebuilt (proved both ways), and after add_var alone solve never answers SAT: unless the clauses are found contradictory or too many first, it indexes the queue of the eliminator past its end (refuted, universally: C46_free_variable_refuted). With the eliminator disabled the first free variable is harmless and the second makes solve index past the end of a table (C46_disabled, C46_disabled_refuted)."
  },
  {
   "property": "C47",
   "status": "partial",
   "theorems": [
    "C47_pure_literal_refuted",
    "C47_again_refuted",
    "C47_eliminated_variable_refuted"
   ],
   "note": "Refuted by theorems: a pure literal stays asserted, so an allowed clause is rejected; the counter of eliminated variables is stale, so a second call panics, with or without additions. README says incremental mode is no longer supported in 0.18.0."
  },
  {
   "property": "C48",
   "status": "proved",
   "theorems": [
    "C48_solve",
    "C48_certificate"
   ],
   "note": "The panics represented are those the model has as outcomes (SolveModel: Panic, OutOfBounds): unwrap of a missing decision, reason or value, the explicit panics of propagate/conflict_analyze, fuel of every loop; slice indices of the unsafe_access build are covered by the invariants of C16/C21, integer overflow of statistics counters is not modelled. Err(SolverBug) is not excluded: see DESIGN.md."
  },
  {
   "property": "C49",
   "status": "proved",
   "theorems": [
    "C49_unsat_log_is_refutation",
    "C49_proof_file",
    "C49_refutation_sound",
    "C49_refused_assignment_refuted"
   ],
   "note": "From the problem to the bytes of the proof file (C49_proof_file uses the writer and reader of C31). Sessions as in C01 except that no add_assignment was refused: C49_refused_assignment_refuted shows that a refused one spoils the log. Tautologies of the problem are dropped first, as checkers do, and as in these checkers the deletion of a unit does not retract its literal (DratSpec)."
  },
  {
   "property": "C50",
   "status": "proved",
   "theorems": [
    "C50_solve_terminates",
    "C50_certificate_terminates"
   ],
   "note": "The bound counts iterations of the main loop of search. The loops inside one iteration are structural in the model or have fuel that is proved never to run out (C48), except the queues of the eliminator and the candidate list of the vivifier, which are finite lists given by the schedule; C52 has the queues and the budget of the eliminator. Fewer than 2^16 variables, or no stored clause with 2^16 literals."
  },
  {
   "property": "C51",
   "status": "partial",
   "theorems": [
    "C51_solve_decides_partial",
    "C51_solver_bug_refuted",
    "C51_memory",
    "C51_own_queues_partial"
   ],
   "note": "SAT with a model, UNSAT with no model, or Err(SolverBug); OutOfMemory exactly when the number of clauses exceeds the limit (C51_memory). Missing: that the solver never rejects its own assignment. After an eliminator run a clause may have two watches that are false at the root level (strengthening picks new watches without looking at values), such a clause is not visited again before the next root-level simplification, and then the final validation answers SolverBug. C51_solver_bug_refuted is such a run of solve with the faithful eliminator (elm_var_occ = 80) on a satisfiable problem: the missing case cannot be proved, it is false; tools/c51_default.py has the same with the default limits."
  },
  {
   "property": "C52",
   "status": "proved",
   "theorems": [
    "C52_eliminator_returns",
    "C52_answers",
    "C52_proof_log",
    "C52_solve_terminates",
    "C52_certificate"
   ],
   "note": "Sessions as in C01 without add_var (cf_nv is the number of variables). Floating point estimates (skip_var_elimination, the initial budget, the literal limit) and the clock are arbitrary inputs. Every loop of the model has explicit fuel, and the theorem is that it never runs out; the state is proved equal to that of some run of elementary operations (KSolveProofs.k_solve_eq), which carries over all other results."
  },
  {
   "property": "C53",
   "status": "proved",
   "theorems": [
    "C53_dmcr_valid",
    "C53_dmcr_accepts",
    "C53_dmcr_invalid",
    "C53_dmcr_unsat",
    "C53_dmcr_panic",
    "C53_dmcr_unsat_message_refuted",
    "C53_splr_sat",
    "C53_splr_unsat",
    "C53_splr_other",
    "C53_splr_ends",
    "C53_no_variable_refuted",
    "C53_satlib_refuted"
   ],
   "note": "Problem files with a header and one clause per line, literals in the announced range. splr with the real eliminator (C52); the schedule, the comment lines of the answer file and the flush interval are arbitrary. The time-out thread (exit code 0 at any moment), write errors are not modelled; C55 has the options. Refuted beside the claim: without a variable dmcr rejects the (empty) right answer; the message \"seems an unsat problem\" is printed for satisfiable problems; files with the SATLIB trailer are answered with exit code 20."
  },
  {
   "property": "C54",
   "status": "partial",
   "theorems": [
    "C54_dump_partial",
    "C54_dump_exact_partial",
    "C54_units_refuted",
    "C54_after_solve_refuted"
   ],
   "note": "The full statement is false of the code: len_upto(0) is 0 at the root level, so the unit clauses are never written (C54_units_refuted: the file of an unsatisfiable problem is satisfiable), and after solve the header announces clauses that are not there (C54_after_solve_refuted). Proved: the file is always written, well-formed, loadable, implied by the clauses given and equivalent to them together with the fixed variables; equivalent when every clause given has two different literals."
  },
  {
   "property": "C55",
   "status": "partial",
   "theorems": [
    "C55_run_partial",
    "C55_ends",
    "C55_one_reading",
    "C55_usage",
    "C55_crl_refuted",
    "C55_log_refuted",
    "C55_option_as_file_refuted",
    "C55_outputs",
    "C55_overwrite_refuted"
   ],
   "note": "Floating point values and their parser are parameters; arguments are byte strings. The full statement is false of the code: --crl is cut to 16 bits (C55_crl_refuted), the options -l/--log of the README panic (C55_log_refuted), an option in last position is taken for the problem file (C55_option_as_file_refuted), and -r may name the problem itself (C55_overwrite_refuted). Proved for every other command line, as an equivalence in both directions."
  },
  {
   "property": "C56",
   "status": "proved",
   "theorems": [
    "C56_usage",
    "C56_pair",
    "C56_assign",
    "C56_missing",
    "C56_unknown_option_refuted",
    "C56_directory_refuted"
   ],
   "note": "Paths name the same file if they have the same components (links are not modelled). Beside the claim: unknown options are silently ignored (C56_unknown_option_refuted); after splr -o d a plain dmcr looks elsewhere (C56_directory_refuted)."
  },
  {
   "property": "C57",
   "status": "proved",
   "theorems": [
    "C57_before",
    "C57_during",
    "C57_after_sat",
    "C57_after_sat_refuted"
   ],
   "note": "A run is looked at between two iterations by giving it a schedule with fewer choices than it has iterations (answer Running). Beside the claim: after an answer SAT the counter of eliminated variables is stale (C57_after_sat_refuted; exact if nothing was eliminated: C57_after_sat), which makes the next call of solve panic (C47_again_refuted)."
  },
  {
   "property": "C58",
   "status": "proved",
   "theorems": [
    "C58_equisatisfiable",
    "C58_learnt",
    "C58_extends",
    "C58_implied",
    "C58_again_refuted"
   ],
   "note": "Beside the claim: although the problem is still there after a time-out, calling solve again can panic (C58_again_refuted). The same is not claimed after OutOfMemory: the eliminated clauses of the failed call are dropped there (search.rs:351-368)."
  },
  {
   "property": "C59",
   "status": "proved",
   "theorems": [
    "C59_range",
    "C59_order",
    "C59_keeps_order",
    "C59_example",
    "C59_config_refuted"
   ],
   "note": "Operations of IEEE binary64 (Flocq). The claim fails if vrw_dcy_rat (--vdr, unchecked) is outside [0,1]: C59_config_refuted. powf(0.25) of the number of variables is assumed >= 1."
  },
  {
   "property": "C60",
   "status": "proved",
   "theorems": [
    "C60_window",
    "C60_long",
    "C60_trend",
    "C60_example"
   ],
   "note": "Operations of IEEE binary64 (Flocq)."
  },
  {
   "property": "C61",
   "status": "proved",
   "theorems": [
    "C61_only_candidates",
    "C61_worst_first",
    "C61_how_many",
    "C61_inactivity",
    "C61_example"
   ],
   "note": "Keys are IEEE binary64 (Flocq); activities in [0,1] is C59; clauses shorter than 2^52 literals. powf of the number of candidates is an arbitrary function. The sort is any stable sort (insertion sort in the model)."
  },
  {
   "property": "C62",
   "status": "proved",
   "theorems": [
    "C62_exact",
    "C62_below_one",
    "C62_below_one_elim",
    "C62_infinite",
    "C62_not_early",
    "C62_fraction_refuted",
    "C62_example"
   ],
   "note": "The fraction of a limit is dropped, so with -t 1.5 the solver may give up after 1 s (C62_fraction_refuted); with a limit below 1 s it gives up at the first test and the time test of the eliminator is never true (infinity - infinity, C62_below_one_elim). The conversions of std::time::Duration are modelled as documented. The test is only made at the end of a stage (search.rs:255): how long a stage takes is not bounded by the limit."
  },
  {
   "property": "C63",
   "status": "partial",
   "theorems": [
    "C63_ascii_partial",
    "C63_numbers",
    "C63_panics",
    "C63_name_refuted"
   ],
   "note": "False of the code: String::truncate panics inside a character, so a file name of 59 bytes or more with non-ASCII characters can stop splr before it reads the file (C63_name_refuted; C63_panics says exactly which names). Proved for ASCII names; a name of just under 59 characters is shown without the numbers."
  },
  {
   "property": "C64",
   "status": "partial",
   "theorems": [
    "C64_answers",
    "C64_during_partial",
    "C64_saved_partial",
    "C64_rephase",
    "C64_best_refuted"
   ],
   "note": "Proved: bounds of the counter at every moment, what is saved, what rephasing does, answers and absence of panics with the phases that the code computes. False of the code: the assignment is saved at the next backtracking, after the trail has grown into the conflict, so that the assignment kept has more entries than the variables counted and can falsify a clause of the problem (C64_best_refuted)."
  },
  {
   "property": "C65",
   "status": "partial",
   "theorems": [
    "C65_search_partial",
    "C65_target",
    "C65_seed",
    "C65_override",
    "C65_ignored",
    "C65_run",
    "C65_zero_steps_refuted"
   ],
   "note": "Proved for at least one step: counts, flips, no panic, no overflow. False of the code: with 0 steps (the number is a quotient of integers) both numbers are 0 whatever is falsified (C65_zero_steps_refuted), and the phases found are never used: the overridden map has an entry for every variable, and select_rephasing_target, called next, drops a map of that size (C65_ignored, C65_run). The floating-point choice of the variable is arbitrary in the model."
  },
  {
   "property": "C66",
   "status": "partial",
   "theorems": [
    "C66_literal",
    "C66_complete_partial",
    "C66_queue",
    "C66_count_refuted",
    "C66_closure_refuted"
   ],
   "note": "Proved: what is queued, exactly the resolvents on each literal, redundancy in the order of the log, models, invariants and counters of the database. False of the code: a clause derived twice is counted twice (C66_count_refuted), and the clauses that are added are not completed, so chains of implications remain (C66_closure_refuted)."
  },
  {
   "property": "C67",
   "status": "partial",
   "theorems": [
    "C67_marks_partial",
    "C67_operations",
    "C67_leak_refuted"
   ],
   "note": "Proved for every operation while the work budget lasts. False of the code when it is used up: backward_subsumption_check pops a clause before it looks at the budget, and does not take its mark off, so the clause is never queued again (C67_leak_refuted, for a budget of 1; the budget is a parameter of the model)."
  },
  {
   "property": "C68",
   "status": "proved",
   "theorems": [
    "C68_range",
    "C68_analysis",
    "C68_steps_positive_refuted"
   ],
   "note": "Binary64 (Flocq), by monotonicity of the update. The 1.75th power is an arbitrary function. The number of steps itself can be zero (C68_steps_positive_refuted: 2^27 variables in the core, 2^24 clauses)."
  },
  {
   "property": "C69",
   "status": "proved",
   "theorems": [
    "C69_stage_numbers",
    "C69_annealing_base"
   ],
   "note": "Over any sequence of initialisations and stages; integers are unbounded in the model."
  }
 ]
}