STATUS={'C67':'partial','C66':'partial','C65':'partial','C64':'partial','C63':'partial','C55':'partial','C54':'partial','C51':'partial','C47':'partial','C11':'partial','C10':'partial','C36':'partial','C40':'partial','C34':'partial','C38':'partial','C39':'partial','C46':'partial','C22':'partial','C45':'partial'}
NOTE={
'C01':'Every vector, every file (announced variables, one clause per line, literals in range) and every session of add_clause/add_assignment/add_var before the first solve, every schedule of heuristic choices, any prefix of the run; fewer than 2^16 variables, or no clause with 2^16 literals in the log of the run (narrow, C45; C02_wide_example has 70000 variables) and enable_eliminator (C02_eliminator_off_refuted shows why). After add_var an answer is still right, but there may be none: see C46.',
'C02':'Same quantification as C01.',
'C03':'Same quantification as C01.',
'C57':'A run is looked at between two iterations by giving it a schedule with fewer choices than it has iterations (answer Running). Beside the claim: after an answer SAT the counter of eliminated variables is stale (C57_after_sat_refuted; exact if nothing was eliminated: C57_after_sat), which makes the next call of solve panic (C47_again_refuted).',
'C59':'Operations of IEEE binary64 (Flocq). The claim fails if vrw_dcy_rat (--vdr, unchecked) is outside [0,1]: C59_config_refuted. powf(0.25) of the number of variables is assumed >= 1.',
'C33':'On unbounded integers, and on 64-bit integers for the first 2^62 - 3 calls (C33_no_panic). The iterator of the series (not used by the solver) ends at the number 2^32 (C33_iterator_ends).',
'C69':'Over any sequence of initialisations and stages; integers are unbounded in the model.',
'C68':'Binary64 (Flocq), by monotonicity of the update. The 1.75th power is an arbitrary function. The number of steps itself can be zero (C68_steps_positive_refuted: 2^27 variables in the core, 2^24 clauses).',
'C67':'Proved for every operation while the work budget lasts. False of the code when it is used up: backward_subsumption_check pops a clause before it looks at the budget, and does not take its mark off, so the clause is never queued again (C67_leak_refuted, for a budget of 1; the budget is a parameter of the model).',
'C66':'Proved: what is queued, exactly the resolvents on each literal, redundancy in the order of the log, models, invariants and counters of the database. False of the code: a clause derived twice is counted twice (C66_count_refuted), and the clauses that are added are not completed, so chains of implications remain (C66_closure_refuted).',
'C65':'Proved for at least one step: counts, flips, no panic, no overflow. False of the code: with 0 steps (the number is a quotient of integers) both numbers are 0 whatever is falsified (C65_zero_steps_refuted), and the phases found are never used: the overridden map has an entry for every variable, and select_rephasing_target, called next, drops a map of that size (C65_ignored, C65_run). The floating-point choice of the variable is arbitrary in the model.',
'C64':'Proved: bounds of the counter at every moment, what is saved, what rephasing does, answers and absence of panics with the phases that the code computes. False of the code: the assignment is saved at the next backtracking, after the trail has grown into the conflict, so that the assignment kept has more entries than the variables counted and can falsify a clause of the problem (C64_best_refuted).',
'C63':'False of the code: String::truncate panics inside a character, so a file name of 59 bytes or more with non-ASCII characters can stop splr before it reads the file (C63_name_refuted; C63_panics says exactly which names). Proved for ASCII names; a name of just under 59 characters is shown without the numbers.',
'C62':'The fraction of a limit is dropped, so with -t 1.5 the solver may give up after 1 s (C62_fraction_refuted); with a limit below 1 s it gives up at the first test and the time test of the eliminator is never true (infinity - infinity, C62_below_one_elim). The conversions of std::time::Duration are modelled as documented. The test is only made at the end of a stage (search.rs:255): how long a stage takes is not bounded by the limit.',
'C61':'Keys are IEEE binary64 (Flocq); activities in [0,1] is C59; clauses shorter than 2^52 literals. powf of the number of candidates is an arbitrary function. The sort is any stable sort (insertion sort in the model).',
'C60':'Operations of IEEE binary64 (Flocq).',
'C35':'Over exact numbers as stated; in binary64 (C35_ema_f64, C35_emasu_f64) the average stays finite and within twice the largest input, and the exact bound fails (C35_ema_f64_exact_refuted).',
'C58':'Beside the claim: although the problem is still there after a time-out, calling solve again can panic (C58_again_refuted). The same is not claimed after OutOfMemory: the eliminated clauses of the failed call are dropped there (search.rs:351-368).',
'C47':'Refuted by theorems: a pure literal stays asserted, so an allowed clause is rejected; the counter of eliminated variables is stale, so a second call panics, with or without additions. README says incremental mode is no longer supported in 0.18.0.',

'C04':'Every vector of i32 clauses except those containing i32::MIN (whose abs overflows).',
'C05':'Over every history of new, add_var, add_clause and add_assignment calls.',
'C07':'Over the same histories as C05.',
'C11':'Equivalence proved for in-range literals; the InvalidLiteral promise for out-of-range literals is refuted (panic), and the SATLIB trailer is read as an empty clause (refuted).',
'C10':'Exact for CNFs built by add_clause; same models for from_vec_i32 without units; refuted for unit clauses in from_vec_i32 and for the CNF without clauses.',
'C31':'Quantifies over every flush threshold; nonempty deletions only (an empty deletion would be misread, proved).',
'C34':'Proved for the first solve of a solver, for the stage manager alone and for the counter of the main loop (C34_search_schedule: no end of a stage is jumped over); refuted for a re-initialised stage manager (second solve). C34_later_search (C69_Stages.v) says exactly which later searches are affected: those that begin when the Luby number in turn is not 1 and that count a conflict just after 32.',
'C36':'Proved for initial value 0 (the only use in the solver); refuted for nonzero initial values, with the exact offset proved.',
'C40':'Total preorder proved; consistency with == refuted.',
'C38':'Proved while nothing has been popped since the last rebuild; refuted in general (percolate_down ignores the last element).',
'C39':'Container part proved for every history; the flag and the minimality claims are refuted by theorems.',
'C49':'From the problem to the bytes of the proof file (C49_proof_file uses the writer and reader of C31). Sessions as in C01 except that no add_assignment was refused: C49_refused_assignment_refuted shows that a refused one spoils the log. Tautologies of the problem are dropped first, as checkers do, and as in these checkers the deletion of a unit does not retract its literal (DratSpec).',
'C48':'The panics represented are those the model has as outcomes (SolveModel: Panic, OutOfBounds): unwrap of a missing decision, reason or value, the explicit panics of propagate/conflict_analyze, fuel of every loop; slice indices of the unsafe_access build are covered by the invariants of C16/C21, integer overflow of statistics counters is not modelled. Err(SolverBug) is not excluded: see DESIGN.md.',
'C46':'add_var keeps clauses and values, over every session (C46_add_var_keeps). In the documented use (every new variable fixed at once by add_assignment) solve stays within its tables and its answers are right (C46_documented_use). A new variable is not a decision candidate until the order is rebuilt (proved both ways), and after add_var alone solve never answers SAT: unless the clauses are found contradictory or too many first, it indexes the queue of the eliminator past its end (refuted, universally: C46_free_variable_refuted). With the eliminator disabled the first free variable is harmless and the second makes solve index past the end of a table (C46_disabled, C46_disabled_refuted).',
'C21':'Quantifies over every history of new_clause, remove_clause (and sandboxed versions), simplification, strengthening, reduction and watch moves with arbitrary arguments obeying the stated calling conventions.',
'C22':'Clauses, binary clauses, learnt clauses exact over histories of the database without sandboxed operations; over whole runs (loading, every iteration, time-out, SAT) clauses and binary clauses exact and learnt clauses never under-counted. Two counters are refuted: binary learnt clauses are never decremented, and try_subsume clears LEARNT without decrementing the number of learnt clauses (C22_learnt_counter_refuted: one clause too many, and one permanent clause too few is reported).',
'C29':'reduce is only called at decision level 0, where no clause is a reason (C29_no_reason_at_root over every history).',
'C12':'Over every history of the search engine (clause additions and removals, assertions, decisions, propagations, backtracks, conflict handling, reductions, root simplification, elimination flags); clauses shorter than 2^16 literals.',
'C13':'Same histories as C12.','C14':'Same histories as C12; the outcome is never a panic.',
'C17':'Same histories as C12; the database is its live clauses and root-level units.',
'C18':'Shape at conflict time, unit after the backjump, and the state left by handle_conflict including the BT_deepen variant.',
'C19':'Analysis answers, flags are cleared, and handle_conflict neither panics nor fails above level 0 (fewer than 2^16 variables).',
'C32':'Reverse unit propagation as an independent deductive closure (RupSpec.v).',
'C41':'Histories where the saved trail is not stale: the code clears or overwrites it before propagate.',
'C45':'Proved for clauses shorter than 2^16 literals; refuted beyond: the 16-bit position wraps to 0 and the watched literals are scanned.',
'C25':'Over every state reached by the search engine at level 0, after prepare and any sequence of eliminator steps (any order, any candidates): covers every queue and heuristic order.',
'C26':'Same states as C25; the resolvent, one elimination (exact projection) and a whole run.',
'C28':'Vivification of any list of target clauses (the selection and its order are left open, which covers every value the heuristics can compute), started at the root level in any state the solver reaches.',
'C27':'Any number of eliminator runs between which nothing else happens; learnt clauses must follow from the irredundant ones in the start state (the solver invariant; see C01 for the whole solve).',
'C50':'The bound counts iterations of the main loop of search. The loops inside one iteration are structural in the model or have fuel that is proved never to run out (C48), except the queues of the eliminator and the candidate list of the vivifier, which are finite lists given by the schedule; C52 has the queues and the budget of the eliminator. Fewer than 2^16 variables, or no stored clause with 2^16 literals.',
'C51':'SAT with a model, UNSAT with no model, or Err(SolverBug); OutOfMemory exactly when the number of clauses exceeds the limit (C51_memory). Missing: that the solver never rejects its own assignment. After an eliminator run a clause may have two watches that are false at the root level (strengthening picks new watches without looking at values), such a clause is not visited again before the next root-level simplification, and then the final validation answers SolverBug. C51_solver_bug_refuted is such a run of solve with the faithful eliminator (elm_var_occ = 80) on a satisfiable problem: the missing case cannot be proved, it is false; tools/c51_default.py has the same with the default limits.',
'C54':'The full statement is false of the code: len_upto(0) is 0 at the root level, so the unit clauses are never written (C54_units_refuted: the file of an unsatisfiable problem is satisfiable), and after solve the header announces clauses that are not there (C54_after_solve_refuted). Proved: the file is always written, well-formed, loadable, implied by the clauses given and equivalent to them together with the fixed variables; equivalent when every clause given has two different literals.',
'C55':'Floating point values and their parser are parameters; arguments are byte strings. The full statement is false of the code: --crl is cut to 16 bits (C55_crl_refuted), the options -l/--log of the README panic (C55_log_refuted), an option in last position is taken for the problem file (C55_option_as_file_refuted), and -r may name the problem itself (C55_overwrite_refuted). Proved for every other command line, as an equivalence in both directions.',
'C56':'Paths name the same file if they have the same components (links are not modelled). Beside the claim: unknown options are silently ignored (C56_unknown_option_refuted); after splr -o d a plain dmcr looks elsewhere (C56_directory_refuted).',
'C53':'Problem files with a header and one clause per line, literals in the announced range. splr with the real eliminator (C52); the schedule, the comment lines of the answer file and the flush interval are arbitrary. The time-out thread (exit code 0 at any moment), write errors are not modelled; C55 has the options. Refuted beside the claim: without a variable dmcr rejects the (empty) right answer; the message "seems an unsat problem" is printed for satisfiable problems; files with the SATLIB trailer are answered with exit code 20.',
'C52':'Sessions as in C01 without add_var (cf_nv is the number of variables). Floating point estimates (skip_var_elimination, the initial budget, the literal limit) and the clock are arbitrary inputs. Every loop of the model has explicit fuel, and the theorem is that it never runs out; the state is proved equal to that of some run of elementary operations (KSolveProofs.k_solve_eq), which carries over all other results.',
}
