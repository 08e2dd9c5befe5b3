{"id": "C01", "title": "A SAT answer is a model of the input", "statement": "If Certificate::try_from(clauses) or Solver::solve returns SAT(v), then v read as a set of true literals satisfies every clause that was given to the solver (through try_from, add_clause, or add_assignment before solving).", "quantifier": "every finite CNF over i32 literals, every sequence of heuristic choices (decisions, restarts, reductions, vivification and elimination order)", "why_tests_cant": "the set of formulas and heuristic schedules is unbounded; a test runs a few formulas with one schedule", "anchors": ["src/solver/search.rs: solve, search", "src/assign/stack.rs: extend_model", "src/cdb/db.rs: validate", "src/processor/eliminate.rs: eliminate_var"]}
{"id": "C02", "title": "An UNSAT answer means no model exists", "statement": "If Certificate::try_from(clauses) or Solver::solve returns UNSAT, no total assignment satisfies all the clauses that were given.", "quantifier": "every finite CNF over i32 literals and every sequence of heuristic choices", "why_tests_cant": "unsatisfiability is a statement about all 2^n assignments, and must hold for all formulas and schedules", "anchors": ["src/solver/search.rs: solve, search", "src/solver/conflict.rs: handle_conflict", "src/solver/build.rs: inject_from_vec"]}
{"id": "C03", "title": "Shape of the SAT vector", "statement": "If solve returns SAT(v) then v has exactly num_vars entries and the i-th entry (from 1) is i or -i: one decided sign per variable, in variable order, no duplicates and no gaps.", "quantifier": "every model vector over any number of variables", "why_tests_cant": "must hold for every number of variables and every assignment", "anchors": ["src/solver/search.rs: solve", "src/types/lit.rs: From<(VarId,bool)>, From<Lit> for i32"]}
{"id": "C04", "title": "Classification of in-memory problems", "statement": "Certificate::try_from / Solver::try_from on a vector of clauses return: InvalidLiteral if some processed clause contains a 0 literal; UNSAT (or EmptyClause for Solver::try_from) if an empty clause occurs or unit clauses clash while loading; otherwise a solver whose clause set plus root assignment has exactly the models of the input.", "quantifier": "every vector of clauses of any length, every order of clauses", "why_tests_cant": "unbounded inputs; error precedence depends on the order of clauses", "anchors": ["src/solver/build.rs: inject_from_vec, add_unchecked_clause, TryFrom", "src/solver/mod.rs: TryFrom for Certificate", "src/types/mod.rs: CNFDescription"]}
{"id": "C05", "title": "Adding a clause preserves meaning under normalisation", "statement": "When add_clause/loader normalises a clause (sorting, dropping duplicate literals and root-false literals, discarding tautologies and root-satisfied clauses, turning units into assertions), the models of solver contents after the call are exactly the models of the contents before the call that satisfy the given clause; EmptyClause is returned exactly when the clause is false under the root assignment (no model remains).", "quantifier": "every clause over in-range literals in any order with duplicates and complementary pairs, and every root assignment", "why_tests_cant": "the space of (clause, root assignment) pairs is unbounded", "anchors": ["src/solver/build.rs: add_unchecked_clause, add_clause"]}
{"id": "C06", "title": "Invalid literals are rejected without side effects", "statement": "add_clause and add_assignment return InvalidLiteral exactly when a literal is 0 or its magnitude exceeds the number of variables, and then leave clauses, root assignment and proof log untouched.", "quantifier": "every i32 literal/clause and every solver state", "why_tests_cant": "all i32 values and states", "anchors": ["src/solver/build.rs: add_clause, add_assignment"]}
{"id": "C07", "title": "add_assignment semantics", "statement": "add_assignment(v) on in-range v: returns Ok and afterwards v is true at root level if v was unassigned or already true; returns RootLevelConflict exactly when -v already holds; all previously asserted literals keep their values.", "quantifier": "every solver state at root level and every literal", "why_tests_cant": "unbounded histories of assignments", "anchors": ["src/solver/build.rs: add_assignment", "src/assign/propagate.rs: assign_at_root_level"]}
{"id": "C08", "title": "Literal encoding is a faithful bijection", "statement": "For every i32 x other than 0 and i32::MIN, converting to Lit and back gives x; Lit::from(-x) = !Lit::from(x); vi() is |x|; as_bool() is x>0; Lit::from((vi,b)) agrees with Lit::from(i32); distinct x give distinct literals; 0 and i32::MIN are the exact exceptions, and in a build with overflow checks the conversion panics exactly when |x| >= 2^30.", "quantifier": "every i32", "why_tests_cant": "2^32 values per operation and pairs of them; the boundary is where 32-bit arithmetic wraps", "anchors": ["src/types/lit.rs"]}
{"id": "C09", "title": "Lifting a literal to a clause id is lossless", "statement": "For every literal with ordinal below 2^31, ClauseId::from(l) is recognised as a lifted literal, and Lit::from(ClauseId::from(l)) = l; no ordinary clause id below 2^31 is recognised as a lifted literal.", "quantifier": "every u32", "why_tests_cant": "2^32 values", "anchors": ["src/types/lit.rs: From<Lit> for ClauseId, From<ClauseId> for Lit", "src/cdb/mod.rs / src/types/clause.rs: is_lifted_lit"]}
{"id": "C10", "title": "Saving a CNF keeps the formula", "statement": "For the cnf module: dump_to_string of a CNF built by add_clause or from_vec_i32, read back by the loader rules, yields a CNF with the same clauses and variable count, hence the same models.", "quantifier": "every CNF object reachable by from_vec_i32 and add_clause", "why_tests_cant": "unbounded set of formulas, including units-only and empty formulas", "anchors": ["src/cnf/mod.rs: from_vec_i32, add_clause, dump_to_string, load"]}
{"id": "C11", "title": "File loading is equivalent to in-memory loading", "statement": "Loading the lines of a DIMACS body with one clause per line yields the same result as giving the clause vector to the in-memory loader; comments, blank lines and trailing garbage after 0 are ignored; out-of-range literals are reported as InvalidLiteral as documented.", "quantifier": "every sequence of token lines", "why_tests_cant": "unbounded sequence of lines/tokens", "anchors": ["src/solver/build.rs: inject, SatSolverIF::build docs"]}
{"id": "C12", "title": "Unit propagation only adds consequences", "statement": "Starting from any consistent state, every literal that propagate adds to the trail is a logical consequence of the clause database together with the literals on the trail before it; its recorded reason is a clause of the database whose other literals are all false and precede it in the trail.", "quantifier": "every clause database and every trail state satisfying the representation invariant, every run length", "why_tests_cant": "unbounded databases/trails", "anchors": ["src/assign/propagate.rs: propagate"]}
{"id": "C13", "title": "Unit propagation is complete", "statement": "If propagate returns without conflict then no live clause is falsified and no live clause is unit-but-unassigned under the resulting assignment, provided this held for the already processed prefix.", "quantifier": "every clause database and trail satisfying the watch invariant", "why_tests_cant": "unbounded; depends on the two-watched-literal invariant over histories", "anchors": ["src/assign/propagate.rs: propagate", "src/cdb/watch_cache.rs"]}
{"id": "C14", "title": "Reported conflicts are real", "statement": "If propagate returns a conflict (lit, reason) then the named clause is live, all of its literals are false under the current assignment.", "quantifier": "every clause database and trail state satisfying the representation invariant", "why_tests_cant": "unbounded states", "anchors": ["src/assign/propagate.rs: propagate"]}
{"id": "C15", "title": "Backtracking is exact", "statement": "cancel_until(lv) with a lower level unassigns exactly the variables assigned above lv, keeps every assignment at or below lv with its order, level and reason, leaves the decision level at lv, remembers the phase of each undone variable, and is a no-op when lv >= current level.", "quantifier": "every trail state and every target level", "why_tests_cant": "unbounded trails and levels", "anchors": ["src/assign/propagate.rs: cancel_until"]}
{"id": "C16", "title": "Assignment stack stays coherent over any history", "statement": "After any sequence of root assertions, decisions, implications, backtracks and root clears: no variable occurs twice in the trail, a variable has a value iff it is on the trail (or was asserted and cleared), the value agrees with the trail literal, levels are non-decreasing along the trail and equal the number of decisions before it, the propagation pointer does not exceed the trail length.", "quantifier": "every finite sequence of operations respecting documented preconditions", "why_tests_cant": "all histories", "anchors": ["src/assign/propagate.rs", "src/assign/stack.rs"]}
{"id": "C17", "title": "Learnt clauses are consequences", "statement": "Every clause produced by conflict analysis (including minimisation by reasons and by binary clauses) is entailed by the clause database.", "quantifier": "every state with sound reasons and every conflict", "why_tests_cant": "unbounded implication graphs", "anchors": ["src/solver/conflict.rs: conflict_analyze, minimize_learnt, is_redundant", "src/cdb/db.rs: minimize_with_bi_clauses"]}
{"id": "C18", "title": "Learnt clauses drive progress", "statement": "The learnt clause is falsified at conflict time, has exactly one literal of the conflict level (first position), its second literal has the backjump level, and after backtracking to the backjump level its first literal is unassigned and all others false.", "quantifier": "every coherent trail state and conflict", "why_tests_cant": "unbounded implication graphs", "anchors": ["src/solver/conflict.rs: conflict_analyze, handle_conflict"]}
{"id": "C19", "title": "Conflict analysis terminates", "statement": "Conflict analysis always terminates with a learnt clause on coherent states: walking the trail backwards always reaches the first unique implication point before running off the trail.", "quantifier": "every coherent state", "why_tests_cant": "termination for unbounded trail", "anchors": ["src/solver/conflict.rs: conflict_analyze"]}
{"id": "C20", "title": "LBD is the number of distinct levels", "statement": "The rank computed for a clause is the number of distinct non-root decision levels among its literals (capped for clauses of 8192 or more literals), regardless of the scratch-buffer history.", "quantifier": "every clause, level map, and scratch-buffer history", "why_tests_cant": "unbounded clause sizes and call histories", "anchors": ["src/types/clause.rs / src/cdb/db.rs: update_lbd"]}
{"id": "C21", "title": "Every live clause is watched, and only live clauses are", "statement": "After any history of new_clause, remove_clause, and watch updates: every live clause with 3+ literals is registered exactly under the negations of its first two literals, every live binary clause is registered in both directions of the binary index, and no registration refers to a dead clause.", "quantifier": "every history of database operations", "why_tests_cant": "all histories", "anchors": ["src/cdb/db.rs: new_clause, remove_clause, transform_by_updating_watch", "src/cdb/watch_cache.rs", "src/cdb/binary.rs"]}
{"id": "C22", "title": "Clause counters are exact", "statement": "After any history of the operations of the clause database, while a problem is loaded, at every iteration of a run, after a time-out and after an answer, the reported numbers of clauses, binary clauses, learnt and binary learnt clauses equal the number of stored clauses with the property, and the statistics report the number of permanent clauses as their difference.", "quantifier": "every history of database operations; every problem, schedule and prefix of a run", "why_tests_cant": "all histories and whole runs through subsumption, elimination, vivification, reduction and simplification", "anchors": ["src/cdb/db.rs: new_clause, remove_clause, transform_by_simplification, transform_by_elimination, transform_by_restoring_watch_cache, reduce", "src/cdb/mod.rs: property::derefer", "src/processor/subsume.rs: try_subsume", "src/state.rs: record_stats"]}
{"id": "C23", "title": "Clause ids never alias", "statement": "new_clause returns an id that was dead before the call, every other clause keeps its literals; remove_clause makes exactly the named clause dead; a re-registered binary clause returns the id of the existing one.", "quantifier": "every history", "why_tests_cant": "all histories of reuse through the free list", "anchors": ["src/cdb/db.rs: new_clause, remove_clause"]}
{"id": "C24", "title": "Root-level simplification preserves models", "statement": "transform_by_simplification on a clause under the root assignment yields a database with the same models (relative to the root assignment): satisfied clauses are dropped, false literals removed, units turned into assertions, duplicates of binary clauses merged, and an empty result is reported only if all literals are false.", "quantifier": "every clause, database and root assignment", "why_tests_cant": "unbounded", "anchors": ["src/cdb/db.rs: transform_by_simplification"]}
{"id": "C25", "title": "Subsumption and strengthening preserve models", "statement": "Removing a clause because another subsumes it, or removing a literal by self-subsuming resolution, leaves the set of models of the database unchanged.", "quantifier": "every pair of clauses", "why_tests_cant": "unbounded pairs of clauses", "anchors": ["src/processor/subsume.rs: have_subsuming_lit, try_subsume, strengthen_clause"]}
{"id": "C26", "title": "Variable elimination preserves satisfiability", "statement": "Replacing all clauses on a variable by their pairwise resolvents is satisfiable exactly when the database before was; merge computes precisely the resolvent or reports a tautology.", "quantifier": "every clause database, every variable", "why_tests_cant": "unbounded databases", "anchors": ["src/processor/eliminate.rs: eliminate_var, merge"]}
{"id": "C27", "title": "Model extension repairs eliminated variables", "statement": "For every sequence of eliminations, extending a model of the final database through the recorded elimination stack yields a model of the original clauses.", "quantifier": "every sequence of eliminations with recorded clauses and every model of what remains", "why_tests_cant": "unbounded history of eliminations", "anchors": ["src/assign/stack.rs: extend_model", "src/processor/eliminate.rs: make_eliminated_clauses, eliminate_var"]}
{"id": "C28", "title": "Vivification only strengthens soundly", "statement": "A clause produced by vivification is entailed by the database, and is a sub-clause of the original, so replacing the original keeps the models.", "quantifier": "every database, clause and assignment order", "why_tests_cant": "unbounded", "anchors": ["src/cdb/vivify.rs: vivify, analyze_sandbox"]}
{"id": "C29", "title": "Clause reduction only forgets learnt clauses", "statement": "reduce never removes a clause that was given by the user (or not learnt), and never removes a clause that is the reason of a current assignment; hence the models of the database do not change.", "quantifier": "every database, activity state and reduction mode", "why_tests_cant": "unbounded, float-dependent order", "anchors": ["src/cdb/db.rs: reduce"]}
{"id": "C30", "title": "The validator accepts exactly models", "statement": "Solver::validate (strict) after inject_assignment returns None iff every non-learnt clause of the database has a true literal; in particular a reported clause id is really not satisfied.", "quantifier": "every database and assignment", "why_tests_cant": "unbounded", "anchors": ["src/solver/validate.rs", "src/cdb/db.rs: validate"]}
{"id": "C31", "title": "The proof file is faithful", "statement": "The sequence of additions and deletions recorded by the certifier is exactly what a DRAT reader obtains from the written file, independently of when the internal buffer is flushed, followed by the empty clause; clauses are never empty before the end.", "quantifier": "every sequence of add/delete events, every flush schedule", "why_tests_cant": "unbounded streams; flush timing", "anchors": ["src/cdb/unsat_certificate.rs: CertificationStore"]}
{"id": "C32", "title": "Learnt additions in the proof are RUP", "statement": "Each clause added to the proof by conflict analysis has the reverse-unit-propagation property with respect to the clauses present at that time.", "quantifier": "every coherent state", "why_tests_cant": "unbounded", "anchors": ["src/solver/conflict.rs: conflict_analyze", "src/cdb/db.rs: new_clause (certificate_store)"]}
{"id": "C33", "title": "Luby sequence", "statement": "The stage scale generator produces the Luby sequence (from its second element): the value at step k is the closed-form Luby number for all k; max_value is the maximum produced so far; reset restarts from the beginning.", "quantifier": "every step count", "why_tests_cant": "unbounded steps", "anchors": ["src/types/luby.rs"]}
{"id": "C34", "title": "Stage schedule is consistent", "statement": "Every stage ends in the future (strictly after the current conflict count), the cycle number grows exactly when the scale returns to 1, segments start exactly when a new maximum scale appears, so stage_ended eventually fires when conflicts are counted one by one.", "quantifier": "every sequence of prepare_new_stage calls", "why_tests_cant": "unbounded runs", "anchors": ["src/solver/stage.rs: StageManager"]}
{"id": "C35", "title": "Moving averages stay within observed bounds", "statement": "An EMA updated with values in [a,b] starting in [a,b] stays in [a,b]; the two-speed variant as well, whose trend is fast/slow; EmaSU averages the successive differences of its inputs.", "quantifier": "every sequence of real inputs and every smoothing factor in [0,1]", "why_tests_cant": "unbounded histories of reals", "anchors": ["src/types/ema.rs: Ema, Ema2"]}
{"id": "C36", "title": "Equally-weighted average is the window mean", "statement": "Ewa<N> reports the arithmetic mean of the last N inputs (counting the initial value as the missing inputs).", "quantifier": "every window size N>0, every input history, every initial value", "why_tests_cant": "unbounded histories", "anchors": ["src/types/ema.rs: Ewa, Ewa2"]}
{"id": "C37", "title": "Decision variable selection is sound and complete", "statement": "select_decision_literal returns a variable that is unassigned and not eliminated, and never drops an unassigned variable from the candidate set: the order heap remains a duplicate-free container whose membership is exactly the tracked set through any history of inserts, extractions, removals, key updates.", "quantifier": "every history of heap operations and key functions", "why_tests_cant": "all histories", "anchors": ["src/assign/heap.rs", "src/assign/select.rs"]}
{"id": "C38", "title": "The decision heap returns the most active variable", "statement": "get_root (the next decision candidate) has activity not less than any other candidate in the heap.", "quantifier": "every history of heap operations and key functions", "why_tests_cant": "all histories", "anchors": ["src/assign/heap.rs: percolate_down"]}
{"id": "C39", "title": "The elimination queue is a coherent priority container", "statement": "VarOccHeap: insert/pop/remove/update/clear keep the heap duplicate-free, with the membership test and the queued flag matching its contents; pop returns a variable with fewest occurrences.", "quantifier": "every history", "why_tests_cant": "all histories", "anchors": ["src/processor/heap.rs"]}
{"id": "C40", "title": "Ordering of sort keys is a total order consistent with equality", "statement": "OrderedProxy comparisons are reflexive, antisymmetric w.r.t. ==, transitive and total, including NaN keys.", "quantifier": "every pair/triple of keys (including NaN)", "why_tests_cant": "infinitely many keys", "anchors": ["src/types/ordered_proxy.rs"]}
{"id": "C41", "title": "Trail saving does not change meaning", "statement": "Replaying the saved trail (reuse_saved_trail) only assigns literals whose recorded reason clause is live, unit under the current assignment, so all assignments stay implied; it never assigns a variable already assigned.", "quantifier": "every saved trail and current state", "why_tests_cant": "all histories", "anchors": ["src/assign/trail_saving.rs"]}
{"id": "C42", "title": "The model checker tool reads what the solver writes", "statement": "The assignment line written by the splr binary for SAT(v) is parsed by dmcr to exactly v, for every v.", "quantifier": "every vector of nonzero i32", "why_tests_cant": "unbounded vectors", "anchors": ["src/bin/splr.rs: save_result", "src/bin/dmcr.rs: read_assignment"]}
{"id": "C43", "title": "Binary clause index is a symmetric map", "statement": "Looking up the binary clause {a,b} returns its id in either argument order iff it is currently registered; adding or removing one binary clause does not affect the lookup of any other.", "quantifier": "every history of add/remove", "why_tests_cant": "all histories", "anchors": ["src/cdb/binary.rs"]}
{"id": "C44", "title": "Unordered deletion removes exactly one element", "statement": "delete_unstable on a vector removes exactly one matching element and keeps the multiset of the others; does nothing when there is no match.", "quantifier": "every vector and predicate", "why_tests_cant": "unbounded vectors", "anchors": ["src/types/mod.rs: DeleteUnstable"]}
{"id": "C45", "title": "Long clauses are scanned completely", "statement": "When propagation looks for a replacement watch in a clause of any length it inspects every non-watched literal exactly once from whatever position the previous search stopped, so a non-false literal is found iff one exists.", "quantifier": "every clause length and every saved search position", "why_tests_cant": "clauses longer than 65535 literals hit a 16-bit counter", "anchors": ["src/assign/propagate.rs: propagate (search_from)"]}
{"id": "C46", "title": "Adding variables keeps existing content", "statement": "add_var increases the variable count by one and leaves all existing clauses and assignments as they were; the new variable can be decided (is a candidate).", "quantifier": "every solver state", "why_tests_cant": "all states", "anchors": ["src/solver/build.rs: add_var", "src/assign/heap.rs: expand_heap", "src/assign/stack.rs: handle NewVar"]}
{"id": "C47", "title": "Solving again after a SAT answer respects new clauses", "statement": "After a SAT answer, adding further clauses/assignments and solving again gives an answer that is correct for the conjunction of everything added.", "quantifier": "every formula and extension", "why_tests_cant": "all histories of solve/add", "anchors": ["src/solver/search.rs: solve (pure literal assertion)", "src/solver/build.rs"]}
{"id": "C48", "title": "Solving never panics", "statement": "Solver::solve and Certificate::try_from on a problem built by try_from, new, add_clause and add_assignment never reach one of the panicking or out-of-range points of the search engine (no decision variable left, missing conflict side, missing reason, a variable without value when the answer is made, an eliminator table read past its end), whatever the heuristics do; a conflict never leaks as an error, it becomes UNSAT.", "quantifier": "every CNF with fewer than 2^16 variables (or more, as long as no stored clause has 2^16 literals), every heuristic schedule, every prefix of the run", "why_tests_cant": "unbounded formulas, schedules and run lengths", "anchors": ["src/solver/search.rs: solve, search", "src/solver/conflict.rs: handle_conflict, conflict_analyze", "src/assign/propagate.rs: propagate", "src/assign/select.rs: select_decision_literal"]}
{"id": "C49", "title": "The proof log of an UNSAT answer is a DRAT refutation", "statement": "When solve answers UNSAT, the clauses added to and deleted from the proof log since the solver was created form a DRAT refutation of the problem: reading them in order, every added clause is implied by unit propagation (RUP) or by resolution on its first literal (RAT), and at the end unit propagation yields a contradiction; so an independent checker verifies the answer.", "quantifier": "every CNF with fewer than 2^16 variables (or more, as long as no stored clause has 2^16 literals), every heuristic schedule, every run that ends with UNSAT", "why_tests_cant": "unbounded formulas, schedules and log lengths", "anchors": ["src/cdb/unsat_certificate.rs", "src/cdb/db.rs: certificate_add_assertion, new_clause, remove_clause, transform_by_*", "src/solver/search.rs: solve", "README.md: Correctness, usage of --certify"]}
{"id": "C50", "title": "Solving terminates", "statement": "Every call of Solver::solve and of Certificate::try_from returns: for each number of variables there is a number of iterations of the main loop that no run exceeds, whatever the clauses, decisions, restarts, clause deletions, backtrack drifts and inprocessing runs are.", "quantifier": "every CNF with fewer than 2^16 variables (or more, as long as no stored clause has 2^16 literals), every heuristic schedule, every history of the stage manager", "why_tests_cant": "termination over unbounded runs and all schedules; clause deletion and root-level inprocessing undo progress, only the growth of the stages bounds that", "anchors": ["src/solver/search.rs: search", "src/solver/stage.rs: StageManager", "src/solver/conflict.rs: handle_conflict", "src/assign/propagate.rs"]}
{"id": "C51", "title": "Without limits solving decides the problem", "statement": "When no time or memory limit is set, solve on an admissible problem ends with SAT and a model, or with UNSAT and the problem has no model; it does not end with an error.", "quantifier": "every CNF with fewer than 2^16 variables (or more, as long as no stored clause has 2^16 literals), every heuristic schedule", "why_tests_cant": "unbounded formulas and runs", "anchors": ["src/solver/search.rs: solve, search", "src/cdb/db.rs: validate, check_size"]}
{"id": "C52", "title": "The preprocessor always returns", "statement": "Every run of clause subsumption and variable elimination, in preprocessing and between two segments of the search, returns: its loops over the clause queue, the variable queue and the assigned literals end for every formula, every limit, every work budget and every answer of the clock. Whatever it does by then, the answers, the SAT vector and the proof log of the whole call are right (C01, C02, C03, C48, C49), and the call as a whole returns (C50).", "quantifier": "every CNF with fewer than 2^16 variables (or more, as long as no stored clause has 2^16 literals), every configuration of the limits, every initial budget, every clock, every ENQUEUED flag left from earlier runs, every schedule of the search", "why_tests_cant": "the queues refill themselves while they are processed: termination over all refill patterns is not testable", "anchors": ["src/processor/simplify.rs: eliminate, eliminate_main, backward_subsumption_check, enqueue_var, enqueue_clause, clear_var_queue, clear_clause_queue", "src/processor/eliminate.rs: eliminate_var", "src/processor/subsume.rs: try_subsume, strengthen_clause", "src/processor/heap.rs", "src/solver/search.rs: solve, search"]}
{"id": "C53", "title": "The command-line tools tell the truth", "statement": "For a well-formed problem file: when splr ends with exit code 10 its answer file contains one literal per variable and satisfies every clause, and dmcr (if there is a variable) calls it valid; with exit code 20 the problem has no model, no answer file is taken for a vector, and with --certify the proof file is a DRAT refutation of the problem, also when the contradiction was found while loading; with exit code 0 the answer file is not taken for a vector; there is no other exit code, no panic, and the program ends. dmcr calls a vector valid only if it can be completed to a model (a vector with all variables is a model), calls every consistent vector that hits all clauses valid, and a clause it prints as the reason for an invalid vector follows from the problem and has no literal in the vector.", "quantifier": "every well-formed problem file with fewer than 2^16 variables (dmcr: 2^31), every answer file, every heuristic schedule, every flush interval of the proof log", "why_tests_cant": "unbounded files, schedules and logs; both programs and the proof checker have to agree", "anchors": ["src/bin/splr.rs: main, save_result", "src/bin/dmcr.rs: main, read_assignment", "src/solver/validate.rs: inject_assignment, validate", "src/solver/build.rs: Solver::build", "src/cdb/unsat_certificate.rs"]}
{"id": "C54", "title": "The dumped CNF is the problem", "statement": "Solver::dump_cnf writes a problem file with the variables of the solver whose header announces the number of its clauses, which can be loaded again, and which has exactly the models of the clauses given to the solver.", "quantifier": "every session of calls before the first solve, and the solver after solve", "why_tests_cant": "unbounded problems; the file is compared with all clauses given over the whole history of the solver", "anchors": ["src/cdb/db.rs: dump_cnf", "src/solver/build.rs: dump_cnf", "src/assign/stack.rs: len_upto"]}
{"id": "C55", "title": "The command line means what the help says", "statement": "splr OPTIONS FILE solves FILE with the configuration the options say: each flag is on if it (short or long form) is given, each option has the value of its last occurrence, everything else keeps its default; the order of the options does not matter otherwise and a command line can be read in one way only. A command line that is not of this form is refused, help and version requests and missing files end the program without solving. The answer goes to the terminal (-r -), to the named file or to ans_NAME in the output directory, a proof is written exactly with --certify, and with default names neither is written over the problem or the other.", "quantifier": "every list of arguments, every starting configuration, every set of existing files, every floating point parser", "why_tests_cant": "unbounded argument lists and all orders and repetitions of options", "anchors": ["src/config.rs: Config::inject_from_args, help_string", "src/bin/splr.rs: main", "src/cdb/unsat_certificate.rs", "README.md: Usage"]}
{"id": "C56", "title": "dmcr finds the answer of splr", "statement": "dmcr OPTIONS FILE checks the problem FILE, which must exist, against the last file given with -a, or else against ans_NAME in the current directory. After splr FILE with default output options this is the file splr has written; after splr with other output options dmcr -a with the path of the answer reads it.", "quantifier": "every command line of the documented form, every problem path, every set of existing files", "why_tests_cant": "unbounded argument lists and path names; two programs have to agree", "anchors": ["src/bin/dmcr.rs: TargetOpts::inject_from_args, main", "src/bin/splr.rs: main", "src/config.rs: Config::inject_from_args"]}
{"id": "C57", "title": "Variable counters are exact", "statement": "The counters AssignStack::derefer(NumVar / NumAssertedVar / NumEliminatedVar / NumUnassertedVar / NumUnassignedVar) equal the numbers of variables they are named after: eliminated ones, ones with a value that are no longer on the trail, ones neither eliminated nor asserted, ones neither eliminated nor assigned; none of their subtractions underflows, so that the main loop ends exactly when every remaining variable has a value. This holds while clauses are added, between any two iterations of any run, and after a time-out.", "quantifier": "every CNF and session of additions, every configuration of limits, every schedule of heuristics, every point of the run", "why_tests_cant": "the counters are updated incrementally in five modules and must agree with the flags after every interleaving of assertion, elimination, backtracking and clearing", "anchors": ["src/assign/mod.rs: property::derefer", "src/assign/stack.rs: make_var_asserted, make_var_eliminated", "src/assign/propagate.rs: clear_asserted_literals", "src/solver/search.rs: search"]}
{"id": "C58", "title": "The search never loses the problem", "statement": "Between any two iterations of any run, and after a time-out: the problem has a model iff the stored clauses together with the literals assigned at the root level have one; the clauses that may be forgotten are consequences of the others; every model of the others extends, by the stack of eliminated clauses, to a model of the problem; every assigned literal is a consequence of the stored clauses and the decisions up to its level.", "quantifier": "every CNF and session of additions, every configuration of limits, every schedule of heuristics, every point of the run", "why_tests_cant": "unbounded runs mixing learning, reduction, vivification, elimination and restarts; models are quantified over", "anchors": ["src/solver/search.rs: search, solve", "src/cdb/db.rs", "src/processor/eliminate.rs", "src/assign/propagate.rs"]}
{"id": "C59", "title": "Variable activities are numbers between 0 and 1", "statement": "asg.activity(vi) is a finite f64 with 0 <= activity <= 1 after any history of rewards, unassignments, assertions, eliminations and changes of the decay rate, so that comparing activities is a total preorder (never NaN); unassigning two variables keeps their order unless only the lower one took part in a conflict since.", "quantifier": "every decay rate 0 <= vrw_dcy_rat <= 1 (an f64), every history, every stage number below 2^62", "why_tests_cant": "rounding errors accumulate over unbounded histories; unit tests see a few roundings", "anchors": ["src/assign/learning_rate.rs", "src/assign/stack.rs: make_var_asserted, make_var_eliminated, instantiate", "src/solver/search.rs"]}
{"id": "C60", "title": "The restart test compares sane numbers", "statement": "The averages of LBDs behind the restart test (and those of assigned variables): the short average is exactly, without rounding error, the mean of the last 16 inputs; the long one is finite, at least 0 and at most the largest input, and 0 only if every input was 0; their ratio is a finite number >= 0, and 0 only if the last 16 inputs were 0; while every input was 0 the ratio is NaN and no restart happens, whatever the threshold.", "quantifier": "every sequence of inputs up to 2^32 (LBDs are u16) and every threshold", "why_tests_cant": "floating-point error over unbounded histories", "anchors": ["src/types/ema.rs: Ewa2", "src/cdb/ema.rs: ProgressLBD", "src/assign/ema.rs: ProgressASG", "src/solver/search.rs: search"]}
{"id": "C61", "title": "Clause reduction forgets the worst learnt clauses, as many as asked", "statement": "A reduction of the clause database only touches learnt clauses with more than 4 distinct decision levels that lie beyond the cut-off; of these it removes exactly the number asked for (all of them if there are fewer; with the scaled variants all but the number to keep), and no removed clause is better than a kept candidate: it has at least as many levels (LBD variants) or at least the same sum of inactivities (activity variants, as rounded in binary64). Everything else is kept unchanged.", "quantifier": "every clause database reachable by its operations, all activities in [0,1], all levels, every setting of the reduction", "why_tests_cant": "ordering by floating-point keys over every database and history", "anchors": ["src/cdb/db.rs: reduce, reverse_activity_sum, lbd", "src/cdb/mod.rs: ReductionType", "src/types/ordered_proxy.rs: OrderedProxy", "src/solver/search.rs: search"]}
{"id": "C62", "title": "The time limit is exact to the second", "statement": "With a time limit of n whole seconds the test at the end of a stage says time-out exactly when at least n seconds have passed, in spite of the floating-point arithmetic, and a run whose clock has not reached the limit at any test does not answer TimeOut. A fraction in the limit is dropped; a limit below one second (also a negative one, or NaN) is over at the first test, an infinite one never.", "quantifier": "every clock reading, every limit from 1 s to 2^22 s, every formula, schedule and configuration", "why_tests_cant": "rounding at every clock value; all runs", "anchors": ["src/state.rs: elapsed", "src/solver/search.rs: search", "src/config.rs: c_timeout", "src/processor/simplify.rs: eliminate"]}
{"id": "C63", "title": "The progress header never makes the solver fail", "statement": "Whatever the name of the CNF file, the numbers of variables and clauses, the solver prints its header line (file name, variables and clauses, 59 columns) without a panic, so that the name of the file cannot keep a problem from being solved; the numbers shown are the numbers of the problem.", "quantifier": "every file name (any Unicode text) and every pair of numbers", "why_tests_cant": "all names and lengths, and how they meet the column widths", "anchors": ["src/state.rs: Display for State, progress_header", "src/solver/build.rs: inject", "src/types/cnf.rs: CNFReader"]}
{"id": "C64", "title": "The best assignment so far and rephasing", "statement": "While it searches, the solver keeps the best assignment so far: the largest one reached without a conflict, with the number of variables it covers (the unreachable core shown in the progress report is the rest), and from time to time sets the phases of the variables to it. The number is between 0 and the number of variables at any moment; the assignment never contradicts itself or an asserted variable when it is used; rephasing changes nothing but the phases of the variables of the assignment; the answers stay right and the run does not panic.", "quantifier": "every problem, configuration, schedule of the heuristics and number of iterations", "why_tests_cant": "the assignment kept depends on the whole history of conflicts, backtracking and in-processing", "anchors": ["src/assign/propagate.rs: propagate, cancel_until, save_best_phases", "src/assign/select.rs: select_rephasing_target, check_consistency_of_best_phases", "src/assign/stack.rs: check_best_phase, best_assigned", "src/solver/search.rs: search"]}
{"id": "C65", "title": "Local search repairs assignments", "statement": "Stochastic local search, when it is enabled, never panics and does not overflow; it changes only the values of variables of stored clauses, at most one per step and only of a variable in a falsified clause, chosen by the number of clauses that depend on it alone; it reports the number of stored clauses that its first and its last assignment falsify; the solver then continues with the phases that it found.", "quantifier": "every clause database, assignment of its variables, number of steps and choice of the variables", "why_tests_cant": "the walk depends on all stored clauses and on a pseudo-random choice at each step", "anchors": ["src/cdb/sls.rs: stochastic_local_search, is_falsified", "src/assign/select.rs: best_phases_ref, override_rephasing_target, select_rephasing_target", "src/solver/search.rs: search"]}
{"id": "C66", "title": "Completion of binary clauses", "statement": "When the completion of binary clauses is enabled, every literal of a learnt binary clause is remembered once, and the completion adds, for each of them, the missing resolvents of the binary clauses that contain it with those that contain the negation of the other literal: each is redundant when it is added and logged, it is added once, all other clauses and all invariants of the database are kept, the models are the same, the counters of clauses stay exact and the number of completions is that of the clauses added; no implication between literals is left to be shortened.", "quantifier": "every history of the clause database, queue of literals and order of completion", "why_tests_cant": "the clauses added depend on all the binary clauses and on the clauses added before", "anchors": ["src/cdb/db.rs: new_clause, complete_bi_clauses, complete_bi_clauses_with", "src/cdb/binary.rs: BinaryLinkDB", "src/solver/conflict.rs: conflict_analyze"]}
{"id": "C67", "title": "Marks of the preprocessor's clause queue", "statement": "A clause that is marked as waiting in the clause queue of the preprocessor is in the queue, so that it is examined or its mark is taken off, and no clause is left marked when the queue has been emptied: a clause that is not waiting can always be queued again.", "quantifier": "every clause database, limits, estimates, work budget and number of rounds", "why_tests_cant": "marks are set and taken off by every operation on clauses, in an order that depends on the queues and the budget", "anchors": ["src/processor/simplify.rs: enqueue_clause, clear_clause_queue, backward_subsumption_check, eliminate_main", "src/processor/eliminate.rs: eliminate_var", "src/processor/subsume.rs: try_subsume, strengthen_clause"]}
{"id": "C68", "title": "Average LBD as divisor and limit", "statement": "The running average of the LBDs of the clauses met by conflict analysis is a number between 2 and 65535 after any history, so that its truncation is never zero: the number of steps of the local search, which is divided by it, is computed without a panic, and the literal limit of subsumption, to which it is added, is at least the configured one plus 2.", "quantifier": "every history of clause databases, levels and clauses; every size of the core, number of clauses and configured limit", "why_tests_cant": "an average accumulates a rounding error at each of millions of updates; whether the errors can carry it below 1 is not seen in a test", "anchors": ["src/cdb/db.rs: lb_entanglement, update_at_analysis", "src/types/ema.rs: Ema2", "src/solver/search.rs: search (325-342)", "src/processor/simplify.rs: simplify (286-290)"]}
{"id": "C69", "title": "Stage numbers subtracted by the search", "statement": "At every new stage, of any search of a solver, the number of the stage at which the cycle started is at most the current one, so that the subtraction that yields the annealing base does not underflow; the difference is the base 2 logarithm of the scale of that stage; the segment did not start after the cycle; the highest scale is a power of two; the Luby numbers go on from one search to the next.", "quantifier": "every number of searches, of stages in each and every conflict count at which they end", "why_tests_cant": "the stage manager is re-initialised in part at each search while its series goes on; only a history of several long searches shows the numbers out of order", "anchors": ["src/solver/stage.rs: initialize, prepare_new_stage, current_stage, cycle_starting_stage", "src/solver/search.rs: search (236, 271-279)", "src/types/luby.rs: next_unchecked"]}
