import json
P=[]
def p(id,title,statement,quant,why,anchors):
    P.append(dict(id=id,title=title,statement=statement,quantifier=quant,why_tests_cant=why,anchors=anchors))
p("C01","A SAT answer is a model of the input","If Certificate::try_from(clauses) or Solver::solve returns SAT(v), then v read as a set of true literals satisfies every clause that was given to the solver (through try_from, add_clause, or add_assignment before solving).","every finite CNF over i32 literals, every sequence of heuristic choices (decisions, restarts, reductions, vivification and elimination order)","the set of formulas and heuristic schedules is unbounded; a test runs a few formulas with one schedule",["src/solver/search.rs: solve, search","src/assign/stack.rs: extend_model","src/cdb/db.rs: validate","src/processor/eliminate.rs: eliminate_var"])
p("C02","An UNSAT answer means no model exists","If Certificate::try_from(clauses) or Solver::solve returns UNSAT, no total assignment satisfies all the clauses that were given.","every finite CNF over i32 literals and every sequence of heuristic choices","unsatisfiability is a statement about all 2^n assignments, and must hold for all formulas and schedules",["src/solver/search.rs: solve, search","src/solver/conflict.rs: handle_conflict","src/solver/build.rs: inject_from_vec"])
p("C03","Shape of the SAT vector","If solve returns SAT(v) then v has exactly num_vars entries and the i-th entry (from 1) is i or -i: one decided sign per variable, in variable order, no duplicates and no gaps.","every model vector over any number of variables","must hold for every number of variables and every assignment",["src/solver/search.rs: solve","src/types/lit.rs: From<(VarId,bool)>, From<Lit> for i32"])
p("C04","Classification of in-memory problems","Certificate::try_from / Solver::try_from on a vector of clauses return: InvalidLiteral if some processed clause contains a 0 literal; UNSAT (or EmptyClause for Solver::try_from) if an empty clause occurs or unit clauses clash while loading; otherwise a solver whose clause set plus root assignment has exactly the models of the input.","every vector of clauses of any length, every order of clauses","unbounded inputs; error precedence depends on the order of clauses",["src/solver/build.rs: inject_from_vec, add_unchecked_clause, TryFrom","src/solver/mod.rs: TryFrom for Certificate","src/types/mod.rs: CNFDescription"])
p("C05","Adding a clause preserves meaning under normalisation","When add_clause/loader normalises a clause (sorting, dropping duplicate literals and root-false literals, discarding tautologies and root-satisfied clauses, turning units into assertions), the models of solver contents after the call are exactly the models of the contents before the call that satisfy the given clause; EmptyClause is returned exactly when the clause is false under the root assignment (no model remains).","every clause over in-range literals in any order with duplicates and complementary pairs, and every root assignment","the space of (clause, root assignment) pairs is unbounded",["src/solver/build.rs: add_unchecked_clause, add_clause"])
p("C06","Invalid literals are rejected without side effects","add_clause and add_assignment return InvalidLiteral exactly when a literal is 0 or its magnitude exceeds the number of variables, and then leave clauses, root assignment and proof log untouched.","every i32 literal/clause and every solver state","all i32 values and states",["src/solver/build.rs: add_clause, add_assignment"])
p("C07","add_assignment semantics","add_assignment(v) on in-range v: returns Ok and afterwards v is true at root level if v was unassigned or already true; returns RootLevelConflict exactly when -v already holds; all previously asserted literals keep their values.","every solver state at root level and every literal","unbounded histories of assignments",["src/solver/build.rs: add_assignment","src/assign/propagate.rs: assign_at_root_level"])
p("C08","Literal encoding is a faithful bijection","For every i32 x other than 0 and i32::MIN, converting to Lit and back gives x; Lit::from(-x) = !Lit::from(x); vi() is |x|; as_bool() is x>0; Lit::from((vi,b)) agrees with Lit::from(i32); distinct x give distinct literals; 0 and i32::MIN are the exact exceptions, and in a build with overflow checks the conversion panics exactly when |x| >= 2^30.","every i32","2^32 values per operation and pairs of them; the boundary is where 32-bit arithmetic wraps",["src/types/lit.rs"])
p("C09","Lifting a literal to a clause id is lossless","For every literal with ordinal below 2^31, ClauseId::from(l) is recognised as a lifted literal, and Lit::from(ClauseId::from(l)) = l; no ordinary clause id below 2^31 is recognised as a lifted literal.","every u32","2^32 values",["src/types/lit.rs: From<Lit> for ClauseId, From<ClauseId> for Lit","src/cdb/mod.rs / src/types/clause.rs: is_lifted_lit"])
p("C10","Saving a CNF keeps the formula","For the cnf module: dump_to_string of a CNF built by add_clause or from_vec_i32, read back by the loader rules, yields a CNF with the same clauses and variable count, hence the same models.","every CNF object reachable by from_vec_i32 and add_clause","unbounded set of formulas, including units-only and empty formulas",["src/cnf/mod.rs: from_vec_i32, add_clause, dump_to_string, load"])
p("C11","File loading is equivalent to in-memory loading","Loading the lines of a DIMACS body with one clause per line yields the same result as giving the clause vector to the in-memory loader; comments, blank lines and trailing garbage after 0 are ignored; out-of-range literals are reported as InvalidLiteral as documented.","every sequence of token lines","unbounded sequence of lines/tokens",["src/solver/build.rs: inject, SatSolverIF::build docs"])
p("C12","Unit propagation only adds consequences","Starting from any consistent state, every literal that propagate adds to the trail is a logical consequence of the clause database together with the literals on the trail before it; its recorded reason is a clause of the database whose other literals are all false and precede it in the trail.","every clause database and every trail state satisfying the representation invariant, every run length","unbounded databases/trails",["src/assign/propagate.rs: propagate"])
p("C13","Unit propagation is complete","If propagate returns without conflict then no live clause is falsified and no live clause is unit-but-unassigned under the resulting assignment, provided this held for the already processed prefix.","every clause database and trail satisfying the watch invariant","unbounded; depends on the two-watched-literal invariant over histories",["src/assign/propagate.rs: propagate","src/cdb/watch_cache.rs"])
p("C14","Reported conflicts are real","If propagate returns a conflict (lit, reason) then the named clause is live, all of its literals are false under the current assignment.","every clause database and trail state satisfying the representation invariant","unbounded states",["src/assign/propagate.rs: propagate"])
p("C15","Backtracking is exact","cancel_until(lv) with a lower level unassigns exactly the variables assigned above lv, keeps every assignment at or below lv with its order, level and reason, leaves the decision level at lv, remembers the phase of each undone variable, and is a no-op when lv >= current level.","every trail state and every target level","unbounded trails and levels",["src/assign/propagate.rs: cancel_until"])
p("C16","Assignment stack stays coherent over any history","After any sequence of root assertions, decisions, implications, backtracks and root clears: no variable occurs twice in the trail, a variable has a value iff it is on the trail (or was asserted and cleared), the value agrees with the trail literal, levels are non-decreasing along the trail and equal the number of decisions before it, the propagation pointer does not exceed the trail length.","every finite sequence of operations respecting documented preconditions","all histories",["src/assign/propagate.rs","src/assign/stack.rs"])
p("C17","Learnt clauses are consequences","Every clause produced by conflict analysis (including minimisation by reasons and by binary clauses) is entailed by the clause database.","every state with sound reasons and every conflict","unbounded implication graphs",["src/solver/conflict.rs: conflict_analyze, minimize_learnt, is_redundant","src/cdb/db.rs: minimize_with_bi_clauses"])
p("C18","Learnt clauses drive progress","The learnt clause is falsified at conflict time, has exactly one literal of the conflict level (first position), its second literal has the backjump level, and after backtracking to the backjump level its first literal is unassigned and all others false.","every coherent trail state and conflict","unbounded implication graphs",["src/solver/conflict.rs: conflict_analyze, handle_conflict"])
p("C19","Conflict analysis terminates","Conflict analysis always terminates with a learnt clause on coherent states: walking the trail backwards always reaches the first unique implication point before running off the trail.","every coherent state","termination for unbounded trail",["src/solver/conflict.rs: conflict_analyze"])
p("C20","LBD is the number of distinct levels","The rank computed for a clause is the number of distinct non-root decision levels among its literals (capped for clauses of 8192 or more literals), regardless of the scratch-buffer history.","every clause, level map, and scratch-buffer history","unbounded clause sizes and call histories",["src/types/clause.rs / src/cdb/db.rs: update_lbd"])
p("C21","Every live clause is watched, and only live clauses are","After any history of new_clause, remove_clause, and watch updates: every live clause with 3+ literals is registered exactly under the negations of its first two literals, every live binary clause is registered in both directions of the binary index, and no registration refers to a dead clause.","every history of database operations","all histories",["src/cdb/db.rs: new_clause, remove_clause, transform_by_updating_watch","src/cdb/watch_cache.rs","src/cdb/binary.rs"])
p("C22","Clause counters are exact","After any history of the operations of the clause database, while a problem is loaded, at every iteration of a run, after a time-out and after an answer, the reported numbers of clauses, binary clauses, learnt and binary learnt clauses equal the number of stored clauses with the property, and the statistics report the number of permanent clauses as their difference.","every history of database operations; every problem, schedule and prefix of a run","all histories and whole runs through subsumption, elimination, vivification, reduction and simplification",["src/cdb/db.rs: new_clause, remove_clause, transform_by_simplification, transform_by_elimination, transform_by_restoring_watch_cache, reduce","src/cdb/mod.rs: property::derefer","src/processor/subsume.rs: try_subsume","src/state.rs: record_stats"])
p("C23","Clause ids never alias","new_clause returns an id that was dead before the call, every other clause keeps its literals; remove_clause makes exactly the named clause dead; a re-registered binary clause returns the id of the existing one.","every history","all histories of reuse through the free list",["src/cdb/db.rs: new_clause, remove_clause"])
p("C24","Root-level simplification preserves models","transform_by_simplification on a clause under the root assignment yields a database with the same models (relative to the root assignment): satisfied clauses are dropped, false literals removed, units turned into assertions, duplicates of binary clauses merged, and an empty result is reported only if all literals are false.","every clause, database and root assignment","unbounded",["src/cdb/db.rs: transform_by_simplification"])
p("C25","Subsumption and strengthening preserve models","Removing a clause because another subsumes it, or removing a literal by self-subsuming resolution, leaves the set of models of the database unchanged.","every pair of clauses","unbounded pairs of clauses",["src/processor/subsume.rs: have_subsuming_lit, try_subsume, strengthen_clause"])
p("C26","Variable elimination preserves satisfiability","Replacing all clauses on a variable by their pairwise resolvents is satisfiable exactly when the database before was; merge computes precisely the resolvent or reports a tautology.","every clause database, every variable","unbounded databases",["src/processor/eliminate.rs: eliminate_var, merge"])
p("C27","Model extension repairs eliminated variables","For every sequence of eliminations, extending a model of the final database through the recorded elimination stack yields a model of the original clauses.","every sequence of eliminations with recorded clauses and every model of what remains","unbounded history of eliminations",["src/assign/stack.rs: extend_model","src/processor/eliminate.rs: make_eliminated_clauses, eliminate_var"])
p("C28","Vivification only strengthens soundly","A clause produced by vivification is entailed by the database, and is a sub-clause of the original, so replacing the original keeps the models.","every database, clause and assignment order","unbounded",["src/cdb/vivify.rs: vivify, analyze_sandbox"])
p("C29","Clause reduction only forgets learnt clauses","reduce never removes a clause that was given by the user (or not learnt), and never removes a clause that is the reason of a current assignment; hence the models of the database do not change.","every database, activity state and reduction mode","unbounded, float-dependent order",["src/cdb/db.rs: reduce"])
p("C30","The validator accepts exactly models","Solver::validate (strict) after inject_assignment returns None iff every non-learnt clause of the database has a true literal; in particular a reported clause id is really not satisfied.","every database and assignment","unbounded",["src/solver/validate.rs","src/cdb/db.rs: validate"])
p("C31","The proof file is faithful","The sequence of additions and deletions recorded by the certifier is exactly what a DRAT reader obtains from the written file, independently of when the internal buffer is flushed, followed by the empty clause; clauses are never empty before the end.","every sequence of add/delete events, every flush schedule","unbounded streams; flush timing",["src/cdb/unsat_certificate.rs: CertificationStore"])
p("C32","Learnt additions in the proof are RUP","Each clause added to the proof by conflict analysis has the reverse-unit-propagation property with respect to the clauses present at that time.","every coherent state","unbounded",["src/solver/conflict.rs: conflict_analyze","src/cdb/db.rs: new_clause (certificate_store)"])
p("C33","Luby sequence","The stage scale generator produces the Luby sequence (from its second element): the value at step k is the closed-form Luby number for all k; max_value is the maximum produced so far; reset restarts from the beginning.","every step count","unbounded steps",["src/types/luby.rs"])
p("C34","Stage schedule is consistent","Every stage ends in the future (strictly after the current conflict count), the cycle number grows exactly when the scale returns to 1, segments start exactly when a new maximum scale appears, so stage_ended eventually fires when conflicts are counted one by one.","every sequence of prepare_new_stage calls","unbounded runs",["src/solver/stage.rs: StageManager"])
p("C35","Moving averages stay within observed bounds","An EMA updated with values in [a,b] starting in [a,b] stays in [a,b]; the two-speed variant as well, whose trend is fast/slow; EmaSU averages the successive differences of its inputs.","every sequence of real inputs and every smoothing factor in [0,1]","unbounded histories of reals",["src/types/ema.rs: Ema, Ema2"])
p("C36","Equally-weighted average is the window mean","Ewa<N> reports the arithmetic mean of the last N inputs (counting the initial value as the missing inputs).","every window size N>0, every input history, every initial value","unbounded histories",["src/types/ema.rs: Ewa, Ewa2"])
p("C37","Decision variable selection is sound and complete","select_decision_literal returns a variable that is unassigned and not eliminated, and never drops an unassigned variable from the candidate set: the order heap remains a duplicate-free container whose membership is exactly the tracked set through any history of inserts, extractions, removals, key updates.","every history of heap operations and key functions","all histories",["src/assign/heap.rs","src/assign/select.rs"])
p("C38","The decision heap returns the most active variable","get_root (the next decision candidate) has activity not less than any other candidate in the heap.","every history of heap operations and key functions","all histories",["src/assign/heap.rs: percolate_down"])
p("C39","The elimination queue is a coherent priority container","VarOccHeap: insert/pop/remove/update/clear keep the heap duplicate-free, with the membership test and the queued flag matching its contents; pop returns a variable with fewest occurrences.","every history","all histories",["src/processor/heap.rs"])
p("C40","Ordering of sort keys is a total order consistent with equality","OrderedProxy comparisons are reflexive, antisymmetric w.r.t. ==, transitive and total, including NaN keys.","every pair/triple of keys (including NaN)","infinitely many keys",["src/types/ordered_proxy.rs"])
p("C41","Trail saving does not change meaning","Replaying the saved trail (reuse_saved_trail) only assigns literals whose recorded reason clause is live, unit under the current assignment, so all assignments stay implied; it never assigns a variable already assigned.","every saved trail and current state","all histories",["src/assign/trail_saving.rs"])
p("C42","The model checker tool reads what the solver writes","The assignment line written by the splr binary for SAT(v) is parsed by dmcr to exactly v, for every v.","every vector of nonzero i32","unbounded vectors",["src/bin/splr.rs: save_result","src/bin/dmcr.rs: read_assignment"])
p("C43","Binary clause index is a symmetric map","Looking up the binary clause {a,b} returns its id in either argument order iff it is currently registered; adding or removing one binary clause does not affect the lookup of any other.","every history of add/remove","all histories",["src/cdb/binary.rs"])
p("C44","Unordered deletion removes exactly one element","delete_unstable on a vector removes exactly one matching element and keeps the multiset of the others; does nothing when there is no match.","every vector and predicate","unbounded vectors",["src/types/mod.rs: DeleteUnstable"])
p("C45","Long clauses are scanned completely","When propagation looks for a replacement watch in a clause of any length it inspects every non-watched literal exactly once from whatever position the previous search stopped, so a non-false literal is found iff one exists.","every clause length and every saved search position","clauses longer than 65535 literals hit a 16-bit counter",["src/assign/propagate.rs: propagate (search_from)"])
p("C46","Adding variables keeps existing content","add_var increases the variable count by one and leaves all existing clauses and assignments as they were; the new variable can be decided (is a candidate).","every solver state","all states",["src/solver/build.rs: add_var","src/assign/heap.rs: expand_heap","src/assign/stack.rs: handle NewVar"])
p("C47","Solving again after a SAT answer respects new clauses","After a SAT answer, adding further clauses/assignments and solving again gives an answer that is correct for the conjunction of everything added.","every formula and extension","all histories of solve/add",["src/solver/search.rs: solve (pure literal assertion)","src/solver/build.rs"])
p("C48","Solving never panics","Solver::solve and Certificate::try_from on a problem built by try_from, new, add_clause and add_assignment never reach one of the panicking or out-of-range points of the search engine (no decision variable left, missing conflict side, missing reason, a variable without value when the answer is made, an eliminator table read past its end), whatever the heuristics do; a conflict never leaks as an error, it becomes UNSAT.","every CNF with fewer than 2^16 variables (or more, as long as no stored clause has 2^16 literals), every heuristic schedule, every prefix of the run","unbounded formulas, schedules and run lengths",["src/solver/search.rs: solve, search","src/solver/conflict.rs: handle_conflict, conflict_analyze","src/assign/propagate.rs: propagate","src/assign/select.rs: select_decision_literal"])
p("C49","The proof log of an UNSAT answer is a DRAT refutation","When solve answers UNSAT, the clauses added to and deleted from the proof log since the solver was created form a DRAT refutation of the problem: reading them in order, every added clause is implied by unit propagation (RUP) or by resolution on its first literal (RAT), and at the end unit propagation yields a contradiction; so an independent checker verifies the answer.","every CNF with fewer than 2^16 variables (or more, as long as no stored clause has 2^16 literals), every heuristic schedule, every run that ends with UNSAT","unbounded formulas, schedules and log lengths",["src/cdb/unsat_certificate.rs","src/cdb/db.rs: certificate_add_assertion, new_clause, remove_clause, transform_by_*","src/solver/search.rs: solve","README.md: Correctness, usage of --certify"])
p("C50","Solving terminates","Every call of Solver::solve and of Certificate::try_from returns: for each number of variables there is a number of iterations of the main loop that no run exceeds, whatever the clauses, decisions, restarts, clause deletions, backtrack drifts and inprocessing runs are.","every CNF with fewer than 2^16 variables (or more, as long as no stored clause has 2^16 literals), every heuristic schedule, every history of the stage manager","termination over unbounded runs and all schedules; clause deletion and root-level inprocessing undo progress, only the growth of the stages bounds that",["src/solver/search.rs: search","src/solver/stage.rs: StageManager","src/solver/conflict.rs: handle_conflict","src/assign/propagate.rs"])
p("C51","Without limits solving decides the problem","When no time or memory limit is set, solve on an admissible problem ends with SAT and a model, or with UNSAT and the problem has no model; it does not end with an error.","every CNF with fewer than 2^16 variables (or more, as long as no stored clause has 2^16 literals), every heuristic schedule","unbounded formulas and runs",["src/solver/search.rs: solve, search","src/cdb/db.rs: validate, check_size"])
p("C52","The preprocessor always returns","Every run of clause subsumption and variable elimination, in preprocessing and between two segments of the search, returns: its loops over the clause queue, the variable queue and the assigned literals end for every formula, every limit, every work budget and every answer of the clock. Whatever it does by then, the answers, the SAT vector and the proof log of the whole call are right (C01, C02, C03, C48, C49), and the call as a whole returns (C50).","every CNF with fewer than 2^16 variables (or more, as long as no stored clause has 2^16 literals), every configuration of the limits, every initial budget, every clock, every ENQUEUED flag left from earlier runs, every schedule of the search","the queues refill themselves while they are processed: termination over all refill patterns is not testable",["src/processor/simplify.rs: eliminate, eliminate_main, backward_subsumption_check, enqueue_var, enqueue_clause, clear_var_queue, clear_clause_queue","src/processor/eliminate.rs: eliminate_var","src/processor/subsume.rs: try_subsume, strengthen_clause","src/processor/heap.rs","src/solver/search.rs: solve, search"])
p("C53","The command-line tools tell the truth","For a well-formed problem file: when splr ends with exit code 10 its answer file contains one literal per variable and satisfies every clause, and dmcr (if there is a variable) calls it valid; with exit code 20 the problem has no model, no answer file is taken for a vector, and with --certify the proof file is a DRAT refutation of the problem, also when the contradiction was found while loading; with exit code 0 the answer file is not taken for a vector; there is no other exit code, no panic, and the program ends. dmcr calls a vector valid only if it can be completed to a model (a vector with all variables is a model), calls every consistent vector that hits all clauses valid, and a clause it prints as the reason for an invalid vector follows from the problem and has no literal in the vector.","every well-formed problem file with fewer than 2^16 variables (dmcr: 2^31), every answer file, every heuristic schedule, every flush interval of the proof log","unbounded files, schedules and logs; both programs and the proof checker have to agree",["src/bin/splr.rs: main, save_result","src/bin/dmcr.rs: main, read_assignment","src/solver/validate.rs: inject_assignment, validate","src/solver/build.rs: Solver::build","src/cdb/unsat_certificate.rs"])
p("C54","The dumped CNF is the problem","Solver::dump_cnf writes a problem file with the variables of the solver whose header announces the number of its clauses, which can be loaded again, and which has exactly the models of the clauses given to the solver.","every session of calls before the first solve, and the solver after solve","unbounded problems; the file is compared with all clauses given over the whole history of the solver",["src/cdb/db.rs: dump_cnf","src/solver/build.rs: dump_cnf","src/assign/stack.rs: len_upto"])
p("C55","The command line means what the help says","splr OPTIONS FILE solves FILE with the configuration the options say: each flag is on if it (short or long form) is given, each option has the value of its last occurrence, everything else keeps its default; the order of the options does not matter otherwise and a command line can be read in one way only. A command line that is not of this form is refused, help and version requests and missing files end the program without solving. The answer goes to the terminal (-r -), to the named file or to ans_NAME in the output directory, a proof is written exactly with --certify, and with default names neither is written over the problem or the other.","every list of arguments, every starting configuration, every set of existing files, every floating point parser","unbounded argument lists and all orders and repetitions of options",["src/config.rs: Config::inject_from_args, help_string","src/bin/splr.rs: main","src/cdb/unsat_certificate.rs","README.md: Usage"])
p("C56","dmcr finds the answer of splr","dmcr OPTIONS FILE checks the problem FILE, which must exist, against the last file given with -a, or else against ans_NAME in the current directory. After splr FILE with default output options this is the file splr has written; after splr with other output options dmcr -a with the path of the answer reads it.","every command line of the documented form, every problem path, every set of existing files","unbounded argument lists and path names; two programs have to agree",["src/bin/dmcr.rs: TargetOpts::inject_from_args, main","src/bin/splr.rs: main","src/config.rs: Config::inject_from_args"])
p("C57","Variable counters are exact","The counters AssignStack::derefer(NumVar / NumAssertedVar / NumEliminatedVar / NumUnassertedVar / NumUnassignedVar) equal the numbers of variables they are named after: eliminated ones, ones with a value that are no longer on the trail, ones neither eliminated nor asserted, ones neither eliminated nor assigned; none of their subtractions underflows, so that the main loop ends exactly when every remaining variable has a value. This holds while clauses are added, between any two iterations of any run, and after a time-out.","every CNF and session of additions, every configuration of limits, every schedule of heuristics, every point of the run","the counters are updated incrementally in five modules and must agree with the flags after every interleaving of assertion, elimination, backtracking and clearing",["src/assign/mod.rs: property::derefer","src/assign/stack.rs: make_var_asserted, make_var_eliminated","src/assign/propagate.rs: clear_asserted_literals","src/solver/search.rs: search"])
p("C58","The search never loses the problem","Between any two iterations of any run, and after a time-out: the problem has a model iff the stored clauses together with the literals assigned at the root level have one; the clauses that may be forgotten are consequences of the others; every model of the others extends, by the stack of eliminated clauses, to a model of the problem; every assigned literal is a consequence of the stored clauses and the decisions up to its level.","every CNF and session of additions, every configuration of limits, every schedule of heuristics, every point of the run","unbounded runs mixing learning, reduction, vivification, elimination and restarts; models are quantified over",["src/solver/search.rs: search, solve","src/cdb/db.rs","src/processor/eliminate.rs","src/assign/propagate.rs"])
p("C59","Variable activities are numbers between 0 and 1","asg.activity(vi) is a finite f64 with 0 <= activity <= 1 after any history of rewards, unassignments, assertions, eliminations and changes of the decay rate, so that comparing activities is a total preorder (never NaN); unassigning two variables keeps their order unless only the lower one took part in a conflict since.","every decay rate 0 <= vrw_dcy_rat <= 1 (an f64), every history, every stage number below 2^62","rounding errors accumulate over unbounded histories; unit tests see a few roundings",["src/assign/learning_rate.rs","src/assign/stack.rs: make_var_asserted, make_var_eliminated, instantiate","src/solver/search.rs"])
p("C60","The restart test compares sane numbers","The averages of LBDs behind the restart test (and those of assigned variables): the short average is exactly, without rounding error, the mean of the last 16 inputs; the long one is finite, at least 0 and at most the largest input, and 0 only if every input was 0; their ratio is a finite number >= 0, and 0 only if the last 16 inputs were 0; while every input was 0 the ratio is NaN and no restart happens, whatever the threshold.","every sequence of inputs up to 2^32 (LBDs are u16) and every threshold","floating-point error over unbounded histories",["src/types/ema.rs: Ewa2","src/cdb/ema.rs: ProgressLBD","src/assign/ema.rs: ProgressASG","src/solver/search.rs: search"])
p("C61","Clause reduction forgets the worst learnt clauses, as many as asked","A reduction of the clause database only touches learnt clauses with more than 4 distinct decision levels that lie beyond the cut-off; of these it removes exactly the number asked for (all of them if there are fewer; with the scaled variants all but the number to keep), and no removed clause is better than a kept candidate: it has at least as many levels (LBD variants) or at least the same sum of inactivities (activity variants, as rounded in binary64). Everything else is kept unchanged.","every clause database reachable by its operations, all activities in [0,1], all levels, every setting of the reduction","ordering by floating-point keys over every database and history",["src/cdb/db.rs: reduce, reverse_activity_sum, lbd","src/cdb/mod.rs: ReductionType","src/types/ordered_proxy.rs: OrderedProxy","src/solver/search.rs: search"])
p("C62","The time limit is exact to the second","With a time limit of n whole seconds the test at the end of a stage says time-out exactly when at least n seconds have passed, in spite of the floating-point arithmetic, and a run whose clock has not reached the limit at any test does not answer TimeOut. A fraction in the limit is dropped; a limit below one second (also a negative one, or NaN) is over at the first test, an infinite one never.","every clock reading, every limit from 1 s to 2^22 s, every formula, schedule and configuration","rounding at every clock value; all runs",["src/state.rs: elapsed","src/solver/search.rs: search","src/config.rs: c_timeout","src/processor/simplify.rs: eliminate"])
p("C63","The progress header never makes the solver fail","Whatever the name of the CNF file, the numbers of variables and clauses, the solver prints its header line (file name, variables and clauses, 59 columns) without a panic, so that the name of the file cannot keep a problem from being solved; the numbers shown are the numbers of the problem.","every file name (any Unicode text) and every pair of numbers","all names and lengths, and how they meet the column widths",["src/state.rs: Display for State, progress_header","src/solver/build.rs: inject","src/types/cnf.rs: CNFReader"])
p("C64","The best assignment so far and rephasing","While it searches, the solver keeps the best assignment so far: the largest one reached without a conflict, with the number of variables it covers (the unreachable core shown in the progress report is the rest), and from time to time sets the phases of the variables to it. The number is between 0 and the number of variables at any moment; the assignment never contradicts itself or an asserted variable when it is used; rephasing changes nothing but the phases of the variables of the assignment; the answers stay right and the run does not panic.","every problem, configuration, schedule of the heuristics and number of iterations","the assignment kept depends on the whole history of conflicts, backtracking and in-processing",["src/assign/propagate.rs: propagate, cancel_until, save_best_phases","src/assign/select.rs: select_rephasing_target, check_consistency_of_best_phases","src/assign/stack.rs: check_best_phase, best_assigned","src/solver/search.rs: search"])
p("C65","Local search repairs assignments","Stochastic local search, when it is enabled, never panics and does not overflow; it changes only the values of variables of stored clauses, at most one per step and only of a variable in a falsified clause, chosen by the number of clauses that depend on it alone; it reports the number of stored clauses that its first and its last assignment falsify; the solver then continues with the phases that it found.","every clause database, assignment of its variables, number of steps and choice of the variables","the walk depends on all stored clauses and on a pseudo-random choice at each step",["src/cdb/sls.rs: stochastic_local_search, is_falsified","src/assign/select.rs: best_phases_ref, override_rephasing_target, select_rephasing_target","src/solver/search.rs: search"])
p("C66","Completion of binary clauses","When the completion of binary clauses is enabled, every literal of a learnt binary clause is remembered once, and the completion adds, for each of them, the missing resolvents of the binary clauses that contain it with those that contain the negation of the other literal: each is redundant when it is added and logged, it is added once, all other clauses and all invariants of the database are kept, the models are the same, the counters of clauses stay exact and the number of completions is that of the clauses added; no implication between literals is left to be shortened.","every history of the clause database, queue of literals and order of completion","the clauses added depend on all the binary clauses and on the clauses added before",["src/cdb/db.rs: new_clause, complete_bi_clauses, complete_bi_clauses_with","src/cdb/binary.rs: BinaryLinkDB","src/solver/conflict.rs: conflict_analyze"],)
p("C67","Marks of the preprocessor's clause queue","A clause that is marked as waiting in the clause queue of the preprocessor is in the queue, so that it is examined or its mark is taken off, and no clause is left marked when the queue has been emptied: a clause that is not waiting can always be queued again.","every clause database, limits, estimates, work budget and number of rounds","marks are set and taken off by every operation on clauses, in an order that depends on the queues and the budget",["src/processor/simplify.rs: enqueue_clause, clear_clause_queue, backward_subsumption_check, eliminate_main","src/processor/eliminate.rs: eliminate_var","src/processor/subsume.rs: try_subsume, strengthen_clause"],)
p("C68","Average LBD as divisor and limit","The running average of the LBDs of the clauses met by conflict analysis is a number between 2 and 65535 after any history, so that its truncation is never zero: the number of steps of the local search, which is divided by it, is computed without a panic, and the literal limit of subsumption, to which it is added, is at least the configured one plus 2.","every history of clause databases, levels and clauses; every size of the core, number of clauses and configured limit","an average accumulates a rounding error at each of millions of updates; whether the errors can carry it below 1 is not seen in a test",["src/cdb/db.rs: lb_entanglement, update_at_analysis","src/types/ema.rs: Ema2","src/solver/search.rs: search (325-342)","src/processor/simplify.rs: simplify (286-290)"],)
p("C69","Stage numbers subtracted by the search","At every new stage, of any search of a solver, the number of the stage at which the cycle started is at most the current one, so that the subtraction that yields the annealing base does not underflow; the difference is the base 2 logarithm of the scale of that stage; the segment did not start after the cycle; the highest scale is a power of two; the Luby numbers go on from one search to the next.","every number of searches, of stages in each and every conflict count at which they end","the stage manager is re-initialised in part at each search while its series goes on; only a history of several long searches shows the numbers out of order",["src/solver/stage.rs: initialize, prepare_new_stage, current_stage, cycle_starting_stage", "src/solver/search.rs: search (236, 271-279)", "src/types/luby.rs: next_unchecked"])
with open('/verif/properties.jsonl','w') as f:
    for x in P: f.write(json.dumps(x)+"\n")
print(len(P))
