# Formal model of splr 0.18.0 in Rocq/Coq 8.16.1

Target: `shnarazk/splr` at the pinned commit in /repo, with its default feature
set (`unsafe_access`, `trail_saving`, `BT_deepen`, `rephase`,
`best_phases_tracking`, `LRB_rewarding`, `reason_side_rewarding`,
`reward_annealing`, `two_mode_reduction`, `clause_elimination`,
`clause_vivification`, `dynamic_restart_threshold`).

## Layout

* `rocq/theories/Base.v`, `rocq/theories/Spec.v` - list/map utilities; what a
  CNF formula, an assignment and a model are (independent of the solver).
* `rocq/theories/*Model.v` - Gallina transcriptions of the Rust functions, each
  definition with the file and lines it models. No proofs in there.
* `rocq/theories/*Proofs.v` - lemmas and invariants.
* `rocq/theories/C*.v` - one file per property (or group): theorem statements,
  closed by `exact`, followed by `Print Assumptions` and a concrete example that
  meets the hypotheses.

## Modelling conventions

* Vectors indexed by variable / clause id are total functions from `nat` with an
  explicit bound where the bound matters; vectors that are iterated are lists.
* Literal = its ordinal (`nat`): `2*v` is `-v`, `2*v+1` is `+v`. The conversion
  between `i32`/`u32` machine integers and ordinals is modelled separately over
  `Z` with explicit 32-bit wrap-around (`LitModel.v`).
* `f64` values: sorting keys/activities are taken in an arbitrary totally ordered
  key (`Z` or `Q`); moving averages over `Q` (no rounding): stated at each place.
  Activities of variables (C59), the averages of the restart test (C60) and `Ema`
  (C35_Float) are also modelled with IEEE binary64 operations.
* Heuristic choices (which variable is decided, restart timing, which clause is
  reduced, timeouts) are inputs (oracles) of the model: theorems quantify over
  all of them.
* Panics/out of range accesses are explicit results where they are reachable.
* Loops whose termination is not structural take fuel; a theorem shows enough
  fuel always exists / the out-of-fuel result is not returned.

## Plan, per property

| id | model files | proof files, method |
|----|-------------|---------------------|
| C01 C02 C03 C48 | SolveModel (+ all models below): load, propagate, analyse, learn, reduce, simplify, eliminate, vivify, extend, validate; heuristics as oracles | SolveProofs, C01_Solve: invariant "clauses + root assignment + elimination stack are equivalent to the input", for every schedule and every prefix of a run |
| C04 C05 C06 C07 | BuildModel (build.rs, types.rs add_* paths) | BuildProofs, C04_Build: induction over clause lists and call histories |
| C08 C09 | LitModel: Lit/ClauseId codecs over Z with 32-bit wrap | LitProofs, C08_Lit: arithmetic |
| C10 C11 | CnfModel, Text, BuildModel | C10_Cnf, C04_Build: structural induction; refutation by witness where false |
| C12 C13 C14 C41 C45 | PropModel (propagate, trail saving, propagate_sandbox), AsgModel | PropProofs, PropLoop, PropOps, PropDb, RootProofs, C12_Prop: invariants of watch lists, loops by measure |
| C15 C16 | AsgModel (stack.rs) | AsgProofs, C15_Trail: representation invariant over op sequences |
| C17 C18 C19 C32 | ConflictModel (conflict.rs) | ConflictProofs, HandleProofs, C17_Conflict: invariant of the backwards trail walk |
| C20 | CdbModel update_lbd with scratch buffer | C20_Lbd: invariant on the buffer |
| C21 C22 C23 C24 C29 C43 | CdbModel (cdb/db.rs, binary.rs, watch_cache.rs) | CdbProofs, CdbOps, C21_Db, C24_Simplify: representation invariant over op sequences; C22_Run: the counters are part of that invariant, so they are exact in every state of a whole run (the number of learnt clauses: an upper bound, refuted as exact) |
| C25 C26 C27 | ElimModel (simplify.rs, subsume.rs, eliminate.rs, stack.rs extend_model) | ElimFacts/Ext/Proofs/Var/Run/Total, C25_Elim: semantic lemmas, induction on eliminator steps and the elimination stack |
| C28 | VivifyModel (vivify.rs) | VivifyProofs, QuietProofs, C28_Vivify |
| C30 | SolveModel validate | C24_Simplify/C01_Solve: induction on the clause list |
| C31 C42 | CertModel, Text | C31_Cert: induction on events; readers and writers as inverse functions |
| C33 C34 | LubyModel (luby.rs, stage.rs) | LubyProofs, C33_Luby |
| C35 C36 | EmaModel over Q | EmaProofs, C35_Ema; refutation for nonzero initial value |
| C37 C38 C39 C40 C44 | HeapModel (assign/heap.rs, processor/heap.rs, types) | HeapProofs, HeapOrder, C37_Heap: permutation invariant; refutations of the ordering claims |
| C49 | SolveModel and below (the proof log is a field of the clause database); DratSpec: independent DRAT checker | DratRun (abstract runs), DratOps/Root/Search/Elim/Viv/Load/Pure/Solve, C49_Drat: every logging operation is a step that the checker accepts; invariant "the checker's clauses and units cover the solver's" |
| C50 | SolveModel (search with the stage manager), LubyModel | TermProofs: a lexicographic measure. Within a stage every conflict fixes a variable at the root level or stores a clause whose literal set differs from that of every clause whose watches are not false at the root level (conflict_progress, fresh), so a stage has at most cmax(n) conflicts; after a finite number of stages (Luby: a cycle starts at each power of two) the length of a stage exceeds cmax(n), so it never ends; between conflicts each iteration assigns a variable. The loops inside the eliminator (see C52) and the vivifier are finite lists of steps. |
| C51 | as C50 | C50_Term: C50, C01, C02 and a case analysis of the error results (perr_*): only SolverBug remains, hence partial; C51_Bug: the full claim is refuted by evaluating the model (faithful eliminator, targets and phases) on a satisfiable problem of 74 clauses; C51_Limit: the limit on the number of clauses, by induction on the search |
| C52 | QueueModel (the queues, the budget and the clock of simplify.rs/eliminate.rs/subsume.rs), KSolveModel (solve and search with them) | QueueProofs, QueueRun: every loop is simulated step by step by elementary operations of ElimModel while a measure decreases (literals in the clause database plus queue length; variables not yet eliminated or assigned; budget); KSolveProofs: k_solve equals solve for some steps, so C01-C03, C48-C51 carry over; C52_Queue |
| C53 | ToolModel (bin/splr.rs main and save_result, bin/dmcr.rs main, validate.rs), CertModel, KSolveModel | C53_Tools: dmcr by the invariant of loading (stored clauses and root literals = the clauses of the file) and of inject_assignment; splr from C42, C49, C52; a problem refuted while loading: every root literal is derived by unit propagation from the clauses read (derived_step), so any flushed prefix of the log is a refutation |
| C54 | ToolModel.dump_cnf (db.rs dump_cnf, stack.rs len_upto), CnfModel/BuildModel to load it again | C54_Dump: the text is a header, the live clauses and a comment; the loader reads it back (read_header_text, body_text_app); models by the invariant of loading; a clause with two different literals fixes no variable (wide_load). Partial: unit clauses are lost (refuted by theorems) |
| C55 C56 | CliModel (config.rs inject_from_args, bin/splr.rs main up to the solver, bin/dmcr.rs inject_from_args) | C55_Cli: a grammar of command lines and their meaning field by field (last occurrence wins); the loop accepts exactly the grammar (induction on the arguments); path components for the output names; refutations of the deviations |
| C46 | BuildModel, SolveModel, HeapModel | C46_AddVar: invariant `fixed` (a variable beyond the tables of the eliminator has a root value and is in no clause) along every step of the run relation of C49; refutation after add_var alone; C51_Limit: the same with the eliminator disabled |
| C47 | BuildModel, SolveModel | C01_Solve: refutations (a rejected clause; a second call that panics) |
| C57 | AsgModel, SolveModel; C57_Count: derefer with checked subtractions | counting with duplicate-free lists from the invariants of C15 and C26; the invariant of the search (SolveProofs.J) holds in every state in which a run stops (search_spec for Running and TimeOut) |
| C59 | C59_Activity on FloatModel (IEEE binary64, Flocq's BinarySingleNaN): learning_rate.rs, stack.rs set_activity, select.rs reward_by_sls, search.rs annealing | invariant 0 <= activity <= 1 and decay + anti decay rounds to at most 1 (half-ulp bound of 1.0 - decay against the midpoint above 1); order by monotonicity of rounding |
| C60 | C60_Restart on FloatModel: types/ema.rs Ewa2, cdb/ema.rs, assign/ema.rs, the restart test of search.rs | window: all sums are multiples of 1/16 below 2^53, hence exact; long average: bounds by monotonicity at representable points, positivity because 8191/8192 of the smallest subnormal rounds to it |
| C61 | C61_Reduce on FloatModel, CdbModel: db.rs reduce with the code's keys, cut-offs and order, ordered_proxy.rs | sorting lemmas on finite keys; LBD after the refresh is the number of levels (C20); the inactivity sum is finite and at most the length |
| C62 | C62_Timeout on FloatModel, SolveModel: state.rs elapsed, the tests of search.rs and simplify.rs; Duration and `as u64` of the standard library | monotonicity of rounding at n - 2^-30 and 1 - 2^-52, both representable; no other source of TimeOut by the error lemmas of ErrProofs |
| C63 | C63_Header: Display for State; String::len, truncate and padding of the standard library over Unicode scalar values | case analysis on the lengths; truncate by induction; refutation by a name of two-byte characters |
| C64 | RephaseModel: propagate (end), cancel_until (beginning), save_best_phases, check_best_phase, select_rephasing_target, and search/solve with them instead of arbitrary phases | simulation by runs of SolveModel with suitable phases (RephaseProofs), so that C01, C02, C48 apply; invariant of the counter along the search; the saved entries from the coherence of trail and levels; refutation by a run |
| C65 | SlsModel: cdb/sls.rs, best_phases_ref, override_rephasing_target and their use in search.rs (feature stochastic_local_search) | scan of the clauses by induction with the table of critical variables; loop by induction on the steps; arithmetic of the generator in Z; the size of the overridden map |
| C66 | BiModel: the queue and the completion in cdb/db.rs (feature bi_clause_completion), over the clause database of C21 | relation `extended` between databases (what is kept, added, logged, counted) composed along the fold over the resolvents and over the queue; resolvents are RUP; refutations by evaluation |
| C67 | QueueModel (C52): the queues and work budget of the preprocessor | C67_Flags: the invariant `marks_kept` along every function of QueueModel, with the budget that never grows; refutation by evaluation on a session |
| C68 | FloatModel, CdbModel (update_lbd): Ema2 and its uses as divisor and limit | C68_Entangle: the update is monotone in binary64 and has 2 and 65535 as fixed points (computed) |
| C69 | LubyModel (C33): the stage manager over any number of searches; the counter of the main loop (C34_Schedule) | C69_Stages: invariant with the list of Luby numbers so far; a Luby number other than 1 is twice the one before it |
| C33 (64 bits) | types/luby.rs on machine integers with their panics | C33_Machine: simulation of LubyModel by induction on the two loops; the size of the subsequence is at most twice the index |
| C35 (f64) | C35_Float on FloatModel: Ema, EmaSU in binary64 | relative error of each rounding against the weight of the input |
| C58 | SolveModel | C58_Anytime: the invariant J of the search in terms of models; implied literals by induction on the trail |

## Trusted base

* The kernel of Coq 8.16.1 (examples are
  computed by the kernel's VM). No plugin, no `native_compute`, no kernel check switched off.
* Axioms: for every property theorem (`Theorem Cnn_*`) outside the six files on
  floating point, `Print Assumptions` prints **"Closed under the global context"**: no
  axiom at all (`tools/gen_audit.py` writes the file with all the commands; last run:
  251 theorems, 224 closed). The 27 theorems of `C35_Float`, `C59_Activity`,
  `C60_Restart`, `C61_Reduce`, `C62_Timeout` and `C68_Entangle` speak of IEEE binary64 as formalised by Flocq over the standard
  library's real numbers, and rest on four axioms of the standard library:
  `ClassicalDedekindReals.sig_not_dec`, `ClassicalDedekindReals.sig_forall_dec`,
  `FunctionalExtensionality.functional_extensionality_dep` and `Classical_Prop.classic`.
  Flocq declares no axiom. `vcheck` also lists the axioms of the
  libraries that are loaded: `Coq.ssr.ssrunder` (seven, pulled in by `ssreflect` imports
  of the standard library; no theorem uses them) and the sealed definitions of the real
  numbers (`Rdefinitions.RbaseSymbolsImpl`/`RinvImpl`: defined in the standard library,
  hidden behind its own module type; `Print Assumptions` sees through them). No axiom,
  parameter, section-less variable, functor or module type is declared here.
* For the six files on floating point: that `f64` of Rust is IEEE binary64 with
  rounding to nearest even and `as f64` rounds likewise (Flocq's definitions are used as
  the specification); `powf(0.25)` of a number >= 1 is assumed to be >= 1.
* The transcription from Rust to Gallina was made by hand. It was compared with
  the code function by function, and the model was extracted to OCaml in a
  scratch directory and run on random CNFs (about 100 000 runs) against a
  brute-force solver and a DRAT checker: no difference was found. This is a test,
  not part of the proofs.

### What is modelled (default feature set)

* `types.rs`/`cnf`/`solver/build.rs`: literals, clause ids, CNF text reader and
  writer, loading from vectors and files, `add_clause`, `add_assignment`, `add_var`.
* `assign/{stack,heap,propagate,trail_saving,select(decision only)}.rs`: the
  trail, levels, reasons, root literals, backtracking, saved trail, the ordering
  heap, `propagate`, `propagate_sandbox`, `extend_model`.
* `cdb/{db,binary,watch_cache,cid,ema,clause}.rs`: clause vector, free list,
  counters, watch caches, binary maps, LBD, `new_clause(_sandbox)`,
  `remove_clause(_sandbox)`, `transform_by_elimination/replacement/simplification`,
  `reduce`, `certificate_*` logging, `validate`.
* `solver/{conflict,search,validate,mod,stage}.rs`: conflict analysis and
  minimisation, `handle_conflict`, `solve`, `search`, `Certificate::try_from`,
  the stage manager and the Luby sequence.
* `processor/{simplify,subsume,eliminate,heap}.rs`: `prepare`, subsumption,
  strengthening, merging, `eliminate_var`, elimination stack, the queues of clauses
  and variables, `backward_subsumption_check`, `eliminate_main`, `eliminate` (QueueModel).
* `cdb/vivify.rs`, `primitive/{ema,luby}.rs`, `bin/dmcr.rs`, `bin/splr.rs` (`main`, `save_result`),
  the proof writer `cdb/unsat_certificate.rs`.

### What is abstracted (taken as an arbitrary input, so the theorems hold for all values)

* Which variable is decided next and with which phase, rephasing, when to restart,
  which learnt clauses are reduced, which clauses are vivified and in which order,
  when the eliminator/vivifier run, timeouts. In SolveModel also which variables and
  clauses the eliminator processes, in which order and when it stops; in QueueModel and
  KSolveModel the code decides that, and only the initial work budget, the growth
  estimate `skip_var_elimination` and the clock are inputs.
* `f64` activities and LBD thresholds (only influence the choices above) in the model of
  the solver; they are modelled apart in binary64 (C59, C60, C61, C68). Sort keys are numbers or NaN.

### What is not modelled

* Progress reports, statistics and logging to the terminal, wall-clock time and threads (the time-out of
  `bin/splr.rs`).
* Non-default features (`chrono_BT`, `clause_rewarding`, `boundary_check`, `EMA_calibration`,
  `EVSIDS`, ...; `stochastic_local_search` and `bi_clause_completion` are modelled apart: C65, C66,
  C68), and the contents of memory after an out-of-range access under `unsafe_access` (an explicit outcome).
* Whole-solver theorems assume fewer than 2^16 variables or that no clause stored during
  the run has 2^16 literals (`narrow`, read off the log of the final state; LogProofs: the
  log only grows), the range in which the 16-bit search position of a clause cannot wrap
  (C45 refutes the claim beyond). The variables are always fewer than 2^31. C53 keeps the
  first case.
* C01/C02 quantify over every finished call. `Err(SolverBug)` results are not
  answers; C48 excludes panics, not this error value (see C48's note).

