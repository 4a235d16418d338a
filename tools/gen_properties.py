import json
P=[]
def p(title,statement,quant,why,anchors):
    P.append(dict(id="C%02d"%(len(P)+1),title=title,statement=statement,quantifier=quant,why_tests_cant=why,anchors=anchors))
p("A returned solution is valid",
  "When a solve session returns a complete solution, every chooser has exactly one choice in every slot and that choice is scheduled, every scheduled choice has between min and max choosers, every non-optional choice is scheduled, in every slot the min/max sums admit the number of choosers, and every processed scheduling and assignment constraint holds. This does not depend on the LP backend being right.",
  "every processed input, option set, worker count, random stream, clock behaviour and LP-backend answer",
  "the result depends on randomness, deadlines, thread interleavings and an external numeric solver; tests see a handful of runs",
  ["src/threaded_solver.rs: ThreadedSolver::start","src/shotgun_solver.rs: ShotgunSolver::iterate","src/hill_climbing_solver.rs: HillClimbingSolver::solve","src/scoring.rs: Scoring::evaluate, is_feasible"])
p("Declared constraints hold of every valid solution",
  "Each constraint expression that the input script adds (choice.slot ==/!= slot, choice.slot ==/!= choice.slot, slot.choices contains/contains_not, slot.size relation, chooser.choices contains/contains_not, choosers equality, choices equality) and that resolves to existing objects holds, with its documented meaning, of every solution that is valid for the processed input.",
  "every input script's declarations and every solution accepted for it",
  "the declarations pass through name resolution, mirroring, side switching, dependency expansion, sorting and deduplication; tests fix a few scripts",
  ["src/input/constraint_builder.rs: ConstraintBuilder::build","src/constraints.rs: reduce_and_optimize","src/input/input_builder.rs: build_constraints"])
p("Multi-part choices occupy consecutive slots with one audience",
  "If a choice is declared with parts(n), n > 1, then in every solution valid for the processed input either no part is scheduled or the n parts are in n consecutive slots in part order and all parts have the same choosers.",
  "every input with multi-part choices, every n, every valid solution",
  "must hold for every number of parts and every schedule; tests use parts(2) or parts(3) only",
  ["src/input/input_builder.rs: compile_choices, compute_part_constraints","doc/src/Manual.md: parts(x)"])
p("The session result is the best candidate any worker found",
  "The solution returned by the solve session is one that some worker found, and no worker found a solution with a better score; if it is 'no solution' then no worker found one with a finite score.",
  "every number of workers, every set of worker histories",
  "depends on the outcome of all threads; tests cannot enumerate worker histories",
  ["src/threaded_solver.rs: ThreadedSolver::start","src/shotgun_solver.rs: ShotgunSolver::iterate"])
p("Hill climbing never loses ground and stops",
  "Local search started on a scheduling returns either no solution or one whose score is at most that of the assignment first computed for that scheduling; every published improvement is strictly better than the one before in the same climb; with no deadline the climb ends.",
  "every start scheduling, neighbour stream, LP answers and clock",
  "termination and monotonicity over unbounded climbs",
  ["src/hill_climbing_solver.rs: HillClimbingSolver::solve"])
p("The assignment for a fixed scheduling has the lowest possible worst preference",
  "For a fixed scheduling, with no deadline and an exact LP backend and without greedy, AssignmentSolver::solve returns an assignment whose worst (normalized) preference is as small as any valid assignment of that scheduling can have, or none if there is no valid assignment.",
  "every processed input, every feasible scheduling",
  "optimality quantifies over all assignments, exponentially many",
  ["src/assignment_solver.rs: solve_until, solve_with_limit","doc/src/Concept.md: Binary search through preference levels"])
p("The flow model is exactly the assignment problem",
  "For a scheduling and preference limit, an integer point satisfies the generated flow model iff it encodes an assignment that gives each chooser one choice per slot among the choices of that slot, respects min and max, uses only preferences within the limit and satisfies the assignment constraints; its objective is the sum of the costs of the assigned edges.",
  "every processed input, scheduling, preference limit and integer point",
  "equivalence of two exponentially large solution sets",
  ["src/assignment_solver.rs: solve_with_limit, create_edge_groups, build_blocked_constraint_edges","src/mip_flow.rs: MipFlow::solve"])
p("Scores are totally ordered",
  "The order on scores used to pick the best solution is a total preorder (reflexive, total, transitive), consistent with equality, and every non-finite score is worst.",
  "all triples of scores",
  "transitivity over all float triples including NaN, infinities and signed zeros",
  ["src/score.rs: impl Ord for Score"])
p("A smaller worst preference always wins",
  "Outside greedy mode, of two valid solutions with finite scores the one whose worst normalized preference is smaller has the strictly better score.",
  "every processed input and every pair of valid solutions",
  "relational over pairs of solutions and over all preference values up to 2^32-1, where f32 rounding matters",
  ["src/scoring.rs: evaluate, evaluate_major","doc/src/Concept.md: Solution scoring"])
p("Finite score iff valid solution",
  "Evaluating a complete solution yields an infinite score when the solution breaks a constraint, a bound or the one-choice-per-slot rule, and a finite score when it is valid.",
  "every processed input, exponent and complete solution",
  "f32 overflow depends on the exponent and preferences; both directions quantify over all solutions",
  ["src/scoring.rs: evaluate, evaluate_minor, is_feasible"])
p("The scheduling solver only yields feasible schedulings",
  "Whenever next_scheduling returns true, scheduling() gives a slot in range or 'not scheduled' for every choice, only optional choices are unscheduled, every slot's min/max sums admit the chooser count and every scheduling constraint holds.",
  "every processed input, random stream, clock and number of calls",
  "randomised search; tests sample seeds",
  ["src/scheduling_solver.rs: next_scheduling, solve_scheduling","src/scheduling.rs: is_feasible"])
p("The scheduling solver finds a scheduling when there is one",
  "If next_scheduling returns false without any time limit being hit, then no feasible scheduling exists.",
  "every processed input and random stream",
  "absence of a solution is a universal statement over all schedulings, and the search order is random",
  ["src/scheduling_solver.rs: solve_scheduling, calculate_critical_slots"])
p("Critical sets are necessary conditions",
  "If a valid solution gives every chooser only preferences at most p, then its scheduling puts, for every critical set used for limit p, at least one of the set's choices into every slot.",
  "every processed input, every valid solution, every preference level",
  "quantifies over all solutions and all levels",
  ["src/critical_set_analysis.rs: analyze, for_preference","doc/src/Appendix.md"])
p("Critical-set pruning, simplification and caching lose nothing",
  "For every preference level, a scheduling covers all slots from each critical set kept for that level iff it does so for each critical set found at that level or above before covering, simplification and minimisation discarded some.",
  "every processed input, level, simplify flag and scheduling",
  "set-cover equivalence for all collections of sets and index-shifting in-place filtering",
  ["src/critical_set_analysis.rs: analyze, build_cache, insert_minimal_set","src/critical_set.rs"])
p("The preference bound is a true bound",
  "No valid solution has all its preferences at or below a preference level that is smaller than the reported preference bound.",
  "every processed input and every valid solution",
  "universal over solutions; depends on which critical sets are discarded",
  ["src/critical_set_analysis.rs: new, preference_bound","doc/src/Concept.md: Preference bound"])
p("Dependency groups are the connected components",
  "The choice groups computed from same-choosers constraints partition the choices, and two choices are in one group iff a chain of such constraints connects them.",
  "every number of choices and every sequence of joins",
  "induction over arbitrary join sequences",
  ["src/union_find.rs","src/constraints.rs: get_dependent_choices"])
p("Preprocessing a constraint list loses no requirement",
  "Every constraint that holds after side-switching, dependency expansion, sorting and deduplication implies every original one: a solution satisfying the processed list satisfies the unprocessed list.",
  "every constraint list and solution",
  "universal over lists and solutions",
  ["src/constraints.rs: reduce_and_optimize, expand_dependent_constraints"])
p("Preprocessing invents no requirement",
  "A complete solution that satisfies the declared constraints, bounds and one-choice-per-slot rule also satisfies the processed constraints; in particular stating a constraint twice changes nothing.",
  "every constraint list and solution",
  "universal over lists and solutions",
  ["src/constraints.rs: expand_dependent_constraints, get_mandatory_critical_sets"])
p("Accepted inputs never make a solver panic on bounds",
  "If reading an input succeeds, then every choice has min <= max, so that the assignment stage can build its model.",
  "every input script",
  "universal over scripts; the failure is an arithmetic panic in a worker thread",
  ["src/input/rhai_interface.rs: choice","src/input/input_builder.rs: get_dependent_choice_limits","src/assignment_solver.rs: solve_with_limit"])
p("Preferences are mirrored and follow parts",
  "After reading, without same-chooser or containment constraints touching a choice, the normalized preference of chooser p for each part of choice c is the largest preference in the input minus the declared preference of p for c; so higher wishes become lower costs.",
  "every input, any number of choices, parts and choosers",
  "index arithmetic of in-place expansion for arbitrary sequences of parts",
  ["src/input/input_builder.rs: build_preferences, compile_choices"])
p("Preference levels are the normalized preferences",
  "preference_levels is strictly increasing, starts with 0, ends with max_preference and contains exactly the distinct normalized preference values (plus 0 and the maximum).",
  "every input",
  "universal over inputs",
  ["src/input_data.rs: InputData.preference_levels","src/input/input_builder.rs: build_preference_levels"])
p("Time arguments mean what they say",
  "A time string of number-unit components yields the sum of the components in seconds, and a string not of that form is rejected.",
  "all strings",
  "universal over strings, including overflow",
  ["src/options.rs: Options::parse_time","doc/src/Manual.md: Time format"])
p("set_arguments is atomic",
  "A set_arguments call either applies all its arguments in order or reports an error and leaves the options unchanged.",
  "every argument list and previous options",
  "universal over argument lists",
  ["src/input/rhai_interface.rs: set_arguments"])
p("Names resolve exactly, unambiguously, and new names create new objects",
  "An exact name match always wins; a name that matches several objects is an error; creating an object with a name no registered object has creates a new object. Inside constraints a shortened name means the one object it matches, and an ambiguous one is refused.",
  "all name lists and keys, all declaration histories",
  "universal over strings and histories",
  ["src/input/fuzzy_match.rs","src/input/rhai_interface.rs: slot, choice, chooser, find_registered_name"])
p("Registered objects are unique, complete and in order",
  "After a successful read without renaming, slots, choices and choosers appear once each, in the order in which they were first added, with pairwise distinct names, and no created object was left unadded.",
  "all declaration histories",
  "induction over arbitrary histories of script calls",
  ["src/input/rhai_interface.rs: register_slot, register_choice, register_chooser","src/input/input_reader.rs: read_input"])
p("The scheduling CSV is faithful",
  "The scheduling output has a header and then exactly one row per choice, in order, naming the choice and its slot or 'not scheduled', and can be read back to the same table.",
  "every input and solution, all names",
  "universal over names including quotes",
  ["src/output_formatter.rs: write_scheduling_solution"])
p("The assignment CSV is faithful",
  "For a valid solution the assignment output has one row per chooser whose column for slot s names the choice the chooser attends in slot s; an incomplete solution gives an error, not output.",
  "every input and solution",
  "universal over solutions; rows are rebuilt through the scheduling",
  ["src/output_formatter.rs: write_assignment_solution"])
p("Neighbour moves are enumerated exactly",
  "The neighbour keys enumerate each way of moving exactly one choice to a different slot (or to/from 'not scheduled') exactly once and never the scheduling itself.",
  "every number of choices and slots, every scheduling",
  "bijection over unbounded index ranges",
  ["src/hill_climbing_solver.rs: neighbor, max_neighbor_key"])
p("Explored neighbours are feasible and bounded in number",
  "Every neighbour explored in a hill-climbing step is a feasible scheduling, and at most max_neighbors of them are explored per step.",
  "every scheduling, option value and random stream",
  "random stream and unbounded option values",
  ["src/hill_climbing_solver.rs: pick_neighbors, random_swap_neighbor","doc/src/Manual.md: --max-neighbors"])
p("Swap neighbours only permute slots",
  "A random swap neighbour has the same multiset of slot values as the original scheduling, and leaves every choice not picked for the cycle where it was.",
  "every scheduling and random stream",
  "universal over cycles",
  ["src/hill_climbing_solver.rs: random_swap_neighbor"])
p("Riffle shuffle keeps both orders",
  "The riffle of two lists is an interleaving: it contains exactly the elements of both and keeps the order of each, whatever the shuffle does.",
  "all lists and shuffles",
  "universal over permutations",
  ["src/util.rs: riffle_shuffle"])
p("Random helpers: distinct worker seeds, in-range draws",
  "For a fixed base seed different stream numbers give different derived seeds, and a draw from min..max with min < max lies in that range.",
  "all 64-bit seeds and streams, all i32 bounds",
  "2^64 values",
  ["src/rng.rs: derived_seed, next_in_range"])
p("Incremental schedule state equals a rebuild",
  "After any sequence of assignment solves, the per-slot choice lists (up to order), covered-chooser counts and blocked edges used for a scheduling equal those computed from that scheduling alone.",
  "all histories of schedulings",
  "induction over unbounded histories",
  ["src/assignment_solver.rs: update_schedule_state, build_schedule_state_from_scratch"])
p("The assignment cache is transparent",
  "An answer served from the assignment cache is one that was computed for exactly the scheduling asked about and was not cut short by a deadline.",
  "all histories of solve calls",
  "unbounded histories",
  ["src/assignment_solver.rs: solve_until, finish_assignment_result"])
p("Progress is monotone and ends at the result",
  "The best score shown by progress never gets worse between polls, and once all workers have finished and events are drained it equals the score of the returned solution.",
  "all interleavings of worker events and polls",
  "all interleavings",
  ["src/threaded_solver.rs: progress","src/shotgun_solver.rs: publish_best_solution"])
p("Log lines do not depend on write chunking",
  "The lines printed by the log writer depend only on the concatenation of the bytes written, and no byte is lost once flushed.",
  "all byte strings and all ways to split them into writes",
  "universal over chunkings",
  ["src/status.rs: impl Write for IndicatifLogWriter"])
p("Mirrored relations mean the same",
  "Writing a relation with its sides exchanged (and the operator mirrored, as in 3 >= s.size for s.size <= 3) yields the same constraint.",
  "all supported relations",
  "universal over expressions",
  ["src/input/constraint_builder.rs: ConstraintBuilder::build (second pass)"])
p("slice and range select inclusive intervals",
  "range(x,y) is the list of integers from x to y inclusive; slice(x,y) returns exactly the elements at indices x..y inclusive (end meaning the last) or an error when an index is out of range.",
  "all arrays and indices",
  "universal over arrays and i64 values",
  ["src/input/rhai_interface.rs: slice, range","doc/src/Manual.md: Utility functions"])
p("No constraint-shape panic for accepted inputs",
  "For every accepted input all processed constraints have the kind/target/extra shape their consumers expect and all indices are in range, so none of the 'unknown constraint type', 'does not carry' or index panics can happen in validity checks, model building or scheduling search.",
  "every input script",
  "universal over scripts",
  ["src/constraint.rs","src/scoring.rs","src/input/input_builder.rs: build_constraint_maps"])
p("Constraint lookup tables are complete",
  "The choice lookup table gives for each choice exactly the scheduling constraints that mention it (slot-size limits for all), and the chooser table gives for each chooser exactly the assignment constraints that mention it.",
  "every input",
  "universal over constraint lists",
  ["src/input/input_builder.rs: build_constraint_maps","src/input_data.rs"])
p("Bound sums do not overflow",
  "The feasibility check compares the true sums of min and max per slot with the number of choosers, for every accepted input.",
  "every input, incl. large bounds",
  "u32 wrap-around at sizes tests do not use",
  ["src/scheduling.rs: is_feasible","src/scheduling_solver.rs"])
p("Flow edge identifiers are unique",
  "Distinct (from,to) node pairs of the flow network have distinct edge identifiers, and the chooser, choice and slot nodes and their keys are pairwise distinct, so reading back an edge's flow is unambiguous.",
  "all chooser, slot and choice counts below the u32 limit",
  "universal over sizes",
  ["src/mip_flow_static_data.rs: make_long, edge_id, new"])
p("--any stops everyone after one success",
  "With --any, once one worker has found a finite-score solution no worker starts another iteration after observing the cancellation, and the session still returns a finite-score solution.",
  "all interleavings of workers",
  "all interleavings",
  ["src/threaded_solver.rs: ThreadedSolver::start","src/cancellation.rs"])
p("Preference relaxation ends",
  "next_scheduling tries strictly increasing preference limits, ends after at most as many searches as there are preference levels, and its last attempt is at max_preference.",
  "every input and clock",
  "termination",
  ["src/scheduling_solver.rs: next_scheduling","src/input_data.rs: preference_after"])
p("Numeric tags are taken literally",
  "min(x), max(x), bounds(x,y), parts(x) either set exactly the given integer or reject it.",
  "all 64-bit integers",
  "2^64 values",
  ["src/input/rhai_interface.rs: min, max, bounds, parts, choice"])
p("'Not satisfiable' is only reported when true",
  "If reading an input fails because the constraints are not satisfiable then no valid solution satisfies the declared constraints.",
  "every input",
  "universal over solutions",
  ["src/constraints.rs: reduce_and_optimize","src/input/input_builder.rs: build_constraints"])
p("Search bookkeeping is exact",
  "At every step of the scheduling search the per-slot min, max and choice counts equal those of the decisions made so far, so undoing a decision never underflows.",
  "all decision/undo histories",
  "induction over search histories",
  ["src/scheduling_solver.rs: apply_decision, clear_decision"])
p("Choices with one audience share the intersection of their bounds",
  "After reading, a number of choosers is admitted by the bounds of a processed choice iff it is admitted by the declared bounds of every choice that is tied to it by same-choosers constraints (including the other parts of the same choice).",
  "every input, every group of tied choices, every number",
  "quantifies over all tie graphs and bound combinations",
  ["src/constraints.rs: get_dependent_choice_limits","src/input/input_builder.rs: process_input_reader"])
p("Compiling an input never panics",
  "Compiling a registered input either succeeds or reports an error; it never panics.",
  "every set of registered slots, choices, choosers and constraint expressions",
  "panics hide behind unusual names, counts and integers",
  ["src/input/input_builder.rs: process_input_reader","src/input/constraint_builder.rs: build, resolve_accessor"])
p("Solving an assignment never panics",
  "For every accepted input and every valid scheduling, AssignmentSolver::solve returns an assignment or none; it never panics.",
  "every accepted input, every valid scheduling, every history of calls, any clock",
  "overflow, indexing and 'must be assigned' assertions depend on unusual inputs and histories",
  ["src/assignment_solver.rs: solve_until, solve_with_limit","src/mip_flow.rs: MipFlow"])
p("The assignment is cheapest within its level",
  "With an optimizing LP backend, the assignment returned for a scheduling has the least total cost sum((preference+1)^exponent) among all assignments of that scheduling within the first feasible preference level (in greedy mode: among all).",
  "every processed input, scheduling and history of calls",
  "optimality over exponentially many assignments",
  ["src/assignment_solver.rs: solve_until, solve_with_limit"])
p("A solve session never panics",
  "For a prepared problem whose sizes stay within the machine integers, with an LP backend that gives no wrong answers, no worker panics and wait() returns a solution or 'no solution' once the workers have finished.",
  "every accepted input within the size limits, every option set, interleaving, random stream and clock",
  "a panic can hide behind any combination of input, history and interleaving",
  ["src/threaded_solver.rs: start, wait","src/shotgun_solver.rs: iterate","src/hill_climbing_solver.rs: solve","src/assignment_solver.rs: solve_until","src/scheduling_solver.rs: next_scheduling"])
p("No worker gets stuck",
  "In every reachable state of a session a worker that has not finished can make a move: every scheduling search, climb and iteration ends.",
  "every reachable session state, every clock; random streams that keep delivering every index",
  "termination of unbounded loops",
  ["src/threaded_solver.rs: start","src/shotgun_solver.rs: iterate","src/hill_climbing_solver.rs: solve, random_swap_neighbor"])
p("Local search ends at a local optimum",
  "Without a deadline and with max_neighbors larger than twice choices x slots, local search returns a solution such that for every valid scheduling that differs in the slot of one choice, the assignment computed for it does not score better.",
  "every input, start scheduling, random stream and LP behaviour",
  "universal over climbs and neighbourhoods",
  ["src/hill_climbing_solver.rs: solve, pick_neighbors"])
p("Progress counters grow and the shown solution has the shown score",
  "Between polls the iteration and assignment counters never decrease, and the score shown is the score of the solution shown.",
  "all interleavings of worker events and polls",
  "all interleavings",
  ["src/threaded_solver.rs: progress","src/shotgun_solver.rs: publish_best_solution, publish_iterations, publish_assignments"])
p("A cancelled session winds down",
  "After a cancellation (by the caller or by a successful worker) no worker that sees the flag's current value starts another iteration, and every worker finishes after at most one more iteration.",
  "all interleavings of workers and caller",
  "all interleavings",
  ["src/threaded_solver.rs: start, cancel","src/cancellation.rs"])
p("Script constraints refer to the objects they were written with",
  "A constraint written in a script with the handles of slots, choices and choosers holds, in every valid solution of the compiled input, of exactly the objects those handles were returned for (scripts that do not rename objects).",
  "every script (list of interface calls), every valid solution of the compiled input",
  "constraints are stored by name and resolved later, after fuzzy matching and part expansion; all name collisions would have to be tried",
  ["src/input/input_reader.rs: register_constraint, read_input","src/input/constraint_builder.rs: resolve_accessor"])
p("Reading a script never panics",
  "A script call returns a value or an error, and reading the whole input returns an input or an error, never a panic, when integers are within 32 bits.",
  "every script, every argument, both build profiles",
  "panics hide behind unusual arguments and orders of calls",
  ["src/input/input_reader.rs","src/input/input_builder.rs: process_input_reader"])
p("Reading is independent of the reader's history",
  "read_input called on a reader that has read other scripts before gives the same input and errors as a new reader; only the options carry over.",
  "every history of scripts read by one reader",
  "all histories",
  ["src/input/input_reader.rs: read_input"])
p("The program outputs exactly the result",
  "The program reads its input files in order (or standard input); exit code 0 means it output nothing because there is no solution, or the scheduling table (only if there is more than one slot) and the assignment table at the place the options in force name; otherwise it exits with 1 and has output nothing, except that the scheduling file may exist when the assignment file cannot be written.",
  "every input, option set, solver result and set of readable and writable files",
  "all combinations of options, failures and results",
  ["src/main.rs: run, try_run, read_input_string, output_string","src/output_formatter.rs"])
p("Progress bars nest",
  "When progress bars are dropped in the reverse order of their creation, the bar that was active before is active again, and log lines go to the innermost live bar.",
  "every nesting of progress bars",
  "all nestings",
  ["src/status.rs: create_progress_bar, Drop for StatusProgress"])
p("What the program outputs is a valid solution of the script",
  "From script text to CSV: with exit code 0 the output is empty or the tables of a scheduling and an assignment that form a valid solution of the compiled input, and every constraint the script stated holds of the objects it was stated about.",
  "every script, option set, worker interleaving, random stream, clock and LP library behaviour",
  "composition of all components over all executions",
  ["src/main.rs: run, try_run","src/input/input_reader.rs: read_input","src/prepared_problem.rs: new","src/threaded_solver.rs: start, wait","src/output_formatter.rs"])
p("The program does not panic",
  "For inputs whose sizes stay within the machine integers and with an LP backend that gives no wrong answers, the program ends with exit code 0, or with 1 because the input cannot be read, is rejected, or an output file cannot be written; it never panics.",
  "every script within the size limits, every execution",
  "a panic can hide behind any combination of input and execution",
  ["src/main.rs","src/prepared_problem.rs: new","src/threaded_solver.rs"])
p("One slot: the session is exact",
  "With a single slot and no optional choice, a session that runs to its end (no cancellation, no timeout) returns a valid solution if one exists and 'no solution' only if none exists; with normal scoring no valid solution has a smaller worst preference than the one returned.",
  "every one-slot input, random stream, LP library that gives no wrong answers, preference exponent without overflow",
  "optimality and completeness over all solutions",
  ["src/threaded_solver.rs: start, wait","src/shotgun_solver.rs: iterate","src/scheduling_solver.rs: next_scheduling","src/assignment_solver.rs: solve_until","src/prepared_problem.rs: new"])
p("No solution means no scheduling",
  "With several slots, a session that runs to its end (no cancellation, no timeout) without a solution proves that no valid scheduling exists; on a solvable input such a session ends by itself only with --any, and then with a valid solution.",
  "every input, number of workers, interleaving and random stream",
  "completeness of a randomised concurrent search over all executions",
  ["src/threaded_solver.rs: start, wait","src/shotgun_solver.rs: iterate","src/scheduling_solver.rs: next_scheduling"])
p("The score is the cost of the solution, up to rounding",
  "The secondary score of a valid solution is the sum over all seats of preference^exponent, relative to (largest preference)^exponent, up to a stated rounding error (relative (seats+2)/2^23); so, of two valid solutions with equal worst preference (or in greedy mode), the one that is cheaper by more than the rounding scores better.",
  "every input with at most 2^22 seats and powers below 2^100, every valid solution, both scoring modes",
  "rounding errors over all inputs",
  ["src/scoring.rs: evaluate, evaluate_minor, Scoring::new","src/score.rs: Ord for Score"])
p("The assignment returned for a scheduling has the best score",
  "With an optimizing LP backend, no valid assignment of the scheduling within the same preference level (in greedy mode: none at all) gets a better score than the assignment the solver returns.",
  "every processed input, scheduling, exponent, scoring mode and history of calls",
  "optimality over exponentially many assignments; the solver's objective and the score are computed by different formulas",
  ["src/assignment_solver.rs: solve_until, solve_with_limit","src/scoring.rs: evaluate_minor"])
p("The status line reports the result",
  "After a session whose reports have all arrived, the line printed is 'No solution found.' iff no solution is returned; otherwise it contains the score of the returned solution and the total numbers of iterations and assignments. While the session runs, each status message shows the score of the best solution reported so far, or 'no solution yet' if there is none. A score is printed as (worst preference, relative cost) with 5 correctly rounded decimals, in greedy mode as the relative cost.",
  "every session, number of workers, interleaving, number of status updates and polling times",
  "the line is assembled from reports that arrive asynchronously",
  ["src/status.rs: track_solver, format_solver_message, format_solver_summary","src/score.rs: to_str","src/util.rs: str_float","src/threaded_solver.rs: progress"])
p("The progress bar follows the clock",
  "The bar's position is the time since the start in milliseconds, rounded up and capped at the timeout; it never moves backwards while the clock does not, and never beyond its end. The bar is as long as the timeout in milliseconds (never empty), and full exactly when less than a whole millisecond is left.",
  "every timeout, number of workers and sequence of clock readings",
  "quantifies over all clock histories",
  ["src/status.rs: track_solver","src/threaded_solver.rs: remaining_time"])
p("More constraints, fewer solutions; their order does not matter",
  "If an input is accepted, it is accepted with constraints taken away, and every scheduling and solution valid before remains valid. Stating the constraints in another order leads to the same verdict, choices, bounds, preferences, valid solutions and scores.",
  "every input, every multiset of added constraints and every order",
  "compares the solution sets of all pairs of inputs",
  ["src/input/input_builder.rs: process_input_reader","src/input/constraint_builder.rs: build","src/union_find.rs: UnionFind"])
p("Names do not matter",
  "If every object has a name of its own and constraints use full names, renaming all objects consistently changes nothing but names: the input is accepted or rejected alike (with the same message, up to a chooser's name in it), with the same bounds, constraints, valid solutions and scores, and the solver can run on it in exactly the same ways, to the same results.",
  "every input, every consistent renaming, and every run of the solver",
  "relates all pairs of inputs that differ by a renaming",
  ["src/input/input_builder.rs: process_input_reader","src/input/constraint_builder.rs: resolve_accessor, find_name","src/input/constraint_builder.rs: build"])
p("Relaxing bounds keeps solutions",
  "Lowering minima, raising maxima or making choices optional keeps an accepted input accepted; every solution valid before remains valid, and its score does not change.",
  "every input and every such relaxation",
  "compares the solution sets of all pairs of inputs",
  ["src/input/input_builder.rs: process_input_reader","src/input/input_builder.rs: get_dependent_choice_limits","src/scoring.rs: evaluate"])
p("Same seed, same result",
  "What a session computes depends on its random streams (fixed by WASSIGN_SEED), its clocks and the number of iterations each worker completes, not on the interleaving of its threads: equal numbers of iterations give equal solver states, equal events per worker and an equal result. So two runs with the same WASSIGN_SEED that are neither cancelled nor timed out return the same solution, whenever they start and however they are interleaved, except with --any and several workers.",
  "every prepared problem, seed, number of workers, pair of interleavings",
  "relates all pairs of schedules of concurrent workers",
  ["src/main.rs: run","src/rng.rs: derived_seed, mix_seed","src/threaded_solver.rs: start, wait","src/shotgun_solver.rs: new_with_seed, iterate"])
p("CSV files are read completely",
  "read_csv returns all records of the file in order, or fails with the first error (separator beyond one byte, file not readable, bad record); it never returns part of a file. Without a separator, or with an empty one, it is a comma. rows, row(i) and [i] agree for 0 <= i < number of rows; outside, row(i) is an error and [i] an empty row.",
  "every file content, separator and index",
  "all inputs",
  ["src/input/rhai_interface.rs: read_file_csv, CsvDocument"])
p("Options take effect",
  "The solution a run outputs is at least as good as every solution any worker found, by the scoring mode (--greedy) and exponent in effect after the script's arguments; as many workers run as asked for (one if there is one slot); without --any no worker makes the others stop; the limit of neighbours, the cost exponent and the time limits are the ones in effect; critical sets are used unless switched off, in greedy mode or with one slot, and are simplified unless that is switched off.",
  "every script, option setting, number of workers, interleaving and random stream",
  "end-to-end over all executions of a concurrent program",
  ["src/main.rs: try_run","src/prepared_problem.rs: new","src/threaded_solver.rs: start, wait","src/scoring.rs: evaluate"])
p("What no output and an output prove, end to end",
  "A run whose session is neither cancelled nor timed out: with one slot and no optional choice, exit code 0 without output means that the script's input has no valid solution, and an output is the table of a valid solution whose worst preference no valid solution undercuts; with several slots and without --any, exit code 0 means that nothing is output and no valid scheduling exists.",
  "every script, number of workers, interleaving and random stream; sizes within the machine integers",
  "completeness and optimality over all solutions, end-to-end",
  ["src/main.rs: run, try_run","src/threaded_solver.rs: start, wait","src/shotgun_solver.rs: iterate","src/assignment_solver.rs: solve_until","src/output_formatter.rs"])
p("The time limit is honoured",
  "Once the deadline has passed, nothing more is searched: the assignment solver poses no further LP (its answer is the remembered assignment of that scheduling or none), the scheduling search gives up within one turn per preference limit, local search looks at no further scheduling, and a worker makes at most four more moves, keeping its best solution and reporting nothing new.",
  "every moment at which the deadline may pass, every input, random stream, LP library and interleaving",
  "the clock may strike at any point of any run",
  ["src/assignment_solver.rs: solve_until, solve_with_limit","src/scheduling_solver.rs: next_scheduling, solve_scheduling","src/hill_climbing_solver.rs: solve","src/shotgun_solver.rs: iterate","src/threaded_solver.rs: start"])
p("More work never makes the result worse",
  "Of two sessions on the same problem with the same random streams, the one with at least as many workers, each completing at least as many iterations, returns a result that is no worse. So without --any (and with no cancellation), raising the number of threads never makes the result worse. With --any it can.",
  "every problem, number of workers, random streams, LP library and pair of interleavings",
  "relates all pairs of executions of different concurrent sessions",
  ["src/threaded_solver.rs: start, wait","src/shotgun_solver.rs: iterate","src/hill_climbing_solver.rs: solve"])
p("Listing order does not matter",
  "Listing the choosers, the choices or the constraints in another order, and the slots too when no choice has several parts, keeps an accepted input accepted with the same choices, bounds and preferences; renumbering slots, choosers and choices accordingly turns valid schedulings and solutions into valid ones with the same scores, so both inputs are solvable or neither is, and the scores their solutions reach are the same. With multi-part choices the order of the slots does matter (parts are held in consecutive slots).",
  "every input and every reordering of its choosers, choices, constraints and slots",
  "relates all pairs of inputs that differ by a permutation, and all their solutions",
  ["src/input/input_builder.rs: process_input_reader","src/input/constraint_builder.rs: resolve_accessor, find_name","src/scoring.rs: evaluate"])
p("Preferences on another scale",
  "Replacing every stated preference x by f(x), with f strictly increasing, keeps an accepted input accepted with the same choices, bounds, constraints and valid solutions; which of two choices counts as better, which of two assignments has the smaller worst preference, and (where worst preferences differ) which of two solutions scores better do not change. On a linear scale a*x+b, normalized preferences and worst preferences are multiplied by a and b disappears.",
  "every input, every strictly increasing rescaling whose values fit u32, every pair of solutions",
  "relates all pairs of inputs that differ by a rescaling, and all their solutions",
  ["src/input/input_builder.rs: build_preferences, get_dependent_preferences", "src/scoring.rs: evaluate"])
p("The output tables name what was declared",
  "In the scheduling table the rows are the parts of the declared choices in the order of declaration; part 1 of a choice declared as X is shown as X (without one leading '~'), part k >= 2 as '[k] X', next to the declared name of its slot or 'not scheduled'. The assignment table has a row per declared chooser and a column per declared slot, and its cells name parts in the same way. If the declared names are distinct and none begins with '~' or '[', a shown name belongs to one part only.",
  "all accepted inputs, all schedulings, all valid solutions, all names and numbers of parts",
  "Names pass through compilation, preprocessing and two formatters; a slip in the numbering shows only for some numbers of parts and names.",
  ["src/input/input_builder.rs: compile_choices", "src/output_formatter.rs: write_scheduling_solution, write_assignment_solution", "src/input_data.rs: GENERATED_PREFIX"])
p("The solver-call counter counts the LP instances, and the work per assignment is bounded",
  "A worker's LP counter counts exactly the flow instances it built: its reports are 1, 2, 3, ... For one assignment request a cached answer builds no instance, greedy mode at most one (at the maximal preference), and otherwise at most floor(log2 k)+1 where k is the number of preference levels at or above the critical bound, no limit twice and only limits from those levels (or the last level); a request that is not cut short and not cached builds at least one. The number in the progress line is the sum of the workers' reports and at most (assignments shown + threads) times that bound. When everything has arrived, the final line gives the total number of instances built by all workers.",
  "all inputs, schedulings, LP answers, clocks, schedules of the workers and points at which the progress line is drawn",
  "the number of solver calls depends on every feasibility answer, on the cache and on the deadlines; a test sees a few of them",
  ["src/assignment_solver.rs: solve_until, solve_with_limit, publish_lp", "src/shotgun_solver.rs: WorkerProgressEvent", "src/threaded_solver.rs: progress, drain_progress", "src/status.rs: format_solver_summary"])
p("The search depth shown stays within the maximum shown",
  "Whenever the progress line is drawn, the depth shown is a number between 0 and the maximal depth shown, which is the number of choices, if there are at most 65535 choices, 65535 threads and threads times choices is at most 2^24; once a worker completed a search that found a scheduling, the depth it reports is the maximum.",
  "all inputs, random streams, critical sets, schedules of the workers and points at which messages arrive",
  "depends on every backtracking path and on f32 rounding of a sum over any number of threads",
  ["src/scheduling_solver.rs: solve_scheduling, next_scheduling, publish_depth", "src/threaded_solver.rs: progress", "src/status.rs: format_solver_message"])
p("A panic in a worker ends in an error, never in a hang or a silent loss",
  "If a worker thread panics, the other workers and the cancellation flag are untouched; the session counts as running until no worker can do anything any more, and not longer; then waiting returns an error exactly if some worker panicked (even if another worker found a solution) and a result otherwise; the program exits with code 1 and writes no table.",
  "all problems, worlds, interleavings and points at which a worker panics",
  "needs every interleaving and every crash point",
  ["src/threaded_solver.rs: start, is_running, wait", "src/main.rs: run, try_run", "src/status.rs: track_solver"])
p("Repeating the search can reach the best solution",
  "Random restarts are there to find the global optimum: whatever a session tries is a scheduling delivered by the scheduling search or derived from one by moves of single choices and swaps through valid schedulings, and for every solvable input some course of the random draws leads to a scheduling that admits the best score.",
  "All inputs, all random draws of all workers, all numbers of workers, interleavings, clocks and LP answers.",
  "That something is out of reach means that no run at all gets there; a test sees only single runs, and a missing optimum looks like bad luck.",
  ["src/scheduling_solver.rs: calculate_feasible_slots, get_choice_scramble, slot_order_heuristic_score", "src/hill_climbing_solver.rs: pick_neighbors, random_swap_neighbor", "src/shotgun_solver.rs: iterate", "doc/src/Concept.md: Shotgun hill climbing"])
p("An additional optional choice never hurts",
  "Declaring one more optional choice (of any number of parts) at the end of an accepted input, with one more preference per chooser, keeps the input accepted, provided constraints name choices by their full names. The solutions of the new input in which the additional choice does not take place are exactly the solutions of the old input, and keep their scores if nobody rates the additional choice above every earlier preference; so the best reachable score never gets worse. With a choice named by only part of its name, the addition can make the input rejected.",
  "every input, every added choice, every solution, every exponent and both build profiles",
  "A test adds one choice to one input; the claim is about every input, constraint set and solution",
  ["src/input/input_builder.rs: process_input_reader, build_constraints", "src/input/constraint_builder.rs: build, find_name", "src/scoring.rs: evaluate"])
p("A rejection names a fault the input has",
  "When the input is rejected, the message is true: it names the first chooser whose number of preferences is wrong; or the first faulty constraint's fault (an unsupported form, a name that matches several objects equally well, a part the choice does not have, a text that is no number), with the offending name or number; or it says that the constraints are not satisfiable, and no arrangement using every slot satisfies them. Conversely an accepted input has no such fault, except in constraints that are ignored since one of their names matches nothing.",
  "every declared input and every message",
  "the fault and the message must agree for every combination of names, parts, numbers and constraint forms",
  ["src/input/input_builder.rs: build_preferences, process_input_reader", "src/input/constraint_builder.rs: build, add_constraint, resolve_accessor, find_name"])
p("No free improvement (Pareto)",
  "If a worse preference costs more, the assignment in a returned solution cannot be improved for free: no other assignment that makes a valid solution with the same scheduling (and gives choices tied by same-choosers chains one audience, which every valid one does if all choices are held) leaves nobody worse off in any slot and somebody better off. This also holds for results cut short by the time limit or by cancellation.",
  "all inputs of admissible size, all call histories of the assignment solver, all numbers of workers and schedules of their steps, all clocks and cancellations, all competing assignments, given an LP library that returns optimal points",
  "It compares the result with every competing assignment and must hold for every point at which the deadline can interrupt the level search and for every history of the answer cache.",
  ["src/assignment_solver.rs: solve_until, solve_with_limit, build_edges", "src/hill_climbing_solver.rs: solve_until", "src/threaded_solver.rs: ThreadedSolver", "src/main.rs: run"])
p("No overflow warning, no distorted costs",
  "Unless the program warns that the preference exponent is too large, a worse preference costs the assignment solver strictly more than a better one, and no cost is cut off at the largest 64-bit integer.",
  "every accepted input, every exponent and every power function of the platform that is accurate to 2^-52, all pairs of preferences",
  "It ranges over all preferences up to 2^32, all exponents and all roundings of double-precision arithmetic; a test evaluates single costs.",
  ["src/main.rs: run (lines 70-78)", "src/assignment_solver.rs: build_edges (lines 399-401)"])
p("The messages of a run are true",
  "The lines a run logs (at the default level) describe it: the numbers of slots, choices (each part counts), choosers and constraints; the overflow warning exactly when its condition holds; whether critical sets are analysed and simplified, how many there are and the bound; 'Solution found.' with the score of the delivered solution exactly when tables are delivered, otherwise 'No solution found.'; each file is announced by its path directly before it is written. Exit code 1 comes with exactly one error line, the last one, that gives the reason; no other run reports an error. The messages never change what is output.",
  "all scripts, options, schedules, file systems and results of the program",
  "It ranges over every way a run can go, including failures at each output step; a test sees single runs.",
  ["src/main.rs: run, try_run, output_string", "src/status.rs: info, warning, error, track_solver", "src/critical_set_analysis.rs: analyze"])
p("Options mean the same on the command line and in the script; the last word counts",
  "A set_arguments call succeeds exactly if its words are documented options with readable values; then each option has the value given last (or its previous value), a switch is on if it was on or is given (a script cannot switch off what the command line switched on), and input files add up. The command line reads the same words the same way from the documented defaults, and accepts exactly those lists that give no option but --input twice, do not ask for help and have no value that looks like an option. The options in effect in a run are the defaults, then the command line, then the accepted set_arguments calls, in this order.",
  "every command line (of separate words), script and list of arguments",
  "universal over argument lists and over combinations of command line and script",
  ["src/options.rs: Options, Options::default, parse_time", "src/input/rhai_interface.rs: set_arguments", "src/main.rs: run (Options::parse)"])
p("Contradictory scripts get no output",
  "If a script states a constraint and its opposite of the same objects (== and !=, > and <=, < and >=, contains and contains_not; an equation may be written either way round), every valid solution leaves out a choice concerned, which then is optional; where nothing is optional, a run that ends regularly writes nothing.",
  "every script without renames, every pair of opposite constraints, every solution, every run of the program",
  "universal over scripts, solutions and executions",
  ["src/input/rhai_interface.rs: register_relation, register_contains", "src/input/constraint_builder.rs: build", "src/constraint.rs: ConstraintType, SlotSizeLimitOp", "src/main.rs: try_run"])
p("One slot: the worst preference depends on the input only",
  "Two undisturbed runs on the same one-slot input without optional choices, in the default scoring mode, with any exponents, other options, numbers of workers, schedules and random numbers: both output nothing and there is no solution, or both output a solution and the worst preferences are equal.",
  "every input with one slot, every pair of option settings, interleavings, random streams and LP answers",
  "relational over pairs of executions of a concurrent, randomised program",
  ["src/main.rs: try_run", "src/threaded_solver.rs: start, wait", "src/assignment_solver.rs: solve", "src/prepared_problem.rs: new"])
p("Constraints may be kept in variables",
  "A script that keeps attributes (such as c.slot) or constraints in variables and adds the constraints later, any number of times, is read exactly like the script in which every constraint is written out where it is added, provided nothing is renamed; a constraint that is built and never added has no effect. A comparison that does not exist (two objects, two integers, contains of anything but an attribute and an object) is an error and never becomes a constraint.",
  "every script (list of statements), every use of variables",
  "all interleavings of building, keeping, registering and adding would have to be tried",
  ["src/input/rhai_interface.rs: register_relation, register_contains, build_expression, register_constraint, name_value"])
p("The LP library gets and gives back exact numbers",
  "Every number of every instance handed to the LP library (cost and capacity of every edge, supply of every node) arrives, as a double-precision number, as exactly the integer the solver means, whatever the exponent, the power function and the preferences; only a cost cut off at the largest 64-bit integer arrives as 2^63. So, if no cost is cut off, what the library minimizes at integer points is the total cost; and if its answers lie within a half of a feasible point, the solver reads exactly this point.",
  "every input, scheduling, preference limit, exponent, power function, and answer of the library",
  "depends on rounding in floating point for all magnitudes of costs",
  ["src/mip_flow.rs: solve", "src/assignment_solver.rs: solve_with_limit"])
p("From the command line to the exit code",
  "Exit code 2 (0 for a help or version text) is given exactly for a command line that is not accepted, and nothing is read, written or printed then. Otherwise the exit code is 0, or 1 because there is no input, the input is not accepted, or an output file cannot be written; the program does not panic as long as no time said on the command line or limit set by the script exceeds 2147483647 seconds. What is output with code 0 are the tables of a valid solution that keeps the constraints of the script, delivered as the options say that are on the command line and, after them, in the script.",
  "every list of command-line words, every input, every script, every schedule of the workers, every behaviour of clock and random numbers, debug and release builds",
  "the command line, the script, the schedule of the threads and the random numbers form an unbounded space; tests see a few runs",
  ["src/main.rs run, try_run, read_input_string, output_string", "src/options.rs Options, parse_time", "src/prepared_problem.rs PreparedProblem::new", "src/threaded_solver.rs ThreadedSolver::start"])
p("A negated constraint is the opposite constraint",
  "For a constraint that can be negated (a choice in a slot, two choices in the same slot, the size of a slot, a slot containing a choice, a chooser in a choice, and their opposites) the negation holds in a solution exactly when the constraint does not, as long as the choices it talks about take place; negating twice gives the constraint back; every other constraint becomes the invalid one, which no solution meets.",
  "every constraint and every solution",
  "all constraints times all solutions, including dropped choices",
  ["src/constraint.rs Constraint::negation, SlotSizeLimitOp::negation"])
with open("/verif/properties.jsonl","w") as f:
    for x in P: f.write(json.dumps(x)+"\n")
print(len(P))
