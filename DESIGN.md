# Formal model of wassign in Rocq (Coq 8.16.1)

Source: `/repo` (Rust, despite the task header). Nothing was built or run; the model is a reading of the text.

## Layout (`rocq/theories`)

* `Base.v` – outcome monad (`Ok | Err | Panic`), list update/indexing with panics, u32 arithmetic with both
  build profiles (overflow = panic in debug, wrap in release).
* `M_*.v` – the model, definitions only, each citing file:lines.
* `Spec.v`, `Spec_*.v` – the independent specification: what a valid scheduling / solution / declared
  constraint / report / output table *means*, written with plain quantifiers and none of the model's helpers.
* `P_*.v` – proofs.
* `T_*.v` – property theorems only (`exact lemma`), each with a witness `Example` and `Print Assumptions`.

## Modelling conventions

* `usize` indices are `nat`; `u32` values are `N`; `i32`/`i64` are `Z`; strings are Coq `string` (bytes).
* A Rust panic, failed `expect`/`assert` or out-of-range index is the outcome `Panic`; `crate::Error` is `Err`.
* Integer overflow: `profile` parameter (`Debug` panics, `Release` wraps).
* f32: `Coq.Floats.SpecFloat` with prec 24, emax 128 (axiom-free). `powf` is a universally quantified function.
* Randomness: an oracle list / function, universally quantified. Clock: oracle of booleans ("deadline reached now?").
* LP backend (`microlp` via `good_lp`): an oracle function, universally quantified. Theorems that need the backend
  to be exact carry that as an explicit hypothesis (the definitions `honest_lp`, `optimal_lp` in `Spec_Calls.v`).
* Threads: workers interact only through the cancellation flag and an mpsc channel, so a session is an
  arbitrary interleaving of worker steps; theorems quantify over interleavings.

## Plan per property

| id | plan |
|----|------|
| C01 | session model over arbitrary workers/oracles; prove final solution satisfies `Spec.valid_solution` via evaluate/is_feasible. |
| C02 | semantics of expressions in Spec; prove through build/reduce/expand. |
| C03 | from compile_choices + part constraints + C17. |
| C04 | fold over workers; minimality by induction. |
| C05 | climb as fuelled loop; monotone; termination by well-founded finite score set. |
| C06 | false as stated (levels are raw, bound too high): `_refuted` + `_partial` (least feasible *level* at or above the bound). |
| C07 | encode/decode between assignments and integer points. |
| C08 | refuted across modes; proved within one mode. |
| C09 | proved for preferences <= 2^24, refuted beyond. |
| C10 | infinite direction proved; finite direction refuted (exponent overflow). |
| C11 | invariant of the search + final check. |
| C12 | refuted (leaf rejection aborts search); partial: exhausted search implies no feasible scheduling. |
| C13-C15 | critical-set semantics; C15 refuted/partial. |
| C16 | union-find invariant, closure characterisation. |
| C17, C18 | semantics of constraint lists; C18 refuted (duplicate, min 0, optional) + partial. |
| C19 | refuted. |
| C20, C21 | induction over choices; C21 refuted/partial. |
| C22 | spec grammar; refuted for rejection, proved for well-formed strings in range; `C22_exact_reading_partial` (T_Times) gives the exact language and value for both build profiles, including where debug builds panic. |
| C23 | state function. |
| C24, C25 | reader state machine, induction over histories; C24 creation part refuted. Names inside constraints (`T_Names.v`): the builder's lookup against the four levels of `Spec_Script.best_match`. |
| C26, C27 | output strings; parser for read-back; C26 refuted with quotes. |
| C28-C31 | neighbour arithmetic, cycles, riffle. |
| C32 | 64-bit mixing is injective. |
| C33, C34 | invariants over solve histories. |
| C35 | event-list machine, all interleavings. |
| C36 | buffer machine. |
| C37 | refuted for order relations, proved for symmetric ones. |
| C38 | list/int arithmetic. |
| C39 | well-formedness invariant of build; checked functions return Ok. |
| C40 | choice table proved, chooser table refuted. |
| C41 | refuted with wrap; partial under sum bound. |
| C42 | arithmetic injectivity. |
| C43 | small-step interleaving with cancel flag. |
| C44 | termination of relaxation loop. |
| C45 | refuted (i64 as i32 truncation); partial inside i32. |
| C46 | from Spec: distinct slots cannot have equal non-empty choice sets. |
| C47 | invariant over apply/clear histories. |
| C48 | classes of same-audience constraints (union-find invariant); bounds of a class = intersection, by induction. |
| C49, C58 | totality of compiling / reading: every indexing is in range on well-formed readers; refuted where the code panics. |
| C50 | totality of every step of the assignment stage for solvable sizes; refuted for min > max. |
| C51 | objective of the decoded integer point = cost of the assignment; the level loop stops at the first feasible level. |
| C52, C53 | session invariant: no worker step panics, every unfinished worker can move. |
| C54 | when a climb ends by itself, no neighbour key leads to a better score. |
| C55, C56 | counters and shown solution in the status; invariant over events; cancelled workers finish. |
| C57 | compile correctness from script objects to processed input; refuted under renaming. |
| C59 | the reader starts from a fresh interface state. |
| C60 | main: order of effects, exit codes, output text. |
| C61 | progress-bar stack, induction over nestings. |
| C62, C63 | composition: script -> build -> prepare -> session -> output. |
| C64, C65 | undisturbed sessions (no cancel, no timeout): exact with one slot; 'no solution' means no scheduling otherwise. |
| C66 | f32 sum against the real sum; Flocq's rounding lemmas, error by induction over the histogram. |
| C67 | C51 + C66; refuted since solver objective and score use different formulas. |
| C68 | `track_solver` as a function of the events that arrive at each look; the aggregate is compared with what the workers hold (C35); decimal text specified by `shows`/`number`. |
| C69 | positions passed to the bar as a function of the clock readings; monotone and bounded by arithmetic. |
| C70 | two runs of `build_input`, the second with more constraints: every class of same-audience constraints only grows, so bounds shrink and mandatory sets grow; induction over the constraint list and its permutations. |
| C71 | two runs of `build_input` in lock-step; every full name resolves to the same index; every solver function shown to give equal results on inputs that differ in names only (P_Anon), so the sessions coincide. Refuted for parts of names. |
| C72 | two runs of `build_input` with related bounds; the score does not read the bounds of a valid solution. |
| C73 | an iteration is a function of the worker's own state and streams (more turns never change a result); a worker's life is then determined by its number of iterations; induction over interleavings. Refuted for --any with several workers. |
| C74 | the csv crate as an arbitrary function; the record loop by induction; accessors by cases on the index. |
| C77 | every loop that looks at the clock, with a clock that reports "late" from an arbitrary request on: induction over the levels / limits, ranking of worker positions. |
| C78 | a worker that completes more iterations keeps all candidates it had (the life of a worker by iterations, as for C73), and the result is the best of all candidates (C04). |
| C79 | `build_input` commutes with renumbering (name lookup needs a unique match, so it finds the same object; constraints are renumbered; order-dependent deduplication changes nothing in the set of constraints); the meanings are invariant under renumbering; the histogram of preferences is a permutation. For choices (P_Order2): part k of choice i moves to part k of choice f i; the generated must-not-overlap pairs may come out turned round, which their meaning ignores. |
| C80 | `build_input` commutes with a strictly increasing regrading: constraints do not look at preferences, the maximum, the mirrored values, the minimum over an audience and the zero of mandatory choices are mapped by one strictly increasing function. |
| C81 | rows of both tables from the declarations (Spec_Labels), by C26/C27's table theorems and the closed form of the compiled choices; decimal numbers are read by Spec_Status.number. |
| C82 | M_Effort: the solver functions once more with counter and messages, erasure lemmas (P_Effort); halving argument for the binary search (P_Effort2); induction over iterations (P_Effort3); the final line (T_Report) from C68, C82 and C83. |
| C83 | invariant depth <= number of choices over the search machine; f32 sum of integers up to 2^24 is exact and f32 division is monotone (Flocq, P_Effort4). |
| C84 | case analysis of the moves of M_Threads; witness: a session in which one worker finds the best solution and the other one panics. |
| C85 | Closure predicate `reached`; invariant over explore/climb/iterate/moves; refutation: the search depends only on the choice order, all orders evaluated in the kernel, neighbours excluded by a lemma on rotations. |
| C86 | theories/T_Extra.v: `with_extra` (Spec_Extra.v) relates the two readers; the builder is run on both in step (P_Extra.v), then the checks of solutions are compared. |
| C87 | Spec_Reject.v lists the faults an input can have and the message of each, with supported forms, name matching and decimal numbers specified independently; T_Reject.v proves that every error of the builder is such a fault of the input (and of its first faulty constraint), and that accepted inputs have none outside ignored constraints. |
| C88 | every answer, decided or cut short, cached or fresh, is a cheapest allowed assignment of its limit; an improvement would be allowed at the same limit and strictly cheaper; session invariant on every candidate found. |
| C89 | f64 arithmetic in SpecFloat, powf any accurate (exponents >= 1.01) or correctly rounded (exponents >= 1) function; real analysis: n^x grows faster than the rounding error; refuted for exponents below 1 and for the cut-off. |
| C90 | the program with a log (writer monad, M_Log.v); refinement to the program without messages; exact shape of the log for every exit code. |
| C91 | table of the clap declarations and a generic reader (M_Args.v) against the hand-written loop of set_arguments; both shown equivalent to a declarative reading (Spec_Args.v). The inline forms of clap (M_Inline.v) against the reading `said` (Spec_Inline.v). |
| C92 | case analysis over the documented meaning of the relations (C57), composed with C62 for the program. |
| C93 | antisymmetry of two instances of C76. |
| C94 | `M_Values.v`: attributes and expressions as values, overloads; run of the statements = run of the script written out (`written_out`), by induction with the names unchanged (`later`) |
| C95 | conversions of M_Handover.v (SpecFloat) on every instance of build_flow; integers below 2^53 and truncated doubles are representable (Flocq); rounding to nearest recovers the integer. |
| C96 | M_Process: process = options_parse_inline, then run. A time text that panics has a beginning whose time exceeds i32::MAX (induction over the characters); options in effect compose by concatenation; the rest from C91, C59, C60, C62, C63. C96_exit_codes_of_scripts states the conditions on the scripts themselves (modest: own handles, no renames, 32-bit integers, times not too long) by C58. Refutations of the statement without the condition by evaluation. |
| C97 | M_Negation: function by function; case analysis on the kind, decidability of the meanings, counting of slots. |
| C75, C76 | composition: script -> build -> prepare -> session -> output, with C04, C64, C65. |

## What is modelled

Function by function (each definition cites its lines):

* `scoring.rs`, `score.rs` (comparison, evaluation, feasibility), `scheduling.rs`, `assignment.rs`, `solution.rs`,
  `choice_data.rs`, `chooser_data.rs`, `slot_data.rs`, `input_data.rs`, `constraint.rs` (kinds, accessors): `M_Data.v`, `M_Scoring.v`.
* `union_find.rs`, `input/constraint_expression.rs`, `input/constraint_builder.rs`, `constraints.rs`,
  `input/input_builder.rs`, `input/fuzzy_match.rs`: `M_Union.v`, `M_Names.v`, `M_Build.v`.
* `input/rhai_interface.rs`, `input/input_reader.rs`, `input/tagged.rs`, `util.rs` (durations): `M_Script.v`.
* `rng.rs`, `critical_set.rs`, `critical_set_analysis.rs`, `prepared_problem.rs`: `M_Rng.v`, `M_Critical.v`.
* `scheduling_solver.rs`: `M_Search.v`. `assignment_solver.rs`, `mip_flow.rs`, `mip_flow_static_data.rs`: `M_Flow.v`.
* `hill_climbing_solver.rs`, `shotgun_solver.rs`, `threaded_solver.rs`, `cancellation.rs`: `M_Climb.v`, `M_Threads.v`; LP counter and search depth: `M_Effort.v`.
* `status.rs` (`track_solver`, its texts; the LP counter and the depth shown are arbitrary numbers there; M_Effort.v models them), `score.rs` (text), `util.rs` (`str_float`): `M_Status.v`.
* Constraints kept in variables, overloads of the comparisons (`rhai_interface.rs`): `M_Values.v`. `Constraint::negation` (`constraint.rs`, unused): `M_Negation.v`.
* The process from its command line on (`main.rs`): `M_Process.v`.
* `output_formatter.rs`, `main.rs`, `options.rs` (parsing): `M_Output.v`, `M_Main.v`; seeding: `M_Seed.v`; CSV documents: `M_Csv.v`; the cost of an edge and the overflow test in f64: `M_Warn.v`; the program with its messages: `M_Log.v`; the command line (the `clap` declarations, names and values as separate words): `M_Args.v`; the same with `--name=value`, `-nVALUE`, `-n=VALUE` and joined switches: `M_Inline.v`; numbers at the border of the LP library: `M_Handover.v`.

## What is not modelled

* The Rhai engine: a script is the list of interface calls it makes (or an arbitrary function from states to calls);
  that a script text makes these calls is outside.
* `f64` parsing and `powf`, the csv crate: arbitrary functions. The LP library: an arbitrary function; `honest_lp` / `optimal_lp`
  (feasible answers, "none" only if none or late; cheapest answers) are hypotheses where needed and are met by an
  executable brute-force library in `P_Brute.v`.
* `clap`'s help and version outputs and the text of its error messages.
* The clock and the scheduler: arbitrary oracles. `visits` (Spec_Threads) is the only fairness-like hypothesis, for termination.
* Progress counters are unbounded numbers. The events of a worker that crashed in mid-step are not recorded.
* The arithmetic inside the LP library (the numbers that pass its border are exact: `M_Handover.v`, C95). Printing always succeeds (`println!` panics on a closed stdout).
* Log messages of the debug and trace levels (the others: `M_Log.v`), colours, indicatif's drawing, `from_utf8_lossy` (file contents are arbitrary strings).
* `hc_found` in `M_Climb.v` is a ghost field (best score the climber found), never read by the model.

## Trusted base

* Coq 8.16.1's kernel, including `vm_compute`.
* That the model is a faithful reading of the Rust text (nothing was executed).
* `Print Assumptions` is printed beneath every theorem in `T_*.v`. Every theorem is **Closed under the global
  context**, except

  | theorem | axioms (all from Coq's standard library) |
  |---|---|
  | `C66_score_is_cost`, `C66_cheaper_scores_better`, `C67_best_score_partial`, `C10_default_exponent_partial`, `C68_score_text`, `C88_no_warning_not_improvable`, `C89_no_warning_no_ties_partial`, `C89_default_costs_exact`, `C89_cut_off_refuted`, `C95_numbers_arrive`, `C95_objective_is_total_cost`, `C95_answers_are_read_back`, `C83_shown_depth_is_within_the_shown_maximum` | `ClassicalDedekindReals.sig_not_dec`, `ClassicalDedekindReals.sig_forall_dec`, `FunctionalExtensionality.functional_extensionality_dep`, `Classical_Prop.classic` (the classical real numbers) |

  Flocq (used in `P_Cost.v`, `P_Effort4.v` and `P_Warn.v` only) adds no axiom of its own. The axioms `Coq.ssr.ssrunder.Under_rel.*` and
  `Coq.Reals.Rdefinitions.*` that an axiom scan of the loaded libraries lists are module-sealed definitions of the standard
  library, loaded with `Lia`/`Reals`; they do not appear under `Print Assumptions`.
* No axioms, parameters, functors or module types of our own; no kernel check is switched off.

## Mutation tests

`seeded/LOG.jsonl` holds one line per seeded bug: the model was edited in a scratch copy, everything depending on it was
recompiled, proofs that broke were admitted, and `Print Assumptions` of the theorems tells which of them fell.
