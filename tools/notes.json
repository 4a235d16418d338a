{
 "C08": {
  "status": "partial",
  "note": "proved within one scoring mode; transitivity across modes and agreement with == are refuted"
 },
 "C09": {
  "status": "partial",
  "note": "proved for preferences up to 2^24; refuted beyond (f32 rounding)"
 },
 "C10": {
  "status": "partial",
  "note": "invalid => infinite and finite => valid proved; valid => finite proved for the default exponent 3 and preferences up to 2^32-1 within the stated number of seats (C10_default_exponent_partial), and generally when no power of a preference reaches 2^100 and there are fewer than 2^23 seats; refuted for overflowing powers and for every negative exponent"
 },
 "C41": {
  "status": "partial",
  "note": "exact when per-slot sums fit in u32; refuted otherwise for an accepted input"
 },
 "C02": {
  "status": "partial",
  "note": "proved except for order relations with slot.size on the right-hand side, where it is refuted; the unconditional reading for optional choices is refuted"
 },
 "C18": {
  "status": "partial",
  "note": "proved when all choices are held and attended and no attendance requirement is stated twice; each of the three conditions is needed: C18_repeated_constraint_refuted, C18_unheld_refuted and C18_unattended_refuted give inputs the claim fails on without it"
 },
 "C19": {
  "status": "partial",
  "note": "refuted (min 5 max 1 is accepted); proved exactly when: min <= max after processing iff some number is admitted by the declared bounds of all choices with the same audience"
 },
 "C21": {
  "status": "partial",
  "note": "sorted, 0 first, max last proved; values are the raw, not the normalized preferences (refuted)"
 },
 "C37": {
  "status": "partial",
  "note": "proved for == and !=; refuted for order relations"
 },
 "C40": {
  "status": "partial",
  "note": "choice table exact; chooser table refuted (always empty)"
 },
 "C49": {
  "status": "partial",
  "note": "proved for integers within u32 and fewer than 2^31 choices; a larger integer panics (refuted)"
 },
 "C11": {
  "status": "partial",
  "note": "proved for debug builds and for inputs whose bound sums fit u32; refuted in release builds when sums wrap"
 },
 "C12": {
  "status": "partial",
  "note": "proved in full when no constraint relates a choice to itself and no slot can become overfull by a choice it still needs (e.g. all minima <= 1); without either condition refuted (the search gives up at a rejected complete scheduling instead of backtracking); also proved without them unless the search ends that way"
 },
 "C15": {
  "status": "partial",
  "note": "proved for levels with a critical set at or above them; refuted otherwise"
 },
 "C06": {
  "status": "partial",
  "note": "proved up to level granularity, for assignments that keep tied choices together, when the critical-set bound is true; the full statement when all choices are held, every preference is a level and the bound is true; the three gaps refuted by accepted inputs (C06_unheld_link, C06_coarse_levels, C06_bound_too_high)"
 },
 "C07": {
  "status": "partial",
  "note": "points = allowed assignments with equal cost, one point each; 'allowed' also keeps together choices tied through a choice that is not held (strict reading refuted)"
 },
 "C50": {
  "status": "partial",
  "note": "proved for sizes below the machine limits and min <= max; refuted for an accepted input with min > max"
 },
 "C29": {
  "status": "partial",
  "note": "feasibility proved (in release builds when the sums fit u32); at most max_neighbors+1 proved, at most max_neighbors refuted"
 },
 "C05": {
  "status": "proved",
  "note": "ending assumes a random stream that keeps delivering every index (rejection loop in random_swap_neighbor)"
 },
 "C22": {
  "status": "partial",
  "note": "C22_exact_reading_partial says of every string, in debug and release builds, whether it is read, rejected or panics, and what is read; for time strings of at most i32::MAX seconds that is the sum of the components. Numbers without unit, units without number and overflow (debug: panic, release: modulo 2^32) refute the full statement."
 },
 "C23": {
  "status": "proved",
  "note": "atomic for every result; a debug build panics for times over i32::MAX seconds (shown), the options then stay unchanged"
 },
 "C24": {
  "status": "partial",
  "note": "lookup and exact match proved; names inside constraints: in an accepted input none is ambiguous and completing a shortened name changes nothing (C24_constraint_names_*); a constraint naming no object at all is silently void (C24_unknown_names_void); 'a name no object has creates a new object' refuted for names contained in another name"
 },
 "C25": {
  "status": "proved",
  "note": "for scripts that do not rename objects, as stated; with renaming refuted"
 },
 "C45": {
  "status": "partial",
  "note": "proved for integers of 32 bits; larger ones are cut (refuted)"
 },
 "C57": {
  "status": "partial",
  "note": "restricted like C02 to order relations with the size on the left; the limit to scripts without renames is necessary (refuted otherwise)"
 },
 "C58": {
  "status": "partial",
  "note": "proved for integers of 32 bits and, in debug builds, times that do not begin with more than 2147483647 seconds (exactly the arguments that panic: C23_which_arguments_panic); a huge integer panics (refuted)"
 },
 "C26": {
  "status": "partial",
  "note": "the text written is proved to be the table; reading it back (and that it determines the scheduling) proved for names without quotation marks; unescaped quotation marks, a slot named 'not scheduled' and a leading ~ are refutations"
 },
 "C27": {
  "status": "proved",
  "note": "the table is proved for every valid solution; reading back the text for names without quotation marks"
 },
 "C32": {
  "status": "partial",
  "note": "seeds: proved; draws: proved for ranges of at most i32::MAX values, wider ranges refuted"
 },
 "C36": {
  "status": "proved",
  "note": "for calls that report success; a line whose printing failed is lost (shown)"
 },
 "C61": {
  "status": "proved",
  "note": "for nested use as stated; another order is refuted"
 },
 "C62": {
  "status": "proved",
  "note": "the script engine (Rhai) is an arbitrary function from text to interface calls; input sizes below the u32 limits"
 },
 "C63": {
  "status": "proved",
  "note": "reading not panicking is a hypothesis (see C58)"
 },
 "C64": {
  "status": "partial",
  "note": "proved for inputs in which every processed preference is one of the levels, and powers that stay below 2^100; without the first the claim is false (C64_coarse_levels_refuted); size hypotheses (roomy); that no choice may be optional is needed (C64_optional_choice_refuted: adding an optional choice makes a session end without solution although there still is one)"
 },
 "C65": {
  "status": "partial",
  "note": "proved under the conditions of C12 (no constraint relates a choice to itself, no slot becomes overfull by a choice it still needs); without them the claim is false (C65_gives_up_refuted, a whole session that ends without solution although there is one)"
 },
 "C66": {
  "status": "proved",
  "note": "uses the standard library's real numbers (axioms ClassicalDedekindReals.sig_not_dec, sig_forall_dec, functional_extensionality_dep, Classical_Prop.classic) and Flocq; preferences are converted to f32 first, exact up to 2^24"
 },
 "C67": {
  "status": "partial",
  "note": "refuted for exponent 2 in both scoring modes (the solver minimizes sums of (preference+1)^exponent, the score adds preference^exponent); proved when the two are affinely related, as with exponents 0 and 1"
 },
 "C68": {
  "status": "proved",
  "note": "final line, intermediate messages and score text; the terminal drawing (colours, template) is not modelled; str_float is stated against the exact real value of the binary32 score (Reals axioms for C68_score_text only)."
 },
 "C69": {
  "status": "proved",
  "note": "positions set on the bar by track_solver, for every sequence of clock readings."
 },
 "C70": {
  "status": "proved",
  "note": "Constraints as a multiset: stating one twice can matter (C18_repeated_constraint_refuted)."
 },
 "C71": {
  "status": "proved",
  "note": "Needs full, distinct names: constraints find objects by parts of names (C71_partial_names_refuted shows that the hypothesis is needed). Error texts agree too, except that a wrong number of preferences is reported with the chooser's own name (same_complaint)."
 },
 "C72": {
  "status": "proved",
  "note": "build_input and evaluate, any exponent, both modes."
 },
 "C73": {
  "status": "proved",
  "note": "Random engines, LP library and clock are functions of the number of requests made so far. The exception (--any with several workers) is part of the property; C73_any_refuted shows it is needed."
 },
 "C74": {
  "status": "proved",
  "note": "The csv crate is an arbitrary function from file and delimiter to records or errors."
 },
 "C75": {
  "status": "proved",
  "note": "Composition of the script, preparation and session models (program, M_Main.v)."
 },
 "C76": {
  "status": "partial",
  "note": "Proved for normal scoring; one slot: if every preference is a level and powers stay below 2^100; several slots: under the conditions of C65. Refuted in general, by whole runs: C76_not_the_best_refuted (one slot, a worse solution than possible is output), C76_gives_up_refuted (two slots, nothing is output although a valid solution exists)."
 },
 "C77": {
  "status": "proved",
  "note": "One theorem per loop that looks at the clock; the deadline passes at an arbitrary request."
 },
 "C78": {
  "status": "proved",
  "note": "Random streams and clocks are arbitrary functions of a worker's own history; C78_any_refuted shows why --any is excluded from the thread-count statement."
 },
 "C79": {
  "status": "proved",
  "note": "Scores: for inputs within the machine integers (fits, largest preference below u32::MAX). C79_slot_order_matters_for_parts_refuted shows why slots may be reordered only without multi-part choices."
 },
 "C80": {
  "status": "proved",
  "note": "The comparison of scores is for preferences up to 2^24 (C09)."
 },
 "C81": {
  "status": "proved",
  "note": "From the reader to the text; the labels are specified with a decimal reader of their own. Names that are not plain can collide (Example C81_unplain_names)."
 },
 "C82": {
  "status": "proved",
  "note": "The instrumented functions of M_Effort are proved to be those of M_Flow, M_Search, M_Climb when the counters are erased (P_Effort), and every session of M_Threads has its counted version. Messages of an iteration that panics are not covered."
 },
 "C83": {
  "status": "proved",
  "note": "Beyond the limits it fails: Example C83_beyond_the_limit (257 threads, 65535 choices)."
 },
 "C84": {
  "status": "proved",
  "note": "That an iteration does not run forever is a hypothesis of the first theorem (it is C53's conclusion under C53's hypotheses). std::thread::scope is taken to wait for all its threads before it unwinds, as documented."
 },
 "C85": {
  "status": "partial",
  "note": "Proved: everything a session tries is reached from a delivered scheduling by single moves and swaps; if there is only one valid scheduling, every worker that completed an iteration has tried it. Refuted in general: slots are tried in a fixed order (fullness, then index) and only the order of the choices is random, so on a small input (three choices tied to one slot, two fixed ones) no run whatsoever tries the scheduling that admits the best solution; every session returns a strictly worse score."
 },
 "C86": {
  "status": "proved",
  "note": "equivalence of the solution sets for both the scheduling and the whole solution, equality of scores; the need for full names is shown by C86_partial_names_refuted; the claim is about the solutions, not about what a session finds: C64_optional_choice_refuted"
 },
 "C87": {
  "status": "proved",
  "note": "The messages are modelled literally. 'Not satisfiable' is about arrangements that use every slot, as for C46."
 },
 "C88": {
  "status": "proved",
  "note": "Assumes that the LP library returns optimal points (C51) and costs that grow strictly with the preference (discharged for exponents of at least 1 by C89)."
 },
 "C89": {
  "status": "partial",
  "note": "Proved: without a warning costs grow strictly, for every exponent of at least 1 if powers are correctly rounded, and for exponent 1 and exponents of at least 1.01 with any power function of relative error 2^-52; costs of the default exponent 3 are exact up to 2^17. Refuted: exponents 0.5 (tie) and -1 (order reversed) give no warning; a cost can be cut off without a warning (the test looks at max_preference ^ e, the cost is (preference + 1) ^ e)."
 },
 "C90": {
  "status": "proved",
  "note": "Messages of debug and trace level are not modelled; the numbers behind 'Solved' are C68 and C82. Reasons of the operating system are placeholders."
 },
 "C91": {
  "status": "proved",
  "note": "clap is modelled twice: for names and values in separate words (M_Args.v, compared with the script), and with the inline forms --name=value, -nVALUE, -n=VALUE, joined switches and a final -- (M_Inline.v: C91_command_line_forms, C91_forms_are_equivalent, C91_inline_forms_change_nothing_else). Not modelled: the help and version outputs and the text of clap's error messages."
 },
 "C92": {
  "status": "proved",
  "note": "Size comparisons are covered with the size on the left (with the integer on the left the code is wrong, see C02 and C37)."
 },
 "C93": {
  "status": "proved",
  "note": "Same side conditions as C76 (sizes, a power function without rounding surprises, preferences within the levels)."
 },
 "C94": {
  "status": "proved",
  "note": "C94_renaming_matters (an Example) shows that the hypothesis is needed: a kept constraint refers to the names at the time it was built. The engine's behaviour for a missing overload is modelled as an error."
 },
 "C95": {
  "status": "proved",
  "note": "uses Flocq's results about binary64 (real-number axioms of the standard library). Replaces, for the model's integer objective and integer answers, the reading of the library's floats as exact integers."
 },
 "C96": {
  "status": "proved",
  "note": "C96_refused_without_effects, C96_exit_codes and C96_end_to_end join the command line (C91), the input files (C60), the script (C59, C62) and the solver (C62, C63). The condition on the times is needed: C96_long_times_panic (debug builds, reading the time) and C96_long_times_fail (release builds: --cs-timeout 4000w wraps to a negative limit, the worker panics, exit code 1 for a good input). Which of help text and usage error clap chooses is a parameter; writing to a closed standard output is not modelled."
 },
 "C97": {
  "status": "proved",
  "note": "Constraint::negation is code of the library that the program itself does not call at the pinned commit. C97_dropped_choices: with dropped choices a constraint and its negation can both hold. C97_negation_panics: exactly the limits without operator panic."
 }
}