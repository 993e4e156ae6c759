{"id": "C01", "title": "Appending keeps a signal ordered", "statement": "After any sequence of append_sample calls on a Signal, sample times are strictly increasing, begin_time is the first accepted time, end_time is the last accepted time, and a call whose time is not later than end_time changes nothing.", "quantifier": "every finite sequence of (time, value) pairs, both interpolation modes", "why_tests_cant": "the invariant is over all histories of calls, in any order of times; a test fixes one history", "anchors": ["src/signal.cpp: Signal::appendSample", "include/signal.h: Signal"]}
{"id": "C02", "title": "Linear interpolation passes through the samples and is straight in between", "statement": "Under LINEAR interpolation, the value a signal denotes at any time between two consecutive accepted samples is the linear interpolation of these two samples, and at a sample time it is that sample's value.", "quantifier": "every sequence of accepted samples and every time in the range covered (not only sample times)", "why_tests_cant": "the set of times is dense; tests only look at finitely many points", "anchors": ["src/signal.cpp: Signal::appendSample", "include/signal.h: Sample::valueAt"]}
{"id": "C03", "title": "PREVIOUS interpolation holds the last value", "statement": "Under PREVIOUS interpolation, the value a signal denotes at any time is the value of the latest accepted sample at or before that time.", "quantifier": "every sequence of accepted samples and every time in the range covered", "why_tests_cant": "quantifies over all times and all sample sequences", "anchors": ["src/signal.cpp: Signal::appendSample"]}
{"id": "C04", "title": "Negation is pointwise and an involution", "statement": "compute_not(x) denotes -x(t) at every time t, on the same time domain, and negating twice gives back exactly the same signal.", "quantifier": "every signal and every time", "why_tests_cant": "all signals and all times", "anchors": ["src/robustness.cpp: Signal::compute_not"]}
{"id": "C05", "title": "Conjunction is the pointwise minimum at every instant", "statement": "For two non-empty ordered signals with overlapping domains, compute_and terminates without undefined behaviour and the result denotes min(x(t), y(t)) at every time t of the common domain [max begin, min end), including between samples and at crossings of the two signals.", "quantifier": "every pair of ordered piecewise-linear signals (with jumps and repeated times allowed), every time in the common domain", "why_tests_cant": "crossings can occur anywhere between samples and the branch structure depends on the relative position of all samples", "anchors": ["src/robustness.cpp: Signal::compute_and, computePartialAnd, computeSegmentAnd", "src/signal.cpp: Signal::simplify", "include/signal.h: Sample::timeIntersect"]}
{"id": "C06", "title": "Disjunction is the pointwise maximum at every instant", "statement": "For two non-empty ordered signals with overlapping domains, compute_or terminates without undefined behaviour and the result denotes max(x(t), y(t)) at every time of the common domain.", "quantifier": "every pair of ordered piecewise-linear signals, every time in the common domain", "why_tests_cant": "same as conjunction", "anchors": ["src/robustness.cpp: Signal::compute_or, computePartialOr, computeSegmentOr"]}
{"id": "C07", "title": "Implication is max(-x, y)", "statement": "compute_implies(x, y) denotes max(-x(t), y(t)) at every time of the common domain.", "quantifier": "every pair of ordered signals, every time in the common domain", "why_tests_cant": "all signals and all times", "anchors": ["src/robustness.cpp: Signal::compute_implies"]}
{"id": "C08", "title": "Simplification never changes a signal", "statement": "simplify() terminates and leaves the value denoted at every time of the domain unchanged, for every ordered signal whose first sample is the only one at begin_time.", "quantifier": "every ordered signal, every time in the domain", "why_tests_cant": "which samples are dropped depends on the whole signal; the loop rotates the deque in place and its exit test is an equality on times", "anchors": ["src/signal.cpp: Signal::simplify"]}
{"id": "C09", "title": "Resizing keeps values on the kept range", "statement": "resize(s, t, v) with begin <= s <= t <= end keeps the value of the signal at every time of [s, t] and sets the domain to [s, t].", "quantifier": "every ordered signal and every s, t inside its domain", "why_tests_cant": "all signals, all cut points, all times", "anchors": ["src/signal.cpp: Signal::resize"]}
{"id": "C10", "title": "Shifting translates time", "statement": "shift(a) makes the signal denote at t + a what it denoted at t, and translates its domain by a.", "quantifier": "every signal, every offset, every time", "why_tests_cant": "all offsets and times", "anchors": ["src/signal.cpp: Signal::shift"]}
{"id": "C11", "title": "Unbounded eventually is the supremum of the future", "statement": "compute_eventually(x) denotes at every time t of the domain the least upper bound of x over [t, end_time], for signals whose values are above -BigM.", "quantifier": "every ordered signal with values above -BigM, every time in the domain", "why_tests_cant": "the bound is over a dense set of times, for every signal", "anchors": ["src/robustness.cpp: Signal::compute_eventually, computeEventually, computePartialEventually"]}
{"id": "C12", "title": "Timed eventually is the windowed supremum", "statement": "compute_timed_eventually(x, a, b) with 0 <= a <= b denotes, at every time t of the domain shifted by -a, the least upper bound of x over [t+a, min(t+b, end_time)].", "quantifier": "every ordered signal with values above -BigM, every window, every time", "why_tests_cant": "the sliding-window maximum has an event queue whose states depend on the whole signal and the window width", "anchors": ["src/robustness.cpp: Signal::compute_timed_eventually, computeBoundedEventually, plateauMax"]}
{"id": "C13", "title": "Timed always is the windowed infimum", "statement": "compute_timed_globally(x, a, b) with 0 <= a <= b denotes, at every time t of the domain shifted by -a, the greatest lower bound of x over [t+a, min(t+b, end_time)].", "quantifier": "every ordered signal with values below BigM, every window, every time", "why_tests_cant": "same as timed eventually", "anchors": ["src/robustness.cpp: Signal::compute_timed_globally, computeBoundedGlobally, plateauMin, computeGlobally"]}
{"id": "C14", "title": "Untimed until is the sup-min of its operands", "statement": "compute_until(x, y) denotes at every time t the supremum over t' >= t of min(y(t'), inf of x on [t, t']).", "quantifier": "every pair of continuous ordered signals, every time in the common domain", "why_tests_cant": "quantifies over all pairs of signals and all pairs of times; known defects only show for particular relative positions of the samples", "anchors": ["src/robustness.cpp: Signal::compute_until, computeUntil, computeSegmentUntil, computePartialEventually"]}
{"id": "C15", "title": "Timed until is the windowed sup-min", "statement": "compute_timed_until(x, y, a, b) denotes at every time t the supremum over t' in [t+a, t+b] of min(y(t'), inf of x on [t, t']), and never reads outside its operands.", "quantifier": "every pair of continuous ordered signals, every window 0 <= a <= b, every time", "why_tests_cant": "same as above, with the branch on the absolute end time depending on where the data starts", "anchors": ["src/robustness.cpp: Signal::compute_timed_until, computeTimedUntil"]}
{"id": "C16", "title": "Boolean abstraction reports the sign", "statement": "compute_boolean(y) denotes 1 at every time where y > 0 and 0 at every time where y <= 0.", "quantifier": "every ordered signal, every time in the domain", "why_tests_cant": "sign changes happen between samples; boundary cases (segments starting exactly at zero) are measure-zero", "anchors": ["src/robustness.cpp: Signal::compute_boolean"]}
{"id": "C17", "title": "Left time robustness measures the age of the current verdict", "statement": "compute_left_time_rob(y) denotes at time t (up to the 1e-14 sign marker) the time elapsed since the last change of sign of y (or since the start), positive if y is positive and negative otherwise.", "quantifier": "every ordered signal, every time in the domain", "why_tests_cant": "all signals and times", "anchors": ["src/robustness.cpp: Signal::compute_left_time_rob"]}
{"id": "C18", "title": "Right time robustness is memory safe", "statement": "compute_right_time_rob(y) only reads samples that exist and denotes the time left until the next change of sign of y, positive or negative as y is.", "quantifier": "every ordered signal", "why_tests_cant": "reading one past the end of a container usually returns stale bytes that make tests pass", "anchors": ["src/robustness.cpp: Signal::compute_right_time_rob"]}
{"id": "C19", "title": "Duality of always and eventually", "statement": "always computed directly and 'not eventually not' give the same values, and so do and/or through negation, on every signal.", "quantifier": "every ordered signal, every window", "why_tests_cant": "the min and max variants are separate copies of long routines; agreement must hold on every input", "anchors": ["src/robustness.cpp: plateauMin, plateauMax, computeSegmentAnd, computeSegmentOr"]}
{"id": "C20", "title": "An atomic predicate is evaluated on the interpolated data", "statement": "With SPACE semantics and LINEAR interpolation, the robustness of x[t] > c (or < c, or between two signals) at any evaluation time covered by the data is the signed difference of the linearly interpolated operands at that time.", "quantifier": "every trace with increasing times, every evaluation time in the covered range, every pair of simple operands", "why_tests_cant": "evaluation times fall anywhere between samples; trimming and look-ahead logic depends on the position", "anchors": ["src/stl_atom.cpp: stl_atom::compute_robustness, signal_transducer::compute_robustness, constant_transducer::compute_robustness"]}
{"id": "C21", "title": "Robustness is exact when the data covers the formula horizon", "statement": "If the trace covers the horizon of a formula built from simple atoms, not, and, or, =>, ev and alw, then the first number of get_online_rob equals the STL quantitative semantics of the formula on the linearly interpolated trace.", "quantifier": "every formula of this grammar (any nesting), every trace covering the horizon, every evaluation time", "why_tests_cant": "formulas are unboundedly nested and traces arbitrary", "anchors": ["src/transducer.cpp: *_transducer::compute_robustness", "src/stl_driver.cpp: STLDriver::get_online_rob", "src/stl_monitor.cpp: STLMonitor::eval_rob"]}
{"id": "C22", "title": "Complete data makes the interval collapse", "statement": "If the trace covers the horizon of the formula then get_online_rob returns three equal numbers.", "quantifier": "every formula, every trace covering its horizon", "why_tests_cant": "depends on nesting: evaluation of the three numbers shares mutable state", "anchors": ["src/interval_transducer.cpp: compute_lower_rob, compute_upper_rob", "src/transducer.cpp: ev_transducer::compute_robustness"]}
{"id": "C23", "title": "The returned interval bounds every possible future", "statement": "For a partial trace, the lower and upper numbers of get_online_rob bound the robustness that the formula has on every completion of the trace (with values within BigM).", "quantifier": "every formula, every partial trace, every completion of the trace", "why_tests_cant": "quantifies over all futures of the trace", "anchors": ["src/interval_transducer.cpp: compute_lower_rob, compute_upper_rob", "src/stl_driver.cpp: STLDriver::get_online_rob"]}
{"id": "C24", "title": "The interval bounds the estimate", "statement": "lower_rob <= rob <= upper_rob for every evaluation.", "quantifier": "every formula, trace and evaluation time", "why_tests_cant": "needs every formula/trace/time", "anchors": ["src/interval_transducer.cpp", "src/transducer.cpp"]}
{"id": "C25", "title": "More data never widens the interval", "statement": "Adding samples to the trace can only shrink the interval [lower_rob, upper_rob].", "quantifier": "every formula, every trace, every extension", "why_tests_cant": "all pairs of trace and extension", "anchors": ["src/interval_transducer.cpp"]}
{"id": "C26", "title": "Evaluation is repeatable and independent of earlier evaluations", "statement": "The result of evaluating a formula depends only on the formula, the data, the parameters, the evaluation time, the semantics/interpolation of the caller and BigM: not on any previous evaluation of the same object, at the same or another time.", "quantifier": "every formula (including until and arithmetic), every history of earlier evaluations, every numeric type (so also IEEE doubles)", "why_tests_cant": "transducers hold mutable buffers and read cursors; absence of leakage must hold for every history", "anchors": ["src/transducer.cpp: reset, init_horizon", "include/signal_expr.h: set_trace_data_ptr", "src/stl_monitor.cpp: STLMonitor::eval_rob"]}
{"id": "C27", "title": "add_sample accepts exactly well-formed later samples", "statement": "add_sample on a driver or monitor accepts a sample iff it has one entry per signal plus the time and its time is later than the last one; a rejected sample raises and leaves the object unchanged; hence the stored times are strictly increasing after every history of calls.", "quantifier": "every history of add_sample calls with arbitrary vectors", "why_tests_cant": "invariant over all histories", "anchors": ["src/stl_driver.cpp: STLDriver::add_sample", "src/stl_monitor.cpp: STLMonitor::add_sample"]}
{"id": "C28", "title": "Monitors are isolated from the driver and from each other", "statement": "A monitor obtained with get_monitor, or a copy of a monitor or driver, is independent: no sequence of operations on other objects (adding data, setting parameters, changing semantics or interpolation, evaluating, parsing) changes the results it returns.", "quantifier": "every interleaving of operations on a driver and any number of monitors and copies", "why_tests_cant": "all interleavings; semantics and interpolation are process-wide static variables", "anchors": ["src/stl_driver.cpp: STLDriver::get_monitor, copy constructor", "include/stl_monitor.h: STLMonitor", "include/signal.h: static semantics, interpol, BigM"]}
{"id": "C29", "title": "Parameters are read back and looked up exactly", "statement": "set_param then get_param returns the value; other parameters are unaffected; an unknown parameter makes a monitor raise and leave everything unchanged, and makes a driver ignore the call.", "quantifier": "every parameter map, names and values, every history", "why_tests_cant": "all histories and names", "anchors": ["include/stl_monitor.h: set_param, get_param", "src/stl_driver.cpp: set_param, get_param"]}
{"id": "C30", "title": "A parameter behaves as the constant it stands for", "statement": "Evaluating a formula with parameters (in atoms or time intervals) gives the same result as evaluating the formula in which every declared parameter is replaced by its current value, even if the parameter was changed after parsing.", "quantifier": "every formula, every parameter assignment, every trace", "why_tests_cant": "all formulas and assignments", "anchors": ["src/transducer.cpp: get_param, init_horizon", "src/stl_atom.cpp: constant_transducer::compute_robustness"]}
{"id": "C31", "title": "Horizons propagate as sums of interval bounds", "statement": "When a formula is evaluated at [s, e], every subformula is computed over [s + sum of lower bounds, e + sum of upper bounds] of the temporal operators above it (the left operand of until only gets the upper bound).", "quantifier": "every formula, every parameter assignment", "why_tests_cant": "all nestings", "anchors": ["src/transducer.cpp: init_horizon", "include/transducer.h: set_horizon"]}
{"id": "C32", "title": "Evaluation never runs into undefined behaviour", "statement": "get_online_rob on a non-empty trace never dereferences an invalid iterator or an empty container, whatever the formula and the data.", "quantifier": "every formula and every non-empty trace", "why_tests_cant": "undefined behaviour may be silent in a test run; particular traces (one sample) trigger it", "anchors": ["src/robustness.cpp: computeUntil, computeAnd, computeOr, plateauMax, plateauMin", "src/stl_atom.cpp", "src/signal.cpp: simplify, resize"]}
{"id": "C33", "title": "Robustness values stay within BigM", "statement": "If every atom's value is within [-BigM, BigM] on the data, then all three returned numbers are within [-BigM, BigM].", "quantifier": "every formula of the fragment, every trace", "why_tests_cant": "all formulas and traces", "anchors": ["include/signal.h: TOP, BOTTOM", "src/robustness.cpp", "src/interval_transducer.cpp"]}
{"id": "C34", "title": "Expressions are exact at sample times", "statement": "For +, -, *, abs over simple operands the computed signal takes at each sample time of its operands the value of the expression; it covers the same time range as its operands.", "quantifier": "every expression tree, every trace", "why_tests_cant": "all expressions and traces", "anchors": ["src/signal_expr.cpp: plus/minus/mult/abs_transducer::compute_robustness"]}
{"id": "C35", "title": "Only data inside the horizon matters", "statement": "Samples after the first one beyond the end of the formula horizon do not influence the result of an evaluation.", "quantifier": "every formula, every pair of traces that agree up to the first sample beyond the horizon", "why_tests_cant": "all traces; cursors advance at each of the three internal passes", "anchors": ["src/stl_atom.cpp: signal_transducer::compute_robustness, constant_transducer::compute_robustness"]}
{"id": "C36", "title": "Signal columns follow declaration order", "statement": "Signals are numbered 1..n in the order of first declaration, whatever declarations (with repetitions) are parsed, column i of a sample belongs to the i-th declared signal, and get_signals_names lists them in that order.", "quantifier": "every sequence of signal declarations", "why_tests_cant": "all declaration sequences", "anchors": ["src/stl_parser.ypp: signal_new", "src/tools.cpp: signal_map_to_string"]}
{"id": "C37", "title": "Operator precedence in formulas", "statement": "Parsing a formula gives conventional precedence: not binds tighter than and, and tighter than or, or tighter than =>; * binds tighter than + and -.", "quantifier": "every token sequence", "why_tests_cant": "all token sequences", "anchors": ["src/stl_parser.ypp: %left declarations, stl_formula, signal_addexpr, signal_multexpr"]}
{"id": "C38", "title": "Printing a formula and parsing it back is the identity", "statement": "The text printed for a formula, parsed again in the same driver, yields the same formula.", "quantifier": "every formula", "why_tests_cant": "all formulas", "anchors": ["include/transducer.h: print", "src/stl_parser.ypp"]}
{"id": "C39", "title": "Parsing only adds definitions, and keeps earlier ones", "statement": "parse_string never changes the meaning of an existing formula name: redefining it is rejected, and a rejected input leaves every earlier formula as it was.", "quantifier": "every sequence of parsed inputs", "why_tests_cant": "all inputs", "anchors": ["src/stl_parser.ypp: assignement", "src/stl_scanner.lpp: identifier rule"]}
{"id": "C40", "title": "Reading a trace file terminates and keeps every line", "statement": "read_trace terminates on every file and returns one row per line with one number per field.", "quantifier": "every file content", "why_tests_cant": "all files", "anchors": ["src/tools.cpp: read_trace"]}
{"id": "C41", "title": "Evaluating nothing returns nothing", "statement": "get_online_rob on a driver without data, or for a name that is not a formula, returns an empty vector and leaves the driver and the process settings as they were.", "quantifier": "every driver state, formula name and time", "why_tests_cant": "every state, including ones reached by parsing, clearing and earlier evaluations", "anchors": ["src/stl_driver.cpp: STLDriver::get_online_rob"]}
{"id": "C42", "title": "A monitor gives the numbers of its driver", "statement": "get_monitor(phi) followed by eval_rob(t) gives the robustness, lower and upper bound that get_online_rob(phi, t) gives on the driver, and ends in the same way if that does not return.", "quantifier": "every driver with data, every formula, every time, whatever was evaluated before", "why_tests_cant": "every formula and every left-over evaluation state", "anchors": ["src/stl_driver.cpp: get_monitor, get_online_rob", "src/stl_monitor.cpp: eval_rob"]}
{"id": "C43", "title": "Semantics and interpolation accept exactly their names", "statement": "set_semantics accepts exactly SPACE, LEFT_TIME and RIGHT_TIME and set_interpol exactly LINEAR and PREVIOUS; the accepted name is read back, the other setting is kept, any other text raises and changes nothing; after every history get_semantics succeeds.", "quantifier": "every text, every object, every history", "why_tests_cant": "all strings and all histories", "anchors": ["include/stl_monitor.h: set_semantics, get_semantics, set_interpol, get_interpol", "include/stl_driver.h: same"]}
{"id": "C44", "title": "A copy behaves like the original", "statement": "A copy of a driver or monitor gives, for every sequence of calls, the results the original would have given.", "quantifier": "every object state (also after evaluations), every sequence of calls", "why_tests_cant": "all states and all call sequences", "anchors": ["include/stl_monitor.h: copy constructor, operator=", "src/stl_driver.cpp: copy constructor, operator="]}
{"id": "C45", "title": "Parsing any text ends with true or false", "statement": "parse_string terminates on every text, in a number of steps linear in its length, returns true or false, and does nothing undefined (no pop of an empty stack, no read of an unset value, no dereference of a missing formula).", "quantifier": "every text, every driver state", "why_tests_cant": "all texts, including ill-formed ones", "anchors": ["src/stl_driver.cpp: parse_string", "src/stl_parser.cpp: yyparse", "src/stl_scanner.lpp"]}
{"id": "C46", "title": "Only texts of the specification language are accepted, with the effect of their statements", "statement": "If parse_string returns true, the whole text is a sequence of statements of the language (signal declarations first, then parameters, formula definitions and tests, separated by blanks and comments), and the signals, parameters and formulas of the driver afterwards are those the statements define in that order.", "quantifier": "every text, every driver state", "why_tests_cant": "all texts: a test can only show that some wrong texts are rejected", "anchors": ["src/stl_driver.cpp: parse_string", "src/stl_parser.ypp", "src/stl_parser.cpp: yyparse", "src/stl_scanner.lpp"]}
{"id": "C47", "title": "Every text of the specification language is accepted", "statement": "If a text is a sequence of statements of the language, parse_string returns true, and the signals, parameters, tests and formulas of the driver afterwards are those the statements define in that order. No text has two different readings.", "quantifier": "every text of the language, every driver state", "why_tests_cant": "all texts of an infinite language with nested formulas; table conflicts or scanner rules that hide a production show up only on particular combinations", "anchors": ["src/stl_driver.cpp: parse_string", "src/stl_parser.ypp", "src/stl_parser.cpp: yyparse", "src/stl_scanner.lpp"]}
{"id": "C48", "title": "run_tests reports on the tests of the next trace test", "statement": "run_tests takes the trace test at the front of the queue, computes for each of its tests the robustness at time 0 of the formula over the driver's data with the driver's settings and parameters and the test's own parameters, adds one entry per test to the log and the report, counts the positive ones, returns true if and only if a test that signals errors is positive, and removes the trace test from the queue; with an empty queue it does nothing.", "quantifier": "every driver state, every queue of tests, every trace", "why_tests_cant": "all formulas, traces and queues; that a read position was never set shows only under memory checkers", "anchors": ["src/stl_driver.cpp: run_tests, add_trace_test, add_stl_test, dump", "include/stl_driver.h: stl_test, trace_test, get_next_formula", "include/signal_expr.h: td_idx"]}
{"id": "C49", "title": "No formula is used or deleted after it was deleted, and none is lost", "statement": "Whatever drivers and monitors a program constructs, copies, moves, assigns, clears, destroys, gives texts to, tests or evaluates, in any order, no object of a formula is used after it was deleted and none is deleted twice; when all drivers and monitors are destroyed, every object was deleted.", "quantifier": "every history of operations on any number of drivers and monitors, every formula", "why_tests_cant": "all interleavings of copies, moves, redefinitions and destructions; a double deletion or a leak need not change any result", "anchors": ["src/stl_driver.cpp: constructors, assignments, destructor, clear, add_stl_test, run_tests, get_monitor", "include/stl_monitor.h: constructors, assignments, destructor", "include/transducer.h: destructors, clone", "include/stl_driver.h: stl_test", "src/stl_parser.ypp: actions, %destructor"]}
{"id": "C50", "title": "Drivers and monitors are values", "statement": "After any history of operations, every driver and every monitor has the formulas it has if drivers, monitors and formulas are values: a copy has the formulas of the original at the time of the copy, and no later operation on the one changes the other; a name used in a definition stands for the formula it had at that time; a moved-from object is empty.", "quantifier": "every history of operations on any number of drivers and monitors, every formula", "why_tests_cant": "all interleavings of operations; sharing shows only when one of the owners changes or dies at the wrong moment", "anchors": ["src/stl_driver.cpp: constructors, assignments, clear, add_stl_test, get_monitor", "include/stl_monitor.h: constructors, assignments", "include/transducer.h: clone", "src/stl_parser.ypp: stl_formula, assignement"]}
{"id": "C51", "title": "Formulas with until evaluate to their STL robustness", "statement": "If the trace covers the horizon of a formula that contains until, then evaluating it gives the robustness of the formula by the STL semantics over the piecewise linear trace (until: the sup over the window of the min of the right operand and the inf so far of the left operand), and the lower and the upper bound are that same number.", "quantifier": "every formula with until, every trace with increasing times, every evaluation time", "why_tests_cant": "extrema of piecewise linear signals over windows placed anywhere relative to samples and crossings, nested in arbitrary formulas", "anchors": ["src/transducer.cpp:273 until_transducer::compute_robustness", "src/interval_transducer.cpp:293-340 until_transducer::compute_lower_rob, compute_upper_rob", "src/robustness.cpp: compute_timed_until, computeUntil, computeSegmentUntil", "include/transducer.h: timed_binary_transducer"]}
{"id": "C52", "title": "The sign of the numbers is a verdict", "statement": "If the evaluation of a formula returns a positive robustness, the trace satisfies the formula; if it returns a negative one, the trace violates it, both for strict and for non-strict comparisons. On data that stops before the horizon, a positive lower bound means that every continuation of the data satisfies the formula, and a negative upper bound that every continuation violates it.", "quantifier": "every formula, every trace with increasing times, every continuation, every evaluation time", "why_tests_cant": "satisfaction quantifies over all times of dense windows and over all continuations", "anchors": ["src/transducer.cpp: compute_robustness", "src/interval_transducer.cpp: compute_lower_rob, compute_upper_rob", "include/stl_monitor.h: eval_rob, get_lower_rob, get_upper_rob", "src/robustness.cpp"]}
{"id": "C53", "title": "The robustness is a margin", "statement": "Changing the values of a trace by at most d at each sample changes the robustness by at most d times the sum of the factors of the signals in a comparison (d if each comparison has one signal); in particular a trace that is closer than the robustness has the same verdict.", "quantifier": "every formula, every pair of traces with equal times, every distance d", "why_tests_cant": "all perturbations of all samples of all traces", "anchors": ["src/transducer.cpp: compute_robustness", "src/stl_atom.cpp", "src/robustness.cpp"]}
{"id": "C54", "title": "With previous-value interpolation formulas evaluate to their robustness over held signals", "statement": "If the interpolation is PREVIOUS and the trace covers the horizon of a formula, evaluating the formula gives its robustness by the STL semantics over the signals that keep each sample's value until the next sample (and the first value before the first sample), and the lower and the upper bound enclose it.", "quantifier": "every formula, every trace with increasing times, every evaluation interval", "why_tests_cant": "the discontinuities may fall anywhere relative to the ends of nested windows", "anchors": ["src/signal.cpp:71-109 Signal::appendSample (PREVIOUS)", "src/robustness.cpp: compute_timed_eventually, compute_timed_globally, plateauMax, compute_and, compute_or", "include/stl_driver.h:166 set_interpol", "src/transducer.cpp: compute_robustness"]}
{"id": "C55", "title": "Evaluating on doubles gives the numbers of exact arithmetic", "statement": "Evaluating a formula with double precision arithmetic has the outcome, and gives the robustness and the two bounds, of evaluating the same formula over the same data in exact arithmetic, apart from the rounding of the values themselves; in particular the sign of the robustness is the right one.", "quantifier": "every formula, every trace of finite doubles, every evaluation interval, both interpolations", "why_tests_cant": "expected values of tests are computed with the same rounded times; a rounded time decides which samples and segments an operator sees, which depends on every bit of every time", "anchors": ["include/signal.h: Sample, Signal (double)", "src/signal.cpp:71-109 Signal::appendSample", "src/signal.cpp: resize, shift (tolerance 1e-14)", "src/robustness.cpp: compute_timed_eventually, compute_timed_globally, compute_timed_until", "src/transducer.cpp: compute_robustness, compute_lower_rob, compute_upper_rob"]}
{"id": "C56", "title": "Removing infinite samples only cuts a tail", "statement": "removeInf takes away exactly the samples at the end of the signal whose value or slope is BigM or -BigM: no other sample is lost or changed, the last remaining sample is finite, the domain is kept, and before the first removed sample the signal has the same values.", "quantifier": "every signal, every bound BigM", "why_tests_cant": "tests look at one signal; a sample lost in the middle or a finite one dropped at the end only shows on signals with a particular mixture of finite and infinite samples", "anchors": ["src/signal.cpp:228-237 Signal::removeInf"]}
{"id": "C57", "title": "A printed number reads back as the number rounded to six digits", "statement": "The text printed for a constant or an interval bound denotes, when read as a decimal number, the value rounded to six significant digits, ties to the even digit; rounding twice changes nothing more; and a formula that is printed and parsed again is the formula with its numbers rounded. The text has no superfluous zeros. The formula parser takes the text as one number exactly when the rounded value is 0 or between 0.0001 and a million in size.", "quantifier": "every number, every formula that needs no parentheses", "why_tests_cant": "carries (999999.5), ties and the switch to an exponent happen at isolated values among infinitely many", "anchors": ["include/signal_expr.h: constant_transducer::print", "src/interval.cpp:39-53 interval::to_string", "include/tools.h:19-40 s_to_d, d_to_s", "src/stl_scanner.lpp:123-140 number patterns"]}
{"id": "C58", "title": "From a text and samples to the robustness", "statement": "A driver that has read a text, has been given samples and is asked for the online robustness of a formula of the text returns three times the robustness of the formula written in the text, once the samples cover it. A monitor obtained for that formula and asked earlier, when samples are still missing, returns an interval that contains the number it returns at the end; eval_rob, get_rob, get_lower_rob and get_upper_rob agree then. The same holds for a driver or monitor in any state, whatever calls led to it.", "quantifier": "every accepted text, every formula it defines (of the class of C51/C23), every sequence of samples, every moment of asking, every state of a driver or monitor", "why_tests_cant": "it composes the parser, the sample checks, the tree evaluation and the result fields; a test fixes one text and one trace", "anchors": ["src/stl_driver.cpp:513-546 get_online_rob", "src/stl_driver.cpp:474-511 get_monitor", "include/stl_monitor.h, src/stl_monitor.cpp eval_rob, add_sample", "src/stl_driver.cpp:170-180 parse_string"]}
{"id": "C59", "title": "The scanner takes the longest match of its rules, however the text arrives", "statement": "Every call of the generated scanner returns the token that the rules of the scanner file prescribe for the text not yet read: blanks, line ends and comments are left out, then the longest prefix that any rule matches is taken, by the first rule that matches it, and its token and value are returned; the text after it remains. This does not depend on the pieces in which the input stream delivers the text (a token may be cut anywhere), on NUL characters in the text or on the names the driver has learned between two calls. The tables of the automaton are never read out of bounds, and every text has exactly one token sequence.", "quantifier": "every text over all 256 characters, every division into nonempty pieces, every sequence of calls with any driver states", "why_tests_cant": "the automaton is 1500 lines of generated tables and refill code; a test covers a few texts, read in one piece", "anchors": ["src/stl_scanner.cpp:402-500 tables", "src/stl_scanner.cpp:702-1180 yylex", "src/stl_scanner.cpp:1289-1420 yy_get_next_buffer", "src/stl_scanner.cpp:1429-1490 yy_get_previous_state, yy_try_NUL_trans", "src/stl_scanner.lpp:56-165 rules"]}
{"id": "C60", "title": "Tests belong to the trace test opened last and are run in order", "statement": "After any sequence of add_trace_test, add_stl_test and run_tests, the trace tests that wait are those opened and not yet run, in the order they were opened; each holds exactly the tests added between its opening and the next one, in order: those given with a formula, and those given by name only, with the formula and messages given last under this name and with the parameters of this call. A name that was never given adds nothing, and a formula given while no trace test waits is not kept. The n-th run reports on the n-th trace test. The total counts all calls of add_stl_test.", "quantifier": "every sequence of calls, every formula, every interleaving with runs", "why_tests_cant": "all histories; redefinition of a name between two uses and runs in between are rarely tried", "anchors": ["src/stl_driver.cpp:361-369 add_trace_test", "src/stl_driver.cpp:395-459 add_stl_test", "src/stl_driver.cpp:302-359 run_tests"]}
