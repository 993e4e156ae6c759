{
 "claims": [
  {
   "property": "C01",
   "status": "proved",
   "theorems": [
    "C01_append_keeps_order",
    "C01_refuted_on_doubles"
   ],
   "note": "over exact rationals; on doubles a NaN time breaks it (refuted)"
  },
  {
   "property": "C02",
   "status": "proved",
   "theorems": [
    "C02_linear",
    "C02_interpolation_exists",
    "C02_interpolation_unique"
   ],
   "note": ""
  },
  {
   "property": "C03",
   "status": "proved",
   "theorems": [
    "C03_previous",
    "C03_value_exists"
   ],
   "note": ""
  },
  {
   "property": "C04",
   "status": "proved",
   "theorems": [
    "C04_not"
   ],
   "note": ""
  },
  {
   "property": "C05",
   "status": "proved",
   "theorems": [
    "C05_and",
    "C05_refuted_jump_at_end"
   ],
   "note": "value at the very right end only for continuous operands; the refutation shows why"
  },
  {
   "property": "C06",
   "status": "proved",
   "theorems": [
    "C06_or"
   ],
   "note": "same remark on the right end as C05"
  },
  {
   "property": "C07",
   "status": "proved",
   "theorems": [
    "C07_implies"
   ],
   "note": "same remark on the right end as C05"
  },
  {
   "property": "C08",
   "status": "proved",
   "theorems": [
    "C08_simplify",
    "C08_refuted_no_sample_at_begin",
    "C08_refuted_two_at_begin"
   ],
   "note": ""
  },
  {
   "property": "C09",
   "status": "partial",
   "theorems": [
    "C09_resize_partial",
    "C09_refuted"
   ],
   "note": "missing case (all samples before the new begin) is false of the code, see C09_refuted"
  },
  {
   "property": "C10",
   "status": "proved",
   "theorems": [
    "C10_shift"
   ],
   "note": ""
  },
  {
   "property": "C19",
   "status": "proved",
   "theorems": [
    "C19_or_by_and",
    "C19_and_by_or",
    "C19_timed_always",
    "C19_timed_eventually"
   ],
   "note": ""
  },
  {
   "property": "C11",
   "status": "partial",
   "theorems": [
    "C11_eventually_partial",
    "C11_refuted",
    "C11_refuted_receiver",
    "C11_refuted_below_BigM",
    "is_sup_unique"
   ],
   "note": "proved for signals with a sample at their beginning and increasing times or no jump; a first sample before the beginning gives wrong values (refuted)"
  },
  {
   "property": "C12",
   "status": "partial",
   "theorems": [
    "C12_timed_eventually_partial",
    "C12_refuted",
    "C12_stairs_partial"
   ],
   "note": "proved for continuous signals with a sample at or after begin+(b-a), or constant from there; otherwise the slope is lost (refuted). Signals of constant pieces with jumps: C12_stairs_partial, where the window ends inside the data. Missing: jumps between pieces that are not constant."
  },
  {
   "property": "C13",
   "status": "partial",
   "theorems": [
    "C13_timed_always_partial",
    "C13_stairs_partial"
   ],
   "note": "as C12"
  },
  {
   "property": "C26",
   "status": "proved",
   "theorems": [
    "C26_repeatable",
    "C26_only_the_formula"
   ],
   "note": "for every number type"
  },
  {
   "property": "C30",
   "status": "proved",
   "theorems": [
    "C30_parameters_are_constants"
   ],
   "note": "for every number type"
  },
  {
   "property": "C31",
   "status": "proved",
   "theorems": [
    "C31_horizons",
    "C31_horizons_kept"
   ],
   "note": ""
  },
  {
   "property": "C20",
   "status": "proved",
   "theorems": [
    "C20_atom",
    "C20_atom_value"
   ],
   "note": "Any pair of simple operands (signal or constant), any increasing trace, any tree state; the three numbers are the signed difference of the interpolated operands."
  },
  {
   "property": "C21",
   "status": "partial",
   "theorems": [
    "C21_exact_partial",
    "C21_first",
    "C21_refuted",
    "C21_refuted_below_BigM",
    "C21_refuted_between_samples",
    "C21_refuted_abs"
   ],
   "note": "Exact for every until-free formula whose comparisons are between sums, differences and multiples of signals, stay within BigM, whose nested timed operators have a restartable operand, and whose comparisons with arithmetic are evaluated up to a sample or to the end of the data; every one of these conditions is necessary (refutations). Until: see C15."
  },
  {
   "property": "C22",
   "status": "partial",
   "theorems": [
    "C22_collapse_partial",
    "C22_refuted"
   ],
   "note": "Conditions of C21 and evaluation intervals of an eventually over an atom at most a+b long; refuted without the latter."
  },
  {
   "property": "C23",
   "status": "partial",
   "theorems": [
    "C23_future_partial",
    "C23_refuted_before_data",
    "C23_refuted_cut",
    "C23_refuted_close",
    "C23_until_partial",
    "C23_refuted_until",
    "C23_refuted_until_lower"
   ],
   "note": "Every completion of the data, for formulas meeting the conditions of C22, data reaching the start of the horizon and times on a grid wider than 1e-14; each condition has a refutation. With until: the lower bound, where only a lower bound of until is needed and its operands are known beyond the start of the window (C23_until_partial); the upper bound of until is refuted, and so is the lower bound without that condition."
  },
  {
   "property": "C24",
   "status": "partial",
   "theorems": [
    "C24_between_partial",
    "C24_refuted",
    "C24_refuted_complete",
    "C33_until_partial"
   ],
   "note": "Proved when the data covers the horizon, also with until (C33_until_partial); refuted in general."
  },
  {
   "property": "C25",
   "status": "partial",
   "theorems": [
    "C25_refine_partial",
    "C25_refuted",
    "C25_refuted_until"
   ],
   "note": "Conditions as for C23; refuted when the horizon starts after the last sample, and for until."
  },
  {
   "property": "C33",
   "status": "partial",
   "theorems": [
    "C33_bounds_partial",
    "C33_refuted",
    "C33_within_partial",
    "C33_until_partial"
   ],
   "note": "The two bounds stay within BigM for every formula of the fragment, all data and all times (C33_bounds_partial). The estimate does not: C33_refuted (estimate 14000 with BigM 10000). All three numbers when the data covers the horizon, also with affine arithmetic operands (C33_within_partial). With until, when the data covers the horizon (C33_until_partial). Missing: until and arithmetic operands on data that stops early."
  },
  {
   "property": "C27",
   "status": "proved",
   "theorems": [
    "C27_monitor_samples",
    "C27_driver_samples",
    "C27_times_increase",
    "C27_refuted_on_doubles"
   ],
   "note": "Exact numbers, programs that do not overwrite the public data member; on doubles a NaN time is accepted (refutation)."
  },
  {
   "property": "C28",
   "status": "proved",
   "theorems": [
    "C28_monitors_isolated",
    "C28_drivers_isolated",
    "C28_BigM_is_shared"
   ],
   "note": "Any number type, every interleaving, as long as Signal::set_BigM is not called and the monitor itself is not assigned; BigM is process-wide."
  },
  {
   "property": "C29",
   "status": "proved",
   "theorems": [
    "C29_monitor",
    "C29_monitor_unknown",
    "C29_driver",
    "C29_driver_unknown",
    "C29_refuted_empty_name",
    "C29_monitor_kept",
    "C29_driver_kept"
   ],
   "note": "Non-empty names; for a driver the empty name overwrites numeric constants (refutation)."
  },
  {
   "property": "C41",
   "status": "proved",
   "theorems": [
    "C41_nothing_to_evaluate"
   ],
   "note": "Any number type."
  },
  {
   "property": "C42",
   "status": "proved",
   "theorems": [
    "C42_monitor_like_driver"
   ],
   "note": "Any number type."
  },
  {
   "property": "C43",
   "status": "proved",
   "theorems": [
    "C43_monitor_semantics",
    "C43_driver_semantics",
    "C43_monitor_interpol",
    "C43_driver_interpol",
    "C43_always_shown"
   ],
   "note": "Any number type."
  },
  {
   "property": "C44",
   "status": "partial",
   "theorems": [
    "C44_copied_monitor",
    "C44_copied_driver",
    "C44_refuted_signal"
   ],
   "note": "All calls except get_signal, which is empty on a copy before its first evaluation (refutation)."
  },
  {
   "property": "C36",
   "status": "partial",
   "theorems": [
    "C36_numbered",
    "C36_declared",
    "C36_called",
    "C36_column",
    "C36_names",
    "C36_refuted_names",
    "C36_refuted_32768"
   ],
   "note": "All inputs with at most 32767 signals. Refuted beyond (the number is a short) and for get_signals_names without signals."
  },
  {
   "property": "C37",
   "status": "partial",
   "theorems": [
    "C37_precedence",
    "C37_refuted",
    "C37_refuted_product"
   ],
   "note": "Conventional precedence is refuted; what holds instead is proved: every text of a grammar with the precedences 'actual' is read as the formula that grammar gives it."
  },
  {
   "property": "C38",
   "status": "partial",
   "theorems": [
    "C38_partial",
    "C38_refuted_parentheses",
    "C38_refuted_text"
   ],
   "note": "Proved for formulas that need no parentheses and whose constants print exactly; refuted otherwise."
  },
  {
   "property": "C39",
   "status": "partial",
   "theorems": [
    "C39_kept",
    "C39_redefinition",
    "C39_refuted"
   ],
   "note": "Every sequence of inputs keeps all earlier formulas; within one input a name just defined can be redefined (refutation)."
  },
  {
   "property": "C40",
   "status": "partial",
   "theorems": [
    "C40_partial",
    "C40_refuted_last_line",
    "C40_refuted_termination",
    "C40_refuted_uninitialised"
   ],
   "note": "Proved for files of newline-terminated rows of numbers; refuted for text fields (no termination), an unterminated last line (dropped) and trailing blanks (uninitialised value)."
  },
  {
   "property": "C45",
   "status": "proved",
   "theorems": [
    "C45_total",
    "C45_terminates"
   ],
   "note": "Any number type; at most 32767 signals for the absence of undefined behaviour, no condition for termination."
  },
  {
   "property": "C14",
   "status": "partial",
   "theorems": [
    "C14_until_partial",
    "C14_same_times",
    "C14_refuted",
    "C14_refuted_single_sample",
    "C14_start",
    "C14_stairs_start",
    "C14_refuted_jump"
   ],
   "note": "Proved for continuous signals with increasing times that are in step (in particular sampled at the same times); refuted when a sample of the left operand lies inside a falling piece of the right one, and for one-point domains. The first value is right for all continuous signals on a domain of positive length (C14_start), and for signals of constant pieces with jumps if the right one does not jump at the last instant (C14_stairs_start); refuted if it does (C14_refuted_jump)."
  },
  {
   "property": "C15",
   "status": "partial",
   "theorems": [
    "C15_timed_until_partial",
    "C15_refuted",
    "C15_refuted_early_start",
    "C15_refuted_slope",
    "C15_start",
    "C15_stairs_start"
   ],
   "note": "Proved under the conditions of C14 for windows shorter than the data, or reaching the end of the data from every time; the other windows are refuted: the bounds are compared with absolute end times. The first value is right for all continuous signals handed over as formulas do, also if they end at different times (C15_start), and for signals of constant pieces with jumps (C15_stairs_start)."
  },
  {
   "property": "C16",
   "status": "partial",
   "theorems": [
    "C16_boolean_partial",
    "C16_exact",
    "C16_refuted",
    "C16_refuted_zero",
    "C16_refuted_point"
   ],
   "note": "Exact characterisation on signals with a first sample at the beginning, increasing times and positive length; the sign is reported at every time before the end where the signal is not zero, if no piece rises from zero. Refuted for pieces rising from zero, upward crossings, signals of one point."
  },
  {
   "property": "C17",
   "status": "partial",
   "theorems": [
    "C17_left_time_partial",
    "C17_refuted"
   ],
   "note": "Under the conditions of C16; refuted for pieces rising from zero."
  },
  {
   "property": "C18",
   "status": "partial",
   "theorems": [
    "C18_refuted"
   ],
   "note": "False of the code on every such signal: the routine reads past the end of the boolean abstraction."
  },
  {
   "property": "C32",
   "status": "partial",
   "theorems": [
    "C32_safe_partial",
    "C32_online_partial",
    "C32_until_partial",
    "C32_until_online_partial",
    "C32_refuted_until",
    "C32_refuted_until_bound",
    "C32_refuted_left_time",
    "C32_refuted_right_time",
    "C32_refuted_window",
    "C32_refuted_negative_time",
    "C32_refuted_late_signal"
   ],
   "note": "Proved for space robustness and every formula without until, over arbitrary expressions, any interpolation, any data with full rows, any time that is not negative; and with until anywhere outside another until, where the data covers the untils as in C51; refuted for until otherwise, time robustness, windows ending before 0, negative times, and a signal declared after the first sample."
  },
  {
   "property": "C35",
   "status": "partial",
   "theorems": [
    "C35_robustness",
    "C35_bounds_partial"
   ],
   "note": "The robustness for every formula, semantics and data; the two bounds under space robustness for full rows, times and window ends not negative, any operator including until."
  },
  {
   "property": "C34",
   "status": "partial",
   "theorems": [
    "C34_samples_partial",
    "C34_comparison",
    "C34_between_samples",
    "C34_refuted_range",
    "C34_refuted_between"
   ],
   "note": "Values at all sample times for every expression, the numbers of every comparison, and exactness in between for affine expressions; that the range of the operands is covered is false (refuted). LINEAR interpolation."
  },
  {
   "property": "C46",
   "status": "partial",
   "theorems": [
    "C46_partial",
    "C46_any_partial",
    "C46_refuted"
   ],
   "note": "Proved for every text of ASCII characters without NUL, and for any text up to the first such character outside comments and quotes; refuted beyond it: the rest of the text is ignored and true is returned."
  },
  {
   "property": "C47",
   "status": "proved",
   "theorems": [
    "C47_complete",
    "C47_any",
    "C47_unambiguous"
   ],
   "note": "Formulas are compared up to what evaluations leave behind in them. With C46_any_partial: an exact characterisation of the accepted texts."
  },
  {
   "property": "C48",
   "status": "partial",
   "theorems": [
    "C48_partial",
    "C48_refuted_undefined",
    "C48_refuted_dump",
    "C48_refuted_value",
    "C48_refuted_empty"
   ],
   "note": "The bookkeeping is proved for all queues; that the numbers are those of the formulas is refuted: undefined for every formula never evaluated before (proved for all of them), wrong rows otherwise, undefined for an empty queue."
  },
  {
   "property": "C49",
   "status": "partial",
   "theorems": [
    "C49_partial",
    "C49_tests_partial",
    "C49_no_leak_partial",
    "C49_refuted_copy",
    "C49_refuted_clear",
    "C49_refuted_run",
    "C49_refuted_leak",
    "C49_refuted_leak_test"
   ],
   "note": "Proved for every history without tests, and with tests unless a driver with tests is copied, cleared with tests in the queue, or tests are run with an empty queue; each of these is refuted. Nothing is lost unless a name is defined again or a test is defined; both are refuted."
  },
  {
   "property": "C50",
   "status": "partial",
   "theorems": [
    "C50_partial",
    "C50_tests_partial",
    "C50_refuted_copy"
   ],
   "note": "Proved under the conditions of C49; refuted for copies of drivers with tests. What evaluations store in formulas is not part of the value."
  },
  {
   "property": "C51",
   "status": "partial",
   "theorems": [
    "C51_until_partial",
    "C51_collapse_partial",
    "C51_refuted_instant",
    "C51_refuted_nested",
    "C51_refuted_operand",
    "C51_refuted_at_BigM"
   ],
   "note": "Proved for boolean combinations of formulas without until (as in C21) and of untils with a window of positive length between formulas as in C21; all three numbers if comparisons are below BigM. Refuted: windows of one instant (undefined behaviour), until below always, until as an operand of until, upper bound when a comparison equals BigM. The conditions on data and windows are those of C21."
  },
  {
   "property": "C52",
   "status": "partial",
   "theorems": [
    "C52_verdict_partial",
    "C52_online_partial",
    "C52_online_until_partial",
    "C52_held_partial",
    "C52_semantics",
    "C52_refuted",
    "C52_refuted_held",
    "C52_refuted_held_until"
   ],
   "note": "Proved for the formulas and data of C51 (complete data) and C23 (data that stops early); C52_semantics for the semantics of all formulas. Uses Classical_Prop.classic. Refuted for until below always: three negative numbers for a formula that holds. C52_held_partial: first number over held (previous-value) signals, until included, under the conditions of C54; C52_refuted_held and C52_refuted_held_until without its condition on changes at window ends."
  },
  {
   "property": "C53",
   "status": "partial",
   "theorems": [
    "C53_margin_partial",
    "C53_stable_partial",
    "C53_held_partial"
   ],
   "note": "Proved for the formulas and data of C51, and over held signals for those of C54; C53_margin_partial asks nothing of the other trace but its distance. Uses Classical_Prop.classic (C53_margin_partial)."
  },
  {
   "property": "C54",
   "status": "partial",
   "theorems": [
    "C54_held_partial",
    "C54_apart",
    "C54_unique",
    "C54_linear",
    "C54_refuted_conjunction",
    "C54_refuted_bounds",
    "C54_refuted_uncovered",
    "C54_refuted_sum",
    "C54_until_partial",
    "C54_until_apart",
    "C54_refuted_until"
   ],
   "note": "The robustness is proved exact for all formulas without until if no operand of a binary operator below eventually or always changes at the last instant of its interval and sums and products below one are evaluated up to a sample. Refuted without these conditions (a violated formula gets three positive numbers), and for the two bounds. C54_until_partial adds untils over such formulas below not, and, or and implies, for windows [a,b] with a < b: the robustness is exact if the right operand does not change at the last instant of the window, and C54_refuted_until shows a satisfied until with three negative numbers when it does. Missing: until below temporal operators, and that the bound passes return with until."
  },
  {
   "property": "C55",
   "status": "partial",
   "theorems": [
    "C55_exact_partial",
    "C55_digits",
    "C55_held_partial",
    "C55_rounded_partial",
    "C55_refuted_linear",
    "C55_refuted_nested",
    "C55_refuted_held"
   ],
   "note": "Proved for held signals and all formulas if the times are multiples of one power of 2 and the sums, differences and products of values are doubles (C55_digits gives a condition on binary digits). Refuted for linear interpolation (a formula that holds by a margin of 0.4 gets -0.8) and for held signals with samples at tenths. Uses Flocq for the correctness of double operations. C55_rounded_partial: if the differences of the comparisons need rounding, the robustness computed is a nearest double to the robustness, with its sign. Missing: the bounds for rounded values, operands that need rounding, other times."
  },
  {
   "property": "C56",
   "status": "proved",
   "theorems": [
    "C56_remove_inf"
   ],
   "note": "removeInf drops exactly the infinite samples at the end and keeps the rest of the signal."
  },
  {
   "property": "C57",
   "status": "proved",
   "theorems": [
    "C57_reads_back",
    "C57_rounding",
    "C57_scanned",
    "C57_tidy",
    "C57_formula"
   ],
   "note": "Exact numbers; that operator<< prints a double like the rational number it is (six digits, ties to even) is part of the model."
  },
  {
   "property": "C58",
   "status": "partial",
   "theorems": [
    "C58_driver_partial",
    "C58_monitor_partial",
    "C58_text_partial",
    "C58_online_partial",
    "C58_online_until_partial",
    "C58_held_partial"
   ],
   "note": "The conditions are those of C51 (until between formulas without until, numbers below BigM, windows regular) and C23 (no until, times on a grid): SPACE semantics, LINEAR interpolation, exact arithmetic. C58_online_until_partial: with until, the bound that C23_until_partial gives, if the early evaluation goes well. C58_held_partial: PREVIOUS interpolation, the first number, conditions of C54 without until. Missing: formulas, data and times for which C51, C23 and C54 are refuted or open."
  },
  {
   "property": "C59",
   "status": "proved",
   "theorems": [
    "C59_scanner",
    "C59_rules",
    "C59_lexer",
    "C59_calls"
   ],
   "note": "The tables are those of src/stl_scanner.cpp. Left out of the model: growth of the buffer, the NUL put behind yytext between calls, locations. The lexer the other parser theorems use is proved to agree (C59_lexer, C59_calls)."
  },
  {
   "property": "C60",
   "status": "proved",
   "theorems": [
    "C60_queue",
    "C60_run",
    "C60_total"
   ],
   "note": "The numbers reported are those run_formula computes (C48). Overflow of the int counters is not modelled."
  }
 ]
}