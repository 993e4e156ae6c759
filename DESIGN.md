# Design: a machine-checked model of STLRom

Target: `decyphir/STLRom`, C++ sources in `/repo`, read as text and never built.
Prover: Rocq/Coq 8.16.1, standard library only.

## 1. Model

| file | models | source |
|---|---|---|
| `Num.v` | the operations the code uses on `double`, as a record `Num T`; instances: canonical rationals `Qc` and Coq's primitive floats | all |
| `Base.v` | outcomes: `Ok`, `UB`, `Exn`, `NonFinite`, `OutOfFuel` | all |
| `Signal.v` | `Sample`, `Signal`, `appendSample`, `simplify`, `resize`, `shift`, `removeInf` | include/signal.h, src/signal.cpp |
| `Robust.v` | every `compute_*` and helper routine | src/robustness.cpp |
| `Transducer.v` | transducer tree, horizons, robustness and interval passes, atoms, expressions | src/transducer.cpp, src/interval_transducer.cpp, src/stl_atom.cpp, src/signal_expr.cpp, headers |
| `Driver.v` | `STLMonitor`, `STLDriver`, process-wide statics, histories of operations | include/stl_monitor.h, src/stl_monitor.cpp, include/stl_driver.h, src/stl_driver.cpp |
| `Tests.v` | `stl_test`, `trace_test`, `add_trace_test`, `add_stl_test`, `run_tests`, `dump` | include/stl_driver.h, src/stl_driver.cpp |
| `Memory.v` | objects of formulas in memory: `new`, `delete`, destructors, `clone`; which pointers drivers, monitors, tests and the parser hold | include/transducer.h, include/signal_expr.h, include/stl_monitor.h, src/stl_driver.cpp, src/stl_parser.ypp |
| `Tables.v` | the tables of the generated LALR parser, and the rules | src/stl_parser.cpp, src/stl_parser.ypp |
| `Parser.v` | scanner, parser loop and semantic actions, printing of formulas, `signal_map_to_string`, `read_trace` | src/stl_scanner.lpp, src/stl_parser.ypp, include/transducer.h, src/tools.cpp |
| `FlexTables.v`, `Flex.v` | the tables of the generated scanner; matching, end of buffer, reading the text in pieces, actions | src/stl_scanner.cpp |
| `Decimal.v` | exact value of a decimal text; `operator<<` with 6 digits on exact numbers | src/tools.cpp `s_to_d`, include/signal_expr.h |
| `NumFloat.v` | the instance on Coq's primitive floats, used in the refutations about NaN and in C55 | all |
| `Spec.v` | independent specification: interpolation, denotation of a signal, lub/glb over dense windows | (no code) |
| `StlSpec.v` | STL quantitative semantics, conditions on formulas and data | (no code) |
| `StepSpec.v` | the same semantics over signals that hold their last value | (no code) |
| `Double.v` | the rational number a double stands for; binary times; rounding | (no code) |
| `SatSpec.v` | Boolean semantics, distance of traces, gain of a formula | (no code) |
| `DriverSpec.v` | what a sequence of calls should do to data, parameters and settings | (no code) |
| `ParserSpec.v` | grammar with precedences, texts, printable formulas, trace files | (no code) |
| `LangSpec.v` | words, statements and their effect, whole texts | (no code) |
| `FlexSpec.v` | regular expressions, the 31 rules of the scanner file, longest match | (src/stl_scanner.lpp for the rules) |

Each definition cites file and lines. Proofs live in separate files; the
property theorems live in `Prop_*.v`, closed by `exact`, followed by
`Print Assumptions`.

### Modelling decisions

* **Numbers.** The model is generic in `Num T`. The value theorems (min, max,
  sup, ...) are about `Qc`: exact arithmetic, no rounding, no NaN, no infinity.
  Division by zero yields the outcome `NonFinite` instead of inf/NaN. The
  literal `1e-14` is the exact rational. Theorems on state, histories and
  purity are proved for every `Num T` and hence also cover the IEEE instance.
  C55 relates the evaluation on IEEE doubles to the one on `Qc`.
* **Undefined behaviour** (dereferencing `end()`/`rend()`, `front()` of an empty
  container, reading an uninitialised member, division-free) is the outcome `UB`. It is
  absorbing. A theorem that concludes `= Ok ..` therefore proves absence of UB
  on that path.
* **Loops** are structural recursion over lists (reverse iterators are the
  remaining list of the reversed deque) or fuel with `OutOfFuel`; theorems prove
  that the fuel given by the model suffices.
* **Statics** (`semantics`, `interpol`, `BigM`) are an explicit environment
  record for the routines and an explicit world component in `Driver.v`.
* **Transducers** are an inductive tree. C++ virtual dispatch becomes a match.

### Not modelled

Memory allocation, ownership and destructors outside `Memory.v` (there: objects of
formulas; not the strings of the parser, not the pointers of formulas to data and parameters), console output, debug macros, `disp`, the files written by `dump`, file I/O beyond the text of a
trace file, the pybind11 layer, the command line tool, floating-point rounding
in the `Qc` theorems.

In the generated scanner (`Flex.v`): the growth of the buffer, the NUL put behind
yytext between two calls, locations, start conditions other than INITIAL (none is
used). The parser theorems use the lexer of `Parser.v`, which C59 proves to agree
with the generated scanner.

In the parser: error messages and locations, the contents of test statements (only
their names are kept), overflow in `s_to_d`. Assigned formulas are values there; C50
is the justification. The uninitialised `double` of
`read_trace` is an arbitrary parameter `junk` of the theorems.

## 2. Specification style

A signal denotes a function of dense time: its value at `t` is the value at `t`
of the line carried by the last sample whose time is `<= t`. This is a relation
`denotes` in `Spec.v`, which mentions none of the routines. Suprema are stated
as least upper bounds over all rational times of a window. STL semantics is a
recursive relation on formulas and times, on the interpolated trace.

When the code violates a property, the full statement is kept in
`properties.jsonl`; the theorem `_refuted` gives a witness computed by the
model, and a `_partial` theorem gives the largest fragment proved.

## 3. Plan per property

| id | how |
|---|---|
| C01 | induction over the list of appends, any `Num` with a total order; `Qc` theorem |
| C02 | invariant: consecutive samples carry the slope to the next one |
| C03 | same with zero slopes |
| C04 | map lemma; double negation is Leibniz equality in `Qc` |
| C05 | backward induction: partial results represent min on `[t, end)`; crossing lemma on lines |
| C06 | duality `or = not and not` proved as an equality of outputs |
| C07 | from C04, C06 |
| C08 | rotation invariant of the in-place loop |
| C09 | induction on the pops; refuted for the case where the first kept instant has no sample (derivative lost) |
| C10 | map lemma |
| C11 | backward induction: partial result represents the running sup |
| C12 | sliding window invariant (Lemire queue), then pointwise max with the endpoint signals; jumps between constant pieces (`stairs`, StairProof) from the lemmas on step signals made for C54 |
| C13 | by duality with C12 |
| C14 | backward induction over the pieces of the left operand, with the value at `u` split at the end of a piece; refuted in general (sample misplaced); partial: signals in step; the first value is right for all continuous signals (C14_start) and for `stairs` (C14_stairs_start, C14_refuted_jump) |
| C15 | from C12, C13, C14: within a window `[s,s+c]` until is the min of the windowed sup of the right operand and of untimed until; refuted for windows compared with absolute times; the first value is right as formulas call it (C15_start, C15_stairs_start) |
| C16 | induction over the pieces, crossings computed exactly; exact characterisation on sampled signals; refuted at zeros and for pieces rising from zero |
| C17 | from C16: after `simplify` consecutive samples of the abstraction differ, so each starts a phase; refuted for pieces rising from zero |
| C18 | refuted on every sampled signal: reads past the end |
| C19 | syntactic equality of outputs |
| C20 | trace reading invariant |
| C21 | induction on the formula; every node's signal represents the semantics on its horizon; comparisons of affine arithmetic by induction on the expression (ExprPass) |
| C22 | refuted (child trimmed by `ev`); partial with side condition |
| C23 | refuted (upper default, until, trimming); partial: fragment with every atom started; `UntilOnline.v`: the lower bound with until, from the first value of until on signals that end early (C15_start) and the bounds of its operands; the upper bound of until is refuted (`UntilEarly.v`) |
| C24 | refuted; partial (with until: on covering data, where the bounds are the value) |
| C25 | refuted (also for until); partial |
| C26 | preparation depends only on the skeleton of the tree; any `Num` |
| C27 | `accepts` characterised; induction over programs; refuted on doubles (NaN time) |
| C28 | a call reads of the statics only `BigM`; each object runs as if alone; `BigM` shared |
| C29 | map lemmas; an ignored call leaves an equivalent driver; refuted for the empty name |
| C30 | simulation between tree and substituted tree |
| C31 | induction on the tree |
| C32 | the times of all operands of a comparison agree after each pass, every signal has a sample at its beginning; induction over the formula; `SafeUntil.v`: the same with until at any depth, on the passes of C51; refuted for until on short data, time robustness, short rows, negative times and windows |
| C33 | invariant of both passes: all signals within BigM, begin at the start time and reach it (WithinSignal, WithinTree); witness for the estimate; with until on covering data from the exact value (UntilTree) |
| C34 | the times of every expression node are the start and the row times of the horizon, its values those of the expression (induction over the expression); exact in between for affine expressions; range covered refuted |
| C35 | first pass: equal results by induction over formula and data; later passes: comparisons are not changed any more once read (SafeTree), relation between the two objects kept by each pass |
| C36 | invariant of the parser loop (names numbered in order); refuted for zero signals and for the 32768th; the call that declares a signal in histories of calls agrees with the text (DeclCall) |
| C37 | refuted on a text of the usual grammar; the grammar the tables implement proved by simulation of the automaton |
| C38 | printed text is a text of the grammar of C37 (no parentheses needed), then C37; refuted otherwise |
| C39 | invariant of the parser loop; refuted within one input |
| C40 | induction over lines and fields; refuted (non-termination on a word, last line dropped, uninitialised value) |
| C41 | by cases |
| C42 | evaluation depends on the skeleton of the tree only |
| C43 | by cases; invariant over programs |
| C44 | bisimulation of objects with equal fields and tree skeletons; refuted for get_signal |
| C45 | measure on configurations decreasing at every step, checked on the tables; automaton invariants |
| C46 | invariant of the parser: every symbol on the stack stands for words read before and an effect on the driver; table facts by computation; refuted for characters that are not ASCII |
| C47 | simulation: the parser follows the derivation of the text, word by word (`LangRun.v`), on top of a completeness proof of the scanner (`LangRead.v`: the longest word spelled at a position is the token read there); drivers are compared up to what evaluations leave behind in formulas |
| C48 | `Tests.v`: the test queue, add_stl_test, run_tests and dump on transducer objects with their unset read positions; the bookkeeping by induction on the list of tests; refuted: undefined for every formula never evaluated before, wrong rows for the others, undefined for an empty queue |
| C49 | `Memory.v`: a heap of objects and worlds of drivers and monitors; invariant: the objects are those of disjoint trees, one for each pointer held, and of what was lost before; preserved by every operation; refuted with tests and for redefinitions |
| C50 | `MemoryValue.v`: the same operations on values; simulation. Objects do not change and addresses are not used twice, so what is still there says what it said before |
| C51 | `UntilFront.v`: the signal of an until may be wrong after its first sample, but the first sample is right whatever signals the operands are, since each backward step only uses the value at the end of the segment, and a segment of no length leaves it alone; `Front.v`: a first value passes unchanged through negation, min, max and resizing whatever the later samples are; `UntilTree.v`: induction on the formula, the operands by C21 and C22; refuted for until below a timed operator and for windows of one instant |
| C52 | `SatSpec.v`: Boolean semantics; induction on the formula (sign of the semantics), then C22, C23, C51. Uses `classic`: a positive supremum is positive somewhere; refuted for until below always; with until the verdict of the lower bound on data that stops early (SatClaims); over held signals (HeldSat) from C54: the same induction with `held` readings, whose uniqueness replaces that of interpolation; refuted where a value changes at the end of a window |
| C53 | induction on the formula: min, max, sup and inf do not enlarge distances; interpolation does not either; then C22, C51; over held signals from C54, holding a sample does not enlarge distances either (HeldSat) |
| C54 | spec `rob_of held` (StepSpec): the semantics with another reading of samples; step signals are closed under the operators (StepOr, StepBounded, StepTimed, StepBool): strictly increasing times, zero slopes; a binary operator forgets a change at the last instant, hence `settled`; `apart_ends` is a condition on times that implies it; refutations for each hypothesis and for the bounds; until (StepUntil, StepUntilTree): only the first value is followed (`jfront`), the backward sweep over step signals accumulates the supremum over the half-open rest of the window (`sofar`), so a right operand that changes at the last instant of the window is missed (C54_refuted_until) and `usettled` asks that it does not |
| C55 | `Double.v`: `qval` of a double; `DoubleProof.v`: comparisons, negation and exact sums, differences and products on doubles are those of the rational numbers (Flocq); `Lock.v`, `LockTree.v`: the evaluation on doubles and the one on rationals run in lockstep, sample by sample, as all times stay on a binary grid below 2^51 and no value is rounded; `Rounded.v`, `RoundLock.v`: if comparisons round, the run on doubles is in lockstep with the run on the formula whose comparisons are columns of rounded differences, and minima and maxima commute with rounding, which is monotone (`classic` decides whether an infimum is attained); refutations by computing both |
| C56 | `removeInf` (Signal.v) against `infinite` (SignalClaims): the samples are those left followed by samples with an infinite value or slope, the last one left is finite, `denotes` is the same before the first removed sample |
| C57 | `Decimal.v`: `show6` (printing) and `decimal` (reading); `DecimalSpec.v`: rounding to six digits; `DecimalProof.v`: the digits and the exponent found by `show6` are those of the specification, the text is cut and read back digit by digit, a rounded number is printed alike; `DecimalShape.v`: the form of the text; `DecimalClaims.v`: formulas, with the parser theorem of C38 |
| C58 | `EndSpec.v`: the conditions of C51 and C23 gathered, and the call sequences; `EndProof.v`: parsing (C47), feeding samples (C42), one evaluation, then `until_collapse` (C51), `future` (C23) and `safe_claim` (C32); `EndWitness.v`: a text with two formulas; `EndMoreSpec.v`, `EndMore.v`: the same with until asked early (`online_until`, one bound) and with PREVIOUS interpolation (`held_claim`, C54) |
| C59 | `Flex.v` runs the tables with the buffer and its pieces; `FlexProof.v`: the scan over pieces equals one walk of the automaton over the whole text (exhaustive over states and characters for the table lookups, induction over the text and the pieces); `FlexRegex.v`: every state stands for the derivatives of the 31 rules (exhaustive check states x characters), so the walk finds the longest match; `FlexLex.v`: the walk and the lexer of `Parser.v` agree; `FlexScan.v`: calls |
| C60 | `TestsQueue.v`: histories of calls; the queue, the map of tests and the counters against `latest` and `added`, by induction on the history; with C48 for the report |

## 4. Trusted base

Coq's kernel and `vm_compute`, for C55 with its primitive floats; `Classical_Prop.classic` of the standard library in C52 and C53; for C55 the axioms of the standard library on primitive floats (`FloatAxioms`) and on real numbers, and the theorems (no axioms) of the library Flocq; the transcription of the C++ sources into
`Num.v` ... `Parser.v` (by hand, line references in comments); the
specification in `Spec.v`. `Print Assumptions` output per theorem is listed in
section 5.

## 5. Print Assumptions

`Closed under the global context`, by file:

* `Prop_Beyond.v`: C35_robustness, C35_bounds_partial.
* `Prop_Boolean.v`: C16_boolean_partial, C16_exact, C16_refuted, C16_refuted_zero, C16_refuted_point, C17_left_time_partial, C17_refuted, C18_refuted.
* `Prop_Decimal.v`: C57_reads_back, C57_rounding, C57_scanned, C57_tidy, C57_formula.
* `Prop_Double.v`: .
* `Prop_Driver.v`: C27_monitor_samples, C27_driver_samples, C27_times_increase, C28_monitors_isolated, C28_drivers_isolated, C28_BigM_is_shared, C29_monitor, C29_monitor_unknown, C29_driver, C29_driver_unknown, C29_refuted_empty_name, C29_monitor_kept, C29_driver_kept, C41_nothing_to_evaluate, C42_monitor_like_driver, C43_monitor_semantics, C43_driver_semantics, C43_monitor_interpol, C43_driver_interpol, C43_always_shown, C44_copied_monitor, C44_copied_driver, C44_refuted_signal.
* `Prop_End.v`: C58_driver_partial, C58_monitor_partial, C58_text_partial, C58_online_partial.
* `Prop_EndMore.v`: C58_online_until_partial, C58_held_partial.
* `Prop_Expr.v`: C34_samples_partial, C34_comparison, C34_between_samples, C34_refuted_range, C34_refuted_between.
* `Prop_Flex.v`: C59_scanner, C59_rules, C59_lexer, C59_calls.
* `Prop_HeldSat.v`: C52_refuted_held, C52_refuted_held_until.
* `Prop_Memory.v`: C49_partial, C49_tests_partial, C49_no_leak_partial, C49_refuted_copy, C49_refuted_clear, C49_refuted_run, C49_refuted_leak, C49_refuted_leak_test, C50_partial, C50_tests_partial, C50_refuted_copy.
* `Prop_Parser.v`: C36_numbered, C36_declared, C36_called, C36_column, C36_names, C36_refuted_names, C36_refuted_32768, C37_precedence, C37_refuted, C37_refuted_product, C38_partial, C38_refuted_parentheses, C38_refuted_text, C39_kept, C39_redefinition, C39_refuted, C40_partial, C40_refuted_last_line, C40_refuted_termination, C40_refuted_uninitialised, C45_total, C45_terminates, C46_partial, C46_any_partial, C46_refuted, C47_complete, C47_any, C47_unambiguous.
* `Prop_Queue.v`: C60_queue, C60_run, C60_total.
* `Prop_Safe.v`: C32_safe_partial, C32_online_partial, C32_until_partial, C32_until_online_partial, C32_refuted_until, C32_refuted_until_bound, C32_refuted_left_time, C32_refuted_right_time, C32_refuted_window, C32_refuted_negative_time, C32_refuted_late_signal.
* `Prop_Sat.v`: C52_refuted, C53_stable_partial.
* `Prop_Signal.v`: C01_append_keeps_order, C02_linear, C02_interpolation_exists, C02_interpolation_unique, C03_previous, C03_value_exists, denotes_unique, denotes_exists, C04_not, C05_and, C06_or, C07_implies, C05_refuted_jump_at_end, C08_simplify, C08_refuted_no_sample_at_begin, C08_refuted_two_at_begin, C09_resize_partial, C09_refuted, C10_shift, C56_remove_inf, C19_or_by_and, C19_and_by_or, C19_timed_always, C19_timed_eventually.
* `Prop_Stairs.v`: C12_stairs_partial, C13_stairs_partial, C14_stairs_start, C15_stairs_start, C14_refuted_jump.
* `Prop_Step.v`: C54_held_partial, C54_apart, C54_unique, C54_linear, C54_refuted_conjunction, C54_refuted_bounds, C54_refuted_uncovered, C54_refuted_sum, C54_until_partial, C54_until_apart, C54_refuted_until.
* `Prop_Stl.v`: C20_atom, C20_atom_value, C21_exact_partial, C21_first, C21_refuted, C21_refuted_below_BigM, C21_refuted_between_samples, C21_refuted_abs, C22_collapse_partial, C22_refuted, C23_future_partial, C23_refuted_before_data, C23_refuted_cut, C23_refuted_close, C24_between_partial, C24_refuted, C24_refuted_complete, C25_refine_partial, C25_refuted, C33_bounds_partial, C33_refuted, C33_within_partial.
* `Prop_StlUntil.v`: C51_until_partial, C51_collapse_partial, C33_until_partial, C51_refuted_instant, C51_refuted_nested, C51_refuted_operand, C51_refuted_at_BigM, C23_until_partial, C23_refuted_until, C23_refuted_until_lower, C25_refuted_until.
* `Prop_Temporal.v`: C11_eventually_partial, C11_refuted, C11_refuted_receiver, C11_refuted_below_BigM, C12_timed_eventually_partial, C13_timed_always_partial, C12_refuted, is_sup_unique.
* `Prop_Tests.v`: C48_partial, C48_refuted_undefined, C48_refuted_dump, C48_refuted_value, C48_refuted_empty.
* `Prop_Tree.v`: C26_repeatable, C26_only_the_formula, C30_parameters_are_constants, C31_horizons, C31_horizons_kept.
* `Prop_Until.v`: C14_until_partial, C14_same_times, C14_refuted, C14_refuted_single_sample, C14_start, C15_timed_until_partial, C15_refuted, C15_refuted_early_start, C15_refuted_slope, C15_start.

The remaining ones use the axiom of classical logic of the standard library
(`Classical_Prop.classic`), or are about IEEE doubles. These list the primitive floats and integers of the
standard library (types and operations of the kernel). The positive theorems of C55 besides
list the standard library axioms that specify these operations (`FloatAxioms`) and those of
its real numbers:

* C55_exact_partial: `FloatAxioms.sub_spec`, `PrimInt63.sub`, `sub`, `ClassicalDedekindReals.sig_not_dec`, `ClassicalDedekindReals.sig_forall_dec`, `FloatAxioms.opp_spec`, `opp`, `of_uint63`, `normfr_mantissa`, `FloatAxioms.mul_spec`, `mul`, `FloatAxioms.ltb_spec`, `ltb`, `PrimInt63.lsr`, `PrimInt63.lsl`, `PrimInt63.lor`, `FloatAxioms.leb_spec`, `leb`, `ldshiftexp`, `PrimInt63.land`, `PrimInt63.int`, `FunctionalExtensionality.functional_extensionality_dep`, `frshiftexp`, `float`, `FloatAxioms.eqb_spec`, `PrimInt63.eqb`, `eqb`, `div`, `Classical_Prop.classic`, `FloatAxioms.add_spec`, `add`, `FloatAxioms.abs_spec`, `abs`, `FloatAxioms.SF2Prim_Prim2SF`, `FloatAxioms.Prim2SF_valid`, `FloatAxioms.Prim2SF_SF2Prim`.
* C55_digits: `FloatAxioms.sub_spec`, `PrimInt63.sub`, `sub`, `ClassicalDedekindReals.sig_not_dec`, `ClassicalDedekindReals.sig_forall_dec`, `FloatAxioms.opp_spec`, `opp`, `of_uint63`, `normfr_mantissa`, `FloatAxioms.mul_spec`, `mul`, `ltb`, `PrimInt63.lsr`, `PrimInt63.lsl`, `PrimInt63.lor`, `leb`, `ldshiftexp`, `PrimInt63.land`, `PrimInt63.int`, `FunctionalExtensionality.functional_extensionality_dep`, `frshiftexp`, `float`, `PrimInt63.eqb`, `eqb`, `div`, `Classical_Prop.classic`, `FloatAxioms.add_spec`, `add`, `FloatAxioms.abs_spec`, `abs`, `FloatAxioms.SF2Prim_Prim2SF`, `FloatAxioms.Prim2SF_valid`, `FloatAxioms.Prim2SF_SF2Prim`.
* C55_held_partial: `FloatAxioms.sub_spec`, `PrimInt63.sub`, `sub`, `ClassicalDedekindReals.sig_not_dec`, `ClassicalDedekindReals.sig_forall_dec`, `FloatAxioms.opp_spec`, `opp`, `of_uint63`, `normfr_mantissa`, `FloatAxioms.mul_spec`, `mul`, `FloatAxioms.ltb_spec`, `ltb`, `PrimInt63.lsr`, `PrimInt63.lsl`, `PrimInt63.lor`, `FloatAxioms.leb_spec`, `leb`, `ldshiftexp`, `PrimInt63.land`, `PrimInt63.int`, `FunctionalExtensionality.functional_extensionality_dep`, `frshiftexp`, `float`, `FloatAxioms.eqb_spec`, `PrimInt63.eqb`, `eqb`, `div`, `Classical_Prop.classic`, `FloatAxioms.add_spec`, `add`, `FloatAxioms.abs_spec`, `abs`, `FloatAxioms.SF2Prim_Prim2SF`, `FloatAxioms.Prim2SF_valid`, `FloatAxioms.Prim2SF_SF2Prim`.
* C55_rounded_partial: `FloatAxioms.sub_spec`, `PrimInt63.sub`, `sub`, `ClassicalDedekindReals.sig_not_dec`, `ClassicalDedekindReals.sig_forall_dec`, `FloatAxioms.opp_spec`, `opp`, `of_uint63`, `normfr_mantissa`, `FloatAxioms.mul_spec`, `mul`, `FloatAxioms.ltb_spec`, `ltb`, `PrimInt63.lsr`, `PrimInt63.lsl`, `PrimInt63.lor`, `FloatAxioms.leb_spec`, `leb`, `ldshiftexp`, `PrimInt63.land`, `PrimInt63.int`, `FunctionalExtensionality.functional_extensionality_dep`, `frshiftexp`, `float`, `FloatAxioms.eqb_spec`, `PrimInt63.eqb`, `eqb`, `div`, `Classical_Prop.classic`, `FloatAxioms.add_spec`, `add`, `FloatAxioms.abs_spec`, `abs`, `FloatAxioms.SF2Prim_Prim2SF`, `FloatAxioms.Prim2SF_valid`, `FloatAxioms.Prim2SF_SF2Prim`.
* C55_refuted_linear: `sub`, `opp`, `normfr_mantissa`, `mul`, `ltb`, `PrimInt63.lsr`, `leb`, `PrimInt63.land`, `PrimInt63.int`, `frshiftexp`, `float`, `PrimInt63.eqb`, `eqb`, `div`, `add`, `abs`.
* C55_refuted_nested: `sub`, `opp`, `normfr_mantissa`, `mul`, `ltb`, `PrimInt63.lsr`, `leb`, `PrimInt63.land`, `PrimInt63.int`, `frshiftexp`, `float`, `PrimInt63.eqb`, `eqb`, `div`, `add`, `abs`.
* C55_refuted_held: `sub`, `opp`, `normfr_mantissa`, `mul`, `ltb`, `PrimInt63.lsr`, `leb`, `PrimInt63.land`, `PrimInt63.int`, `frshiftexp`, `float`, `PrimInt63.eqb`, `eqb`, `div`, `add`, `abs`.
* C27_refuted_on_doubles: `sub`, `opp`, `mul`, `ltb`, `leb`, `float`, `eqb`, `div`, `add`, `abs`.
* C52_held_partial: `Classical_Prop.classic`.
* C53_held_partial: `Classical_Prop.classic`.
* C52_verdict_partial: `Classical_Prop.classic`.
* C52_online_partial: `Classical_Prop.classic`.
* C52_online_until_partial: `Classical_Prop.classic`.
* C52_semantics: `Classical_Prop.classic`.
* C53_margin_partial: `Classical_Prop.classic`.
* C01_refuted_on_doubles: `sub`, `opp`, `mul`, `ltb`, `leb`, `float`, `eqb`, `div`, `add`, `abs`.
