# Formal model of anand-bala/signal-temporal-logic

## 1. Approach

The model is a set of executable Gallina functions, one per C++ function, generic in the number
type through a small class `Num` (the double operations the code uses). Two instances:

* `B64`: Flocq's `binary_float 53 1024`, round-to-nearest-even: the arithmetic the code runs on
  (NaN payloads are not distinguished; signed zeros, infinities, subnormals, overflow are).
* `XR`: extended reals with NaN, exact arithmetic. Used for claims that are about real-valued
  signals and hold only up to rounding in the code.

Claims decided by comparisons and copies (timestamps, ordering, selection of extremes,
exceptions, undefined behaviour, termination) are proved for `B64`, mostly through the class
`NumLaws` (the comparisons embed the non-NaN values into the reals), which both instances satisfy.
Claims about interpolation and crossings are proved for `XR` and labelled "exact arithmetic".
Refutations are proved for `B64` by computation on a concrete witness, or for all inputs of a
class; `C06_refuted`, `C11_refuted`, `C29_refuted` and `C36_sign_refuted` are in exact arithmetic
(so they are not rounding artefacts).

Outcomes: every model function that can fail returns `outcome A` =
`Ok a | Throw exn | UB | Hang | AssertFail`.

* `UB`: undefined behaviour (dereferencing `end()`, `prev(begin())`, `front()` of an empty
  container). It is never totalised to a default value.
* `Hang`: the fuel of a loop ran out. Either proved impossible for the fuel the model uses, or
  proved for every fuel (`C18_refuted`), or the fuel is universally quantified in the theorem.
* `AssertFail`: an `assert` fired; only when the flag `dbg` is true. Theorems quantify over `dbg`.

Where the code is wrong, the property keeps its full English statement, a theorem named
`..._refuted` shows the counterexample, and `..._partial` theorems say what the code does instead,
as an exact characterisation where possible.

## 2. Files (rocq/theories)

* `Base`: outcome monad, list helpers. `Num`, `NumXR`, `NumB64`: arithmetic and its laws.
* `Model/*`: the code. Every definition cites file and lines.
* `Spec/*`: the specification vocabulary, independent of the model's helper functions.
* `Proofs/*`: lemmas and the concrete cases.
* `Props/*`: the property theorems, each followed by `Print Assumptions` and by an `Example`
  showing a concrete case that meets the hypotheses.
* `../tools/manifest.py` writes MANIFEST.json from the theorem names and `tools/notes.json`;
  `../tools/axioms.py` writes the table in section 3; `../tools/anchors.py` checks that the anchors of
  properties.jsonl and the citations in Model/* exist in /repo.
* `../seeded/LOG.jsonl`: the seeded-bug attempts (section 7).

## 3. Trusted base

* Coq 8.16.1's kernel (and `coqchk`, which re-checks every compiled file), including `vm_compute`,
  used for the concrete cases.
* The statements: `Model/*` as a faithful reading of the C++ (section 4), `Spec/*` and the
  theorem statements as a faithful reading of properties.jsonl.
* Flocq's definition of binary64 arithmetic as the meaning of C++ `double` (no x87 excess
  precision, no fused multiply-add contraction, no -ffast-math, default rounding mode), and of
  `static_cast<double>(unsigned long long)`.
* Parameters that stand for library functions, universally quantified in the theorems that
  mention them: `stod` (`std::stod` on the text of a decimal literal: `None` is `out_of_range`; C110-C112
  assume it to round correctly, `correct_stod`, and `C110_stod` shows the modelled one does),
  `fdbl` (fmt's formatting of a double).
* Axioms of the standard library only, as listed by `Print Assumptions`. They come with the real
  numbers (`Coq.Reals`) on which Flocq's development is based. Nothing is added.

| letter | axiom |
|---|---|
| F | `ClassicalDedekindReals.sig_forall_dec` |
| N | `ClassicalDedekindReals.sig_not_dec` |
| E | `FunctionalExtensionality.functional_extensionality_dep` |
| C | `Classical_Prop.classic` |

Per theorem (`none` = "Closed under the global context"):

<!-- axioms -->
* **E+F**: `C06_at_between_partial`, `C06_refuted`, `C10_simplify_same_function`, `C11_refuted`, `C11_simplify_drops_partial`, `C12_resize_partial`, `C13_shift_translates`, `C17_sync_same_functions`, `C21_time_intersect`, `C21_time_intersect_inside`, `C22_area_before`, `C24_elementwise_max`, `C24_elementwise_min`, `C24_same_begin`, `C24_synchronized_flag`, `C27_nary_max`, `C27_nary_min`, `C29_refuted`, `C29_rolling_max_partial`, `C29_rolling_min_partial`, `C31_duality_andor`, `C31_duality_temporal`, `C32_long_window_refuted`, `C32_returns_partial`, `C35_boolean_exact`, `C36_sign_refuted`, `C36_sign_sound_partial`, `C45_shift`, `C46_scale`, `C47_total_exact`, `C65_neg_line_exact`, `C72_value_at_begin`, `C73_nested_refuted`, `C75_lipschitz`, `C75_lipschitz_boolean`, `C76_monotone`, `C77_verdict`, `C77_verdict_margin`, `C80_bounds`, `C80_bounds_consistent`, `C83_offsets`, `C84_time_unit`, `C86_and`, `C86_laws`, `C86_not`, `C86_or`, `C87_rewriting_partial`, `C88_resampling_partial`, `C88_resampling_refuted`, `C95_derived`
* **none**: `C113_signals_partial`, `C49_lists`, `C49_operators`, `C50_throws_partial`, `C51_fewer_throw`, `C55_assert_refuted`, `C67_const_equality`, `C69_repr_partial`, `C74_signal_text`
* **C+E+F**: `C105_margin`, `C105_verdict`
* **C+E+F+N**: `C01_append_strictly_increasing`, `C02_nan_always_accepted`, `C02_partial`, `C02_refuted`, `C03_derivatives_are_slopes`, `C04_construction`, `C05_at_existing_sample`, `C06_refuted_binary64`, `C07_never_throws_partial`, `C07_refuted`, `C08_begin_at`, `C09_end_at_partial`, `C09_refuted`, `C09_search_partial`, `C100_messages`, `C101_reported`, `C101_unclosed_refuted`, `C102_not_a_command`, `C103_first_error`, `C104_in_term`, `C106_order`, `C107_parsed_evaluates`, `C108_constant_partial`, `C108_constant_refuted`, `C109_samples`, `C109_text`, `C10_simplify_keeps_samples`, `C110_constants`, `C110_nearest`, `C110_stod`, `C111_refuted`, `C111_spelling_partial`, `C112_minus_refuted`, `C112_refuted`, `C113_formulas_partial`, `C113_intervals_refuted`, `C114_andor_partial`, `C114_andor_refuted`, `C114_temporal`, `C115_always`, `C115_bound`, `C115_eventually`, `C116_formula_partial`, `C116_pair_partial`, `C116_throws_refuted`, `C117_boolean_partial`, `C117_chains_partial`, `C117_pair_partial`, `C117_temporal_partial`, `C117_three_refuted`, `C118_boolean`, `C118_chains`, `C118_pair`, `C118_temporal`, `C119_boolean`, `C119_chains`, `C119_pair`, `C119_temporal`, `C120_boolean`, `C120_chains`, `C120_list`, `C120_temporal`, `C121_boolean`, `C121_chains`, `C121_list`, `C121_temporal`, `C122_boolean`, `C122_separated`, `C122_temporal`, `C123_boolean`, `C123_temporal`, `C124_boolean`, `C124_separated`, `C124_temporal`, `C124_times`, `C125_always`, `C125_boolean`, `C125_eventually`, `C126_boolean`, `C126_results`, `C126_temporal`, `C127_always`, `C127_boolean`, `C127_eventually`, `C128_until`, `C129_sampled`, `C129_values`, `C12_otherwise_partial`, `C12_refuted`, `C12_resize_throws`, `C14_refuted`, `C14_shift_times_partial`, `C15_refuted`, `C15_sync_defined_partial`, `C15_sync_otherwise`, `C16_sync_aligns`, `C18_refuted`, `C18_sync_terminates_partial`, `C19_sync_symmetric`, `C20_sync_idempotent`, `C22_area_is_integral`, `C22_integrable`, `C23_sample_order`, `C25_max_at_samples`, `C25_min_at_samples`, `C26_max_throws_partial`, `C26_min_throws_partial`, `C26_refuted`, `C28_rolling_max`, `C28_rolling_min`, `C30_max_idempotent`, `C30_min_idempotent`, `C32_short_window_refuted`, `C32_wrong_value_refuted`, `C32_zero_start_refuted`, `C33_front_is_extreme`, `C33_search`, `C33_wedge_contents`, `C33_wedge_max`, `C33_wedge_min`, `C34_predicate_sign`, `C37_until_partial`, `C37_until_refuted`, `C38_interval_ignored_partial`, `C38_interval_refuted`, `C38_until_interval_ignored_partial`, `C39_anywhere_partial`, `C39_constants_partial`, `C39_constants_refuted`, `C39_first_refuted`, `C40_double_negation`, `C41_named_signals`, `C42_missing_signal`, `C42_missing_signal_predicate`, `C42_missing_signal_throws`, `C43_output_wf`, `C44_flag`, `C47_total_binary64`, `C48_sampled_sound`, `C50_and_refuted`, `C50_or_refuted`, `C51_parsed`, `C51_two_operands`, `C52_integers_refuted`, `C52_interval_partial`, `C52_nan_refuted`, `C53_has_value_refuted`, `C53_zero_to_inf_partial`, `C54_bounded_refuted`, `C54_unbounded_partial`, `C55_debug_partial`, `C55_release`, `C56_meaning`, `C56_roundtrip`, `C57_all_names`, `C57_message`, `C57_redefinition`, `C57_single`, `C58_resolves`, `C58_undefined_throws`, `C59_first_partial`, `C59_second_refuted`, `C60_dropped_refuted`, `C60_empty_partial`, `C60_empty_refuted`, `C60_nested_refuted`, `C60_several_refuted`, `C60_two_operands_refuted`, `C61_unbounded`, `C62_layout`, `C63_empty_partial`, `C63_empty_refuted`, `C64_no_until_partial`, `C64_precedence_refuted`, `C65_neg_involutive_and_antitone`, `C65_neg_line`, `C66_empty`, `C66_ends`, `C66_index_inside`, `C66_index_outside`, `C67_predicate_equality`, `C68_comparisons`, `C68_nodes`, `C69_calls_partial`, `C69_compare_partial`, `C69_construct_partial`, `C69_derivative_refuted`, `C69_python_view_partial`, `C70_evaluates_or_throws`, `C71_sign_at_samples`, `C71_value_at_samples`, `C78_grammar`, `C78_rejected`, `C79_until_sign`, `C81_renaming`, `C82_mirror`, `C85_causal`, `C85_past_irrelevant`, `C87_rewriting_refuted`, `C89_size_bound`, `C90_times_kept`, `C90_times_not_invented`, `C91_boolean`, `C91_temporal`, `C92_interpolation`, `C92_minmax`, `C92_synchronize`, `C93_verdict_partial`, `C93_verdict_refuted`, `C94_reading`, `C96_inline`, `C97_simplify_idempotent`, `C98_resize_shift`, `C99_empty_partial`, `C99_empty_refuted`
<!-- /axioms -->

## 4. What is modelled

| file in /repo | model | remarks |
|---|---|---|
| src/include/signal_tl/signal.hpp, src/core/signal.cc | Model/Signal.v | all functions; `std::vector` as lists, iterators as positions, `std::lower_bound` as libstdc++'s loop |
| src/robust_semantics/mono_wedge.h | Model/MonoWedge.v | `mono_wedge_search`, `mono_wedge_update`, `pop_front`, and the convenience variants min/max_wedge_* (not used by the code) at samples; the rvalue variants 178-186 have a template parameter that cannot be deduced |
| src/robust_semantics/minmax.cc, .hpp | Model/MinMax.v | elementwise pair and n-ary, rolling and windowed min/max |
| src/robust_semantics/classic_robustness.cc | Model/Robustness.v | `compute_robustness` and the visitor |
| src/include/signal_tl/ast.hpp, src/core/ast.cc | Model/Ast.v | nodes, intervals, equality of leaves, operators, helpers |
| src/parser/grammar.hpp, error_messages.hpp | Model/Peg.v, Model/Parser.v | the grammar as data, interpreted by a model of the PEGTL rules it uses |
| src/parser/actions.hpp, src/parser/parser.cc | Model/Parser.v | actions as state transformers, `from_string` |
| (C++ library) | Model/Stod.v | `std::stod` on the texts of DoubleLiteral; used as an instance of `stod` only |
| src/include/signal_tl/fmt.hpp | Model/Fmt.v | formatters of formulas, samples and signals |
| python_bindings/pysignal.cc, pyrobustness.cc | Model/PyBind.v | which member or function each attribute, method and function names |

Simplifications, also stated at the definitions:

* `std::shared_ptr` identity and sharing: nodes and signals are values. The code never mutates a
  node or a signal after handing it out, except `shift` (which copies first). Consequently the
  pointer equality that `std::variant::operator==` would give on non-leaf `Expr`s is not modelled.
* `std::map` (Trace, formulas, assertions) is an association list; theorems about traces assume
  distinct keys where order of lookup could matter. In the parser the lists are in order of
  definition; the real map sorts by name, which is not observable by lookups.
* `unsigned long long` is `N`; where the range matters (`ctor_interval`) it is a hypothesis.
* Allocation failure, stack overflow (deep recursion in the parser, in `compute_robustness` and in
  destructors) and integer overflow of sizes are not modelled.
* Of exceptions the class is modelled, and of `parse_error` also the message, but not the position that
  PEGTL puts in front of it.
* PEGTL: the semantics of `seq`, `sor`, `star`, `plus`, `opt`, `not_at`, `must`, `if_must`, `until`,
  character classes, strings and `eof`/`eol`, and of actions (called when the rule has matched, not
  undone on backtracking; `must` turns a local into a global failure) is taken from PEGTL's
  documentation; the library's source is not part of /repo.

## 5. What is not modelled

* `from_file` (reads a file, then as `from_string`) and input streams.
* The pybind11 conversion layer, and python_bindings/pyast.cc. The latter
  names constructors taking `std::optional<Interval>` and takes the address of the overload sets
  `Always`, `Eventually`, `Until`, none of which match ast.hpp, so there is no program to model.
* `Specification::add_formula`, `add_assertion`, `get_formula`, `get_assertion` (parser.hpp:34-38)
  and `operator>>` (ast.hpp:242) are declared but defined nowhere.
* `utils.hpp` (`overloaded`, `enumerate`, `reversed`: their uses are written as plain matches and
  list traversals), `filesystem.hpp`, examples, tests and the build system.

Validation: the specifications under /repo/tests/formulas were read through the parser model with
`vm_compute`, and each gave the outcome the test suite expects; the formula of
/repo/tests/test_append_error.cc was evaluated by the robustness model in doubles on its three traces,
and returned on each, as the test requires (but see C116).

## 6. Per property

Statement and quantifier are in properties.jsonl; here: what is modelled and how it is proved.
"order" means proved from `NumLaws` and stated for binary64; "exact" means exact arithmetic.

### Signals (Props/Signals.v, Props/Samples.v, Props/Synchronize.v)

* **C01** proved (order). Histories of `push_back` calls with exceptions caught (`after h`);
  induction over the history.
* **C02** refuted: a NaN time is always accepted, and after it any time. Partial: C01.
* **C03** proved for every history, including NaN and infinite times.
* **C04** proved (order); `from_vectors`, `from_samples`.
* **C05** proved (order) from correctness of the binary search (Proofs/LowerBound.v).
* **C06** refuted (exact and binary64): `at` extends the following segment backwards. Partial: the value is
  right iff the two slopes agree.
* **C07** refuted: the guard is `t < begin && t > end`. Partial: what happens in each case.
* **C08** proved (order).
* **C09** refuted: `end_at` dereferences `end()` for every `t < end_time`. `C09_search_partial`: started at the
  last sample its loop would return the claimed position for every `t` from the begin time on.
* **C10** proved: samples (order), function (exact, against `pwl`).
* **C11** refuted; partial gives the exact criterion for dropping a sample.
* **C97** proved (binary64, Proofs/SimplifyTwice.v): a sample level with the sample kept before it, and followed by a
  horizontal step, makes the slope before it 0 in binary64 too, so dropping it changes no later decision.
* **C12** refuted; partial gives the case in which `resize` is right, the class in which it throws, and the result in all
  other cases (`C12_otherwise_partial`: the fill value is used only before a signal of at most one sample).
* **C98** proved (binary64, no hypotheses; Proofs/ResizeShift.v).
* **C13** proved (exact).
* **C14** refuted (rounding); partial: order is never inverted.
* **C15** refuted; partial: `synchronize` returns iff one signal begins at a sample of the other
  (`meets`), and the outcome in the other cases.
* **C16** proved (order). **C17** proved (exact). **C19**, **C20** proved (order).
* **C18** refuted with NaN times (for every fuel); partial: terminates on well-formed signals.
* **C21** proved (exact): algebra. **C22** proved (exact) against the standard library's Riemann
  integral. **C23** proved (order).
* **C65** proved in binary64 from the symmetry of round-to-nearest-even (up to the sign of zero)
  and in exact arithmetic. **C66** proved (list reasoning).

### Min/max (Props/MinMax.v)

* **C24**, **C27** proved (exact) against `pwl`: invariant of the merging loop, then induction over
  the operands. **C25** proved (order). 
* **C26** refuted in binary64: a computed crossing can lie after the next sample; partial: it
  throws exactly then (`late_crossing`), and cannot fail otherwise.
* **C28**, **C30** proved (order), suffix induction.
* **C29** refuted between samples (exact); partial: bound, attained at samples, iff between samples.
* **C32** refuted; `a = 0` is always undefined. For `0 < a < b` the outcome is settled (exact): throws,
  undefined, or one signal for both minimum and maximum (`C32_returns_partial`), no extreme taken.
* **C33** proved (order) for every sequence of updates and pops, including the variants
  `max_wedge_update`/`min_wedge_update`; `C33_wedge_contents` says exactly what the wedge holds.
* **C63** refuted for the minimum; both results are computed.

### Robustness (Props/Robustness.v)

* **C31** proved (exact): negation commutes with every loop up to the order of comparison. In binary64: C114.
* **C34** proved in binary64 (Flocq: subtraction of distinct doubles is not zero).
* **C35** proved (exact) against the relation `rho` (textbook quantitative semantics).
* **C36** refuted between samples; partial: sound for formulas with the right polarities, at
  every time or at the first time. Until and constants are excluded.
* **C37** refuted; partial: an exact characterisation of the computed value. **C79** proved (order)
  from it: the sign is right in one direction, and in both if the right operand ends positive.
* **C38** refuted: `has_value` is inverted, so intervals are ignored. Proved for all intervals.
* **C39** refuted with the constant first; partial with the constant after other operands, in any place
  (Proofs/ConstFacts.v). With it first, all samples between the ends of the trace are NaN.
* **C108** refuted; the values are characterised exactly (Proofs/AbsorbFacts.v): the two samples of a
  constant have slope inf - inf, so that every interpolated value is NaN, and a comparison with NaN goes to the first operand.
* **C40** proved (binary64). **C41** proved by structural induction. **C42**, **C43**, **C44** proved.
  `C42_missing_signal_throws` names the exception, from the same invariant as C70.
* **C45**, **C46** proved (exact) by transport of every function along the shift/scaling.
* **C47** proved: exact for the whole language without constants; binary64 without And, Or, Until
  (with them rounding can make it throw, C26).
* **C48** proved in binary64.

### Robustness in double arithmetic (Props/Safety.v)

* **C99** refuted: an empty signal makes every temporal and binary operator read outside a vector; the partial theorem
  says for which operators (Proofs/EmptyFacts.v). C70 is the positive result for non-empty signals.
* **C70** proved in binary64: every function of the evaluation keeps the invariant that a signal is
  well-formed, begins at the common time and has finite times; `synchronize` cannot fail under it.
* **C71** proved in binary64: a common sample survives synchronisation, so no interpolated value
  is involved there.

### Value at the begin time (Props/Quantitative.v)

* **C72** proved (exact) against `rob`, which extends `rho` by Always and Eventually over all later
  times. Induction with the invariant that computed and true signal have the same extreme over every
  initial range of times; existence of extremes by compactness of piecewise-linear functions.
* **C73** refuted (exact): mixing Always over Or over Eventually; shows C72's class is needed.
* **C80** proved (exact) against `bound` (Spec/Bounds.v): the induction behind C36, carried out with
  values instead of signs; C36 is derived from it. `C80_bounds_consistent`: `bound` is coherent.
* **C75**, **C76** proved (exact), Props/Perturb.v: induction over `rob` on both traces, with C72
  (C35 at every time). `close d`/`below` compare the signals as functions; sampling may differ.
* **C77** proved (exact): sign of `rob` against `sat`, combined with C75. Covers nestings that C36
  does not (e.g. violation under Always of Always).

### Names, orientation, zero points, unit of time (Props/Units.v)

* **C81** proved (order), by induction over the formula: evaluation uses a trace only through the
  lookup of names. Constant-free, because a constant takes its time range from the whole trace.
* **C82** proved (double arithmetic, no hypotheses): the predicate of the opposite signal is the same
  signal, sample by sample, since subtraction and negation of doubles commute with the sign.
* **C83** proved (exact), same induction (`compute_map_pred`).
* **C84** proved (exact), from the general transport lemma `T_compute` (Proofs/RobTransport.v), which
  also gives C45 and C46. The windows are not scaled: `has_value` is inverted, so an interval is
  looked at only if it is `[0, inf)` (C38).

### Past, propositional laws, sampling (Props/Structure.v)

* **C95** proved (exact), Proofs/DerivedFacts.v: C86 for the node each operator builds, with the flattening
  of nested And/Or as concatenation. Constants are excluded, as in C86 (with them `&` and `|` can throw, C50).
* **C85** proved (order), Proofs/Causal.v: every step (predicate, Not, synchronisation, pairwise and
  rolling min/max, Until) commutes with dropping the samples before `t`. The sample at `t` is needed:
  otherwise the value at the cut has no sample to come from.
* **C86** proved (exact), Proofs/BoolLaws.v. `gives` is the value of the returned signal at a time. The
  pointwise theorems take the operands' own returned values, so they hold above temporal operators too.
  The laws follow by comparing both sides with every threshold (`law_G`).
* **C87** refuted in doubles (the order of three operands under Eventually); partial by C72, since the
  reference semantics `rob` respects rewriting (`rob_rewrite`).
* **C88** refuted in exact arithmetic; partial by C35 and C72, whose semantics use only the functions.
* **C89** proved by induction over the formula on the loop shapes: the merge of `synchronize` never has more than
  `a + b - 2` samples (or 1), each further step of `compute_minmax_pair` adds one sample and at most one crossing.
  The example attains the bound.
* **C90** proved by induction, from the completeness and soundness of `synchronize` (C16) and the fact that
  `compute_minmax_pair` records every merged sample.

### Accuracy of double arithmetic (Props/Accuracy.v)

* **C91** proved (binary64), Proofs/Rounding.v: only predicates round; negation, minimum and maximum commute with
  rounding to nearest because it is monotone and odd. A difference of doubles never underflows, which gives the
  relative error without an absolute term. `exact_now` and `exact_samples` (Spec/Rounding.v) are in real numbers.
* **C92** proved (binary64), Proofs/InterpError.v, SyncError.v: each operation is `exact * (1 + e) + n` (Flocq); the
  factors are multiplied out, underflow (`n`) can only enter at the division and the product. The reading of a signal
  as a function is `pwl (reals x)`. The bound needs no assumption on the size of the timestamps besides overflow.
* **C93** refuted in doubles: `time_intersect` computes the crossing from `d*t` products, whose rounding error is
  proportional to the timestamp. Partial, Proofs/ChainFacts.v: without And, Or and Until the true (continuous)
  robustness at a sample is the extreme over samples (`tracks`), so C91 applies, and the rounding keeps the sign.

### Formulas, formatting, parser (Props/Ast.v, Props/Fmt.v, Props/Parser.v, Props/Errors.v, Props/Monitor.v, Props/PyBind.v)

* **C49** proved by case analysis, for every valuation of the atoms.
* **C50** refuted; partial: exactly when each operator throws.
* **C51** proved by induction over construction (`constructed`) and over parsing.
* **C52** refuted for NaN and integers; partial: doubles that are numbers.
* **C53** refuted; partial: `is_zero_to_inf` is right, `has_value` is the same function.
* **C54** refuted for two bounded intervals (they always print alike); partial: bounded and
  unbounded print differently, in every context (`differ`).
* **C55** proved without assertions; with them an assertion can abort (refuted). The fuel of the
  grammar interpreter is proved sufficient.
* **C56** proved: every text whose tokens are those of a specification parses to its meaning, by
  simulation of the character grammar by a token grammar; `C56_roundtrip` reads back written formulas.
* **C57** proved, with the message (`C57_message`); **C58** proved. **C59** first form proved, second form refuted (always throws).
* **C60** refuted in five ways; partial: an empty term anywhere is rejected by some exception.
* **C61**, **C62** proved; C62 for arbitrary token sequences.
* **C96** proved (Proofs/InlineFacts.v) from the characterisation behind C56: a later term's value does not change
  when a reference is replaced by a term of the same value, and definitions are only ever added.
* **C78** proved: a partial-correctness calculus over the parser combinators relates every successful
  run to a derivation (`Spec/Grammar.v`). The grammar is the code's, with several operators allowed in
  one pair of parentheses (C60); the converse is C56 for the sensible part of it.
* **C100** proved as an equivalence: the calculus behind C55 carries the list of messages through every
  rule, and each message is given a text.
* **C101** refuted: the message written for unclosed commands is in no position to be used, because the
  rule under it is itself a `must`; `C101_reported` says what is reported instead.
* **C102**, **C103** proved on tokens, from the simulation behind C56.
* **C104** proved (Spec/TermErrors.v, Proofs/TermErrorFacts.v) by induction over where the first token
  that does not fit stands. The operands before it have to be complete and have a value, and operands
  with several expressions in one pair of parentheses (C60) are not covered. Predicates with
  `define-formula` where the identifier should be are left out too (the code reads `define` there).
* **C106** proved (Proofs/OrderFacts.v): a command of an accepted specification has the value its term
  has under all definitions (C58), so it has the same value wherever its references are defined.
* **C109** proved (Proofs/LayerFacts.v, Proofs/LayerText.v, Props/Layered.v).  Extends C71 and C91 to
  formulas with temporal operators: at a sample common to all signals each operand is the correctly
  rounded true robustness (C91, C93), And and Or pick the least and greatest of those, and rounding is
  monotone.  The sign decides satisfaction at the samples, and between two samples if both agree, so
  it decides Always and Eventually.  And or Or below a temporal operator is excluded because of the
  values at crossings (C93_verdict_refuted).  The text version writes every literal as the double it
  is read as (`double_literal`) and goes through the real-number formula of C105.
* **C107** proved (Proofs/RunFacts.v) from C51, C61, C70 and C42: what the parser returns meets the
  hypotheses those theorems have on formulas. What parsing itself can return is C55.
* **C105** proved (Spec/Monitor.v, Proofs/MonitorFacts.v, Props/Monitor.v) from C56, C36, C72 and C77:
  Spec/Monitor.v gives satisfaction to written terms without mentioning formulas; a formula and
  the term it comes from name the same signals, are satisfied at the same times and admit the same
  conclusions, by induction over the term. Implies, iff and xor are the logical connectives there,
  the flattening of And and Or by the operators is part of the proof. Terms with the constants true
  and false are left out (see C39), Until only counts for negative values (see C37, C79), decimal
  literals are assumed to have real values.
* **C110** proved (Spec/Numerals.v, Proofs/NumeralFacts.v, Props/Numerals.v): the value of a numeral is
  a real number, its double the nearest one. Integers through the conversion of a long, decimals by
  the assumption on `stod`; that every constant comes from a numeral is carried through the
  calculus behind C55. Not claimed: whether numbers below 2^-1022 other than 0 are accepted (the C++ standard
  leaves that to the library).
* **C111** refuted by 9223372036854775808 (not a long) against 9223372036854775808.0; partial: that
  and tiny numbers are the only exceptions, and two different constants never result.
* **C112** refuted: the grammar has no sign in front of a numeral.
* **C64** refuted with Until; partial: without Until the text determines the formula up to bounds of
  bounded intervals (printed formulas form a prefix code). Hypotheses on the printing of doubles
  (`printer`), for which `bits_text` is an instance.
* **C74** proved under the same hypotheses.
* **C94** proved for formulas without temporal operators (Spec/Reading.v, Proofs/ReadingFacts.v). The
  hypotheses on doubles (`printer`) are an assumption about fmt's `{}`, whose source is not in /repo.
* **C113** refuted for Always and Eventually with any interval: bounded intervals are not printed at all (C54), unbounded ones as
  `[a, int)` and `[a, inf]`. Partial: the exact text, against an inductive definition of the notation
  (Spec/Printed.v) in which only the text of intervals is a parameter. That a bounded interval would be printed as
  `[a,b]` is in code that is never reached (fmt.hpp:97).
* **C114** (Spec/Alike.v, Proofs/DualB64.v, Props/DualDouble.v) proved bit for bit for temporal operators: they only compare and copy
  values, and Not recomputes the slopes. For And and Or refuted by a trace on which one side returns and the other throws:
  two signals cross between two samples while both computed slopes round to 2^53; the computed crossing time is a nonzero number
  over +0 on either side, hence +inf on one (stored; the next sample is then rejected) and -inf on the other (ignored).
  Partial: either one of the two throws `InvalidArgument` or they agree up to the sign of zeros (relational
  simulation of `synchronize`, `compute_minmax_pair` and the fold, with opposite values and slopes related up to signs of zeros).
* **C115** (Spec/Uniform.v, Proofs/PairBound.v, Proofs/UniformFacts.v, Props/Uniform.v) proved. The computed crossing time may be far off
  (C93), but the point stored there is a sample of one of the two operands, interpolated between two neighbours, so for a least value it is
  never below the least value of the operands by more than the interpolation error; and the least value of the operands itself is stored, at
  a sample. Hence Always over And and Eventually over Or are accurate where Eventually over And is not. Uniform sampling is a hypothesis
  because a result of And is otherwise interpolated again between its crossings when the next operand is met, where its slopes
  may be infinite; an infinite slope never yields a crossing (the computed time is then NaN). That a result is returned is a
  hypothesis (C70, C114: `InvalidArgument` is possible when rounded slopes agree). Uses `classic` for Not over a conjunction of real propositions.
* **C116** (Spec/Apart.v, Proofs/CrossingError.v, Proofs/ApartFacts.v, Props/Apart.v) refuted by a trace of two
  samples with one decimal digit, found by enumeration: of the pairs of signals with values 0.0 ... 3.0 that meet at
  the next sample, between a tenth and a third throw, depending on the time. Partial: an error analysis of
  `time_intersect` (errors at most 58 2^-53 V S / h in the numerator and 32 2^-53 V / h in the denominator) shows that
  the computed crossing cannot pass the next sample if the values there are apart; with C26, And and Or return.
  Missing: more than two operands, where an operand is itself a computed minimum.
* **C117** (Spec/Whole.v, Proofs/WholeFacts.v, Proofs/WholeFormula.v, Props/Whole.v) refuted for three operands: the first crossing of the
  witness, at 2/3, is rounded, and the crossing with the third signal is then computed past the next sample. About one random
  trace in twenty-five with three such signals throws. Partial: for two operands slopes and intercepts are exact whole numbers, so the
  crossing time is the rounding of the exact quotient and does not leave the step; the stored value
  is within 16 2^-53 V S of the exact one, and the rest follows from linearity between stored points. Predicates, Not, Always and
  Eventually on whole numbers are exact (C91). The existence of an exact extreme below Always and Eventually is taken from the proof of C72
  on the trace of real numbers.
* **C118** (Spec/Spaced.v, Proofs/CrossingError.v, Proofs/JoinFormula.v, Proofs/PairError.v, Proofs/SpacedFormula.v, Props/Spaced.v) proved. Unlike C116 nothing is
  assumed about the distance of the operands: the crossing of nearly parallel segments may be computed far from the exact one (C93), but where it
  lands within the step the two segments are then within 128 2^-53 V S / H of each other (`crossing_gap`), so the stored value fits both. That a result is returned is a
  hypothesis, met under the conditions of C116. The dependence on the least spacing H comes from the slopes, which are quotients of differences by a step.
  For two operands this extends C115 to Always over Or and Eventually over And.
* **C119** (Spec/Many.v, Proofs/SlopeError.v, Proofs/ManyError.v, Proofs/ManyFormula.v, Props/Many.v) proved. After alignment two samples may be a rounding unit apart,
  so the steps give no bound on slopes. Instead the samples are shown to lie within e of a function whose slope is bounded by 2 V / H (the operand itself), and the
  error of a crossing is split by whether the step is shorter or longer than e over that bound (`slope_pair`). Always and Eventually additionally ask that the signals begin together, as C72 does
  on which the exact extreme rests. That a result is returned is a hypothesis.
* **C120** (same files) proved. The invariant of the fold is that the result so far is within r of the exact extreme of the operands so far, which inherits their slope bound, and has samples at
  all the common times; a further operand takes r to 9 r + 800 2^-53 (2 V / H) S, hence the factor ten. Only one operand of each And or Or may be composed (`ladder`), because the
  right operand of a step is taken to be spaced by H. That a result is returned is a hypothesis, and for three operands it does fail (C117).
* **C121** (Spec/General.v, Proofs/GeneralFacts.v, Proofs/GeneralFormula.v, Props/General.v) proved. A crossing is stored only where it lies before the end of its step; it is late only if the operands
  are within the error at that end (`slope_on_time`). Ends of steps are sample times of an operand or earlier crossings, which is why the condition names both: no pair is close at a sample time,
  and where a pair crosses no other pair is close. `general` is stated on the operands (`general_formulas` on the exact robustness), never on intermediate results. The condition is
  sufficient, not necessary; of the three operands of C117 that throw, two meet at a sample time. For `C121_chains` the condition is on the computed signals of the operands, as Always and Eventually
  may hold a value over many samples and make operands coincide.
* **C122** (Spec/Tree.v, Proofs/TreeError.v, Proofs/TreeFormula.v, Props/Tree.v) proved. Extends C120 to composed operands everywhere and to signals sampled at different times. Both operands of a step
  are now only known to be within r of functions of bounded slope (`near`), not to have well spaced samples, so the slope that `interpolate` computes between two samples of an operand is bounded by
  their distance alone. `separated` keeps it from overflowing; it asks that consecutive samples of the intermediate results, listed by `stages`, are at least 2^-252 apart. Distinct doubles from 2^-200
  on are that far apart (`double_gap`, `C122_separated`), so for such traces it is no condition on the run. Around time 0 a crossing may be stored at a smaller time, and there it is a hypothesis on the run, which
  can be checked by evaluating the stages (done for a trace beginning at 0 in `C122_boolean_case`). Whether it is ever needed is open. That a result is returned is a hypothesis.
* **C123** (Spec/Tree.v `signed_predicates`, Proofs/TreeGeneral.v, Proofs/TreePosition.v, Props/Position.v) proved. Extends C121 to nested formulas and different sample times: the result is shown to exist.
  The invariant (`node`) says of the signal of a subformula that it is near a function which at each time is one of the predicates below (up to one common sign), and that each of its samples lies at a sample
  time of the trace or at a time where two predicates below it nearly meet. A step of And or Or compares a predicate of the left operand with one of the right; at the samples of the operands this pair is a
  different one from the pair that caused the sample, so general position keeps it apart (`node_pair`). The signals must begin together, as otherwise `synchronize` throws (C15). The condition is sufficient,
  not necessary. A predicate used twice in a formula violates it, as the two uses are never apart.
* **C124** (Spec/Tree.v `times_apart`, Proofs/TreeGeneral.v, Proofs/TreePosition.v, Props/Position.v) proved. Of two neighbouring samples of a result of And or Or at least one stands at a sample time of an
  operand (`alternates`: a step stores at most one crossing, then a sample). At a crossing the two operands are within 7 r, at the samples of the operands they are at least 10 r apart, and their slope is bounded:
  so a crossing is far from the samples around it. Samples of different operands belong to sample times of the trace (`times_apart`) or to different pairs of predicates, which are not close at the same
  time (`node_pair`). All hypotheses of `C124_boolean` and `C124_temporal` are about the trace and the formula. Traces whose sample times are zero or at least 2^-200 in
  magnitude satisfy `times_apart` (`C124_times`, Proofs/TreeTimes.v).
* **C125** (Proofs/TreeText.v, Props/PositionText.v) proved by composing C56, C96 and C124: `holds` is read on the term as written, with the definitions written out, not on the parsed formula. The bound on the
  constants, the error and general position are stated for the formula the parser built, as in C124. iff and xor are covered, but as they mention each operand twice, once negated, general position then also
  requires that the operands are never close to each other or to each other's negation. `C125_iff_case` is an instance. Bounded intervals cannot be written in a text (the grammar has none, C61).
* **C126** (Spec/Perturb.v `close`, Proofs/TreePerturb.v, Props/PositionPerturb.v) proved: C124 with the reference semantics read on another trace. `near_sat` and `near_rob` (induction on the formula, no code
  involved) bound the exact robustness of one trace by that of the other. Nearby traces are piecewise linear, like all traces of the reference semantics, but with real times and values and their own sample times.
* **C127** (Proofs/TreeTextPerturb.v, Props/PositionTextPerturb.v) proved: C125 with C126 in place of C124. `same_meaning` shows that the parsed formula and the term as written say the same on any trace that has the
  signals of the term, hence also on the nearby ones. The limits are those of C125 and C126.
* **C128** (Spec/UntilSampled.v, Proofs/UntilSampledFacts.v, Props/UntilSampled.v) proved by composing C48 for the operands with C79 for until; synchronization changes nothing when the times are equal, so no condition
  on the run is left. `until_sampled` is stated on the samples of the signals alone. Without the condition on the last sample a positive value says nothing (`C37_until_refuted`). Between samples nothing is claimed.
* **C129** (Proofs/UntilGivenUp.v, Props/UntilGivenUp.v) proved from the characterization of C37 by taking the given-up sample to be the sample itself. It states the defect of `C37_until_refuted` for all operands instead of one
  witness: the property describes what the code does, not what until means. `C129_values` is on the synchronized operands; `C129_sampled` is on the samples of the signal, and there only "not negative" is claimed, because a
  predicate that is false can have the value zero. Between samples nothing is claimed.
* **C67** proved; **C68** proved by computation for all arguments (the helpers are constructors).
* **C69** refuted for `derivative` (bound to `value`), the rest proved (Proofs/PyFacts.v); lists
  given to the constructor are assumed free of NaN times, compared values free of NaN.

No property was found inexpressible; `not_applicable` is not used.

### Clarified quantifiers

After first writing properties.jsonl the quantifiers of C16, C20, C30, C31, C35, C45-C48 were made explicit: C16 and C20 are about times that are numbers (C18 shows what NaN does), C30 about non-empty signals (C99),
And/Or have operands (the constructors enforce two, C51), and C48 reads every interval as
unbounded, as the code does (C38). The same reading underlies C72, C73, C77, C80, C91, C109, C115, C117-C124 and C126, whose reference semantics
(Spec/Semantics.v, Spec/Quantitative.v) has unbounded operators; their quantifiers say so since the last revision, and C109's statement says
that it is about evaluations that return. No statement was weakened to make it true; false statements
are kept and refuted.

## 7. Seeded bugs

In a scratch copy a definition of the model is edited as a bug would change the program, and
everything is rebuilt. When a proof fails, that lemma alone is replaced by a scratch-only axiom and
the build goes on, so that in the end `Print Assumptions` tells which property theorems depend on a
failed proof. Each attempt is a line of seeded/LOG.jsonl: the definition, the edit, the claims that
become false, the theorems that failed, and the theorems that were added or tightened because
none failed.

What the log does and does not show. A theorem is listed under `failed` when its proof depends on a
proof script that broke. This does not show that the theorem is false after the edit: a script can break
because a definition changed its form, and theorems sharing a lemma with the broken one are listed with
it. A proof step that takes over 100 seconds also counts as broken. So the lists of failed theorems are
upper bounds, and only an empty list is conclusive (the edit was missed). The claims were named before
each run; where the run showed the prediction to be wrong they were corrected, and a note on the line
says so. Edits that were missed keep their empty list; the run against the tightened theorem is a line
of its own.

A second, coarser pass made one-token edits everywhere in Model/ (a comparison, a constant, an operand, a kind
of failure) and built until the first error: 682 edits, all in seeded/SCREEN.jsonl with the proof at which the build
stopped. 75 do not type-check, 576 stop the build, 31 do not; each of the 31 is also a line of seeded/LOG.jsonl.
Five of them were misses (two in the backward search of `end_at`, three in the brackets of printed signals)
and led to C09_search_partial and C113_signals_partial; the others change only what is proved
unreachable or change nothing. A stop names a proof script that breaks, which is weaker than a theorem shown false.

## 8. Findings about the code

Defects shown by a `_refuted` theorem:

1. `push_back` accepts NaN times (C02); `synchronize` then never returns (C18).
2. `Signal::at` extrapolates from the wrong sample (C06) and never throws; it reads past the end (C07).
3. `end_at` dereferences `end()` (C09).
4. `simplify` keeps collinear samples (C11); `resize` throws for most windows (C12).
5. `shift` can merge timestamps (C14, rounding).
6. `synchronize` rejects or mishandles overlapping signals that do not meet at a sample (C15).
7. Elementwise min/max can throw on finite input, by rounding of the crossing (C26), already on two samples
   with one decimal digit (C116) or, with three signals, one whole digit (C117), in one order of the operands but not
   in another; the minimum of no signals
   is -inf (C63).
8. Rolling min/max is linear between samples where the true extreme is not (C29), so the sign of
   Always/Eventually is unreliable between samples (C36).
9. The windowed min/max is unusable (C32) but also unreachable, since `Interval::has_value` is
   inverted (C53), so that all bounds are ignored (C38) and not printed (C54).
10. Until starts from the negated maximum of its right operand (C37).
11. And/Or with a constant first give NaN (C39); `p and false` is positive, `p or true` negative, at
    inner samples where `p` is (C108).
12. `a & false`, `a | true` throw when `a` is itself an And/Or (C50).
13. Intervals accept NaN and unordered integers (C52).
14. Parser: `(op c x)` always throws bad_optional_access (C59); `(not a b)` aborts or drops `b`;
    several operators in one pair of parentheses are accepted and all but the last are dropped (C60).
15. Until is printed without parentheses (C64); the unbounded interval prints as `[0, int)`.
16. The robustness at the begin time is wrong for some nestings, because of 8 (C73).
17. Under a temporal operator the value between samples depends on the order of the operands of And
    and Or (C87) and on redundant samples (C88), again because of 8.
18. Python's `Sample.derivative` is the value (C69).
19. `time_intersect` cancels catastrophically for large timestamps (microseconds since 1970), so that
    And/Or record crossings with grossly wrong values and a formula that is nowhere true gets a positive
    robustness (C93).
20. An unclosed command is reported as an unknown command; the message written for it is dead (C101).

Observed but not the subject of a theorem: pyast.cc binds the `interval` attribute of the temporal
operators to their arguments; `error_message<Skip>` is under no `must`; declared-but-undefined functions (section 5).
