{
 "claims": [
  {
   "property": "C01",
   "status": "proved",
   "theorems": [
    "C01_append_strictly_increasing"
   ],
   "note": ""
  },
  {
   "property": "C02",
   "status": "partial",
   "theorems": [
    "C02_refuted",
    "C02_nan_always_accepted",
    "C02_partial"
   ],
   "note": "False of the code as stated: a NaN time is accepted. Proved: any time that is not NaN is accepted iff it exceeds the end time; a NaN time is always accepted."
  },
  {
   "property": "C03",
   "status": "proved",
   "theorems": [
    "C03_derivatives_are_slopes"
   ],
   "note": ""
  },
  {
   "property": "C04",
   "status": "proved",
   "theorems": [
    "C04_construction"
   ],
   "note": ""
  },
  {
   "property": "C05",
   "status": "proved",
   "theorems": [
    "C05_at_existing_sample"
   ],
   "note": ""
  },
  {
   "property": "C06",
   "status": "partial",
   "theorems": [
    "C06_at_between_partial",
    "C06_refuted",
    "C06_refuted_binary64"
   ],
   "note": "False of the code: Signal::at extrapolates backwards from the following sample. Proved: the returned value is the interpolated one iff the following segment has the same slope (zero after the last sample). Refuted in exact arithmetic and in binary64."
  },
  {
   "property": "C07",
   "status": "partial",
   "theorems": [
    "C07_never_throws_partial",
    "C07_refuted"
   ],
   "note": "False of the code: the guard uses && and never fires. Proved: at() never throws, is undefined behaviour on an empty signal or past the end, and extrapolates before the beginning."
  },
  {
   "property": "C08",
   "status": "proved",
   "theorems": [
    "C08_begin_at"
   ],
   "note": ""
  },
  {
   "property": "C09",
   "status": "partial",
   "theorems": [
    "C09_end_at_partial",
    "C09_search_partial",
    "C09_refuted"
   ],
   "note": "False of the code. Proved: end_at returns size() for t at or after the end and is undefined behaviour for every smaller t; the loop it contains would return the claimed position if it were started at the last sample."
  },
  {
   "property": "C10",
   "status": "proved",
   "theorems": [
    "C10_simplify_keeps_samples",
    "C10_simplify_same_function"
   ],
   "note": ""
  },
  {
   "property": "C11",
   "status": "partial",
   "theorems": [
    "C11_simplify_drops_partial",
    "C11_refuted"
   ],
   "note": "False of the code: only runs of equal values are dropped. Proved: an interior sample is dropped iff its value equals both neighbours' values (exact arithmetic)."
  },
  {
   "property": "C12",
   "status": "partial",
   "theorems": [
    "C12_resize_partial",
    "C12_resize_throws",
    "C12_otherwise_partial",
    "C12_refuted"
   ],
   "note": "False of the code: resize throws whenever the new start lies before the second-to-last sample. Proved: correct when the window starts in the last segment (exact arithmetic), throws when it starts before; what it returns in every other case (binary64), the fill value included."
  },
  {
   "property": "C13",
   "status": "proved",
   "theorems": [
    "C13_shift_translates"
   ],
   "note": ""
  },
  {
   "property": "C14",
   "status": "partial",
   "theorems": [
    "C14_shift_times_partial",
    "C14_refuted"
   ],
   "note": "False in binary64: rounding can make shifted times equal. Proved: values and length are kept and times stay non-decreasing for every finite offset."
  },
  {
   "property": "C15",
   "status": "partial",
   "theorems": [
    "C15_sync_defined_partial",
    "C15_sync_otherwise",
    "C15_refuted"
   ],
   "note": "False of the code: overlapping signals where neither starts at a sample of the other throw or read out of range. Proved: synchronize returns iff the signals meet, and what happens otherwise."
  },
  {
   "property": "C16",
   "status": "proved",
   "theorems": [
    "C16_sync_aligns"
   ],
   "note": ""
  },
  {
   "property": "C17",
   "status": "proved",
   "theorems": [
    "C17_sync_same_functions"
   ],
   "note": ""
  },
  {
   "property": "C18",
   "status": "partial",
   "theorems": [
    "C18_sync_terminates_partial",
    "C18_refuted"
   ],
   "note": "False of the code: a NaN time makes it loop forever. Proved: for signals with numeric increasing times it terminates."
  },
  {
   "property": "C19",
   "status": "proved",
   "theorems": [
    "C19_sync_symmetric"
   ],
   "note": ""
  },
  {
   "property": "C20",
   "status": "proved",
   "theorems": [
    "C20_sync_idempotent"
   ],
   "note": ""
  },
  {
   "property": "C21",
   "status": "proved",
   "theorems": [
    "C21_time_intersect",
    "C21_time_intersect_inside"
   ],
   "note": ""
  },
  {
   "property": "C22",
   "status": "proved",
   "theorems": [
    "C22_area_is_integral",
    "C22_area_before",
    "C22_integrable"
   ],
   "note": ""
  },
  {
   "property": "C23",
   "status": "proved",
   "theorems": [
    "C23_sample_order"
   ],
   "note": ""
  },
  {
   "property": "C24",
   "status": "proved",
   "theorems": [
    "C24_elementwise_min",
    "C24_elementwise_max",
    "C24_same_begin",
    "C24_synchronized_flag"
   ],
   "note": ""
  },
  {
   "property": "C25",
   "status": "proved",
   "theorems": [
    "C25_min_at_samples",
    "C25_max_at_samples"
   ],
   "note": ""
  },
  {
   "property": "C26",
   "status": "partial",
   "theorems": [
    "C26_min_throws_partial",
    "C26_max_throws_partial",
    "C26_refuted"
   ],
   "note": "False of the code: C26_refuted gives finite binary64 signals with equal timestamps on which elementwise_min throws, because the rounded crossing time lies after the next sample. The partial theorems characterise exactly when it throws and exclude every other failure."
  },
  {
   "property": "C27",
   "status": "proved",
   "theorems": [
    "C27_nary_min",
    "C27_nary_max"
   ],
   "note": ""
  },
  {
   "property": "C28",
   "status": "proved",
   "theorems": [
    "C28_rolling_min",
    "C28_rolling_max"
   ],
   "note": ""
  },
  {
   "property": "C29",
   "status": "partial",
   "theorems": [
    "C29_rolling_min_partial",
    "C29_rolling_max_partial",
    "C29_refuted"
   ],
   "note": "False of the code between samples: C29_refuted (5,0,3 at 0,1,2 gives 4 at 1/2). Proved instead: the result bounds the true extreme at every time, is exact at samples, and an iff-characterisation of when it is exact between two samples."
  },
  {
   "property": "C30",
   "status": "proved",
   "theorems": [
    "C30_min_idempotent",
    "C30_max_idempotent"
   ],
   "note": ""
  },
  {
   "property": "C31",
   "status": "proved",
   "theorems": [
    "C31_duality_temporal",
    "C31_duality_andor"
   ],
   "note": ""
  },
  {
   "property": "C32",
   "status": "partial",
   "theorems": [
    "C32_zero_start_refuted",
    "C32_short_window_refuted",
    "C32_wrong_value_refuted",
    "C32_long_window_refuted",
    "C32_returns_partial"
   ],
   "note": "False of the code: a = 0 always reaches undefined behaviour, short windows with a <> 0 always throw, for 0 < a < b (exact arithmetic) it throws, is undefined, or returns one and the same signal for minimum and maximum, described exactly; no extreme is taken. The function is unreachable through compute_robustness on finite traces because Interval::has_value is inverted (C38)."
  },
  {
   "property": "C33",
   "status": "proved",
   "theorems": [
    "C33_wedge_max",
    "C33_wedge_min",
    "C33_wedge_contents",
    "C33_front_is_extreme",
    "C33_search"
   ],
   "note": ""
  },
  {
   "property": "C34",
   "status": "proved",
   "theorems": [
    "C34_predicate_sign"
   ],
   "note": ""
  },
  {
   "property": "C35",
   "status": "proved",
   "theorems": [
    "C35_boolean_exact"
   ],
   "note": ""
  },
  {
   "property": "C36",
   "status": "partial",
   "theorems": [
    "C36_sign_sound_partial",
    "C36_sign_refuted"
   ],
   "note": "False of the code for a negative value of Always (and a positive value of Eventually) between samples: C36_sign_refuted. Proved: totality, the domain, soundness at every time for formulas in which Always occurs only where a positive and Eventually only where a negative sign is wanted, and at the first time for formulas whose outermost temporal operators have any polarity, there including Until under a negative sign. Constants and other occurrences of Until are excluded."
  },
  {
   "property": "C37",
   "status": "partial",
   "theorems": [
    "C37_until_partial",
    "C37_until_refuted"
   ],
   "note": "False of the code: until is positive when both operands are negative throughout (C37_until_refuted), because the scan starts from minus the maximum of q. Proved: an exact characterisation of every output sample in terms of the synchronized operand samples, NaN-free."
  },
  {
   "property": "C38",
   "status": "partial",
   "theorems": [
    "C38_interval_ignored_partial",
    "C38_until_interval_ignored_partial",
    "C38_interval_refuted"
   ],
   "note": "False of the code: Interval::has_value is inverted, so every interval a constructor can produce is ignored (proved for every operand except a single sample at an infinite time); C38_interval_refuted gives an Always[0,1] that is negative because of a value at time 5."
  },
  {
   "property": "C39",
   "status": "partial",
   "theorems": [
    "C39_constants_partial",
    "C39_anywhere_partial",
    "C39_constants_refuted",
    "C39_first_refuted"
   ],
   "note": "False of the code with the constant first: every sample between the ends of the trace is NaN (C39_first_refuted, for all formulas). Proved with the constant after other operands, where those begin with the trace and no And or Or is empty."
  },
  {
   "property": "C40",
   "status": "proved",
   "theorems": [
    "C40_double_negation"
   ],
   "note": ""
  },
  {
   "property": "C41",
   "status": "proved",
   "theorems": [
    "C41_named_signals"
   ],
   "note": ""
  },
  {
   "property": "C42",
   "status": "proved",
   "theorems": [
    "C42_missing_signal",
    "C42_missing_signal_predicate",
    "C42_missing_signal_throws"
   ],
   "note": ""
  },
  {
   "property": "C43",
   "status": "proved",
   "theorems": [
    "C43_output_wf"
   ],
   "note": ""
  },
  {
   "property": "C44",
   "status": "proved",
   "theorems": [
    "C44_flag"
   ],
   "note": ""
  },
  {
   "property": "C45",
   "status": "proved",
   "theorems": [
    "C45_shift"
   ],
   "note": ""
  },
  {
   "property": "C46",
   "status": "proved",
   "theorems": [
    "C46_scale"
   ],
   "note": ""
  },
  {
   "property": "C47",
   "status": "proved",
   "theorems": [
    "C47_total_exact",
    "C47_total_binary64"
   ],
   "note": ""
  },
  {
   "property": "C48",
   "status": "proved",
   "theorems": [
    "C48_sampled_sound"
   ],
   "note": ""
  },
  {
   "property": "C49",
   "status": "proved",
   "theorems": [
    "C49_operators",
    "C49_lists"
   ],
   "note": ""
  },
  {
   "property": "C50",
   "status": "partial",
   "theorems": [
    "C50_throws_partial",
    "C50_and_refuted",
    "C50_or_refuted"
   ],
   "note": "False of the code: (a & b) & false, (a | b) | true, Xor(a | b, true) and Iff(a & b, false) throw invalid_argument. Proved: exactly when each of the five throws."
  },
  {
   "property": "C51",
   "status": "proved",
   "theorems": [
    "C51_two_operands",
    "C51_fewer_throw",
    "C51_parsed"
   ],
   "note": ""
  },
  {
   "property": "C52",
   "status": "partial",
   "theorems": [
    "C52_interval_partial",
    "C52_nan_refuted",
    "C52_integers_refuted"
   ],
   "note": "False of the code for a NaN bound (accepted) and for the integer constructor (unchecked, e.g. [5,3]). Proved for doubles that are not NaN."
  },
  {
   "property": "C53",
   "status": "partial",
   "theorems": [
    "C53_zero_to_inf_partial",
    "C53_has_value_refuted"
   ],
   "note": "is_zero_to_inf is proved right for every constructible interval; has_value is the same function, so it is false for bounded and true for unbounded intervals (refuted)."
  },
  {
   "property": "C54",
   "status": "partial",
   "theorems": [
    "C54_unbounded_partial",
    "C54_bounded_refuted"
   ],
   "note": "Proved: an unbounded and a bounded interval print differently, anywhere in a formula. False otherwise: has_value is inverted, so bounded intervals are never shown and formulas that differ in them always print the same. The conversion of doubles is a parameter."
  },
  {
   "property": "C55",
   "status": "partial",
   "theorems": [
    "C55_release",
    "C55_debug_partial",
    "C55_assert_refuted"
   ],
   "note": "Proved for builds without assertions: every text gives a specification or one of five exceptions, never the local-error logic_error. With assertions active an assert can also abort the process (C55_assert_refuted). Stack depth is not modelled."
  },
  {
   "property": "C56",
   "status": "proved",
   "theorems": [
    "C56_meaning",
    "C56_roundtrip"
   ],
   "note": ""
  },
  {
   "property": "C57",
   "status": "proved",
   "theorems": [
    "C57_message",
    "C57_redefinition",
    "C57_single",
    "C57_all_names"
   ],
   "note": ""
  },
  {
   "property": "C58",
   "status": "proved",
   "theorems": [
    "C58_undefined_throws",
    "C58_resolves"
   ],
   "note": ""
  },
  {
   "property": "C59",
   "status": "partial",
   "theorems": [
    "C59_first_partial",
    "C59_second_refuted"
   ],
   "note": "The first form is proved. The second form always throws bad_optional_access, because the comparison is reset before it is read again (actions.hpp:200,212)."
  },
  {
   "property": "C60",
   "status": "partial",
   "theorems": [
    "C60_empty_partial",
    "C60_empty_refuted",
    "C60_two_operands_refuted",
    "C60_several_refuted",
    "C60_dropped_refuted",
    "C60_nested_refuted"
   ],
   "note": "False of the code: (not t u) is accepted as (not t) or aborts on an assert, several operators in one pair of parentheses are accepted, and () is rejected by a logic_error instead of a parse_error. Proved: a specification with an empty term anywhere is rejected by some exception."
  },
  {
   "property": "C61",
   "status": "proved",
   "theorems": [
    "C61_unbounded"
   ],
   "note": ""
  },
  {
   "property": "C62",
   "status": "proved",
   "theorems": [
    "C62_layout"
   ],
   "note": ""
  },
  {
   "property": "C63",
   "status": "partial",
   "theorems": [
    "C63_empty_partial",
    "C63_empty_refuted"
   ],
   "note": "False of the code for the minimum: both give one sample of -inf at time 0 (proved for all flags)."
  },
  {
   "property": "C64",
   "status": "partial",
   "theorems": [
    "C64_precedence_refuted",
    "C64_no_until_partial"
   ],
   "note": "False of the code: until prints without parentheses, so (G a) U b and G (a U b) print the same. Proved without Until, up to the bounds of bounded intervals (which are not printed, C54), for names without blanks, '(', '~', '['."
  },
  {
   "property": "C65",
   "status": "proved",
   "theorems": [
    "C65_neg_line",
    "C65_neg_line_exact",
    "C65_neg_involutive_and_antitone"
   ],
   "note": ""
  },
  {
   "property": "C66",
   "status": "proved",
   "theorems": [
    "C66_index_inside",
    "C66_index_outside",
    "C66_ends",
    "C66_empty"
   ],
   "note": ""
  },
  {
   "property": "C67",
   "status": "proved",
   "theorems": [
    "C67_const_equality",
    "C67_predicate_equality"
   ],
   "note": ""
  },
  {
   "property": "C68",
   "status": "proved",
   "theorems": [
    "C68_comparisons",
    "C68_nodes"
   ],
   "note": ""
  },
  {
   "property": "C69",
   "status": "partial",
   "theorems": [
    "C69_python_view_partial",
    "C69_construct_partial",
    "C69_compare_partial",
    "C69_repr_partial",
    "C69_calls_partial",
    "C69_derivative_refuted"
   ],
   "note": "Sample.derivative is bound to the value field (pysignal.cc:35), so that part of the claim is refuted. The rest is proved, for time lists and compared values without NaN and, for repr, an injective printing of doubles. C69_calls_partial holds by definition of the model: it only records which C++ function each name is bound to."
  },
  {
   "property": "C70",
   "status": "proved",
   "theorems": [
    "C70_evaluates_or_throws"
   ],
   "note": ""
  },
  {
   "property": "C71",
   "status": "proved",
   "theorems": [
    "C71_value_at_samples",
    "C71_sign_at_samples"
   ],
   "note": ""
  },
  {
   "property": "C72",
   "status": "proved",
   "theorems": [
    "C72_value_at_begin"
   ],
   "note": ""
  },
  {
   "property": "C73",
   "status": "partial",
   "theorems": [
    "C73_nested_refuted"
   ],
   "note": "Refuted: for Always (Eventually x > 0 or y > 0) the linear interpolation of the rolling maximum makes the computed value too large. What holds is C72: exact for nestings that do not mix the two directions."
  },
  {
   "property": "C74",
   "status": "proved",
   "theorems": [
    "C74_signal_text"
   ],
   "note": ""
  },
  {
   "property": "C75",
   "status": "proved",
   "theorems": [
    "C75_lipschitz",
    "C75_lipschitz_boolean"
   ],
   "note": ""
  },
  {
   "property": "C76",
   "status": "proved",
   "theorems": [
    "C76_monotone"
   ],
   "note": ""
  },
  {
   "property": "C77",
   "status": "proved",
   "theorems": [
    "C77_verdict",
    "C77_verdict_margin"
   ],
   "note": ""
  },
  {
   "property": "C78",
   "status": "proved",
   "theorems": [
    "C78_grammar",
    "C78_rejected"
   ],
   "note": ""
  },
  {
   "property": "C79",
   "status": "proved",
   "theorems": [
    "C79_until_sign"
   ],
   "note": ""
  },
  {
   "property": "C80",
   "status": "proved",
   "theorems": [
    "C80_bounds",
    "C80_bounds_consistent"
   ],
   "note": ""
  },
  {
   "property": "C81",
   "status": "proved",
   "theorems": [
    "C81_renaming"
   ],
   "note": ""
  },
  {
   "property": "C82",
   "status": "proved",
   "theorems": [
    "C82_mirror"
   ],
   "note": ""
  },
  {
   "property": "C83",
   "status": "proved",
   "theorems": [
    "C83_offsets"
   ],
   "note": ""
  },
  {
   "property": "C84",
   "status": "proved",
   "theorems": [
    "C84_time_unit"
   ],
   "note": ""
  },
  {
   "property": "C85",
   "status": "proved",
   "theorems": [
    "C85_causal",
    "C85_past_irrelevant"
   ],
   "note": ""
  },
  {
   "property": "C86",
   "status": "proved",
   "theorems": [
    "C86_not",
    "C86_and",
    "C86_or",
    "C86_laws"
   ],
   "note": ""
  },
  {
   "property": "C87",
   "status": "partial",
   "theorems": [
    "C87_rewriting_partial",
    "C87_rewriting_refuted"
   ],
   "note": "Refuted: under Eventually, And of x, y, z and of y, z, x give 4 and 3 at time 1/2, because the rolling maximum is sampled at other times. Partial: at the first time, formulas for which the first value is exact (C72)."
  },
  {
   "property": "C88",
   "status": "partial",
   "theorems": [
    "C88_resampling_partial",
    "C88_resampling_refuted"
   ],
   "note": "Refuted: Eventually x, with one more sample on the line, gives 5 instead of 15/2 between samples. Partial: formulas without temporal operators at every time; formulas of C72 at the first time."
  },
  {
   "property": "C89",
   "status": "proved",
   "theorems": [
    "C89_size_bound"
   ],
   "note": ""
  },
  {
   "property": "C90",
   "status": "proved",
   "theorems": [
    "C90_times_kept",
    "C90_times_not_invented"
   ],
   "note": ""
  },
  {
   "property": "C91",
   "status": "proved",
   "theorems": [
    "C91_boolean",
    "C91_temporal"
   ],
   "note": ""
  },
  {
   "property": "C92",
   "status": "proved",
   "theorems": [
    "C92_interpolation",
    "C92_synchronize",
    "C92_minmax"
   ],
   "note": ""
  },
  {
   "property": "C93",
   "status": "partial",
   "theorems": [
    "C93_verdict_partial",
    "C93_verdict_refuted"
   ],
   "note": "False with And/Or: for timestamps of the order of microseconds since 1970 time_intersect loses nearly all digits, and Eventually(x > 0 and y > 0) gets the value 0.5 although its true robustness is -3/8 (C93_verdict_refuted). Partial: without constants, And, Or and Until every sample value is the correctly rounded true robustness, with the same sign. C115 proves accuracy for Always over And and Eventually over Or on uniformly sampled traces."
  },
  {
   "property": "C94",
   "status": "proved",
   "theorems": [
    "C94_reading"
   ],
   "note": ""
  },
  {
   "property": "C95",
   "status": "proved",
   "theorems": [
    "C95_derived"
   ],
   "note": ""
  },
  {
   "property": "C96",
   "status": "proved",
   "theorems": [
    "C96_inline"
   ],
   "note": ""
  },
  {
   "property": "C97",
   "status": "proved",
   "theorems": [
    "C97_simplify_idempotent"
   ],
   "note": ""
  },
  {
   "property": "C98",
   "status": "proved",
   "theorems": [
    "C98_resize_shift"
   ],
   "note": ""
  },
  {
   "property": "C99",
   "status": "partial",
   "theorems": [
    "C99_empty_partial",
    "C99_empty_refuted"
   ],
   "note": "False of the code: Always/Eventually read back() of an empty vector, And/Or/Until of two operands dereference end(). Proved: predicates and negations over an empty signal return the empty signal; every temporal operator with a constructed interval, and every And/Or/Until one of whose first two operands evaluates to the empty signal, is undefined behaviour."
  },
  {
   "property": "C100",
   "status": "proved",
   "theorems": [
    "C100_messages"
   ],
   "note": ""
  },
  {
   "property": "C101",
   "status": "partial",
   "theorems": [
    "C101_unclosed_refuted",
    "C101_reported"
   ],
   "note": "False of the code: the message written for a command that is not closed is never reported (C101_unclosed_refuted); Command is itself a must, so that an unclosed command is reported as not matching the known commands (C101_reported, for every unclosed command after a valid specification)."
  },
  {
   "property": "C102",
   "status": "proved",
   "theorems": [
    "C102_not_a_command"
   ],
   "note": ""
  },
  {
   "property": "C103",
   "status": "proved",
   "theorems": [
    "C103_first_error"
   ],
   "note": ""
  },
  {
   "property": "C104",
   "status": "proved",
   "theorems": [
    "C104_in_term"
   ],
   "note": ""
  },
  {
   "property": "C105",
   "status": "proved",
   "theorems": [
    "C105_verdict",
    "C105_margin"
   ],
   "note": ""
  },
  {
   "property": "C106",
   "status": "proved",
   "theorems": [
    "C106_order"
   ],
   "note": ""
  },
  {
   "property": "C107",
   "status": "proved",
   "theorems": [
    "C107_parsed_evaluates"
   ],
   "note": ""
  },
  {
   "property": "C108",
   "status": "partial",
   "theorems": [
    "C108_constant_partial",
    "C108_constant_refuted"
   ],
   "note": "False of the code: (x > 0) and false is positive at every sample between the ends of the trace where x is (C108_constant_refuted), because the constant interpolates to NaN there. Partial: the exact values, -inf (inf) at the ends of the trace and the other operand's value in between."
  },
  {
   "property": "C109",
   "status": "proved",
   "theorems": [
    "C109_samples",
    "C109_text"
   ],
   "note": ""
  },
  {
   "property": "C110",
   "status": "proved",
   "theorems": [
    "C110_nearest",
    "C110_constants",
    "C110_stod"
   ],
   "note": ""
  },
  {
   "property": "C111",
   "status": "partial",
   "theorems": [
    "C111_spelling_partial",
    "C111_refuted"
   ],
   "note": "False of the code: 9223372036854775808 is rejected with out_of_range (std::stol), 9223372036854775808.0 is accepted (C111_refuted). Partial: the two outcomes agree unless one is out_of_range, and agree always if integers are below 2^63 and no number is between 0 and 2^-1022."
  },
  {
   "property": "C112",
   "status": "partial",
   "theorems": [
    "C112_refuted",
    "C112_minus_refuted"
   ],
   "note": "False of the code: the grammar has no sign in front of a numeral (grammar.hpp:55-72), so every constant of a parsed formula is non-negative (C112_refuted) and a minus sign is a parse error (C112_minus_refuted)."
  },
  {
   "property": "C113",
   "status": "partial",
   "theorems": [
    "C113_formulas_partial",
    "C113_signals_partial",
    "C113_intervals_refuted"
   ],
   "note": "False of the code: bounded intervals are not printed, and unbounded ones of Always and Eventually as [a, int) and [a, inf] (C113_intervals_refuted). Partial: the exact text of formulas, with intervals as the code shows them, and of signals."
  },
  {
   "property": "C114",
   "status": "partial",
   "theorems": [
    "C114_temporal",
    "C114_andor_partial",
    "C114_andor_refuted"
   ],
   "note": "Temporal operators: proved. And/Or false of the code: C114_andor_refuted exhibits a trace on which one side returns and the other throws (two signals cross between samples while their computed slopes are equal; the crossing time is then +inf or -inf). Partial: apart from such a rejected time the two sides agree up to the sign of zeros."
  },
  {
   "property": "C115",
   "status": "proved",
   "theorems": [
    "C115_bound",
    "C115_always",
    "C115_eventually"
   ],
   "note": ""
  },
  {
   "property": "C116",
   "status": "partial",
   "theorems": [
    "C116_throws_refuted",
    "C116_pair_partial",
    "C116_formula_partial"
   ],
   "note": "False of the code: with 0.1, 0.4 and 0, 0.4 at times 0 and 1 the conjunction of the two predicates throws invalid_argument, with the operands exchanged it returns (C116_throws_refuted): the crossing is computed as 1 + 2^-52. Partial: And and Or of two operands sampled at the same times return if, wherever one overtakes the other, the values at the later sample differ by at least 2^-46 V S / h (V bounds the values, S the times, h is the time between the samples)."
  },
  {
   "property": "C117",
   "status": "partial",
   "theorems": [
    "C117_three_refuted",
    "C117_pair_partial",
    "C117_chains_partial",
    "C117_boolean_partial",
    "C117_temporal_partial"
   ],
   "note": "False of the code for three operands: with the values 1,1 and 3,0 and 2,0 at times 0 and 1 the conjunction of the three predicates throws invalid_argument, in another order it returns (C117_three_refuted). Partial: with two operands And and Or always return, and the result is within 2^-48 V S of the exact minimum or maximum at every time (C117_pair_partial 2^-49 V S for signals; C117_chains_partial for operands built with Not, Always and Eventually, relative to the computed operands; C117_boolean_partial against the exact robustness for predicates and their negations; C117_temporal_partial below Always or Eventually, with the verdict beyond the error). Missing: three or more operands where they happen to return."
  },
  {
   "property": "C118",
   "status": "proved",
   "theorems": [
    "C118_pair",
    "C118_chains",
    "C118_boolean",
    "C118_temporal"
   ],
   "note": ""
  },
  {
   "property": "C119",
   "status": "proved",
   "theorems": [
    "C119_pair",
    "C119_chains",
    "C119_boolean",
    "C119_temporal"
   ],
   "note": ""
  },
  {
   "property": "C120",
   "status": "proved",
   "theorems": [
    "C120_list",
    "C120_chains",
    "C120_boolean",
    "C120_temporal"
   ],
   "note": ""
  },
  {
   "property": "C121",
   "status": "proved",
   "theorems": [
    "C121_list",
    "C121_chains",
    "C121_boolean",
    "C121_temporal"
   ],
   "note": ""
  },
  {
   "property": "C122",
   "status": "proved",
   "theorems": [
    "C122_boolean",
    "C122_separated",
    "C122_temporal"
   ],
   "note": ""
  },
  {
   "property": "C123",
   "status": "proved",
   "theorems": [
    "C123_boolean",
    "C123_temporal"
   ],
   "note": ""
  },
  {
   "property": "C124",
   "status": "proved",
   "theorems": [
    "C124_separated",
    "C124_boolean",
    "C124_temporal",
    "C124_times"
   ],
   "note": ""
  },
  {
   "property": "C125",
   "status": "proved",
   "theorems": [
    "C125_boolean",
    "C125_always",
    "C125_eventually"
   ],
   "note": ""
  },
  {
   "property": "C126",
   "status": "proved",
   "theorems": [
    "C126_boolean",
    "C126_temporal",
    "C126_results"
   ],
   "note": ""
  },
  {
   "property": "C127",
   "status": "proved",
   "theorems": [
    "C127_boolean",
    "C127_always",
    "C127_eventually"
   ],
   "note": ""
  },
  {
   "property": "C128",
   "status": "proved",
   "theorems": [
    "C128_until"
   ],
   "note": ""
  },
  {
   "property": "C129",
   "status": "proved",
   "theorems": [
    "C129_values",
    "C129_sampled"
   ],
   "note": ""
  }
 ]
}