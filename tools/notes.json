{
 "C02": "False of the code as stated: a NaN time is accepted. Proved: any time that is not NaN is accepted iff it exceeds the end time; a NaN time is always accepted.",
 "C06": "False of the code: Signal::at extrapolates backwards from the following sample. Proved: the returned value is the interpolated one iff the following segment has the same slope (zero after the last sample). Refuted in exact arithmetic and in binary64.",
 "C07": "False of the code: the guard uses && and never fires. Proved: at() never throws, is undefined behaviour on an empty signal or past the end, and extrapolates before the beginning.",
 "C09": "False of the code. Proved: end_at returns size() for t at or after the end and is undefined behaviour for every smaller t; the loop it contains would return the claimed position if it were started at the last sample.",
 "C11": "False of the code: only runs of equal values are dropped. Proved: an interior sample is dropped iff its value equals both neighbours' values (exact arithmetic).",
 "C12": "False of the code: resize throws whenever the new start lies before the second-to-last sample. Proved: correct when the window starts in the last segment (exact arithmetic), throws when it starts before; what it returns in every other case (binary64), the fill value included.",
 "C14": "False in binary64: rounding can make shifted times equal. Proved: values and length are kept and times stay non-decreasing for every finite offset.",
 "C15": "False of the code: overlapping signals where neither starts at a sample of the other throw or read out of range. Proved: synchronize returns iff the signals meet, and what happens otherwise.",
 "C18": "False of the code: a NaN time makes it loop forever. Proved: for signals with numeric increasing times it terminates.",
 "C26": "False of the code: C26_refuted gives finite binary64 signals with equal timestamps on which elementwise_min throws, because the rounded crossing time lies after the next sample. The partial theorems characterise exactly when it throws and exclude every other failure.",
 "C29": "False of the code between samples: C29_refuted (5,0,3 at 0,1,2 gives 4 at 1/2). Proved instead: the result bounds the true extreme at every time, is exact at samples, and an iff-characterisation of when it is exact between two samples.",
 "C32": "False of the code: a = 0 always reaches undefined behaviour, short windows with a <> 0 always throw, for 0 < a < b (exact arithmetic) it throws, is undefined, or returns one and the same signal for minimum and maximum, described exactly; no extreme is taken. The function is unreachable through compute_robustness on finite traces because Interval::has_value is inverted (C38).",
 "C36": "False of the code for a negative value of Always (and a positive value of Eventually) between samples: C36_sign_refuted. Proved: totality, the domain, soundness at every time for formulas in which Always occurs only where a positive and Eventually only where a negative sign is wanted, and at the first time for formulas whose outermost temporal operators have any polarity, there including Until under a negative sign. Constants and other occurrences of Until are excluded.",
 "C37": "False of the code: until is positive when both operands are negative throughout (C37_until_refuted), because the scan starts from minus the maximum of q. Proved: an exact characterisation of every output sample in terms of the synchronized operand samples, NaN-free.",
 "C38": "False of the code: Interval::has_value is inverted, so every interval a constructor can produce is ignored (proved for every operand except a single sample at an infinite time); C38_interval_refuted gives an Always[0,1] that is negative because of a value at time 5.",
 "C39": "False of the code with the constant first: every sample between the ends of the trace is NaN (C39_first_refuted, for all formulas). Proved with the constant after other operands, where those begin with the trace and no And or Or is empty.",
 "C63": "False of the code for the minimum: both give one sample of -inf at time 0 (proved for all flags).",
 "C50": "False of the code: (a & b) & false, (a | b) | true, Xor(a | b, true) and Iff(a & b, false) throw invalid_argument. Proved: exactly when each of the five throws.",
 "C52": "False of the code for a NaN bound (accepted) and for the integer constructor (unchecked, e.g. [5,3]). Proved for doubles that are not NaN.",
 "C53": "is_zero_to_inf is proved right for every constructible interval; has_value is the same function, so it is false for bounded and true for unbounded intervals (refuted).",
 "C55": "Proved for builds without assertions: every text gives a specification or one of five exceptions, never the local-error logic_error. With assertions active an assert can also abort the process (C55_assert_refuted). Stack depth is not modelled.",
 "C59": "The first form is proved. The second form always throws bad_optional_access, because the comparison is reset before it is read again (actions.hpp:200,212).",
 "C60": "False of the code: (not t u) is accepted as (not t) or aborts on an assert, several operators in one pair of parentheses are accepted, and () is rejected by a logic_error instead of a parse_error. Proved: a specification with an empty term anywhere is rejected by some exception.",
 "C54": "Proved: an unbounded and a bounded interval print differently, anywhere in a formula. False otherwise: has_value is inverted, so bounded intervals are never shown and formulas that differ in them always print the same. The conversion of doubles is a parameter.",
 "C64": "False of the code: until prints without parentheses, so (G a) U b and G (a U b) print the same. Proved without Until, up to the bounds of bounded intervals (which are not printed, C54), for names without blanks, '(', '~', '['.",
 "C69": "Sample.derivative is bound to the value field (pysignal.cc:35), so that part of the claim is refuted. The rest is proved, for time lists and compared values without NaN and, for repr, an injective printing of doubles. C69_calls_partial holds by definition of the model: it only records which C++ function each name is bound to.",
 "C73": "Refuted: for Always (Eventually x > 0 or y > 0) the linear interpolation of the rolling maximum makes the computed value too large. What holds is C72: exact for nestings that do not mix the two directions.",
 "C87": "Refuted: under Eventually, And of x, y, z and of y, z, x give 4 and 3 at time 1/2, because the rolling maximum is sampled at other times. Partial: at the first time, formulas for which the first value is exact (C72).",
 "C88": "Refuted: Eventually x, with one more sample on the line, gives 5 instead of 15/2 between samples. Partial: formulas without temporal operators at every time; formulas of C72 at the first time.",
 "C93": "False with And/Or: for timestamps of the order of microseconds since 1970 time_intersect loses nearly all digits, and Eventually(x > 0 and y > 0) gets the value 0.5 although its true robustness is -3/8 (C93_verdict_refuted). Partial: without constants, And, Or and Until every sample value is the correctly rounded true robustness, with the same sign. C115 proves accuracy for Always over And and Eventually over Or on uniformly sampled traces.",
 "C99": "False of the code: Always/Eventually read back() of an empty vector, And/Or/Until of two operands dereference end(). Proved: predicates and negations over an empty signal return the empty signal; every temporal operator with a constructed interval, and every And/Or/Until one of whose first two operands evaluates to the empty signal, is undefined behaviour.",
 "C101": "False of the code: the message written for a command that is not closed is never reported (C101_unclosed_refuted); Command is itself a must, so that an unclosed command is reported as not matching the known commands (C101_reported, for every unclosed command after a valid specification).",
 "C108": "False of the code: (x > 0) and false is positive at every sample between the ends of the trace where x is (C108_constant_refuted), because the constant interpolates to NaN there. Partial: the exact values, -inf (inf) at the ends of the trace and the other operand's value in between.",
 "C111": "False of the code: 9223372036854775808 is rejected with out_of_range (std::stol), 9223372036854775808.0 is accepted (C111_refuted). Partial: the two outcomes agree unless one is out_of_range, and agree always if integers are below 2^63 and no number is between 0 and 2^-1022.",
 "C112": "False of the code: the grammar has no sign in front of a numeral (grammar.hpp:55-72), so every constant of a parsed formula is non-negative (C112_refuted) and a minus sign is a parse error (C112_minus_refuted).",
 "C113": "False of the code: bounded intervals are not printed, and unbounded ones of Always and Eventually as [a, int) and [a, inf] (C113_intervals_refuted). Partial: the exact text of formulas, with intervals as the code shows them, and of signals.",
 "C114": "Temporal operators: proved. And/Or false of the code: C114_andor_refuted exhibits a trace on which one side returns and the other throws (two signals cross between samples while their computed slopes are equal; the crossing time is then +inf or -inf). Partial: apart from such a rejected time the two sides agree up to the sign of zeros.",
 "C116": "False of the code: with 0.1, 0.4 and 0, 0.4 at times 0 and 1 the conjunction of the two predicates throws invalid_argument, with the operands exchanged it returns (C116_throws_refuted): the crossing is computed as 1 + 2^-52. Partial: And and Or of two operands sampled at the same times return if, wherever one overtakes the other, the values at the later sample differ by at least 2^-46 V S / h (V bounds the values, S the times, h is the time between the samples).",
 "C117": "False of the code for three operands: with the values 1,1 and 3,0 and 2,0 at times 0 and 1 the conjunction of the three predicates throws invalid_argument, in another order it returns (C117_three_refuted). Partial: with two operands And and Or always return, and the result is within 2^-48 V S of the exact minimum or maximum at every time (C117_pair_partial 2^-49 V S for signals; C117_chains_partial for operands built with Not, Always and Eventually, relative to the computed operands; C117_boolean_partial against the exact robustness for predicates and their negations; C117_temporal_partial below Always or Eventually, with the verdict beyond the error). Missing: three or more operands where they happen to return."
}