{"id": "C01", "title": "Appending keeps time strictly increasing", "statement": "Starting from an empty Signal, after any history of push_back calls with non-NaN timestamps the stored timestamps are strictly increasing. A push_back whose time is at or before end_time() throws invalid_argument and leaves the signal unchanged; any other push_back is accepted, adds exactly one sample at the end and keeps every earlier (time, value) pair.", "quantifier": "every finite history of push_back calls with arbitrary binary64 times (non-NaN) and values, accepted or rejected", "why_tests_cant": "histories are unbounded and mix accepted and rejected appends; tests sample a few signals", "anchors": ["src/core/signal.cc:Signal::push_back", "src/include/signal_tl/signal.hpp:Signal::end_time"]}
{"id": "C02", "title": "A timestamp that is not a number is rejected", "statement": "push_back never accepts a NaN timestamp, so no history of push_back calls can leave a Signal whose timestamps are not strictly increasing.", "quantifier": "every history of push_back calls with arbitrary binary64 values, NaN included", "why_tests_cant": "one must consider every double, including the ones a test generator never draws", "anchors": ["src/core/signal.cc:Signal::push_back"]}
{"id": "C03", "title": "Stored derivatives are the slopes to the next sample", "statement": "In every Signal built by push_back, the derivative of each sample except the last is (next.value - value) / (next.time - time) and the derivative of the last sample is 0, whatever derivatives the caller supplied.", "quantifier": "every sequence of samples accepted by push_back", "why_tests_cant": "must hold for all sequences and for any caller-supplied derivative", "anchors": ["src/core/signal.cc:Signal::push_back"]}
{"id": "C04", "title": "Constructing a signal from points and times", "statement": "Signal(points, times) throws invalid_argument if the lengths differ or the (non-NaN) times are not strictly increasing, and otherwise yields a signal with exactly those (time, value) pairs in that order; copying such a signal yields an identical one.", "quantifier": "all pairs of vectors of binary64", "why_tests_cant": "unbounded lengths and all orderings", "anchors": ["src/include/signal_tl/signal.hpp:Signal(const std::vector<double>&, const std::vector<double>&)", "src/include/signal_tl/signal.hpp:Signal(const Signal&)"]}
{"id": "C05", "title": "Looking up an existing sample time", "statement": "If the signal has a sample timed exactly at t, at(t) returns that sample.", "quantifier": "every signal with strictly increasing times, every sample index", "why_tests_cant": "binary search correctness for every length and index", "anchors": ["src/core/signal.cc:Signal::at"]}
{"id": "C06", "title": "Looking up a time between samples interpolates", "statement": "For t strictly between two consecutive sample times, at(t) is the linear interpolation between the two samples (doc comment: interpolates from the closest sample less than t).", "quantifier": "every signal with at least two samples, every t strictly inside a segment", "why_tests_cant": "a real-valued claim for every segment and t", "anchors": ["src/core/signal.cc:Signal::at"]}
{"id": "C07", "title": "Looking up a time outside the signal throws", "statement": "at(t) throws invalid_argument when t is before begin_time() or after end_time(), and never reads outside the signal.", "quantifier": "every signal (including empty) and every t outside its range", "why_tests_cant": "absence of undefined behaviour cannot be shown by running cases", "anchors": ["src/core/signal.cc:Signal::at"]}
{"id": "C08", "title": "begin_at is the first sample at or after s", "statement": "begin_at(s) denotes the position of the first sample whose time is >= s, or end() if there is none.", "quantifier": "every signal with strictly increasing times and every non-NaN s", "why_tests_cant": "binary search over all lengths", "anchors": ["src/include/signal_tl/signal.hpp:Signal::begin_at"]}
{"id": "C09", "title": "end_at is one past the last sample at or before t", "statement": "end_at(t) denotes the position just after the last sample whose time is <= t, without reading outside the signal.", "quantifier": "every signal and every t", "why_tests_cant": "undefined behaviour cannot be excluded by tests", "anchors": ["src/include/signal_tl/signal.hpp:Signal::end_at"]}
{"id": "C10", "title": "simplify preserves the signal as a function of time", "statement": "simplify() never throws, keeps the first and last timestamps, keeps a subsequence of the (time,value) pairs, and represents the same piecewise-linear function at every time.", "quantifier": "every signal built by the constructors (exact arithmetic for the function equality; binary64 for the rest), every time", "why_tests_cant": "claims equality of functions at every real time", "anchors": ["src/core/signal.cc:Signal::simplify"]}
{"id": "C11", "title": "simplify removes every redundant sample", "statement": "simplify() drops every interior sample at which value and slope are continuous (doc comment).", "quantifier": "every signal", "why_tests_cant": "must hold for all signals", "anchors": ["src/core/signal.cc:Signal::simplify"]}
{"id": "C12", "title": "resize restricts or extends to the window", "statement": "resize(start,end,fill) returns the signal restricted to [start,end], agreeing with the original there and taking the fill value where the original is undefined.", "quantifier": "every signal and every start <= end", "why_tests_cant": "all window/signal overlaps", "anchors": ["src/core/signal.cc:Signal::resize"]}
{"id": "C13", "title": "shift translates the signal", "statement": "shift(dt) yields a signal whose value at t+dt is the original's value at t; shifting by dt1 and then dt2 is shifting by dt1+dt2.", "quantifier": "every signal and every dt, every time (exact arithmetic)", "why_tests_cant": "function equality at every time", "anchors": ["src/core/signal.cc:Signal::shift"]}
{"id": "C14", "title": "shift keeps timestamps strictly increasing", "statement": "After shift(dt) with finite dt the timestamps are still strictly increasing.", "quantifier": "every signal and finite binary64 dt", "why_tests_cant": "rounding collisions occur only for special magnitudes", "anchors": ["src/core/signal.cc:Signal::shift"]}
{"id": "C15", "title": "synchronize is defined exactly on compatible signals", "statement": "For non-empty signals with strictly increasing times, synchronize(x,y) returns a pair of signals whenever the two signals overlap in time.", "quantifier": "every pair of non-empty signals with non-NaN strictly increasing binary64 times", "why_tests_cant": "all interleavings of two timestamp sequences", "anchors": ["src/core/signal.cc:synchronize"]}
{"id": "C16", "title": "synchronize aligns the time stamps", "statement": "When synchronize returns, both outputs have exactly the same timestamps, namely every timestamp of either input that lies in the common time range, and at a timestamp that an input already had its value is unchanged.", "quantifier": "every pair of signals with non-NaN strictly increasing times for which synchronize returns (binary64)", "why_tests_cant": "all interleavings", "anchors": ["src/core/signal.cc:synchronize"]}
{"id": "C17", "title": "synchronize preserves both functions", "statement": "When synchronize returns, each output represents the same piecewise-linear function as its input on the common time range.", "quantifier": "every pair of signals for which synchronize returns, every time (exact arithmetic)", "why_tests_cant": "function equality at every time", "anchors": ["src/core/signal.cc:synchronize"]}
{"id": "C18", "title": "synchronize terminates", "statement": "synchronize terminates on every pair of signals that can be built through the API.", "quantifier": "every pair of signals, NaN times included", "why_tests_cant": "non-termination is not observable by a test", "anchors": ["src/core/signal.cc:synchronize"]}
{"id": "C19", "title": "synchronize is symmetric", "statement": "synchronize(y,x) succeeds exactly when synchronize(x,y) does, with the two outputs swapped.", "quantifier": "every pair of signals with non-NaN strictly increasing times", "why_tests_cant": "all interleavings", "anchors": ["src/core/signal.cc:synchronize"]}
{"id": "C20", "title": "synchronize is idempotent", "statement": "Synchronizing the two outputs of synchronize again returns them unchanged.", "quantifier": "every pair of signals with non-NaN strictly increasing times for which synchronize returns (binary64)", "why_tests_cant": "all interleavings", "anchors": ["src/core/signal.cc:synchronize"]}
{"id": "C21", "title": "time_intersect finds the crossing", "statement": "If two samples have different derivatives, both interpolate to the same value at time_intersect, and that time is the only one; for non-parallel crossing segments it lies inside the segment.", "quantifier": "all pairs of samples with different derivatives (exact arithmetic)", "why_tests_cant": "real-valued identity", "anchors": ["src/include/signal_tl/signal.hpp:Sample::time_intersect", "src/include/signal_tl/signal.hpp:Sample::interpolate"]}
{"id": "C22", "title": "area is the integral", "statement": "area(t) is the integral of the interpolated line from time to t for t > time, and 0 for t <= time.", "quantifier": "all samples and times (exact arithmetic)", "why_tests_cant": "real-valued identity", "anchors": ["src/include/signal_tl/signal.hpp:Sample::area"]}
{"id": "C23", "title": "Sample comparisons order by value", "statement": "<, >, <=, >= on samples are the value order: on samples with non-NaN values < is a strict weak order, and <= and >= are the complements of > and <.", "quantifier": "all pairs/triples of samples", "why_tests_cant": "order laws range over all triples", "anchors": ["src/include/signal_tl/signal.hpp:operator<"]}
{"id": "C24", "title": "Elementwise min/max is the pointwise min/max", "statement": "For signals that start together, the elementwise minimum (maximum) takes at every time of the common range the minimum (maximum) of the two inputs' piecewise-linear values, including where the signals cross between samples, and never throws.", "quantifier": "all pairs of finite signals with the same begin time, every time (exact arithmetic)", "why_tests_cant": "crossings anywhere between samples; equality at every time", "anchors": ["src/robust_semantics/minmax.cc:compute_minmax_pair"]}
{"id": "C25", "title": "Elementwise min/max at sample times in floating point", "statement": "Whenever the elementwise minimum (maximum) returns in binary64, its timestamps are strictly increasing, contain every synchronized timestamp, and at those its value is exactly the smaller (larger) of the two synchronized values.", "quantifier": "all pairs of signals with non-NaN values for which it returns", "why_tests_cant": "all interleavings and values", "anchors": ["src/robust_semantics/minmax.cc:compute_minmax_pair"]}
{"id": "C26", "title": "Elementwise min/max never throws on valid signals", "statement": "For finite signals with the same timestamps the elementwise minimum/maximum, and hence And/Or, never throws.", "quantifier": "all pairs of finite binary64 signals with equal timestamps", "why_tests_cant": "depends on rounding of the crossing time", "anchors": ["src/robust_semantics/minmax.cc:compute_minmax_pair", "src/core/signal.cc:Signal::push_back"]}
{"id": "C27", "title": "N-ary And/Or is the minimum/maximum over all operands", "statement": "For any number n>=2 of signals that start together the n-ary elementwise minimum (maximum) is at every time the minimum (maximum) over all operands.", "quantifier": "all lists of at least two finite signals, every time (exact arithmetic)", "why_tests_cant": "unbounded arity", "anchors": ["src/robust_semantics/minmax.cc:compute_minmax_pair"]}
{"id": "C28", "title": "Unbounded Eventually/Always at sample times", "statement": "The rolling maximum (minimum) keeps the timestamps of its input and its value at each of them is the maximum (minimum) of the input's values from that sample to the end.", "quantifier": "all non-empty signals with non-NaN binary64 values", "why_tests_cant": "unbounded lengths", "anchors": ["src/robust_semantics/minmax.cc:compute_minmax_seq"]}
{"id": "C29", "title": "Unbounded Eventually/Always between sample times", "statement": "The rolling maximum (minimum), read as a piecewise-linear signal, equals at every time t the supremum (infimum) of the input over [t,end].", "quantifier": "all finite signals, every time (exact arithmetic)", "why_tests_cant": "a claim about every time between samples", "anchors": ["src/robust_semantics/minmax.cc:compute_minmax_seq"]}
{"id": "C30", "title": "Rolling min/max is idempotent and monotone", "statement": "Applying the rolling maximum (minimum) twice is the same as once, and its values are non-increasing (non-decreasing) in time.", "quantifier": "all non-empty signals with non-NaN values (binary64)", "why_tests_cant": "unbounded lengths", "anchors": ["src/robust_semantics/minmax.cc:compute_minmax_seq"]}
{"id": "C31", "title": "Duality of the operators", "statement": "For every formula, the robustness of Not Eventually phi is that of Always Not phi, and that of Not And(...) is that of Or(Not ...), sample for sample.", "quantifier": "all formulas (And/Or with at least one operand) and traces of non-empty signals (exact arithmetic)", "why_tests_cant": "ranges over formulas and traces", "anchors": ["src/robust_semantics/classic_robustness.cc:RobustnessOp", "src/robust_semantics/minmax.cc:compute_minmax_pair"]}
{"id": "C32", "title": "Windowed min/max over [t+a,t+b]", "statement": "The windowed maximum (minimum) of a signal takes at time t the maximum (minimum) of the input over [t+a,t+b].", "quantifier": "all signals and windows", "why_tests_cant": "all window positions", "anchors": ["src/robust_semantics/minmax.cc:compute_minmax_seq(x,a,b,comp)"]}
{"id": "C33", "title": "Monotonic wedge maintains the running extreme", "statement": "After feeding any sequence of values through mono_wedge_update, with any number of pop_front calls in between, the wedge is sorted by the comparator, is a subsequence ending in the last value, and its front is an extreme of all values not older than the oldest retained one.", "quantifier": "all update/pop histories with non-NaN values", "why_tests_cant": "unbounded histories, hybrid linear/binary search", "anchors": ["src/robust_semantics/mono_wedge.h:mono_wedge_search", "src/robust_semantics/mono_wedge.h:mono_wedge_update"]}
{"id": "C34", "title": "Predicate robustness has the right sign", "statement": "At each sample, robustness of x > c / x >= c is positive iff value > c and negative iff value < c; of x < c / x <= c it is positive iff value < c and negative iff value > c. Timestamps are kept.", "quantifier": "all finite binary64 values and constants, all signals", "why_tests_cant": "needs all pairs of doubles, including subnormal differences and overflow", "anchors": ["src/robust_semantics/classic_robustness.cc:RobustnessOp::operator()(const ast::Predicate&)"]}
{"id": "C35", "title": "Boolean fragment is computed exactly", "statement": "For a formula built from predicates with Not, And, Or over signals that start together, compute_robustness equals the textbook quantitative semantics at every time of the common range, and does not throw.", "quantifier": "all such formulas whose And/Or have operands, all finite traces with every name of the formula, every time (exact arithmetic)", "why_tests_cant": "ranges over formulas, traces and times", "anchors": ["src/robust_semantics/classic_robustness.cc:compute_robustness"]}
{"id": "C36", "title": "Robustness sign is sound", "statement": "If compute_robustness reports a positive value at time t then the formula is satisfied at t; if it reports a negative value it is violated (continuous-time semantics of the piecewise-linear trace).", "quantifier": "all formulas with unbounded Always/Eventually, all finite traces with common begin time, every time (exact arithmetic)", "why_tests_cant": "ranges over formulas, traces and times", "anchors": ["src/robust_semantics/classic_robustness.cc:compute_robustness"]}
{"id": "C37", "title": "Until follows the until semantics", "statement": "The robustness of p U q at a sample is the maximum over later samples of the minimum of q there and of p up to there; in particular it is negative if q is negative at every later time.", "quantifier": "all pairs of signals", "why_tests_cant": "ranges over all traces", "anchors": ["src/robust_semantics/classic_robustness.cc:compute_until"]}
{"id": "C38", "title": "Temporal intervals are respected", "statement": "The robustness of Eventually/Always/Until with interval [a,b] only depends on the operand inside [t+a,t+b].", "quantifier": "all formulas with bounded intervals, all traces", "why_tests_cant": "ranges over all traces and intervals", "anchors": ["src/robust_semantics/classic_robustness.cc:RobustnessOp::operator()(const ast::EventuallyPtr&)", "src/include/signal_tl/ast.hpp:Interval::has_value"]}
{"id": "C39", "title": "Constants are neutral and absorbing", "statement": "And with true and Or with false leave the robustness of the other operand unchanged at its samples.", "quantifier": "all formulas and traces", "why_tests_cant": "ranges over all traces", "anchors": ["src/robust_semantics/classic_robustness.cc:RobustnessOp::operator()(const ast::Const)", "src/robust_semantics/minmax.cc:compute_minmax_pair"]}
{"id": "C40", "title": "Double negation", "statement": "compute_robustness(Not(Not phi)) is identical to compute_robustness(phi).", "quantifier": "all formulas and traces, binary64", "why_tests_cant": "ranges over formulas and traces", "anchors": ["src/robust_semantics/classic_robustness.cc:RobustnessOp::operator()(const ast::NotPtr&)"]}
{"id": "C41", "title": "Only the named signals matter", "statement": "Changing, adding or removing signals whose names do not occur in a formula without constants does not change its robustness (including exceptions).", "quantifier": "all formulas and all pairs of traces that agree on the formula's names", "why_tests_cant": "ranges over formulas and traces", "anchors": ["src/robust_semantics/classic_robustness.cc:compute_robustness"]}
{"id": "C42", "title": "A missing signal is reported", "statement": "If a name used by the formula is not in the trace, compute_robustness does not return a signal; for a predicate it throws out_of_range. On well-formed traces with finite times and a common start, any formula whose And and Or have operands throws out_of_range, or invalid_argument where an operand fails earlier.", "quantifier": "all formulas and traces", "why_tests_cant": "ranges over formulas", "anchors": ["src/robust_semantics/classic_robustness.cc:RobustnessOp::operator()(const ast::Predicate&)"]}
{"id": "C43", "title": "Output is a well-formed signal", "statement": "Whenever compute_robustness returns for a trace of non-empty signals with strictly increasing times, the output is non-empty with strictly increasing times.", "quantifier": "all formulas and traces, binary64", "why_tests_cant": "ranges over formulas and traces", "anchors": ["src/robust_semantics/classic_robustness.cc:compute_robustness"]}
{"id": "C44", "title": "The synchronized flag has no effect", "statement": "compute_robustness returns the same result with synchronized=true and false.", "quantifier": "all formulas and traces", "why_tests_cant": "ranges over formulas and traces", "anchors": ["src/robust_semantics/classic_robustness.cc:compute_robustness"]}
{"id": "C45", "title": "Time-shift invariance", "statement": "Shifting every signal of the trace by dt shifts the robustness signal by dt.", "quantifier": "all formulas whose And/Or have operands, all traces of non-empty signals, all dt (exact arithmetic)", "why_tests_cant": "ranges over formulas, traces and real shifts", "anchors": ["src/robust_semantics/classic_robustness.cc:compute_robustness"]}
{"id": "C46", "title": "Positive scaling", "statement": "Multiplying all values of the trace and all constants of the formula by c > 0 multiplies the robustness by c and keeps its timestamps.", "quantifier": "all formulas, traces of non-empty signals, all c > 0 (exact arithmetic)", "why_tests_cant": "ranges over formulas, traces and real factors", "anchors": ["src/robust_semantics/classic_robustness.cc:compute_robustness"]}
{"id": "C47", "title": "compute_robustness is total on good traces", "statement": "For a trace of non-empty signals with a common begin time that has every name of the formula, compute_robustness returns: no exception, no undefined behaviour, no failed assertion, no endless loop.", "quantifier": "all constant-free formulas whose And/Or have operands, all such finite traces (exact arithmetic; without And/Or/Until also in binary64)", "why_tests_cant": "absence of undefined behaviour and of non-termination", "anchors": ["src/robust_semantics/classic_robustness.cc:compute_robustness"]}
{"id": "C48", "title": "Eventually/Always/Not/predicates decide discrete satisfaction", "statement": "For formulas without And, Or, Until and constants the binary64 robustness at each sample is positive only if, and negative only if not, the formula holds there under the sampled (discrete) semantics.", "quantifier": "all such formulas and traces with finite values (binary64); intervals read as unbounded, as the code does (C38)", "why_tests_cant": "ranges over formulas and traces", "anchors": ["src/robust_semantics/classic_robustness.cc:compute_robustness"]}
{"id": "C49", "title": "Operators on formulas agree with propositional logic", "statement": "Whenever they return, ~e, a & b, a | b, Not, Implies, Xor and Iff denote negation, conjunction, disjunction, implication, exclusive or and equivalence, under every interpretation of the non-Boolean subformulas.", "quantifier": "all formulas and all interpretations", "why_tests_cant": "ranges over all formula shapes, including flattening and constant folding", "anchors": ["src/core/ast.cc:operator&", "src/core/ast.cc:operator|", "src/core/ast.cc:Implies", "src/core/ast.cc:Xor", "src/core/ast.cc:Iff"]}
{"id": "C50", "title": "Building formulas with operators never throws", "statement": "a & b, a | b, Implies, Xor, Iff return a formula for all operands.", "quantifier": "all pairs of formulas", "why_tests_cant": "ranges over formula shapes", "anchors": ["src/core/ast.cc:AndHelper", "src/core/ast.cc:OrHelper"]}
{"id": "C51", "title": "And/Or nodes always have at least two operands", "statement": "Every formula that can be built through the construction API or the parser has at least two operands in each And/Or; And/Or of fewer than two operands throw invalid_argument.", "quantifier": "every construction history", "why_tests_cant": "all construction histories", "anchors": ["src/include/signal_tl/ast.hpp:And", "src/include/signal_tl/ast.hpp:Or"]}
{"id": "C52", "title": "Interval construction is validated", "statement": "Interval(a,b) is only constructed with 0 <= a < b; otherwise it throws invalid_argument.", "quantifier": "all pairs of doubles and of unsigned integers", "why_tests_cant": "all doubles including NaN; all integers", "anchors": ["src/include/signal_tl/ast.hpp:Interval"]}
{"id": "C53", "title": "has_value tells bounded intervals apart", "statement": "is_zero_to_inf() holds exactly for [0,inf), and has_value() reports whether an explicit bounded interval was given.", "quantifier": "all intervals", "why_tests_cant": "all doubles", "anchors": ["src/include/signal_tl/ast.hpp:Interval::is_zero_to_inf", "src/include/signal_tl/ast.hpp:Interval::has_value"]}
{"id": "C54", "title": "Formatting distinguishes formulas", "statement": "Formatting a formula shows its interval: formulas that differ only in their temporal interval print differently.", "quantifier": "all formulas", "why_tests_cant": "ranges over formulas", "anchors": ["src/include/signal_tl/fmt.hpp:formatter<Always>"]}
{"id": "C55", "title": "The parser terminates with a specification or an exception", "statement": "from_string terminates on every input, with either a Specification or an exception, and the 'Local error' logic_error is never thrown.", "quantifier": "all input strings", "why_tests_cant": "unbounded inputs and nesting depth", "anchors": ["src/parser/parser.cc:_parse", "src/parser/grammar.hpp:SpecificationFile"]}
{"id": "C56", "title": "Printing and parsing round-trip", "statement": "For every well-formed list of definitions and assertions, parsing its S-expression text yields exactly those formulas and assertions.", "quantifier": "all specifications built from the supported operators, any nesting, with any white space and comments between tokens", "why_tests_cant": "unbounded nesting and any layout", "anchors": ["src/parser/grammar.hpp:Term", "src/parser/actions.hpp:action<Term>"]}
{"id": "C57", "title": "Redefinition is rejected", "statement": "If a formula (assertion) id is defined twice parsing throws; in a parsed Specification each id maps to its only definition.", "quantifier": "all specification texts", "why_tests_cant": "ranges over texts", "anchors": ["src/parser/actions.hpp:action<DefineFormula>", "src/parser/actions.hpp:action<Assertion>"]}
{"id": "C58", "title": "References must be defined before use", "statement": "A formula reference resolves to the formula defined earlier under that id; an undefined id makes from_string throw.", "quantifier": "all specification texts", "why_tests_cant": "ranges over texts", "anchors": ["src/parser/actions.hpp:action<Term>"]}
{"id": "C59", "title": "Both predicate forms parse", "statement": "(op x c) parses to x op c and (op c x) parses to the flipped comparison x op' c.", "quantifier": "all identifiers, operators and numerals", "why_tests_cant": "all combinations", "anchors": ["src/parser/actions.hpp:action<PredicateTerm>"]}
{"id": "C60", "title": "Only well-formed terms are accepted", "statement": "A unary operator applied to two operands, an empty term () or a list of several operators in one pair of parentheses is rejected with a parse_error.", "quantifier": "all specification texts", "why_tests_cant": "ranges over texts", "anchors": ["src/parser/grammar.hpp:Expression", "src/parser/grammar.hpp:TermTail", "src/parser/actions.hpp:action<Term>"]}
{"id": "C61", "title": "Parsed temporal operators are unbounded", "statement": "Every temporal operator in a parsed specification has the interval [0,inf).", "quantifier": "all specification texts", "why_tests_cant": "ranges over texts", "anchors": ["src/parser/actions.hpp:action<AlwaysTerm>", "src/parser/actions.hpp:action<EventuallyTerm>", "src/parser/actions.hpp:action<UntilTerm>"]}
{"id": "C62", "title": "Layout does not matter", "statement": "Replacing the white space and comments between tokens does not change the parsed Specification.", "quantifier": "all token sequences and layouts", "why_tests_cant": "unbounded layouts", "anchors": ["src/parser/grammar.hpp:Skip", "src/parser/grammar.hpp:Sep"]}
{"id": "C63", "title": "Min/max of no signals is neutral", "statement": "The elementwise minimum of an empty list of signals is +inf, the elementwise maximum -inf (the neutral elements).", "quantifier": "both settings of the flags (assertions, synchronized)", "why_tests_cant": "A degenerate input; stated to complete C27.", "anchors": ["src/robust_semantics/minmax.cc:compute_minmax_pair"]}
{"id": "C64", "title": "Printed formulas are unambiguous", "statement": "Different formulas print differently: the printed text of a formula determines its structure.", "quantifier": "all pairs of formulas built through the construction API", "why_tests_cant": "ranges over pairs of formulas", "anchors": ["src/include/signal_tl/fmt.hpp:formatter<Until>", "src/include/signal_tl/fmt.hpp:formatter<Always>"]}
{"id": "C65", "title": "Negating a sample mirrors its line", "statement": "-s keeps the time of s, and at every time the line through -s has the opposite value of the line through s; negating twice gives s back, and negation reverses the order.", "quantifier": "all samples and times, in binary64 (comparing with ==, so up to the sign of zero) and in exact arithmetic", "why_tests_cant": "Ranges over all doubles; depends on rounding being symmetric.", "anchors": ["src/include/signal_tl/signal.hpp:operator-"]}
{"id": "C66", "title": "Reading a signal by index", "statement": "at_idx(i) and the indexed interpolate, time_intersect and area use the i-th sample, and throw out_of_range exactly when i is not smaller than the number of samples; front/back are the first/last sample (undefined if there is none), begin_time/end_time their times (0 if there is none).", "quantifier": "all signals, indices and times", "why_tests_cant": "Unbounded signals and indices.", "anchors": ["src/include/signal_tl/signal.hpp:at_idx", "src/include/signal_tl/signal.hpp:front", "src/include/signal_tl/signal.hpp:begin_time"]}
{"id": "C67", "title": "Equality of leaf nodes", "statement": "Two constants are equal iff their values agree; two predicates are equal iff name, comparison and bound agree (bounds as doubles); != is the negation, equality is symmetric, and reflexive unless the bound is NaN.", "quantifier": "all constants and predicates", "why_tests_cant": "Ranges over all names and doubles.", "anchors": ["src/include/signal_tl/ast.hpp:Const::operator==", "src/include/signal_tl/ast.hpp:Predicate::operator=="]}
{"id": "C68", "title": "Construction helpers build the node they name", "statement": "x > c, x >= c, x < c, x <= c and the helpers Const, Predicate, And, Or, Always, Eventually, Until return exactly the node they name with the given operands and interval; without an interval it is [0,inf). ~e and Not(e) are the Not node, or for a constant the opposite constant.", "quantifier": "all names, bounds, operands and intervals", "why_tests_cant": "Ranges over all formulas.", "anchors": ["src/core/ast.cc:operator>", "src/core/ast.cc:Always", "src/core/ast.cc:Until"]}
{"id": "C69", "title": "Python shows the fields of samples and signals", "statement": "The attributes time, value and derivative of a Python Sample are the fields of the C++ Sample; signal[i] is the value of the i-th sample or an index error; len and iteration give the samples; begin_time, end_time and at give the first and last time and the values at samples. Construction from lists fails exactly for unequal lengths or times that do not increase, comparisons are of values, equal repr means equal times and values, and the other methods are the C++ ones.", "quantifier": "all signals and indices", "why_tests_cant": "Ranges over all signals.", "anchors": ["python_bindings/pysignal.cc:init_signal_module", "python_bindings/pyrobustness.cc"]}
{"id": "C70", "title": "Evaluation never goes wrong undetectably", "statement": "On a non-empty trace of well-formed non-empty signals with finite times and a common begin time, with every name of the formula present, And/Or having operands and intervals coming from the constructors, compute_robustness (in double arithmetic, constants and Until included) either returns a well-formed signal beginning at that time or throws std::invalid_argument; never undefined behaviour, an endless loop, an assertion failure or another exception.", "quantifier": "all such traces and formulas, with and without assertions", "why_tests_cant": "Undefined behaviour and non-termination over all formulas, shapes of signals and rounding outcomes.", "anchors": ["src/robust_semantics/classic_robustness.cc:compute_robustness", "src/robust_semantics/minmax.cc:compute_minmax_pair"]}
{"id": "C71", "title": "Propositional value at common samples is exact in doubles", "statement": "For a formula built from predicates, Not, And, Or, at any time at which every named signal has a sample, the result has a sample at that time whose value is exactly the minimum/maximum/negation/difference of the sample values, in double arithmetic without further rounding; with finite values its strict sign agrees with Boolean satisfaction of the samples.", "quantifier": "all traces of well-formed signals, such formulas and such times, whenever a result is returned", "why_tests_cant": "Ranges over all double values, including those where interpolation would round.", "anchors": ["src/robust_semantics/classic_robustness.cc:compute_robustness", "src/robust_semantics/minmax.cc:compute_minmax_pair"]}
{"id": "C72", "title": "Value at the begin time is the robustness for formulas with suitable nesting", "statement": "In exact arithmetic, for formulas in which the operand of Always uses only the least-value shape (no temporal operator, Always, And, Not of the dual shape) and the operand of Eventually the dual shape, freely combined by Not, And and Or, compute_robustness returns a signal whose value at the common begin time is the unique textbook robustness there (infimum/supremum over all later times, not only samples).", "quantifier": "all traces of piecewise-linear signals with a common begin time and all such formulas; intervals read as unbounded, as the code does (C38)", "why_tests_cant": "Compares with an infimum over uncountably many times, for all traces and nestings.", "anchors": ["src/robust_semantics/classic_robustness.cc:compute_robustness", "src/robust_semantics/minmax.cc:compute_minmax_seq"]}
{"id": "C73", "title": "Value at the begin time is the robustness for every nesting", "statement": "In exact arithmetic, for every formula without constants and Until the value at the begin time is the textbook robustness.", "quantifier": "all traces of piecewise-linear signals with a common begin time and all such formulas; intervals read as unbounded, as the code does (C38)", "why_tests_cant": "The error shows only when a mixed nesting meets a particular arrangement of samples.", "anchors": ["src/robust_semantics/classic_robustness.cc:compute_robustness", "src/robust_semantics/minmax.cc:compute_minmax_seq"]}
{"id": "C74", "title": "Printed signals determine their samples", "statement": "If doubles print distinctly and without commas and parentheses, two signals print the same exactly when they have the same sequence of (time, value) pairs.", "quantifier": "all pairs of signals, including empty ones and NaN or infinite entries", "why_tests_cant": "ranges over pairs of signals", "anchors": ["src/include/signal_tl/fmt.hpp:formatter<Signal>", "src/include/signal_tl/fmt.hpp:formatter<Sample>"]}
{"id": "C75", "title": "Robustness moves no more than the trace", "statement": "If two traces have the same names, signals defined at the same times, and values within d of each other at every time, then for formulas of the class of C72 the computed values at the begin time differ by at most d; for formulas without temporal operators the computed signals are defined at the same times and differ by at most d at every time.", "quantifier": "all pairs of traces (with independent sampling), all such formulas, all real d", "why_tests_cant": "ranges over pairs of traces, formulas and real times", "anchors": ["src/robust_semantics/classic_robustness.cc:compute_robustness", "src/robust_semantics/minmax.cc:compute_minmax_pair", "src/robust_semantics/minmax.cc:compute_minmax_seq"]}
{"id": "C76", "title": "Robustness is monotone in the signals", "statement": "If every signal is compared with > or >= under an even and with < or <= under an odd number of negations, raising the signals can only raise the computed value at the begin time (class of C72).", "quantifier": "all pairs of traces with the same domains ordered at every time, all such formulas", "why_tests_cant": "ranges over pairs of traces and formulas", "anchors": ["src/robust_semantics/classic_robustness.cc:compute_robustness"]}
{"id": "C77", "title": "Robustness is a margin for the verdict", "statement": "For formulas of the class of C72, a computed value at the begin time above d (below -d) means that the formula is satisfied (violated) there by every trace at most d away, in particular (d = 0) by the trace itself.", "quantifier": "all traces, all perturbed traces with the same domains, all such formulas, all d; intervals read as unbounded, as the code does (C38)", "why_tests_cant": "the perturbed traces form an infinite set", "anchors": ["src/robust_semantics/classic_robustness.cc:compute_robustness"]}
{"id": "C78", "title": "Accepted texts derive from the grammar", "statement": "If a specification text is accepted then it is white space and comments around tokens that derive from the grammar: balanced parentheses, an operator before the right number of terms, every reference to a formula defined earlier, no name defined or asserted twice; and the names in the result are those of the text in order. Any other text is rejected by an exception in builds without assertions.", "quantifier": "all texts, all conversions stod", "why_tests_cant": "ranges over all texts; tests can only try some malformed ones", "anchors": ["src/parser/grammar.hpp:SpecificationFile", "src/parser/grammar.hpp:Term", "src/parser/grammar.hpp:Expression", "src/parser/actions.hpp:action<Term>", "src/parser/actions.hpp:action<DefineFormula>"]}
{"id": "C79", "title": "The sign of until can be trusted in one direction", "statement": "At every sample of the synchronized operands, until is positive wherever the operands' values make the textbook until true, so a negative value never contradicts it; and if the right operand is positive at the last sample, the value is positive exactly where the textbook until is true.", "quantifier": "all operand formulas, all well-formed traces on which the operands evaluate to signals without NaN that synchronize", "why_tests_cant": "unbounded trace length and arbitrary operand values; known to be false without the side condition (C37)", "anchors": ["src/robust_semantics/classic_robustness.cc:compute_until"]}
{"id": "C80", "title": "Computed robustness is a bound in the trusted direction", "statement": "For formulas whose temporal operators have suitable polarity the computed value is, at every time, a lower (resp. upper) bound of the continuous-time robustness; at the first time this also holds for outermost temporal operators of any polarity and, as an upper bound, for until.", "quantifier": "all traces with a common begin time, all formulas without constants, all times; intervals read as unbounded, as the code does (C38)", "why_tests_cant": "continuous time, arbitrary nesting and trace length", "anchors": ["src/robust_semantics/classic_robustness.cc:compute_robustness", "src/robust_semantics/minmax.cc"]}
{"id": "C81", "title": "Signal names do not matter", "statement": "Renaming the signals in the formula and supplying the same signals under the new names gives the same outcome; different names may even be mapped to one name that carries the same signal, and further entries of the trace are irrelevant.", "quantifier": "all constant-free formulas, all renamings, all pairs of traces with unique names that agree on the names of the formula, both assert modes", "why_tests_cant": "arbitrary formulas, name maps and traces; a lookup by position or by name prefix passes most tests", "anchors": ["src/robust_semantics/classic_robustness.cc:operator()(const ast::Predicate&)", "src/robust_semantics/classic_robustness.cc:compute_robustness"]}
{"id": "C82", "title": "Mirroring a signal", "statement": "Replacing any of the signals by their opposites and turning each comparison of them around (x > c into -x < -c) changes nothing about the outcome, bit for bit in doubles, including every failure.", "quantifier": "all formulas, all traces (also malformed ones), all sets of signals, both assert modes", "why_tests_cant": "exact bit-for-bit symmetry of the four comparison operators over all doubles including NaN, infinities and zeros", "anchors": ["src/robust_semantics/classic_robustness.cc:operator()(const ast::Predicate&)"]}
{"id": "C83", "title": "Zero points of the signals do not matter", "statement": "Adding an own constant to each signal and to every constant it is compared with does not change the outcome in exact arithmetic.", "quantifier": "all formulas, all traces, all finite offsets, one per signal", "why_tests_cant": "arbitrary formulas, traces and real offsets", "anchors": ["src/robust_semantics/classic_robustness.cc:operator()(const ast::Predicate&)"]}
{"id": "C84", "title": "The unit of time does not matter for unbounded operators and ignored intervals", "statement": "Multiplying all times of the trace by a positive constant multiplies the times of the result by it and changes no value (exact arithmetic); since evaluation ignores the intervals (C38), they are left as they are.", "quantifier": "all formulas, all traces of well-formed non-empty signals, all positive real factors, both assert modes, also failures", "why_tests_cant": "arbitrary formulas, traces and real factors", "anchors": ["src/robust_semantics/classic_robustness.cc:compute_robustness", "src/robust_semantics/minmax.cc", "src/core/signal.cc:synchronize"]}
{"id": "C85", "title": "What lies before a common sample time does not matter after it", "statement": "If every signal the formula mentions has a sample at t, evaluating the trace cut off before t gives exactly the part from t on of the result for the whole trace, sample by sample; hence two traces that agree from t on give results that agree from t on.", "quantifier": "all constant-free formulas (Until and all temporal operators included) without empty And/Or, all double traces with well-formed signals, all finite times at which every mentioned signal has a sample", "why_tests_cant": "quantifies over arbitrary formulas and arbitrary pasts of the trace", "anchors": ["src/robust_semantics/classic_robustness.cc:compute_robustness", "src/robust_semantics/minmax.cc", "src/core/signal.cc:synchronize"]}
{"id": "C86", "title": "Not, And and Or are computed pointwise, so the laws of propositional logic hold", "statement": "At every time the value returned for Not, And and Or is minus, the least of and the greatest of the values returned for the operands, whatever these are; hence the two sides of double negation, singletons, commutativity, associativity, idempotence, distributivity, De Morgan and absorption are given the same value wherever both are defined (exact arithmetic).", "quantifier": "all operands (temporal ones included), any number of them, all traces of signals with a common start, all times", "why_tests_cant": "equality of functions at uncountably many times, for arbitrary operands", "anchors": ["src/robust_semantics/classic_robustness.cc:operator()(const ast::AndPtr)", "src/robust_semantics/classic_robustness.cc:operator()(const ast::OrPtr)", "src/robust_semantics/minmax.cc:compute_minmax_pair"]}
{"id": "C87", "title": "Rewriting a subformula by a law of propositional logic does not change the value", "statement": "Replacing a subformula anywhere by the other side of such a law (C86) leaves the returned value unchanged. False under a temporal operator after the first time, where even the order of three operands of And matters; true at the first time for the formulas of C72.", "quantifier": "all formulas and positions of the subformula", "why_tests_cant": "arbitrary contexts, all times", "anchors": ["src/robust_semantics/classic_robustness.cc:compute_robustness", "src/robust_semantics/minmax.cc:compute_minmax_pair"]}
{"id": "C88", "title": "The result depends on the functions the signals describe, not on where they are sampled", "statement": "Two traces that describe the same piecewise-linear functions by different samples give the same value. False under a temporal operator after the first time; true at every time for formulas without temporal operators and at the first time for the formulas of C72.", "quantifier": "all formulas, all pairs of traces describing the same functions", "why_tests_cant": "arbitrary resamplings of arbitrary traces, all times", "anchors": ["src/robust_semantics/classic_robustness.cc:compute_robustness", "src/robust_semantics/minmax.cc:compute_minmax_pair"]}
{"id": "C89", "title": "The number of samples of a result is bounded", "statement": "The robustness signal of a formula has at most size(formula) samples: a predicate as many as its signal, a constant two, negation and the temporal operators as many as the operand, until at most max(1, a+b-2) for operands with a and b samples, and an And or Or adds its operands one by one, each time at most doubling the merged samples (at most 2*max(1, a+b-2)-1). The bound grows by a factor of at most two with each And/Or operand and is attained for two operands.", "quantifier": "for all formulas, traces of nonempty well-formed binary64 signals and build modes, whenever a result is returned", "why_tests_cant": "Tests look at results for a few traces; that no formula and no placement of the samples can make the result larger than the recursive bound (for example by recording a crossing twice) is a statement about all of them.", "anchors": ["src/robust_semantics/minmax.cc:compute_minmax_pair", "src/robust_semantics/classic_robustness.cc:compute_robustness", "src/core/signal.cc:synchronize"]}
{"id": "C90", "title": "Sample times of the signals are kept and, without And/Or, none is invented", "statement": "The time range of a result lies in the range of every signal the formula mentions, and each sample time of such a signal in the range of the result is a sample time of the result. For formulas without constants, And and Or, conversely, every sample time of the result is a sample time of a mentioned signal (And and Or add crossings).", "quantifier": "for all formulas, traces of nonempty well-formed binary64 signals with unique names and build modes, whenever a result is returned", "why_tests_cant": "A lost sample only shows for traces whose samples interleave in a particular way; the claim is about every interleaving through every nesting of operators.", "anchors": ["src/robust_semantics/minmax.cc:compute_minmax_pair", "src/robust_semantics/classic_robustness.cc:compute_until", "src/core/signal.cc:synchronize"]}
{"id": "C91", "title": "Sample values are correctly rounded", "statement": "At a sample time shared by all the signals, the double computed for a formula built from predicates with Not, And and Or is the double nearest to the value the formula has in the real numbers (infinite exactly when that rounds out of range), so its relative error is at most 2^-53 however deep the formula is. The same holds at every sample for formulas built from one predicate with Not, Always and Eventually: the double is the correct rounding of the least or greatest of the exact values at the samples from there on.", "quantifier": "for all such formulas with finite constants, all traces with finite values and all build modes, whenever a result is returned (propositional) or unconditionally (temporal); intervals read as unbounded, as the code does (C38)", "why_tests_cant": "Tests compare doubles with a tolerance on a few values; that rounding happens only once per predicate and commutes with negation, minimum and maximum, so that no nesting can accumulate error, is a statement about all doubles and formulas.", "anchors": ["src/robust_semantics/classic_robustness.cc:compute_robustness", "src/robust_semantics/minmax.cc:compute_minmax_pair"]}
{"id": "C92", "title": "Interpolated values are accurate to a few units in the last place", "statement": "Between two consecutive samples of a well-formed signal whose values are at most V in magnitude, the interpolated double is finite and differs from the straight line through the samples by at most 2^-49*V (plus a term below the least positive double times the distance of the samples). Hence every value synchronize inserts, and every value of the elementwise minimum and maximum at the merged sample times, is within that distance of the true piecewise-linear functions, however large the timestamps are.", "quantifier": "for all well-formed binary64 signals with finite samples, times and slopes at most 2^1000, and all times between two samples", "why_tests_cant": "Six rounded operations are involved, two of them subtractions that may cancel; tests compare with a tolerance at a few points and cannot show that no timestamps and values make the errors accumulate.", "anchors": ["src/include/signal_tl/signal.hpp:interpolate", "src/core/signal.cc:synchronize", "src/robust_semantics/minmax.cc:compute_minmax_pair"]}
{"id": "C93", "title": "Double arithmetic does not change the verdict", "statement": "The sign of the robustness computed in doubles is the sign of the true robustness, also where the exact algorithm is right: positive only for satisfied formulas, and with small relative error.", "quantifier": "for all formulas for which the exact algorithm is correct at the begin time, and all traces with moderate finite values", "why_tests_cant": "Whether rounding can flip a verdict depends on rare combinations of timestamps and values; the tests use timestamps of a few seconds, where the cancellation in time_intersect does not show.", "anchors": ["src/include/signal_tl/signal.hpp:time_intersect", "src/robust_semantics/minmax.cc:compute_minmax_pair", "src/robust_semantics/classic_robustness.cc:compute_robustness"]}
{"id": "C94", "title": "A printed formula is read as the formula it was made from", "statement": "The text of a formula built from constants and predicates with Not, And and Or (of at least two operands) can be read in the usual way - \"true\", \"false\", (name > c) and the other comparisons, ~w, (v & w), (v | w) - and every such reading is equivalent to the formula.", "quantifier": "for all such formulas whose names contain no space, opening parenthesis, opening bracket or tilde, and for every printing of doubles that is injective and without commas and closing parentheses", "why_tests_cant": "Formatting tests compare a few strings; that no formula prints to a text with another reading, and that comparison signs and connectives stand for the right operations throughout, concerns all formulas.", "anchors": ["src/include/signal_tl/fmt.hpp:format"]}
{"id": "C95", "title": "Operators and derived connectives have the robustness their definition promises", "statement": "If the code gives x the value a and y the value b at time t, then ~x and Not(x) have -a, x & y has min(a,b), x | y has max(a,b), Implies(x,y) has max(-a,b), Xor(x,y) has min(max(a,b), max(-a,-b)) and Iff(x,y) has max(min(a,b), min(-a,-b)), and none of these calls throws, also when they flatten nested And/Or nodes.", "quantifier": "for all constant-free formulas evaluable on the trace (temporal operators included), all traces of finite signals starting together, all times; exact arithmetic", "why_tests_cant": "Ranges over all formulas, signals and times, including every case of the flattening in operator& and operator|.", "anchors": ["src/core/ast.cc", "src/robust_semantics/classic_robustness.cc:compute_robustness"]}
{"id": "C96", "title": "Definitions may be written out", "statement": "Writing the body of a definition in place of the references to it in later commands does not change the result of parsing: the same specification or the same exception.", "quantifier": "for all specifications, all definitions in them and all texts (layouts, comments) of the two specifications, with and without assertions; for every conversion of decimal literals", "why_tests_cant": "Ranges over all specifications and all their layouts, including ill-formed ones.", "anchors": ["src/parser/actions.hpp", "src/parser/parser.cc:from_string"]}
{"id": "C97", "title": "Simplifying twice is simplifying once", "statement": "simplify() applied to the result of simplify() returns that result unchanged, derivatives included.", "quantifier": "every well-formed binary64 signal, whatever its values (NaN and infinities included)", "why_tests_cant": "Ranges over all signals and all rounding effects of the slopes that are compared with 0.", "anchors": ["src/core/signal.cc:Signal::simplify"]}
{"id": "C98", "title": "resize_shift is resize followed by shift", "statement": "resize_shift(start,end,fill,dt) returns what shift(dt) returns on the result of resize(start,end,fill), and throws the same exception when resize throws; resize either returns or throws std::invalid_argument.", "quantifier": "every binary64 signal (well-formed or not), every window, fill value and offset, NaN and infinities included", "why_tests_cant": "Ranges over all signals and windows, including those on which resize throws half-way.", "anchors": ["src/core/signal.cc:Signal::resize_shift", "src/core/signal.cc:Signal::shift"]}
{"id": "C99", "title": "Empty signals are not read", "statement": "Evaluating a formula over a trace in which a signal is empty returns a signal or throws an exception; nothing outside a signal is read.", "quantifier": "all formulas, all traces of well-formed signals, empty ones included, with every name of the formula present", "why_tests_cant": "Absence of undefined behaviour over all formulas.", "anchors": ["src/robust_semantics/classic_robustness.cc:compute_robustness", "src/robust_semantics/minmax.cc:compute_minmax_seq", "src/core/signal.cc:synchronize"]}
{"id": "C100", "title": "Error messages of the parser", "statement": "The message of a parse_error is that of a grammar rule, 'expected at least 2 terms, got 1', or the redefinition message with the kind and an identifier; and each of these messages is reported for some text.", "quantifier": "all texts, all messages, with and without assertions", "why_tests_cant": "Ranges over all texts; a test sees one message at a time.", "anchors": ["src/parser/error_messages.hpp:error_message", "src/parser/parser.cc:from_string"]}
{"id": "C101", "title": "Unclosed commands are named as such", "statement": "A text that ends before the closing parenthesis of a command is rejected with the message written for unclosed commands.", "quantifier": "all specifications whose last command is not closed, all layouts", "why_tests_cant": "Ranges over specifications and texts.", "anchors": ["src/parser/error_messages.hpp:AnyCommandTail", "src/parser/grammar.hpp:Command"]}
{"id": "C102", "title": "What is not a command is reported as such", "statement": "After a valid specification, a token that does not open a command, an unknown command, a command without a name and a command without a term are each rejected with the message for it.", "quantifier": "all valid specifications, all token sequences of these forms, all layouts, with and without assertions", "why_tests_cant": "Ranges over specifications and what follows them.", "anchors": ["src/parser/grammar.hpp:AnyCommand", "src/parser/grammar.hpp:StatementList", "src/parser/error_messages.hpp:error_message"]}
{"id": "C103", "title": "The first error is reported", "statement": "If evaluating a sequence of complete commands raises an exception, then parsing raises this exception whatever tokens follow.", "quantifier": "all command sequences, all following tokens, all layouts", "why_tests_cant": "Ranges over texts and their continuations.", "anchors": ["src/parser/parser.cc:from_string", "src/parser/grammar.hpp:StatementList"]}
{"id": "C104", "title": "What is reported inside a term", "statement": "If the term of a command after a valid specification is malformed, the message reported depends on where the first token that does not fit stands: in a predicate, the predicate form; at the first operand of an operator, or the second of implies, iff, xor and until, the operand list or term the operator expects; after the only operand of and/or, that there is only one; after the operands of a complete expression or right after the parenthesis, the missing closing parenthesis.  An error in an operand is reported as it is, without being replaced by a message of the operator around it.", "quantifier": "all valid specifications, all nestings of operators and complete operands before the error, whatever follows it, all layouts, with and without assertions", "why_tests_cant": "Ranges over nested terms of any depth and over continuations.", "anchors": ["src/parser/grammar.hpp:Term", "src/parser/grammar.hpp:Expression", "src/parser/error_messages.hpp:error_message"]}
{"id": "C105", "title": "From specification text to verdict", "statement": "For every text of a specification that is accepted and every asserted term that, with the definitions before it written out, has only predicates as leaves, evaluating the parsed assertion under its name on a trace that has the named signals, all starting together, succeeds; the result is defined exactly when all signals the term names are; and its first value has the sign of the satisfaction of the written term at that time: positive only if the term holds, negative only if it does not. This holds for both signs where operators nest in the same direction (monitorable) and for one sign where that sign may be trusted (trusted_first). A value further than d from zero decides the term for every trace at most d away.", "quantifier": "all specifications and layouts, all nestings of not, and, or, implies, iff, xor, always, eventually and until, all definitions, all piecewise-linear traces with a common start, with and without assertions, in exact arithmetic", "why_tests_cant": "Relates the text of a specification to satisfaction over continuous time for every trace; a test checks one text on one sampled trace.", "anchors": ["src/parser/parser.cc:from_string", "src/parser/actions.hpp:action<Term>", "src/core/ast.cc:Implies", "src/robust_semantics/classic_robustness.cc:compute_robustness"]}
{"id": "C106", "title": "Order and choice of commands", "statement": "If a specification is accepted, then any selection of its commands, in any order that defines every name before it is used and repeats no name, is accepted as well, and every definition and assertion of the selection is the same formula as in the whole specification; nothing else is defined.", "quantifier": "all accepted specifications, all selections and orders of their commands, all layouts, with and without assertions", "why_tests_cant": "The number of orders grows with the factorial of the number of commands and the claim is for every specification.", "anchors": ["src/parser/parser.cc:from_string", "src/parser/actions.hpp:action<Term>"]}
{"id": "C107", "title": "Whatever parses can be evaluated", "statement": "For every text that from_string accepts, evaluating any formula it defines or asserts on a non-empty trace of well-formed signals with finite times and a common start either returns a well-formed signal starting at that time, or throws invalid_argument, or throws out_of_range with a name of the formula missing from the trace; no failed assertion, undefined behaviour, endless loop or other exception.", "quantifier": "all texts, all readings of decimal literals, all traces as above, with and without assertions and synchronisation, in binary64", "why_tests_cant": "Ranges over all texts and all traces of doubles; undefined behaviour need not show up in a run.", "anchors": ["src/parser/parser.cc:from_string", "src/robust_semantics/classic_robustness.cc:compute_robustness"]}
{"id": "C108", "title": "A constant decides And and Or", "statement": "And with the constant false is nowhere positive, Or with the constant true is nowhere negative.", "quantifier": "all formulas and traces", "why_tests_cant": "ranges over all formulas and traces; single-sample and two-sample traces hide the failure", "anchors": ["src/robust_semantics/classic_robustness.cc:RobustnessOp::operator()(const ast::Const)", "src/robust_semantics/minmax.cc:compute_minmax_pair"]}
{"id": "C109", "title": "Verdicts at common samples are right in double arithmetic", "statement": "On a trace of finite doubles, let a formula be a Boolean combination of formulas that apply negation, Always and Eventually to one predicate. If evaluation returns a result, then at every time at which all its signals have a sample the computed value is the correctly rounded robustness of the real-number semantics: a positive value means the formula holds there, a negative one that it does not. The same for an assertion as written in the text of a specification, definitions written out.", "quantifier": "all such formulas, texts and traces of doubles, all common sample times; intervals read as unbounded, as the code does (C38)", "why_tests_cant": "Ranges over all texts and all traces of doubles, and claims correct rounding of every value; a reference for the comparison needs exact real arithmetic.", "anchors": ["src/robust_semantics/classic_robustness.cc:compute_robustness", "src/robust_semantics/minmax.cc:compute_minmax_pair", "src/parser/parser.cc:from_string"]}
{"id": "C110", "title": "Numerals denote the nearest double", "statement": "A numeral in a predicate is read as the double nearest to the number it writes in decimal notation (ties to even); numbers that overflow, and integers of 2^63 and above, are rejected with out_of_range. Every constant in a parsed formula is the double nearest to the number some numeral writes.", "quantifier": "all texts, all numerals (digits, fraction, exponent), every correctly rounding std::stod, with and without assertions", "why_tests_cant": "Ranges over all digit sequences, where correct rounding fails only at rare hard cases.", "anchors": ["src/parser/actions.hpp:action<DoubleLiteral>", "src/parser/actions.hpp:action<IntegerLiteral>", "src/parser/grammar.hpp:DoubleLiteral", "src/parser/parser.cc:from_string"]}
{"id": "C111", "title": "The way a number is written does not matter", "statement": "Two specifications that differ only in the way their numbers are written (1500, 1500.0, 1.5e3) parse to the same formulas, or are both rejected with the same exception.", "quantifier": "all specifications and all ways to write their numbers, every correctly rounding std::stod", "why_tests_cant": "Ranges over all pairs of texts; the exception needs an integer beyond the range of a long.", "anchors": ["src/parser/actions.hpp:action<DoubleLiteral>", "src/parser/actions.hpp:action<IntegerLiteral>", "src/parser/parser.cc:from_string"]}
{"id": "C112", "title": "Thresholds of either sign can be written", "statement": "For every predicate with a finite constant of either sign some text of a specification defines a formula that contains it.", "quantifier": "all predicates", "why_tests_cant": "That no text yields a negative constant is a statement about all texts.", "anchors": ["src/parser/grammar.hpp:DoubleLiteral", "src/parser/grammar.hpp:IntegerLiteral", "src/parser/parser.cc:from_string"]}
{"id": "C113", "title": "Printed form", "statement": "A sample prints as (time, value), a signal as the bracketed list of its samples; a formula prints in infix notation: ~e, (e & e'), (e | e'), (x > c), and G, F, U followed by the interval as [a,b], or [a, inf) or nothing if it is unbounded, then the argument.", "quantifier": "all formulas built through the construction API, all signals, all printings of doubles", "why_tests_cant": "ranges over all formulas", "anchors": ["src/include/signal_tl/fmt.hpp:formatter<Always>", "src/include/signal_tl/fmt.hpp:formatter<Eventually>", "src/include/signal_tl/fmt.hpp:formatter<Signal>"]}
{"id": "C114", "title": "Duality in double arithmetic", "statement": "In double arithmetic, not F[a,b] e and G[a,b] not e are given identical signals or fail identically, and so are not G[a,b] e and F[a,b] not e; not (e1 and ... and en) and (not e1 or ... or not en), and the dual pair, are given the same signal up to the sign of zeros, or fail identically.", "quantifier": "all formulas e, e1..en, n >= 1, all intervals a constructor can make, all traces of well-formed non-empty binary64 signals, both assert modes", "why_tests_cant": "the two sides differ only when two signals cross between samples while their rounded slopes coincide", "anchors": ["src/robust_semantics/minmax.cc:compute_minmax_pair", "src/robust_semantics/minmax.cc:compute_minmax_seq", "src/robust_semantics/classic_robustness.cc:RobustnessOp::operator()(const ast::NotPtr&)"]}
{"id": "C115", "title": "Always over conjunctions and Eventually over disjunctions are accurate in doubles on uniformly sampled traces", "statement": "Let all signals of a trace of doubles be sampled at the same times, with values of magnitude at most V. For Boolean combinations of predicates, of Always applied to a conjunction and of Eventually applied to a disjunction (Not exchanging the two; the members of the conjunction or disjunction being predicates below Not, Always and Eventually), a result, if one is returned, has a value at every sample time that differs from the robustness in the real-number semantics by at most about 2^-46 V per predicate, and a value beyond that margin decides satisfaction, although crossing points are computed badly. Moreover a positive value of Always over a conjunction, however small, implies that it holds at that time, and a negative value of Eventually over a disjunction that it does not.", "quantifier": "all such formulas, all uniformly sampled traces of doubles with finite moderate values and gaps between samples that are not absurdly small (6 V <= 2^1000 times the gap), all sample times; intervals read as unbounded, as the code does (C38)", "why_tests_cant": "Eventually over a conjunction is wrong by an amount of the order of the values themselves (C93) for some timestamps; that Always over a conjunction never is, for no timestamps and values whatever, cannot be seen from samples of the input space.", "anchors": ["src/robust_semantics/minmax.cc:compute_minmax_pair", "src/include/signal_tl/signal.hpp:time_intersect", "src/robust_semantics/classic_robustness.cc:compute_robustness"]}
{"id": "C116", "title": "Evaluation does not fail on the timestamps it computes itself", "statement": "compute_robustness returns for every formula over predicates on a trace of well-formed finite signals that share their sample times and include every signal of the formula (the repository's test_append_error.cc checks this for one formula on three traces).", "quantifier": "all traces whose signals share their sample times, all finite binary64 values, with and without assertions", "why_tests_cant": "It fails only if rounding moves a computed crossing just past the next sample, which depends on the last bits of values and times and on the order of the operands; the repository's three traces happen to avoid it, and signals that meet at a sample hit it in a large fraction of cases.", "anchors": ["src/robust_semantics/minmax.cc:compute_minmax_pair", "src/include/signal_tl/signal.hpp:time_intersect", "tests/test_append_error.cc:REQUIRE_NOTHROW"]}
{"id": "C117", "title": "And and Or on whole numbers at unit steps return and are accurate", "statement": "On a trace whose values are whole numbers, sampled at consecutive whole-number times common to all signals, And and Or of predicates with whole-number constants (also below Always or Eventually) are evaluated without an exception, and the result differs from the exact robustness by no more than a small multiple of the rounding unit times the magnitudes of values and times.", "quantifier": "all such traces with values of magnitude at most V and times of magnitude at most S, 2 V S <= 2^50; all numbers of operands; all times; intervals read as unbounded, as the code does (C38)", "why_tests_cant": "Whole-number samples are what most tests use, so a suite of them gives the impression that the operators never fail; whether they do depends on how the crossing of two or more signals is rounded, and the error bound is about all values and all times between samples.", "anchors": ["src/robust_semantics/minmax.cc:compute_minmax_pair", "src/include/signal_tl/signal.hpp:time_intersect", "src/robust_semantics/classic_robustness.cc:compute_robustness"]}
{"id": "C118", "title": "A returned And or Or of two operands is accurate when samples are spaced", "statement": "On a trace whose signals are sampled at the same times, no two of them closer than H, And and Or of two operands either throw or return a signal that at every time is within 2^-44 V S / H of the exact minimum or maximum of the operands; for two predicates or negated predicates it is within 2^-41 V S / H of the exact robustness, also below Always or Eventually, where a value beyond the error decides satisfaction.", "quantifier": "all well-formed double traces with values of magnitude at most V and times of magnitude at most S, for all V, S, H within 2^-300 .. 2^298 (300 for S); all operands built from predicates by Not, Always and Eventually; all times in the common range, between samples as well; intervals read as unbounded, as the code does (C38)", "why_tests_cant": "The crossing of two nearly parallel segments is computed with an unbounded relative error and can land anywhere in the step; that the stored value is nevertheless close to both segments is an argument about all roundings, which no finite set of samples covers.", "anchors": ["src/robust_semantics/minmax.cc:compute_minmax_pair", "src/include/signal_tl/signal.hpp:time_intersect", "src/robust_semantics/classic_robustness.cc:compute_robustness"]}
{"id": "C119", "title": "A returned And or Or of two operands sampled at different times is accurate", "statement": "For two operands sampled at any times, each with no two of its own samples closer than H, And and Or either throw or return a signal that at every common time is within 2^-42 V S / H of the exact minimum or maximum of the operands; for two predicates or negated predicates it is within 2^-39 V S / H of the exact robustness, and, if the signals begin together, also below Always or Eventually, where a value beyond the error decides satisfaction.", "quantifier": "all well-formed double signals with values of magnitude at most V and times of magnitude at most S, for all V in 2^-300 .. 2^296, H in 2^-200 .. S, S up to 2^300; the sample times of different operands may be arbitrarily close together and their ranges may differ; all operands built from predicates by Not, Always and Eventually; all times in the common range; intervals read as unbounded, as the code does (C38)", "why_tests_cant": "Aligning the operands creates samples at the union of their times, so two samples of the aligned signals can be one rounding unit apart, where slopes computed from stored values are meaningless; that the result is still close between them is an argument over all positions of the times.", "anchors": ["src/robust_semantics/minmax.cc:compute_minmax_pair", "src/include/signal_tl/signal.hpp:time_intersect", "src/robust_semantics/classic_robustness.cc:compute_robustness", "src/include/signal_tl/signal.hpp:synchronize"]}
{"id": "C120", "title": "A returned And or Or of many operands is accurate, the error growing tenfold per operand", "statement": "For operands sampled at the same times, no two closer than H, And and Or of n operands either throw or return a signal that at every time is within 2^-42 10^(n-1) V S / H of the least or greatest value of the operands, provided this is at most V; formulas of n predicates with Not, And and Or in which all operands of an And or Or but the first are predicates or negated predicates are within 8 times that of the exact robustness, also below Always or Eventually, where a value beyond the error decides satisfaction.", "quantifier": "all n and all well-formed double traces with values of magnitude at most V and times of magnitude at most S, for all V in 2^-300 .. 2^296, H in 2^-200 .. S, S up to 2^300; all times in the common range, between samples as well; intervals read as unbounded, as the code does (C38)", "why_tests_cant": "Each operand adds samples at rounded crossings, and the next operand is interpolated there; how the errors accumulate over all lengths of the operand list and all positions of the crossings is an inductive argument.", "anchors": ["src/robust_semantics/minmax.cc:compute_minmax_pair", "src/include/signal_tl/signal.hpp:time_intersect", "src/robust_semantics/classic_robustness.cc:compute_robustness"]}
{"id": "C121", "title": "And and Or of any number of operands in general position return", "statement": "For operands sampled at the same times, no two closer than H, let e be 2^-42 10^(n-1) V S / H for n operands. If no two of them are closer than e at a sample time, and no two different pairs are closer than e at the same time (three operands never nearly meet), then And and Or of them return instead of throwing. For predicates and negated predicates the same follows from their exact robustness with 8 e in place of e, also below Always or Eventually, and the result is then within 8 e of the exact robustness.", "quantifier": "all n with e at most V, and all well-formed double traces with values of magnitude at most V and times of magnitude at most S, for all V in 2^-300 .. 2^296, H in 2^-200 .. S, S up to 2^300; intervals read as unbounded, as the code does (C38)", "why_tests_cant": "A crossing rounded onto or past the end of its step makes the evaluation throw; whether that can happen depends on rounding at every crossing of every pair, over all lengths of the operand list.", "anchors": ["src/robust_semantics/minmax.cc:compute_minmax_pair", "src/include/signal_tl/signal.hpp:time_intersect", "src/include/signal_tl/signal.hpp:push_back", "src/robust_semantics/classic_robustness.cc:compute_robustness"]}
{"id": "C122", "title": "And, Or and Not nested in any way, on signals sampled at different times, are accurate where they return", "statement": "For a formula of n predicates under Not, And and Or nested in any way, and signals sampled at times that may differ from signal to signal, compute_robustness either throws or returns a signal that at every time at which the exact robustness exists is within 8 2^-42 10^(n-1) V S / H of it, provided an eighth of this is at most V and no two samples of an intermediate result are closer than 2^-252; the latter holds whenever all sample times are at least 2^-200. Below Always or Eventually, on signals that begin together, the samples have the same accuracy and a value beyond the error decides satisfaction.", "quantifier": "all formulas of the class and all well-formed double traces with values of magnitude at most V, times of magnitude at most S and no two sample times of one signal closer than H, for all V in 2^-300 .. 2^296, H in 2^-200 .. S, S up to 2^300; all times, between samples as well; intervals read as unbounded, as the code does (C38)", "why_tests_cant": "Two composed operands each carry samples at rounded crossings, which may be arbitrarily close to each other and to the samples of the signals; how the errors accumulate over all shapes of the formula and all positions of the crossings is an inductive argument.", "anchors": ["src/robust_semantics/minmax.cc:compute_minmax_pair", "src/include/signal_tl/signal.hpp:time_intersect", "src/robust_semantics/classic_robustness.cc:compute_robustness"]}
{"id": "C123", "title": "And, Or and Not nested in any way, on signals sampled at different times, return if the predicates are in general position", "statement": "Take a formula of n predicates under Not, And and Or nested in any way, and signals that begin together and may be sampled at different times. Let e be 2^-42 10^(n-1) V S / H, at most V. If the exact robustness of no two predicates, negated as the formula negates them, is closer than 8 e at a sample time of a signal, and no two different pairs are closer than 8 e at the same time, and no two samples of an intermediate result are closer than 2^-252 (always so if all sample times are at least 2^-200), then compute_robustness returns instead of throwing, and the result is within 8 e of the exact robustness wherever that exists. The same holds below Always or Eventually at the samples, where a value beyond 8 e decides satisfaction.", "quantifier": "all formulas of the class and all well-formed double traces with values of magnitude at most V, times of magnitude at most S and no two sample times of one signal closer than H, for all V in 2^-300 .. 2^296, H in 2^-200 .. S, S up to 2^300; intervals read as unbounded, as the code does (C38)", "why_tests_cant": "Every And and Or of the formula could throw at every crossing of its operands, whose position depends on the rounding of all crossings below; that none does for any shape of the formula needs an invariant of the computed signals.", "anchors": ["src/robust_semantics/minmax.cc:compute_minmax_pair", "src/include/signal_tl/signal.hpp:time_intersect", "src/include/signal_tl/signal.hpp:push_back", "src/include/signal_tl/signal.hpp:synchronize", "src/robust_semantics/classic_robustness.cc:compute_robustness"]}
{"id": "C124", "title": "General position of the predicates alone keeps the samples of all intermediate results apart", "statement": "In C123 the condition on intermediate results can be replaced by one on the trace: any two sample times of its signals are equal or at least 2^-252 apart (which is so if every sample time is zero or at least 2^-200 in magnitude). Then the samples of every intermediate result are that far apart as well, and compute_robustness returns a result within 8 e of the exact robustness, with no hypothesis about the run.", "quantifier": "as in C123: all formulas of predicates under Not, And and Or, also below Always or Eventually, and all double traces of that class; intervals read as unbounded, as the code does (C38)", "why_tests_cant": "Crossings of different pairs are stored at rounded times; that no two of them, over all levels of the formula, come closer than a fixed distance follows from the bounded slope of the predicates and needs a proof over all positions.", "anchors": ["src/robust_semantics/minmax.cc:compute_minmax_pair", "src/include/signal_tl/signal.hpp:time_intersect", "src/include/signal_tl/signal.hpp:interpolate", "src/robust_semantics/classic_robustness.cc:compute_robustness"]}
{"id": "C125", "title": "From the text of a nested Boolean specification to its verdict in double arithmetic", "statement": "For every accepted specification text and every assertion of it that, with the definitions before it written out, combines predicates by not, and, or, implies, iff and xor, possibly below one outermost always or eventually: on a trace of doubles of the class of C124 that has the named signals, and with the predicates of the parsed formula in general position, evaluating the parsed assertion returns. A value above 8 e (the error bound of C124) means that the term as written holds there in the real-number semantics, a value below -8 e that it does not: at every time at which the signals are defined for a Boolean term, at every sample of the result for always and eventually.", "quantifier": "all specifications and layouts, all such assertions, all double traces of the class of C124, with and without assertions compiled in", "why_tests_cant": "Ranges over all texts, all numbers and all traces of doubles at all real times; the reference semantics is over the reals.", "anchors": ["src/parser/parser.cc:from_string", "src/parser/actions.hpp:action<Assertion>", "src/robust_semantics/classic_robustness.cc:compute_robustness", "src/robust_semantics/minmax.cc:compute_minmax_pair"]}
{"id": "C126", "title": "A robustness value in double arithmetic decides the formula for every trace near the measured one", "statement": "On a trace of doubles of the class of C124, with the predicates of a formula of And, Or and Not in general position: a value above 8 e + d (8 e the error bound of C124) means that every trace of real numbers whose signals are defined at the same times and differ from the measured ones by at most d satisfies the formula there, a value below -(8 e + d) that none does. This holds at every time for the formula itself, and at every sample of the result for the formula below Always or Eventually. Two traces of doubles of this class at most d apart, sampled at the same or different times, give results at most d + 16 e apart.", "quantifier": "all formulas of predicates under Not, And and Or, also below Always or Eventually, all double traces of the class of C124, all real d, all traces of real numbers near the measured one however they are sampled, all times; intervals read as unbounded, as the code does (C38)", "why_tests_cant": "Speaks of the continuum of traces near the measured one and of all real times; rounding errors and measurement errors are bounded together.", "anchors": ["src/robust_semantics/classic_robustness.cc:compute_robustness", "src/robust_semantics/minmax.cc:compute_minmax_pair", "src/include/signal_tl/signal.hpp:time_intersect", "src/include/signal_tl/signal.hpp:interpolate"]}
{"id": "C127", "title": "From the text of a nested Boolean specification to a verdict for every trace near the measured one", "statement": "For every accepted specification text and every assertion of it of the class of C125, on a trace of doubles meeting the conditions of C125: evaluating the parsed assertion returns. A value above 8 e + d (8 e the error bound of C124) means that the term as written holds there on every trace of real numbers whose signals are defined at the same times and differ from the measured ones by at most d, a value below -(8 e + d) that it holds on none of them: at every time at which the signals are defined for a Boolean term, at every sample of the result for always and eventually.", "quantifier": "all specifications and layouts, all such assertions, all double traces of the class of C124, all real d, all traces of real numbers near the measured one however they are sampled, with and without assertions compiled in", "why_tests_cant": "It speaks of all texts, all measured traces and, for each, infinitely many real traces near it that were never measured.", "anchors": ["src/parser/parser.cc:from_string", "src/parser/actions.hpp:action<Assertion>", "src/robust_semantics/classic_robustness.cc:compute_robustness", "src/robust_semantics/minmax.cc:compute_minmax_pair", "src/include/signal_tl/signal.hpp:time_intersect", "src/include/signal_tl/signal.hpp:interpolate"]}
{"id": "C128", "title": "The sign of until over the samples in double arithmetic", "statement": "For two operands built from predicates with finite constants by Not, Always and Eventually, whose signals are sampled at the same times, until always returns, with a value at each of these times. A negative value means that until, read over the samples of the two signals, is false there. If the value of the right operand at the last sample is positive, a positive value means that it is true there.", "quantifier": "all such operands, all double traces of well-formed non-empty signals with finite times and values of any magnitude, all samples; whatever the intervals of the operators, which the code ignores (C38); with and without assertions compiled in", "why_tests_cant": "It covers every double value including those where the subtraction in a predicate rounds or overflows, and traces of every length.", "anchors": ["src/robust_semantics/classic_robustness.cc:compute_until", "src/robust_semantics/classic_robustness.cc:compute_robustness", "src/core/signal.cc:synchronize"]}
{"id": "C129", "title": "Until reports a right operand that is never reached as success", "statement": "Wherever the right operand of until is negative at a sample and at all later samples, the code's value of until there is positive, although until is false; where the right operand is nowhere positive from there on, the value is not negative; and at the last sample until is never negative. In particular, if the right operand (built from predicates by Not, Always and Eventually over a signal sampled at the same times as the left one's) holds at no sample from some sample on, the code never reports until as violated there.", "quantifier": "first sentence: all operand formulas, all double traces of well-formed non-empty signals on which the operands evaluate to signals without NaN that synchronize, all samples of the synchronized operands; second sentence: all such operands with finite constants, all double traces of well-formed non-empty signals with finite times and values, with nothing assumed of the run; intervals read as unbounded, as the code does (C38); with and without assertions compiled in", "why_tests_cant": "A test shows the wrong sign on one trace; that it is wrong for every pair of operands and every length of trace is a statement about the recursion of compute_until.", "anchors": ["src/robust_semantics/classic_robustness.cc:compute_until", "src/robust_semantics/classic_robustness.cc:compute_robustness", "src/core/signal.cc:synchronize"]}
