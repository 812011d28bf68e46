(** And, Or and Not nested in any way, in double arithmetic, from the text of a specification to the verdict. *)
From Coq Require Import Ascii Reals.
From Flocq Require Import Core.Core IEEE754.BinarySingleNaN.
From Verif Require Import Base Num NumXR NumB64.
From Verif.Model Require Import Signal Ast Robustness Peg Parser.
From Verif.Spec Require Import SignalSpec Pwl Formula Semantics Accuracy Uniform Whole Apart Spaced Many General Tree AstSpec Text Syntax Monitor.
From Verif.Proofs Require Import ParserExamples GeneralExamples TreePositionExamples TreeText TreeTextExamples.
Local Open Scope R_scope.

(** ** C125.  [u] is the asserted term with the definitions written out, [e] (below: [f]) the formula the parser
    builds for it; the conditions on [e] and the trace are those of C124. *)
Theorem C125_boolean : forall (stod : list ascii -> option B64), (forall w v, stod w = Some v -> finite v = true) ->
  forall dbg fuel cs txt g (tr : trace B64) s x u V S H,
  all_leaves ref_ok cs = true -> spec_text cs txt -> from_string dbg stod txt = Ok g -> In (x, u) (asserted [] cs) -> leaves is_pred u = true -> timeless u = true ->
  spread_trace V S H tr -> same_begin tr -> times_apart tr -> moderate V S H -> (forall n, In n (signals u) -> exists y, has_signal tr n y) ->
  exists e, lookup (assertions g) x = Some e /\
    (constants_within V e -> error_of (length (names e)) V S H <= V -> general_formulas (8 * error_of (length (names e)) V S H) tr (signed_predicates false e) ->
     exists z, compute_robustness dbg fuel e tr s = Ok z /\ forall t, defined (real_trace tr) u t -> exists v, pwl (reals z) t v /\
       (8 * error_of (length (names e)) V S H < v -> holds (double_literal stod) (real_trace tr) u t) /\
       (v < - (8 * error_of (length (names e)) V S H) -> ~ holds (double_literal stod) (real_trace tr) u t)).
Proof. exact C125_boolean_lemma. Qed.
Print Assumptions C125_boolean.

(** The term below always and eventually. *)
Theorem C125_always : forall (stod : list ascii -> option B64), (forall w v, stod w = Some v -> finite v = true) ->
  forall dbg fuel cs txt g (tr : trace B64) s x u V S H,
  all_leaves ref_ok cs = true -> spec_text cs txt -> from_string dbg stod txt = Ok g -> In (x, TAlways u) (asserted [] cs) -> leaves is_pred u = true -> timeless u = true ->
  spread_trace V S H tr -> same_begin tr -> times_apart tr -> moderate V S H -> (forall n, In n (signals u) -> exists y, has_signal tr n y) ->
  exists f, lookup (assertions g) x = Some (EAlways f interval_default) /\
    (constants_within V f -> error_of (length (names f)) V S H <= V -> general_formulas (8 * error_of (length (names f)) V S H) tr (signed_predicates false f) ->
     exists z, compute_robustness dbg fuel (EAlways f interval_default) tr s = Ok z /\ z <> [] /\ forall c, In c z -> finite (s_value c) = true /\
       (8 * error_of (length (names f)) V S H < B2R (s_value c) -> holds (double_literal stod) (real_trace tr) (TAlways u) (B2R (s_time c))) /\
       (B2R (s_value c) < - (8 * error_of (length (names f)) V S H) -> ~ holds (double_literal stod) (real_trace tr) (TAlways u) (B2R (s_time c)))).
Proof. exact C125_always_lemma. Qed.
Print Assumptions C125_always.

Theorem C125_eventually : forall (stod : list ascii -> option B64), (forall w v, stod w = Some v -> finite v = true) ->
  forall dbg fuel cs txt g (tr : trace B64) s x u V S H,
  all_leaves ref_ok cs = true -> spec_text cs txt -> from_string dbg stod txt = Ok g -> In (x, TEventually u) (asserted [] cs) -> leaves is_pred u = true -> timeless u = true ->
  spread_trace V S H tr -> same_begin tr -> times_apart tr -> moderate V S H -> (forall n, In n (signals u) -> exists y, has_signal tr n y) ->
  exists f, lookup (assertions g) x = Some (EEventually f interval_default) /\
    (constants_within V f -> error_of (length (names f)) V S H <= V -> general_formulas (8 * error_of (length (names f)) V S H) tr (signed_predicates false f) ->
     exists z, compute_robustness dbg fuel (EEventually f interval_default) tr s = Ok z /\ z <> [] /\ forall c, In c z -> finite (s_value c) = true /\
       (8 * error_of (length (names f)) V S H < B2R (s_value c) -> holds (double_literal stod) (real_trace tr) (TEventually u) (B2R (s_time c))) /\
       (B2R (s_value c) < - (8 * error_of (length (names f)) V S H) -> ~ holds (double_literal stod) (real_trace tr) (TEventually u) (B2R (s_time c)))).
Proof. exact C125_eventually_lemma. Qed.
Print Assumptions C125_eventually.

(** [c125_text]: (define-formula b (or (< y 1) (not (>= w 1)))) (define-formula f (or (> x 1) (not b)))
    (assert m f) (assert n (always f)) (assert o (eventually f)).  The trace [p_tr] and the formula [p_f] meet
    the other conditions with V = 4, S = 1, H = 1/4 ([C124_case]). *)
Example C125_case : (forall w v, no_double w = Some v -> finite v = true) /\ all_leaves ref_ok c125_cs = true /\ spec_text c125_cs c125_text /\
  In ("m"%string, c125_u) (asserted [] c125_cs) /\ In ("n"%string, TAlways c125_u) (asserted [] c125_cs) /\ In ("o"%string, TEventually c125_u) (asserted [] c125_cs) /\
  leaves is_pred c125_u = true /\ timeless c125_u = true /\ (forall n, In n (signals c125_u) -> exists y, has_signal p_tr n y) /\
  exists g, from_string true no_double c125_text = Ok g /\ lookup (assertions g) "m"%string = Some p_f /\ lookup (assertions g) "n"%string = Some (EAlways p_f interval_default) /\
    lookup (assertions g) "o"%string = Some (EEventually p_f interval_default) /\ constants_within 4 p_f.
Proof. exact C125_case_lemma. Qed.

(** iff and xor of y > 2 and w < 4 on [g_tr], with V = 4, S = 1, H = 1: y > 2 changes sign at 1/2. *)
Example C125_iff_case : all_leaves ref_ok iff_cs = true /\ spec_text iff_cs iff_text /\
  asserted [] iff_cs = [("k"%string, TIff iff_t iff_u); ("l"%string, TXor iff_t iff_u)] /\ leaves is_pred (TIff iff_t iff_u) = true /\ timeless (TIff iff_t iff_u) = true /\
  leaves is_pred (TXor iff_t iff_u) = true /\ timeless (TXor iff_t iff_u) = true /\ (forall n, In n (signals (TIff iff_t iff_u)) -> exists y, has_signal g_tr n y) /\
  spread_trace 4 1 1 g_tr /\ same_begin g_tr /\ times_apart g_tr /\ moderate 4 1 1 /\
  (exists g, from_string true no_double iff_text = Ok g /\ lookup (assertions g) "k"%string = Some iff_f /\ lookup (assertions g) "l"%string = Some xor_f) /\
  constants_within 4 iff_f /\ constants_within 4 xor_f /\ length (names iff_f) = 4%nat /\ length (names xor_f) = 4%nat /\ error_of 4 4 1 1 <= 4 /\
  signed_predicates false iff_f = iff_l /\ signed_predicates false xor_f = iff_l /\ general_formulas (8 * error_of 4 4 1 1) g_tr iff_l.
Proof. exact C125_iff_case_lemma. Qed.
