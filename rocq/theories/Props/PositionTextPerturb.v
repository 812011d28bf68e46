(** Nested Boolean specifications in double arithmetic: from the text to a verdict for every trace near the measured one. *)
From Coq Require Import Ascii Reals.
From Flocq Require Import Core.Core IEEE754.BinarySingleNaN.
From Verif Require Import Base Num NumXR NumB64.
From Verif.Model Require Import Signal Ast Robustness Peg Parser.
From Verif.Spec Require Import SignalSpec Pwl Formula Semantics Accuracy Uniform Whole Apart Spaced Many General Tree AstSpec Text Syntax Monitor Perturb.
From Verif.Proofs Require Import ParserExamples MinMaxExamples GeneralExamples TreePositionExamples TreeTextExamples TreePerturbExamples TreeTextPerturb TreeTextPerturbExamples.
Local Open Scope R_scope.

(** ** C127.  [u] is the asserted term with the definitions written out, [e] (below: [f]) the formula the parser
    builds for it, [lt'] any trace of real numbers near the trace [tr] of doubles; the other conditions are those
    of C125. *)
Theorem C127_boolean : forall (stod : list ascii -> option B64), (forall w v, stod w = Some v -> finite v = true) ->
  forall dbg fuel cs txt g (tr : trace B64) s x u V S H d lt',
  all_leaves ref_ok cs = true -> spec_text cs txt -> from_string dbg stod txt = Ok g -> In (x, u) (asserted [] cs) -> leaves is_pred u = true -> timeless u = true ->
  spread_trace V S H tr -> same_begin tr -> times_apart tr -> moderate V S H -> (forall n, In n (signals u) -> exists y, has_signal tr n y) -> Perturb.close d (real_trace tr) lt' ->
  exists e, lookup (assertions g) x = Some e /\
    (constants_within V e -> error_of (length (names e)) V S H <= V -> general_formulas (8 * error_of (length (names e)) V S H) tr (signed_predicates false e) ->
     exists z, compute_robustness dbg fuel e tr s = Ok z /\ forall t, defined (real_trace tr) u t -> exists v, pwl (reals z) t v /\
       (8 * error_of (length (names e)) V S H + d < v -> holds (double_literal stod) lt' u t) /\
       (v < - (8 * error_of (length (names e)) V S H + d) -> ~ holds (double_literal stod) lt' u t)).
Proof. exact C127_boolean_lemma. Qed.
Print Assumptions C127_boolean.

Theorem C127_always : forall (stod : list ascii -> option B64), (forall w v, stod w = Some v -> finite v = true) ->
  forall dbg fuel cs txt g (tr : trace B64) s x u V S H d lt',
  all_leaves ref_ok cs = true -> spec_text cs txt -> from_string dbg stod txt = Ok g -> In (x, TAlways u) (asserted [] cs) -> leaves is_pred u = true -> timeless u = true ->
  spread_trace V S H tr -> same_begin tr -> times_apart tr -> moderate V S H -> (forall n, In n (signals u) -> exists y, has_signal tr n y) -> Perturb.close d (real_trace tr) lt' ->
  exists f, lookup (assertions g) x = Some (EAlways f interval_default) /\
    (constants_within V f -> error_of (length (names f)) V S H <= V -> general_formulas (8 * error_of (length (names f)) V S H) tr (signed_predicates false f) ->
     exists z, compute_robustness dbg fuel (EAlways f interval_default) tr s = Ok z /\ z <> [] /\ forall c, In c z -> finite (s_value c) = true /\
       (8 * error_of (length (names f)) V S H + d < B2R (s_value c) -> holds (double_literal stod) lt' (TAlways u) (B2R (s_time c))) /\
       (B2R (s_value c) < - (8 * error_of (length (names f)) V S H + d) -> ~ holds (double_literal stod) lt' (TAlways u) (B2R (s_time c)))).
Proof. exact C127_always_lemma. Qed.
Print Assumptions C127_always.

Theorem C127_eventually : forall (stod : list ascii -> option B64), (forall w v, stod w = Some v -> finite v = true) ->
  forall dbg fuel cs txt g (tr : trace B64) s x u V S H d lt',
  all_leaves ref_ok cs = true -> spec_text cs txt -> from_string dbg stod txt = Ok g -> In (x, TEventually u) (asserted [] cs) -> leaves is_pred u = true -> timeless u = true ->
  spread_trace V S H tr -> same_begin tr -> times_apart tr -> moderate V S H -> (forall n, In n (signals u) -> exists y, has_signal tr n y) -> Perturb.close d (real_trace tr) lt' ->
  exists f, lookup (assertions g) x = Some (EEventually f interval_default) /\
    (constants_within V f -> error_of (length (names f)) V S H <= V -> general_formulas (8 * error_of (length (names f)) V S H) tr (signed_predicates false f) ->
     exists z, compute_robustness dbg fuel (EEventually f interval_default) tr s = Ok z /\ z <> [] /\ forall c, In c z -> finite (s_value c) = true /\
       (8 * error_of (length (names f)) V S H + d < B2R (s_value c) -> holds (double_literal stod) lt' (TEventually u) (B2R (s_time c))) /\
       (B2R (s_value c) < - (8 * error_of (length (names f)) V S H + d) -> ~ holds (double_literal stod) lt' (TEventually u) (B2R (s_time c)))).
Proof. exact C127_eventually_lemma. Qed.
Print Assumptions C127_eventually.

(** The text of C125, whose other conditions [p_tr] meets ([C125_case], [C124_case]); in [p_lt] y is larger by 1/8
    and not sampled at 1/4.  The value of the assertion n decides it for [p_lt]. *)
Example C127_case : Perturb.close (1 / 8) (real_trace p_tr) p_lt /\ 8 * error_of 3 4 1 (1 / 4) + 1 / 8 < 1 / 4 /\
  exists g z c, from_string true no_double c125_text = Ok g /\ lookup (assertions g) "n"%string = Some (EAlways p_f interval_default) /\
    compute_robustness true 0 (EAlways p_f interval_default) p_tr false = Ok z /\ In c z /\ nltb (dbl 1 (-2)) (s_value c) = true.
Proof. exact C127_case_lemma. Qed.
