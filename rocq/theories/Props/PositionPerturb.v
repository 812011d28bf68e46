(** Nested And, Or and Not in double arithmetic: what the value says of traces near the measured one. *)
From Coq Require Import Reals.
From Flocq Require Import Core.Core IEEE754.BinarySingleNaN.
From Verif Require Import Base Num NumXR NumB64.
From Verif.Model Require Import Signal Ast Robustness.
From Verif.Spec Require Import SignalSpec Pwl Formula Semantics Accuracy Uniform Whole Apart Spaced Many General Tree Perturb.
From Verif.Proofs Require Import MinMaxExamples GeneralExamples TreePositionExamples TreePerturb TreePerturbExamples.
Local Open Scope R_scope.

(** ** C126.  [lt'] is any trace of real numbers, sampled in any way, whose signals are within [d] of those of
    the trace [tr] of doubles; the other conditions are those of C124. *)
Theorem C126_boolean : forall dbg fuel (tr : trace B64) s phi V S H d, spread_trace V S H tr -> same_begin tr -> times_apart tr -> moderate V S H -> boolean phi = true -> in_trace V tr phi ->
  error_of (length (names phi)) V S H <= V -> general_formulas (8 * error_of (length (names phi)) V S H) tr (signed_predicates false phi) ->
  forall lt', Perturb.close d (real_trace tr) lt' ->
  exists z, compute_robustness dbg fuel phi tr s = Ok z /\
    forall t, inside (real_trace tr) (real_formula phi) t -> exists v, pwl (reals z) t v /\
      (8 * error_of (length (names phi)) V S H + d < v -> sat lt' (real_formula phi) t) /\
      (v < - (8 * error_of (length (names phi)) V S H + d) -> ~ sat lt' (real_formula phi) t).
Proof. exact C126_boolean_lemma. Qed.
Print Assumptions C126_boolean.

Theorem C126_temporal : forall dbg fuel (tr : trace B64) s phi V S H d, spread_trace V S H tr -> same_begin tr -> times_apart tr -> moderate V S H -> boolean phi = true -> in_trace V tr phi ->
  error_of (length (names phi)) V S H <= V -> general_formulas (8 * error_of (length (names phi)) V S H) tr (signed_predicates false phi) ->
  forall lt' outer i, outer = EAlways \/ outer = EEventually -> made_interval i -> Perturb.close d (real_trace tr) lt' ->
  exists z, compute_robustness dbg fuel (outer phi i) tr s = Ok z /\ z <> [] /\
    forall c, In c z -> finite (s_value c) = true /\
      (8 * error_of (length (names phi)) V S H + d < B2R (s_value c) -> sat lt' (real_formula (outer phi i)) (B2R (s_time c))) /\
      (B2R (s_value c) < - (8 * error_of (length (names phi)) V S H + d) -> ~ sat lt' (real_formula (outer phi i)) (B2R (s_time c))).
Proof. exact C126_temporal_lemma. Qed.
Print Assumptions C126_temporal.

(** x > 1 or not (y < 1 or not (w >= 1)) and [p_tr] meet the other conditions with V = 4, S = 1, H = 1/4
    ([C124_case]); in [p_lt] y is larger by 1/8 and not sampled at 1/4. *)
Example C126_case : Perturb.close (1 / 8) (real_trace p_tr) p_lt /\ 8 * error_of 3 4 1 (1 / 4) + 1 / 8 < 1 / 4 /\
  exists z, compute_robustness true 0 (EAlways p_f interval_default) p_tr false = Ok z /\ exists c, In c z /\ nltb (dbl 1 (-2)) (s_value c) = true.
Proof. exact C126_case_lemma. Qed.

(** Two traces of doubles: the results are near each other. *)
Theorem C126_results : forall dbg fuel (tr tr' : trace B64) s phi V S H d,
  spread_trace V S H tr -> same_begin tr -> times_apart tr -> spread_trace V S H tr' -> same_begin tr' -> times_apart tr' -> moderate V S H -> boolean phi = true -> in_trace V tr phi ->
  error_of (length (names phi)) V S H <= V -> general_formulas (8 * error_of (length (names phi)) V S H) tr (signed_predicates false phi) ->
  general_formulas (8 * error_of (length (names phi)) V S H) tr' (signed_predicates false phi) -> Perturb.close d (real_trace tr) (real_trace tr') ->
  exists z z', compute_robustness dbg fuel phi tr s = Ok z /\ compute_robustness dbg fuel phi tr' s = Ok z' /\
    forall t, inside (real_trace tr) (real_formula phi) t -> exists v v', pwl (reals z) t v /\ pwl (reals z') t v' /\ Rabs (v - v') <= 16 * error_of (length (names phi)) V S H + d.
Proof. exact C126_results_lemma. Qed.
Print Assumptions C126_results.

(** [g_tr] is [p_tr] without the sample of y at 1/4. *)
Example C126_results_case : Perturb.close 0 (real_trace p_tr) (real_trace g_tr) /\ p_tr <> g_tr /\ spread_trace 4 1 (1 / 4) g_tr /\ same_begin g_tr /\ times_apart g_tr /\
  signed_predicates false p_f = [g_a; g_b; g_c] /\ general_formulas (8 * error_of 3 4 1 (1 / 4)) g_tr [g_a; g_b; g_c].
Proof. exact C126_results_case_lemma. Qed.
