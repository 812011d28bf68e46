(** And, Or and Not nested in any way return, in double arithmetic, if the predicates are in general position. *)
From Coq Require Import Reals.
From Flocq Require Import Core.Core IEEE754.BinarySingleNaN.
From Verif Require Import Base Num NumXR NumB64.
From Verif.Model Require Import Signal MinMax Ast Robustness.
From Verif.Spec Require Import SignalSpec Pwl Formula Semantics Quantitative Accuracy Uniform Whole Apart Spaced Many General Tree.
From Verif.Proofs Require Import GeneralExamples TreePosition TreePositionExamples TreeTimes.
Local Open Scope R_scope.

(** ** C123.  The signals begin together and may be sampled at different times.  The exact robustness of the
    predicates, negated as the formula negates them, is in general position: no two within the error of C122
    at a sample time, no two different pairs within it at the same time. *)
Theorem C123_boolean : forall dbg fuel (tr : trace B64) s phi V S H, spread_trace V S H tr -> same_begin tr -> moderate V S H -> boolean phi = true -> in_trace V tr phi ->
  error_of (length (names phi)) V S H <= V -> separated dbg fuel tr phi -> general_formulas (8 * error_of (length (names phi)) V S H) tr (signed_predicates false phi) ->
  exists z, compute_robustness dbg fuel phi tr s = Ok z /\
    forall t r, rob (real_trace tr) (real_formula phi) t r -> exists v, pwl (reals z) t v /\ Rabs (v - r) <= 8 * error_of (length (names phi)) V S H.
Proof. exact C123_boolean_lemma. Qed.
Print Assumptions C123_boolean.

(** x > 1 or not (y < 1 or not (w >= 1)); y is sampled at 0, 1/4 and 1, x and w at 0 and 1. *)
Example C123_boolean_case : spread_trace 4 1 (1 / 4) p_tr /\ same_begin p_tr /\ moderate 4 1 (1 / 4) /\ boolean p_f = true /\ in_trace 4 p_tr p_f /\ length (names p_f) = 3%nat /\ error_of 3 4 1 (1 / 4) <= 4 /\
  separated true 0 p_tr p_f /\ signed_predicates false p_f = [g_a; g_b; g_c] /\ general_formulas (8 * error_of 3 4 1 (1 / 4)) p_tr [g_a; g_b; g_c] /\
  exists z, compute_robustness true 0 p_f p_tr false = Ok z /\ length z = 5%nat.
Proof. exact C123_boolean_case_lemma. Qed.

(** The same below Always or Eventually. *)
Theorem C123_temporal : forall dbg fuel (tr : trace B64) s outer phi i V S H, spread_trace V S H tr -> same_begin tr -> moderate V S H ->
  outer = EAlways \/ outer = EEventually -> boolean phi = true -> in_trace V tr phi -> error_of (length (names phi)) V S H <= V -> separated dbg fuel tr phi ->
  general_formulas (8 * error_of (length (names phi)) V S H) tr (signed_predicates false phi) -> made_interval i ->
  exists z, compute_robustness dbg fuel (outer phi i) tr s = Ok z /\ z <> [] /\
    forall c, In c z -> exists r, rob (real_trace tr) (real_formula (outer phi i)) (B2R (s_time c)) r /\ finite (s_value c) = true /\
      Rabs (B2R (s_value c) - r) <= 8 * error_of (length (names phi)) V S H /\
      (8 * error_of (length (names phi)) V S H < B2R (s_value c) -> sat (real_trace tr) (real_formula (outer phi i)) (B2R (s_time c))) /\
      (B2R (s_value c) < - (8 * error_of (length (names phi)) V S H) -> ~ sat (real_trace tr) (real_formula (outer phi i)) (B2R (s_time c))).
Proof. exact C123_temporal_lemma. Qed.
Print Assumptions C123_temporal.

Example C123_temporal_case : made_interval (F := B64) interval_default /\
  exists z, compute_robustness true 0 (EAlways p_f interval_default) p_tr false = Ok z /\ exists c, In c z /\ nltb nzero (s_value c) = true.
Proof. exact C123_temporal_case_lemma. Qed.

(** ** C124.  A condition on the trace alone takes the place of the one on intermediate results: any two sample
    times of the trace are equal or at least 2^-252 apart. *)
Theorem C124_separated : forall dbg fuel (tr : trace B64) phi V S H, spread_trace V S H tr -> same_begin tr -> times_apart tr -> moderate V S H -> boolean phi = true -> in_trace V tr phi ->
  error_of (length (names phi)) V S H <= V -> general_formulas (8 * error_of (length (names phi)) V S H) tr (signed_predicates false phi) -> separated dbg fuel tr phi.
Proof. exact C124_separated_lemma. Qed.
Print Assumptions C124_separated.

Theorem C124_boolean : forall dbg fuel (tr : trace B64) s phi V S H, spread_trace V S H tr -> same_begin tr -> times_apart tr -> moderate V S H -> boolean phi = true -> in_trace V tr phi ->
  error_of (length (names phi)) V S H <= V -> general_formulas (8 * error_of (length (names phi)) V S H) tr (signed_predicates false phi) ->
  exists z, compute_robustness dbg fuel phi tr s = Ok z /\
    forall t r, rob (real_trace tr) (real_formula phi) t r -> exists v, pwl (reals z) t v /\ Rabs (v - r) <= 8 * error_of (length (names phi)) V S H.
Proof. exact C124_boolean_lemma. Qed.
Print Assumptions C124_boolean.

Theorem C124_temporal : forall dbg fuel (tr : trace B64) s outer phi i V S H, spread_trace V S H tr -> same_begin tr -> times_apart tr -> moderate V S H ->
  outer = EAlways \/ outer = EEventually -> boolean phi = true -> in_trace V tr phi -> error_of (length (names phi)) V S H <= V ->
  general_formulas (8 * error_of (length (names phi)) V S H) tr (signed_predicates false phi) -> made_interval i ->
  exists z, compute_robustness dbg fuel (outer phi i) tr s = Ok z /\ z <> [] /\
    forall c, In c z -> exists r, rob (real_trace tr) (real_formula (outer phi i)) (B2R (s_time c)) r /\ finite (s_value c) = true /\
      Rabs (B2R (s_value c) - r) <= 8 * error_of (length (names phi)) V S H /\
      (8 * error_of (length (names phi)) V S H < B2R (s_value c) -> sat (real_trace tr) (real_formula (outer phi i)) (B2R (s_time c))) /\
      (B2R (s_value c) < - (8 * error_of (length (names phi)) V S H) -> ~ sat (real_trace tr) (real_formula (outer phi i)) (B2R (s_time c))).
Proof. exact C124_temporal_lemma. Qed.
Print Assumptions C124_temporal.

(** The trace begins at time 0; the runs are those of [C123_boolean_case] and [C123_temporal_case]. *)
Example C124_case : spread_trace 4 1 (1 / 4) p_tr /\ same_begin p_tr /\ times_apart p_tr /\ moderate 4 1 (1 / 4) /\ boolean p_f = true /\ in_trace 4 p_tr p_f /\ length (names p_f) = 3%nat /\ error_of 3 4 1 (1 / 4) <= 4 /\
  signed_predicates false p_f = [g_a; g_b; g_c] /\ general_formulas (8 * error_of 3 4 1 (1 / 4)) p_tr [g_a; g_b; g_c].
Proof. exact C124_case_lemma. Qed.

(** Sample times that are zero or at least 2^-200 in magnitude are such. *)
Theorem C124_times : forall tr : trace B64, (forall n x a, has_signal tr n x -> In a x -> B2R (s_time a) = 0 \/ bpow radix2 (-200) <= Rabs (B2R (s_time a))) -> times_apart tr.
Proof. exact C124_times_lemma. Qed.
Print Assumptions C124_times.

Example C124_times_case : forall n x a, has_signal p_tr n x -> In a x -> B2R (s_time a) = 0 \/ bpow radix2 (-200) <= Rabs (B2R (s_time a)).
Proof. exact C124_times_case_lemma. Qed.
