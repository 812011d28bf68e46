(** And and Or nested in any way, on signals sampled at any times, in double arithmetic. *)
From Coq Require Import Reals.
From Flocq Require Import Core.Core IEEE754.BinarySingleNaN.
From Verif Require Import Base Num NumXR NumB64.
From Verif.Model Require Import Signal MinMax Ast Robustness.
From Verif.Spec Require Import SignalSpec Pwl Formula Semantics Quantitative Accuracy Uniform Whole Apart Spaced Many Tree.
From Verif.Proofs Require Import SpacedExamples ManyExamples TreeFormula TreeExamples.
Local Open Scope R_scope.

(** ** C122.  The result is within 8 * 2^-42 * 10^(n-1) * V * S / H of the exact robustness, at every time
    at which that exists; n is the number of predicates. *)
Theorem C122_boolean : forall dbg fuel (tr : trace B64) s phi V S H z, spread_trace V S H tr -> moderate V S H -> boolean phi = true -> in_trace V tr phi ->
  error_of (length (names phi)) V S H <= V -> separated dbg fuel tr phi -> compute_robustness dbg fuel phi tr s = Ok z ->
  forall t r, rob (real_trace tr) (real_formula phi) t r -> exists v, pwl (reals z) t v /\ Rabs (v - r) <= 8 * error_of (length (names phi)) V S H.
Proof. exact C122_boolean_lemma. Qed.
Print Assumptions C122_boolean.

Example C122_boolean_case : spread_trace 1 1 (1 / 4) m_tr /\ moderate 1 1 (1 / 4) /\ boolean t_f = true /\ ladder t_f = false /\ in_trace 1 m_tr t_f /\ length (names t_f) = 5%nat /\ error_of 5 1 1 (1 / 4) <= 1 /\
  separated true 0 m_tr t_f /\ exists z, compute_robustness true 0 t_f m_tr false = Ok z /\ length z = 10%nat.
Proof. exact C122_boolean_case_lemma. Qed.

(** Intermediate results are separated whenever all sample times are at least 2^-200. *)
Theorem C122_separated : forall dbg fuel (tr : trace B64) phi V S H, spread_trace V S H tr -> late_trace tr -> boolean phi = true -> in_trace V tr phi -> separated dbg fuel tr phi.
Proof. exact C122_separated_lemma. Qed.
Print Assumptions C122_separated.

Example C122_separated_case : spread_trace 1 1 (1 / 4) t_tr /\ late_trace t_tr /\ boolean t_f = true /\ in_trace 1 t_tr t_f /\ exists z, compute_robustness true 0 t_f t_tr false = Ok z /\ length z = 8%nat.
Proof. exact C122_separated_case_lemma. Qed.

(** Below Always or Eventually, if the signals begin together: a value beyond the error decides satisfaction. *)
Theorem C122_temporal : forall dbg fuel (tr : trace B64) s outer phi i V S H z, spread_trace V S H tr -> same_begin tr -> moderate V S H ->
  outer = EAlways \/ outer = EEventually -> boolean phi = true -> in_trace V tr phi -> error_of (length (names phi)) V S H <= V -> separated dbg fuel tr phi -> made_interval i ->
  compute_robustness dbg fuel (outer phi i) tr s = Ok z ->
  z <> [] /\ forall c, In c z -> exists r, rob (real_trace tr) (real_formula (outer phi i)) (B2R (s_time c)) r /\ finite (s_value c) = true /\
      Rabs (B2R (s_value c) - r) <= 8 * error_of (length (names phi)) V S H /\
      (8 * error_of (length (names phi)) V S H < B2R (s_value c) -> sat (real_trace tr) (real_formula (outer phi i)) (B2R (s_time c))) /\
      (B2R (s_value c) < - (8 * error_of (length (names phi)) V S H) -> ~ sat (real_trace tr) (real_formula (outer phi i)) (B2R (s_time c))).
Proof. exact C122_temporal_lemma. Qed.
Print Assumptions C122_temporal.

Example C122_temporal_case : spread_trace 1 1 (1 / 4) t_tr /\ same_begin t_tr /\ separated true 0 t_tr t_f /\ made_interval (F := B64) interval_default /\
  exists z, compute_robustness true 0 (EEventually t_f interval_default) t_tr false = Ok z /\ exists c, In c z /\ nltb nzero (s_value c) = true.
Proof. exact C122_temporal_case_lemma. Qed.
