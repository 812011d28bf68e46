(** The value at the first time (C72, C73) and bounds at every time (C80), exact arithmetic.  [dbg]: assertions enabled;
    [fuel]: bound on the windowed loop; both arbitrary. *)
From Coq Require Import Reals.
From Verif Require Import Base Num NumXR.
From Verif.Model Require Import Signal MonoWedge MinMax Ast Robustness.
From Verif.Spec Require Import SignalSpec Pwl Formula Semantics Quantitative Bounds.
From Verif.Proofs Require Import RobExamples QuantFacts QuantExamples RobExact BoundExamples.

(** ** C72 *)
Theorem C72_value_at_begin : forall dbg fuel lt tr t0 phi s, trace_of lt tr -> keys_unique tr -> all_start lt t0 -> evaluable lt phi ->
  first_exact phi = true ->
  exists l z v, compute_robustness dbg fuel phi tr s = Ok z /\ built l z /\ first_time l = t0 /\
    pwl l t0 v /\ forall w, rob lt phi t0 w <-> w = v.
Proof. exact C72_lemma. Qed.
Print Assumptions C72_value_at_begin.

Example C72_case : trace_of lt1 tr1 /\ keys_unique tr1 /\ all_start lt1 0 /\ evaluable lt1 c72_phi /\ first_exact c72_phi = true.
Proof. exact C72_case_lemma. Qed.

(** ** C73.  Always (Eventually x > 0 or y > 0): 5, but the code finds more. *)
Theorem C73_nested_refuted : exists lt tr t0 phi l z v w, trace_of lt tr /\ keys_unique tr /\ all_start lt t0 /\ evaluable lt phi /\
  compute_robustness true 0 phi tr false = Ok z /\ built l z /\ pwl l t0 v /\ rob lt phi t0 w /\ (w < v)%R.
Proof. exact C73_witness. Qed.
Print Assumptions C73_nested_refuted.

(** ** C80.  [p = true]: the computed value is a lower bound of the robustness; [p = false]: an
    upper bound. *)
Theorem C80_bounds : forall dbg fuel lt tr t0 phi s, trace_of lt tr -> keys_unique tr -> all_start lt t0 -> evaluable lt phi ->
  exists l z, compute_robustness dbg fuel phi tr s = Ok z /\ built l z /\
    (forall t, (exists v, pwl l t v) <-> inside lt phi t) /\
    (forall p, sound_for p phi = true -> forall t v, pwl l t v -> bound lt phi p t v) /\
    (forall p, sound_first p phi = true -> forall v, pwl l t0 v -> bound lt phi p t0 v).
Proof. exact C80_lemma. Qed.
Print Assumptions C80_bounds.

(** The two kinds of bounds never contradict each other. *)
Theorem C80_bounds_consistent : forall lt tr t0, trace_of lt tr -> keys_unique tr -> all_start lt t0 ->
  forall phi t c d, bound lt phi true t c -> bound lt phi false t d -> (c <= d)%R.
Proof. exact bound_consistent. Qed.
Print Assumptions C80_bounds_consistent.

Example C80_case : trace_of lt1 tr1 /\ keys_unique tr1 /\ all_start lt1 0 /\ evaluable lt1 phi2 /\ evaluable lt1 c80_psi /\
  sound_first true phi2 = true /\ sound_first false phi2 = true /\ sound_first false c80_psi = true /\
  sound_for true (EAnd [EAlways gx interval_default; ENot ey]) = true.
Proof. exact C80_case_lemma. Qed.
