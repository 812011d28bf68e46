(** How the value at the first time depends on the trace (C75-C77), exact arithmetic.
    [dbg]: assertions enabled; [fuel]: bound on the windowed loop; both arbitrary. *)
From Coq Require Import Reals.
From Verif Require Import Base Num NumXR.
From Verif.Model Require Import Signal MonoWedge MinMax Ast Robustness.
From Verif.Spec Require Import SignalSpec Pwl Formula Semantics Quantitative Perturb.
From Verif.Proofs Require Import RobExamples QuantExamples PerturbFacts PerturbExamples.
Open Scope R_scope.

(** ** C75.  At the first time, and for formulas without temporal operators at every time. *)
Theorem C75_lipschitz : forall dbg fuel lt tr lt' tr' t0 phi s d,
  trace_of lt tr -> keys_unique tr -> all_start lt t0 -> trace_of lt' tr' -> keys_unique tr' -> all_start lt' t0 ->
  evaluable lt phi -> first_exact phi = true -> close d lt lt' ->
  exists l z v l' z' v', compute_robustness dbg fuel phi tr s = Ok z /\ built l z /\ pwl l t0 v /\
    compute_robustness dbg fuel phi tr' s = Ok z' /\ built l' z' /\ pwl l' t0 v' /\ Rabs (v - v') <= d.
Proof. exact C75_lemma. Qed.
Print Assumptions C75_lipschitz.

Theorem C75_lipschitz_boolean : forall dbg fuel lt tr lt' tr' t0 phi s d,
  trace_of lt tr -> keys_unique tr -> all_start lt t0 -> trace_of lt' tr' -> keys_unique tr' -> all_start lt' t0 ->
  evaluable lt phi -> free_of is_temporal phi = true -> close d lt lt' ->
  exists l z l' z', compute_robustness dbg fuel phi tr s = Ok z /\ built l z /\ compute_robustness dbg fuel phi tr' s = Ok z' /\ built l' z' /\
    forall t, ((exists v, pwl l t v) <-> (exists v, pwl l' t v)) /\ forall v v', pwl l t v -> pwl l' t v' -> Rabs (v - v') <= d.
Proof. exact C75_boolean_lemma. Qed.
Print Assumptions C75_lipschitz_boolean.

Example C75_case : trace_of lt1 tr1 /\ keys_unique tr1 /\ all_start lt1 0 /\ trace_of lt3 tr3 /\ keys_unique tr3 /\ all_start lt3 0 /\
  evaluable lt1 c72_phi /\ first_exact c72_phi = true /\ evaluable lt1 phi1 /\ free_of is_temporal phi1 = true /\ close 1 lt1 lt3 /\ lt1 <> lt3.
Proof. exact C75_case_lemma. Qed.

(** ** C76 *)
Theorem C76_monotone : forall dbg fuel lt tr lt' tr' t0 phi s,
  trace_of lt tr -> keys_unique tr -> all_start lt t0 -> trace_of lt' tr' -> keys_unique tr' -> all_start lt' t0 ->
  evaluable lt phi -> first_exact phi = true -> rising true phi = true -> below lt lt' ->
  exists l z v l' z' v', compute_robustness dbg fuel phi tr s = Ok z /\ built l z /\ pwl l t0 v /\
    compute_robustness dbg fuel phi tr' s = Ok z' /\ built l' z' /\ pwl l' t0 v' /\ v <= v'.
Proof. exact C76_lemma. Qed.
Print Assumptions C76_monotone.

Example C76_case : trace_of lt1 tr1 /\ keys_unique tr1 /\ all_start lt1 0 /\ trace_of lt3 tr3 /\ keys_unique tr3 /\ all_start lt3 0 /\
  evaluable lt1 c76_phi /\ first_exact c76_phi = true /\ rising true c76_phi = true /\ below lt1 lt3.
Proof. exact C76_case_lemma. Qed.

(** ** C77.  For the trace itself, and for traces at most [d] away. *)
Theorem C77_verdict : forall dbg fuel lt tr t0 phi s, trace_of lt tr -> keys_unique tr -> all_start lt t0 -> evaluable lt phi -> first_exact phi = true ->
  exists l z v, compute_robustness dbg fuel phi tr s = Ok z /\ built l z /\ pwl l t0 v /\ (0 < v -> sat lt phi t0) /\ (v < 0 -> ~ sat lt phi t0).
Proof. exact C77_sign_lemma. Qed.
Print Assumptions C77_verdict.

Theorem C77_verdict_margin : forall dbg fuel lt tr lt' tr' t0 phi s d,
  trace_of lt tr -> keys_unique tr -> all_start lt t0 -> trace_of lt' tr' -> keys_unique tr' -> all_start lt' t0 ->
  evaluable lt phi -> first_exact phi = true -> close d lt lt' ->
  exists l z v, compute_robustness dbg fuel phi tr s = Ok z /\ built l z /\ pwl l t0 v /\
    (d < v -> sat lt' phi t0) /\ (v < - d -> ~ sat lt' phi t0).
Proof. exact C77_lemma. Qed.
Print Assumptions C77_verdict_margin.

Example C77_case : trace_of lt1 tr1 /\ keys_unique tr1 /\ all_start lt1 0 /\ trace_of lt3 tr3 /\ keys_unique tr3 /\ all_start lt3 0 /\
  evaluable lt1 c72_phi /\ first_exact c72_phi = true /\ evaluable lt1 phi1 /\ free_of is_temporal phi1 = true /\ close 1 lt1 lt3 /\ lt1 <> lt3.
Proof. exact C75_case_lemma. Qed.
