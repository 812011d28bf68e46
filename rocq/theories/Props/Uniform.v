(** And below Always and Or below Eventually in double arithmetic, on traces sampled uniformly. *)
From Coq Require Import Reals.
From Flocq Require Import Core.Core IEEE754.BinarySingleNaN.
From Verif Require Import Base Num NumXR NumB64.
From Verif.Model Require Import Signal Ast Robustness.
From Verif.Spec Require Import SignalSpec Pwl Formula Semantics Quantitative Accuracy Uniform.
From Verif.Proofs Require Import UntilFacts RobExamples UniformFacts UniformExamples.
Local Open Scope R_scope.

(** ** C115.  [setting]: the signals share their sample times, values are at most [V] and times [T]
    apart; [margin V T phi]: about 2^-46 V per predicate of [phi]. *)
Theorem C115_bound : forall dbg fuel (tr : trace B64) s phi V T n x a z, setting tr V T phi -> guarded phi = true ->
  has_signal tr n x -> In a x -> compute_robustness dbg fuel phi tr s = Ok z ->
  exists c r, In c z /\ neqb (s_time c) (s_time a) = true /\ finite (s_value c) = true /\
    rob (real_trace tr) (real_formula phi) (B2R (s_time a)) r /\ Rabs (B2R (s_value c) - r) <= margin V T phi /\
    (margin V T phi < B2R (s_value c) -> sat (real_trace tr) (real_formula phi) (B2R (s_time a))) /\
    (B2R (s_value c) < - margin V T phi -> ~ sat (real_trace tr) (real_formula phi) (B2R (s_time a))).
Proof. exact C115_lemma. Qed.
Print Assumptions C115_bound.

Example C115_case : setting u_tr 8 2 u_phi /\ guarded u_phi = true /\ exists z, compute_robustness true 0 u_phi u_tr false = Ok z /\ (4 <= length z)%nat.
Proof. exact C115_case_lemma. Qed.

(** A positive value of Always over And is right whatever its size; likewise a negative value of
    Eventually over Or. *)
Theorem C115_always : forall dbg fuel (tr : trace B64) s e i V T n x a z, setting tr V T (EAlways e i) -> one_level true e = true ->
  has_signal tr n x -> In a x -> compute_robustness dbg fuel (EAlways e i) tr s = Ok z ->
  exists c, In c z /\ neqb (s_time c) (s_time a) = true /\ finite (s_value c) = true /\
    (nltb nzero (s_value c) = true -> sat (real_trace tr) (real_formula (EAlways e i)) (B2R (s_time a))).
Proof. exact always_lemma. Qed.
Print Assumptions C115_always.

Example C115_always_case : setting u_tr 8 2 (EAlways u_in interval_default) /\ one_level true u_in = true /\
  exists z, compute_robustness true 0 (EAlways u_in interval_default) u_tr false = Ok z /\ forallb (fun c => nltb nzero (s_value c)) z = true.
Proof. exact C115_always_case_lemma. Qed.

Theorem C115_eventually : forall dbg fuel (tr : trace B64) s e i V T n x a z, setting tr V T (EEventually e i) -> one_level false e = true ->
  has_signal tr n x -> In a x -> compute_robustness dbg fuel (EEventually e i) tr s = Ok z ->
  exists c, In c z /\ neqb (s_time c) (s_time a) = true /\ finite (s_value c) = true /\
    (nltb (s_value c) nzero = true -> ~ sat (real_trace tr) (real_formula (EEventually e i)) (B2R (s_time a))).
Proof. exact eventually_lemma. Qed.
Print Assumptions C115_eventually.

Example C115_eventually_case : setting u_tr 8 2 (EEventually u_out interval_default) /\ one_level false u_out = true /\
  exists z, compute_robustness true 0 (EEventually u_out interval_default) u_tr false = Ok z /\ exists c, In c z /\ nltb (s_value c) nzero = true.
Proof. exact C115_eventually_case_lemma. Qed.
