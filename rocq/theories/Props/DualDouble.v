(** Duality in double arithmetic (C114).  [dbg]: assertions enabled; [fuel]: bound on the windowed loop; both arbitrary. *)
From Verif Require Import Base Num NumB64.
From Verif.Model Require Import Signal MonoWedge MinMax Ast Robustness.
From Verif.Spec Require Import SignalSpec Formula Alike.
From Verif.Proofs Require Import RobExamples UntilFacts DualB64 DualExamples.

(** ** C114.  Bit by bit for the temporal operators, failures included. *)
Theorem C114_temporal : forall dbg fuel phi i (tr : trace B64) s, Forall (fun e => wf (snd e) /\ snd e <> []) tr -> made_interval i ->
  compute_robustness dbg fuel (ENot (EEventually phi i)) tr s = compute_robustness dbg fuel (EAlways (ENot phi) i) tr s /\
  compute_robustness dbg fuel (ENot (EAlways phi i)) tr s = compute_robustness dbg fuel (EEventually (ENot phi) i) tr s.
Proof. exact C114_temporal_lemma. Qed.
Print Assumptions C114_temporal.

(** And and Or: up to the sign of zeros, unless one side (or both) throws. *)
Theorem C114_andor_partial : forall dbg fuel l (tr : trace B64) s, Forall (fun e => wf (snd e) /\ snd e <> []) tr -> l <> [] ->
  let alike_or_rejected o o' := alike_outcomes o o' \/ o = Throw InvalidArgument \/ o' = Throw InvalidArgument in
  alike_or_rejected (compute_robustness dbg fuel (ENot (EAnd l)) tr s) (compute_robustness dbg fuel (EOr (map ENot l)) tr s) /\
  alike_or_rejected (compute_robustness dbg fuel (ENot (EOr l)) tr s) (compute_robustness dbg fuel (EAnd (map ENot l)) tr s).
Proof. exact C114_andor_lemma. Qed.
Print Assumptions C114_andor_partial.

Example C114_case : Forall (fun e => wf (snd e) /\ snd e <> []) btr /\ made_interval c38_i /\
  (exists z, compute_robustness true 0 (ENot (EEventually (EOr [bp; bq]) c38_i)) btr false = Ok z /\ (3 <= length z)%nat) /\
  (exists z, compute_robustness true 0 (ENot (EAnd [bp; bq; EAlways bp c38_i])) btr false = Ok z /\ (5 <= length z)%nat) /\
  (exists z, compute_robustness true 0 (EOr (map ENot [bp; bq; EAlways bp c38_i])) btr false = Ok z /\ (5 <= length z)%nat).
Proof. exact C114_case_lemma. Qed.

(** One side returns and the other throws: two signals that cross between two samples while
    their computed slopes are equal, so that the computed crossing time is +inf or -inf. *)
Theorem C114_andor_refuted : exists (tr : trace B64) p q z z', keys_unique tr /\
  Forall (fun e => wf (snd e) /\ snd e <> [] /\ Forall (fun a => finite (s_time a) = true /\ finite (s_value a) = true) (snd e)) tr /\
  compute_robustness true 0 (ENot (EAnd [p; q])) tr false = Ok z /\
  compute_robustness true 0 (EOr [ENot p; ENot q]) tr false = Throw InvalidArgument /\
  compute_robustness true 0 (ENot (EOr [p; q])) tr false = Throw InvalidArgument /\
  compute_robustness true 0 (EAnd [ENot p; ENot q]) tr false = Ok z'.
Proof. exact C114_witness. Qed.
Print Assumptions C114_andor_refuted.
