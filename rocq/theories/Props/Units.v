(** Evaluation does not depend on the names, the orientation, the zero points of the signals and
    on the unit of time. *)
From Coq Require Import Reals.
From Verif Require Import Base Num NumXR NumB64.
From Verif.Model Require Import Signal MonoWedge MinMax Ast Robustness.
From Verif.Spec Require Import SignalSpec Formula.
From Verif.Proofs Require Import Units UntilFacts RobExamples UnitExamples.
Local Open Scope nat_scope.

(** ** C81.  [rho] need not be injective. *)
Theorem C81_renaming : forall dbg fuel rho phi (tr tr' : trace B64) s, free_of is_const phi = true -> keys_unique tr -> keys_unique tr' ->
  (forall n x, In n (names phi) -> (has_signal tr n x <-> has_signal tr' (rho n) x)) ->
  compute_robustness dbg fuel (renamed rho phi) tr' s = compute_robustness dbg fuel phi tr s.
Proof. exact C81_lemma. Qed.
Print Assumptions C81_renaming.

Example C81_case : free_of is_const bphi = true /\ keys_unique btr /\ keys_unique btr_other /\
  (forall n x, In n (names bphi) -> (has_signal btr n x <-> has_signal btr_other (other n) x)) /\
  renamed other bphi <> bphi /\ exists z, compute_robustness true 0 bphi btr false = Ok z.
Proof. exact C81_case_lemma. Qed.

(** ** C82.  Also exceptions and every other failure are the same. *)
Theorem C82_mirror : forall dbg fuel m phi (tr : trace B64) s,
  compute_robustness dbg fuel (mirrored m phi) (map_named (fun n x => if m n then opposite x else x) tr) s =
  compute_robustness dbg fuel phi tr s.
Proof. exact C82_lemma. Qed.
Print Assumptions C82_mirror.

Example C82_case : mirrored (String.eqb sx) bphi <> bphi /\ exists z, compute_robustness true 0 bphi btr false = Ok z.
Proof. exact C82_case_lemma. Qed.

(** ** C83 *)
Theorem C83_offsets : forall dbg fuel (k : string -> R) phi (tr : trace XR) s,
  compute_robustness dbg fuel (rebased (fun n => Fin (k n)) phi) (map_named (fun n => raised (Fin (k n))) tr) s =
  compute_robustness dbg fuel phi tr s.
Proof. exact C83_lemma. Qed.
Print Assumptions C83_offsets.

Example C83_case : rebased (fun n => Fin (if String.eqb n sx then 5 else 7)) phi2 <> phi2 /\
  exists z, compute_robustness true 0 phi2 tr1 false = Ok z.
Proof. exact C83_case_lemma. Qed.

(** ** C84 *)
Theorem C84_time_unit : forall dbg fuel phi (tr : trace XR) s c, Forall (fun e => wf (snd e) /\ snd e <> []) tr -> (0 < c)%R ->
  compute_robustness dbg fuel phi (map_trace (slower (Fin c)) tr) s = omap (slower (Fin c)) (compute_robustness dbg fuel phi tr s).
Proof. exact C84_lemma. Qed.
Print Assumptions C84_time_unit.

Example C84_case : Forall (fun e => wf (snd e) /\ snd e <> []) tr1 /\ (0 < 1/3)%R /\
  exists z, compute_robustness true 0 phi2 tr1 false = Ok z.
Proof. exact C46_case_lemma. Qed.
