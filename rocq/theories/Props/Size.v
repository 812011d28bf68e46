(** How large a result is, and at which times it has samples. *)
From Verif Require Import Base Num NumB64.
From Verif.Model Require Import Signal Ast Robustness.
From Verif.Spec Require Import SignalSpec Formula Size.
From Verif.Proofs Require Import UntilFacts RobExamples Size.
Local Open Scope nat_scope.

(** ** C89 *)
Theorem C89_size_bound : forall dbg fuel phi (tr : trace B64) s z len, Forall (fun e => wf (snd e) /\ snd e <> []) tr ->
  (forall n x, has_signal tr n x -> length x <= len n) -> compute_robustness dbg fuel phi tr s = Ok z -> length z <= size len phi.
Proof. exact C89_lemma. Qed.
Print Assumptions C89_size_bound.

(** The bound is attained here. *)
Example C89_case : Forall (fun e => wf (snd e) /\ snd e <> []) c89_tr /\ keys_unique c89_tr /\
  (forall n x, has_signal c89_tr n x -> length x <= c89_len n) /\
  exists z, compute_robustness true 0 c89_phi c89_tr false = Ok z /\ length z = size c89_len c89_phi /\ size c89_len c89_phi = 5.
Proof. exact C89_case_lemma. Qed.

(** ** C90 *)
Theorem C90_times_kept : forall dbg fuel phi (tr : trace B64) s z, Forall (fun e => wf (snd e) /\ snd e <> []) tr -> keys_unique tr ->
  compute_robustness dbg fuel phi tr s = Ok z -> forall n x, In n (names phi) -> has_signal tr n x ->
  nleb (begin_time x) (begin_time z) = true /\ nleb (end_time z) (end_time x) = true /\
  forall a, In a x -> nleb (begin_time z) (s_time a) = true -> nleb (s_time a) (end_time z) = true ->
    exists c, In c z /\ neqb (s_time c) (s_time a) = true.
Proof. exact C90_lemma. Qed.
Print Assumptions C90_times_kept.

Example C90_case : Forall (fun e => wf (snd e) /\ snd e <> []) btr /\ keys_unique btr /\ (exists z, compute_robustness true 0 bphi btr false = Ok z) /\
  In sx (names bphi) /\ In sy (names bphi).
Proof. exact C90_case_lemma. Qed.

Theorem C90_times_not_invented : forall dbg fuel phi (tr : trace B64) s z, Forall (fun e => wf (snd e) /\ snd e <> []) tr ->
  free_of is_const phi = true -> free_of is_andor phi = true -> compute_robustness dbg fuel phi tr s = Ok z ->
  forall c, In c z -> exists n x a, In n (names phi) /\ has_signal tr n x /\ In a x /\ neqb (s_time c) (s_time a) = true.
Proof. exact C90_from_lemma. Qed.
Print Assumptions C90_times_not_invented.

Example C90_not_invented_case : Forall (fun e => wf (snd e) /\ snd e <> []) btr /\ free_of is_const c90_phi = true /\ free_of is_andor c90_phi = true /\
  exists z, compute_robustness true 0 c90_phi btr false = Ok z /\ length z = 4.
Proof. exact C90_from_case_lemma. Qed.
