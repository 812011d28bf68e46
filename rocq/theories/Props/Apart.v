(** And and Or in double arithmetic on signals sampled at the same times: when they return. *)
From Coq Require Import Reals.
From Flocq Require Import Core.Core IEEE754.BinarySingleNaN.
From Verif Require Import Base Num NumB64.
From Verif.Model Require Import Signal MinMax Ast Robustness.
From Verif.Spec Require Import SignalSpec Formula Uniform Apart.
From Verif.Proofs Require Import UntilFacts UniformExamples ApartFacts.
Local Open Scope R_scope.

(** ** C116.  Two samples per signal suffice, and the order of the operands decides: the witness has
    0.1 and 0 at time 0, and 0.4 and 0.4 at time 1. *)
Theorem C116_throws_refuted : exists (tr : trace B64) a b, keys_unique tr /\ Forall (fun e => wf (snd e) /\ snd e <> []) tr /\ uniform tr /\
  (forall n x c, has_signal tr n x -> In c x -> finite (s_time c) = true /\ finite (s_value c) = true /\ 0 <= B2R (s_time c) <= 1 /\ 0 <= B2R (s_value c) <= 1) /\
  forall dbg fuel s, compute_robustness dbg fuel (EAnd [EPred a GE nzero; EPred b GE nzero]) tr s = Throw InvalidArgument /\
    exists z, compute_robustness dbg fuel (EAnd [EPred b GE nzero; EPred a GE nzero]) tr s = Ok z.
Proof. exact C116_witness. Qed.
Print Assumptions C116_throws_refuted.

(** Signals that are [apart] wherever they change places. *)
Theorem C116_pair_partial : forall dbg sync (x y : signal B64) V S, wf x -> wf y -> x <> [] ->
  Forall2 (fun a b => neqb (s_time a) (s_time b) = true) x y ->
  bpow radix2 (-300) <= V <= bpow radix2 300 -> S <= bpow radix2 300 -> sized V S x -> sized V S y -> apart V S x y ->
  (exists z, elementwise_min dbg sync x y = Ok z) /\ (exists z, elementwise_max dbg sync x y = Ok z).
Proof. exact C116_pair_lemma. Qed.
Print Assumptions C116_pair_partial.

Theorem C116_formula_partial : forall dbg fuel (tr : trace B64) s e1 e2 z1 z2 V S, Forall (fun e => wf (snd e) /\ snd e <> []) tr ->
  compute_robustness dbg fuel e1 tr s = Ok z1 -> compute_robustness dbg fuel e2 tr s = Ok z2 ->
  Forall2 (fun a b => neqb (s_time a) (s_time b) = true) z1 z2 ->
  bpow radix2 (-300) <= V <= bpow radix2 300 -> S <= bpow radix2 300 -> sized V S z1 -> sized V S z2 -> apart V S z1 z2 ->
  (exists z, compute_robustness dbg fuel (EAnd [e1; e2]) tr s = Ok z) /\ (exists z, compute_robustness dbg fuel (EOr [e1; e2]) tr s = Ok z).
Proof. exact C116_formula_lemma. Qed.
Print Assumptions C116_formula_partial.

(** Values 4, 1, 5 and 1, 4, 2 at times 0, 1, 2: both crossings are inserted. *)
Example C116_case : wf u_x /\ wf u_y /\ u_x <> [] /\ Forall2 (fun a b => neqb (s_time a) (s_time b) = true) u_x u_y /\
  bpow radix2 (-300) <= 8 <= bpow radix2 300 /\ 2 <= bpow radix2 300 /\ sized 8 2 u_x /\ sized 8 2 u_y /\ apart 8 2 u_x u_y /\
  exists z, elementwise_min true false u_x u_y = Ok z /\ length z = 5%nat.
Proof. exact C116_case_lemma. Qed.

Example C116_formula_case : Forall (fun e => wf (snd e) /\ snd e <> []) u_tr /\
  compute_robustness true 0 (EPred sx GE nzero) u_tr false = Ok u_x /\ compute_robustness true 0 (EPred sy GE nzero) u_tr false = Ok u_y.
Proof. exact C116_formula_case_lemma. Qed.
