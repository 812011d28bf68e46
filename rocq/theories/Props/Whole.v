(** And and Or in double arithmetic on whole numbers sampled at consecutive whole numbers. *)
From Coq Require Import Reals.
From Flocq Require Import Core.Core IEEE754.BinarySingleNaN.
From Verif Require Import Base Num NumXR NumB64.
From Verif.Model Require Import Signal MinMax Ast Robustness.
From Verif.Spec Require Import SignalSpec Pwl Formula Semantics Quantitative Accuracy Uniform Whole.
From Verif.Proofs Require Import UniformExamples WholeFacts WholeExamples.
Local Open Scope R_scope.

(** ** C117.  Three operands can throw, for one order and not for another: the witness has the values
    1 and 1, 3 and 0, 2 and 0 at the times 0 and 1. *)
Theorem C117_three_refuted : exists (tr : trace B64) a b c, whole_trace 3 1 tr /\ forall dbg fuel s,
  compute_robustness dbg fuel (EAnd [EPred a GE nzero; EPred b GE nzero; EPred c GE nzero]) tr s = Throw InvalidArgument /\
  exists z, compute_robustness dbg fuel (EAnd [EPred b GE nzero; EPred c GE nzero; EPred a GE nzero]) tr s = Ok z.
Proof. exact C117_witness. Qed.
Print Assumptions C117_three_refuted.

(** Two operands never do, and the result is close to the exact one at every time. *)
Theorem C117_pair_partial : forall dbg sync (x y : signal B64) V S, wf x -> wf y -> x <> [] ->
  Forall2 (fun a b => neqb (s_time a) (s_time b) = true) x y ->
  1 <= V -> 1 <= S -> V * S <= bpow radix2 50 -> whole V S x -> whole V S y ->
  (exists z, elementwise_min dbg sync x y = Ok z /\ forall t u v, pwl (reals x) t u -> pwl (reals y) t v ->
     exists w, pwl (reals z) t w /\ Rabs (w - Rmin u v) <= bpow radix2 (-49) * V * S) /\
  (exists z, elementwise_max dbg sync x y = Ok z /\ forall t u v, pwl (reals x) t u -> pwl (reals y) t v ->
     exists w, pwl (reals z) t w /\ Rabs (w - Rmax u v) <= bpow radix2 (-49) * V * S).
Proof. exact C117_pair_lemma. Qed.
Print Assumptions C117_pair_partial.

Example C117_pair_case : wf u_x /\ wf u_y /\ u_x <> [] /\ Forall2 (fun a b => neqb (s_time a) (s_time b) = true) u_x u_y /\ whole 8 2 u_x /\ whole 8 2 u_y.
Proof. exact C117_pair_case_lemma. Qed.

(** The operands may be built with Not, Always and Eventually. *)
Theorem C117_chains_partial : forall dbg fuel (tr : trace B64) s a b V S, whole_trace V S tr -> 1 <= V -> 1 <= S -> 2 * V * S <= bpow radix2 50 ->
  chain a = true -> chain b = true -> intervals_made a -> intervals_made b -> whole_formula V tr a -> whole_formula V tr b ->
  exists x y z w, compute_robustness dbg fuel a tr s = Ok x /\ compute_robustness dbg fuel b tr s = Ok y /\
    compute_robustness dbg fuel (EAnd [a; b]) tr s = Ok z /\ compute_robustness dbg fuel (EOr [a; b]) tr s = Ok w /\
    forall t u v, pwl (reals x) t u -> pwl (reals y) t v ->
      (exists r, pwl (reals z) t r /\ Rabs (r - Rmin u v) <= bpow radix2 (-48) * V * S) /\
      (exists r, pwl (reals w) t r /\ Rabs (r - Rmax u v) <= bpow radix2 (-48) * V * S).
Proof. exact C117_chains_lemma. Qed.
Print Assumptions C117_chains_partial.

Example C117_chains_case : whole_trace 8 2 u_tr /\ (1 <= 8 /\ 1 <= 2 /\ 2 * 8 * 2 <= bpow radix2 50) /\ chain w_b = true /\ chain w_c = true /\ intervals_made w_b /\ intervals_made w_c /\
  whole_formula 8 u_tr w_b /\ whole_formula 8 u_tr w_c.
Proof. exact C117_chains_case_lemma. Qed.

(** Two predicates or negated predicates: against the exact robustness, at every time it exists. *)
Theorem C117_boolean_partial : forall dbg fuel (tr : trace B64) s op a b V S, whole_trace V S tr -> 1 <= V -> 1 <= S -> 2 * V * S <= bpow radix2 50 ->
  op = EAnd \/ op = EOr -> literal a = true -> literal b = true -> whole_formula V tr a -> whole_formula V tr b ->
  exists z, compute_robustness dbg fuel (op [a; b]) tr s = Ok z /\
    forall t r, rob (real_trace tr) (real_formula (op [a; b])) t r -> exists v, pwl (reals z) t v /\ Rabs (v - r) <= bpow radix2 (-48) * V * S.
Proof. exact C117_boolean_lemma. Qed.
Print Assumptions C117_boolean_partial.

Example C117_boolean_case : literal w_a = true /\ literal w_b = true /\ whole_formula 8 u_tr w_a /\ whole_formula 8 u_tr w_b /\
  exists z, compute_robustness true 0 (EAnd [w_a; w_b]) u_tr false = Ok z /\ (4 <= length z)%nat.
Proof. exact C117_boolean_case_lemma. Qed.

(** The same below Always or Eventually, whichever of And and Or is inside: a value beyond the error
    decides satisfaction. *)
Theorem C117_temporal_partial : forall dbg fuel (tr : trace B64) s outer op a b i V S, whole_trace V S tr -> 1 <= V -> 1 <= S -> 2 * V * S <= bpow radix2 50 ->
  outer = EAlways \/ outer = EEventually -> op = EAnd \/ op = EOr -> literal a = true -> literal b = true -> whole_formula V tr a -> whole_formula V tr b -> made_interval i ->
  exists z, compute_robustness dbg fuel (outer (op [a; b]) i) tr s = Ok z /\ z <> [] /\
    forall c, In c z -> exists r, rob (real_trace tr) (real_formula (outer (op [a; b]) i)) (B2R (s_time c)) r /\ finite (s_value c) = true /\
      Rabs (B2R (s_value c) - r) <= bpow radix2 (-48) * V * S /\
      (bpow radix2 (-48) * V * S < B2R (s_value c) -> sat (real_trace tr) (real_formula (outer (op [a; b]) i)) (B2R (s_time c))) /\
      (B2R (s_value c) < - (bpow radix2 (-48) * V * S) -> ~ sat (real_trace tr) (real_formula (outer (op [a; b]) i)) (B2R (s_time c))).
Proof. exact C117_temporal_lemma. Qed.
Print Assumptions C117_temporal_partial.

Example C117_temporal_case : made_interval (F := B64) interval_default /\
  exists z, compute_robustness true 0 (EAlways (EAnd [w_a; w_b]) interval_default) u_tr false = Ok z /\ forallb (fun c => nltb nzero (s_value c)) z = true.
Proof. exact C117_temporal_case_lemma. Qed.
