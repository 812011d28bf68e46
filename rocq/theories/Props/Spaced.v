(** And and Or of two operands in double arithmetic, when they return, on signals sampled at the same times. *)
From Coq Require Import Reals.
From Flocq Require Import Core.Core IEEE754.BinarySingleNaN.
From Verif Require Import Base Num NumXR NumB64.
From Verif.Model Require Import Signal MinMax Ast Robustness.
From Verif.Spec Require Import SignalSpec Pwl Formula Semantics Quantitative Accuracy Uniform Whole Apart Spaced.
From Verif.Proofs Require Import PairError SpacedExamples.
Local Open Scope R_scope.

(** ** C118.  A call may throw (C116), but a result that is returned is close to the exact one at
    every time: [V] bounds the values, [S] the times, and no two sample times are closer than [H]. *)
Theorem C118_pair : forall dbg sync (x y z : signal B64) V S H, wf x -> wf y -> x <> [] ->
  Forall2 (fun a b => neqb (s_time a) (s_time b) = true) x y -> ordinary V S H -> sized V S x -> sized V S y -> spaced H x ->
  (elementwise_min dbg sync x y = Ok z -> forall t u v, pwl (reals x) t u -> pwl (reals y) t v ->
     exists w, pwl (reals z) t w /\ Rabs (w - Rmin u v) <= bpow radix2 (-44) * V * S / H) /\
  (elementwise_max dbg sync x y = Ok z -> forall t u v, pwl (reals x) t u -> pwl (reals y) t v ->
     exists w, pwl (reals z) t w /\ Rabs (w - Rmax u v) <= bpow radix2 (-44) * V * S / H).
Proof. exact C118_pair_lemma. Qed.
Print Assumptions C118_pair.

Example C118_pair_case : wf s_x /\ wf s_y /\ s_x <> [] /\ Forall2 (fun a b => neqb (s_time a) (s_time b) = true) s_x s_y /\ ordinary 1 1 (1 / 4) /\
  sized 1 1 s_x /\ sized 1 1 s_y /\ spaced (1 / 4) s_x /\ exists z, elementwise_min true false s_x s_y = Ok z /\ length z = 5%nat.
Proof. exact C118_pair_case_lemma. Qed.

(** The operands may be built with Not, Always and Eventually. *)
Theorem C118_chains : forall dbg fuel (tr : trace B64) s op a b V S H z, spaced_trace V S H tr -> ordinary V S H -> op = EAnd \/ op = EOr ->
  chain a = true -> chain b = true -> intervals_made a -> intervals_made b -> in_trace V tr a -> in_trace V tr b -> compute_robustness dbg fuel (op [a; b]) tr s = Ok z ->
  exists x y, compute_robustness dbg fuel a tr s = Ok x /\ compute_robustness dbg fuel b tr s = Ok y /\
    forall t u v, pwl (reals x) t u -> pwl (reals y) t v ->
      exists w, pwl (reals z) t w /\ (op = EAnd -> Rabs (w - Rmin u v) <= bpow radix2 (-42) * V * S / H) /\ (op = EOr -> Rabs (w - Rmax u v) <= bpow radix2 (-42) * V * S / H).
Proof. exact C118_chains_lemma. Qed.
Print Assumptions C118_chains.

Example C118_chains_case : spaced_trace 1 1 (1 / 4) s_tr /\ ordinary 1 1 (1 / 4) /\ chain s_b = true /\ chain s_c = true /\ intervals_made s_b /\ intervals_made s_c /\
  in_trace 1 s_tr s_b /\ in_trace 1 s_tr s_c /\ exists z, compute_robustness true 0 (EOr [s_b; s_c]) s_tr false = Ok z /\ length z = 4%nat.
Proof. exact C118_chains_case_lemma. Qed.

(** Two predicates or negated predicates: against the exact robustness, at every time it exists. *)
Theorem C118_boolean : forall dbg fuel (tr : trace B64) s op a b V S H z, spaced_trace V S H tr -> ordinary V S H -> op = EAnd \/ op = EOr ->
  literal a = true -> literal b = true -> in_trace V tr a -> in_trace V tr b -> compute_robustness dbg fuel (op [a; b]) tr s = Ok z ->
  forall t r, rob (real_trace tr) (real_formula (op [a; b])) t r -> exists v, pwl (reals z) t v /\ Rabs (v - r) <= bpow radix2 (-41) * V * S / H.
Proof. exact C118_boolean_lemma. Qed.
Print Assumptions C118_boolean.

Example C118_boolean_case : literal s_a = true /\ literal s_b = true /\ in_trace 1 s_tr s_a /\ in_trace 1 s_tr s_b /\
  exists z, compute_robustness true 0 (EAnd [s_a; s_b]) s_tr false = Ok z /\ length z = 4%nat.
Proof. exact C118_boolean_case_lemma. Qed.

(** The same below Always or Eventually, whichever of And and Or is inside: a value beyond the error
    decides satisfaction. *)
Theorem C118_temporal : forall dbg fuel (tr : trace B64) s outer op a b i V S H z, spaced_trace V S H tr -> ordinary V S H ->
  outer = EAlways \/ outer = EEventually -> op = EAnd \/ op = EOr -> literal a = true -> literal b = true -> in_trace V tr a -> in_trace V tr b -> made_interval i ->
  compute_robustness dbg fuel (outer (op [a; b]) i) tr s = Ok z ->
  z <> [] /\ forall c, In c z -> exists r, rob (real_trace tr) (real_formula (outer (op [a; b]) i)) (B2R (s_time c)) r /\ finite (s_value c) = true /\
      Rabs (B2R (s_value c) - r) <= bpow radix2 (-41) * V * S / H /\
      (bpow radix2 (-41) * V * S / H < B2R (s_value c) -> sat (real_trace tr) (real_formula (outer (op [a; b]) i)) (B2R (s_time c))) /\
      (B2R (s_value c) < - (bpow radix2 (-41) * V * S / H) -> ~ sat (real_trace tr) (real_formula (outer (op [a; b]) i)) (B2R (s_time c))).
Proof. exact C118_temporal_lemma. Qed.
Print Assumptions C118_temporal.

Example C118_temporal_case : made_interval (F := B64) interval_default /\
  exists z, compute_robustness true 0 (EEventually (EAnd [s_a; s_b]) interval_default) s_tr false = Ok z /\ exists c, In c z /\ nltb nzero (s_value c) = true.
Proof. exact C118_temporal_case_lemma. Qed.
