(** And and Or in double arithmetic, when they return: two operands sampled at any times, and any
    number of operands sampled at the same times. *)
From Coq Require Import Reals.
From Flocq Require Import Core.Core IEEE754.BinarySingleNaN.
From Verif Require Import Base Num NumXR NumB64.
From Verif.Model Require Import Signal MinMax Ast Robustness.
From Verif.Spec Require Import SignalSpec Pwl Formula Semantics Quantitative Accuracy Uniform Whole Apart Spaced Many.
From Verif.Proofs Require Import SpacedExamples ManyFormula ManyExamples.
Local Open Scope R_scope.

(** ** C119.  Operands sampled at different times are first interpolated at each other's times.  [V]
    bounds the values, [S] the times, and no two sample times of one operand are closer than [H]; those of
    different operands may be as close as they like. *)
Theorem C119_pair : forall dbg (x y z : signal B64) V S H, wf x -> wf y -> x <> [] -> y <> [] ->
  moderate V S H -> sized V S x -> sized V S y -> spaced H x -> spaced H y ->
  (elementwise_min dbg false x y = Ok z -> forall t u v, pwl (reals x) t u -> pwl (reals y) t v ->
     exists w, pwl (reals z) t w /\ Rabs (w - Rmin u v) <= bpow radix2 (-42) * V * S / H) /\
  (elementwise_max dbg false x y = Ok z -> forall t u v, pwl (reals x) t u -> pwl (reals y) t v ->
     exists w, pwl (reals z) t w /\ Rabs (w - Rmax u v) <= bpow radix2 (-42) * V * S / H).
Proof. exact C119_pair_lemma. Qed.
Print Assumptions C119_pair.

Example C119_pair_case : wf s_x /\ wf m_y /\ s_x <> [] /\ m_y <> [] /\ moderate 1 1 (1 / 4) /\ sized 1 1 s_x /\ sized 1 1 m_y /\ spaced (1 / 4) s_x /\ spaced (1 / 4) m_y /\
  exists z, elementwise_min true false s_x m_y = Ok z /\ length z = 6%nat.
Proof. exact C119_pair_case_lemma. Qed.

(** The operands may be built with Not, Always and Eventually. *)
Theorem C119_chains : forall dbg fuel (tr : trace B64) s op a b V S H z, spread_trace V S H tr -> moderate V S H -> op = EAnd \/ op = EOr ->
  chain a = true -> chain b = true -> intervals_made a -> intervals_made b -> in_trace V tr a -> in_trace V tr b -> compute_robustness dbg fuel (op [a; b]) tr s = Ok z ->
  exists x y, compute_robustness dbg fuel a tr s = Ok x /\ compute_robustness dbg fuel b tr s = Ok y /\
    forall t u v, pwl (reals x) t u -> pwl (reals y) t v ->
      exists w, pwl (reals z) t w /\ (op = EAnd -> Rabs (w - Rmin u v) <= bpow radix2 (-40) * V * S / H) /\ (op = EOr -> Rabs (w - Rmax u v) <= bpow radix2 (-40) * V * S / H).
Proof. exact C119_chains_lemma. Qed.
Print Assumptions C119_chains.

Example C119_chains_case : spread_trace 1 1 (1 / 4) m_tr /\ moderate 1 1 (1 / 4) /\ chain s_b = true /\ chain s_c = true /\ intervals_made s_b /\ intervals_made s_c /\
  in_trace 1 m_tr s_b /\ in_trace 1 m_tr s_c /\ exists z, compute_robustness true 0 (EOr [s_c; s_b]) m_tr false = Ok z /\ length z = 6%nat.
Proof. exact C119_chains_case_lemma. Qed.

(** Two predicates or negated predicates: against the exact robustness, at every time it exists. *)
Theorem C119_boolean : forall dbg fuel (tr : trace B64) s op a b V S H z, spread_trace V S H tr -> moderate V S H -> op = EAnd \/ op = EOr ->
  literal a = true -> literal b = true -> in_trace V tr a -> in_trace V tr b -> compute_robustness dbg fuel (op [a; b]) tr s = Ok z ->
  forall t r, rob (real_trace tr) (real_formula (op [a; b])) t r -> exists v, pwl (reals z) t v /\ Rabs (v - r) <= bpow radix2 (-39) * V * S / H.
Proof. exact C119_boolean_lemma. Qed.
Print Assumptions C119_boolean.

Example C119_boolean_case : literal s_a = true /\ literal s_b = true /\ in_trace 1 m_tr s_a /\ in_trace 1 m_tr s_b /\
  exists z, compute_robustness true 0 (EAnd [s_a; s_b]) m_tr false = Ok z /\ length z = 7%nat.
Proof. exact C119_boolean_case_lemma. Qed.

(** The same below Always or Eventually, if the signals begin together: a value beyond the error decides
    satisfaction. *)
Theorem C119_temporal : forall dbg fuel (tr : trace B64) s outer op a b i V S H z, spread_trace V S H tr -> same_begin tr -> moderate V S H ->
  outer = EAlways \/ outer = EEventually -> op = EAnd \/ op = EOr -> literal a = true -> literal b = true -> in_trace V tr a -> in_trace V tr b -> made_interval i ->
  compute_robustness dbg fuel (outer (op [a; b]) i) tr s = Ok z ->
  z <> [] /\ forall c, In c z -> exists r, rob (real_trace tr) (real_formula (outer (op [a; b]) i)) (B2R (s_time c)) r /\ finite (s_value c) = true /\
      Rabs (B2R (s_value c) - r) <= bpow radix2 (-39) * V * S / H /\
      (bpow radix2 (-39) * V * S / H < B2R (s_value c) -> sat (real_trace tr) (real_formula (outer (op [a; b]) i)) (B2R (s_time c))) /\
      (B2R (s_value c) < - (bpow radix2 (-39) * V * S / H) -> ~ sat (real_trace tr) (real_formula (outer (op [a; b]) i)) (B2R (s_time c))).
Proof. exact C119_temporal_lemma. Qed.
Print Assumptions C119_temporal.

Example C119_temporal_case : same_begin m_tr /\ made_interval (F := B64) interval_default /\
  exists z, compute_robustness true 0 (EEventually (EAnd [s_a; s_b]) interval_default) m_tr false = Ok z /\ exists c, In c z /\ nltb nzero (s_value c) = true.
Proof. exact C119_temporal_case_lemma. Qed.

(** ** C120.  Each further operand multiplies the error by at most ten: [error_of n] is
    2^-42 * 10^(n-1) * V * S / H. *)
Theorem C120_list : forall dbg (xs : list (signal B64)) z V S H, xs <> [] -> Forall (fun x => wf x /\ x <> [] /\ sized V S x /\ spaced H x) xs ->
  (forall x y, In x xs -> In y xs -> Forall2 (fun a b => neqb (s_time a) (s_time b) = true) x y) -> moderate V S H -> error_of (length xs) V S H <= V ->
  (elementwise_min_list dbg false xs = Ok z -> forall x t u, In x xs -> pwl (reals x) t u ->
     exists w m, pwl (reals z) t w /\ (exists y, In y xs /\ pwl (reals y) t m) /\ (forall y v, In y xs -> pwl (reals y) t v -> m <= v) /\ Rabs (w - m) <= error_of (length xs) V S H) /\
  (elementwise_max_list dbg false xs = Ok z -> forall x t u, In x xs -> pwl (reals x) t u ->
     exists w m, pwl (reals z) t w /\ (exists y, In y xs /\ pwl (reals y) t m) /\ (forall y v, In y xs -> pwl (reals y) t v -> v <= m) /\ Rabs (w - m) <= error_of (length xs) V S H).
Proof. exact C120_list_lemma. Qed.
Print Assumptions C120_list.

Example C120_list_case : Forall (fun x => wf x /\ x <> [] /\ sized 1 1 x /\ spaced (1 / 4) x) [s_x; s_y; m_w] /\
  (forall x y, In x [s_x; s_y; m_w] -> In y [s_x; s_y; m_w] -> Forall2 (fun a b => neqb (s_time a) (s_time b) = true) x y) /\ moderate 1 1 (1 / 4) /\ error_of 3 1 1 (1 / 4) <= 1 /\
  exists z, elementwise_min_list true false [s_x; s_y; m_w] = Ok z /\ length z = 9%nat.
Proof. exact C120_list_case_lemma. Qed.

(** The operands may be built with Not, Always and Eventually. *)
Theorem C120_chains : forall dbg fuel (tr : trace B64) s op l V S H z, spaced_trace V S H tr -> moderate V S H -> op = EAnd \/ op = EOr -> l <> [] ->
  Forall (fun a => chain a = true /\ intervals_made a /\ in_trace V tr a) l -> error_of (length l) V S H <= V -> compute_robustness dbg fuel (op l) tr s = Ok z ->
  exists xs, Forall2 (fun a x => compute_robustness dbg fuel a tr s = Ok x) l xs /\
    forall x t u, In x xs -> pwl (reals x) t u -> exists w m, pwl (reals z) t w /\ (exists y, In y xs /\ pwl (reals y) t m) /\ Rabs (w - m) <= 4 * error_of (length l) V S H /\
      forall y v, In y xs -> pwl (reals y) t v -> (op = EAnd -> m <= v) /\ (op = EOr -> v <= m).
Proof. exact C120_chains_lemma. Qed.
Print Assumptions C120_chains.

Example C120_chains_case : spaced_trace 1 1 (1 / 4) s_tr /\ Forall (fun a => chain a = true /\ intervals_made a /\ in_trace 1 s_tr a) [s_c; s_b; s_d] /\
  error_of 3 1 1 (1 / 4) <= 1 /\ exists z, compute_robustness true 0 (EAnd [s_c; s_b; s_d]) s_tr false = Ok z /\ length z = 6%nat.
Proof. exact C120_chains_case_lemma. Qed.

(** Predicates under Not, And and Or, one operand of each And and Or being composed and the others
    predicates or negated predicates; [names] lists the signal of every predicate. *)
Theorem C120_boolean : forall dbg fuel (tr : trace B64) s phi V S H z, spaced_trace V S H tr -> moderate V S H -> ladder phi = true -> in_trace V tr phi ->
  error_of (length (names phi)) V S H <= V -> compute_robustness dbg fuel phi tr s = Ok z ->
  forall t r, rob (real_trace tr) (real_formula phi) t r -> exists v, pwl (reals z) t v /\ Rabs (v - r) <= 8 * error_of (length (names phi)) V S H.
Proof. exact C120_boolean_lemma. Qed.
Print Assumptions C120_boolean.

Example C120_boolean_case : ladder s_f = true /\ in_trace 1 s_tr s_f /\ length (names s_f) = 5%nat /\ error_of 5 1 1 (1 / 4) <= 1 /\
  exists z, compute_robustness true 0 s_f s_tr false = Ok z /\ length z = 8%nat.
Proof. exact C120_boolean_case_lemma. Qed.

(** The same below Always or Eventually. *)
Theorem C120_temporal : forall dbg fuel (tr : trace B64) s outer phi i V S H z, spaced_trace V S H tr -> moderate V S H ->
  outer = EAlways \/ outer = EEventually -> ladder phi = true -> in_trace V tr phi -> error_of (length (names phi)) V S H <= V -> made_interval i ->
  compute_robustness dbg fuel (outer phi i) tr s = Ok z ->
  z <> [] /\ forall c, In c z -> exists r, rob (real_trace tr) (real_formula (outer phi i)) (B2R (s_time c)) r /\ finite (s_value c) = true /\
      Rabs (B2R (s_value c) - r) <= 8 * error_of (length (names phi)) V S H /\
      (8 * error_of (length (names phi)) V S H < B2R (s_value c) -> sat (real_trace tr) (real_formula (outer phi i)) (B2R (s_time c))) /\
      (B2R (s_value c) < - (8 * error_of (length (names phi)) V S H) -> ~ sat (real_trace tr) (real_formula (outer phi i)) (B2R (s_time c))).
Proof. exact C120_temporal_lemma. Qed.
Print Assumptions C120_temporal.

Example C120_temporal_case : made_interval (F := B64) interval_default /\
  exists z, compute_robustness true 0 (EEventually s_f interval_default) s_tr false = Ok z /\ exists c, In c z /\ nltb nzero (s_value c) = true.
Proof. exact C120_temporal_case_lemma. Qed.
