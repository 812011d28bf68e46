(** And and Or of any number of operands return, in double arithmetic, if the operands are in general
    position. *)
From Coq Require Import Reals.
From Flocq Require Import Core.Core IEEE754.BinarySingleNaN.
From Verif Require Import Base Num NumXR NumB64.
From Verif.Model Require Import Signal MinMax Ast Robustness.
From Verif.Spec Require Import SignalSpec Pwl Formula Semantics Quantitative Accuracy Uniform Whole Apart Spaced Many General.
From Verif.Proofs Require Import GeneralFormula GeneralExamples.
Local Open Scope R_scope.

(** ** C121.  No two operands closer than the error of C120 at a sample time, and no two different pairs
    closer than it at the same time. *)
Theorem C121_list : forall dbg (xs : list (signal B64)) V S H, xs <> [] -> Forall (fun x => wf x /\ x <> [] /\ sized V S x /\ spaced H x) xs ->
  (forall x y, In x xs -> In y xs -> Forall2 (fun a b => neqb (s_time a) (s_time b) = true) x y) -> moderate V S H -> error_of (length xs) V S H <= V ->
  general (error_of (length xs) V S H) xs ->
  (exists z, elementwise_min_list dbg false xs = Ok z) /\ (exists z, elementwise_max_list dbg false xs = Ok z).
Proof. exact C121_list_lemma. Qed.
Print Assumptions C121_list.

(** Three lines that cross at 1/2, 1/3 and 2/3. *)
Example C121_list_case : Forall (fun x => wf x /\ x <> [] /\ sized 4 1 x /\ spaced 1 x) [g_x; g_y; g_w] /\
  (forall x y, In x [g_x; g_y; g_w] -> In y [g_x; g_y; g_w] -> Forall2 (fun a b => neqb (s_time a) (s_time b) = true) x y) /\ moderate 4 1 1 /\ error_of 3 4 1 1 <= 4 /\
  general (error_of 3 4 1 1) [g_x; g_y; g_w] /\ exists z, elementwise_min_list true false [g_x; g_y; g_w] = Ok z /\ length z = 5%nat.
Proof. exact C121_list_case_lemma. Qed.

(** The operands may be built with Not, Always and Eventually: they return, and so does And or Or if their
    signals are in general position. *)
Theorem C121_chains : forall dbg fuel (tr : trace B64) s op l V S H, spaced_trace V S H tr -> moderate V S H -> op = EAnd \/ op = EOr -> l <> [] ->
  Forall (fun a => chain a = true /\ intervals_made a /\ in_trace V tr a) l -> error_of (length l) V S H <= V ->
  exists xs, Forall2 (fun a x => compute_robustness dbg fuel a tr s = Ok x) l xs /\
    (general (4 * error_of (length l) V S H) xs -> exists z, compute_robustness dbg fuel (op l) tr s = Ok z).
Proof. exact C121_chains_lemma. Qed.
Print Assumptions C121_chains.

Example C121_chains_case : spaced_trace 4 1 1 g_tr /\ moderate 4 1 1 /\ Forall (fun a => chain a = true /\ intervals_made a /\ in_trace 4 g_tr a) [g_d; g_e; g_f] /\ error_of 3 4 1 1 <= 4 /\
  (exists xs, Forall2 (fun a x => compute_robustness true 0 a g_tr false = Ok x) [g_d; g_e; g_f] xs /\ general (4 * error_of 3 4 1 1) xs) /\
  exists z, compute_robustness true 0 (EAnd [g_d; g_e; g_f]) g_tr false = Ok z /\ length z = 5%nat.
Proof. exact C121_chains_case_lemma. Qed.

(** Predicates and negated predicates whose exact robustness is in general position. *)
Theorem C121_boolean : forall dbg fuel (tr : trace B64) s op l V S H, spaced_trace V S H tr -> moderate V S H -> op = EAnd \/ op = EOr -> l <> [] ->
  Forall (fun a => literal a = true /\ in_trace V tr a) l -> error_of (length l) V S H <= V -> general_formulas (8 * error_of (length l) V S H) tr l ->
  exists z, compute_robustness dbg fuel (op l) tr s = Ok z /\
    forall t r, rob (real_trace tr) (real_formula (op l)) t r -> exists v, pwl (reals z) t v /\ Rabs (v - r) <= 8 * error_of (length l) V S H.
Proof. exact C121_boolean_lemma. Qed.
Print Assumptions C121_boolean.

Example C121_boolean_case : Forall (fun a => literal a = true /\ in_trace 4 g_tr a) [g_a; g_b; g_c] /\ error_of 3 4 1 1 <= 4 /\ general_formulas (8 * error_of 3 4 1 1) g_tr [g_a; g_b; g_c] /\
  exists z, compute_robustness true 0 (EOr [g_a; g_b; g_c]) g_tr false = Ok z /\ length z = 3%nat.
Proof. exact C121_boolean_case_lemma. Qed.

(** The same below Always or Eventually. *)
Theorem C121_temporal : forall dbg fuel (tr : trace B64) s outer op l i V S H, spaced_trace V S H tr -> moderate V S H ->
  outer = EAlways \/ outer = EEventually -> op = EAnd \/ op = EOr -> l <> [] ->
  Forall (fun a => literal a = true /\ in_trace V tr a) l -> error_of (length l) V S H <= V -> general_formulas (8 * error_of (length l) V S H) tr l -> made_interval i ->
  exists z, compute_robustness dbg fuel (outer (op l) i) tr s = Ok z /\ z <> [] /\
    forall c, In c z -> exists r, rob (real_trace tr) (real_formula (outer (op l) i)) (B2R (s_time c)) r /\ finite (s_value c) = true /\
      Rabs (B2R (s_value c) - r) <= 8 * error_of (length l) V S H /\
      (8 * error_of (length l) V S H < B2R (s_value c) -> sat (real_trace tr) (real_formula (outer (op l) i)) (B2R (s_time c))) /\
      (B2R (s_value c) < - (8 * error_of (length l) V S H) -> ~ sat (real_trace tr) (real_formula (outer (op l) i)) (B2R (s_time c))).
Proof. exact C121_temporal_lemma. Qed.
Print Assumptions C121_temporal.

Example C121_temporal_case : made_interval (F := B64) interval_default /\
  exists z, compute_robustness true 0 (EEventually (EAnd [g_a; g_b; g_c]) interval_default) g_tr false = Ok z /\ exists c, In c z /\ nltb nzero (s_value c) = true.
Proof. exact C121_temporal_case_lemma. Qed.
