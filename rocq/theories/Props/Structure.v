(** Independence of the past, the laws of propositional logic, independence of the sampling. *)
From Coq Require Import Reals.
From Verif Require Import Base Num NumXR NumB64.
From Verif.Model Require Import Signal MonoWedge MinMax Ast Robustness.
From Verif.Spec Require Import SignalSpec Pwl Formula Semantics Quantitative Laws AstSpec.
From Verif.Proofs Require Import Causal UntilFacts RobExamples CausalExamples QuantExamples BoolLaws Resample LawExamples DerivedFacts.

(** ** C85 *)
Theorem C85_causal : forall dbg fuel phi (tr : trace B64) s z t, keys_unique tr -> free_of is_const phi = true -> free_of (short 1) phi = true ->
  finite t = true -> (forall n x, In n (names phi) -> has_signal tr n x -> wf x /\ sample_at t x) ->
  compute_robustness dbg fuel phi tr s = Ok z ->
  compute_robustness dbg fuel phi (map_trace (since t) tr) s = Ok (since t z) /\ sample_at t z.
Proof. exact C85_lemma. Qed.
Print Assumptions C85_causal.

Example C85_case : keys_unique ctr /\ free_of is_const bphi = true /\ free_of (short 1) bphi = true /\ finite ct = true /\
  (forall n x, In n (names bphi) -> has_signal ctr n x -> wf x /\ sample_at ct x) /\
  exists z, compute_robustness true 0 bphi ctr false = Ok z /\ (length (since ct z) < length z)%nat.
Proof. exact C85_case_lemma. Qed.

Theorem C85_past_irrelevant : forall dbg fuel phi (tr tr' : trace B64) s z z' t, keys_unique tr -> keys_unique tr' ->
  free_of is_const phi = true -> free_of (short 1) phi = true -> finite t = true ->
  (forall n x x', In n (names phi) -> has_signal tr n x -> has_signal tr' n x' ->
     wf x /\ sample_at t x /\ wf x' /\ sample_at t x' /\ since t x = since t x') ->
  compute_robustness dbg fuel phi tr s = Ok z -> compute_robustness dbg fuel phi tr' s = Ok z' ->
  since t z = since t z'.
Proof. exact C85_past_lemma. Qed.
Print Assumptions C85_past_irrelevant.

Example C85_past_case : keys_unique ctr /\ keys_unique ctr' /\ free_of is_const bphi = true /\ free_of (short 1) bphi = true /\ finite ct = true /\
  (forall n x x', In n (names bphi) -> has_signal ctr n x -> has_signal ctr' n x' ->
     wf x /\ sample_at ct x /\ wf x' /\ sample_at ct x' /\ since ct x = since ct x') /\
  exists z z', compute_robustness true 0 bphi ctr false = Ok z /\ compute_robustness true 0 bphi ctr' false = Ok z' /\
    neqb (begin_time z) (begin_time z') = false.
Proof. exact C85_past_case_lemma. Qed.

(** ** C86 *)
Theorem C86_not : forall dbg fuel lt tr t0 s, trace_of lt tr -> keys_unique tr -> all_start lt t0 -> forall e t v, evaluable lt (ENot e) ->
  (gives dbg fuel tr s (ENot e) t v <-> gives dbg fuel tr s e t (- v)).
Proof. exact C86_not_lemma. Qed.
Print Assumptions C86_not.

Theorem C86_and : forall dbg fuel lt tr t0 s, trace_of lt tr -> keys_unique tr -> all_start lt t0 -> forall l t v, evaluable lt (EAnd l) ->
  (gives dbg fuel tr s (EAnd l) t v <->
   (exists e, In e l /\ gives dbg fuel tr s e t v) /\ forall e, In e l -> exists w, gives dbg fuel tr s e t w /\ v <= w).
Proof. exact C86_and_lemma. Qed.
Print Assumptions C86_and.

Theorem C86_or : forall dbg fuel lt tr t0 s, trace_of lt tr -> keys_unique tr -> all_start lt t0 -> forall l t v, evaluable lt (EOr l) ->
  (gives dbg fuel tr s (EOr l) t v <->
   (exists e, In e l /\ gives dbg fuel tr s e t v) /\ forall e, In e l -> exists w, gives dbg fuel tr s e t w /\ w <= v).
Proof. exact C86_or_lemma. Qed.
Print Assumptions C86_or.

Theorem C86_laws : forall dbg fuel lt tr t0 s, trace_of lt tr -> keys_unique tr -> all_start lt t0 -> forall phi psi t v,
  law phi psi \/ absorption phi psi -> evaluable lt phi -> evaluable lt psi -> inside lt phi t -> inside lt psi t ->
  (gives dbg fuel tr s phi t v <-> gives dbg fuel tr s psi t v).
Proof. exact C86_law_lemma. Qed.
Print Assumptions C86_laws.

Example C86_case : trace_of lt1 tr1 /\ keys_unique tr1 /\ all_start lt1 0 /\ law law_l law_r /\ evaluable lt1 law_l /\ evaluable lt1 law_r /\
  inside lt1 law_l (1/3) /\ inside lt1 law_r (1/3) /\ exists v, gives true 0 tr1 false law_l (1/3) v.
Proof. exact C86_case_lemma. Qed.

(** ** C87 *)
Theorem C87_rewriting_partial : forall dbg fuel lt tr t0 phi psi s v, trace_of lt tr -> keys_unique tr -> all_start lt t0 -> rewrite1 phi psi ->
  evaluable lt phi -> evaluable lt psi -> first_exact phi = true -> first_exact psi = true ->
  (gives dbg fuel tr s phi t0 v <-> gives dbg fuel tr s psi t0 v).
Proof. exact C87_lemma. Qed.
Print Assumptions C87_rewriting_partial.

Example C87_case : trace_of lt1 tr1 /\ keys_unique tr1 /\ all_start lt1 0 /\ rewrite1 (ctx dm_l) (ctx dm_r) /\
  evaluable lt1 (ctx dm_l) /\ evaluable lt1 (ctx dm_r) /\ first_exact (ctx dm_l) = true /\ first_exact (ctx dm_r) = true.
Proof. exact C87_case_lemma. Qed.

(** Later than the first time, reordering an And of three under Eventually changes the value:
    between the first two samples [a] and [b] of one result, the line from [a] is above the
    sample [c] of the other. *)
Theorem C87_rewriting_refuted : exists (phi psi : expr B64) tr z z' a b c, rewrite1 phi psi /\ keys_unique tr /\
  Forall (fun e => wf (snd e) /\ neqb (begin_time (snd e)) nzero = true) tr /\
  compute_robustness true 0 phi tr false = Ok z /\ compute_robustness true 0 psi tr false = Ok z' /\
  nth_error z 0 = Some a /\ nth_error z 1 = Some b /\ In c z' /\ nltb (s_time a) (s_time c) = true /\ nltb (s_time c) (s_time b) = true /\
  nltb (s_value c) (interpolate a (s_time c)) = true.
Proof. exact C87_witness. Qed.
Print Assumptions C87_rewriting_refuted.

(** ** C88 *)
Theorem C88_resampling_partial : forall dbg fuel lt lt' tr tr' t0 phi s, trace_of lt tr -> trace_of lt' tr' -> same_functions lt lt' ->
  keys_unique tr -> keys_unique tr' -> all_start lt t0 -> evaluable lt phi ->
  (free_of is_temporal phi = true -> forall t v, gives dbg fuel tr s phi t v <-> gives dbg fuel tr' s phi t v) /\
  (first_exact phi = true -> forall v, gives dbg fuel tr s phi t0 v <-> gives dbg fuel tr' s phi t0 v).
Proof. exact C88_lemma. Qed.
Print Assumptions C88_resampling_partial.

Example C88_case : trace_of (one_lt lx2) (one_tr lx2) /\ trace_of (one_lt lx3) (one_tr lx3) /\ same_functions (one_lt lx2) (one_lt lx3) /\
  keys_unique (one_tr lx2) /\ keys_unique (one_tr lx3) /\ all_start (one_lt lx2) 0 /\
  evaluable (one_lt lx2) gx /\ free_of is_temporal gx = true /\ lx2 <> lx3 /\
  evaluable (one_lt lx2) (EEventually gx interval_default) /\ first_exact (EEventually gx interval_default) = true.
Proof. exact C88_case_lemma. Qed.

Theorem C88_resampling_refuted : exists lt lt' tr tr' phi t v w, trace_of lt tr /\ trace_of lt' tr' /\ same_functions lt lt' /\
  keys_unique tr /\ keys_unique tr' /\ all_start lt 0 /\ evaluable lt phi /\
  gives true 0 tr false phi t v /\ gives true 0 tr' false phi t w /\ v <> w.
Proof. exact C88_witness. Qed.
Print Assumptions C88_resampling_refuted.

(** ** C95 *)
Theorem C95_derived : forall dbg fuel lt tr t0 s, trace_of lt tr -> keys_unique tr -> all_start lt t0 -> forall t x y a b,
  evaluable lt x -> evaluable lt y -> gives dbg fuel tr s x t a -> gives dbg fuel tr s y t b ->
  gives dbg fuel tr s (op_not x) t (- a) /\ gives dbg fuel tr s (Not_ x) t (- a) /\
  builds dbg fuel lt tr s (op_and x y) t (Rmin a b) /\ builds dbg fuel lt tr s (op_or x y) t (Rmax a b) /\
  builds dbg fuel lt tr s (Implies_ x y) t (Rmax (- a) b) /\
  builds dbg fuel lt tr s (Xor_ x y) t (Rmin (Rmax a b) (Rmax (- a) (- b))) /\
  builds dbg fuel lt tr s (Iff_ x y) t (Rmax (Rmin a b) (Rmin (- a) (- b))).
Proof. exact C95_lemma. Qed.
Print Assumptions C95_derived.

Example C95_case : trace_of lt1 tr1 /\ keys_unique tr1 /\ all_start lt1 0 /\ evaluable lt1 c95_x /\ evaluable lt1 c95_y /\
  (exists a, gives true 0 tr1 false c95_x (1/3) a) /\ (exists b, gives true 0 tr1 false c95_y (1/3) b) /\ is_and c95_x = true.
Proof. exact C95_case_lemma. Qed.
