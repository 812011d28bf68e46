(** C127: C126 from the text of a specification. *)
From Coq Require Import Ascii Reals Lra.
From Flocq Require Import Core.Core IEEE754.BinarySingleNaN.
From Verif Require Import Base Num NumXR NumB64.
From Verif.Model Require Import Signal Ast Robustness Peg Parser.
From Verif.Proofs Require Import NumFacts B64Facts AstFacts TokenEval SpecFacts InlineFacts WriteOut MonitorFacts LayerFacts LayerText PerturbFacts UniformFacts TreeTimes QuantFacts TreeFormula TreePosition TreeText TreePerturb.
From Verif.Spec Require Import SignalSpec Pwl Formula Semantics Quantitative Accuracy Uniform Whole Apart Spaced Many General Tree AstSpec Text Syntax Monitor Perturb.
Local Open Scope R_scope.

Section Facts.
Variable stod : list ascii -> option B64.
Hypothesis FIN : forall w v, stod w = Some v -> finite v = true.

(** The formula of a written-out term says what the term says, on any trace with its signals. *)
Lemma same_meaning lt u e : leaves is_pred u = true -> (forall n, In n (signals u) -> exists l, In (n, l) lt) -> term_value stod code_two code_empty (fun _ => None) u = Ok e ->
  forall t, sat lt (real_formula e) t <-> holds (double_literal stod) lt u t.
Proof.
  intros L N Ve t. pose proof (real_term stod u L e Ve) as Vr.
  assert (N' : forall n, In n (signals (mark u)) -> exists l, In (n, l) lt) by (rewrite mark_signals; exact N).
  pose proof (good_term (stod' stod) lt (stod'_real stod) _ _ _ (mark u) (eq_trans (mark_leaves u) L) N' _ Vr) as Ge.
  pose proof (g_sat _ _ _ Ge t) as K. cbn [k_of k_sat] in K. rewrite (mark_holds stod FIN) in K. exact K.
Qed.
Lemma close_signals (tr : trace B64) lt' d n y : Perturb.close d (real_trace tr) lt' -> has_signal tr n y -> exists l, In (n, l) lt'.
Proof.
  intros C Hy. assert (K : In (n, reals y) (real_trace tr)) by (apply in_map_iff; exists (n, y); auto).
  destruct (F2_l _ _ _ _ C K) as ([m l'] & H2 & E & _). cbn [fst] in E. subst m. eauto.
Qed.
End Facts.

(** ** C127 *)
Lemma C127_boolean_lemma (stod : list ascii -> option B64) : (forall w v, stod w = Some v -> finite v = true) ->
  forall dbg fuel cs txt g (tr : trace B64) s x u V S H d lt',
  all_leaves ref_ok cs = true -> spec_text cs txt -> from_string dbg stod txt = Ok g -> In (x, u) (asserted [] cs) -> leaves is_pred u = true -> timeless u = true ->
  spread_trace V S H tr -> same_begin tr -> times_apart tr -> moderate V S H -> (forall n, In n (signals u) -> exists y, has_signal tr n y) -> Perturb.close d (real_trace tr) lt' ->
  exists e, lookup (assertions g) x = Some e /\
    (constants_within V e -> error_of (length (names e)) V S H <= V -> general_formulas (8 * error_of (length (names e)) V S H) tr (signed_predicates false e) ->
     exists z, compute_robustness dbg fuel e tr s = Ok z /\ forall t, defined (real_trace tr) u t -> exists v, pwl (reals z) t v /\
       (8 * error_of (length (names e)) V S H + d < v -> holds (double_literal stod) lt' u t) /\
       (v < - (8 * error_of (length (names e)) V S H + d) -> ~ holds (double_literal stod) lt' u t)).
Proof.
  intros FIN dbg fuel cs txt g tr s x u V S H d lt' R T G K L TL ST SB TA MO N C. destruct (asserted_formula stod dbg cs txt g x u R T G K) as (e & Le & Ve).
  exists e. split; [exact Le|]. intros CW EV GP. destruct (written stod FIN tr u e L N Ve) as (NN & B & _). specialize (B TL).
  assert (IT : in_trace V tr e) by (split; [exact CW|intros n Hn; apply N, NN, Hn]).
  assert (SM : forall t, sat lt' (real_formula e) t <-> holds (double_literal stod) lt' u t).
  { apply (same_meaning stod FIN lt' u e L); [|exact Ve]. intros n Hn. destruct (N n Hn) as (y & Hy). exact (close_signals tr lt' d n y C Hy). }
  destruct (C126_boolean_lemma dbg fuel tr s e V S H d ST SB TA MO B IT EV GP lt' C) as (z & Hz & Q). exists z. split; [exact Hz|]. intros t D.
  destruct (Q t) as (v & Pv & Q1 & Q2). { intros n Hn. apply D, NN. rewrite names_real in Hn. exact Hn. }
  exists v. split; [exact Pv|]. rewrite <- SM. split; assumption.
Qed.
Lemma C127_always_lemma (stod : list ascii -> option B64) : (forall w v, stod w = Some v -> finite v = true) ->
  forall dbg fuel cs txt g (tr : trace B64) s x u V S H d lt',
  all_leaves ref_ok cs = true -> spec_text cs txt -> from_string dbg stod txt = Ok g -> In (x, TAlways u) (asserted [] cs) -> leaves is_pred u = true -> timeless u = true ->
  spread_trace V S H tr -> same_begin tr -> times_apart tr -> moderate V S H -> (forall n, In n (signals u) -> exists y, has_signal tr n y) -> Perturb.close d (real_trace tr) lt' ->
  exists f, lookup (assertions g) x = Some (EAlways f interval_default) /\
    (constants_within V f -> error_of (length (names f)) V S H <= V -> general_formulas (8 * error_of (length (names f)) V S H) tr (signed_predicates false f) ->
     exists z, compute_robustness dbg fuel (EAlways f interval_default) tr s = Ok z /\ z <> [] /\ forall c, In c z -> finite (s_value c) = true /\
       (8 * error_of (length (names f)) V S H + d < B2R (s_value c) -> holds (double_literal stod) lt' (TAlways u) (B2R (s_time c))) /\
       (B2R (s_value c) < - (8 * error_of (length (names f)) V S H + d) -> ~ holds (double_literal stod) lt' (TAlways u) (B2R (s_time c)))).
Proof.
  intros FIN dbg fuel cs txt g tr s x u V S H d lt' R T G K L TL ST SB TA MO N C. destruct (asserted_formula stod dbg cs txt g x _ R T G K) as (e & Le & Ve).
  destruct (temporal_value stod true u e Ve) as (f & -> & Vf). exists f. split; [exact Le|]. intros CW EV GP. destruct (written stod FIN tr u f L N Vf) as (NN & B & _). specialize (B TL).
  assert (IT : in_trace V tr f) by (split; [exact CW|intros n Hn; apply N, NN, Hn]).
  assert (SM : forall t, sat lt' (real_formula (EAlways f interval_default)) t <-> holds (double_literal stod) lt' (TAlways u) t).
  { apply (same_meaning stod FIN lt' (TAlways u) (EAlways f interval_default) L); [|exact Ve]. intros n Hn. destruct (N n Hn) as (y & Hy). exact (close_signals tr lt' d n y C Hy). }
  destruct (C126_temporal_lemma dbg fuel tr s f V S H d ST SB TA MO B IT EV GP lt' EAlways interval_default ltac:(auto) (or_introl eq_refl) C) as (z & Hz & Nz & Q).
  exists z. split; [exact Hz|]. split; [exact Nz|]. intros c Hc. destruct (Q c Hc) as (Fc & Q1 & Q2). split; [exact Fc|]. rewrite <- SM. split; assumption.
Qed.
Lemma C127_eventually_lemma (stod : list ascii -> option B64) : (forall w v, stod w = Some v -> finite v = true) ->
  forall dbg fuel cs txt g (tr : trace B64) s x u V S H d lt',
  all_leaves ref_ok cs = true -> spec_text cs txt -> from_string dbg stod txt = Ok g -> In (x, TEventually u) (asserted [] cs) -> leaves is_pred u = true -> timeless u = true ->
  spread_trace V S H tr -> same_begin tr -> times_apart tr -> moderate V S H -> (forall n, In n (signals u) -> exists y, has_signal tr n y) -> Perturb.close d (real_trace tr) lt' ->
  exists f, lookup (assertions g) x = Some (EEventually f interval_default) /\
    (constants_within V f -> error_of (length (names f)) V S H <= V -> general_formulas (8 * error_of (length (names f)) V S H) tr (signed_predicates false f) ->
     exists z, compute_robustness dbg fuel (EEventually f interval_default) tr s = Ok z /\ z <> [] /\ forall c, In c z -> finite (s_value c) = true /\
       (8 * error_of (length (names f)) V S H + d < B2R (s_value c) -> holds (double_literal stod) lt' (TEventually u) (B2R (s_time c))) /\
       (B2R (s_value c) < - (8 * error_of (length (names f)) V S H + d) -> ~ holds (double_literal stod) lt' (TEventually u) (B2R (s_time c)))).
Proof.
  intros FIN dbg fuel cs txt g tr s x u V S H d lt' R T G K L TL ST SB TA MO N C. destruct (asserted_formula stod dbg cs txt g x _ R T G K) as (e & Le & Ve).
  destruct (temporal_value stod false u e Ve) as (f & -> & Vf). exists f. split; [exact Le|]. intros CW EV GP. destruct (written stod FIN tr u f L N Vf) as (NN & B & _). specialize (B TL).
  assert (IT : in_trace V tr f) by (split; [exact CW|intros n Hn; apply N, NN, Hn]).
  assert (SM : forall t, sat lt' (real_formula (EEventually f interval_default)) t <-> holds (double_literal stod) lt' (TEventually u) t).
  { apply (same_meaning stod FIN lt' (TEventually u) (EEventually f interval_default) L); [|exact Ve]. intros n Hn. destruct (N n Hn) as (y & Hy). exact (close_signals tr lt' d n y C Hy). }
  destruct (C126_temporal_lemma dbg fuel tr s f V S H d ST SB TA MO B IT EV GP lt' EEventually interval_default ltac:(auto) (or_introl eq_refl) C) as (z & Hz & Nz & Q).
  exists z. split; [exact Hz|]. split; [exact Nz|]. intros c Hc. destruct (Q c Hc) as (Fc & Q1 & Q2). split; [exact Fc|]. rewrite <- SM. split; assumption.
Qed.
