(** C125: C124 from the text of a specification. *)
From Coq Require Import Ascii Reals Lra.
From Flocq Require Import Core.Core IEEE754.BinarySingleNaN.
From Verif Require Import Base Num NumXR NumB64.
From Verif.Model Require Import Signal Ast Robustness Peg Parser.
From Verif.Proofs Require Import NumFacts B64Facts RobFacts RobExact QuantFacts AstFacts TokenEval SpecFacts InlineFacts WriteOut MonitorFacts LayerFacts LayerText PerturbFacts JoinFormula SpacedFormula ManyFormula TreeFormula TreePosition.
From Verif.Spec Require Import SignalSpec Pwl Formula Semantics Quantitative Accuracy Uniform Whole Apart Spaced Many General Tree AstSpec Text Syntax Monitor.
Local Open Scope R_scope.

Lemma timeless_layered t : timeless t = true -> leaves is_pred t = true -> layered_term t = true.
Proof.
  induction t as [b|x|o x w|o w x| |t IH|ts IH|ts IH|t v IHt IHu|t v IHt IHu|t v IHt IHu|t IH|t IH|t v IHt IHu] using term_induction; intros T L; cbn [timeless leaves layered_term] in *; try discriminate; auto;
    try (apply andb_prop in L as [L1 L2]; apply andb_prop in T as [T1 T2]; rewrite (IHt T1 L1), (IHu T2 L2); reflexivity).
  - apply forallb_forall. intros t Ht. rewrite forallb_forall in L, T. rewrite Forall_forall in IH. auto.
  - apply forallb_forall. intros t Ht. rewrite forallb_forall in L, T. rewrite Forall_forall in IH. auto.
Qed.
Lemma layered_boolean (e : expr B64) : layered e = true -> free_of is_temporal (real_formula e) = true -> boolean e = true.
Proof.
  assert (LIST : forall l, Forall (fun e => layered e = true -> free_of is_temporal (real_formula e) = true -> boolean e = true) l ->
    negb (Nat.eqb (length l) 0) && forallb layered l = true -> forallb (free_of is_temporal) (map real_formula l) = true -> match l with a :: l => boolean a && forallb boolean l | [] => false end = true).
  { intros l F B T. apply andb_prop in B as [N B]. destruct l as [|a l]; [discriminate N|]. cbn [map] in T. inversion F as [|? ? Fa Fl]; subst. cbn [forallb] in B, T. apply andb_prop in B as [B1 B2]. apply andb_prop in T as [T1 T2].
    rewrite (Fa B1 T1). cbn [andb]. apply forallb_forall. intros f Hf. rewrite Forall_forall in Fl. rewrite forallb_forall in B2, T2. apply (Fl f Hf (B2 f Hf)). apply T2, in_map, Hf. }
  induction e using expr_rec; intros B T; try discriminate; auto.
  - cbn [real_formula free_of is_temporal negb andb] in T. apply (LIST l); assumption.
  - cbn [real_formula free_of is_temporal negb andb] in T. apply (LIST l); assumption.
Qed.

Lemma mark_timeless t : timeless (mark t) = timeless t.
Proof.
  induction t as [b|x|o x w|o w x| |t IH|ts IH|ts IH|t v IHt IHu|t v IHt IHu|t v IHt IHu|t IH|t IH|t v IHt IHu] using term_induction; cbn [mark timeless]; try reflexivity; try assumption; try congruence.
  - induction IH as [|t ts Ht _ IH']; [reflexivity|]. cbn [map forallb]. rewrite Ht, IH'. reflexivity.
  - induction IH as [|t ts Ht _ IH']; [reflexivity|]. cbn [map forallb]. rewrite Ht, IH'. reflexivity.
Qed.

Section Facts.
Variable stod : list ascii -> option B64.
Hypothesis FIN : forall w v, stod w = Some v -> finite v = true.
Variables (dbg : bool) (fuel : nat) (tr : trace B64) (s : bool) (V S H : R).
Hypothesis ST : spread_trace V S H tr.
Hypothesis SB : same_begin tr.
Hypothesis TA : times_apart tr.
Hypothesis MO : moderate V S H.

(** What the formula of a written-out term has in common with the term. *)
Lemma written u e : leaves is_pred u = true -> (forall n, In n (signals u) -> exists y, has_signal tr n y) -> term_value stod code_two code_empty (fun _ => None) u = Ok e ->
  (forall n, In n (names e) <-> In n (signals u)) /\ (timeless u = true -> boolean e = true) /\
  (forall t, sat (real_trace tr) (real_formula e) t <-> holds (double_literal stod) (real_trace tr) u t).
Proof.
  intros L N Ve. pose proof (real_term stod u L e Ve) as Vr.
  assert (N' : forall n, In n (signals (mark u)) -> exists l, In (n, l) (real_trace tr)).
  { rewrite mark_signals. intros n Hn. destruct (N n Hn) as (y & Hy). exists (reals y). apply in_map_iff. exists (n, y). split; [reflexivity|exact Hy]. }
  pose proof (good_term (stod' stod) (real_trace tr) (stod'_real stod) _ _ _ (mark u) (eq_trans (mark_leaves u) L) N' _ Vr) as Ge.
  split; [|split].
  - intros n. rewrite <- (mark_signals u), <- names_real. apply (g_names _ _ _ Ge).
  - intros T. destruct (layered_value stod FIN u (timeless_layered u T L) e Ve) as (A & _). apply layered_boolean; [exact A|]. apply (g_plain _ _ _ Ge).
    cbn [k_of k_plain]. rewrite mark_timeless. exact T.
  - intros t. pose proof (g_sat _ _ _ Ge t) as K. cbn [k_of k_sat] in K. rewrite (mark_holds stod FIN) in K. exact K.
Qed.

Lemma verdict u e : leaves is_pred u = true -> timeless u = true -> (forall n, In n (signals u) -> exists y, has_signal tr n y) -> term_value stod code_two code_empty (fun _ => None) u = Ok e ->
  constants_within V e -> error_of (length (names e)) V S H <= V -> general_formulas (8 * error_of (length (names e)) V S H) tr (signed_predicates false e) ->
  exists z, compute_robustness dbg fuel e tr s = Ok z /\ forall t, defined (real_trace tr) u t -> exists v, pwl (reals z) t v /\
    (8 * error_of (length (names e)) V S H < v -> holds (double_literal stod) (real_trace tr) u t) /\
    (v < - (8 * error_of (length (names e)) V S H) -> ~ holds (double_literal stod) (real_trace tr) u t).
Proof.
  intros L T N Ve CW EV GP. destruct (written u e L N Ve) as (NN & B & SA). specialize (B T).
  assert (IT : in_trace V tr e) by (split; [exact CW|intros n Hn; apply N, NN, Hn]).
  destruct (C124_boolean_lemma dbg fuel tr s e V S H ST SB TA MO B IT EV GP) as (z & Hz & K). exists z. split; [exact Hz|]. intros t D.
  destruct ST as (U & G & WH). pose proof (boolean_evaluable tr V e B IT) as EE. destruct (boolean_plain e B) as (NT & _).
  destruct (xtr_good tr U (G3s tr V S H G WH) (begins tr V S H G WH SB)) as (t0 & GD).
  destruct (good_total _ _ t0 GD true (real_formula e) t EE (extreme_free true _ NT)) as (r & Hr). { intros n Hn. apply D, NN. rewrite names_real in Hn. exact Hn. }
  destruct (K t r Hr) as (v & Pv & Dv). exists v. split; [exact Pv|]. destruct (rob_sign _ _ t0 GD _ EE (or_intror (ex_intro _ true (extreme_free true _ NT))) t r Hr) as (S1 & S2). rewrite <- SA. apply Rabs_le_inv in Dv.
  split; intros Hv; [apply S1|apply S2]; lra.
Qed.

Lemma verdict_temporal (p : bool) u f : leaves is_pred u = true -> timeless u = true -> (forall n, In n (signals u) -> exists y, has_signal tr n y) -> term_value stod code_two code_empty (fun _ => None) u = Ok f ->
  constants_within V f -> error_of (length (names f)) V S H <= V -> general_formulas (8 * error_of (length (names f)) V S H) tr (signed_predicates false f) ->
  exists z, compute_robustness dbg fuel (if p then EAlways f interval_default else EEventually f interval_default) tr s = Ok z /\ z <> [] /\ forall c, In c z -> finite (s_value c) = true /\
    (8 * error_of (length (names f)) V S H < B2R (s_value c) -> holds (double_literal stod) (real_trace tr) (if p then TAlways u else TEventually u) (B2R (s_time c))) /\
    (B2R (s_value c) < - (8 * error_of (length (names f)) V S H) -> ~ holds (double_literal stod) (real_trace tr) (if p then TAlways u else TEventually u) (B2R (s_time c))).
Proof.
  intros L T N Vf CW EV GP. destruct (written u f L N Vf) as (NN & B & _). specialize (B T).
  assert (IT : in_trace V tr f) by (split; [exact CW|intros n Hn; apply N, NN, Hn]).
  set (w := if p then TAlways u else TEventually u).
  assert (Ve : term_value stod code_two code_empty (fun _ => None) w = Ok (if p then EAlways f interval_default else EEventually f interval_default)) by (unfold w; destruct p; cbn [term_value]; rewrite Vf; reflexivity).
  destruct (written w _ (ltac:(unfold w; destruct p; exact L)) (ltac:(unfold w; destruct p; exact N)) Ve) as (_ & _ & SA).
  destruct (C124_temporal_lemma dbg fuel tr s (if p then EAlways else EEventually) f interval_default V S H ST SB TA MO (ltac:(destruct p; auto)) B IT EV GP (or_introl eq_refl)) as (z & Hz & Nz & K).
  assert (E : (if p then EAlways else EEventually) f interval_default = if p then EAlways f interval_default else EEventually f interval_default) by (destruct p; reflexivity).
  rewrite E in *. exists z. split; [exact Hz|]. split; [exact Nz|]. intros c Hc. destruct (K c Hc) as (r & _ & Fc & _ & P & Q). split; [exact Fc|]. rewrite <- SA. split; assumption.
Qed.
End Facts.

(** ** C125 *)
Lemma C125_boolean_lemma (stod : list ascii -> option B64) : (forall w v, stod w = Some v -> finite v = true) ->
  forall dbg fuel cs txt g (tr : trace B64) s x u V S H,
  all_leaves ref_ok cs = true -> spec_text cs txt -> from_string dbg stod txt = Ok g -> In (x, u) (asserted [] cs) -> leaves is_pred u = true -> timeless u = true ->
  spread_trace V S H tr -> same_begin tr -> times_apart tr -> moderate V S H -> (forall n, In n (signals u) -> exists y, has_signal tr n y) ->
  exists e, lookup (assertions g) x = Some e /\
    (constants_within V e -> error_of (length (names e)) V S H <= V -> general_formulas (8 * error_of (length (names e)) V S H) tr (signed_predicates false e) ->
     exists z, compute_robustness dbg fuel e tr s = Ok z /\ forall t, defined (real_trace tr) u t -> exists v, pwl (reals z) t v /\
       (8 * error_of (length (names e)) V S H < v -> holds (double_literal stod) (real_trace tr) u t) /\
       (v < - (8 * error_of (length (names e)) V S H) -> ~ holds (double_literal stod) (real_trace tr) u t)).
Proof.
  intros FIN dbg fuel cs txt g tr s x u V S H R T G K L TL ST SB TA MO N. destruct (asserted_formula stod dbg cs txt g x u R T G K) as (e & Le & Ve).
  exists e. split; [exact Le|]. intros CW EV GP. apply verdict; assumption.
Qed.
Lemma temporal_value stod (p : bool) u e : term_value stod code_two code_empty (fun _ => None) (if p then TAlways u else TEventually u) = Ok e ->
  exists f, e = (if p then EAlways f interval_default else EEventually f interval_default) /\ term_value stod code_two code_empty (fun _ => None) u = Ok f.
Proof. intros E. destruct p; cbn [term_value] in E; apply bind_ok_inv in E as (f & Hf & E); injection E as <-; eauto. Qed.
Lemma C125_always_lemma (stod : list ascii -> option B64) : (forall w v, stod w = Some v -> finite v = true) ->
  forall dbg fuel cs txt g (tr : trace B64) s x u V S H,
  all_leaves ref_ok cs = true -> spec_text cs txt -> from_string dbg stod txt = Ok g -> In (x, TAlways u) (asserted [] cs) -> leaves is_pred u = true -> timeless u = true ->
  spread_trace V S H tr -> same_begin tr -> times_apart tr -> moderate V S H -> (forall n, In n (signals u) -> exists y, has_signal tr n y) ->
  exists f, lookup (assertions g) x = Some (EAlways f interval_default) /\
    (constants_within V f -> error_of (length (names f)) V S H <= V -> general_formulas (8 * error_of (length (names f)) V S H) tr (signed_predicates false f) ->
     exists z, compute_robustness dbg fuel (EAlways f interval_default) tr s = Ok z /\ z <> [] /\ forall c, In c z -> finite (s_value c) = true /\
       (8 * error_of (length (names f)) V S H < B2R (s_value c) -> holds (double_literal stod) (real_trace tr) (TAlways u) (B2R (s_time c))) /\
       (B2R (s_value c) < - (8 * error_of (length (names f)) V S H) -> ~ holds (double_literal stod) (real_trace tr) (TAlways u) (B2R (s_time c)))).
Proof.
  intros FIN dbg fuel cs txt g tr s x u V S H R T G K L TL ST SB TA MO N. destruct (asserted_formula stod dbg cs txt g x _ R T G K) as (e & Le & Ve).
  destruct (temporal_value stod true u e Ve) as (f & -> & Vf). exists f. split; [exact Le|]. intros CW EV GP. apply (verdict_temporal stod FIN dbg fuel tr s V S H ST SB TA MO true u f); assumption.
Qed.
Lemma C125_eventually_lemma (stod : list ascii -> option B64) : (forall w v, stod w = Some v -> finite v = true) ->
  forall dbg fuel cs txt g (tr : trace B64) s x u V S H,
  all_leaves ref_ok cs = true -> spec_text cs txt -> from_string dbg stod txt = Ok g -> In (x, TEventually u) (asserted [] cs) -> leaves is_pred u = true -> timeless u = true ->
  spread_trace V S H tr -> same_begin tr -> times_apart tr -> moderate V S H -> (forall n, In n (signals u) -> exists y, has_signal tr n y) ->
  exists f, lookup (assertions g) x = Some (EEventually f interval_default) /\
    (constants_within V f -> error_of (length (names f)) V S H <= V -> general_formulas (8 * error_of (length (names f)) V S H) tr (signed_predicates false f) ->
     exists z, compute_robustness dbg fuel (EEventually f interval_default) tr s = Ok z /\ z <> [] /\ forall c, In c z -> finite (s_value c) = true /\
       (8 * error_of (length (names f)) V S H < B2R (s_value c) -> holds (double_literal stod) (real_trace tr) (TEventually u) (B2R (s_time c))) /\
       (B2R (s_value c) < - (8 * error_of (length (names f)) V S H) -> ~ holds (double_literal stod) (real_trace tr) (TEventually u) (B2R (s_time c)))).
Proof.
  intros FIN dbg fuel cs txt g tr s x u V S H R T G K L TL ST SB TA MO N. destruct (asserted_formula stod dbg cs txt g x _ R T G K) as (e & Le & Ve).
  destruct (temporal_value stod false u e Ve) as (f & -> & Vf). exists f. split; [exact Le|]. intros CW EV GP. apply (verdict_temporal stod FIN dbg fuel tr s V S H ST SB TA MO false u f); assumption.
Qed.
