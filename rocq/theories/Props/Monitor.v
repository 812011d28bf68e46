(** C105: from the text of a specification to the verdict on a trace. *)
From Coq Require Import Ascii Reals.
From Verif Require Import Base Num NumXR.
From Verif.Model Require Import Signal Ast Robustness Parser.
From Verif.Proofs Require Import RobExamples PerturbExamples MonitorFacts.
From Verif.Spec Require Import Pwl Formula Semantics Perturb Text Syntax Monitor.
Open Scope R_scope.

(** [stod]: the values of decimal literals.  [u]: the asserted term, definitions written out. *)
Theorem C105_verdict : forall (stod : list ascii -> option XR), (forall w v, stod w = Some v -> exists r, v = Fin r) ->
  forall dbg fuel cs txt g lt tr t0 s x u,
  all_leaves ref_ok cs = true -> spec_text cs txt -> from_string dbg stod txt = Ok g -> In (x, u) (asserted [] cs) -> leaves is_pred u = true ->
  (forall n, In n (signals u) -> exists l, In (n, l) lt) -> trace_of lt tr -> keys_unique tr -> all_start lt t0 ->
  exists e l z v, lookup (assertions g) x = Some e /\ compute_robustness dbg fuel e tr s = Ok z /\ built l z /\
    (forall t, (exists w, pwl l t w) <-> defined lt u t) /\ pwl l t0 v /\
    (monitorable u = true \/ trusted_first true u = true -> 0 < v -> holds (real_literal stod) lt u t0) /\
    (monitorable u = true \/ trusted_first false u = true -> v < 0 -> ~ holds (real_literal stod) lt u t0).
Proof. exact C105_lemma. Qed.
Print Assumptions C105_verdict.

(** [lt']: a trace at most [d] away. *)
Theorem C105_margin : forall (stod : list ascii -> option XR), (forall w v, stod w = Some v -> exists r, v = Fin r) ->
  forall dbg fuel cs txt g lt tr lt' tr' t0 s x u d,
  all_leaves ref_ok cs = true -> spec_text cs txt -> from_string dbg stod txt = Ok g -> In (x, u) (asserted [] cs) -> leaves is_pred u = true -> monitorable u = true ->
  (forall n, In n (signals u) -> exists l, In (n, l) lt) -> trace_of lt tr -> keys_unique tr -> all_start lt t0 ->
  trace_of lt' tr' -> keys_unique tr' -> all_start lt' t0 -> close d lt lt' ->
  exists e l z v, lookup (assertions g) x = Some e /\ compute_robustness dbg fuel e tr s = Ok z /\ built l z /\ pwl l t0 v /\
    (d < v -> holds (real_literal stod) lt' u t0) /\ (v < - d -> ~ holds (real_literal stod) lt' u t0).
Proof. exact C105_margin_lemma. Qed.
Print Assumptions C105_margin.

Example C105_case : (forall w v, c105_double w = Some v -> exists r, v = Fin r) /\ all_leaves ref_ok c105_cs = true /\ spec_text c105_cs c105_text /\
  (exists g, from_string false c105_double c105_text = Ok g) /\
  In ("m"%string, c105_m) (asserted [] c105_cs) /\ leaves is_pred c105_m = true /\ monitorable c105_m = true /\ (forall n, In n (signals c105_m) -> exists l, In (n, l) lt1) /\
  In ("o"%string, c105_o) (asserted [] c105_cs) /\ leaves is_pred c105_o = true /\ trusted_first false c105_o = true /\ (forall n, In n (signals c105_o) -> exists l, In (n, l) lt1) /\
  trace_of lt1 tr1 /\ keys_unique tr1 /\ all_start lt1 0 /\ trace_of lt3 tr3 /\ keys_unique tr3 /\ all_start lt3 0 /\ close 1 lt1 lt3.
Proof. exact C105_case_lemma. Qed.
