(** Verdicts in double arithmetic at the common samples of the signals. *)
From Coq Require Import Reals Ascii.
From Flocq Require Import Core.Core IEEE754.BinarySingleNaN.
From Verif Require Import Base Num NumXR NumB64.
From Verif.Model Require Import Signal Ast Robustness Parser.
From Verif.Spec Require Import SignalSpec Pwl Formula Semantics Quantitative Rounding Accuracy AstSpec Text Syntax Monitor.
From Verif.Proofs Require Import RobExamples ParserExamples LayerFacts LayerText.
Local Open Scope R_scope.

(** ** C109.  [layered phi]: no And, Or or Until inside a temporal operator. *)
Theorem C109_samples : forall dbg fuel (tr : trace B64) s phi t z, keys_unique tr ->
  Forall (fun e => wf (snd e) /\ snd e <> [] /\ Forall (fun a => finite (s_time a) = true /\ finite (s_value a) = true) (snd e)) tr ->
  layered phi = true ->
  (forall e, In e (subs phi) -> match e with EPred _ _ c => finite c = true | _ => True end) -> intervals_made phi ->
  (forall n, In n (names phi) -> exists x a, has_signal tr n x /\ In a x /\ neqb (s_time a) t = true) ->
  compute_robustness dbg fuel phi tr s = Ok z ->
  exists c r, In c z /\ neqb (s_time c) t = true /\ rob (real_trace tr) (real_formula phi) (B2R t) r /\ rounds_to r (s_value c) /\
    (finite (s_value c) = true -> Rabs (B2R (s_value c) - r) <= bpow radix2 (-53) * Rabs r) /\
    (nltb nzero (s_value c) = true -> sat (real_trace tr) (real_formula phi) (B2R t)) /\
    (nltb (s_value c) nzero = true -> ~ sat (real_trace tr) (real_formula phi) (B2R t)).
Proof. exact C109_lemma. Qed.
Print Assumptions C109_samples.

Example C109_case : keys_unique btr /\
  Forall (fun e => wf (snd e) /\ snd e <> [] /\ Forall (fun a => finite (s_time a) = true /\ finite (s_value a) = true) (snd e)) btr /\
  layered c109_phi = true /\
  (forall e, In e (subs c109_phi) -> match e with EPred _ _ c => finite c = true | _ => True end) /\ intervals_made c109_phi /\
  (forall n, In n (names c109_phi) -> exists x a, has_signal btr n x /\ In a x /\ neqb (s_time a) (dbl 4 0) = true) /\
  exists z, compute_robustness true 0 c109_phi btr false = Ok z.
Proof. exact C109_case_lemma. Qed.

(** From the text: [u] is the asserted term with the definitions written out. *)
Theorem C109_text : forall (stod : list ascii -> option B64), (forall w v, stod w = Some v -> finite v = true) ->
  forall dbg fuel cs txt g (tr : trace B64) s x u t,
  all_leaves ref_ok cs = true -> spec_text cs txt -> from_string dbg stod txt = Ok g -> In (x, u) (asserted [] cs) -> layered_term u = true ->
  keys_unique tr ->
  Forall (fun e => wf (snd e) /\ snd e <> [] /\ Forall (fun a => finite (s_time a) = true /\ finite (s_value a) = true) (snd e)) tr ->
  (forall n, In n (signals u) -> exists y a, has_signal tr n y /\ In a y /\ neqb (s_time a) t = true) ->
  exists e, lookup (assertions g) x = Some e /\ forall z, compute_robustness dbg fuel e tr s = Ok z ->
    exists c, In c z /\ neqb (s_time c) t = true /\ isnum (s_value c) = true /\
      (nltb nzero (s_value c) = true -> holds (double_literal stod) (real_trace tr) u (B2R t)) /\
      (nltb (s_value c) nzero = true -> ~ holds (double_literal stod) (real_trace tr) u (B2R t)).
Proof. exact C109_text_lemma. Qed.
Print Assumptions C109_text.

Example C109_text_case : (forall w v, no_double w = Some v -> finite v = true) /\ all_leaves ref_ok c109_cs = true /\ spec_text c109_cs c109_text /\
  In ("m"%string, c109_m) (asserted [] c109_cs) /\ layered_term c109_m = true /\ keys_unique btr /\
  Forall (fun e => wf (snd e) /\ snd e <> [] /\ Forall (fun a => finite (s_time a) = true /\ finite (s_value a) = true) (snd e)) btr /\
  (forall n, In n (signals c109_m) -> exists y a, has_signal btr n y /\ In a y /\ neqb (s_time a) (dbl 4 0) = true) /\
  exists g e z, from_string true no_double c109_text = Ok g /\ lookup (assertions g) "m" = Some e /\ compute_robustness true 0 e btr false = Ok z.
Proof. exact C109_text_case_lemma. Qed.
