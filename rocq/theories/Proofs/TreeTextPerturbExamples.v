(** Instance for C127. *)
From Coq Require Import Ascii Reals.
From Flocq Require Import Core.Core IEEE754.BinarySingleNaN.
From Verif Require Import Base Num NumXR NumB64.
From Verif.Model Require Import Signal Ast Robustness Peg Parser.
From Verif.Spec Require Import SignalSpec Pwl Formula Semantics Accuracy Uniform Whole Apart Spaced Many General Tree AstSpec Text Syntax Monitor Perturb.
From Verif.Proofs Require Import ParserExamples MinMaxExamples GeneralExamples TreePositionExamples TreeTextExamples TreePerturbExamples.
Local Open Scope R_scope.

Lemma C127_case_lemma : Perturb.close (1 / 8) (real_trace p_tr) p_lt /\ 8 * error_of 3 4 1 (1 / 4) + 1 / 8 < 1 / 4 /\
  exists g z c, from_string true no_double c125_text = Ok g /\ lookup (assertions g) "n"%string = Some (EAlways p_f interval_default) /\
    compute_robustness true 0 (EAlways p_f interval_default) p_tr false = Ok z /\ In c z /\ nltb (dbl 1 (-2)) (s_value c) = true.
Proof.
  destruct C126_case_lemma as (A & B & z & Hz & c & Hc & Kc). split; [exact A|]. split; [exact B|].
  destruct C125_case_lemma as (_ & _ & _ & _ & _ & _ & _ & _ & _ & g & Hg & _ & Ln & _). exists g, z, c. auto.
Qed.
