(** Until over samples in double arithmetic, without conditions on the run. *)
From Coq Require Import Reals.
From Verif Require Import Base Num NumB64.
From Verif.Model Require Import Signal Ast Robustness.
From Verif.Spec Require Import SignalSpec Formula UntilSpec UntilSampled.
From Verif.Proofs Require Import UntilSampledFacts UntilSampledExamples.

(** ** C128.  [x] and [y] are the signals the operands refer to, [w] the values of the right operand. *)
Theorem C128_until : forall dbg fuel (tr : trace B64) s, keys_unique tr ->
  Forall (fun e => wf (snd e) /\ snd e <> [] /\ Forall (fun a => finite (s_time a) = true /\ finite (s_value a) = true) (snd e)) tr ->
  forall a b i, sampled_operand tr a -> sampled_operand tr b -> made_interval i ->
  (forall n m x y, In n (names a) -> In m (names b) -> has_signal tr n x -> has_signal tr m y -> Forall2 (fun p q => neqb (s_time p) (s_time q) = true) x y) ->
  exists n m x y w z, names a = [n] /\ names b = [m] /\ has_signal tr n x /\ has_signal tr m y /\ compute_robustness dbg fuel b tr s = Ok w /\
    compute_robustness dbg fuel (EUntil a b i) tr s = Ok z /\ times z = times x /\ forall k v, nth_error (values z) k = Some v ->
      (nltb v nzero = true -> ~ until_sampled a b x y k) /\
      (forall q, last_opt (values w) = Some q -> nltb nzero q = true -> nltb nzero v = true -> until_sampled a b x y k).
Proof. exact until_facts. Qed.
Print Assumptions C128_until.

(** x is 1, 3, -1 and y is -2, -1, 5 at times 0, 2, 4: (x > 1/2) until (eventually not y <= 0) is positive at 0. *)
Example C128_case : keys_unique us_tr /\ Forall (fun e => wf (snd e) /\ snd e <> [] /\ Forall (fun a => finite (s_time a) = true /\ finite (s_value a) = true) (snd e)) us_tr /\
  sampled_operand us_tr us_a /\ sampled_operand us_tr us_b /\ made_interval (F := B64) interval_default /\
  (forall n m x y, In n (names us_a) -> In m (names us_b) -> has_signal us_tr n x -> has_signal us_tr m y -> Forall2 (fun p q => neqb (s_time p) (s_time q) = true) x y) /\
  (exists w q, compute_robustness true 0 us_b us_tr false = Ok w /\ last_opt (values w) = Some q /\ nltb nzero q = true) /\
  exists z v, compute_robustness true 0 (EUntil us_a us_b interval_default) us_tr false = Ok z /\ nth_error (values z) 0 = Some v /\ nltb nzero v = true.
Proof. exact C128_case_lemma. Qed.
