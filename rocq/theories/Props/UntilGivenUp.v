(** What until reports where its right operand is not reached. *)
From Verif Require Import Base Num NumB64.
From Verif.Model Require Import Signal Ast Robustness.
From Verif.Spec Require Import SignalSpec Formula UntilSpec UntilSampled.
From Verif.Proofs Require Import UntilGivenUp UntilSampledExamples UntilGivenUpExamples.
Local Open Scope nat_scope.

(** ** C129.  [y'] is the synchronized right operand.  Where it is negative from sample [k] on, so that the textbook
    until is false, the value is positive; at the last sample the value is never negative. *)
Theorem C129_values : forall dbg fuel (tr : trace B64) s a b i x y x' y',
  Forall (fun e => wf (snd e) /\ snd e <> []) tr -> made_interval i ->
  compute_robustness dbg fuel a tr s = Ok x -> compute_robustness dbg fuel b tr s = Ok y ->
  synchronize x y = Ok (x', y') -> all_num (values x') -> all_num (values y') ->
  exists z, compute_robustness dbg fuel (EUntil a b i) tr s = Ok z /\ times z = times x' /\
    forall k v, nth_error (values z) k = Some v ->
      ((forall l q, k <= l -> nth_error (values y') l = Some q -> nltb q nzero = true) -> nltb nzero v = true) /\
      ((forall l q, k <= l -> nth_error (values y') l = Some q -> nleb q nzero = true) -> nleb nzero v = true) /\
      (S k = length (values z) -> nleb nzero v = true).
Proof. exact C129_values_lemma. Qed.
Print Assumptions C129_values.

(** [y] is the signal the right operand refers to, and the right operand is false at each of its samples from [k] on. *)
Theorem C129_sampled : forall dbg fuel (tr : trace B64) s, keys_unique tr ->
  Forall (fun e => wf (snd e) /\ snd e <> [] /\ Forall (fun a => finite (s_time a) = true /\ finite (s_value a) = true) (snd e)) tr ->
  forall a b i, sampled_operand tr a -> sampled_operand tr b -> made_interval i ->
  (forall n m x y, In n (names a) -> In m (names b) -> has_signal tr n x -> has_signal tr m y -> Forall2 (fun p q => neqb (s_time p) (s_time q) = true) x y) ->
  exists m y z, names b = [m] /\ has_signal tr m y /\ compute_robustness dbg fuel (EUntil a b i) tr s = Ok z /\ length z = length y /\
    forall k v, nth_error (values z) k = Some v -> (forall l, k <= l < length y -> ~ sampled_sat b (skipn l y)) -> nleb nzero v = true.
Proof. exact C129_sampled_lemma. Qed.
Print Assumptions C129_sampled.

(** x is 1, 3, -1 and y is -2, -1, 5 at times 0, 2, 4: y > 10 is negative at every sample. *)
Example C129_values_case : Forall (fun e => wf (snd e) /\ snd e <> []) us_tr /\ made_interval (F := B64) interval_default /\ exists x y x' y',
  compute_robustness true 0 us_a us_tr false = Ok x /\ compute_robustness true 0 gu_b us_tr false = Ok y /\
  synchronize x y = Ok (x', y') /\ all_num (values x') /\ all_num (values y') /\ length y' = 3 /\
  forall l q, 0 <= l -> nth_error (values y') l = Some q -> nltb q nzero = true.
Proof. exact C129_values_case_lemma. Qed.

(** On the same trace, (x > 1/2) until (y > 10) is positive at 0, though y > 10 holds nowhere (the trace is that of [C128_case]). *)
Example C129_sampled_case : sampled_operand us_tr us_a /\ sampled_operand us_tr gu_b /\
  (forall n m x y, In n (names us_a) -> In m (names gu_b) -> has_signal us_tr n x -> has_signal us_tr m y -> Forall2 (fun p q => neqb (s_time p) (s_time q) = true) x y) /\
  (forall l, 0 <= l < length us_y -> ~ sampled_sat gu_b (skipn l us_y)) /\
  exists z v, compute_robustness true 0 (EUntil us_a gu_b interval_default) us_tr false = Ok z /\ nth_error (values z) 0 = Some v /\ nltb nzero v = true.
Proof. exact C129_sampled_case_lemma. Qed.
