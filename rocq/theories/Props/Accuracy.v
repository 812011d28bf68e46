(** How far double arithmetic is from the real numbers. *)
From Coq Require Import Reals.
From Flocq Require Import Core.Core IEEE754.BinarySingleNaN.
From Verif Require Import Base Num NumB64.
From Verif.Model Require Import Signal MinMax Ast Robustness.
From Verif.Spec Require Import SignalSpec Pwl Formula Discrete Semantics Quantitative Rounding Accuracy.
From Verif.Proofs Require Import SyncCases MinMaxExamples UntilFacts RobExamples SafeExamples Rounding SyncError ChainFacts AccuracyExamples.
Local Open Scope R_scope.

(** ** C91.  [rounds_to r v]: [v] is the double nearest to [r]. *)
Theorem C91_boolean : forall dbg fuel (tr : trace B64) s phi env t z, keys_unique tr ->
  Forall (fun e => wf (snd e) /\ snd e <> []) tr -> propositional phi -> sampled_at tr env t phi ->
  (forall n, In n (names phi) -> finite (env n) = true) ->
  (forall e, In e (subs phi) -> match e with EPred _ _ c => finite c = true | _ => True end) ->
  compute_robustness dbg fuel phi tr s = Ok z ->
  exists c, In c z /\ neqb (s_time c) t = true /\ let r := exact_now (fun n => B2R (env n)) phi in
    rounds_to r (s_value c) /\ (finite (s_value c) = true -> Rabs (B2R (s_value c) - r) <= bpow radix2 (-53) * Rabs r).
Proof. exact C91_error_lemma. Qed.
Print Assumptions C91_boolean.

Example C91_case : keys_unique btr /\ Forall (fun e => wf (snd e) /\ snd e <> []) btr /\
  propositional c71_phi /\ sampled_at btr c71_env (dbl 4 0) c71_phi /\
  (forall n, In n (names c71_phi) -> finite (c71_env n) = true) /\
  (forall e, In e (subs c71_phi) -> match e with EPred _ _ c => finite c = true | _ => True end) /\
  exists z, compute_robustness true 0 c71_phi btr false = Ok z.
Proof. exact C71_case_lemma. Qed.

Theorem C91_temporal : forall dbg fuel (tr : trace B64) s phi, keys_unique tr ->
  free_of is_const phi = true -> free_of is_andor phi = true -> free_of is_until phi = true ->
  (forall e, In e (subs phi) -> match e with EPred _ _ c => finite c = true | _ => True end) -> intervals_made phi ->
  (forall n, In n (names phi) -> exists x, has_signal tr n x) ->
  Forall (fun e => wf (snd e) /\ snd e <> [] /\ Forall (fun a => finite (s_time a) = true /\ finite (s_value a) = true) (snd e)) tr ->
  exists n x z, names phi = [n] /\ has_signal tr n x /\ compute_robustness dbg fuel phi tr s = Ok z /\ times z = times x /\
    forall x1 a x2 z1 c z2, x = x1 ++ a :: x2 -> z = z1 ++ c :: z2 -> length x1 = length z1 ->
      let r := exact_samples phi (map (fun b => B2R (s_value b)) (a :: x2)) in
      rounds_to r (s_value c) /\ (finite (s_value c) = true -> Rabs (B2R (s_value c) - r) <= bpow radix2 (-53) * Rabs r).
Proof. exact C91_temporal_lemma. Qed.
Print Assumptions C91_temporal.

Example C91_temporal_case : keys_unique btr /\ free_of is_const bun = true /\ free_of is_andor bun = true /\ free_of is_until bun = true /\
  (forall e, In e (subs bun) -> match e with EPred _ _ c => finite c = true | _ => True end) /\
  intervals_made bun /\ (forall n, In n (names bun) -> exists x, has_signal btr n x) /\
  Forall (fun e => wf (snd e) /\ snd e <> [] /\ Forall (fun a => finite (s_time a) = true /\ finite (s_value a) = true) (snd e)) btr.
Proof. exact C48_case_lemma. Qed.

(** ** C92.  [close V T x t v]: [v] is finite and differs from the piecewise-linear function of [x] at [t] by at most
    [tolerance V T], if the values are at most [V] in magnitude and the samples at most [T] apart. *)
Theorem C92_interpolation : forall V T (x x1 : signal B64) a b x2 t, wf x -> mild V T x -> x = x1 ++ a :: b :: x2 ->
  finite t = true -> nleb (s_time a) t = true -> nleb t (s_time b) = true -> close V T x t (interpolate a t).
Proof. exact between_close. Qed.
Print Assumptions C92_interpolation.

Theorem C92_synchronize : forall V T x y x' y', wf x -> wf y -> mild V T x -> mild V T y -> synchronize x y = Ok (x', y') ->
  (forall c, In c x' -> close V T x (s_time c) (s_value c)) /\ (forall c, In c y' -> close V T y (s_time c) (s_value c)).
Proof. exact C92_sync_lemma. Qed.
Print Assumptions C92_synchronize.

Theorem C92_minmax : forall V T dbg x y x' y' z, wf x -> wf y -> mild V T x -> mild V T y -> synchronize x y = Ok (x', y') ->
  (elementwise_min dbg false x y = Ok z -> forall k a, nth_error x' k = Some a ->
     exists c, In c z /\ neqb (s_time c) (s_time a) = true /\ finite (s_value c) = true /\
       exists r s, pwl (reals x) (B2R (s_time a)) r /\ pwl (reals y) (B2R (s_time a)) s /\
         Rabs (B2R (s_value c) - Rmin r s) <= tolerance V T) /\
  (elementwise_max dbg false x y = Ok z -> forall k a, nth_error x' k = Some a ->
     exists c, In c z /\ neqb (s_time c) (s_time a) = true /\ finite (s_value c) = true /\
       exists r s, pwl (reals x) (B2R (s_time a)) r /\ pwl (reals y) (B2R (s_time a)) s /\
         Rabs (B2R (s_value c) - Rmax r s) <= tolerance V T).
Proof. exact C92_minmax_lemma. Qed.
Print Assumptions C92_minmax.

Example C92_case : wf ex_x /\ wf c25_y /\ mild 7 2 ex_x /\ mild 7 2 c25_y /\
  exists x' y' z, synchronize ex_x c25_y = Ok (x', y') /\ elementwise_min true false ex_x c25_y = Ok z /\ (4 <= length z)%nat.
Proof. exact C92_case_lemma. Qed.

(** ** C93.  Between the samples of the operands it fails: the value of And at a crossing can be far off. *)
Theorem C93_verdict_partial : forall dbg fuel (tr : trace B64) s phi, keys_unique tr ->
  free_of is_const phi = true -> free_of is_andor phi = true -> free_of is_until phi = true ->
  (forall e, In e (subs phi) -> match e with EPred _ _ c => finite c = true | _ => True end) -> intervals_made phi ->
  (forall n, In n (names phi) -> exists x, has_signal tr n x) ->
  Forall (fun e => wf (snd e) /\ snd e <> [] /\ Forall (fun a => finite (s_time a) = true /\ finite (s_value a) = true) (snd e)) tr ->
  exists z, compute_robustness dbg fuel phi tr s = Ok z /\ z <> [] /\
    forall c, In c z -> exists r, rob (real_trace tr) (real_formula phi) (B2R (s_time c)) r /\ rounds_to r (s_value c) /\
      (finite (s_value c) = true -> Rabs (B2R (s_value c) - r) <= bpow radix2 (-53) * Rabs r) /\
      (nltb nzero (s_value c) = true <-> 0 < r) /\ (nltb (s_value c) nzero = true <-> r < 0).
Proof. exact C93_lemma. Qed.
Print Assumptions C93_verdict_partial.

Example C93_case : keys_unique btr /\ free_of is_const bun = true /\ free_of is_andor bun = true /\ free_of is_until bun = true /\
  (forall e, In e (subs bun) -> match e with EPred _ _ c => finite c = true | _ => True end) /\
  intervals_made bun /\ (forall n, In n (names bun) -> exists x, has_signal btr n x) /\
  Forall (fun e => wf (snd e) /\ snd e <> [] /\ Forall (fun a => finite (s_time a) = true /\ finite (s_value a) = true) (snd e)) btr.
Proof. exact C48_case_lemma. Qed.

Theorem C93_verdict_refuted : exists (tr : trace B64) phi z c, keys_unique tr /\
  Forall (fun e => wf (snd e) /\ snd e <> [] /\ mild 4 1 (snd e)) tr /\ first_exact (real_formula phi) = true /\
  compute_robustness true 0 phi tr false = Ok z /\ hd_error z = Some c /\ nltb nzero (s_value c) = true /\
  exists r, r < 0 /\ rob (real_trace tr) (real_formula phi) (B2R (s_time c)) r /\ ~ sat (real_trace tr) (real_formula phi) (B2R (s_time c)).
Proof. exact C93_witness. Qed.
Print Assumptions C93_verdict_refuted.
