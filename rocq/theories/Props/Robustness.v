(** Robustness computation (C31, C34-C48).  [dbg]: assertions enabled; [fuel]: bound on the
    windowed min/max loop, which is exceeded as [Hang]; both arbitrary.  binary64 unless the
    statement is over [XR] (exact arithmetic). *)
From Coq Require Import Reals.
From Flocq Require Import IEEE754.BinarySingleNaN.
From Verif Require Import Base Num NumXR NumB64.
From Verif.Model Require Import Signal MonoWedge MinMax Ast Robustness.
From Verif.Spec Require Import SignalSpec Pwl Formula Semantics UntilSpec.
From Verif.Proofs Require Import B64Facts RobFacts RobWf RobTransport Duality RobExact UntilFacts UntilSign RobExamples BoundExamples ConstFacts AbsorbFacts.
Local Open Scope nat_scope.

(** ** C31.  Equal outcomes: the same signal, or the same failure. *)
Theorem C31_duality_temporal : forall dbg fuel phi i (tr : trace XR) s, Forall (fun e => wf (snd e) /\ snd e <> []) tr ->
  compute_robustness dbg fuel (ENot (EEventually phi i)) tr s = compute_robustness dbg fuel (EAlways (ENot phi) i) tr s /\
  compute_robustness dbg fuel (ENot (EAlways phi i)) tr s = compute_robustness dbg fuel (EEventually (ENot phi) i) tr s.
Proof. exact C31_temporal_lemma. Qed.
Print Assumptions C31_duality_temporal.

Theorem C31_duality_andor : forall dbg fuel l (tr : trace XR) s,
  Forall (fun e => wf (snd e) /\ snd e <> [] /\ Forall (fun t => exists r, t = Fin r) (times (snd e))) tr -> l <> [] ->
  compute_robustness dbg fuel (ENot (EAnd l)) tr s = compute_robustness dbg fuel (EOr (map ENot l)) tr s /\
  compute_robustness dbg fuel (ENot (EOr l)) tr s = compute_robustness dbg fuel (EAnd (map ENot l)) tr s.
Proof. exact C31_andor_lemma. Qed.
Print Assumptions C31_duality_andor.

Example C31_case : Forall (fun e => wf (snd e) /\ snd e <> [] /\ Forall (fun t => exists r, t = Fin r) (times (snd e))) tr1 /\
  exists z, compute_robustness true 0 (ENot (EAnd [phi1; phi2])) tr1 false = Ok z.
Proof. exact C31_case_lemma. Qed.

(** ** C34 *)
Theorem C34_predicate_sign : forall dbg fuel (tr : trace B64) s n op c x, keys_unique tr -> has_signal tr n x -> wf x ->
  Forall (fun a => finite (s_value a) = true) x -> finite c = true ->
  exists z, compute_robustness dbg fuel (EPred n op c) tr s = Ok z /\ times z = times x /\
    forall k a, nth_error x k = Some a -> exists b, nth_error z k = Some b /\
      nltb nzero (s_value b) = match op with GT | GE => nltb c (s_value a) | LT | LE => nltb (s_value a) c end /\
      nltb (s_value b) nzero = match op with GT | GE => nltb (s_value a) c | LT | LE => nltb c (s_value a) end.
Proof. exact C34_lemma. Qed.
Print Assumptions C34_predicate_sign.

Example C34_case : keys_unique btr /\ has_signal btr sx bx /\ wf bx /\ Forall (fun a => finite (s_value a) = true) bx /\ finite (dbl 1 (-1)) = true.
Proof. exact C34_case_lemma. Qed.

(** ** C35.  [rho]: textbook quantitative semantics; its domain is the common range. *)
Theorem C35_boolean_exact : forall dbg fuel lt tr t0 phi s, trace_of lt tr -> keys_unique tr -> all_start lt t0 -> evaluable lt phi ->
  free_of is_temporal phi = true ->
  exists l z, compute_robustness dbg fuel phi tr s = Ok z /\ built l z /\ forall t v, pwl l t v <-> rho lt phi t v.
Proof. exact C35_lemma. Qed.
Print Assumptions C35_boolean_exact.

Example C35_case : trace_of lt1 tr1 /\ keys_unique tr1 /\ all_start lt1 0 /\ evaluable lt1 phi1 /\ free_of is_temporal phi1 = true.
Proof. exact C35_case_lemma. Qed.

(** ** C36.  Trustworthy at every time where the formula is [sound_for] that sign, and at the
    first time where it is [sound_first]; refuted for Always under negative sign. *)
Theorem C36_sign_sound_partial : forall dbg fuel lt tr t0 phi s, trace_of lt tr -> keys_unique tr -> all_start lt t0 -> evaluable lt phi ->
  exists l z, compute_robustness dbg fuel phi tr s = Ok z /\ built l z /\
    (forall t, (exists v, pwl l t v) <-> inside lt phi t) /\
    (sound_for true phi = true -> forall t v, pwl l t v -> (0 < v)%R -> sat lt phi t) /\
    (sound_for false phi = true -> forall t v, pwl l t v -> (v < 0)%R -> ~ sat lt phi t) /\
    (sound_first true phi = true -> forall v, pwl l t0 v -> (0 < v)%R -> sat lt phi t0) /\
    (sound_first false phi = true -> forall v, pwl l t0 v -> (v < 0)%R -> ~ sat lt phi t0).
Proof. exact C36_lemma. Qed.
Print Assumptions C36_sign_sound_partial.

Theorem C36_sign_refuted : exists lt tr l z t v, trace_of lt tr /\ keys_unique tr /\ all_start lt 0 /\
  compute_robustness true 0 (EAlways (EPred sx GT (Fin 0)) interval_default) tr false = Ok z /\ built l z /\
  pwl l t v /\ (v < 0)%R /\ sat lt (EAlways (EPred sx GT (Fin 0)) interval_default) t.
Proof. exact C36_witness. Qed.
Print Assumptions C36_sign_refuted.

Example C36_case : trace_of lt1 tr1 /\ keys_unique tr1 /\ all_start lt1 0 /\ evaluable lt1 phi2 /\
  sound_first true phi2 = true /\ sound_first false phi2 = true /\
  sound_for true (EAnd [EAlways gx interval_default; ENot ey]) = true /\ sound_for false (EOr [EEventually gx interval_default; ENot ey]) = true.
Proof. exact C36_case_lemma. Qed.

(** ** C37.  What until computes at sample [k], as the set of lower bounds [c]. *)
Theorem C37_until_partial : forall dbg fuel (tr : trace B64) s a b i x y x' y',
  Forall (fun e => wf (snd e) /\ snd e <> []) tr -> made_interval i ->
  compute_robustness dbg fuel a tr s = Ok x -> compute_robustness dbg fuel b tr s = Ok y ->
  synchronize x y = Ok (x', y') -> all_num (values x') -> all_num (values y') ->
  exists z, compute_robustness dbg fuel (EUntil a b i) tr s = Ok z /\ times z = times x' /\
    forall k v, nth_error (values z) k = Some v -> forall c, isnum c = true ->
      (nleb c v = true <-> until_reached (values x') (values y') k c \/ until_given_up (values x') (values y') k c \/ until_stays (values x') k c).
Proof. exact C37_lemma. Qed.
Print Assumptions C37_until_partial.

(** Both operands negative throughout, until positive throughout. *)
Theorem C37_until_refuted : exists (x y : signal B64) z, wf x /\ wf y /\
  Forall (fun a => nltb (s_value a) nzero = true) x /\ Forall (fun a => nltb (s_value a) nzero = true) y /\
  compute_robustness true 0 (EUntil (EPred sx GT nzero) (EPred sy GT nzero) interval_default) [(sx, x); (sy, y)] false = Ok z /\
  Forall (fun a => nltb nzero (s_value a) = true) z /\ z <> [].
Proof. exact C37_witness. Qed.
Print Assumptions C37_until_refuted.

Example C37_case : Forall (fun e => wf (snd e) /\ snd e <> []) btr /\ exists x y x' y',
  compute_robustness true 0 bq btr false = Ok x /\ compute_robustness true 0 bp btr false = Ok y /\
  synchronize x y = Ok (x', y') /\ all_num (values x') /\ all_num (values y') /\ length x' = 4.
Proof. exact C37_case_lemma. Qed.

(** ** C79.  The sign of until at sample [k].  Where the operands make until true the value is
    positive, so a negative value is always right; a positive one is right if the second operand
    is positive at the end. *)
Theorem C79_until_sign : forall dbg fuel (tr : trace B64) s a b i x y x' y',
  Forall (fun e => wf (snd e) /\ snd e <> []) tr -> made_interval i ->
  compute_robustness dbg fuel a tr s = Ok x -> compute_robustness dbg fuel b tr s = Ok y ->
  synchronize x y = Ok (x', y') -> all_num (values x') -> all_num (values y') ->
  exists z, compute_robustness dbg fuel (EUntil a b i) tr s = Ok z /\ times z = times x' /\
    forall k v, nth_error (values z) k = Some v ->
      (until_true (nltb nzero) (values x') (values y') k -> nltb nzero v = true) /\
      (nltb v nzero = true -> ~ until_true (nleb nzero) (values x') (values y') k) /\
      (forall q, last_opt (values y') = Some q -> nltb nzero q = true ->
         (nltb nzero v = true <-> until_true (nltb nzero) (values x') (values y') k)).
Proof. exact C79_lemma. Qed.
Print Assumptions C79_until_sign.

Example C79_case : exists x y x' y' q,
  compute_robustness true 0 bp btr false = Ok x /\ compute_robustness true 0 (ENot bq) btr false = Ok y /\
  synchronize x y = Ok (x', y') /\ all_num (values x') /\ all_num (values y') /\ last_opt (values y') = Some q /\ nltb nzero q = true.
Proof. exact C79_case_lemma. Qed.

(** ** C38.  Every interval a constructor can make is ignored. *)
Theorem C38_interval_ignored_partial : forall dbg fuel (tr : trace B64) s phi i y, Forall (fun e => wf (snd e) /\ snd e <> []) tr -> made_interval i ->
  compute_robustness dbg fuel phi tr s = Ok y -> 2 <= length y \/ finite (begin_time y) = true ->
  compute_robustness dbg fuel (EAlways phi i) tr s = compute_robustness dbg fuel (EAlways phi interval_default) tr s /\
  compute_robustness dbg fuel (EEventually phi i) tr s = compute_robustness dbg fuel (EEventually phi interval_default) tr s.
Proof. exact C38_lemma. Qed.
Print Assumptions C38_interval_ignored_partial.

Theorem C38_until_interval_ignored_partial : forall dbg fuel (tr : trace B64) s a b i, made_interval i ->
  compute_robustness dbg fuel (EUntil a b i) tr s = compute_robustness dbg fuel (EUntil a b interval_default) tr s.
Proof. exact C38_until_lemma. Qed.
Print Assumptions C38_until_interval_ignored_partial.

(** x > 0 on [0,1], yet Always[0,1] x > 0 is negative at 0. *)
Theorem C38_interval_refuted : exists (y : signal B64) i z a, interval_dbl nzero (dbl 1 0) = Ok i /\ wf y /\
  Forall (fun c => nleb (s_time c) (dbl 1 0) = true -> nltb nzero (s_value c) = true) y /\
  Exists (fun c => neqb (s_time c) (dbl 1 0) = true) y /\
  compute_robustness true 0 (EAlways (EPred sx GT nzero) i) [(sx, y)] false = Ok z /\
  hd_error z = Some a /\ neqb (s_time a) nzero = true /\ nltb (s_value a) nzero = true.
Proof. exact C38_witness. Qed.
Print Assumptions C38_interval_refuted.

Example C38_case : Forall (fun e => wf (snd e) /\ snd e <> []) btr /\ made_interval c38_i /\ exists y,
  compute_robustness true 0 bphi btr false = Ok y /\ 2 <= length y /\ finite (begin_time y) = true.
Proof. exact C38_case_lemma. Qed.

(** ** C39.  With the constant after other operands; refuted with the constant first. *)
Theorem C39_constants_partial : forall dbg fuel (tr : trace B64) s phi y b e, Forall (fun x => wf (snd x) /\ snd x <> []) tr -> spans tr b e -> nltb b e = true ->
  free_of (short 1) phi = true -> compute_robustness dbg fuel phi tr s = Ok y -> neqb (begin_time y) b = true ->
  compute_robustness dbg fuel (EAnd [phi; EConst true]) tr s = Ok y /\
  compute_robustness dbg fuel (EOr [phi; EConst false]) tr s = Ok y.
Proof. exact C39_second_lemma. Qed.
Print Assumptions C39_constants_partial.

(** [l]: the operands before the constant. *)
Theorem C39_anywhere_partial : forall dbg fuel (tr : trace B64) s l l' y b e, Forall (fun x => wf (snd x) /\ snd x <> []) tr -> spans tr b e -> nltb b e = true ->
  (free_of (short 1) (EAnd l) = true -> compute_robustness dbg fuel (EAnd l) tr s = Ok y -> neqb (begin_time y) b = true ->
    compute_robustness dbg fuel (EAnd (l ++ EConst true :: l')) tr s = compute_robustness dbg fuel (EAnd (l ++ l')) tr s) /\
  (free_of (short 1) (EOr l) = true -> compute_robustness dbg fuel (EOr l) tr s = Ok y -> neqb (begin_time y) b = true ->
    compute_robustness dbg fuel (EOr (l ++ EConst false :: l')) tr s = compute_robustness dbg fuel (EOr (l ++ l')) tr s).
Proof. exact C39_anywhere_lemma. Qed.
Print Assumptions C39_anywhere_partial.

Theorem C39_constants_refuted : exists (x : signal B64) y z a, wf x /\ Forall (fun c => finite (s_time c) = true /\ finite (s_value c) = true) x /\
  compute_robustness true 0 (EPred sx GT nzero) [(sx, x)] false = Ok y /\ all_num (values y) /\
  compute_robustness true 0 (EAnd [EConst true; EPred sx GT nzero]) [(sx, x)] false = Ok z /\ In a z /\ isnum (s_value a) = false.
Proof. exact C39_witness. Qed.
Print Assumptions C39_constants_refuted.

(** With the constant first every sample between the ends of the trace is NaN. *)
Theorem C39_first_refuted : forall dbg fuel (tr : trace B64) s phi y b e, Forall (fun x => wf (snd x) /\ snd x <> []) tr -> spans tr b e -> nltb b e = true ->
  free_of (short 1) phi = true -> compute_robustness dbg fuel phi tr s = Ok y -> neqb (begin_time y) b = true ->
  forall bo, exists z1 z2,
    compute_robustness dbg fuel (EAnd [EConst bo; phi]) tr s = Ok z1 /\ compute_robustness dbg fuel (EOr [EConst bo; phi]) tr s = Ok z2 /\
    Forall2 (fun a c => neqb (s_time c) (s_time a) = true /\ (strictly_inside b e (s_time a) -> isnum (s_value c) = false)) y z1 /\
    Forall2 (fun a c => neqb (s_time c) (s_time a) = true /\ (strictly_inside b e (s_time a) -> isnum (s_value c) = false)) y z2.
Proof. exact C39_first_lemma. Qed.
Print Assumptions C39_first_refuted.

Example C39_case : Forall (fun e => wf (snd e) /\ snd e <> []) btr /\ spans btr (dbl 0 0) (dbl 4 0) /\ nltb (dbl 0 0) (dbl 4 0) = true /\ free_of (short 1) bphi = true /\
  exists y, compute_robustness true 0 bphi btr false = Ok y /\ neqb (begin_time y) (dbl 0 0) = true /\ 3 <= length y.
Proof. exact C39_second_case_lemma. Qed.

Example C39_anywhere_case : free_of (short 1) (EAnd [bphi; EPred sx GT nzero]) = true /\ exists y,
  compute_robustness true 0 (EAnd [bphi; EPred sx GT nzero]) btr false = Ok y /\ neqb (begin_time y) (dbl 0 0) = true.
Proof. exact C39_anywhere_case_lemma. Qed.

(** ** C108: false of the code.  At a sample between the ends of the trace the constant is ignored;
    it decides at the ends only. *)
Theorem C108_constant_partial : forall dbg fuel (tr : trace B64) s phi y b e, Forall (fun x => wf (snd x) /\ snd x <> []) tr -> spans tr b e -> nltb b e = true ->
  free_of (short 1) phi = true -> compute_robustness dbg fuel phi tr s = Ok y -> neqb (begin_time y) b = true ->
  exists z1 z2,
    compute_robustness dbg fuel (EAnd [phi; EConst false]) tr s = Ok z1 /\ compute_robustness dbg fuel (EOr [phi; EConst true]) tr s = Ok z2 /\
    Forall2 (fun a c => neqb (s_time c) (s_time a) = true /\ (strictly_inside b e (s_time a) -> s_value c = s_value a) /\
      (neqb (s_time a) b = true \/ neqb (s_time a) e = true -> isnum (s_value a) = true -> s_value c = nopp ninf)) y z1 /\
    Forall2 (fun a c => neqb (s_time c) (s_time a) = true /\ (strictly_inside b e (s_time a) -> s_value c = s_value a) /\
      (neqb (s_time a) b = true \/ neqb (s_time a) e = true -> isnum (s_value a) = true -> s_value c = ninf)) y z2.
Proof. exact C108_second_lemma. Qed.
Print Assumptions C108_constant_partial.

Theorem C108_constant_refuted : exists (x : signal B64) z z', wf x /\ Forall (fun c => finite (s_time c) = true /\ finite (s_value c) = true) x /\
  compute_robustness true 0 (EAnd [EPred sx GT nzero; EConst false]) [(sx, x)] false = Ok z /\ Exists (fun a => nltb nzero (s_value a) = true) z /\
  compute_robustness true 0 (EOr [EPred sx LT nzero; EConst true]) [(sx, x)] false = Ok z' /\ Exists (fun a => nltb (s_value a) nzero = true) z'.
Proof. exact C108_witness. Qed.
Print Assumptions C108_constant_refuted.

(** The hypotheses are those of [C39_case]; there are samples between the ends. *)
Example C108_case : exists a y, compute_robustness true 0 bphi btr false = Ok y /\ In a y /\ strictly_inside (dbl 0 0) (dbl 4 0) (s_time a).
Proof. exact C108_case_lemma. Qed.

(** ** C40 *)
Theorem C40_double_negation : forall dbg fuel phi (tr : trace B64) s,
  compute_robustness dbg fuel (ENot (ENot phi)) tr s = compute_robustness dbg fuel phi tr s.
Proof. exact (fun dbg fuel => C40_lemma dbg fuel nopp_opp). Qed.
Print Assumptions C40_double_negation.

Example C40_case : exists z, compute_robustness true 0 bphi btr false = Ok z.
Proof. exact (proj2 C43_case_lemma). Qed.

(** ** C41 *)
Theorem C41_named_signals : forall dbg fuel phi (tr tr' : trace B64) s, free_of is_const phi = true -> keys_unique tr -> keys_unique tr' ->
  (forall n x, In n (names phi) -> (has_signal tr n x <-> has_signal tr' n x)) ->
  compute_robustness dbg fuel phi tr s = compute_robustness dbg fuel phi tr' s.
Proof. exact C41_lemma. Qed.
Print Assumptions C41_named_signals.

Example C41_case : free_of is_const bphi = true /\ keys_unique btr /\ keys_unique btr' /\
  (forall n x, In n (names bphi) -> (has_signal btr n x <-> has_signal btr' n x)) /\ btr <> btr'.
Proof. exact C41_case_lemma. Qed.

(** ** C42 *)
Theorem C42_missing_signal : forall dbg fuel phi (tr : trace B64) s n, In n (names phi) -> ~ In n (map fst tr) ->
  forall z, compute_robustness dbg fuel phi tr s <> Ok z.
Proof. exact C42_lemma. Qed.
Print Assumptions C42_missing_signal.

Theorem C42_missing_signal_predicate : forall dbg fuel n op c (tr : trace B64) s, ~ In n (map fst tr) ->
  compute_robustness dbg fuel (EPred n op c) tr s = Throw OutOfRange.
Proof. exact C42_pred_lemma. Qed.
Print Assumptions C42_missing_signal_predicate.

Example C42_case : In sy (names bphi) /\ ~ In sy (map fst [(sx, bx)]).
Proof. exact C42_case_lemma. Qed.

(** ** C43 *)
Theorem C43_output_wf : forall dbg fuel phi (tr : trace B64) s z, Forall (fun e => wf (snd e) /\ snd e <> []) tr ->
  compute_robustness dbg fuel phi tr s = Ok z -> wf z /\ z <> [].
Proof. exact C43_lemma. Qed.
Print Assumptions C43_output_wf.

Example C43_case : Forall (fun e => wf (snd e) /\ snd e <> []) btr /\ exists z, compute_robustness true 0 bphi btr false = Ok z.
Proof. exact C43_case_lemma. Qed.

(** ** C44 *)
Theorem C44_flag : forall dbg fuel phi (tr : trace B64),
  compute_robustness dbg fuel phi tr true = compute_robustness dbg fuel phi tr false.
Proof. exact C44_lemma. Qed.
Print Assumptions C44_flag.

(** Signals with different samples, so that really synchronized operands would matter. *)
Example C44_case : times bx <> times by_ /\ exists z, compute_robustness true 0 bphi btr true = Ok z.
Proof. exact C44_case_lemma. Qed.

(** ** C45 *)
Theorem C45_shift : forall dbg fuel phi (tr : trace XR) s dt, Forall (fun e => wf (snd e) /\ snd e <> []) tr -> free_of (short 1) phi = true ->
  compute_robustness dbg fuel phi (map_trace (later (Fin dt)) tr) s = omap (later (Fin dt)) (compute_robustness dbg fuel phi tr s).
Proof. exact C45_lemma. Qed.
Print Assumptions C45_shift.

Example C45_case : Forall (fun e => wf (snd e) /\ snd e <> []) tr1 /\ free_of (short 1) phi2 = true /\
  exists z, compute_robustness true 0 phi2 tr1 false = Ok z.
Proof. exact C45_case_lemma. Qed.

(** ** C46 *)
Theorem C46_scale : forall dbg fuel phi (tr : trace XR) s c, Forall (fun e => wf (snd e) /\ snd e <> []) tr -> (0 < c)%R ->
  compute_robustness dbg fuel (map_const (fun v => nmul v (Fin c)) phi) (map_trace (times_const (Fin c)) tr) s =
  omap (times_const (Fin c)) (compute_robustness dbg fuel phi tr s).
Proof. exact C46_lemma. Qed.
Print Assumptions C46_scale.

Example C46_case : Forall (fun e => wf (snd e) /\ snd e <> []) tr1 /\ (0 < 1/3)%R /\
  exists z, compute_robustness true 0 phi2 tr1 false = Ok z.
Proof. exact C46_case_lemma. Qed.

(** ** C47 *)
Theorem C47_total_exact : forall dbg fuel lt tr t0 phi s, trace_of lt tr -> keys_unique tr -> all_start lt t0 -> evaluable lt phi ->
  exists l z, compute_robustness dbg fuel phi tr s = Ok z /\ built l z /\ l <> [] /\ first_time l = t0 /\
    forall t, (exists v, pwl l t v) <-> inside lt phi t.
Proof. exact C47_lemma. Qed.
Print Assumptions C47_total_exact.

Theorem C47_total_binary64 : forall dbg fuel (tr : trace B64) s phi, keys_unique tr ->
  free_of is_const phi = true -> free_of is_andor phi = true -> free_of is_until phi = true ->
  (forall e, In e (subs phi) -> match e with EPred _ _ c => finite c = true | _ => True end) -> intervals_made phi ->
  (forall n, In n (names phi) -> exists x, has_signal tr n x) ->
  Forall (fun e => wf (snd e) /\ snd e <> [] /\ Forall (fun a => finite (s_time a) = true /\ finite (s_value a) = true) (snd e)) tr ->
  exists z, compute_robustness dbg fuel phi tr s = Ok z.
Proof. exact C47_b64_lemma. Qed.
Print Assumptions C47_total_binary64.

Example C47_case : trace_of lt1 tr1 /\ keys_unique tr1 /\ all_start lt1 0 /\ evaluable lt1 (EUntil phi1 phi2 interval_default).
Proof. exact C47_case_lemma. Qed.

(** ** C48 *)
Theorem C48_sampled_sound : forall dbg fuel (tr : trace B64) s phi, keys_unique tr ->
  free_of is_const phi = true -> free_of is_andor phi = true -> free_of is_until phi = true ->
  (forall e, In e (subs phi) -> match e with EPred _ _ c => finite c = true | _ => True end) -> intervals_made phi ->
  (forall n, In n (names phi) -> exists x, has_signal tr n x) ->
  Forall (fun e => wf (snd e) /\ snd e <> [] /\ Forall (fun a => finite (s_time a) = true /\ finite (s_value a) = true) (snd e)) tr ->
  exists n x z, names phi = [n] /\ has_signal tr n x /\ compute_robustness dbg fuel phi tr s = Ok z /\
    times z = times x /\ all_num (values z) /\
    forall x1 a x2 z1 c z2, x = x1 ++ a :: x2 -> z = z1 ++ c :: z2 -> length x1 = length z1 ->
      (nltb nzero (s_value c) = true -> sampled_sat phi (a :: x2)) /\
      (nltb (s_value c) nzero = true -> ~ sampled_sat phi (a :: x2)).
Proof. exact C48_lemma. Qed.
Print Assumptions C48_sampled_sound.

Example C48_case : keys_unique btr /\ free_of is_const bun = true /\ free_of is_andor bun = true /\ free_of is_until bun = true /\
  (forall e, In e (subs bun) -> match e with EPred _ _ c => finite c = true | _ => True end) /\
  intervals_made bun /\ (forall n, In n (names bun) -> exists x, has_signal btr n x) /\
  Forall (fun e => wf (snd e) /\ snd e <> [] /\ Forall (fun a => finite (s_time a) = true /\ finite (s_value a) = true) (snd e)) btr.
Proof. exact C48_case_lemma. Qed.
