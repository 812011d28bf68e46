(** Properties C01-C14, C66, C97 and C98: building, reading and reshaping one signal.
    Vocabulary: Spec/SignalSpec.v, Spec/History.v, Spec/Subseq.v, Spec/Pwl.v. *)
From Coq Require Import Sorted Reals Lra.
From Flocq Require Import IEEE754.BinarySingleNaN.
From Verif Require Import Base Num NumXR NumB64.
From Verif.Model Require Import Signal.
From Verif.Spec Require Import SignalSpec History Subseq Pwl.
From Verif.Proofs Require Import SignalFacts HistoryFacts LowerBound Reshape PwlFacts ShapeExact B64Facts SimplifyDrop SignalProps AccessFacts SimplifyTwice ResizeShift.

(** ** C01 *)
Theorem C01_append_strictly_increasing : forall h : list (sample B64),
  Forall (fun x => isnum (s_time x) = true) h ->
  let s := after h in
  increasing (times s) /\
  forall x,
    (s <> [] /\ nleb (s_time x) (end_time s) = true -> push_back_st s x = (s, Some InvalidArgument) /\ push_back s x = Throw InvalidArgument) /\
    (s = [] \/ nleb (s_time x) (end_time s) = false ->
       exists s', push_back_st s x = (s', None) /\ push_back s x = Ok s' /\ points s' = points s ++ [(s_time x, s_value x)]).
Proof. exact (C01_lemma (F := B64)). Qed.
Print Assumptions C01_append_strictly_increasing.

(** A history with an accepted, a rejected and again an accepted call. *)
Example C01_case : Forall (fun x : sample B64 => isnum (s_time x) = true) ex_history /\
  length (after ex_history) = 2%nat /\ length ex_history = 3%nat.
Proof. exact C01_case_lemma. Qed.

(** ** C02: false of the code.  A NaN timestamp is always accepted, and after it so is any time. *)
Theorem C02_refuted : exists h : list (sample B64),
  ~ increasing (times (after h)) /\
  exists a b, hd_error (times (after h)) = Some a /\ last_opt (times (after h)) = Some b /\ nltb b a = true.
Proof. exact C02_witness. Qed.
Print Assumptions C02_refuted.

Theorem C02_nan_always_accepted : forall (h : list (sample B64)) x, isnum (s_time x) = false ->
  exists s', push_back_st (after h) x = (s', None) /\ points s' = points (after h) ++ [(s_time x, s_value x)].
Proof. exact (C02_accepts (F := B64)). Qed.
Print Assumptions C02_nan_always_accepted.

(** What is left: histories without NaN timestamps (this is C01). *)
Theorem C02_partial : forall h : list (sample B64),
  Forall (fun x => isnum (s_time x) = true) h -> increasing (times (after h)).
Proof. exact (after_increasing (F := B64)). Qed.
Print Assumptions C02_partial.

Example C02_case : isnum (s_time (mkSample (B754_nan : B64) nzero nzero)) = false.
Proof. reflexivity. Qed.

(** ** C03 *)
Theorem C03_derivatives_are_slopes : forall h : list (sample B64), slopes_ok (after h).
Proof. exact (after_slopes (F := B64)). Qed.
Print Assumptions C03_derivatives_are_slopes.

Example C03_case : length (after ex_history) = 2%nat.
Proof. apply C01_case_lemma. Qed.

(** ** C04 *)
Theorem C04_construction : forall ps ts : list B64, all_num ts ->
  (length ps <> length ts \/ ~ increasing ts -> from_vectors ps ts = Throw InvalidArgument) /\
  (length ps = length ts -> increasing ts ->
     exists s, from_vectors ps ts = Ok s /\ points s = combine ts ps /\ from_samples s = Ok s).
Proof. exact (C04_lemma (F := B64)). Qed.
Print Assumptions C04_construction.

Example C04_case : all_num [dbl 1 0; dbl 3 0] /\ increasing [dbl 1 0; dbl 3 0] /\ ~ increasing [dbl 3 0; dbl 1 0].
Proof. exact C04_case_lemma. Qed.

(** ** C05 *)
Theorem C05_at_existing_sample : forall (s : signal B64) a t, wf s -> In a s ->
  neqb (s_time a) t = true -> at_time s t = Ok a.
Proof. exact (C05_lemma (F := B64)). Qed.
Print Assumptions C05_at_existing_sample.

Example C05_case : wf ex_signal /\ exists a, In a ex_signal /\ neqb (s_time a) (dbl 1 0) = true.
Proof. exact C05_case_lemma. Qed.

(** ** C06: false of the code.  Between samples, [at] extends the slope of the NEXT segment
    backwards; the result is the linear interpolation exactly when the two slopes agree. *)
Theorem C06_at_between_partial : forall l1 p q l2 s t, built (l1 ++ p :: q :: l2) s ->
  (fst p < t < fst q)%R ->
  exists a v, at_time s (Fin t) = Ok a /\ s_time a = Fin t /\ s_value a = Fin v /\
    (pwl (l1 ++ p :: q :: l2) t v <->
     ((snd q - snd p) / (fst q - fst p) =
      match l2 with [] => 0 | r :: _ => (snd r - snd q) / (fst r - fst q) end)%R).
Proof. exact C06_lemma. Qed.
Print Assumptions C06_at_between_partial.

Theorem C06_refuted : exists l s t v a, built l s /\ pwl l t v /\
  at_time s (Fin t) = Ok a /\ s_value a <> Fin v.
Proof. exact C06_witness. Qed.
Print Assumptions C06_refuted.

(** The same in binary64: times 0,1,2 with values 0,1,1; at(1/2) is 1 instead of 1/2. *)
Theorem C06_refuted_binary64 : exists (s : signal B64) a,
  from_vectors [dbl 0 0; dbl 1 0; dbl 1 0] [dbl 0 0; dbl 1 0; dbl 2 0] = Ok s /\
  at_time s (dbl 1 (-1)) = Ok a /\ neqb (s_value a) (dbl 1 0) = true.
Proof. exact C06_witness_b64. Qed.
Print Assumptions C06_refuted_binary64.

Example C06_case : exists s, built [(0, 0); (1, 2); (2, 0)]%R s /\ (fst (0, 0) < 1 / 2 < fst (1, 2))%R.
Proof. exact C06_case_lemma. Qed.

(** ** C07: false of the code.  [at] never throws on a non-empty signal: before the begin it
    extrapolates, after the end (and on an empty signal) it dereferences end(). *)
Theorem C07_never_throws_partial : forall (s : signal B64) t, wf s ->
  (s = [] -> at_time s t = UB) /\
  (s <> [] -> nltb (end_time s) t = true -> at_time s t = UB) /\
  (s <> [] -> nltb t (begin_time s) = true ->
     exists a0 r, s = a0 :: r /\ at_time s t = Ok (mkSample t (interpolate a0 t) (s_deriv a0))) /\
  (forall e, at_time s t <> Throw e).
Proof. exact (C07_lemma (F := B64)). Qed.
Print Assumptions C07_never_throws_partial.

Example C07_case : wf ex_signal /\ ex_signal <> [] /\ nltb (end_time ex_signal) (dbl 9 0) = true /\ nltb (dbl (-9) 0) (begin_time ex_signal) = true.
Proof. exact C07_case_lemma. Qed.

Theorem C07_refuted : exists (s : signal B64) t a u, wf s /\ s <> [] /\
  nltb t (begin_time s) = true /\ at_time s t = Ok a /\
  nltb (end_time s) u = true /\ at_time s u = UB.
Proof. exact C07_witness. Qed.
Print Assumptions C07_refuted.

(** ** C08 *)
Theorem C08_begin_at : forall (s : signal B64) t, wf s -> isnum t = true ->
  exists k, begin_at s t = Ok k /\ (k <= length s)%nat /\
    (forall i a, nth_error s i = Some a -> ((i < k)%nat <-> nltb (s_time a) t = true)).
Proof. exact (C08_lemma (F := B64)). Qed.
Print Assumptions C08_begin_at.

Example C08_case : wf ex_signal /\ begin_at ex_signal (dbl 1 (-1)) = Ok 1%nat.
Proof. exact C08_case_lemma. Qed.

(** ** C09: false of the code.  [end_at] starts by dereferencing end(): it is undefined unless
    [t] is at or after the end of the signal. *)
Theorem C09_end_at_partial : forall (s : signal B64) t,
  (nleb (end_time s) t = true -> end_at s t = Ok (length s)) /\
  (nleb (end_time s) t = false -> end_at s t = UB).
Proof. exact (C09_lemma (F := B64)). Qed.
Print Assumptions C09_end_at_partial.

Example C09_case : nleb (end_time ex_signal) (dbl 9 0) = true /\ nleb (end_time ex_signal) (dbl 1 0) = false.
Proof. exact C09_case_lemma. Qed.

(** The loop of [end_at] would be right if it were started at the last sample instead of one past it:
    it returns the position of the claim for every [t] at or after the begin, and only for an earlier
    [t] it runs off the begin. *)
Theorem C09_search_partial : forall (s : signal B64) t, wf s -> s <> [] -> isnum t = true ->
  (nleb (begin_time s) t = true -> exists k, end_at_loop s t (length s - 1) = Ok k /\ (k <= length s)%nat /\
    (forall i a, nth_error s i = Some a -> ((i < k)%nat <-> nleb (s_time a) t = true))) /\
  (nltb t (begin_time s) = true -> end_at_loop s t (length s - 1) = UB).
Proof. exact (C09_search_lemma (F := B64)). Qed.
Print Assumptions C09_search_partial.

Example C09_search_case : wf ex_signal /\ ex_signal <> [] /\ isnum (dbl 1 0) = true /\ nleb (begin_time ex_signal) (dbl 1 0) = true /\
  nltb (dbl (-1) 0) (begin_time ex_signal) = true.
Proof. exact C09_search_case_lemma. Qed.

Theorem C09_refuted : exists (s : signal B64) t, wf s /\ nleb (begin_time s) t = true /\
  nltb t (end_time s) = true /\ end_at s t = UB.
Proof. exact C09_witness. Qed.
Print Assumptions C09_refuted.

(** ** C10 *)
Theorem C10_simplify_keeps_samples : forall s : signal B64, wf s ->
  exists s', simplify s = Ok s' /\ wf s' /\ subseq (points s') (points s) /\
    hd_error (points s') = hd_error (points s) /\ last_opt (points s') = last_opt (points s).
Proof. exact (C10_order_lemma (F := B64)). Qed.
Print Assumptions C10_simplify_keeps_samples.

Theorem C10_simplify_same_function : forall l s, built l s ->
  exists l' s', simplify s = Ok s' /\ built l' s' /\ subseq l' l /\
    forall t v, pwl l' t v <-> pwl l t v.
Proof. exact C10_exact_lemma. Qed.
Print Assumptions C10_simplify_same_function.

Example C10_case : exists s s', built [(0, 1); (1, 1); (2, 1); (3, 4)]%R s /\ simplify s = Ok s' /\ length s' = 3%nat.
Proof. exact C10_case_lemma. Qed.

(** ** C11: false of the code.  An interior sample is dropped exactly when its value equals both
    neighbours' values; collinear samples on a slope are kept. *)
Theorem C11_simplify_drops_partial : forall l1 p q r l2 s s' l',
  built (l1 ++ p :: q :: r :: l2) s -> simplify s = Ok s' -> built l' s' ->
  (In q l' <-> ~ (snd p = snd q /\ snd q = snd r)).
Proof. exact C11_lemma. Qed.
Print Assumptions C11_simplify_drops_partial.

Example C11_case : exists s s' l', built ([(0, 1)] ++ (1, 1) :: (2, 1) :: (3, 4) :: [])%R s /\ simplify s = Ok s' /\ built l' s'.
Proof. exact C11_case_lemma. Qed.

Theorem C11_refuted : exists p q r s, built [p; q; r] s /\ simplify s = Ok s /\
  ((snd q - snd p) / (fst q - fst p) = (snd r - snd q) / (fst r - fst q))%R.
Proof. exact C11_witness. Qed.
Print Assumptions C11_refuted.

(** ** C12: false of the code.  [resize] is right only when [start] lies in the last segment;
    it throws whenever [start] is before the second-to-last sample, and nothing is filled in
    after the end. *)
Theorem C12_resize_partial : forall l p q start fin fill s,
  built (l ++ [p; q]) s -> (fst p <= start < fst q)%R -> (start < fin)%R ->
  exists l' s', resize s (Fin start) (Fin fin) (Fin fill) = Ok s' /\ built l' s' /\
    forall t v, pwl l' t v <-> pwl (l ++ [p; q]) t v /\ (start <= t <= fin)%R.
Proof. exact C12_lemma. Qed.
Print Assumptions C12_resize_partial.

Example C12_case : exists s, built ([(0, 1)] ++ [(1, 2); (3, 5)])%R s /\ (fst (1, 2) <= 2 < fst (3, 5))%R.
Proof. exact C12_case_lemma. Qed.

Theorem C12_resize_throws : forall (l0 : list (sample B64)) a b start fin fill,
  wf (l0 ++ [a; b]) -> isnum start = true -> nleb start fin = true ->
  nltb start (s_time a) = true -> resize (l0 ++ [a; b]) start fin fill = Throw InvalidArgument.
Proof. exact (C12_throw_lemma (F := B64)). Qed.
Print Assumptions C12_resize_throws.

Example C12_throws_case : exists (l0 : list (sample B64)) a b, wf (l0 ++ [a; b]) /\ nleb (begin_time (l0 ++ [a; b])) (dbl 1 (-1)) = true /\
  isnum (dbl 1 (-1)) = true /\ nleb (dbl 1 (-1)) (dbl 3 (-1)) = true /\ nltb (dbl 1 (-1)) (s_time a) = true.
Proof. exact C12_throws_case_lemma. Qed.

(** Every other case, in binary64: the fill value is used only before a signal with at most one
    sample. *)
Theorem C12_otherwise_partial : forall (s : signal B64) start fin fill,
  wf s -> isnum start = true -> nleb start fin = true ->
  (s = [] -> exists s', resize s start fin fill = Ok s' /\ points s' = (if nltb start nzero then [(start, fill)] else [])) /\
  (forall b, s = [b] -> nltb start (s_time b) = true -> exists s', resize s start fin fill = Ok s' /\
     points s' = (start, fill) :: (if nleb (s_time b) fin then [(s_time b, s_value b)] else [])) /\
  (forall l0 b, s = l0 ++ [b] -> nleb (s_time b) start = true -> exists s', resize s start fin fill = Ok s' /\
     points s' = (if neqb (s_time b) start then [(s_time b, s_value b)] else [])) /\
  (forall l0 a b, s = l0 ++ [a; b] -> nleb (s_time a) start = true -> nltb start (s_time b) = true -> neqb start fin = true ->
     (nltb (s_time a) start = true -> resize s start fin fill = Throw InvalidArgument) /\
     (nltb (s_time a) start = false -> exists s' v, resize s start fin fill = Ok s' /\ points s' = [(start, v)] /\
        v = nadd (s_value a) (nmul (s_deriv a) (nsub start (s_time a))))) /\
  (forall l0 a b, s = l0 ++ [a; b] -> nleb (s_time a) start = true -> nltb start (s_time b) = true -> nltb start fin = true ->
     exists s', resize s start fin fill = Ok s' /\
       points s' = [(start, nadd (s_value a) (nmul (s_deriv a) (nsub start (s_time a))));
                    if nleb (s_time b) fin then (s_time b, s_value b)
                    else (fin, nadd (s_value a) (nmul (s_deriv a) (nsub fin (s_time a))))]).
Proof. exact (C12_rest_lemma (F := B64)). Qed.
Print Assumptions C12_otherwise_partial.

(** The hypotheses of the five cases can be met: a window before, after, at a sample of, strictly
    inside and across the last segment. *)
Example C12_otherwise_case : wf ex_signal /\ wf (sig_of [(dbl 1 0, dbl 5 0)]) /\ nltb (dbl 0 0) (dbl 1 0) = true /\
  nltb (end_time ex_signal) (dbl 3 0) = true /\
  (exists l0 a b, ex_signal = l0 ++ [a; b] /\ nleb (s_time a) (dbl 1 0) = true /\ nltb (s_time a) (dbl 3 (-1)) = true /\ nltb (dbl 3 (-1)) (s_time b) = true).
Proof. exact C12_otherwise_case_lemma. Qed.

Theorem C12_refuted : exists (s : signal B64) start fin fill, wf s /\
  nleb (begin_time s) start = true /\ nltb start fin = true /\ nleb fin (end_time s) = true /\
  resize s start fin fill = Throw InvalidArgument.
Proof. exact C12_witness. Qed.
Print Assumptions C12_refuted.

(** ** C13 *)
Theorem C13_shift_translates : forall l s dt, built l s ->
  exists l' s', shift s (Fin dt) = Ok s' /\ built l' s' /\
    (forall t v, pwl l' (t + dt)%R v <-> pwl l t v) /\
    (forall dt2, shift s' (Fin dt2) = shift s (Fin (dt + dt2)%R)).
Proof. exact C13_lemma. Qed.
Print Assumptions C13_shift_translates.

Example C13_case : exists s, built [(0, 1); (1, 2); (3, 5)]%R s.
Proof. exact C13_case_lemma. Qed.

(** ** C14: false of the code.  Rounding can make two timestamps equal; they never get swapped. *)
Theorem C14_shift_times_partial : forall (s : signal B64) dt, wf s -> finite dt = true ->
  exists s', shift s dt = Ok s' /\ values s' = values s /\ length s' = length s /\
    StronglySorted (fun a b => nleb a b = true) (times s').
Proof. exact C14_lemma. Qed.
Print Assumptions C14_shift_times_partial.

Example C14_case : wf ex_signal /\ finite (dbl 7 (-2)) = true.
Proof. exact C14_case_lemma. Qed.

Theorem C14_refuted : exists (s s' : signal B64) dt, wf s /\ finite dt = true /\
  shift s dt = Ok s' /\ ~ increasing (times s').
Proof. exact C14_witness. Qed.
Print Assumptions C14_refuted.

(** ** C66 *)
Theorem C66_index_inside : forall (pre : signal B64) a post t p,
  at_idx (pre ++ a :: post) (length pre) = Ok a /\
  interpolate_idx (pre ++ a :: post) t (length pre) = Ok (interpolate a t) /\
  time_intersect_idx (pre ++ a :: post) p (length pre) = Ok (time_intersect a p) /\
  area_idx (pre ++ a :: post) t (length pre) = Ok (area a t).
Proof. exact (C66_inside_lemma (F := B64)). Qed.
Print Assumptions C66_index_inside.

Theorem C66_index_outside : forall (s : signal B64) i t p, (length s <= i)%nat ->
  at_idx s i = Throw OutOfRange /\ interpolate_idx s t i = Throw OutOfRange /\
  time_intersect_idx s p i = Throw OutOfRange /\ area_idx s t i = Throw OutOfRange.
Proof. exact (C66_outside_lemma (F := B64)). Qed.
Print Assumptions C66_index_outside.

Theorem C66_ends : forall (s : signal B64) a,
  front (a :: s) = Ok a /\ begin_time (a :: s) = s_time a /\
  back (s ++ [a]) = Ok a /\ end_time (s ++ [a]) = s_time a.
Proof. exact (C66_ends_lemma (F := B64)). Qed.
Print Assumptions C66_ends.

Theorem C66_empty : front ([] : signal B64) = UB /\ back ([] : signal B64) = UB /\
  begin_time ([] : signal B64) = B754_zero false /\ end_time ([] : signal B64) = B754_zero false.
Proof. exact (C66_empty_lemma (F := B64)). Qed.
Print Assumptions C66_empty.

Example C66_case : (length ex_signal <= 5)%nat /\ exists a b post, ex_signal = [a] ++ b :: post.
Proof. exact C66_case_lemma. Qed.

(** ** C97 *)
Theorem C97_simplify_idempotent : forall s s' : signal B64, wf s -> simplify s = Ok s' -> simplify s' = Ok s'.
Proof. exact C97_lemma. Qed.
Print Assumptions C97_simplify_idempotent.

Example C97_case : exists s s' : signal B64, wf s /\ simplify s = Ok s' /\ length s = 5%nat /\ length s' = 4%nat.
Proof. exact C97_case_lemma. Qed.

(** ** C98 *)
Theorem C98_resize_shift : forall (s : signal B64) start fin fill dt,
  ((exists out, resize s start fin fill = Ok out) \/ resize s start fin fill = Throw InvalidArgument) /\
  (forall out, resize s start fin fill = Ok out -> resize_shift s start fin fill dt = shift out dt) /\
  (forall e, resize s start fin fill = Throw e -> resize_shift s start fin fill dt = Throw e).
Proof. exact (C98_lemma (F := B64)). Qed.
Print Assumptions C98_resize_shift.

Example C98_case : exists out, resize ex_signal (dbl 3 (-1)) (dbl 2 0) nzero = Ok out /\ length out = 2%nat.
Proof. exact C98_case_lemma. Qed.
