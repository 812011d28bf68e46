(** Properties C24-C30, C32, C33: min/max of signals and the monotonic wedge.
    Vocabulary: Spec/SignalSpec.v, Spec/Pwl.v, Spec/Crossing.v, Spec/Wedge.v.
    [dbg]: whether assert is active. *)
From Coq Require Import Sorted Reals Lra.
From Verif Require Import Base Num NumXR NumB64.
From Verif.Model Require Import Signal MonoWedge MinMax.
From Verif.Spec Require Import SignalSpec Pwl Crossing Wedge Subseq.
From Verif.Proofs Require Import SeqFacts WedgeFacts MinMaxProps MinMaxCases MinMaxExamples SyncCases WinExact WedgeExact.

Local Open Scope nat_scope.

(** ** C24 (exact arithmetic).  Stated for all signals of which one begins at a sample of the
    other; [C24_same_begin] says that a common begin time is enough. *)
Theorem C24_elementwise_min : forall dbg lx ly x y, built lx x -> built ly y -> meets x y ->
  exists l z, elementwise_min dbg false x y = Ok z /\ built l z /\
    forall t v, pwl l t v <-> exists vx vy, pwl lx t vx /\ pwl ly t vy /\ v = Rmin vx vy.
Proof. exact C24_min. Qed.
Print Assumptions C24_elementwise_min.

Theorem C24_elementwise_max : forall dbg lx ly x y, built lx x -> built ly y -> meets x y ->
  exists l z, elementwise_max dbg false x y = Ok z /\ built l z /\
    forall t v, pwl l t v <-> exists vx vy, pwl lx t vx /\ pwl ly t vy /\ v = Rmax vx vy.
Proof. exact C24_max. Qed.
Print Assumptions C24_elementwise_max.

Theorem C24_same_begin : forall lx ly x y, built lx x -> built ly y -> lx <> [] -> ly <> [] ->
  first_time lx = first_time ly -> meets x y.
Proof. exact C24_first. Qed.
Print Assumptions C24_same_begin.

Theorem C24_synchronized_flag : forall dbg lx ly x y, built lx x -> built ly y -> map fst lx = map fst ly -> lx <> [] ->
  elementwise_min dbg true x y = elementwise_min dbg false x y /\
  elementwise_max dbg true x y = elementwise_max dbg false x y.
Proof. exact C24_flag. Qed.
Print Assumptions C24_synchronized_flag.

Example C24_case : exists x y, built [(0, 1); (2, 3); (4, 0)]%R x /\ built [(0, 3); (3, -1); (5, 2)]%R y /\ meets x y.
Proof. exact C24_case_lemma. Qed.

(** ** C25 *)
Theorem C25_min_at_samples : forall dbg (x y x' y' z : signal B64), wf x -> wf y -> synchronize x y = Ok (x', y') ->
  all_num (values x') -> all_num (values y') -> elementwise_min dbg false x y = Ok z ->
  wf z /\ forall k a b, nth_error x' k = Some a -> nth_error y' k = Some b ->
    exists c, In c z /\ neqb (s_time c) (s_time a) = true /\ neqb (s_time c) (s_time b) = true /\
      (s_value c = s_value a \/ s_value c = s_value b) /\
      nleb (s_value c) (s_value a) = true /\ nleb (s_value c) (s_value b) = true.
Proof. exact C25_min_lemma. Qed.
Print Assumptions C25_min_at_samples.

Theorem C25_max_at_samples : forall dbg (x y x' y' z : signal B64), wf x -> wf y -> synchronize x y = Ok (x', y') ->
  all_num (values x') -> all_num (values y') -> elementwise_max dbg false x y = Ok z ->
  wf z /\ forall k a b, nth_error x' k = Some a -> nth_error y' k = Some b ->
    exists c, In c z /\ neqb (s_time c) (s_time a) = true /\ neqb (s_time c) (s_time b) = true /\
      (s_value c = s_value a \/ s_value c = s_value b) /\
      nleb (s_value a) (s_value c) = true /\ nleb (s_value b) (s_value c) = true.
Proof. exact C25_max_lemma. Qed.
Print Assumptions C25_max_at_samples.

Example C25_case : wf ex_x /\ wf c25_y /\ exists x' y' z, synchronize ex_x c25_y = Ok (x', y') /\
  all_num (values x') /\ all_num (values y') /\ elementwise_min true false ex_x c25_y = Ok z /\ 4 <= length z.
Proof. exact C25_case_lemma. Qed.

(** ** C26: false of the code, because of rounding.  It throws exactly if a computed crossing
    lies after the next sample, and there is no other way to fail. *)
Theorem C26_min_throws_partial : forall dbg (x y : signal B64), wf x -> wf y -> x <> [] ->
  Forall2 (fun a b => neqb (s_time a) (s_time b) = true) x y ->
  (~ late_crossing (fun v w => nltb w v) x y /\
     exists z, elementwise_min dbg false x y = Ok z /\ elementwise_min dbg true x y = Ok z) \/
  (late_crossing (fun v w => nltb w v) x y /\
     elementwise_min dbg false x y = Throw InvalidArgument /\ elementwise_min dbg true x y = Throw InvalidArgument).
Proof. exact C26_min_lemma. Qed.
Print Assumptions C26_min_throws_partial.

Theorem C26_max_throws_partial : forall dbg (x y : signal B64), wf x -> wf y -> x <> [] ->
  Forall2 (fun a b => neqb (s_time a) (s_time b) = true) x y ->
  (~ late_crossing nltb x y /\
     exists z, elementwise_max dbg false x y = Ok z /\ elementwise_max dbg true x y = Ok z) \/
  (late_crossing nltb x y /\
     elementwise_max dbg false x y = Throw InvalidArgument /\ elementwise_max dbg true x y = Throw InvalidArgument).
Proof. exact C26_max_lemma. Qed.
Print Assumptions C26_max_throws_partial.

Theorem C26_refuted : exists x y : signal B64, wf x /\ wf y /\ x <> [] /\
  Forall2 (fun a b => s_time a = s_time b) x y /\
  Forall (fun a => finite (s_time a) = true /\ finite (s_value a) = true) (x ++ y) /\
  forall dbg sync, elementwise_min dbg sync x y = Throw InvalidArgument.
Proof. exact C26_witness. Qed.
Print Assumptions C26_refuted.

Example C26_case : wf (SignalFacts.sig_of c26_x) /\ wf (SignalFacts.sig_of c26_y) /\
  Forall2 (fun a b => neqb (s_time a) (s_time b) = true) (SignalFacts.sig_of c26_x) (SignalFacts.sig_of c26_y) /\
  is_ok (elementwise_min true false (SignalFacts.sig_of c26_x) (SignalFacts.sig_of c26_y)) = true.
Proof. exact C26_case_lemma. Qed.

(** ** C27 (exact arithmetic) *)
Theorem C27_nary_min : forall dbg ls xs t0, Forall2 built ls xs -> 2 <= length ls ->
  Forall (fun l => l <> [] /\ first_time l = t0) ls ->
  exists l z, elementwise_min_list dbg false xs = Ok z /\ built l z /\
    forall t v, pwl l t v <->
      (forall l', In l' ls -> exists v', pwl l' t v') /\ (exists l', In l' ls /\ pwl l' t v) /\
      (forall l' v', In l' ls -> pwl l' t v' -> (v <= v')%R).
Proof. exact C27_min. Qed.
Print Assumptions C27_nary_min.

Theorem C27_nary_max : forall dbg ls xs t0, Forall2 built ls xs -> 2 <= length ls ->
  Forall (fun l => l <> [] /\ first_time l = t0) ls ->
  exists l z, elementwise_max_list dbg false xs = Ok z /\ built l z /\
    forall t v, pwl l t v <->
      (forall l', In l' ls -> exists v', pwl l' t v') /\ (exists l', In l' ls /\ pwl l' t v) /\
      (forall l' v', In l' ls -> pwl l' t v' -> (v' <= v)%R).
Proof. exact C27_max. Qed.
Print Assumptions C27_nary_max.

Example C27_case : exists x y z, Forall2 built [[(0, 1); (2, 3)]; [(0, 3); (3, -1)]; [(0, 0); (1, 7)]]%R [x; y; z] /\
  Forall (fun l => l <> [] /\ first_time l = 0%R) [[(0, 1); (2, 3)]; [(0, 3); (3, -1)]; [(0, 0); (1, 7)]]%R.
Proof. exact C27_case_lemma. Qed.

(** ** C28 *)
Theorem C28_rolling_min : forall x : signal B64, wf x -> x <> [] -> all_num (values x) ->
  exists z, min_seq x = Ok z /\ wf z /\ times z = times x /\
    forall x1 a x2, x = x1 ++ a :: x2 ->
    exists z1 c z2, z = z1 ++ c :: z2 /\ length z1 = length x1 /\ s_time c = s_time a /\
      (exists b, In b (a :: x2) /\ s_value c = s_value b) /\
      (forall b, In b (a :: x2) -> nleb (s_value c) (s_value b) = true).
Proof. exact SeqFacts.C28_min. Qed.
Print Assumptions C28_rolling_min.

Theorem C28_rolling_max : forall x : signal B64, wf x -> x <> [] -> all_num (values x) ->
  exists z, max_seq x = Ok z /\ wf z /\ times z = times x /\
    forall x1 a x2, x = x1 ++ a :: x2 ->
    exists z1 c z2, z = z1 ++ c :: z2 /\ length z1 = length x1 /\ s_time c = s_time a /\
      (exists b, In b (a :: x2) /\ s_value c = s_value b) /\
      (forall b, In b (a :: x2) -> nleb (s_value b) (s_value c) = true).
Proof. exact SeqFacts.C28_max. Qed.
Print Assumptions C28_rolling_max.

Example C28_case : wf ex_x /\ ex_x <> [] /\ all_num (values ex_x).
Proof. exact C28_case_lemma. Qed.

(** ** C29 (exact arithmetic): false of the code between samples.  The result always bounds
    the supremum (infimum) over [t,end], reaches it at samples, and between two samples
    reaches it iff the extreme [m] of the later samples is not strictly between their values. *)
Theorem C29_rolling_min_partial : forall l x, built l x -> l <> [] ->
  exists lz z, min_seq x = Ok z /\ built lz z /\ map fst lz = map fst l /\
    (forall t v, pwl lz t v -> forall t' v', (t <= t')%R -> pwl l t' v' -> (v <= v')%R) /\
    (forall p v, In p l -> pwl lz (fst p) v -> exists t', (fst p <= t')%R /\ pwl l t' v) /\
    (forall l1 p q r t v m, l = l1 ++ p :: q :: r -> (fst p < t < fst q)%R -> pwl lz t v ->
       (exists c, In c (q :: r) /\ snd c = m) -> (forall c, In c (q :: r) -> (m <= snd c)%R) ->
       ((exists t', (t <= t')%R /\ pwl l t' v) <-> ~ (snd p < m < snd q)%R)).
Proof. exact C29_min_lemma. Qed.
Print Assumptions C29_rolling_min_partial.

Theorem C29_rolling_max_partial : forall l x, built l x -> l <> [] ->
  exists lz z, max_seq x = Ok z /\ built lz z /\ map fst lz = map fst l /\
    (forall t v, pwl lz t v -> forall t' v', (t <= t')%R -> pwl l t' v' -> (v' <= v)%R) /\
    (forall p v, In p l -> pwl lz (fst p) v -> exists t', (fst p <= t')%R /\ pwl l t' v) /\
    (forall l1 p q r t v m, l = l1 ++ p :: q :: r -> (fst p < t < fst q)%R -> pwl lz t v ->
       (exists c, In c (q :: r) /\ snd c = m) -> (forall c, In c (q :: r) -> (snd c <= m)%R) ->
       ((exists t', (t <= t')%R /\ pwl l t' v) <-> ~ (snd q < m < snd p)%R)).
Proof. exact C29_max_lemma. Qed.
Print Assumptions C29_rolling_max_partial.

Theorem C29_refuted : exists l x lz z t v, built l x /\ max_seq x = Ok z /\ built lz z /\ pwl lz t v /\
  forall t' v', (t <= t')%R -> pwl l t' v' -> (v' < v)%R.
Proof. exact C29_witness. Qed.
Print Assumptions C29_refuted.

Example C29_case : exists x, built [(0, 1); (2, 3); (4, 0)]%R x.
Proof. exact C29_case_lemma. Qed.

(** ** C30 *)
Theorem C30_min_idempotent : forall x : signal B64, wf x -> x <> [] -> all_num (values x) ->
  exists z, min_seq x = Ok z /\ min_seq z = Ok z /\ StronglySorted (fun v w => nleb v w = true) (values z).
Proof. exact SeqFacts.C30_min. Qed.
Print Assumptions C30_min_idempotent.

Theorem C30_max_idempotent : forall x : signal B64, wf x -> x <> [] -> all_num (values x) ->
  exists z, max_seq x = Ok z /\ max_seq z = Ok z /\ StronglySorted (fun v w => nleb w v = true) (values z).
Proof. exact SeqFacts.C30_max. Qed.
Print Assumptions C30_max_idempotent.

Example C30_case : wf ex_x /\ ex_x <> [] /\ all_num (values ex_x).
Proof. exact C28_case_lemma. Qed.

(** ** C32: false of the code.  With a = 0 the call always ends in undefined behaviour; with
    a <> 0 and a window shorter than the signal up to its second-to-last sample it always
    throws; and where it returns the values can be wrong. *)
Theorem C32_zero_start_refuted : forall (x : signal B64) (a b : B64) fuel, wf x -> neqb a nzero = true ->
  length x < fuel -> max_seq_win fuel x a b = UB /\ min_seq_win fuel x a b = UB.
Proof. exact C32_zero_lemma. Qed.
Print Assumptions C32_zero_start_refuted.

Theorem C32_short_window_refuted : forall (x0 : signal B64) p q (a b : B64) fuel, wf (x0 ++ [p; q]) ->
  neqb a nzero = false -> finite (nsub b a) = true ->
  nltb (nadd (begin_time (x0 ++ [p; q])) (nsub b a)) (s_time p) = true ->
  max_seq_win fuel (x0 ++ [p; q]) a b = Throw InvalidArgument /\
  min_seq_win fuel (x0 ++ [p; q]) a b = Throw InvalidArgument.
Proof. exact C32_throw_lemma. Qed.
Print Assumptions C32_short_window_refuted.

Theorem C32_wrong_value_refuted : exists (x : signal B64) (a b : B64),
  wf x /\ finite a = true /\ finite b = true /\ nltb nzero a = true /\ nltb a b = true /\
  exists s, In s x /\ exists c z, max_seq_win 100 x a b = Ok z /\ In c z /\
    nleb (nadd (s_time c) a) (s_time s) = true /\ nleb (s_time s) (nadd (s_time c) b) = true /\
    nltb (s_value c) (s_value s) = true.
Proof. exact C32_wrong. Qed.
Print Assumptions C32_wrong_value_refuted.

(** The remaining case, 0 < a < b (exact arithmetic).  [p] and [q] are the last two samples.  A
    window longer than half the rest of the signal: undefined behaviour. *)
Theorem C32_long_window_refuted : forall l p q s a b fuel, built (l ++ [p; q]) s -> (0 < a)%R -> (a < b)%R ->
  (fst p <= first_time (l ++ [p; q]) + (b - a))%R ->
  (fst q - (b - a) < first_time (l ++ [p; q]) + (b - a))%R ->
  max_seq_win fuel s (Fin a) (Fin b) = UB /\ min_seq_win fuel s (Fin a) (Fin b) = UB.
Proof. exact C32_long_lemma. Qed.
Print Assumptions C32_long_window_refuted.

(** All that is left.  It returns, but no extreme is taken: maximum and minimum are the same
    signal, with one and the same value [v] at every multiple of [a] until the window reaches the
    end.  Missing: that the value is the extreme over the window, which is false. *)
Theorem C32_returns_partial : forall l p q s a b, built (l ++ [p; q]) s -> (0 < a)%R -> (a < b)%R ->
  (fst p <= first_time (l ++ [p; q]) + (b - a) <= fst q - (b - a))%R ->
  exists n k v l' z,
    (forall fuel, n <= fuel -> max_seq_win fuel s (Fin a) (Fin b) = Ok z /\ min_seq_win fuel s (Fin a) (Fin b) = Ok z) /\
    built l' z /\
    (forall t u, pwl l' t u <->
       pwl (map (fun j => (first_time (l ++ [p; q]) + INR j * a, v)%R) (seq 1 k) ++ [(fst q - (b - a), snd q)%R]) t u) /\
    (fst q - b <= first_time (l ++ [p; q]) + INR k * a)%R /\
    (forall j, j < k -> (first_time (l ++ [p; q]) + INR j * a < fst q - b)%R) /\
    (0 < k -> pwl (l ++ [p; q]) (first_time (l ++ [p; q]) + b)%R v).
Proof. exact C32_shift_lemma. Qed.
Print Assumptions C32_returns_partial.

Example C32_returns_case : exists s, built ([] ++ [(0, 5); (8, 1)])%R s /\ (0 < 1)%R /\ (1 < 3)%R /\
  (fst (0, 5) <= first_time ([] ++ [(0, 5); (8, 1)]) + (3 - 1) <= fst (8, 1) - (3 - 1))%R.
Proof. exact C32_shift_case. Qed.
Example C32_long_window_case : exists s, built ([(0, 5)] ++ [(1, 5); (3, 1)])%R s /\ (0 < 1)%R /\ (1 < 3)%R /\
  (fst (1, 5) <= first_time ([(0, 5)] ++ [(1, 5); (3, 1)]) + (3 - 1))%R /\
  (fst (3, 1) - (3 - 1) < first_time ([(0, 5)] ++ [(1, 5); (3, 1)]) + (3 - 1))%R.
Proof. exact C32_long_case. Qed.

Example C32_case : wf ex_x /\ neqb (dbl 1 0) nzero = false /\ finite (nsub (dbl 2 0) (dbl 1 0)) = true /\
  nltb (nadd (begin_time ex_x) (nsub (dbl 2 0) (dbl 1 0))) (dbl 2 0) = true.
Proof. exact C32_case_lemma. Qed.

(** ** C33.  [Pop] on an empty wedge is the only way to fail. *)
Theorem C33_wedge_max : forall h : list (wop (sample B64)), Forall (fun a => isnum (s_value a) = true) (fed h) ->
  (wedge_run sample_ge [] h = UB /\ exists h1 h2, h = h1 ++ Pop :: h2 /\ wedge_run sample_ge [] h1 = Ok []) \/
  (exists w, wedge_run sample_ge [] h = Ok w /\
     StronglySorted (fun a b => nleb (s_value b) (s_value a) = true) w /\ subseq w (fed h) /\
     (w <> [] -> last_opt w = last_opt (fed h)) /\
     (forall f w', w = f :: w' -> exists older newer, fed h = older ++ f :: newer /\ subseq w' newer /\
        forall v, In v (f :: newer) -> nleb (s_value v) (s_value f) = true)).
Proof. exact wedge_max_lemma. Qed.
Print Assumptions C33_wedge_max.

Theorem C33_wedge_min : forall h : list (wop (sample B64)), Forall (fun a => isnum (s_value a) = true) (fed h) ->
  (wedge_run sample_le [] h = UB /\ exists h1 h2, h = h1 ++ Pop :: h2 /\ wedge_run sample_le [] h1 = Ok []) \/
  (exists w, wedge_run sample_le [] h = Ok w /\
     StronglySorted (fun a b => nleb (s_value a) (s_value b) = true) w /\ subseq w (fed h) /\
     (w <> [] -> last_opt w = last_opt (fed h)) /\
     (forall f w', w = f :: w' -> exists older newer, fed h = older ++ f :: newer /\ subseq w' newer /\
        forall v, In v (f :: newer) -> nleb (s_value f) (s_value v) = true)).
Proof. exact wedge_min_lemma. Qed.
Print Assumptions C33_wedge_min.

(** What the wedge holds, exactly, for the two comparators in use and for the variants
    [max_wedge_update] and [min_wedge_update]. *)
Theorem C33_wedge_contents : forall h : list (wop (sample B64)), Forall (fun a => isnum (s_value a) = true) (fed h) ->
  let ge a b := nleb (s_value b) (s_value a) in let le a b := nleb (s_value a) (s_value b) in
  let gt a b := nltb (s_value b) (s_value a) in let lt a b := nltb (s_value a) (s_value b) in
  wedge_run_with (wedge_update sample_ge) [] h = match window ge [] h with None => UB | Some r => Ok (leaders ge r) end /\
  wedge_run_with (wedge_update sample_le) [] h = match window le [] h with None => UB | Some r => Ok (leaders le r) end /\
  wedge_run_with max_wedge_update [] h = match window gt [] h with None => UB | Some r => Ok (leaders gt r) end /\
  wedge_run_with min_wedge_update [] h = match window lt [] h with None => UB | Some r => Ok (leaders lt r) end.
Proof. exact C33_contents. Qed.
Print Assumptions C33_wedge_contents.

(** The first of the leaders is the extreme of the window: its first occurrence for >= and <=,
    its last one for > and <. *)
Theorem C33_front_is_extreme : forall r : list (sample B64), Forall (fun a => isnum (s_value a) = true) r -> r <> [] ->
  let ge a b := nleb (s_value b) (s_value a) in let le a b := nleb (s_value a) (s_value b) in
  let gt a b := nltb (s_value b) (s_value a) in let lt a b := nltb (s_value a) (s_value b) in
  (exists o f n, r = o ++ f :: n /\ leaders ge r = f :: leaders ge n /\ after_extreme ge r = n /\
     Forall (fun v => nleb (s_value v) (s_value f) = true) n /\ Forall (fun v => nltb (s_value v) (s_value f) = true) o) /\
  (exists o f n, r = o ++ f :: n /\ leaders le r = f :: leaders le n /\ after_extreme le r = n /\
     Forall (fun v => nleb (s_value f) (s_value v) = true) n /\ Forall (fun v => nltb (s_value f) (s_value v) = true) o) /\
  (exists o f n, r = o ++ f :: n /\ leaders gt r = f :: leaders gt n /\ after_extreme gt r = n /\
     Forall (fun v => nltb (s_value v) (s_value f) = true) n /\ Forall (fun v => nleb (s_value v) (s_value f) = true) o) /\
  (exists o f n, r = o ++ f :: n /\ leaders lt r = f :: leaders lt n /\ after_extreme lt r = n /\
     Forall (fun v => nltb (s_value f) (s_value v) = true) n /\ Forall (fun v => nleb (s_value f) (s_value v) = true) o).
Proof. exact C33_first. Qed.
Print Assumptions C33_front_is_extreme.

(** The searches, on any sorted deque: the position before which everything is better than [v]. *)
Theorem C33_search : forall (w : list (sample B64)) v, Forall (fun a => isnum (s_value a) = true) w -> isnum (s_value v) = true ->
  (StronglySorted (fun a b => nleb (s_value a) (s_value b) = true) w -> exists w1 w2, w = w1 ++ w2 /\ min_wedge_search w v = Ok (length w1) /\
     Forall (fun a => nltb (s_value a) (s_value v) = true) w1 /\ Forall (fun a => nleb (s_value v) (s_value a) = true) w2) /\
  (StronglySorted (fun a b => nleb (s_value b) (s_value a) = true) w -> exists w1 w2, w = w1 ++ w2 /\ max_wedge_search w v = Ok (length w1) /\
     Forall (fun a => nltb (s_value v) (s_value a) = true) w1 /\ Forall (fun a => nleb (s_value a) (s_value v) = true) w2).
Proof. exact C33_search_lemma. Qed.
Print Assumptions C33_search.

Example C33_search_case : let w := [mkSample nzero (dbl 1 0) nzero; mkSample (dbl 1 0) (dbl 3 0) nzero; mkSample (dbl 2 0) (dbl 3 0) (nzero : B64)] in
  forallb (fun a => isnum (s_value a)) w = true /\ min_wedge_search w (mkSample (dbl 3 0) (dbl 3 0) nzero) = Ok 1 /\
  max_wedge_search (rev w) (mkSample (dbl 3 0) (dbl 1 0) nzero) = Ok 2.
Proof. vm_compute. auto. Qed.

Example C33_variants_case : match wedge_run_with max_wedge_update [] c33_h with Ok w => length w = 3 | _ => False end.
Proof. vm_compute; reflexivity. Qed.

Example C33_case : Forall (fun a => isnum (s_value a) = true) (fed c33_h) /\
  match wedge_run sample_ge [] c33_h with Ok w => length w = 4 | _ => False end.
Proof. exact C33_case_lemma. Qed.

(** ** C63.  No hypotheses; -inf is neutral for max only. *)
Theorem C63_empty_partial : forall dbg sync,
  elementwise_max_list dbg sync ([] : list (signal B64)) = Ok [mkSample nzero (nopp ninf) nzero] /\
  elementwise_min_list dbg sync ([] : list (signal B64)) = Ok [mkSample nzero (nopp ninf) nzero].
Proof. exact C63_lemma. Qed.
Print Assumptions C63_empty_partial.

Theorem C63_empty_refuted : exists z a, elementwise_min_list true false ([] : list (signal B64)) = Ok z /\ In a z /\ nltb (s_value a) nzero = true.
Proof. exact C63_witness. Qed.
Print Assumptions C63_empty_refuted.
