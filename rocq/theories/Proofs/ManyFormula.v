(** And and Or of two operands sampled at different times (C119) and of more operands sampled at the same times (C120), in doubles. *)
From Coq Require Import Reals Lra Lia.
From Flocq Require Import Core.Core IEEE754.BinarySingleNaN.
From Verif Require Import Base Num NumXR NumB64.
From Verif.Model Require Import Signal MinMax Ast Robustness.
From Verif.Spec Require Import SignalSpec Pwl Formula Semantics Quantitative Rounding Accuracy Uniform Whole Apart Spaced Many.
From Verif.Proofs Require Import NumFacts SignalFacts PwlFacts RobFacts RobWf B64Facts SeqFacts MinMaxProps InterpError CrossingError SyncError Rounding ChainFacts LayerFacts RobExact QuantFacts PairBound UniformFacts PerturbFacts WholeFacts DualB64 JoinFormula PairError SpacedFormula SlopeError ManyError.
Local Open Scope R_scope.

Lemma moderate_ordinary V S H : moderate V S H -> ordinary V S H.
Proof.
  intros ((A & B) & (C & D) & E). split; [|split; [|exact E]]; split; auto.
  - eapply Rle_trans; [exact B|]. apply bpow_le. lia.
  - eapply Rle_trans; [|exact C]. apply bpow_le. lia.
Qed.
(** The conditions on magnitudes used in ManyError, for [V] and for [4 * V]. *)
Lemma moderate_parts V S H k : moderate V S H -> 1 <= k <= 4 -> lo <= k * V /\ 4 * (k * V) <= hi /\ S <= hi /\ lo <= H <= S /\ lo <= uu * S.
Proof.
  intros ((A & B) & (C & D) & E) K. pose proof lo_hi as (L0 & _). fold lo in A. fold hi in E. pose proof uu_small.
  assert (4 * 4 * bpow radix2 296 <= hi). { unfold hi. change (4 * 4) with (2 * 2 * (2 * 2)). change 2 with (bpow radix2 1) at 1 2 3 4. rewrite <- !bpow_plus. apply bpow_le. lia. }
  assert (1 * V <= k * V) by (apply Rmult_le_compat_r; lra). assert (k * V <= 4 * V) by (apply Rmult_le_compat_r; lra).
  assert (lo <= bpow radix2 (-200)) by (apply bpow_le; lia).
  assert (lo <= uu * bpow radix2 (-200)) by (unfold uu, lo; rewrite <- bpow_plus; apply bpow_le; lia).
  assert (uu * bpow radix2 (-200) <= uu * S) by (apply Rmult_le_compat_l; lra).
  repeat (split; [lra|]). lra.
Qed.
Lemma unit_is V S H k : H <> 0 -> unit_error (k * V) S H = k * (bpow radix2 (-42) * V * S / H).
Proof.
  intros N. unfold unit_error, L, uu. change (bpow radix2 (-42)) with (bpow radix2 (11 + -53)). rewrite bpow_plus. change (bpow radix2 11) with 2048. field. exact N.
Qed.

Lemma near_pwl (p : bool) (x y z : signal B64) E : wf x -> wf y -> wf z -> x <> [] -> y <> [] -> z <> [] -> fins x -> fins y -> fins z ->
  (forall t, first_time (reals x) <= t <= final_time (reals x) -> first_time (reals y) <= t <= final_time (reals y) -> first_time (reals z) <= t <= final_time (reals z) /\
    Rabs (pw (reals z) t - sbest (QuantFacts.sgp p) (pw (reals x) t) (pw (reals y) t)) <= E) ->
  forall t u v, pwl (reals x) t u -> pwl (reals y) t v -> exists w, pwl (reals z) t w /\ Rabs (w - if p then Rmin u v else Rmax u v) <= E.
Proof.
  intros Wx Wy Wz Nx Ny Nz Fx Fy Fz K t u v Hu Hv.
  apply pwl_pw in Hu as (D & ->); [|apply reals_rincr; assumption|destruct x; [congruence|discriminate]].
  apply pwl_pw in Hv as (D' & ->); [|apply reals_rincr; assumption|destruct y; [congruence|discriminate]].
  destruct (K t D D') as (Dz & Ez). exists (pw (reals z) t). split. { apply pwl_pw; [apply reals_rincr; assumption|destruct z; [congruence|discriminate]|]. auto. }
  destruct p; cbn [QuantFacts.sgp] in Ez; [rewrite sbest_min in Ez|rewrite sbest_max in Ez]; exact Ez.
Qed.

Lemma C119_pair_lemma dbg (x y z : signal B64) V S H : wf x -> wf y -> x <> [] -> y <> [] ->
  moderate V S H -> sized V S x -> sized V S y -> spaced H x -> spaced H y ->
  (elementwise_min dbg false x y = Ok z -> forall t u v, pwl (reals x) t u -> pwl (reals y) t v ->
     exists w, pwl (reals z) t w /\ Rabs (w - Rmin u v) <= bpow radix2 (-42) * V * S / H) /\
  (elementwise_max dbg false x y = Ok z -> forall t u v, pwl (reals x) t u -> pwl (reals y) t v ->
     exists w, pwl (reals z) t w /\ Rabs (w - Rmax u v) <= bpow radix2 (-42) * V * S / H).
Proof.
  intros Wx Wy Nx Ny MO Hx Hy Px Py. destruct (moderate_parts V S H 1 MO ltac:(lra)) as (M1 & M2 & M3 & M4 & M5). rewrite Rmult_1_l in M1, M2. pose proof lo_hi as (L0 & _).
  pose proof (unit_is V S H 1 ltac:(lra)) as EU. rewrite !Rmult_1_l in EU.
  split; [set (p := true)|set (p := false)]; intros Hz;
    destruct (async_error V S H M1 M2 M3 M4 M5 dbg p x y z Wx Wy Nx Ny Hx Hy Px Py Hz) as (Z1 & Z2 & Z3 & Z4 & Z5); rewrite <- EU; apply (near_pwl p); eauto using sized_finite;
    exact (sized_finite _ _ _ Hx) || exact (sized_finite _ _ _ Hy).
Qed.

(** ** Extreme of a list *)
Lemma fold_best (s : R) {A} (g : A -> R) : s = 1 \/ s = -1 -> forall ys v0, let m := fold_left (fun v y => sbest s v (g y)) ys v0 in
  (m = v0 \/ exists y, In y ys /\ m = g y) /\ s * m <= s * v0 /\ forall y, In y ys -> s * m <= s * g y.
Proof.
  intros Hs. induction ys as [|y ys IH]; intros v0; cbn [fold_left].
  - split; [auto|]. split; [lra|]. intros y [].
  - destruct (IH (sbest s v0 (g y))) as (A1 & A2 & A3). cbv zeta. set (m := fold_left _ ys _) in *.
    assert (B : sbest s v0 (g y) = v0 /\ s * v0 <= s * g y \/ sbest s v0 (g y) = g y /\ s * g y <= s * v0).
    { unfold sbest. destruct (Rle_dec _ _); [left|right]; split; auto; lra. }
    split; [|split].
    + destruct A1 as [A1|(y' & Hy' & A1)]; [destruct B as [(B & _)|(B & _)]; rewrite B in A1; [auto|right; exists y; split; [left; reflexivity|exact A1]]|right; exists y'; split; [right; exact Hy'|exact A1]].
    + destruct B as [(B & C)|(B & C)]; rewrite B in A2; lra.
    + intros y' [<-|Hy']; [destruct B as [(B & C)|(B & C)]; rewrite B in A2; lra|apply A3, Hy'].
Qed.

Lemma C120_list_lemma dbg (xs : list (signal B64)) z V S H : xs <> [] -> Forall (fun x => wf x /\ x <> [] /\ sized V S x /\ spaced H x) xs ->
  (forall x y, In x xs -> In y xs -> Forall2 (fun a b => neqb (s_time a) (s_time b) = true) x y) -> moderate V S H -> error_of (length xs) V S H <= V ->
  (elementwise_min_list dbg false xs = Ok z -> forall x t u, In x xs -> pwl (reals x) t u ->
     exists w m, pwl (reals z) t w /\ (exists y, In y xs /\ pwl (reals y) t m) /\ (forall y v, In y xs -> pwl (reals y) t v -> m <= v) /\ Rabs (w - m) <= error_of (length xs) V S H) /\
  (elementwise_max_list dbg false xs = Ok z -> forall x t u, In x xs -> pwl (reals x) t u ->
     exists w m, pwl (reals z) t w /\ (exists y, In y xs /\ pwl (reals y) t m) /\ (forall y v, In y xs -> pwl (reals y) t v -> v <= m) /\ Rabs (w - m) <= error_of (length xs) V S H).
Proof.
  intros N F T MO EV. destruct (moderate_parts V S H 1 MO ltac:(lra)) as (M1 & M2 & M3 & M4 & M5). rewrite Rmult_1_l in M1, M2. pose proof lo_hi as (L0 & _).
  pose proof (unit_is V S H 1 ltac:(lra)) as EU. rewrite !Rmult_1_l in EU. destruct xs as [|x xs]; [congruence|]. cbn [length] in *.
  assert (EE : error_of (Datatypes.S (length xs)) V S H = unit_error V S H * 10 ^ length xs).
  { unfold error_of. rewrite EU. replace (Datatypes.S (length xs) - 1)%nat with (length xs) by lia. unfold Rdiv. ring. }
  rewrite EE in *. inversion F as [|? ? (Wx & Nx & Sx & Px) F']; subst.
  assert (MEM : Forall (member V S H x) xs).
  { rewrite Forall_forall in F' |- *. intros y Hy. destruct (F' y Hy) as (Wy & Ny & Sy & Py). repeat (split; [assumption|]). apply T; [left; reflexivity|right; exact Hy]. }
  assert (ALL : forall y, In y (x :: xs) -> wf y /\ y <> [] /\ fins y /\ first_time (reals y) = first_time (reals x) /\ final_time (reals y) = final_time (reals x)).
  { intros y Hy. destruct (proj1 (Forall_forall _ _) F y Hy) as (Wy & Ny & Sy & Py). pose proof (sized_finite _ _ _ Sy). repeat (split; [assumption|]).
    apply (same_ends V S x y Sx Sy). apply T; [left; reflexivity|exact Hy]. }
  assert (PW : forall y t v, In y (x :: xs) -> (pwl (reals y) t v <-> first_time (reals x) <= t <= final_time (reals x) /\ v = pw (reals y) t)).
  { intros y t v Hy. destruct (ALL y Hy) as (Wy & Ny & Fy & E1 & E2). rewrite <- E1, <- E2. apply pwl_pw; [apply reals_rincr; assumption|destruct y; [congruence|discriminate]]. }
  assert (K : forall p, minmax_list dbg (comp_of p) false (x :: xs) = Ok z -> forall x0 t u, In x0 (x :: xs) -> pwl (reals x0) t u ->
    exists w m, pwl (reals z) t w /\ (exists y, In y (x :: xs) /\ pwl (reals y) t m) /\ (forall y v, In y (x :: xs) -> pwl (reals y) t v -> QuantFacts.sgp p * m <= QuantFacts.sgp p * v) /\
      Rabs (w - m) <= unit_error V S H * 10 ^ length xs).
  { intros p Hz x0 t u Hx0 Hu. apply (PW x0 t u Hx0) in Hu as (D & _).
    destruct (list_error V S H M1 M2 M3 M4 M5 dbg p x xs z Wx Nx Sx Px MEM EV Hz) as (Z1 & Z2 & Z3 & Z4 & Z5 & _ & _ & Z8).
    destruct (fold_best (QuantFacts.sgp p) (fun y => pw (reals y) t) (sgp_cases p) xs (pw (reals x) t)) as (B1 & B2 & B3). fold (fbest p x xs t) in B1, B2, B3.
    exists (pw (reals z) t), (fbest p x xs t). split; [|split; [|split]].
    - apply pwl_pw; [apply reals_rincr; assumption|destruct z; [congruence|discriminate]|]. rewrite Z4, Z5. auto.
    - destruct B1 as [B1|(y & Hy & B1)]; [exists x|exists y]; (split; [cbn; auto|]); apply PW; cbn; auto.
    - intros y v Hy Hv. apply (PW y t v Hy) in Hv as (_ & ->). destruct Hy as [<-|Hy]; [exact B2|apply B3, Hy].
    - apply (Z8 t D). }
  split; intros Hz x0 t u Hx0 Hu; [destruct (K true Hz x0 t u Hx0 Hu) as (w & m & A & B & C & D)|destruct (K false Hz x0 t u Hx0 Hu) as (w & m & A & B & C & D)];
    exists w, m; (split; [exact A|]); (split; [exact B|]); (split; [|exact D]); intros y v Hy Hv; specialize (C y v Hy Hv); cbn [QuantFacts.sgp] in C; lra.
Qed.

(** ** Formulas *)
Section T.
Variables (dbg : bool) (fuel : nat) (tr : trace B64) (V S H : R).
Hypothesis MO : moderate V S H.
Hypothesis U : keys_unique tr.
Hypothesis G : Forall (fun e => wf (snd e) /\ snd e <> []) tr.
Hypothesis WH : forall n x, has_signal tr n x -> sized V S x /\ spaced H x.
Let lt := real_trace tr.
Let r0 := mkRob (trace_begin tr) (trace_end tr) tr.
Let OR := moderate_ordinary V S H MO.

Lemma many_scale : 0 < V /\ 0 < H /\ 0 < S /\ V <= V * S / H /\ unit_error (4 * V) S H = 4 * (bpow radix2 (-42) * V * S / H) /\ 4 * uu * V <= bpow radix2 (-42) * V * S / H.
Proof.
  destruct (nonneg_parts V S H OR) as (V0 & H0 & S0 & VS). repeat (split; [assumption|]). split; [apply unit_is; lra|]. pose proof uu_small.
  assert (uu * V <= uu * (V * S / H)) by (apply Rmult_le_compat_l; lra). assert (0 < uu * V) by (apply Rmult_lt_0_compat; lra).
  change (bpow radix2 (-42)) with (bpow radix2 (11 + -53)). rewrite bpow_plus. change (bpow radix2 11) with 2048. change (bpow radix2 (-53)) with uu.
  replace (2048 * uu * V * S / H) with (2048 * (uu * (V * S / H))) by (unfold Rdiv; ring). lra.
Qed.

(** A formula has a value where all its signals do. *)
Lemma formula_inside e t : (forall n, In n (names e) -> exists x, has_signal tr n x /\ first_time (reals x) <= t <= final_time (reals x)) -> inside lt (real_formula e) t.
Proof.
  intros K n Hn. rewrite names_real in Hn. destruct (K n Hn) as (x & Hx & D). exists (pw (reals x) t). apply (values_of tr U n x Hx).
  destruct (has_good tr (G3s tr V S H G WH) n x Hx) as (Wx & Nx). apply pwl_pw; [apply reals_rincr; [exact Wx|eapply sized_finite, WH; eauto]|destruct x; [congruence|discriminate]|auto].
Qed.

(** *** Two operands *)
Lemma two_chains_spread p a b z : chain a = true -> chain b = true -> intervals_made a -> intervals_made b -> in_trace V tr a -> in_trace V tr b ->
  compute dbg fuel r0 (join p [a; b]) = Ok z ->
  exists n m x y xa xb, names a = [n] /\ names b = [m] /\ has_signal tr n x /\ has_signal tr m y /\ runs dbg fuel tr a xa /\ runs dbg fuel tr b xb /\ wf z /\ z <> [] /\ fins z /\
    (forall t, first_time (reals z) <= t <= final_time (reals z) -> first_time (reals x) <= t <= final_time (reals x) /\ first_time (reals y) <= t <= final_time (reals y)) /\
    forall t u v, pwl (reals xa) t u -> pwl (reals xb) t v -> exists w, pwl (reals z) t w /\ Rabs (w - if p then Rmin u v else Rmax u v) <= bpow radix2 (-40) * V * S / H.
Proof.
  intros Ca Cb Ia Ib Wa Wb Hz. destruct (chain_spaced dbg fuel tr V S H OR U G WH a Ca Ia Wa) as (n & x & xa & Na & Hx & Ra & W1 & N1 & T1 & H1 & P1 & _).
  destruct (chain_spaced dbg fuel tr V S H OR U G WH b Cb Ib Wb) as (m & y & xb & Nb & Hy & Rb & W2 & N2 & T2 & H2 & P2 & _).
  assert (Z : minmax_pair dbg (comp_of p) false xa xb = Ok z).
  { unfold runs in Ra, Rb. unfold r0 in Hz. destruct p; cbn [join compute compute_list] in Hz; rewrite Ra, Rb in Hz; exact Hz. }
  destruct (moderate_parts V S H 4 MO ltac:(lra)) as (M1 & M2 & M3 & M4 & M5).
  destruct (async_error (4 * V) S H M1 M2 M3 M4 M5 dbg p xa xb z W1 W2 N1 N2 H1 H2 P1 P2 Z) as (Z1 & Z2 & Z3 & Z4 & Z5).
  exists n, m, x, y, xa, xb. repeat (split; [assumption|]). rewrite <- (first_times x xa T1), <- (final_times x xa T1), <- (first_times y xb T2), <- (final_times y xb T2).
  split. { intros t D. lra. }
  replace (bpow radix2 (-40) * V * S / H) with (unit_error (4 * V) S H).
  - apply (near_pwl p); eauto using sized_finite.
  - destruct many_scale as (_ & _ & _ & _ & -> & _). change (bpow radix2 (-40)) with (bpow radix2 (2 + -42)). rewrite bpow_plus. change (bpow radix2 2) with 4. unfold Rdiv. ring.
Qed.

Definition err2 : R := bpow radix2 (-39) * V * S / H.
Lemma two_literals_spread p a b z : literal a = true -> literal b = true -> in_trace V tr a -> in_trace V tr b -> compute dbg fuel r0 (join p [a; b]) = Ok z ->
  wf z /\ z <> [] /\ fins z /\ (forall t w, pwl (reals z) t w -> inside lt (real_formula (join p [a; b])) t) /\
    forall t r, rob lt (real_formula (join p [a; b])) t r -> exists w, pwl (reals z) t w /\ Rabs (w - r) <= err2.
Proof.
  intros La Lb Wa Wb Hz. destruct (two_chains_spread p a b z (literal_chain a La) (literal_chain b Lb) (literal_intervals a La) (literal_intervals b Lb) Wa Wb Hz)
    as (n & m & x & y & xa & xb & Na & Nb & Hx & Hy & Ra & Rb & Z1 & Z2 & Z3 & Z4 & Z6).
  split; [exact Z1|]. split; [exact Z2|]. split; [exact Z3|]. split.
  { intros t w Hw. apply pwl_pw in Hw as (D & _); [|apply reals_rincr; assumption|destruct z; [congruence|discriminate]]. destruct (Z4 t D) as (Dx & Dy).
    apply formula_inside. intros k Hk. assert (K : k = n \/ k = m).
    { destruct p; cbn [join names flat_map] in Hk; rewrite Na, Nb in Hk; destruct Hk as [<-|[<-|[]]]; auto. }
    destruct K as [-> | ->]; [exists x|exists y]; auto. }
  intros t r Hr. apply rob_two in Hr as (u & v & Hu & Hv & ->).
  destruct (literal_near dbg fuel tr V S H OR U G WH a xa La Wa Ra t u Hu) as (u' & Pu & Eu). destruct (literal_near dbg fuel tr V S H OR U G WH b xb Lb Wb Rb t v Hv) as (v' & Pv & Ev).
  destruct (Z6 t u' v' Pu Pv) as (w & Pw & Ew). exists w. split; [exact Pw|].
  assert (M : Rabs ((if p then Rmin u' v' else Rmax u' v') - (if p then Rmin u v else Rmax u v)) <= 4 * uu * V) by (destruct p; [apply min_close|apply max_close]; assumption).
  eapply Rle_trans; [eapply chain_abs; [exact Ew|exact M]|]. destruct many_scale as (V0 & H0 & S0 & VS & _ & D). unfold err2.
  change (bpow radix2 (-39)) with (bpow radix2 (3 + -42)). change (bpow radix2 (-40)) with (bpow radix2 (2 + -42)). rewrite !bpow_plus. change (bpow radix2 3) with 8. change (bpow radix2 2) with 4.
  assert (0 <= 4 * uu * V) by (pose proof uu_small; assert (0 < uu * V) by (apply Rmult_lt_0_compat; lra); lra).
  replace (4 * bpow radix2 (-42) * V * S / H) with (4 * (bpow radix2 (-42) * V * S / H)) by (unfold Rdiv; ring). replace (8 * bpow radix2 (-42) * V * S / H) with (8 * (bpow radix2 (-42) * V * S / H)) by (unfold Rdiv; ring). lra.
Qed.

Lemma temporal_spread p q a b i z : same_begin tr -> literal a = true -> literal b = true -> in_trace V tr a -> in_trace V tr b -> made_interval i ->
  compute dbg fuel r0 (tmp p (join q [a; b]) i) = Ok z ->
    z <> [] /\ forall c, In c z -> exists r, rob lt (real_formula (tmp p (join q [a; b]) i)) (B2R (s_time c)) r /\ finite (s_value c) = true /\
      Rabs (B2R (s_value c) - r) <= err2 /\ (0 < r -> sat lt (real_formula (tmp p (join q [a; b]) i)) (B2R (s_time c))) /\
      (r < 0 -> ~ sat lt (real_formula (tmp p (join q [a; b]) i)) (B2R (s_time c))).
Proof.
  intros SB La Lb Wa Wb M Hz. assert (K : exists y, compute dbg fuel r0 (join q [a; b]) = Ok y).
  { destruct p; cbn [tmp compute] in Hz; destruct (compute dbg fuel r0 (join q [a; b])); try discriminate; eauto. }
  destruct K as (y & C). destruct (two_literals_spread q a b y La Lb Wa Wb C) as (W & N & F & IN & NEAR).
  assert (NA : forall n, In n (names a ++ names b) -> exists x, has_signal tr n x) by exact (in_names tr V a b Wa Wb).
  destruct (join_evaluable tr q a b La Lb NA) as (EV & NT).
  assert (ST : forall n m x y, has_signal tr n x -> has_signal tr m y -> first_time (reals y) = first_time (reals x)).
  { intros n m x1 y1 Hx Hy. pose proof (SB n m x1 y1 Hx Hy) as E. destruct (has_good tr (G3s tr V S H G WH) n x1 Hx) as (_ & Nx). destruct (has_good tr (G3s tr V S H G WH) m y1 Hy) as (_ & Ny).
    destruct (WH n x1 Hx) as (Sx & _). destruct (WH m y1 Hy) as (Sy & _). destruct x1 as [|c x1], y1 as [|d y1]; try congruence. cbn [begin_time] in E.
    symmetry. apply eq_B2R; [apply Sx; left; reflexivity|apply Sy; left; reflexivity|exact E]. }
  destruct (temporal_near dbg fuel tr U (G3s tr V S H G WH) ST p (join q [a; b]) i y err2 C W N F IN NEAR EV NT (join_extreme p q a b NT) M) as (z' & Z1 & Z2 & Z3).
  fold r0 in Z1. rewrite Z1 in Hz. injection Hz as <-. auto.
Qed.

(** *** More operands *)
Hypothesis TO : forall n m x y, has_signal tr n x -> has_signal tr m y -> same x y.
Variables (n0 : string) (x0 : signal B64).
Hypothesis B0 : has_signal tr n0 x0.

Lemma base_parts : wf x0 /\ x0 <> [] /\ sized (4 * V) S x0 /\ spaced H x0.
Proof.
  destruct (has_good tr (G3s tr V S H G WH) n0 x0 B0) as (Wx & Nx). destruct (WH n0 x0 B0) as ((A & B) & P). destruct many_scale as (V0 & _).
  repeat (split; [assumption|]). split; [|exact P]. split; [|exact B]. intros a Ha. destruct (A a Ha) as (A1 & A2 & A3 & A4). repeat (split; [assumption|]). eapply Rle_trans; [exact A4|]. lra.
Qed.
Lemma chain_member f : chain f = true -> intervals_made f -> in_trace V tr f -> exists y, runs dbg fuel tr f y /\ member (4 * V) S H x0 y.
Proof.
  intros C I W. destruct (chain_spaced dbg fuel tr V S H OR U G WH f C I W) as (n & x & y & N & Hx & R & Wy & Ny & T & Sy & Py & _). exists y. split; [exact R|].
  repeat (split; [assumption|]). apply Forall2_times. rewrite T. apply Forall2_times. eapply TO; eauto.
Qed.
Lemma member_near e y : literal e = true -> in_trace V tr e -> runs dbg fuel tr e y -> member (4 * V) S H x0 y ->
  forall t v, rob lt (real_formula e) t v -> first_time (reals x0) <= t <= final_time (reals x0) /\ Rabs (pw (reals y) t - v) <= 4 * uu * V.
Proof.
  intros L W R (Wy & Ny & Sy & Py & Ty) t v Hv. destruct (literal_near dbg fuel tr V S H OR U G WH e y L W R t v Hv) as (u & Pu & Eu).
  apply pwl_pw in Pu as (D & ->); [|apply reals_rincr; [exact Wy|eapply sized_finite; eauto]|destruct y; [congruence|discriminate]].
  destruct base_parts as (_ & _ & Sx & _). destruct (same_ends (4 * V) S x0 y Sx Sy Ty) as (<- & <-). auto.
Qed.
Lemma held_member y : member (4 * V) S H x0 y -> held (4 * V) H x0 (pw (reals y)) (unit_error (4 * V) S H) y.
Proof.
  intros (Wy & Ny & Sy & Py & Ty). destruct base_parts as (_ & _ & Sx & _). destruct (same_ends (4 * V) S x0 y Sx Sy Ty) as (E1 & E2). pose proof (sized_finite _ _ _ Sy) as Fy.
  destruct (moderate_parts V S H 4 MO ltac:(lra)) as (M1 & M2 & M3 & M4 & M5). destruct (many_parts (4 * V) S H M1 M2 M3 M4) as (V0 & H0 & S0 & L0 & LS & _). pose proof uu_small as Hu.
  repeat (split; [assumption|]). split; [|split].
  - intros a Ha. clear - Ty Ha. induction Ty as [|u w xs ys E T IH]; [destruct Ha|]. destruct Ha as [<-|Ha]; [exists w; split; [left; reflexivity|clear - E; num_hyps; num]|]. destruct (IH Ha) as (b & Hb & Eb). exists b. split; [right; exact Hb|exact Eb].
  - rewrite <- E1, <- E2. apply gentle_lipschitz; [apply reals_rincr; assumption|]. apply (base_gentle (4 * V) S H M1 M2 M3 M4); assumption.
  - intros t Dt. split; [apply (base_bound (4 * V) S y t Wy Ny Sy); lra|]. unfold Rminus. rewrite Rplus_opp_r, Rabs_R0. unfold unit_error.
    assert (0 <= uu * (L (4 * V) H * S)) by (apply Rmult_le_pos; lra). lra.
Qed.

Lemma held_not f r z z' : held (4 * V) H x0 f r z -> rob_not z = Ok z' -> held (4 * V) H x0 (fun t => - f t) r z'.
Proof.
  intros (Z1 & Z2 & Z3 & Z4 & Z5 & Z6 & Z7 & Z8) E. destruct (not_points z (conj Z1 Z2)) as (z2 & E2 & (W2 & N2) & T2 & F2). rewrite E2 in E. injection E as ->.
  assert (P : Forall2 (fun b b' => s_time b' = s_time b /\ s_value b' = nopp (s_value b)) z z').
  { clear - T2 F2. induction F2 as [|b b' z z' Eb F IH]; [constructor|]. injection T2 as T1 T2. constructor; [split; assumption|]. apply IH. exact T2. }
  assert (F' : fins z').
  { clear - P Z3. induction P as [|b b' z z' (E1 & E2) P IH]; [constructor|]. inversion Z3 as [|? ? (A & B) Z3']; subst. constructor; [|apply IH, Z3']. rewrite E1, E2. split; [exact A|]. rewrite finite_nopp. exact B. }
  split; [exact W2|]. split; [exact N2|]. split; [exact F'|]. rewrite (first_times z z' T2), (final_times z z' T2). split; [exact Z4|]. split; [exact Z5|]. split; [|split].
  - intros a Ha. destruct (Z6 a Ha) as (c & Hc & Ec). clear - P Hc Ec. induction P as [|b b' z z' (E1 & E2) P IH]; [destruct Hc|]. destruct Hc as [->|Hc]; [exists b'; split; [left; reflexivity|rewrite E1; exact Ec]|].
    destruct (IH Hc) as (d & Hd & Ed). exists d. split; [right; exact Hd|exact Ed].
  - intros a b Ha Hab Hb. specialize (Z7 a b Ha Hab Hb). replace (- f b - - f a) with (- (f b - f a)) by ring. rewrite Rabs_Ropp. exact Z7.
  - intros t Dt. destruct (Z8 t Dt) as (Q1 & Q2). rewrite Rabs_Ropp. split; [exact Q1|].
    assert (E : Rabs (pw (reals z') t - (-1 * pw (reals z) t + 0)) <= 0).
    { apply pw_close; [lra|apply reals_rincr; assumption| |destruct z; [congruence|discriminate]|lra]. clear - P. induction P as [|b b' z z' (E1 & E2) P IH]; [constructor|]. rewrite !reals_cons. constructor; [|exact IH].
      cbn [fst snd]. split; [rewrite E1; reflexivity|]. rewrite E2. assert (Eo : B2R (nopp (s_value b)) = - B2R (s_value b)) by exact (B2R_Bopp 53 1024 (s_value b)).
      match goal with |- Rabs ?a <= 0 => replace a with 0; [rewrite Rabs_R0; lra|] end. rewrite Eo. ring. }
    apply Rabs_le_inv in E, Q2. apply Rabs_le. lra.
Qed.

Lemma literal_names e : literal e = true -> length (names e) = 1%nat.
Proof. intros L. destruct (literal_affine tr e L) as (n & s & o & -> & _). reflexivity. Qed.
Lemma literals_names l : forallb literal l = true -> length (flat_map names l) = length l.
Proof. induction l as [|e l IH]; cbn [forallb flat_map]; [reflexivity|]. intros L. apply andb_prop in L as (L1 & L2). rewrite app_length, (literal_names e L1), (IH L2). reflexivity. Qed.
Lemma ladder_names e : ladder e = true -> (1 <= length (names e))%nat.
Proof.
  induction e using expr_rec; cbn [ladder]; intros L; try discriminate; [cbn; lia|exact (IHe L)| |];
    destruct l as [|a l]; try discriminate; apply andb_prop in L as (L1 & L2); inversion H0; subst; cbn [names flat_map]; rewrite app_length; specialize (H3 L1); lia.
Qed.
Lemma names_join p l : names (join p l) = flat_map names l.
Proof. destruct p; reflexivity. Qed.
Lemma in_trace_join p l e : in_trace V tr (join p l) -> In e l -> in_trace V tr e.
Proof.
  intros (A & B) He. split.
  - intros f Hf. apply A. destruct p; right; apply in_flat_map; exists e; auto.
  - intros n Hn. apply B. rewrite names_join. apply in_flat_map. exists e. auto.
Qed.

(** What the induction over a formula maintains: the computed signal is held against some function,
    which is within the rounding of the predicates of the exact robustness. *)
Definition tracks (e : expr B64) (z : signal B64) : Prop :=
  exists f, held (4 * V) H x0 f (unit_error (4 * V) S H * 10 ^ (length (names e) - 1)) z /\
    forall t r, rob lt (real_formula e) t r -> first_time (reals x0) <= t <= final_time (reals x0) /\ Rabs (f t - r) <= 4 * uu * V.

Lemma tracks_join p a l y0 z : ladder a = true -> forallb literal l = true -> in_trace V tr (join p (a :: l)) -> error_of (length (names (join p (a :: l)))) V S H <= V ->
  tracks a y0 -> compute dbg fuel r0 a = Ok y0 -> compute dbg fuel r0 (join p (a :: l)) = Ok z -> tracks (join p (a :: l)) z.
Proof.
  intros La Ll IT EV (f & Hf & Rf) C0 Hz.
  assert (exists ys, Forall2 (fun e y => compute dbg fuel r0 e = Ok y) l ys /\ minmax_list dbg (comp_of p) false (y0 :: ys) = Ok z) as (ys & F & Hm).
  { destruct p; cbn [join compute] in Hz; apply bind_ok_inv in Hz as (ys & H1 & H2); apply compute_list_inv in H1; inversion H1 as [|? ? ? ys' E F]; subst; rewrite C0 in E; injection E as <-; exists ys'; auto. }
  assert (FM : Forall2 (fun e y => member (4 * V) S H x0 y /\ forall t v, rob lt (real_formula e) t v -> Rabs (pw (reals y) t - v) <= 4 * uu * V) l ys).
  { assert (AL : forall e, In e l -> literal e = true /\ in_trace V tr e). { intros e He. split; [exact (proj1 (forallb_forall _ _) Ll e He)|]. apply (in_trace_join p (a :: l)); [exact IT|right; exact He]. }
    clear - F AL MO U G WH TO B0 OR r0 lt. induction F as [|e y l ys Ey F IH]; constructor; [|apply IH; intros e' He'; apply AL; right; exact He'].
    destruct (AL e (or_introl eq_refl)) as (Le & We). destruct (chain_member e (literal_chain e Le) (literal_intervals e Le) We) as (y' & R & M).
    assert (y' = y). { unfold runs in R. unfold r0 in Ey. rewrite R in Ey. injection Ey as ->. reflexivity. } subst y'. split; [exact M|]. intros t v Hv. apply (member_near e y Le We R M t v Hv). }
  assert (MEM : Forall (member (4 * V) S H x0) ys). { clear - FM. induction FM as [|e y l ys (M & _) FM IH]; constructor; auto. }
  assert (LN : length (names (join p (a :: l))) = (length (names a) + length ys)%nat).
  { rewrite names_join. cbn [flat_map]. rewrite app_length, (literals_names l Ll). f_equal. clear - F. induction F; cbn; congruence. }
  pose proof (ladder_names a La) as NA. destruct base_parts as (Wx & Nx & Sx & Px). destruct (moderate_parts V S H 4 MO ltac:(lra)) as (M1 & M2 & M3 & M4 & M5).
  destruct (many_parts (4 * V) S H M1 M2 M3 M4) as (V0 & H0 & S0 & L0 & LS & LH & tol0 & tolV). pose proof uu_small as Hu. destruct many_scale as (W0 & _ & _ & _ & EU & _).
  set (r := unit_error (4 * V) S H * 10 ^ (length (names a) - 1)) in *.
  assert (P1 : 1 <= 10 ^ (length (names a) - 1)) by (apply pow_R1_Rle; lra).
  assert (uu * (2 * (4 * V)) <= uu * (L (4 * V) H * S)) by (apply Rmult_le_compat_l; lra). assert (0 <= uu * (4 * V)) by (apply Rmult_le_pos; lra).
  assert (U0 : unit_error (4 * V) S H * 1 <= r) by (apply Rmult_le_compat_l; [unfold unit_error; lra|exact P1]). unfold unit_error in U0 at 1.
  assert (RE : r * 10 ^ length ys = unit_error (4 * V) S H * 10 ^ (length (names (join p (a :: l))) - 1)).
  { rewrite LN. replace (length (names a) + length ys - 1)%nat with ((length (names a) - 1) + length ys)%nat by lia. rewrite pow_add. unfold r. ring. }
  assert (RV : r * 10 ^ length ys <= 4 * V).
  { rewrite RE, EU. replace (4 * (bpow radix2 (-42) * V * S / H) * 10 ^ (length (names (join p (a :: l))) - 1)) with (4 * error_of (length (names (join p (a :: l)))) V S H) by (unfold error_of, Rdiv; ring). lra. }
  rewrite list_fold in Hm.
  pose proof (fold_error (4 * V) S H M1 M2 M3 M4 M5 dbg p x0 Wx Nx Sx ys f r y0 z Hf MEM ltac:(lra) ltac:(lra) RV Hm) as HH. rewrite RE in HH.
  eexists. split; [exact HH|]. intros t r1 Hr. cbv beta.
  destruct (fold_best (QuantFacts.sgp p) (fun y => pw (reals y) t) (sgp_cases p) ys (f t)) as (Q1 & Q2 & Q3). set (m := fold_left _ ys (f t)) in *.
  rewrite real_join in Hr. apply rob_node in Hr as ((P & HP & HPr) & K). cbn [map] in *.
  destruct (K _ (or_introl eq_refl)) as (w0 & Hw0 & Lw0). destruct (Rf t w0 Hw0) as (Dt & Ew0). split; [exact Dt|].
  (* the operand giving the exact value bounds the computed one *)
  assert (A1 : QuantFacts.sgp p * m <= QuantFacts.sgp p * r1 + 4 * uu * V).
  { destruct HP as [<-|HP].
    - destruct (Rf t r1 HPr) as (_ & E). apply Rabs_le_inv in E. destruct p; cbn [QuantFacts.sgp] in *; lra.
    - apply in_map_iff in HP as (g & <- & HP). apply in_map_iff in HP as (e & <- & He).
      assert (exists y, In y ys /\ Rabs (pw (reals y) t - r1) <= 4 * uu * V) as (y & Hy & E).
      { clear - FM He HPr. induction FM as [|e' y l ys (_ & M) FM IH]; [destruct He|]. destruct He as [->|He]; [exists y; split; [left; reflexivity|apply M, HPr]|]. destruct (IH He) as (y' & Hy' & E'). exists y'. split; [right; exact Hy'|exact E']. }
      specialize (Q3 y Hy). cbv beta in Q3. apply Rabs_le_inv in E. destruct p; cbn [QuantFacts.sgp] in *; lra. }
  (* and the other way round *)
  assert (A2 : QuantFacts.sgp p * r1 <= QuantFacts.sgp p * m + 4 * uu * V).
  { destruct Q1 as [->|(y & Hy & ->)].
    - apply Rabs_le_inv in Ew0. destruct p; cbn [QuantFacts.sgp] in *; lra.
    - assert (exists e, In e l /\ forall v, rob lt (real_formula e) t v -> Rabs (pw (reals y) t - v) <= 4 * uu * V) as (e & He & M).
      { clear - FM Hy. induction FM as [|e' y' l ys (_ & M) FM IH]; [destruct Hy|]. destruct Hy as [->|Hy]; [exists e'; split; [left; reflexivity|apply M]|]. destruct (IH Hy) as (e & He & E'). exists e. split; [right; exact He|exact E']. }
      destruct (K (rob lt (real_formula e))) as (w & Hw & Lw). { right. apply in_map, in_map, He. }
      specialize (M w Hw). apply Rabs_le_inv in M. destruct p; cbn [QuantFacts.sgp] in *; lra. }
  apply Rabs_le. destruct p; cbn [QuantFacts.sgp] in A1, A2; lra.
Qed.

Lemma error_mono n m : (n <= m)%nat -> error_of n V S H <= error_of m V S H.
Proof.
  intros L. destruct many_scale as (V0 & H0 & S0 & VS & _ & D). unfold error_of, Rdiv. pose proof (bpow_gt_0 radix2 (-42)).
  apply Rmult_le_compat_r; [left; apply Rinv_0_lt_compat; lra|]. apply Rmult_le_compat_r; [lra|]. apply Rmult_le_compat_r; [lra|]. apply Rmult_le_compat_l; [lra|]. apply Rle_pow; [lra|lia].
Qed.

Lemma ladder_tracks e : ladder e = true -> forall z, in_trace V tr e -> error_of (length (names e)) V S H <= V -> compute dbg fuel r0 e = Ok z -> tracks e z.
Proof.
  assert (JOIN : forall p l, Forall (fun e => ladder e = true -> forall z, in_trace V tr e -> error_of (length (names e)) V S H <= V -> compute dbg fuel r0 e = Ok z -> tracks e z) l ->
    ladder (join p l) = true -> forall z, in_trace V tr (join p l) -> error_of (length (names (join p l))) V S H <= V -> compute dbg fuel r0 (join p l) = Ok z -> tracks (join p l) z).
  { intros p [|a l] F L z IT EV Hz; [destruct p; discriminate|]. assert (La : ladder a = true /\ forallb literal l = true) by (apply andb_prop; destruct p; exact L). destruct La as (La & Ll). inversion F as [|? ? Fa _]; subst.
    assert (exists y0, compute dbg fuel r0 a = Ok y0) as (y0 & C0).
    { destruct p; cbn [join compute compute_list] in Hz; destruct (compute dbg fuel r0 a); try discriminate; eauto. }
    apply (tracks_join p a l y0 z La Ll IT EV); auto. apply Fa; auto; [apply (in_trace_join p (a :: l)); [exact IT|left; reflexivity]|].
    eapply Rle_trans; [|exact EV]. apply error_mono. rewrite names_join. cbn [flat_map]. rewrite app_length. lia. }
  induction e using expr_rec; cbn [ladder]; intros L z IT EV Hz; try discriminate.
  - assert (Lt : literal (EPred n o c) = true) by reflexivity. destruct (chain_member _ (literal_chain _ Lt) (literal_intervals _ Lt) IT) as (y & R & M).
    assert (y = z). { unfold runs in R. unfold r0 in Hz. rewrite R in Hz. injection Hz as ->. reflexivity. } subst y.
    exists (pw (reals z)). split; [|exact (member_near _ z Lt IT R M)]. replace (unit_error (4 * V) S H * _) with (unit_error (4 * V) S H) by (cbn [names length Nat.sub pow]; ring). apply held_member, M.
  - cbn [compute] in Hz. apply bind_ok_inv in Hz as (y & Hy & Hz). assert (IT' : in_trace V tr e). { destruct IT as (A & B). split; [|exact B]. intros g Hg. apply A. right. exact Hg. }
    destruct (IHe L y IT' EV Hy) as (f & Hf & Rf).
    exists (fun t => - f t). split; [apply (held_not f _ y z Hf Hz)|]. intros t r Hr. cbn [real_formula rob] in Hr. destruct (Rf t (- r) Hr) as (D & E). split; [exact D|].
    replace (- f t - r) with (- (f t - - r)) by ring. rewrite Rabs_Ropp. exact E.
  - apply (JOIN true l); assumption.
  - apply (JOIN false l); assumption.
Qed.

Lemma tracks_near e z : tracks e z -> wf z /\ z <> [] /\ fins z /\ (forall t w, pwl (reals z) t w -> first_time (reals x0) <= t <= final_time (reals x0)) /\
  forall t r, rob lt (real_formula e) t r -> exists w, pwl (reals z) t w /\ Rabs (w - r) <= 8 * error_of (length (names e)) V S H.
Proof.
  intros (f & (Z1 & Z2 & Z3 & Z4 & Z5 & _ & _ & Z8) & Rf). split; [exact Z1|]. split; [exact Z2|]. split; [exact Z3|].
  assert (PW : forall t v, pwl (reals z) t v <-> first_time (reals x0) <= t <= final_time (reals x0) /\ v = pw (reals z) t).
  { intros t v. rewrite <- Z4, <- Z5. apply pwl_pw; [apply reals_rincr; assumption|destruct z; [congruence|discriminate]]. }
  split. { intros t w Hw. apply PW in Hw. apply Hw. }
  intros t r Hr. destruct (Rf t r Hr) as (D & E1). destruct (Z8 t D) as (_ & E2). exists (pw (reals z) t). split; [apply PW; auto|].
  eapply Rle_trans; [eapply chain_abs; [exact E2|exact E1]|]. destruct many_scale as (V0 & H0 & S0 & VS & -> & D2).
  assert (P1 : 1 <= 10 ^ (length (names e) - 1)) by (apply pow_R1_Rle; lra). set (k := 10 ^ (length (names e) - 1)) in *. set (q := bpow radix2 (-42) * V * S / H) in *.
  replace (error_of (length (names e)) V S H) with (q * k) by (unfold error_of, q, k, Rdiv; ring).
  assert (0 <= q) by (pose proof uu_small; assert (0 < uu * V) by (apply Rmult_lt_0_compat; lra); lra). assert (q * 1 <= q * k) by (apply Rmult_le_compat_l; lra). lra.
Qed.

Lemma literals_free l : forallb literal l = true -> Forall (fun e => free_of is_temporal (real_formula e) = true /\ free_of is_const (real_formula e) = true /\ free_of (short 1) (real_formula e) = true /\ intervals_made (real_formula e)) l.
Proof. rewrite forallb_forall, Forall_forall. intros L e He. apply literal_temporal, L, He. Qed.
Lemma node_free (q : expr XR -> bool) p l : q (node p l) = false -> Forall (fun e => free_of q e = true) l -> free_of q (node p l) = true.
Proof.
  intros Q F. assert (E : free_of q (node p l) = negb (q (node p l)) && forallb (free_of q) l) by (destruct p; reflexivity). rewrite E, Q. cbn [negb andb]. apply forallb_forall, Forall_forall, F.
Qed.
Lemma ladder_temporal e : ladder e = true -> free_of is_temporal (real_formula e) = true /\ free_of is_const (real_formula e) = true /\ free_of (short 1) (real_formula e) = true /\ intervals_made (real_formula e).
Proof.
  assert (JOIN : forall p l, Forall (fun e => ladder e = true -> free_of is_temporal (real_formula e) = true /\ free_of is_const (real_formula e) = true /\ free_of (short 1) (real_formula e) = true /\ intervals_made (real_formula e)) l ->
    ladder (join p l) = true -> free_of is_temporal (real_formula (join p l)) = true /\ free_of is_const (real_formula (join p l)) = true /\ free_of (short 1) (real_formula (join p l)) = true /\ intervals_made (real_formula (join p l))).
  { intros p [|a l] F L; [destruct p; discriminate|]. assert (La : ladder a = true /\ forallb literal l = true) by (apply andb_prop; destruct p; exact L). destruct La as (La & Ll). inversion F as [|? ? Fa _]; subst.
    assert (F' : Forall (fun e => free_of is_temporal (real_formula e) = true /\ free_of is_const (real_formula e) = true /\ free_of (short 1) (real_formula e) = true /\ intervals_made (real_formula e)) (a :: l)) by (constructor; [exact (Fa La)|exact (literals_free l Ll)]).
    rewrite real_join. split; [|split; [|split]].
    1-3: apply node_free; [destruct p; reflexivity|]; apply Forall_map; eapply Forall_impl; [|exact F']; intros ? K; apply K.
    intros g Hg. assert (K : g = node p (map real_formula (a :: l)) \/ In g (flat_map subs (map real_formula (a :: l)))) by (destruct p; destruct Hg as [<-|Hg]; auto).
    destruct K as [->|K]; [destruct p; exact I|]. apply in_flat_map in K as (h & Hh & Hg'). apply in_map_iff in Hh as (e1 & <- & He). rewrite Forall_forall in F'. apply (F' e1 He), Hg'. }
  induction e using expr_rec; cbn [ladder]; intros L; try discriminate.
  - apply literal_temporal. reflexivity.
  - destruct (IHe L) as (A & B & C & D). split; [exact A|]. split; [exact B|]. split; [exact C|]. intros f [<-|Hf]; [exact I|]. apply D, Hf.
  - apply (JOIN true l); assumption.
  - apply (JOIN false l); assumption.
Qed.
Lemma ladder_evaluable e : ladder e = true -> in_trace V tr e -> evaluable lt (real_formula e).
Proof.
  intros L IT. destruct (ladder_temporal e L) as (A & B & C & D). repeat (split; [assumption|]). split; [apply literal_consts|].
  intros n Hn. rewrite names_real in Hn. destruct (proj2 IT n Hn) as (x & Hx). exists (reals x). apply in_map_iff. exists (n, x). split; [reflexivity|exact Hx].
Qed.

Lemma many_temporal p e i z : ladder e = true -> in_trace V tr e -> error_of (length (names e)) V S H <= V -> made_interval i -> compute dbg fuel r0 (tmp p e i) = Ok z ->
    z <> [] /\ forall c, In c z -> exists r, rob lt (real_formula (tmp p e i)) (B2R (s_time c)) r /\ finite (s_value c) = true /\
      Rabs (B2R (s_value c) - r) <= 8 * error_of (length (names e)) V S H /\ (0 < r -> sat lt (real_formula (tmp p e i)) (B2R (s_time c))) /\
      (r < 0 -> ~ sat lt (real_formula (tmp p e i)) (B2R (s_time c))).
Proof.
  intros Le IT EV M Hz. assert (K : exists y, compute dbg fuel r0 e = Ok y).
  { destruct p; cbn [tmp compute] in Hz; destruct (compute dbg fuel r0 e); try discriminate; eauto. }
  destruct K as (y & C). destruct (tracks_near e y (ladder_tracks e Le y IT EV C)) as (W & N & F & IN & NEAR). pose proof (ladder_evaluable e Le IT) as EE. destruct (ladder_temporal e Le) as (NT & _).
  assert (X : extreme_exact p (real_formula e) = true). { destruct (real_formula e); cbn [extreme_exact]; rewrite NT; reflexivity. }
  assert (INS : forall t w, pwl (reals y) t w -> inside lt (real_formula e) t).
  { intros t w Hw. apply formula_inside. intros n Hn. destruct (proj2 IT n Hn) as (x & Hx). exists x. split; [exact Hx|]. specialize (IN t w Hw).
    destruct (ends_agree x0 x) as (E1 & E2); [eapply has_finite; [exact (G3s tr V S H G WH)|exact B0]|eapply has_finite; [exact (G3s tr V S H G WH)|exact Hx]|eapply TO; eauto|]. rewrite E1, E2. exact IN. }
  destruct (temporal_near dbg fuel tr U (G3s tr V S H G WH) (same_starts tr (G3s tr V S H G WH) TO) p e i y _ C W N F INS NEAR EE NT X M) as (z' & Z1 & Z2 & Z3).
  fold r0 in Z1. rewrite Z1 in Hz. injection Hz as <-. auto.
Qed.
End T.

(** ** The statements *)
Lemma near_sign E v r (A B : Prop) : Rabs (v - r) <= E -> (0 < r -> A) -> (r < 0 -> ~ B) -> (E < v -> A) /\ (v < - E -> ~ B).
Proof. intros H K1 K2. apply Rabs_le_inv in H. split; intros; [apply K1|apply K2]; lra. Qed.
Lemma is_join (op : list (expr B64) -> expr B64) : op = EAnd \/ op = EOr -> exists p, (forall l, op l = join p l) /\ (op = EAnd -> p = true) /\ (op = EOr -> p = false).
Proof.
  intros [-> | ->]; [exists true|exists false]; (split; [reflexivity|]); (split; [|]); auto; intros E; pose proof (f_equal (fun f => f []) E); discriminate.
Qed.
Lemma is_tmp (outer : expr B64 -> interval B64 -> expr B64) : outer = EAlways \/ outer = EEventually -> exists p, forall e i, outer e i = tmp p e i.
Proof. intros [-> | ->]; [exists true|exists false]; reflexivity. Qed.

Lemma C119_chains_lemma dbg fuel (tr : trace B64) s op a b V S H z : spread_trace V S H tr -> moderate V S H -> op = EAnd \/ op = EOr ->
  chain a = true -> chain b = true -> intervals_made a -> intervals_made b -> in_trace V tr a -> in_trace V tr b -> compute_robustness dbg fuel (op [a; b]) tr s = Ok z ->
  exists x y, compute_robustness dbg fuel a tr s = Ok x /\ compute_robustness dbg fuel b tr s = Ok y /\
    forall t u v, pwl (reals x) t u -> pwl (reals y) t v ->
      exists w, pwl (reals z) t w /\ (op = EAnd -> Rabs (w - Rmin u v) <= bpow radix2 (-40) * V * S / H) /\ (op = EOr -> Rabs (w - Rmax u v) <= bpow radix2 (-40) * V * S / H).
Proof.
  intros (U & G & WH) MO Hop Ca Cb Ia Ib Wa Wb Hz. apply is_join in Hop as (p & Hp & P1 & P2). rewrite Hp in Hz.
  destruct (two_chains_spread dbg fuel tr V S H MO U G WH p a b z Ca Cb Ia Ib Wa Wb Hz) as (n & m & x & y & xa & xb & _ & _ & _ & _ & Ra & Rb & _ & _ & _ & _ & K).
  exists xa, xb. split; [exact Ra|]. split; [exact Rb|]. intros t u v Hu Hv. destruct (K t u v Hu Hv) as (w & Pw & E). exists w. split; [exact Pw|].
  split; intros Eo; [rewrite (P1 Eo) in E|rewrite (P2 Eo) in E]; exact E.
Qed.
Lemma C119_boolean_lemma dbg fuel (tr : trace B64) s op a b V S H z : spread_trace V S H tr -> moderate V S H -> op = EAnd \/ op = EOr ->
  literal a = true -> literal b = true -> in_trace V tr a -> in_trace V tr b -> compute_robustness dbg fuel (op [a; b]) tr s = Ok z ->
  forall t r, rob (real_trace tr) (real_formula (op [a; b])) t r -> exists v, pwl (reals z) t v /\ Rabs (v - r) <= bpow radix2 (-39) * V * S / H.
Proof.
  intros (U & G & WH) MO Hop La Lb Wa Wb Hz. apply is_join in Hop as (p & Hp & _). rewrite Hp in *.
  apply (two_literals_spread dbg fuel tr V S H MO U G WH p a b z La Lb Wa Wb Hz).
Qed.
Lemma C119_temporal_lemma dbg fuel (tr : trace B64) s outer op a b i V S H z : spread_trace V S H tr -> same_begin tr -> moderate V S H ->
  outer = EAlways \/ outer = EEventually -> op = EAnd \/ op = EOr -> literal a = true -> literal b = true -> in_trace V tr a -> in_trace V tr b -> made_interval i ->
  compute_robustness dbg fuel (outer (op [a; b]) i) tr s = Ok z ->
  z <> [] /\ forall c, In c z -> exists r, rob (real_trace tr) (real_formula (outer (op [a; b]) i)) (B2R (s_time c)) r /\ finite (s_value c) = true /\
      Rabs (B2R (s_value c) - r) <= bpow radix2 (-39) * V * S / H /\
      (bpow radix2 (-39) * V * S / H < B2R (s_value c) -> sat (real_trace tr) (real_formula (outer (op [a; b]) i)) (B2R (s_time c))) /\
      (B2R (s_value c) < - (bpow radix2 (-39) * V * S / H) -> ~ sat (real_trace tr) (real_formula (outer (op [a; b]) i)) (B2R (s_time c))).
Proof.
  intros (U & G & WH) SB MO Ho Hop La Lb Wa Wb M Hz. apply is_join in Hop as (q & Hp & _). apply is_tmp in Ho as (p & Ho). rewrite Hp, Ho in *.
  destruct (temporal_spread dbg fuel tr V S H MO U G WH p q a b i z SB La Lb Wa Wb M Hz) as (N & K). split; [exact N|]. intros c Hc. destruct (K c Hc) as (r & R1 & R2 & R3 & R4 & R5).
  exists r. split; [exact R1|]. split; [exact R2|]. split; [exact R3|]. exact (near_sign _ _ _ _ _ R3 R4 R5).
Qed.

Lemma C120_chains_lemma dbg fuel (tr : trace B64) s op l V S H z : spaced_trace V S H tr -> moderate V S H -> op = EAnd \/ op = EOr -> l <> [] ->
  Forall (fun a => chain a = true /\ intervals_made a /\ in_trace V tr a) l -> error_of (length l) V S H <= V -> compute_robustness dbg fuel (op l) tr s = Ok z ->
  exists xs, Forall2 (fun a x => compute_robustness dbg fuel a tr s = Ok x) l xs /\
    forall x t u, In x xs -> pwl (reals x) t u -> exists w m, pwl (reals z) t w /\ (exists y, In y xs /\ pwl (reals y) t m) /\ Rabs (w - m) <= 4 * error_of (length l) V S H /\
      forall y v, In y xs -> pwl (reals y) t v -> (op = EAnd -> m <= v) /\ (op = EOr -> v <= m).
Proof.
  intros (U & G & WH & TO) MO Hop N F EV Hz. apply is_join in Hop as (p & Hp & P1 & P2). rewrite Hp in Hz.
  assert (exists ys, Forall2 (fun e y => compute_robustness dbg fuel e tr s = Ok y) l ys /\ minmax_list dbg (comp_of p) false ys = Ok z) as (ys & FY & Hm).
  { unfold compute_robustness in *. destruct p; cbn [join compute] in Hz; apply bind_ok_inv in Hz as (ys & H1 & H2); apply compute_list_inv in H1; exists ys; auto. }
  exists ys. split; [exact FY|]. assert (LE : length l = length ys) by (clear - FY; induction FY; cbn; congruence).
  assert (MEMB : forall n x0, has_signal tr n x0 -> Forall (member (4 * V) S H x0) ys).
  { intros n x0 B0. clear - FY F MO U G WH TO B0. induction FY as [|e y l ys E FY IH]; [constructor|]. inversion F as [|? ? (C & I & W) F']; subst. constructor; [|apply IH, F'].
    destruct (chain_member dbg fuel tr V S H MO U G WH TO n x0 B0 e C I W) as (y' & R & M). unfold compute_robustness in E. unfold runs in R. rewrite R in E. injection E as <-. exact M. }
  destruct l as [|a l]; [congruence|]. inversion F as [|? ? (Ca & Ia & Wa) _]; subst.
  destruct (chain_spaced dbg fuel tr V S H (moderate_ordinary V S H MO) U G WH a Ca Ia Wa) as (n & x0 & _ & _ & B0 & _).
  specialize (MEMB n x0 B0). rename MEMB into MEM.
  rewrite LE in EV |- *.
  (* a bound of 4 V on the operands *)
  destruct (moderate_parts V S H 4 MO ltac:(lra)) as (M1 & M2 & M3 & M4 & M5). destruct ys as [|y ys]; [discriminate|].
  inversion MEM as [|? ? (Wy & Ny & Sy & Py & Ty) MEM']; subst.
  assert (TRANS : forall u w : signal B64, same x0 u -> same x0 w -> same u w).
  { clear. intros u w A B. unfold same in *. revert w B. induction A as [|c d x0 u E A IH]; intros w B; inversion B; subst; constructor; [clear - E H1; num_hyps; num|apply IH; assumption]. }
  assert (MEMy : Forall (member (4 * V) S H y) ys).
  { eapply Forall_impl; [|exact MEM']. intros w (A1 & A2 & A3 & A4 & A5). repeat (split; [assumption|]). apply TRANS; assumption. }
  destruct (many_scale V S H MO) as (V0 & H0 & S0 & _ & EU & _).
  assert (EE : unit_error (4 * V) S H * 10 ^ length ys = 4 * error_of (length (y :: ys)) V S H).
  { rewrite EU. unfold error_of. cbn [length]. replace (Datatypes.S (length ys) - 1)%nat with (length ys) by lia. unfold Rdiv. ring. }
  assert (RV : unit_error (4 * V) S H * 10 ^ length ys <= 4 * V) by (rewrite EE; lra).
  destruct (list_error (4 * V) S H M1 M2 M3 M4 M5 dbg p y ys z Wy Ny Sy Py MEMy RV Hm) as (Z1 & Z2 & Z3 & Z4 & Z5 & _ & _ & Z8). rewrite EE in Z8.
  assert (PW : forall w t v, In w (y :: ys) -> (pwl (reals w) t v <-> first_time (reals y) <= t <= final_time (reals y) /\ v = pw (reals w) t)).
  { intros w t v Hw. assert (member (4 * V) S H x0 w) as (Ww & Nw & Sw & _ & Tw) by (rewrite Forall_forall in MEM; apply MEM, Hw).
    destruct (same_ends (4 * V) S y w Sy Sw (TRANS _ _ Ty Tw)) as (<- & <-). apply pwl_pw; [apply reals_rincr; [exact Ww|eapply sized_finite; eauto]|destruct w; [congruence|discriminate]]. }
  intros x t u Hx Hu. apply (PW x t u Hx) in Hu as (D & _).
  destruct (fold_best (QuantFacts.sgp p) (fun w => pw (reals w) t) (sgp_cases p) ys (pw (reals y) t)) as (Q1 & Q2 & Q3). fold (fbest p y ys t) in Q1, Q2, Q3.
  exists (pw (reals z) t), (fbest p y ys t). split; [|split; [|split]].
  - apply pwl_pw; [apply reals_rincr; assumption|destruct z; [congruence|discriminate]|]. rewrite Z4, Z5. auto.
  - destruct Q1 as [Q1|(w & Hw & Q1)]; [exists y|exists w]; (split; [cbn; auto|]); apply PW; cbn; auto.
  - apply (Z8 t D).
  - intros w v Hw Hv. apply (PW w t v Hw) in Hv as (_ & ->). assert (K : QuantFacts.sgp p * fbest p y ys t <= QuantFacts.sgp p * pw (reals w) t) by (destruct Hw as [<-|Hw]; [exact Q2|apply Q3, Hw]).
    split; intros Eo; [rewrite (P1 Eo) in *|rewrite (P2 Eo) in *]; cbn [QuantFacts.sgp] in K; lra.
Qed.

Lemma ladder_base V tr e : ladder e = true -> in_trace V tr e -> exists n x, has_signal tr n x.
Proof. intros L IT. pose proof (ladder_names e L) as N. destruct (names e) as [|n l] eqn:E; [cbn in N; lia|]. exists n. apply (proj2 IT). rewrite E. left. reflexivity. Qed.

Lemma C120_boolean_lemma dbg fuel (tr : trace B64) s phi V S H z : spaced_trace V S H tr -> moderate V S H -> ladder phi = true -> in_trace V tr phi ->
  error_of (length (names phi)) V S H <= V -> compute_robustness dbg fuel phi tr s = Ok z ->
  forall t r, rob (real_trace tr) (real_formula phi) t r -> exists v, pwl (reals z) t v /\ Rabs (v - r) <= 8 * error_of (length (names phi)) V S H.
Proof.
  intros (U & G & WH & TO) MO L IT EV Hz. destruct (ladder_base V tr phi L IT) as (n & x & B0).
  apply (tracks_near tr V S H MO x phi z). apply (ladder_tracks dbg fuel tr V S H MO U G WH TO n x B0); assumption.
Qed.
Lemma C120_temporal_lemma dbg fuel (tr : trace B64) s outer phi i V S H z : spaced_trace V S H tr -> moderate V S H ->
  outer = EAlways \/ outer = EEventually -> ladder phi = true -> in_trace V tr phi -> error_of (length (names phi)) V S H <= V -> made_interval i ->
  compute_robustness dbg fuel (outer phi i) tr s = Ok z ->
  z <> [] /\ forall c, In c z -> exists r, rob (real_trace tr) (real_formula (outer phi i)) (B2R (s_time c)) r /\ finite (s_value c) = true /\
      Rabs (B2R (s_value c) - r) <= 8 * error_of (length (names phi)) V S H /\
      (8 * error_of (length (names phi)) V S H < B2R (s_value c) -> sat (real_trace tr) (real_formula (outer phi i)) (B2R (s_time c))) /\
      (B2R (s_value c) < - (8 * error_of (length (names phi)) V S H) -> ~ sat (real_trace tr) (real_formula (outer phi i)) (B2R (s_time c))).
Proof.
  intros (U & G & WH & TO) MO Ho L IT EV M Hz. apply is_tmp in Ho as (p & Ho). rewrite Ho in *. destruct (ladder_base V tr phi L IT) as (n & x & B0).
  destruct (many_temporal dbg fuel tr V S H MO U G WH TO n x B0 p phi i z L IT EV M Hz) as (N & K). split; [exact N|]. intros c Hc. destruct (K c Hc) as (r & R1 & R2 & R3 & R4 & R5).
  exists r. split; [exact R1|]. split; [exact R2|]. split; [exact R3|]. exact (near_sign _ _ _ _ _ R3 R4 R5).
Qed.
