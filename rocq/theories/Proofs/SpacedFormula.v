(** And and Or of two operands on traces sampled at the same times, in doubles (C118). *)
From Coq Require Import Reals Lra Lia.
From Flocq Require Import Core.Core IEEE754.BinarySingleNaN.
From Verif Require Import Base Num NumXR NumB64.
From Verif.Model Require Import Signal MinMax Ast Robustness.
From Verif.Spec Require Import SignalSpec Pwl Formula Semantics Quantitative Rounding Accuracy Uniform Whole Apart Spaced.
From Verif.Proofs Require Import NumFacts SignalFacts PwlFacts RobFacts RobWf B64Facts SeqFacts MinMaxProps InterpError CrossingError SyncError Rounding ChainFacts LayerFacts RobExact QuantFacts PairBound UniformFacts PerturbFacts WholeFacts JoinFormula PairError.
Local Open Scope R_scope.

(** Broken lines with the same times and close values. *)
Lemma pw_close (s o e : R) : 0 <= e -> forall (l l' : list (R * R)), rincr l -> Forall2 (fun p q => fst q = fst p /\ Rabs (snd q - (s * snd p + o)) <= e) l l' ->
  l <> [] -> forall t, first_time l <= t -> Rabs (pw l' t - (s * pw l t + o)) <= e.
Proof.
  intros He. induction l as [|p l IH]; intros l' I F N t Ht; [congruence|]. inversion F as [|? p' ? l1 (Ep & Hp) F']; subst.
  destruct l as [|q l]; [inversion F'; subst; cbn [pw]; exact Hp|]. inversion F' as [|? q' ? l2 (Eq & Hq) F'']; subst. cbn [first_time] in Ht.
  cbn [pw]. rewrite Eq. destruct (Rle_dec t (fst q)) as [L|L].
  - assert (I2 : fst p < fst q) by (apply rincr_cons in I as (_ & I); inversion I; assumption).
    unfold line. rewrite Ep, Eq. set (w := (t - fst p) / (fst q - fst p)). assert (W : 0 <= w <= 1).
    { unfold w. split; [apply Rmult_le_pos; [lra|left; apply Rinv_0_lt_compat; lra]|]. apply Rmult_le_reg_r with (fst q - fst p); [lra|]. unfold Rdiv. rewrite Rmult_assoc, Rinv_l by lra. lra. }
    match goal with |- Rabs ?a <= _ => replace a with ((snd p' - (s * snd p + o)) * (1 - w) + (snd q' - (s * snd q + o)) * w) by (unfold w; field; lra) end.
    apply Rabs_le_inv in Hp, Hq. apply Rabs_le. split; nra.
  - apply (IH (q' :: l2)); [apply rincr_cons in I; apply I|exact F'|discriminate|cbn [first_time]; lra].
Qed.

Section W.
Variables (dbg : bool) (fuel : nat) (tr : trace B64) (V S H : R).
Hypothesis OR : ordinary V S H.
Hypothesis U : keys_unique tr.
Hypothesis G : Forall (fun e => wf (snd e) /\ snd e <> []) tr.
Hypothesis WH : forall n x, has_signal tr n x -> sized V S x /\ spaced H x.
Hypothesis TO : forall n m x y, has_signal tr n x -> has_signal tr m y -> Forall2 (fun a b => neqb (s_time a) (s_time b) = true) x y.
Let lt := real_trace tr.
Let r0 := mkRob (trace_begin tr) (trace_end tr) tr.

Lemma G3s : Forall (fun e => wf (snd e) /\ snd e <> [] /\ Forall (fun a => finite (s_time a) = true /\ finite (s_value a) = true) (snd e)) tr.
Proof.
  rewrite Forall_forall in *. intros [n x] Hn. destruct (G _ Hn) as (W & N). split; [exact W|]. split; [exact N|]. apply (sized_finite V S), (WH n), Hn.
Qed.

Lemma chain_spaced f : chain f = true -> intervals_made f -> in_trace V tr f -> exists n x y,
  names f = [n] /\ has_signal tr n x /\ runs dbg fuel tr f y /\ wf y /\ y <> [] /\ times y = times x /\ sized (4 * V) S y /\ spaced H y /\
  forall x1 a x2 y1 c y2, x = x1 ++ a :: x2 -> y = y1 ++ c :: y2 -> length x1 = length y1 -> Rabs (B2R (s_value c) - exact_samples f (map (fun b => B2R (s_value b)) (a :: x2))) <= 4 * uu * V.
Proof.
  intros C IM WF. pose proof C as C0. apply chain_inv in C as (F1 & F2 & F3). pose proof (proj1 WF) as CW.
  destruct (C91_temporal_lemma dbg fuel tr false f U F1 F2 F3 (constants_finite V f CW) IM (proj2 WF) G3s) as (n & x & y & A & B & R & D & Q).
  exists n, x, y. split; [exact A|]. split; [exact B|]. split; [exact R|].
  assert (Gy : RobWf.good y) by (refine (good_compute b64_win b64_hv dbg fuel tr f _ y R); exact G). split; [apply Gy|]. split; [apply Gy|]. split; [exact D|].
  destruct (WH n x B) as (Wx & Px). destruct OR as ((O1 & O2) & _).
  pose proof uu_small as Hu. pose proof lo_hi as (L0 & L1 & _). fold lo in O1.
  assert (He : eta <= uu * V). { apply Rle_trans with (uu * lo); [unfold eta, uu, lo; rewrite <- bpow_plus; apply bpow_le; lia|]. apply Rmult_le_compat_l; lra. }
  assert (PT : forall x1 a x2 y1 c y2, x = x1 ++ a :: x2 -> y = y1 ++ c :: y2 -> length x1 = length y1 ->
    let r := exact_samples f (map (fun b => B2R (s_value b)) (a :: x2)) in finite (s_value c) = true /\ Rabs (B2R (s_value c) - r) <= 4 * uu * V /\ Rabs r <= 2 * V).
  { intros x1 a x2 y1 c y2 Ex Ey L r. destruct (Q x1 a x2 y1 c y2 Ex Ey L) as [Q1 _]. fold r in Q1.
    assert (SUB : forall b, In b (a :: x2) -> In b x) by (intros b Hb; rewrite Ex; apply in_or_app; right; exact Hb).
    assert (Hr : Rabs r <= 2 * V).
    { apply exact_bound; auto; [lra|]. apply Forall_map, Forall_forall. intros b Hb. apply (proj1 Wx b (SUB b Hb)). }
    assert (B53 : Rabs r <= bpow radix2 1023). { eapply Rle_trans; [exact Hr|]. apply Rle_trans with (bpow radix2 1 * bpow radix2 298); [change (bpow radix2 1) with 2; lra|]. rewrite <- bpow_plus. apply bpow_le. lia. }
    unfold rounds_to in Q1. rewrite b64_round_rnd, (rnd_fits r B53) in Q1. destruct Q1 as [Fc Ec].
    split; [exact Fc|]. split; [|exact Hr]. rewrite Ec. destruct (rnd_error r) as (e & m & He' & Hm & ->).
    replace (r * (1 + e) + m - r) with (r * e + m) by ring. eapply Rle_trans; [apply add_abs; [apply mul_abs; [exact Hr|exact He']|exact Hm]|].
    assert (0 < uu * V) by (apply Rmult_lt_0_compat; lra). lra. }
  assert (TT : forall y1 c y2, y = y1 ++ c :: y2 -> exists x1 a x2, x = x1 ++ a :: x2 /\ length x1 = length y1 /\ s_time a = s_time c /\ times y2 = times x2).
  { intros y1 c y2 Ey. destruct (split_times x y D y1 c y2 Ey) as (x1 & a & x2 & Ex & L & Et & E2). exists x1, a, x2. auto. }
  assert (SP : forall h, (forall x1 a b x2, x = x1 ++ a :: b :: x2 -> h <= B2R (s_time b) - B2R (s_time a)) -> forall y1 c d y2, y = y1 ++ c :: d :: y2 -> h <= B2R (s_time d) - B2R (s_time c)).
  { intros h K y1 c d y2 Ey. destruct (TT y1 c (d :: y2) Ey) as (x1 & a & x2 & Ex & L & Et & E2). destruct x2 as [|b x2]; [discriminate|].
    cbn [times map] in E2. injection E2 as Eb _. rewrite <- Et, Eb. apply (K x1 a b x2 Ex). }
  split; [split|split].
  - intros c Hc. apply in_split in Hc as (y1 & y2 & Ey). destruct (TT y1 c y2 Ey) as (x1 & a & x2 & Ex & L & Et & _).
    destruct (PT x1 a x2 y1 c y2 Ex Ey L) as (P1 & P2 & P3). destruct (proj1 Wx a) as (T1 & _ & T3 & _); [rewrite Ex; apply in_or_app; right; left; reflexivity|].
    rewrite Et in T1, T3. split; [exact T1|]. split; [exact P1|]. split; [exact T3|]. eapply Rle_trans; [eapply near_abs; [exact P2|exact P3]|].
    assert (uu * V <= / 1000000 * V) by (apply Rmult_le_compat_r; lra). lra.
  - exact (SP _ (proj2 Wx)).
  - exact (SP _ Px).
  - intros x1 a x2 y1 c y2 Ex Ey L. apply (PT x1 a x2 y1 c y2 Ex Ey L).
Qed.

Lemma nonneg_parts : 0 < V /\ 0 < H /\ 0 < S /\ V <= V * S / H.
Proof.
  destruct OR as ((O1 & O2) & (O3 & O4) & O5). pose proof lo_hi as (L0 & _). fold lo in O1, O3. repeat (split; [lra|]).
  replace V with (V * H / H) at 1 by (field; lra). unfold Rdiv. apply Rmult_le_compat_r; [left; apply Rinv_0_lt_compat; lra|]. apply Rmult_le_compat_l; lra.
Qed.

Lemma two_chains_spaced p a b z : chain a = true -> chain b = true -> intervals_made a -> intervals_made b -> in_trace V tr a -> in_trace V tr b ->
  compute dbg fuel r0 (join p [a; b]) = Ok z ->
  exists n x xa xb, has_signal tr n x /\ runs dbg fuel tr a xa /\ runs dbg fuel tr b xb /\ times xa = times x /\ wf z /\ z <> [] /\ fins z /\
    first_time (reals z) = first_time (reals x) /\ final_time (reals z) = final_time (reals x) /\
    forall t u v, pwl (reals xa) t u -> pwl (reals xb) t v -> exists w, pwl (reals z) t w /\ Rabs (w - if p then Rmin u v else Rmax u v) <= bpow radix2 (-42) * V * S / H.
Proof.
  intros Ca Cb Ia Ib Wa Wb Hz. destruct (chain_spaced a Ca Ia Wa) as (n & x & xa & _ & Hx & Ra & W1 & N1 & T1 & H1 & P1 & _).
  destruct (chain_spaced b Cb Ib Wb) as (m & y & xb & _ & Hy & Rb & W2 & N2 & T2 & H2 & P2 & _).
  assert (TT : Forall2 (fun a b => neqb (s_time a) (s_time b) = true) xa xb).
  { apply Forall2_times. rewrite T1, T2. apply Forall2_times. eapply TO; eauto. }
  assert (Z : minmax_pair dbg (comp_of p) false xa xb = Ok z).
  { unfold runs in Ra, Rb. unfold r0 in Hz. destruct p; cbn [join compute compute_list] in Hz; rewrite Ra, Rb in Hz; exact Hz. }
  destruct OR as ((O1 & O2) & (O3 & O4) & O5). pose proof lo_hi as (L0 & _). fold lo in O1, O3.
  assert (HV : lo <= 4 * V <= hi). { split; [lra|]. apply Rle_trans with (bpow radix2 2 * bpow radix2 298); [change (bpow radix2 2) with 4; lra|]. rewrite <- bpow_plus. apply bpow_le. lia. }
  destruct (pair_error (4 * V) S H HV O5 O3 dbg p false xa xb z W1 W2 N1 TT H1 H2 P1 O4 Z) as (Z1 & Z2 & Z3 & Z4 & Z5 & Z6).
  exists n, x, xa, xb. repeat (split; [assumption|]). rewrite <- (first_times x xa T1), <- (final_times x xa T1). split; [exact Z4|]. split; [exact Z5|].
  replace (bpow radix2 (-42) * V * S / H) with (ES (4 * V) S H).
  - apply (error_pwl p); eauto using sized_finite.
  - rewrite ES_is. change (bpow radix2 (-42)) with (bpow radix2 (2 + -44)). rewrite bpow_plus. change (bpow radix2 2) with 4. unfold Rdiv. ring.
Qed.

(** *** Literals *)
Lemma literal_near e y : literal e = true -> in_trace V tr e -> runs dbg fuel tr e y -> forall t v, rob lt (real_formula e) t v -> exists u, pwl (reals y) t u /\ Rabs (u - v) <= 4 * uu * V.
Proof.
  intros L WF Ry t v Hv. destruct (chain_spaced e (literal_chain e L) (literal_intervals e L) WF) as (n & x & y' & N & Hx & R & Wy & Ny & T & Sy & _ & Q).
  unfold runs in R, Ry. rewrite R in Ry. injection Ry as ->.
  destruct (literal_affine tr e L) as (n' & s & o & N' & Hs & E & K). assert (n' = n) by congruence. subst n'.
  destruct (proj1 (K t v) Hv) as (u & Hu & Ev). subst v. clear Hv K. apply (values_of tr U n x Hx) in Hu. destruct (has_good tr G3s n x Hx) as (Wx & Nx).
  apply pwl_pw in Hu as (D & ->); [|apply reals_rincr; [exact Wx|eapply sized_finite, WH; eauto]|destruct x; [congruence|discriminate]].
  pose proof nonneg_parts as (V0 & _). pose proof uu_small. assert (0 < uu * V) by (apply Rmult_lt_0_compat; lra).
  exists (pw (reals y) t). split.
  { apply pwl_pw; [apply reals_rincr; [exact Wy|eapply sized_finite; eauto]|destruct y; [congruence|discriminate]|]. rewrite (first_times x y T), (final_times x y T). auto. }
  apply pw_close; [lra|apply reals_rincr; [exact Wx|eapply sized_finite, WH; eauto]| |destruct x; [congruence|discriminate]|apply D].
  assert (Q' : forall x1 a x2 y1 c y2, x = x1 ++ a :: x2 -> y = y1 ++ c :: y2 -> length x1 = length y1 -> Rabs (B2R (s_value c) - (s * B2R (s_value a) + o)) <= 4 * uu * V).
  { intros x1 a x2 y1 c y2 Ex Ey Ll. pose proof (Q x1 a x2 y1 c y2 Ex Ey Ll) as Q1. cbn [map] in Q1. rewrite E in Q1. exact Q1. }
  clear - T Q'. revert y T Q'. induction x as [|a x IH]; intros [|c y] T Q'; try discriminate; [constructor|]. injection T as T1 T2.
  rewrite !reals_cons. constructor.
  - cbn [fst snd]. split; [rewrite T1; reflexivity|]. exact (Q' [] a x [] c y eq_refl eq_refl eq_refl).
  - apply IH; [exact T2|]. intros x1 a' x2 y1 c' y2 -> -> L. apply (Q' (a :: x1) a' x2 (c :: y1) c' y2); [reflexivity|reflexivity|]. cbn. lia.
Qed.

Definition err : R := bpow radix2 (-41) * V * S / H.
Lemma in_names a b : in_trace V tr a -> in_trace V tr b -> forall n, In n (names a ++ names b) -> exists x, has_signal tr n x.
Proof. intros Wa Wb n Hn. apply in_app_or in Hn as [K|K]; [apply (proj2 Wa n K)|apply (proj2 Wb n K)]. Qed.

Lemma two_literals_spaced p a b z : literal a = true -> literal b = true -> in_trace V tr a -> in_trace V tr b -> compute dbg fuel r0 (join p [a; b]) = Ok z ->
  wf z /\ z <> [] /\ fins z /\ (forall t w, pwl (reals z) t w -> inside lt (real_formula (join p [a; b])) t) /\
    forall t r, rob lt (real_formula (join p [a; b])) t r -> exists w, pwl (reals z) t w /\ Rabs (w - r) <= err.
Proof.
  intros La Lb Wa Wb Hz. destruct (two_chains_spaced p a b z (literal_chain a La) (literal_chain b Lb) (literal_intervals a La) (literal_intervals b Lb) Wa Wb Hz)
    as (n & x & xa & xb & Hx & Ra & Rb & _ & Z1 & Z2 & Z3 & Z4 & Z5 & Z6).
  split; [exact Z1|]. split; [exact Z2|]. split; [exact Z3|]. split; [exact (join_inside tr U G3s TO p a b n x z (in_names a b Wa Wb) Hx Z1 Z2 Z3 Z4 Z5)|].
  intros t r Hr. apply rob_two in Hr as (u & v & Hu & Hv & ->).
  destruct (literal_near a xa La Wa Ra t u Hu) as (u' & Pu & Eu). destruct (literal_near b xb Lb Wb Rb t v Hv) as (v' & Pv & Ev).
  destruct (Z6 t u' v' Pu Pv) as (w & Pw & Ew). exists w. split; [exact Pw|].
  assert (M : Rabs ((if p then Rmin u' v' else Rmax u' v') - (if p then Rmin u v else Rmax u v)) <= 4 * uu * V) by (destruct p; [apply min_close|apply max_close]; assumption).
  eapply Rle_trans; [eapply chain_abs; [exact Ew|exact M]|]. pose proof nonneg_parts as (V0 & H0 & S0 & VS). pose proof uu_small.
  assert (uu * V <= uu * (V * S / H)) by (apply Rmult_le_compat_l; lra). unfold err.
  change (bpow radix2 (-41)) with (bpow radix2 (12 + -53)). change (bpow radix2 (-42)) with (bpow radix2 (11 + -53)). rewrite !bpow_plus. change (bpow radix2 12) with 4096. change (bpow radix2 11) with 2048.
  change (bpow radix2 (-53)) with uu. replace (2048 * uu * V * S / H) with (2048 * (uu * (V * S / H))) by (unfold Rdiv; ring). replace (4096 * uu * V * S / H) with (4096 * (uu * (V * S / H))) by (unfold Rdiv; ring).
  assert (0 < uu * V) by (apply Rmult_lt_0_compat; lra). lra.
Qed.

Lemma temporal_spaced p q a b i z : literal a = true -> literal b = true -> in_trace V tr a -> in_trace V tr b -> made_interval i ->
  compute dbg fuel r0 (tmp p (join q [a; b]) i) = Ok z ->
    z <> [] /\ forall c, In c z -> exists r, rob lt (real_formula (tmp p (join q [a; b]) i)) (B2R (s_time c)) r /\ finite (s_value c) = true /\
      Rabs (B2R (s_value c) - r) <= err /\ (0 < r -> sat lt (real_formula (tmp p (join q [a; b]) i)) (B2R (s_time c))) /\
      (r < 0 -> ~ sat lt (real_formula (tmp p (join q [a; b]) i)) (B2R (s_time c))).
Proof.
  intros La Lb Wa Wb M Hz. assert (K : exists y, compute dbg fuel r0 (join q [a; b]) = Ok y).
  { destruct p; cbn [tmp compute] in Hz; destruct (compute dbg fuel r0 (join q [a; b])); try discriminate; eauto. }
  destruct K as (y & C). destruct (two_literals_spaced q a b y La Lb Wa Wb C) as (W & N & F & IN & NEAR).
  destruct (join_evaluable tr q a b La Lb (in_names a b Wa Wb)) as (EV & NT).
  destruct (temporal_near dbg fuel tr U G3s (same_starts tr G3s TO) p (join q [a; b]) i y err C W N F IN NEAR EV NT (join_extreme p q a b NT) M) as (z' & Z1 & Z2 & Z3).
  fold r0 in Z1. rewrite Z1 in Hz. injection Hz as <-. auto.
Qed.
End W.
