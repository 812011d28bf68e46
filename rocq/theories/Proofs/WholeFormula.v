(** And and Or of two operands on traces of whole numbers (C117). *)
From Coq Require Import Reals Lra Lia.
From Flocq Require Import Core.Core IEEE754.BinarySingleNaN.
From Verif Require Import Base Num NumXR NumB64.
From Verif.Model Require Import Signal MinMax Ast Robustness.
From Verif.Spec Require Import SignalSpec Pwl Formula Semantics Quantitative Rounding Accuracy Uniform Whole.
From Verif.Proofs Require Import NumFacts SignalFacts PwlFacts RobFacts RobWf B64Facts SeqFacts MinMaxProps InterpError SyncError Rounding ChainFacts LayerFacts RobExact QuantFacts PairBound UniformFacts PerturbFacts WholeFacts JoinFormula.
Local Open Scope R_scope.

Definition integral (r : R) : Prop := exists k : Z, r = IZR k.
Lemma integral_opp r : integral r -> integral (- r).
Proof. intros (k & ->). exists (- k)%Z. rewrite opp_IZR. reflexivity. Qed.
Lemma integral_sub r q : integral r -> integral q -> integral (r - q).
Proof. intros (k & ->) (l & ->). exists (k - l)%Z. rewrite minus_IZR. reflexivity. Qed.

Section W.
Variables (dbg : bool) (fuel : nat) (tr : trace B64) (V S : R).
Hypothesis HV : 1 <= V.
Hypothesis HS : 1 <= S.
Hypothesis HVS : 2 * V * S <= bpow radix2 50.
Hypothesis U : keys_unique tr.
Hypothesis G : Forall (fun e => wf (snd e) /\ snd e <> []) tr.
Hypothesis WH : forall n x, has_signal tr n x -> whole V S x.
Hypothesis TO : forall n m x y, has_signal tr n x -> has_signal tr m y -> Forall2 (fun a b => neqb (s_time a) (s_time b) = true) x y.
Let lt := real_trace tr.
Let r0 := mkRob (trace_begin tr) (trace_end tr) tr.

Lemma G3w : Forall (fun e => wf (snd e) /\ snd e <> [] /\ Forall (fun a => finite (s_time a) = true /\ finite (s_value a) = true) (snd e)) tr.
Proof.
  rewrite Forall_forall in *. intros [n x] H. destruct (G _ H) as (W & N). split; [exact W|]. split; [exact N|]. apply (whole_finite V S), (WH n), H.
Qed.
Lemma whole_names a b : whole_formula V tr a -> whole_formula V tr b -> forall n, In n (names a ++ names b) -> exists x, has_signal tr n x.
Proof. intros Wa Wb n Hn. apply in_app_or in Hn as [K|K]; [apply (proj2 Wa n K)|apply (proj2 Wb n K)]. Qed.

(** *** Chains *)
Lemma exact_integral f : whole_formula V tr f -> forall w, Forall integral w -> integral (exact_samples f w).
Proof.
  assert (Z0 : integral 0) by (exists 0%Z; reflexivity).
  assert (LEAST : forall l, Forall integral l -> integral (Rleast l)).
  { intros [|v l] H; [exact Z0|]. rewrite Forall_forall in H. apply H, least_in. discriminate. }
  assert (TAILS : forall (e : expr B64) w, (forall w, Forall integral w -> integral (exact_samples e w)) -> Forall integral w -> Forall integral (map (exact_samples e) (tails w))).
  { intros e w K F. apply Forall_forall. intros v Hv. apply in_map_iff in Hv as (s & <- & Hs). apply K. apply tails_in in Hs as (_ & m & ->). apply Forall_app in F. apply F. }
  intros WF. assert (C := proj1 WF). clear WF. revert C.
  induction f using expr_rec; intros W w Fw; cbn [exact_samples]; try exact Z0.
  - destruct w as [|v w]; [exact Z0|]. inversion Fw as [|? ? Hv _]; subst. destruct (W _ (or_introl eq_refl)) as (_ & k & Ek & _).
    assert (integral (B2R c)) by (exists k; exact Ek). destruct o; cbn [exact_pred]; apply integral_sub; assumption.
  - apply integral_opp, IHf; auto. intros e He. apply (W e). right. exact He.
  - apply LEAST, TAILS; [|exact Fw]. apply IHf. intros e He. apply (W e). right. exact He.
  - rewrite greatest_opp. apply integral_opp, LEAST. apply Forall_map. eapply Forall_impl; [|apply TAILS; [|exact Fw]]; [apply integral_opp|].
    apply IHf. intros e He. apply (W e). right. exact He.
Qed.

Lemma whole_constants f : whole_formula V tr f -> constants_within V f.
Proof. intros (W & _) e He. specialize (W e He). destruct e; auto. destruct W as (A & k & B & C). split; [exact A|]. rewrite B. exact C. Qed.

Lemma chain_whole f : chain f = true -> intervals_made f -> whole_formula V tr f -> exists n x y,
  names f = [n] /\ has_signal tr n x /\ runs dbg fuel tr f y /\ wf y /\ y <> [] /\ times y = times x /\ whole (2 * V) S y /\
  forall x1 a x2 y1 c y2, x = x1 ++ a :: x2 -> y = y1 ++ c :: y2 -> length x1 = length y1 -> B2R (s_value c) = exact_samples f (map (fun b => B2R (s_value b)) (a :: x2)).
Proof.
  intros C IM WF. pose proof C as C0. apply chain_inv in C as (F1 & F2 & F3). pose proof (whole_constants f WF) as CW.
  destruct (C91_temporal_lemma dbg fuel tr false f U F1 F2 F3 (constants_finite V f CW) IM (proj2 WF) G3w) as (n & x & y & A & B & R & D & Q).
  exists n, x, y. split; [exact A|]. split; [exact B|]. split; [exact R|].
  assert (Gy : RobWf.good y) by (refine (good_compute b64_win b64_hv dbg fuel tr f _ y R); exact G). split; [apply Gy|]. split; [apply Gy|]. split; [exact D|].
  pose proof (WH n x B) as Wx.
  assert (PT : forall x1 a x2 y1 c y2, x = x1 ++ a :: x2 -> y = y1 ++ c :: y2 -> length x1 = length y1 ->
    let r := exact_samples f (map (fun b => B2R (s_value b)) (a :: x2)) in finite (s_value c) = true /\ B2R (s_value c) = r /\ integral r /\ Rabs r <= 2 * V).
  { intros x1 a x2 y1 c y2 Ex Ey L r. destruct (Q x1 a x2 y1 c y2 Ex Ey L) as [Q1 _]. fold r in Q1.
    assert (SUB : forall b, In b (a :: x2) -> In b x) by (intros b Hb; rewrite Ex; apply in_or_app; right; exact Hb).
    assert (Hr : Rabs r <= 2 * V).
    { apply exact_bound; auto; [lra|]. apply Forall_map, Forall_forall. intros b Hb. destruct (proj1 Wx b (SUB b Hb)) as (_ & _ & k & v & _ & E & _ & H). exact (eq_ind_r (fun u => Rabs u <= V) H E). }
    assert (Hi : integral r).
    { apply exact_integral; [exact WF|]. apply Forall_map, Forall_forall. intros b Hb. destruct (proj1 Wx b (SUB b Hb)) as (_ & _ & k & v & _ & E & _). exists v. exact E. }
    assert (B53 : Rabs r <= bpow radix2 53). { assert (bpow radix2 50 <= bpow radix2 53) by (apply bpow_le; lia). assert (0 <= V * (S - 1)) by (apply Rmult_le_pos; lra). lra. }
    unfold rounds_to in Q1. rewrite b64_round_rnd, (rnd_fits r (int_le_1023 r B53)) in Q1. destruct Q1 as [Fc Ec].
    split; [exact Fc|]. split; [|auto]. rewrite Ec. destruct Hi as (k & Ek). rewrite Ek. apply rnd_int. rewrite <- Ek. exact B53. }
  split; [split|].
  - intros c Hc. apply in_split in Hc as (y1 & y2 & Ey). destruct (split_times x y D y1 c y2 Ey) as (x1 & a & x2 & Ex & L & Et & _).
    destruct (PT x1 a x2 y1 c y2 Ex Ey L) as (P1 & P2 & (v & P3) & P4). destruct (proj1 Wx a) as (T1 & _ & k & _ & T2 & _ & T3 & _); [rewrite Ex; apply in_or_app; right; left; reflexivity|].
    rewrite Et in T1, T2. split; [exact T1|]. split; [exact P1|]. exists k, v. split; [exact T2|]. split; [congruence|]. split; [exact T3|]. rewrite <- P3. exact P4.
  - intros y1 c d y2 Ey. destruct (split_times x y D y1 c (d :: y2) Ey) as (x1 & a & x2 & Ex & L & Et & E2). destruct x2 as [|b x2]; [discriminate|].
    cbn [times map] in E2. injection E2 as Eb _. rewrite <- Et, <- Eb. apply (proj2 Wx x1 a b x2 Ex).
  - intros x1 a x2 y1 c y2 Ex Ey L. apply (PT x1 a x2 y1 c y2 Ex Ey L).
Qed.

Lemma two_chains p a b : chain a = true -> chain b = true -> intervals_made a -> intervals_made b -> whole_formula V tr a -> whole_formula V tr b ->
  exists xa xb z, runs dbg fuel tr a xa /\ runs dbg fuel tr b xb /\ wf xa /\ wf xb /\ xa <> [] /\ xb <> [] /\
    Forall (fun a => finite (s_time a) = true /\ finite (s_value a) = true) xa /\ Forall (fun a => finite (s_time a) = true /\ finite (s_value a) = true) xb /\
    compute dbg fuel r0 (if p : bool then EAnd [a; b] else EOr [a; b]) = Ok z /\ wf z /\ z <> [] /\ Forall (fun a => finite (s_time a) = true /\ finite (s_value a) = true) z /\
    first_time (reals z) = first_time (reals xa) /\ final_time (reals z) = final_time (reals xa) /\
    forall t u v, pwl (reals xa) t u -> pwl (reals xb) t v -> exists w, pwl (reals z) t w /\ Rabs (w - if p then Rmin u v else Rmax u v) <= bpow radix2 (-48) * V * S.
Proof.
  intros Ca Cb Ia Ib Wa Wb. destruct (chain_whole a Ca Ia Wa) as (n & x & xa & _ & Hx & Ra & W1 & N1 & T1 & H1 & _).
  destruct (chain_whole b Cb Ib Wb) as (m & y & xb & _ & Hy & Rb & W2 & N2 & T2 & H2 & _).
  assert (TT : Forall2 (fun a b => neqb (s_time a) (s_time b) = true) xa xb).
  { apply Forall2_times. rewrite T1, T2. apply Forall2_times. eapply TO; eauto. }
  destruct (pair_near (2 * V) S ltac:(lra) HS HVS dbg p xa xb W1 W2 N1 TT H1 H2) as (z & Z1 & _ & Z3 & Z4 & Z5 & Z6 & Z7 & Z8).
  exists xa, xb, z. repeat (split; [assumption || (eapply whole_finite; eassumption)|]).
  split. { unfold runs in Ra, Rb. unfold r0. destruct p; cbn [compute compute_list]; rewrite Ra, Rb; cbn [bind]; exact Z1. }
  split; [exact Z3|]. split; [exact Z4|]. split; [exact Z5|]. split; [exact Z6|]. split; [exact Z7|].
  replace (bpow radix2 (-48) * V * S) with (bpow radix2 (-49) * (2 * V) * S).
  - apply (near_pwl p); eauto using whole_finite.
  - change (bpow radix2 (-48)) with (bpow radix2 (1 + -49)). rewrite bpow_plus. change (bpow radix2 1) with 2. ring.
Qed.

(** *** Literals *)
Lemma literal_exact e : literal e = true -> whole_formula V tr e -> exists y, runs dbg fuel tr e y /\ forall t v, pwl (reals y) t v <-> rob lt (real_formula e) t v.
Proof.
  intros L WF. destruct (chain_whole e (literal_chain e L) (literal_intervals e L) WF) as (n & x & y & N & Hx & R & _ & _ & T & _ & Q).
  exists y. split; [exact R|]. destruct (literal_affine tr e L) as (n' & s & o & N' & Hs & E & K). assert (n' = n) by congruence. subst n'.
  assert (Er : reals y = map (fun p => (fst p, s * snd p + o)) (reals x)).
  { apply (split_reals (fun v => s * v + o) x y T). intros x1 a x2 y1 c y2 Ex Ey Ll. rewrite (Q x1 a x2 y1 c y2 Ex Ey Ll). cbn [map]. apply E. }
  intros t v. unfold lt. rewrite K, Er. rewrite (pwl_map_iff (fun v => s * v + o) (fun v => s * (v - o))).
  - unfold lt. split.
    + intros P. exists (s * (v - o)). split; [apply (values_of tr U n x Hx), P|]. destruct Hs as [-> | ->]; ring.
    + intros (u & P & ->). apply (values_of tr U n x Hx) in P. replace (s * (s * u + o - o)) with u; [exact P|]. destruct Hs as [-> | ->]; ring.
  - exists s, o. reflexivity.
  - exists s, (- s * o). intros; ring.
  - intros z. destruct Hs as [-> | ->]; ring.
  - intros z. destruct Hs as [-> | ->]; ring.
Qed.

Lemma two_literals p a b : literal a = true -> literal b = true -> whole_formula V tr a -> whole_formula V tr b ->
  exists z, compute dbg fuel r0 (join p [a; b]) = Ok z /\ wf z /\ z <> [] /\ Forall (fun a => finite (s_time a) = true /\ finite (s_value a) = true) z /\
    (forall t w, pwl (reals z) t w -> inside lt (real_formula (join p [a; b])) t) /\
    forall t r, rob lt (real_formula (join p [a; b])) t r -> exists w, pwl (reals z) t w /\ Rabs (w - r) <= bpow radix2 (-48) * V * S.
Proof.
  intros La Lb Wa Wb. destruct (two_chains p a b (literal_chain a La) (literal_chain b Lb) (literal_intervals a La) (literal_intervals b Lb) Wa Wb)
    as (xa & xb & z & Ra & Rb & W1 & W2 & N1 & N2 & F1 & F2 & C & Z1 & Z2 & Z3 & Z4 & Z5 & Z6).
  exists z. split; [exact C|]. split; [exact Z1|]. split; [exact Z2|]. split; [exact Z3|]. split.
  - destruct (chain_whole a (literal_chain a La) (literal_intervals a La) Wa) as (n & x & xa' & _ & Hx & Ra' & _ & _ & T1 & _).
    unfold runs in Ra, Ra'. rewrite Ra in Ra'. injection Ra' as <-. rewrite (first_times _ _ T1) in Z4. rewrite (final_times _ _ T1) in Z5.
    exact (join_inside tr U G3w TO p a b n x z (whole_names a b Wa Wb) Hx Z1 Z2 Z3 Z4 Z5).
  - intros t r H. apply rob_two in H as (u & v & Hu & Hv & ->).
    destruct (literal_exact a La Wa) as (xa' & Ra' & Ea). destruct (literal_exact b Lb Wb) as (xb' & Rb' & Eb). unfold runs in *.
    rewrite Ra in Ra'. injection Ra' as <-. rewrite Rb in Rb'. injection Rb' as <-. apply Z6; [apply Ea, Hu|apply Eb, Hv].
Qed.

(** *** Temporal operators *)
Lemma temporal_two p q a b i : literal a = true -> literal b = true -> whole_formula V tr a -> whole_formula V tr b -> made_interval i ->
  exists z, compute dbg fuel r0 (tmp p (join q [a; b]) i) = Ok z /\ z <> [] /\
    forall c, In c z -> exists r, rob lt (real_formula (tmp p (join q [a; b]) i)) (B2R (s_time c)) r /\ finite (s_value c) = true /\
      Rabs (B2R (s_value c) - r) <= bpow radix2 (-48) * V * S /\ (0 < r -> sat lt (real_formula (tmp p (join q [a; b]) i)) (B2R (s_time c))) /\
      (r < 0 -> ~ sat lt (real_formula (tmp p (join q [a; b]) i)) (B2R (s_time c))).
Proof.
  intros La Lb Wa Wb M. destruct (two_literals q a b La Lb Wa Wb) as (y & C & W & N & F & IN & NEAR).
  destruct (join_evaluable tr q a b La Lb (whole_names a b Wa Wb)) as (EV & NT).
  apply (temporal_near dbg fuel tr U G3w (same_starts tr G3w TO) p (join q [a; b]) i y); auto. apply join_extreme, NT.
Qed.
End W.
