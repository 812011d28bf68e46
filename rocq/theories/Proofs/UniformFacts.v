(** C115: And below Always and Or below Eventually, in doubles. *)
From Coq Require Import Reals Lra Lia Sorted Classical.
From Flocq Require Import Core.Core IEEE754.BinarySingleNaN.
From Verif Require Import Base Num NumXR NumB64.
From Verif.Model Require Import Signal MinMax Ast Robustness.
From Verif.Proofs Require Import NumFacts SignalFacts PwlFacts RobFacts RobWf B64Facts SeqFacts MinMaxProps MinMaxCases InterpError SyncError DiscreteFacts Rounding ChainFacts LayerFacts QuantFacts PairBound.
From Verif.Spec Require Import SignalSpec Pwl Formula Discrete Semantics Quantitative Rounding Accuracy Uniform.
Local Open Scope R_scope.

(** ** Small facts *)
Lemma wf_unique (x : signal B64) a b : wf x -> In a x -> In b x -> neqb (s_time a) (s_time b) = true -> a = b.
Proof.
  intros (N & I & _) Ha Hb E. apply In_nth_error in Ha as (i & Hi). apply In_nth_error in Hb as (j & Hj).
  destruct (Nat.lt_trichotomy i j) as [L|[->|L]]; [|congruence|].
  - pose proof (increasing_index x N I i j a b Hi Hj L). num.
  - pose proof (increasing_index x N I j i b a Hj Hi L). num.
Qed.
Lemma B2R_nopp (v : B64) : B2R (nopp v) = - B2R v.
Proof. change (nopp v) with (Bopp v). apply B2R_Bopp. Qed.
Lemma finite_nopp (v : B64) : finite (nopp v) = finite v.
Proof. destruct v; reflexivity. Qed.
Lemma B2R_lt (v w : B64) : finite v = true -> finite w = true -> B2R v < B2R w -> nltb v w = true.
Proof.
  intros Fv Fw H. destruct (nltb v w) eqn:E; [reflexivity|]. exfalso. pose proof (finite_num v Fv). pose proof (finite_num w Fw).
  assert (K : nleb w v = true) by num. apply le_B2R in K; [lra|assumption..].
Qed.
Lemma sgp_negb p : sgp (negb p) = - sgp p.
Proof. destruct p; cbn; lra. Qed.
Lemma sgp_cases p : sgp p = 1 \/ sgp p = -1.
Proof. destruct p; auto. Qed.

Lemma best_two p (v w : B64) : finite v = true -> finite w = true ->
  finite (best_of_two p v w) = true /\ sgp p * B2R (best_of_two p v w) <= sgp p * B2R v /\ sgp p * B2R (best_of_two p v w) <= sgp p * B2R w /\
  (best_of_two p v w = v \/ best_of_two p v w = w).
Proof.
  intros Fv Fw. pose proof (finite_num v Fv) as Nv. pose proof (finite_num w Fw) as Nw.
  destruct p; cbn [best_of_two sgp]; unfold lesser, greater; destruct (nltb _ _) eqn:E.
  - apply lt_B2R in E; [|assumption..]. repeat split; auto; lra.
  - assert (K : nleb v w = true) by num. apply le_B2R in K; [|assumption..]. repeat split; auto; lra.
  - apply lt_B2R in E; [|assumption..]. repeat split; auto; lra.
  - assert (K : nleb w v = true) by num. apply le_B2R in K; [|assumption..]. repeat split; auto; lra.
Qed.
Lemma best_fold p vs : Forall (fun v => finite v = true) vs -> forall v, finite v = true ->
  finite (fold_left (best_of_two p) vs v) = true /\ (forall w, In w (v :: vs) -> sgp p * B2R (fold_left (best_of_two p) vs v) <= sgp p * B2R w) /\
  In (fold_left (best_of_two p) vs v) (v :: vs).
Proof.
  induction 1 as [|u vs Fu _ IH]; intros v Fv; cbn [fold_left].
  - split; [exact Fv|]. split; [|left; reflexivity]. intros w [<-|[]]. lra.
  - destruct (best_two p v u Fv Fu) as (F1 & L1 & L2 & C). destruct (IH _ F1) as (F2 & L3 & C2). split; [exact F2|]. split.
    + intros w [<-|[<-|Hw]]; [specialize (L3 _ (or_introl eq_refl)); lra|specialize (L3 _ (or_introl eq_refl)); lra|apply L3; right; exact Hw].
    + destruct C2 as [C2|C2]; [|right; right; exact C2]. rewrite <- C2. destruct C as [-> | ->]; [left|right; left]; reflexivity.
Qed.

Lemma pwl_dom l t : rincr l -> ((exists v, pwl l t v) <-> exists p q, In p l /\ In q l /\ fst p <= t <= fst q).
Proof.
  intros I. split.
  - intros (v & [(p & Hp & E & _)|(l1 & p & q & l2 & -> & H & _)]).
    + exists p, p. repeat split; auto; lra.
    + exists p, q. split; [apply in_or_app; right; left; reflexivity|]. split; [apply in_or_app; right; right; left; reflexivity|lra].
  - intros (p & q & Hp & Hq & H). assert (N : l <> []) by (intros ->; destruct Hp). exists (pw l t). apply pwl_pw; auto. split; [|reflexivity].
    pose proof (rincr_first_final l p I Hp). pose proof (rincr_first_final l q I Hq). lra.
Qed.

(** Always (Eventually) at a sample: the extreme of the samples from there on. *)
Lemma seq_at p (x z : signal B64) a : wf x -> Forall (fun a => finite (s_time a) = true /\ finite (s_value a) = true) x ->
  minmax_seq (comp_of p) x = Ok z -> In a x ->
  exists c, In c z /\ s_time c = s_time a /\
    (exists b, In b x /\ B2R (s_time a) <= B2R (s_time b) /\ s_value c = s_value b) /\
    forall b, In b x -> B2R (s_time a) <= B2R (s_time b) -> sgp p * B2R (s_value c) <= sgp p * B2R (s_value b).
Proof.
  intros W Q H Ha. pose proof Q as Q'. rewrite Forall_forall in Q'.
  assert (Hne : x <> []) by (intros ->; destruct Ha).
  assert (N : all_num (values x)) by (apply Forall_map, Forall_forall; intros b Hb; apply finite_num, (Q' b Hb)).
  apply in_split in Ha as (x1 & x2 & E).
  assert (K : exists c, In c z /\ s_time c = s_time a /\ (exists b, In b (a :: x2) /\ s_value c = s_value b) /\
     forall b, In b (a :: x2) -> sgp p * B2R (s_value c) <= sgp p * B2R (s_value b)).
  { assert (SUB : forall b, In b (a :: x2) -> In b x) by (intros b Hb; rewrite E; apply in_or_app; right; exact Hb).
    destruct p; cbn [comp_of sgp] in *.
    - destruct (C28_min x W Hne N) as (z' & Hz & _ & _ & K). unfold min_seq in Hz. rewrite H in Hz. injection Hz as <-.
      destruct (K x1 a x2 E) as (z1 & c & z2 & -> & _ & Et & (b & Hb & Eb) & L). exists c. split; [apply in_or_app; right; left; reflexivity|].
      split; [exact Et|]. split; [eauto|]. intros b' Hb'. specialize (L b' Hb'). apply le_B2R in L; [lra|rewrite Eb; apply Q', SUB, Hb|apply Q', SUB, Hb'].
    - destruct (C28_max x W Hne N) as (z' & Hz & _ & _ & K). unfold max_seq in Hz. rewrite H in Hz. injection Hz as <-.
      destruct (K x1 a x2 E) as (z1 & c & z2 & -> & _ & Et & (b & Hb & Eb) & L). exists c. split; [apply in_or_app; right; left; reflexivity|].
      split; [exact Et|]. split; [eauto|]. intros b' Hb'. specialize (L b' Hb'). apply le_B2R in L; [lra|apply Q', SUB, Hb'|rewrite Eb; apply Q', SUB, Hb]. }
  destruct K as (c & Hc & Et & (b & Hb & Eb) & L). exists c. split; [exact Hc|]. split; [exact Et|].
  destruct W as (_ & I & _). rewrite E in I.
  split.
  - exists b. split; [rewrite E; apply in_or_app; right; exact Hb|]. split; [|exact Eb]. destruct Hb as [<-|Hb]; [lra|].
    left. apply lt_B2R; [apply Q'; rewrite E; apply in_or_app; right; left; reflexivity|apply Q'; rewrite E; apply in_or_app; right; right; exact Hb|].
    eapply SyncError.later; eauto.
  - intros b' Hb' Hle. apply L. rewrite E in Hb'. apply in_app_or in Hb' as [Hb'|Hb']; [|exact Hb']. exfalso.
    pose proof Hb' as Hb''. apply in_split in Hb' as (u1 & u2 & ->). rewrite <- app_assoc in I. cbn [app] in I.
    assert (K : nltb (s_time b') (s_time a) = true) by (eapply SyncError.later; [exact I|apply in_or_app; right; left; reflexivity]).
    apply lt_B2R in K; [lra|apply Q'; rewrite E; apply in_or_app; left; exact Hb''|apply Q'; rewrite E; apply in_or_app; right; left; reflexivity].
Qed.

(** ** Operands *)
Fixpoint parts (e : expr B64) : list (expr B64) :=
  match e with
  | EAnd l | EOr l => l
  | ENot e => map ENot (parts e)
  | _ => [e]
  end.
Definition tmp (p : bool) (e : expr B64) (i : interval B64) : expr B64 := if p then EAlways e i else EEventually e i.

Lemma chain_not e : chain (ENot e) = chain e.
Proof. reflexivity. Qed.
Lemma chain_tmp p e i : chain (tmp p e i) = chain e.
Proof. destruct p; reflexivity. Qed.
Lemma chain_inv e : chain e = true -> free_of is_const e = true /\ free_of is_andor e = true /\ free_of is_until e = true.
Proof. unfold chain. intros H. apply andb_prop in H as [H H3]. apply andb_prop in H as [H1 H2]. auto. Qed.

Lemma parts_chain e : forall p, one_level p e = true -> forall f, In f (parts e) -> chain f = true.
Proof.
  induction e using expr_rec; intros p L f Hf; cbn [one_level parts] in *; try (destruct Hf as [<-|[]]; exact L).
  - apply in_map_iff in Hf as (g & <- & Hg). rewrite chain_not. eapply IHe; eauto.
  - apply andb_prop in L as [_ L]. rewrite forallb_forall in L. apply L, Hf.
  - apply andb_prop in L as [_ L]. rewrite forallb_forall in L. apply L, Hf.
Qed.
Lemma parts_some e : forall p, one_level p e = true -> parts e <> [].
Proof.
  induction e using expr_rec; intros p L; cbn [one_level parts] in *; try discriminate.
  - specialize (IHe _ L). destruct (parts e); [congruence|discriminate].
  - apply andb_prop in L as [L _]. apply andb_prop in L as [_ L]. destruct l; [discriminate L|discriminate].
  - apply andb_prop in L as [L _]. apply andb_prop in L as [_ L]. destruct l; [discriminate L|discriminate].
Qed.
Lemma parts_names e f n : In f (parts e) -> In n (names f) -> In n (names e).
Proof.
  revert f. induction e using expr_rec; intros f Hf Hn; cbn [parts] in Hf; try (destruct Hf as [<-|[]]; exact Hn).
  - apply in_map_iff in Hf as (g & <- & Hg). cbn [names] in *. eapply IHe; eauto.
  - apply in_flat_map. eauto.
  - apply in_flat_map. eauto.
Qed.
Lemma parts_subs e f g : In f (parts e) -> In g (subs f) -> (exists h, In h (subs e) /\ match g with ENot _ => True | _ => h = g end).
Proof.
  revert f. induction e using expr_rec; intros f Hf Hg; cbn [parts] in Hf; try (destruct Hf as [<-|[]]; exists g; split; [exact Hg|destruct g; auto]; fail).
  - apply in_map_iff in Hf as (f' & <- & Hf). cbn [subs] in Hg. destruct Hg as [<-|Hg].
    + exists (ENot e). split; [left; reflexivity|exact Logic.I].
    + destruct (IHe f' Hf Hg) as (h & Hh & E). exists h. split; [right; exact Hh|exact E].
  - exists g. split; [right; apply in_flat_map; eauto|destruct g; auto].
  - exists g. split; [right; apply in_flat_map; eauto|destruct g; auto].
Qed.

(** ** The trace *)
Section Uni.
Variables (dbg : bool) (fuel : nat) (tr : trace B64) (V T : R).
Hypothesis U : keys_unique tr.
Hypothesis G : Forall (fun e => wf (snd e) /\ snd e <> []) tr.
Hypothesis UN : uniform tr.
Hypothesis MO : moderate V T tr.
Hypothesis HV : 0 <= V.
Hypothesis HT : 0 <= T.
Hypothesis HB : 4 * V <= big.
Let tol := tolerance (4 * V) T.
Let r0 := mkRob (trace_begin tr) (trace_end tr) tr.

Definition base (g : B64) : Prop := exists n x a, has_signal tr n x /\ In a x /\ g = s_time a.
Definition runs (e : expr B64) (x : signal B64) : Prop := compute dbg fuel r0 e = Ok x.
Definition known (e : expr B64) : Prop := forall n, In n (names e) -> exists x, has_signal tr n x.

Lemma tol_pos : 0 <= tol.
Proof.
  unfold tol, tolerance. pose proof (bpow_gt_0 radix2 (-49)). pose proof (bpow_gt_0 radix2 (-1073)).
  apply Rplus_le_le_0_compat; apply Rmult_le_pos; lra.
Qed.
Lemma tol_ulp r : Rabs r <= 4 * V -> bpow radix2 (-53) * Rabs r <= tol.
Proof.
  intros H. unfold tol, tolerance. assert (bpow radix2 (-53) <= bpow radix2 (-49)) by (apply bpow_le; lia).
  pose proof (bpow_gt_0 radix2 (-53)). pose proof (bpow_gt_0 radix2 (-1073)).
  assert (0 <= bpow radix2 (-1073) * (T + 1)) by (apply Rmult_le_pos; lra).
  assert (bpow radix2 (-53) * Rabs r <= bpow radix2 (-49) * (4 * V)) by (apply Rmult_le_compat; try lra; apply Rabs_pos). lra.
Qed.
Lemma G3 : Forall (fun e => wf (snd e) /\ snd e <> [] /\ Forall (fun a => finite (s_time a) = true /\ finite (s_value a) = true) (snd e)) tr.
Proof.
  rewrite Forall_forall in *. intros [n x] H. destruct (G _ H) as (W & N). split; [exact W|]. split; [exact N|].
  apply Forall_forall. intros a Ha. destruct (proj1 (MO n x H) a Ha) as (A & B & _). auto.
Qed.
Lemma sig_good n x : has_signal tr n x -> good x.
Proof. intros H. exact (proj1 (Forall_forall _ _) G _ H). Qed.
Lemma sig_unique n x y : has_signal tr n x -> has_signal tr n y -> x = y.
Proof. intros H1 H2. assert (T1 := proj2 (trace_find_iff tr n x U) H1). assert (T2 := proj2 (trace_find_iff tr n y U) H2). congruence. Qed.
Lemma base_finite g : base g -> finite g = true.
Proof. intros (n & x & a & H & Ha & ->). apply (proj1 (MO n x H) a Ha). Qed.
Lemma neqb_B2R (g h : B64) : finite g = true -> finite h = true -> neqb g h = true -> B2R g = B2R h.
Proof. intros Fg Fh E. apply (time_eq h (mkSample g nzero nzero)); assumption. Qed.
Lemma base_in n x g : has_signal tr n x -> base g -> exists a, In a x /\ neqb (s_time a) g = true /\ B2R (s_time a) = B2R g.
Proof.
  intros H (m & y & b & Hy & Hb & ->). destruct (UN m n y x b Hy H Hb) as (a & Ha & E). exists a. split; [exact Ha|]. split; [exact E|].
  apply neqb_B2R; [apply (proj1 (MO n x H) a Ha)|apply (proj1 (MO m y Hy) b Hb)|exact E].
Qed.

(** All times lie within [T] of the first one of some signal. *)
Variable lo : R.
Hypothesis Hlo : forall n x a, has_signal tr n x -> In a x -> lo <= B2R (s_time a) <= lo + T.

(** *** Chains *)
Lemma exact_bound f : chain f = true -> constants_within V f -> forall w, Forall (fun v => Rabs v <= V) w -> Rabs (exact_samples f w) <= 2 * V.
Proof.
  assert (ZERO : Rabs 0 <= 2 * V) by (rewrite Rabs_R0; lra).
  assert (TAILS : forall (e : expr B64) w, (forall w, Forall (fun v => Rabs v <= V) w -> Rabs (exact_samples e w) <= 2 * V) -> Forall (fun v => Rabs v <= V) w ->
    forall v, In v (map (exact_samples e) (tails w)) -> Rabs v <= 2 * V).
  { intros e w K F v Hv. apply in_map_iff in Hv as (s & <- & Hs). apply K. apply tails_in in Hs as (_ & m & ->). apply Forall_app in F. apply F. }
  induction f using expr_rec; intros C W w Fw; cbn [exact_samples]; try exact ZERO.
  - destruct w as [|v w]; [exact ZERO|]. inversion Fw as [|? ? Hv _]; subst. destruct (W _ (or_introl eq_refl)) as (_ & Hc).
    apply Rabs_le. apply Rabs_le_inv in Hv, Hc. destruct o; cbn [exact_pred]; lra.
  - rewrite Rabs_Ropp. apply IHf; auto. intros e He. apply (W e). right. exact He.
  - assert (K : forall v, In v (map (exact_samples f) (tails w)) -> Rabs v <= 2 * V).
    { apply TAILS; [|exact Fw]. apply IHf; auto. intros e He. apply (W e). right. exact He. }
    destruct (map (exact_samples f) (tails w)) as [|a l]; [exact ZERO|]. apply K, least_in. discriminate.
  - assert (K : forall v, In v (map (exact_samples f) (tails w)) -> Rabs v <= 2 * V).
    { apply TAILS; [|exact Fw]. apply IHf; auto. intros e He. apply (W e). right. exact He. }
    destruct (map (exact_samples f) (tails w)) as [|a l]; [exact ZERO|]. rewrite greatest_opp, Rabs_Ropp.
    assert (In (Rleast (map Ropp (a :: l))) (map Ropp (a :: l))) as H by (apply least_in; discriminate).
    apply in_map_iff in H as (v & <- & Hv). rewrite Rabs_Ropp. apply K, Hv.
Qed.

Lemma rounds_finite r v : Rabs r <= bpow radix2 1023 -> rounds_to r v -> finite v = true.
Proof. intros H. unfold rounds_to. rewrite b64_round_rnd, (rnd_fits r H). intros [F _]. exact F. Qed.

Lemma constants_finite f : constants_within V f -> forall e, In e (subs f) -> match e with EPred _ _ c => finite c = true | _ => True end.
Proof. intros W e He. specialize (W e He). destruct e; auto. apply W. Qed.

Lemma split_times (x z : signal B64) : times z = times x -> forall z1 c z2, z = z1 ++ c :: z2 ->
  exists x1 a x2, x = x1 ++ a :: x2 /\ length x1 = length z1 /\ s_time a = s_time c /\ times x2 = times z2.
Proof.
  intros E z1. revert x z E. induction z1 as [|d z1 IH]; intros x z E c z2 ->; destruct x as [|a x]; try discriminate; cbn [app times map] in E; injection E as E1 E2.
  - exists [], a, x. repeat split; auto.
  - destruct (IH x _ E2 c z2 eq_refl) as (x1 & b & x2 & -> & L & Et & E3). exists (a :: x1), b, x2. cbn. auto.
Qed.

Lemma chain_operand f : chain f = true -> constants_within V f -> intervals_made f -> known f ->
  exists y, runs f y /\ operand T lo base (3 * V) y.
Proof.
  intros C W IM K. apply chain_inv in C as (F1 & F2 & F3).
  assert (C : chain f = true) by (unfold chain; rewrite F1, F2, F3; reflexivity).
  destruct (C91_temporal_lemma dbg fuel tr false f U F1 F2 F3 (constants_finite f W) IM K G3) as (n & x & y & A & B & R & D & Q).
  exists y. split; [exact R|]. pose proof (sig_good n x B) as [Wx Nx]. destruct (MO n x B) as (M1 & M2 & M3).
  assert (Gy : good y) by (refine (good_compute b64_win b64_hv dbg fuel tr f _ y R); exact G).
  assert (PT : forall y1 c y2, y = y1 ++ c :: y2 -> exists x1 a x2, x = x1 ++ a :: x2 /\ length x1 = length y1 /\ s_time a = s_time c /\ times x2 = times y2 /\
    finite (s_value c) = true /\ Rabs (B2R (s_value c)) <= 3 * V).
  { intros y1 c y2 Ey. destruct (split_times x y D y1 c y2 Ey) as (x1 & a & x2 & Ex & L & Et & E2). exists x1, a, x2.
    repeat (split; [assumption|]). destruct (Q x1 a x2 y1 c y2 Ex Ey L) as [Q1 Q2].
    set (r := exact_samples f (map (fun b => B2R (s_value b)) (a :: x2))) in *.
    assert (Hr : Rabs r <= 2 * V).
    { apply exact_bound; auto. apply Forall_map, Forall_forall. intros b Hb. apply M1. rewrite Ex. apply in_or_app. right. exact Hb. }
    assert (Fc : finite (s_value c) = true).
    { apply (rounds_finite r); [|exact Q1]. apply Rle_trans with big; [lra|]. unfold big. apply bpow_le. lia. }
    split; [exact Fc|]. specialize (Q2 Fc). fold uu in Q2. pose proof uu_small.
    assert (uu * Rabs r <= / 1000000 * (2 * V)) by (apply Rmult_le_compat; try lra; apply Rabs_pos).
    replace (B2R (s_value c)) with ((B2R (s_value c) - r) + r) by ring. eapply Rle_trans; [apply Rabs_triang|]. lra. }
  assert (P1 : forall c, In c y -> (exists a, In a x /\ s_time a = s_time c) /\ finite (s_value c) = true /\ Rabs (B2R (s_value c)) <= 3 * V).
  { intros c Hc. apply in_split in Hc as (y1 & y2 & E). destruct (PT y1 c y2 E) as (x1 & a & x2 & Ex & _ & Et & _ & F & L). split; [|auto].
    exists a. split; [rewrite Ex; apply in_or_app; right; left; reflexivity|exact Et]. }
  repeat split.
  - apply Gy. - apply Gy. - apply Gy. - apply Gy.
  - destruct (P1 a H) as ((b & Hb & <-) & _). apply (M1 b Hb).
  - apply (P1 a H).
  - destruct (P1 a H) as ((b & Hb & <-) & _). apply (M1 b Hb).
  - apply (P1 a H).
  - intros a b Ha Hb. destruct (P1 a Ha) as ((a' & Ha' & <-) & _). destruct (P1 b Hb) as ((b' & Hb' & <-) & _). apply M2; assumption.
  - intros y1 a b y2 Ey. rewrite (slope_of y1 a b y2) by (rewrite <- Ey; apply Gy).
    destruct (PT y1 a (b :: y2) Ey) as (x1 & a' & x2 & Ex & L & Et & E2 & Fa & La). destruct x2 as [|b' x2]; [discriminate|]. injection E2 as Eb _.
    assert (Ha : In a y) by (rewrite Ey; apply in_or_app; right; left; reflexivity).
    assert (Hb : In b y) by (rewrite Ey; apply in_or_app; right; right; left; reflexivity).
    destruct (P1 b Hb) as (_ & Fb & Lb).
    assert (Ha' : In a' x) by (rewrite Ex; apply in_or_app; right; left; reflexivity).
    assert (Hb' : In b' x) by (rewrite Ex; apply in_or_app; right; right; left; reflexivity).
    specialize (M3 x1 a' b' x2 Ex). rewrite <- Et, <- Eb.
    assert (LT : B2R (s_time a') < B2R (s_time b')).
    { apply lt_B2R; [apply (M1 a' Ha')|apply (M1 b' Hb')|]. apply (SyncError.later x1 a' (b' :: x2)); [|left; reflexivity]. rewrite <- Ex. apply Wx. }
    apply (slope_finite _ _ _ _ (3 * V)); auto; try apply (M1 a' Ha'); try apply (M1 b' Hb'); [lra|].
    apply Rabs_le_inv in La, Lb. eapply Rle_trans; [|exact M3]. apply Rabs_le. lra.
  - destruct (P1 a H) as ((b & Hb & <-) & _). apply (Hlo n x b B Hb).
  - destruct (P1 a H) as ((b & Hb & <-) & _). apply (Hlo n x b B Hb).
  - intros g Hg. destruct (base_in n x g B Hg) as (a & Ha & E & _). apply in_split in Ha as (x1 & x2 & Ex).
    destruct (split_times y x (eq_sym D) x1 a x2 Ex) as (y1 & c & y2 & Ey & _ & Et & _). exists c. split; [rewrite Ey; apply in_or_app; right; left; reflexivity|]. rewrite Et. exact E.
  - intros c Hc. destruct (P1 c Hc) as ((b & Hb & <-) & _). exists n, x, b. auto.
Qed.

(** *** Negation *)
Lemma runs_good e x : runs e x -> good x.
Proof. intros R. refine (good_compute b64_win b64_hv dbg fuel tr e _ x R). exact G. Qed.
Lemma runs_not e z : runs (ENot e) z -> exists y, runs e y /\
  (forall a, In a y -> exists c, In c z /\ s_time c = s_time a /\ s_value c = nopp (s_value a)) /\
  (forall c, In c z -> exists a, In a y /\ s_time c = s_time a /\ s_value c = nopp (s_value a)).
Proof.
  intros R. unfold runs in R. cbn [compute] in R. apply bind_ok_inv in R as (y & R1 & R2). exists y. split; [exact R1|].
  pose proof (runs_good e y R1) as [W _]. unfold rob_not in R2.
  destruct (from_samples_wf (map sample_neg y) z) as (_ & P & _); [|exact R2|].
  { unfold times. rewrite map_map. cbn [sample_neg s_time]. apply W. }
  unfold points in P. rewrite map_map in P. cbn [sample_neg s_time s_value] in P. split.
  - intros a Ha. assert (K : In (s_time a, nopp (s_value a)) (map (fun c => (s_time c, s_value c)) z)) by (rewrite P; apply (in_map (fun a => (s_time a, nopp (s_value a)))), Ha).
    apply in_map_iff in K as (c & E & Hc). injection E as E1 E2. eauto.
  - intros c Hc. assert (K : In (s_time c, s_value c) (map (fun a => (s_time a, nopp (s_value a))) y)) by (rewrite <- P; apply (in_map (fun c => (s_time c, s_value c))), Hc).
    apply in_map_iff in K as (a & E & Ha). injection E as E1 E2. eauto.
Qed.

(** *** One level of And (Or) *)
Definition fine (e : expr B64) : Prop := constants_within V e /\ intervals_made e /\ known e.
Lemma parts_fine e f : fine e -> In f (parts e) -> fine f.
Proof.
  intros (A & B & C) Hf. repeat split.
  - intros g Hg. destruct (parts_subs e f g Hf Hg) as (h & Hh & E). specialize (A h Hh). destruct g; auto; subst; exact A.
  - intros g Hg. destruct (parts_subs e f g Hf Hg) as (h & Hh & E). specialize (B h Hh). destruct g; auto; subst; exact B.
  - intros n Hn. apply C. eapply parts_names; eauto.
Qed.
Lemma fine_not e : fine (ENot e) -> fine e.
Proof.
  intros (A & B & C). split; [|split; [|exact C]].
  - intros g Hg. apply (A g). right. exact Hg.
  - intros g Hg. apply (B g). right. exact Hg.
Qed.

Lemma node_level (p : bool) (l : list (expr B64)) (Z : signal B64) : let e : expr B64 := if p then EAnd l else EOr l in some_operand l = true -> forallb chain l = true -> fine e ->
  3 * V + 2 * tol * INR (length l) <= 4 * V -> runs e Z ->
  tame T (4 * V) Z /\ covers base Z /\
  (forall t m, base t -> (forall f X, In f l -> runs f X -> above (sgp p) t m X) -> above (sgp p) t (m - 2 * tol * INR (length l)) Z) /\
  (forall f X a, In f l -> runs f X -> In a X -> exists c, In c Z /\ B2R (s_time c) = B2R (s_time a) /\ sgp p * B2R (s_value c) <= sgp p * B2R (s_value a)).
Proof.
  intros e SO CH FI HM R. rewrite forallb_forall in CH.
  assert (FL : forall f, In f l -> fine f) by (intros f Hf; apply (parts_fine e); [exact FI|destruct p; exact Hf]).
  assert (exists ys, Forall2 (fun f y => runs f y) l ys /\ minmax_list dbg (comp_of p) false ys = Ok Z) as (ys & F2 & RL).
  { destruct p; unfold e, runs in R; cbn [compute] in R; apply bind_ok_inv in R as (ys & R1 & R2); exists ys; (split; [apply compute_list_inv, R1|exact R2]). }
  assert (OP : Forall (operand T lo base (3 * V)) ys).
  { apply Forall_forall. intros y Hy. destruct (F2_in_r _ _ _ _ F2 Hy) as (f & Hf & Rf). destruct (FL f Hf) as (A & B & C).
    destruct (chain_operand f (CH f Hf) A B C) as (y' & R' & O). unfold runs in *. rewrite Rf in R'. injection R' as <-. exact O. }
  assert (LN : length ys = length l) by (symmetry; eapply F2_length; exact F2).
  assert (NE : ys <> []). { intros ->. destruct l; [discriminate SO|discriminate LN]. }
  destruct (list_bound (4 * V) T lo base p dbg HB base_finite tol_pos (3 * V) ys Z OP NE) as (Gz & Tz & Rz & Cz & Az); [rewrite LN; exact HM|exact RL|].
  split; [exact Tz|]. split; [exact Cz|]. split.
  - intros t m Bt K. rewrite <- LN. apply Az; [apply sgp_cases|exact Bt|]. apply Forall_forall. intros y Hy. destruct (F2_in_r _ _ _ _ F2 Hy) as (f & Hf & Rf). eapply K; eauto.
  - intros f X a Hf Rf Ha. destruct (F2_in_l _ _ _ _ F2 Hf) as (X' & HX & Rf'). unfold runs in Rf, Rf'. rewrite Rf in Rf'. injection Rf' as <-.
    pose proof (proj1 (Forall_forall _ _) OP X HX) as (GX & TX & _ & _ & CX & BX). set (g := s_time a). assert (Bg : base g) by apply BX, Ha.
    assert (exists vs, Forall2 (fun v x => good x /\ hits g v x) vs ys) as (vs & FV).
    { clear - OP Bg. induction OP as [|y ys (Gy & _ & _ & _ & Cy & _) _ (vs & IH)]; [exists []; constructor|].
      destruct (Cy g Bg) as (b & Hb & Eb). exists (s_value b :: vs). constructor; [|exact IH]. split; [exact Gy|]. exists b. auto. }
    destruct vs as [|v vs]; [inversion FV; subst; congruence|].
    destruct (list_hits (comp_of p) (best_of_two p) (best_pick p) dbg g v vs ys Z FV RL) as (c & Hc & Ec & Evc). exists c. split; [exact Hc|].
    assert (FIN : Forall (fun v => finite v = true) (v :: vs)).
    { apply Forall_forall. intros w Hw. destruct (F2_in_l _ _ _ _ FV Hw) as (y & Hy & Gy & (b & Hb & _ & <-)).
      pose proof (proj1 (Forall_forall _ _) OP y Hy) as (_ & (TY & _) & _). apply (TY b Hb). }
    split.
    { apply neqb_B2R; [apply (proj1 Tz c Hc)|apply base_finite, Bg|exact Ec]. }
    rewrite Evc. inversion FIN as [|? ? Fv Fvs]; subst. apply (best_fold p vs Fvs v Fv).
    destruct (F2_in_r _ _ _ _ FV HX) as (w & Hw & _ & (b & Hb & Eb & Ew)).
    assert (b = a) as -> by (apply (wf_unique X); [apply GX|exact Hb|exact Ha|exact Eb]). subst w. exact Hw.
Qed.

Lemma level e : forall p Z, one_level p e = true -> fine e -> 3 * V + 2 * tol * INR (length (parts e)) <= 4 * V -> runs e Z ->
  tame T (4 * V) Z /\ covers base Z /\
  (forall t m, base t -> (forall f X, In f (parts e) -> runs f X -> above (sgp p) t m X) -> above (sgp p) t (m - 2 * tol * INR (length (parts e))) Z) /\
  (forall f X a, In f (parts e) -> runs f X -> In a X -> exists c, In c Z /\ B2R (s_time c) = B2R (s_time a) /\ sgp p * B2R (s_value c) <= sgp p * B2R (s_value a)).
Proof.
  assert (CH : forall e p Z, chain e = true -> parts e = [e] -> fine e -> runs e Z ->
    tame T (4 * V) Z /\ covers base Z /\
    (forall t m, base t -> (forall f X, In f (parts e) -> runs f X -> above (sgp p) t m X) -> above (sgp p) t (m - 2 * tol * INR (length (parts e))) Z) /\
    (forall f X a, In f (parts e) -> runs f X -> In a X -> exists c, In c Z /\ B2R (s_time c) = B2R (s_time a) /\ sgp p * B2R (s_value c) <= sgp p * B2R (s_value a))).
  { clear e. intros e p Z C E (A & B & K) R. rewrite E. destruct (chain_operand e C A B K) as (y & Ry & O). unfold runs in *. rewrite R in Ry. injection Ry as <-.
    destruct O as (_ & TZ & _ & _ & CZ & _). split; [|split; [exact CZ|split]].
    - split; [|apply TZ]. intros a Ha. destruct (proj1 TZ a Ha) as (Q1 & Q2 & Q3 & Q4). repeat split; auto. lra.
    - intros t m _ H a Ha L. specialize (H e Z (or_introl eq_refl) R a Ha L). pose proof tol_pos. cbn [length INR]. lra.
    - intros f X a [<-|[]] RX Ha. rewrite R in RX. injection RX as <-. exists a. split; [exact Ha|]. lra. }
  induction e using expr_rec; intros p Z L FI HM R; try (apply CH; auto; fail).
  - cbn [one_level parts] in *. rewrite map_length in *.
    destruct (runs_not e Z R) as (Y & RY & N1 & N2).
    destruct (IHe (negb p) Y L (fine_not e FI) HM RY) as (TY & CY & AY & LY).
    assert (FF : forall f, In f (parts e) -> exists X', runs (ENot f) X').
    { intros f Hf. destruct (parts_fine (ENot e) (ENot f) FI) as (A & B & K); [apply in_map, Hf|].
      destruct (chain_operand (ENot f)) as (X' & RX & _); auto; [|eauto]. rewrite chain_not. eapply parts_chain; eauto. }
    split; [|split; [|split]].
    + destruct TY as (T1 & T2). split.
      * intros c Hc. destruct (N2 c Hc) as (a & Ha & -> & ->). rewrite finite_nopp, B2R_nopp, Rabs_Ropp. apply T1, Ha.
      * intros c d Hc Hd. destruct (N2 c Hc) as (a & Ha & -> & _). destruct (N2 d Hd) as (b & Hb & -> & _). apply T2; assumption.
    + intros g Hg. destruct (CY g Hg) as (a & Ha & E). destruct (N1 a Ha) as (c & Hc & Et & _). exists c. rewrite Et. auto.
    + intros t m Bt H c Hc Hle. destruct (N2 c Hc) as (a & Ha & Et & Ev). rewrite Ev, B2R_nopp. rewrite Et in Hle.
      assert (K : m - 2 * tol * INR (length (parts e)) <= sgp (negb p) * B2R (s_value a)).
      { apply (AY t m Bt); [|exact Ha|exact Hle]. intros f X Hf RX b Hb Lb. destruct (FF f Hf) as (X' & RX').
        destruct (runs_not f X' RX') as (X2 & RX2 & M1 & M2). unfold runs in RX, RX2. rewrite RX in RX2. injection RX2 as <-.
        destruct (M1 b Hb) as (d & Hd & Td & Vd). specialize (H (ENot f) X' (in_map ENot _ _ Hf) RX' d Hd). rewrite Td in H. specialize (H Lb).
        rewrite Vd, B2R_nopp in H. rewrite sgp_negb. lra. }
      rewrite sgp_negb in K. lra.
    + intros f' X' a Hf' RX' Ha. apply in_map_iff in Hf' as (f & <- & Hf). destruct (runs_not f X' RX') as (X & RX & M1 & M2).
      destruct (M2 a Ha) as (b & Hb & Tb & Vb). destruct (LY f X b Hf RX Hb) as (c & Hc & Tc & Lc). destruct (N1 c Hc) as (d & Hd & Td & Vd).
      exists d. split; [exact Hd|]. rewrite Td, Tb, Tc. split; [reflexivity|]. rewrite Vd, Vb, !B2R_nopp. rewrite sgp_negb in Lc. lra.
  - cbn [one_level] in L. apply andb_prop in L as [L L3]. apply andb_prop in L as [L1 L2]. destruct p; [|discriminate]. apply (node_level true); assumption.
  - cbn [one_level] in L. apply andb_prop in L as [L L3]. apply andb_prop in L as [L1 L2]. destruct p; [discriminate|]. apply (node_level false); assumption.
Qed.

(** *** Semantics *)
Let lt := real_trace tr.
Lemma flat_rob e : forall p t v, one_level p e = true -> rob lt (real_formula e) t v <-> family p (map (fun f => rob lt (real_formula f)) (parts e)) t v.
Proof.
  assert (ONE : forall p (P : R -> R -> Prop) t v, P t v <-> family p [P] t v).
  { intros p P t v. split.
    - intros H. split; [exists P; split; [left; reflexivity|exact H]|]. intros Q [<-|[]]. exists v. split; [exact H|lra].
    - intros ((Q & [<-|[]] & H) & _). exact H. }
  induction e using expr_rec; intros p t v L; try (apply (ONE p); fail).
  - cbn [one_level parts real_formula rob] in *. rewrite (IHe _ _ _ L), !map_map. cbn [real_formula rob]. rewrite <- (map_map (fun f => rob lt (real_formula f)) (fun P t v => P t (- v))).
    unfold family. rewrite sgp_negb. split; intros [(P & HP & H1) H2].
    + split; [exists (fun t v => P t (- v)); split; [apply (in_map (fun (P : R -> R -> Prop) t v => P t (- v))), HP|exact H1]|].
      intros Q HQ. apply in_map_iff in HQ as (P' & <- & HP'). destruct (H2 P' HP') as (w & Hw & Lw). exists (- w). rewrite Ropp_involutive. split; [exact Hw|lra].
    + apply in_map_iff in HP as (P' & <- & HP'). split; [exists P'; auto|]. intros Q HQ.
      destruct (H2 _ (in_map (fun (P : R -> R -> Prop) t v => P t (- v)) _ _ HQ)) as (w & Hw & Lw). exists (- w). split; [exact Hw|lra].
  - cbn [one_level] in L. apply andb_prop in L as [L _]. apply andb_prop in L as [L _]. destruct p; [|discriminate].
    cbn [real_formula parts]. change (EAnd (map real_formula l)) with (node true (map real_formula l)). rewrite rob_node, map_map. reflexivity.
  - cbn [one_level] in L. apply andb_prop in L as [L _]. apply andb_prop in L as [L _]. destruct p; [discriminate|].
    cbn [real_formula parts]. change (EOr (map real_formula l)) with (node false (map real_formula l)). rewrite rob_node, map_map. reflexivity.
Qed.
Definition all_or_some (p : bool) (Q : expr B64 -> Prop) (l : list (expr B64)) : Prop :=
  if p then forall f, In f l -> Q f else exists f, In f l /\ Q f.
Lemma flat_sat e : forall p t, one_level p e = true -> sat lt (real_formula e) t <-> all_or_some p (fun f => sat lt (real_formula f) t) (parts e).
Proof.
  assert (ONE : forall p e t, sat lt (real_formula e) t <-> all_or_some p (fun f => sat lt (real_formula f) t) [e]).
  { intros [|] e' t; cbn [all_or_some]; split.
    - intros H f [<-|[]]. exact H. - intros H. apply H. left. reflexivity.
    - intros H. exists e'. split; [left; reflexivity|exact H]. - intros (f & [<-|[]] & H). exact H. }
  induction e using expr_rec; intros p t L; try (apply ONE; fail).
  - cbn [one_level parts real_formula sat] in *. rewrite (IHe _ t L). destruct p; cbn [negb all_or_some]; split.
    + intros H f Hf. apply in_map_iff in Hf as (g & <- & Hg). cbn [real_formula sat]. intros K. apply H. eauto.
    + intros H (g & Hg & K). exact (H (ENot g) (in_map ENot _ _ Hg) K).
    + intros H. apply NNPP. intros K. apply H. intros g Hg. apply NNPP. intros Q. apply K. exists (ENot g). split; [apply in_map, Hg|exact Q].
    + intros (f & Hf & K) H. apply in_map_iff in Hf as (g & <- & Hg). apply K, H, Hg.
  - cbn [one_level] in L. apply andb_prop in L as [L _]. apply andb_prop in L as [L _]. destruct p; [|discriminate].
    cbn [real_formula parts sat all_or_some]. rewrite !map_map, Forall_map, Forall_forall. reflexivity.
  - cbn [one_level] in L. apply andb_prop in L as [L _]. apply andb_prop in L as [L _]. destruct p; [discriminate|].
    cbn [real_formula parts sat all_or_some]. rewrite !map_map, Exists_exists. split.
    + intros (P & HP & K). apply in_map_iff in HP as (f & <- & Hf). eauto.
    + intros (f & Hf & K). exists (sat lt (real_formula f)). split; [apply (in_map (fun x => sat lt (real_formula x))), Hf|exact K].
Qed.

Lemma sig_rincr n x : has_signal tr n x -> rincr (reals x).
Proof. intros H. pose proof (proj1 (Forall_forall _ _) G3 _ H) as (W & _ & Q). apply reals_rincr; assumption. Qed.
Lemma dom_mono n m x y t : has_signal tr n x -> has_signal tr m y -> (exists v, value_at lt n t v) -> exists v, value_at lt m t v.
Proof.
  intros Hx Hy (v & Hv). apply (values_of tr U n x Hx) in Hv.
  destruct (proj1 (pwl_dom (reals x) t (sig_rincr n x Hx)) (ex_intro _ v Hv)) as (p & q & Hp & Hq & L).
  apply in_map_iff in Hp as (a & <- & Ha). apply in_map_iff in Hq as (b & <- & Hb). cbn [fst] in L.
  destruct (base_in m y (s_time a) Hy) as (a' & Ha' & _ & Ea); [exists n, x, a; auto|].
  destruct (base_in m y (s_time b) Hy) as (b' & Hb' & _ & Eb); [exists n, x, b; auto|].
  destruct (proj2 (pwl_dom (reals y) t (sig_rincr m y Hy))) as (w & Hw).
  { exists (B2R (s_time a'), B2R (s_value a')), (B2R (s_time b'), B2R (s_value b')). split; [|split; [|cbn [fst]; lra]].
    - apply (in_map (fun a => (B2R (s_time a), B2R (s_value a)))), Ha'.
    - apply (in_map (fun a => (B2R (s_time a), B2R (s_value a)))), Hb'. }
  exists w. apply (values_of tr U m y Hy), Hw.
Qed.
Lemma base_inside e g : known e -> base g -> inside lt (real_formula e) (B2R g).
Proof.
  intros K Hg n Hn. rewrite names_real in Hn. destruct (K n Hn) as (x & Hx). destruct (base_in n x g Hx Hg) as (a & Ha & _ & E).
  exists (B2R (s_value a)). apply (values_of tr U n x Hx). left. exists (B2R (s_time a), B2R (s_value a)). split; [|cbn [fst snd]; auto].
  apply (in_map (fun a => (B2R (s_time a), B2R (s_value a)))), Ha.
Qed.
Lemma inside_known e f t n : known e -> In n (names f) -> known f -> inside lt (real_formula f) t -> inside lt (real_formula e) t.
Proof.
  intros Ke Hn Kf H m Hm. rewrite names_real in Hm. destruct (Ke m Hm) as (y & Hy). destruct (Kf n Hn) as (x & Hx).
  apply (dom_mono n m x y t Hx Hy). apply H. rewrite names_real. exact Hn.
Qed.

Lemma chain_name f : chain f = true -> fine f -> exists n x, names f = [n] /\ has_signal tr n x /\
  tracks (reals x) (rob lt (real_formula f)) (fun w => exact_samples f (map snd w)).
Proof.
  intros C (A & B & K). apply chain_inv in C as (F1 & F2 & F3).
  destruct (C91_temporal_lemma dbg fuel tr false f U F1 F2 F3 (constants_finite f A) B K G3) as (n & x & y & N & X & _).
  exists n, x. split; [exact N|]. split; [exact X|]. apply (chain_tracks lt n (reals x) f (sig_rincr n x X) (values_of tr U n x X) N F1 F2 F3).
Qed.
Lemma chain_defined f g : chain f = true -> fine f -> base g -> exists w, rob lt (real_formula f) (B2R g) w.
Proof.
  intros C FI Hg. destruct (chain_name f C FI) as (n & x & _ & X & (K & _)). destruct (base_in n x g X Hg) as (a & Ha & _ & E).
  apply in_split in Ha as (x1 & x2 & Ex). assert (El : reals x = reals x1 ++ (B2R (s_time a), B2R (s_value a)) :: reals x2) by (rewrite Ex; unfold reals; rewrite map_app; reflexivity).
  specialize (K _ _ _ El). cbn [fst] in K. rewrite E in K. eauto.
Qed.

Lemma real_tmp p e i : real_formula (tmp p e i) = unbounded p (real_formula e) interval_default.
Proof. destruct p; reflexivity. Qed.
Lemma names_tmp p e i : names (tmp p e i) = names e.
Proof. destruct p; reflexivity. Qed.

(** The extreme of a chain from a sample on is attained at a sample. *)
Lemma attain p f i g r : chain f = true -> fine f -> base g -> rob lt (real_formula (tmp p f i)) (B2R g) r ->
  exists u, base u /\ B2R g <= B2R u /\ rob lt (real_formula f) (B2R u) r.
Proof.
  intros C FI Hg H. rewrite real_tmp in H. apply rob_unbounded in H as (_ & (t & Ht & Hr) & LE).
  destruct (chain_name f C FI) as (n & x & _ & X & (K1 & K2)).
  assert (PT : forall l1 q l2, reals x = l1 ++ q :: l2 -> exists u, base u /\ B2R u = fst q).
  { intros l1 q l2 E. assert (Hq : In q (reals x)) by (rewrite E; apply in_or_app; right; left; reflexivity).
    apply in_map_iff in Hq as (a & <- & Ha). exists (s_time a). split; [exists n, x, a; auto|reflexivity]. }
  destruct (K2 t r Hr) as [(l1 & q & l2 & E & -> & ->)|(l1 & q & q' & l2 & E & L & W)].
  - destruct (PT _ _ _ E) as (u & Hu & Eu). exists u. rewrite Eu. auto.
  - assert (E' : reals x = (l1 ++ [q]) ++ q' :: l2) by (rewrite <- app_assoc; exact E).
    destruct (PT _ _ _ E) as (u & Hu & Eu). destruct (PT _ _ _ E') as (u' & Hu' & Eu').
    pose proof (K1 _ _ _ E) as R1. pose proof (K1 _ _ _ E') as R2.
    assert (Gq : B2R g <= fst q).
    { destruct (base_in n x g X Hg) as (a & Ha & _ & Ea). pose proof (sig_rincr n x X) as I. rewrite E in I.
      assert (Hin : In (B2R (s_time a), B2R (s_value a)) (reals x)) by apply (in_map (fun a => (B2R (s_time a), B2R (s_value a)))), Ha.
      rewrite E in Hin. apply rincr_app in I as (_ & I & I2). apply in_app_or in Hin as [Hin|[Hin|[Hin|Hin]]].
      - specialize (I2 _ q Hin (or_introl eq_refl)). cbn [fst] in I2. lra.
      - rewrite Hin. cbn [fst]. lra.
      - rewrite Hin in L. cbn [fst] in L. lra.
      - apply rincr_cons in I as (I & _). apply rincr_cons in I as (_ & I). rewrite Forall_forall in I. specialize (I _ Hin). cbn [fst] in I. lra. }
    pose proof (LE _ _ Gq R1) as L1. assert (Gq' : B2R g <= fst q') by lra. pose proof (LE _ _ Gq' R2) as L2.
    set (w1 := exact_samples f (map snd (q :: q' :: l2))) in *. set (w2 := exact_samples f (map snd (q' :: l2))) in *.
    assert (r = w1 \/ r = w2) as [-> | ->].
    { unfold Rmin, Rmax in W. destruct p; cbn [sgp] in L1, L2; destruct (Rle_dec w1 w2); [left|right|right|left]; lra. }
    + exists u. rewrite Eu. auto.
    + exists u'. rewrite Eu'. auto.
Qed.

Lemma temporal_rob p e i g r rs : one_level p e = true -> fine e -> base g ->
  Forall2 (fun f r => rob lt (real_formula (tmp p f i)) (B2R g) r) (parts e) rs -> In r rs -> (forall r', In r' rs -> sgp p * r <= sgp p * r') ->
  rob lt (real_formula (tmp p e i)) (B2R g) r.
Proof.
  intros L FI Hg F Hr Hle. rewrite real_tmp. apply rob_unbounded.
  assert (LOW : forall f t w, In f (parts e) -> B2R g <= t -> rob lt (real_formula f) t w -> sgp p * r <= sgp p * w).
  { intros f t w Hf Ht Hw. destruct (F2_in_l _ _ _ _ F Hf) as (r' & Hr' & Q). rewrite real_tmp in Q. apply rob_unbounded in Q as (_ & _ & Q).
    specialize (Q t w Ht Hw). specialize (Hle r' Hr'). lra. }
  split; [apply base_inside; [apply FI|exact Hg]|]. split.
  - destruct (F2_in_r _ _ _ _ F Hr) as (f & Hf & Q).
    destruct (attain p f i g r (parts_chain e p L f Hf) (parts_fine e f FI Hf) Hg Q) as (u & Hu & Lu & Ru).
    exists (B2R u). split; [exact Lu|]. apply (flat_rob e p _ _ L). split.
    + exists (rob lt (real_formula f)). split; [apply (in_map (fun f => rob lt (real_formula f))), Hf|exact Ru].
    + intros P HP. apply in_map_iff in HP as (f' & <- & Hf').
      destruct (chain_defined f' u (parts_chain e p L f' Hf') (parts_fine e f' FI Hf') Hu) as (w & Hw). exists w. split; [exact Hw|]. apply (LOW f' (B2R u)); assumption.
  - intros t w Ht Hw. apply (flat_rob e p _ _ L) in Hw as ((P & HP & Q) & _). apply in_map_iff in HP as (f & <- & Hf). apply (LOW f t); assumption.
Qed.

Lemma temporal_sat p e i t : one_level p e = true -> fine e ->
  sat lt (real_formula (tmp p e i)) t <-> all_or_some p (fun f => sat lt (real_formula (tmp p f i)) t) (parts e).
Proof.
  intros L FI.
  assert (IN : forall f t, In f (parts e) -> inside lt (real_formula f) t <-> inside lt (real_formula e) t).
  { intros f u Hf. pose proof (parts_fine e f FI Hf) as FF. destruct (chain_name f (parts_chain e p L f Hf) FF) as (n & x & N & _).
    assert (Hn : In n (names f)) by (rewrite N; left; reflexivity). split; intros H.
    - apply (inside_known e f u n); auto; [apply FI|apply FF].
    - apply (inside_known f e u n); auto; [apply FF|eapply parts_names; eauto|apply FI]. }
  pose proof (fun u => flat_sat e p u L) as FS.
  destruct p; cbn [tmp real_formula sat all_or_some] in *; split.
  - intros H f Hf u Hu Hi. apply (proj1 (FS u)); [|exact Hf]. apply H; [exact Hu|]. apply (IN f u Hf), Hi.
  - intros H u Hu Hi. apply (FS u). intros f Hf. apply (H f Hf u Hu). apply (IN f u Hf), Hi.
  - intros (u & Hu & Hi & Hs). apply (FS u) in Hs as (f & Hf & Hs). exists f. split; [exact Hf|]. exists u. split; [exact Hu|]. split; [apply (IN f u Hf), Hi|exact Hs].
  - intros (f & Hf & u & Hu & Hi & Hs). exists u. split; [exact Hu|]. split; [apply (IN f u Hf), Hi|]. apply (FS u). exists f. auto.
Qed.

(** *** A temporal operator *)
Lemma tame_ftime B x : tame T B x -> ftime x.
Proof. intros (A & _). apply Forall_forall. intros a Ha. apply (A a Ha). Qed.
Lemma tame_finite B x : tame T B x -> Forall (fun a => finite (s_time a) = true /\ finite (s_value a) = true) x.
Proof. intros (A & _). apply Forall_forall. intros a Ha. destruct (A a Ha) as (H1 & H2 & _). auto. Qed.
Lemma runs_tmp p e i z : runs (tmp p e i) z -> exists y, runs e y /\ rob_temporal fuel (comp_of p) i y = Ok z.
Proof. intros R. destruct p; unfold runs in R; cbn [tmp compute] in R; apply bind_ok_inv in R as (y & R1 & R2); eauto. Qed.
Lemma fine_tmp p e i : fine (tmp p e i) -> fine e /\ made_interval i.
Proof.
  intros (A & B & C). split; [split; [|split]|].
  - intros f Hf. apply (A f). destruct p; right; exact Hf.
  - intros f Hf. apply (B f). destruct p; right; exact Hf.
  - intros n Hn. apply C. rewrite names_tmp. exact Hn.
  - assert (H : In (tmp p e i) (subs (tmp p e i))) by (destruct p; left; reflexivity). specialize (B _ H). destruct p; exact B.
Qed.
Lemma fine_tmp_of p f i : fine f -> made_interval i -> fine (tmp p f i).
Proof.
  intros (A & B & C) M. split; [|split].
  - intros e He. assert (e = tmp p f i \/ In e (subs f)) as [->|He'] by (destruct p; destruct He as [<-|He]; auto); [destruct p; exact Logic.I|apply (A e He')].
  - intros e He. assert (e = tmp p f i \/ In e (subs f)) as [->|He'] by (destruct p; destruct He as [<-|He]; auto); [destruct p; exact M|apply (B e He')].
  - intros n Hn. rewrite names_tmp in Hn. apply C, Hn.
Qed.

Definition part_ok (p : bool) (i : interval B64) (g : B64) (f : expr B64) (d : B64 * R) : Prop :=
  let (v, r) := d in exists X, runs f X /\ finite v = true /\ verdict tr g (tmp p f i) r /\ Rabs (B2R v - r) <= tol /\ (0 < B2R v -> 0 < r) /\ (B2R v < 0 -> r < 0) /\
  (exists b, In b X /\ B2R g <= B2R (s_time b) /\ v = s_value b) /\ (forall b, In b X -> B2R g <= B2R (s_time b) -> sgp p * B2R v <= sgp p * B2R (s_value b)).

Lemma part_at p f i g : chain f = true -> fine f -> made_interval i -> base g -> exists d, part_ok p i g f d.
Proof.
  intros C FI M Hg. pose proof (fine_tmp_of p f i FI M) as FT.
  destruct (chain_operand f C) as (X & RX & (GX & TX & _ & _ & CX & _)); try apply FI.
  assert (C' : chain (tmp p f i) = true) by (rewrite chain_tmp; exact C).
  destruct (chain_operand (tmp p f i) C') as (z & Rz & (Gz & _)); try apply FT.
  destruct (runs_tmp p f i z Rz) as (X' & RX' & Hz). unfold runs in RX, RX'. rewrite RX in RX'. injection RX' as <-.
  rewrite (temporal_seq fuel (comp_of p) i X GX (tame_ftime _ _ TX) M) in Hz.
  destruct (CX g Hg) as (a & Ha & Ea). destruct (seq_at p X z a (proj1 GX) (tame_finite _ _ TX) Hz Ha) as (c & Hc & Tc & (b & Hb & Lb & Vb) & LE).
  assert (Eag : B2R (s_time a) = B2R g) by (apply neqb_B2R; [apply (proj1 TX a Ha)|apply base_finite, Hg|exact Ea]). rewrite Eag in Lb, LE.
  apply chain_inv in C' as (F1 & F2 & F3).
  destruct (chain_at dbg fuel tr g U G3 (tmp p f i) F1 F2 F3 (constants_finite _ (proj1 FT)) (proj1 (proj2 FT))) with (z := z) as (v & (c' & Hc' & Ec' & Ev) & r & Vr & Nr & Dr).
  { intros n Hn. destruct (proj2 (proj2 FT) n Hn) as (x & Hx). destruct (base_in n x g Hx Hg) as (a' & Ha' & E & _). eauto. }
  { exact Rz. }
  assert (c' = c). { apply (wf_unique z); [apply Gz|exact Hc'|exact Hc|]. rewrite Tc. num. } subst c'.
  assert (Fv : finite v = true) by (rewrite <- Ev, Vb; apply (proj1 TX b Hb)).
  assert (Bv : Rabs (B2R v) <= 3 * V) by (rewrite <- Ev, Vb; apply (proj1 TX b Hb)).
  assert (ERR : Rabs (B2R v - r) <= bpow radix2 (-53) * Rabs r) by (apply difference_error; [exact Dr|apply near_rounds, Nr|exact Fv]).
  exists (v, r). exists X. split; [exact RX|]. split; [exact Fv|]. split; [exact Vr|]. split; [|split; [|split; [|split]]].
  - eapply Rle_trans; [exact ERR|]. apply tol_ulp. fold uu in ERR. pose proof uu_small.
    assert (Rabs r <= Rabs (B2R v) + Rabs (B2R v - r)). { replace r with (B2R v + - (B2R v - r)) at 1 by ring. eapply Rle_trans; [apply Rabs_triang|]. rewrite Rabs_Ropp. lra. }
    assert (uu * Rabs r <= / 1000000 * Rabs r) by (apply Rmult_le_compat_r; [apply Rabs_pos|lra]). pose proof (Rabs_pos r). lra.
  - intros H. destruct (sign_kept r v (proj1 Nr) (proj1 (near_rounds _ _) Nr) (fun _ => ERR)) as [S1 _]. apply S1.
    apply B2R_lt; [reflexivity|exact Fv|exact H].
  - intros H. destruct (sign_kept r v (proj1 Nr) (proj1 (near_rounds _ _) Nr) (fun _ => ERR)) as [_ S2]. apply S2.
    apply B2R_lt; [exact Fv|reflexivity|exact H].
  - exists b. split; [exact Hb|]. split; [exact Lb|congruence].
  - intros b' Hb' Lb'. rewrite <- Ev. apply LE; assumption.
Qed.

Lemma pick_parts p i g l : (forall f, In f l -> exists d, part_ok p i g f d) -> exists ds, Forall2 (part_ok p i g) l ds.
Proof.
  induction l as [|f l IH]; intros H; [exists []; constructor|]. destruct (H f (or_introl eq_refl)) as (d & Hd).
  destruct IH as (ds & Hds); [intros f' Hf'; apply H; right; exact Hf'|]. exists (d :: ds). constructor; assumption.
Qed.

Lemma temporal_at p e i g z : one_level p e = true -> fine (tmp p e i) -> base g -> 2 * tol * INR (length (parts e)) <= V -> runs (tmp p e i) z ->
  exists c r, In c z /\ neqb (s_time c) g = true /\ finite (s_value c) = true /\ verdict tr g (tmp p e i) r /\
    Rabs (B2R (s_value c) - r) <= (2 * INR (length (parts e)) + 1) * tol /\
    (0 < sgp p * B2R (s_value c) -> if p then sat lt (real_formula (tmp p e i)) (B2R g) else ~ sat lt (real_formula (tmp p e i)) (B2R g)).
Proof.
  intros L FT Hg HN R. destruct (fine_tmp p e i FT) as (FI & M). destruct (runs_tmp p e i z R) as (Z & RZ & Hz).
  destruct (level e p Z L FI ltac:(lra) RZ) as (TZ & CZ & AZ & LZ). pose proof (runs_good e Z RZ) as GZ.
  rewrite (temporal_seq fuel (comp_of p) i Z GZ (tame_ftime _ _ TZ) M) in Hz.
  destruct (CZ g Hg) as (a & Ha & Ea). destruct (seq_at p Z z a (proj1 GZ) (tame_finite _ _ TZ) Hz Ha) as (c & Hc & Tc & (b & Hb & Lb & Vb) & LE).
  assert (Eag : B2R (s_time a) = B2R g) by (apply neqb_B2R; [apply (proj1 TZ a Ha)|apply base_finite, Hg|exact Ea]). rewrite Eag in Lb, LE.
  destruct (pick_parts p i g (parts e)) as (ds & F).
  { intros f Hf. apply part_at; [eapply parts_chain; eauto|eapply parts_fine; eauto|exact M|exact Hg]. }
  assert (ND : ds <> []). { intros ->. inversion F. apply (parts_some e p L). auto. }
  destruct (best_in p (map (fun d => B2R (fst d)) ds)) as (v0 & V1 & V2); [destruct ds; [congruence|discriminate]|].
  destruct (best_in p (map snd ds)) as (r & R1 & R2); [destruct ds; [congruence|discriminate]|].
  apply in_map_iff in V1 as ([v0' rv] & <- & Hv0). cbn [fst] in *. apply in_map_iff in R1 as ([vr r'] & <- & Hr0). cbn [snd] in *.
  destruct (F2_in_r _ _ _ _ F Hv0) as (f0 & Hf0 & (X0 & RX0 & Fv0 & Vv0 & Ev0 & P0 & N0 & (b0 & Hb0 & Lb0 & Eb0) & LL0)).
  destruct (F2_in_r _ _ _ _ F Hr0) as (f1 & Hf1 & (X1 & RX1 & Fv1 & Vv1 & Ev1 & P1 & N1 & _)).
  (* the computed value against the least one of the parts *)
  assert (UP : sgp p * B2R (s_value c) <= sgp p * B2R v0').
  { destruct (LZ f0 X0 b0 Hf0 RX0 Hb0) as (d & Hd & Td & Ld). rewrite Eb0. eapply Rle_trans; [|exact Ld]. apply LE; [exact Hd|lra]. }
  assert (DOWN : sgp p * B2R v0' - 2 * tol * INR (length (parts e)) <= sgp p * B2R (s_value c)).
  { rewrite Vb. apply (AZ g (sgp p * B2R v0') Hg); [|exact Hb|exact Lb]. intros f X Hf RX b' Hb' Lb'.
    destruct (F2_in_l _ _ _ _ F Hf) as ([vf rf] & Hd & (X2 & RX2 & _ & _ & _ & _ & _ & _ & LL)). unfold runs in RX, RX2. rewrite RX in RX2. injection RX2 as <-.
    specialize (LL b' Hb' Lb'). specialize (V2 (B2R vf) (in_map (fun d => B2R (fst d)) _ _ Hd)). lra. }
  (* the least exact one against it *)
  assert (RR : Rabs (B2R v0' - r') <= tol).
  { pose proof (V2 (B2R vr) (in_map (fun d => B2R (fst d)) _ _ Hr0)) as Q1. pose proof (R2 rv (in_map snd _ _ Hv0)) as Q2.
    apply Rabs_le_inv in Ev0, Ev1. apply Rabs_le. destruct p; cbn [sgp] in *; lra. }
  assert (ROB : rob lt (real_formula (tmp p e i)) (B2R g) r').
  { apply (temporal_rob p e i g r' (map snd ds) L FI Hg); [|apply (in_map snd _ _ Hr0)|exact R2].
    clear - F. induction F as [|f [v r] l ds (X & _ & _ & (Vd & _) & _) _ IH]; [constructor|]. cbn [map snd]. constructor; [exact Vd|exact IH]. }
  pose proof (temporal_sat p e i (B2R g) L FI) as TS.
  assert (ALL : forall f, In f (parts e) -> exists (v : B64) r, sgp p * r' <= sgp p * r /\ sgp p * B2R v0' <= sgp p * B2R v /\ verdict tr g (tmp p f i) r /\ (0 < B2R v -> 0 < r) /\ (B2R v < 0 -> r < 0)).
  { intros f Hf. destruct (F2_in_l _ _ _ _ F Hf) as ([vf rf] & Hd & (X2 & _ & _ & Q1 & _ & Q2 & Q3 & _)). exists vf, rf.
    split; [apply R2, (in_map snd _ _ Hd)|]. split; [apply V2, (in_map (fun d => B2R (fst d)) _ _ Hd)|]. auto. }
  exists c, r'. split; [exact Hc|]. split; [rewrite Tc; exact Ea|]. split.
  { rewrite Vb. apply (proj1 TZ b Hb). }
  split; [|split].
  - split; [exact ROB|]. fold lt. destruct p; cbn [sgp all_or_some] in *; split; intros H.
    + apply TS. intros f Hf. destruct (ALL f Hf) as (v & r & Q1 & _ & (_ & Q2 & _) & _). apply Q2. lra.
    + intros K. apply Vv1; [exact H|]. exact (proj1 TS K f1 Hf1).
    + apply TS. exists f1. split; [exact Hf1|]. apply Vv1, H.
    + intros K. apply TS in K as (f & Hf & K). destruct (ALL f Hf) as (v & r & Q1 & _ & (_ & _ & Q2) & _). apply Q2; [lra|exact K].
  - pose proof tol_pos. apply Rabs_le_inv in RR. apply Rabs_le. destruct p; cbn [sgp] in *; lra.
  - intros H. destruct p; cbn [sgp all_or_some] in *.
    + apply TS. intros f Hf. destruct (ALL f Hf) as (v & r & _ & Q0 & (_ & Q2 & _) & Q3 & _). apply Q2, Q3. lra.
    + intros K. apply TS in K as (f & Hf & K). destruct (ALL f Hf) as (v & r & _ & Q0 & (_ & _ & Q2) & _ & Q3). apply Q2; [apply Q3; lra|exact K].
Qed.

(** *** Boolean combinations *)
Definition value_ok (E : R) (g : B64) (phi : expr B64) (v : B64) : Prop := finite v = true /\ exists r, verdict tr g phi r /\ Rabs (B2R v - r) <= E.

Lemma value_not E g e v : value_ok E g e v -> value_ok E g (ENot e) (nopp v).
Proof.
  intros (F & r & (V1 & V2 & V3) & H). split; [rewrite finite_nopp; exact F|]. exists (- r). split; [split; [|split]|].
  - cbn [real_formula rob]. rewrite Ropp_involutive. exact V1.
  - intros K. cbn [real_formula sat]. apply V3. lra.
  - intros K Q. cbn [real_formula sat] in Q. apply Q, V2. lra.
  - rewrite B2R_nopp. replace (- B2R v - - r) with (- (B2R v - r)) by ring. rewrite Rabs_Ropp. exact H.
Qed.
Lemma value_node E g (p : bool) l v vs : Forall2 (value_ok E g) l (v :: vs) -> value_ok E g (if p then EAnd l else EOr l) (fold_left (best_of_two p) vs v).
Proof.
  intros F.
  assert (FIN : Forall (fun w => finite w = true) (v :: vs)).
  { apply Forall_forall. intros w Hw. destruct (F2_in_r _ _ _ _ F Hw) as (f & _ & Q & _). exact Q. }
  inversion FIN as [|? ? Fv Fvs]; subst. destruct (best_fold p vs Fvs v Fv) as (FB & LB & IB). split; [exact FB|].
  set (b := fold_left (best_of_two p) vs v) in *.
  assert (exists ds : list (B64 * R), map fst ds = v :: vs /\ Forall2 (fun f d => verdict tr g f (snd d) /\ Rabs (B2R (fst d) - snd d) <= E) l ds) as (ds & ED & FD).
  { clear - F. revert F. generalize (v :: vs). intros ws F. induction F as [|f w l ws (_ & r & Q1 & Q2) _ (ds & IH1 & IH2)]; [exists []; split; [reflexivity|constructor]|].
    exists ((w, r) :: ds). cbn [map fst]. split; [rewrite IH1; reflexivity|]. constructor; [split; [exact Q1|exact Q2]|exact IH2]. }
  destruct (best_in p (map snd ds)) as (r & R1 & R2); [destruct ds; discriminate|].
  apply in_map_iff in R1 as ([vr r'] & <- & Hr). cbn [snd] in *.
  rewrite <- ED in IB. apply in_map_iff in IB as ([b' rb] & Eb & Hb). cbn [fst] in Eb. subst b'.
  destruct (F2_in_r _ _ _ _ FD Hr) as (f1 & Hf1 & (V1 & V2 & V3) & E1). destruct (F2_in_r _ _ _ _ FD Hb) as (f0 & Hf0 & _ & E0). cbn [fst snd] in *.
  assert (ALL : forall f, In f l -> exists r, verdict tr g f r /\ sgp p * r' <= sgp p * r).
  { intros f Hf. destruct (F2_in_l _ _ _ _ FD Hf) as ([w rw] & Hd & Q & _). exists rw. split; [exact Q|]. apply R2, (in_map snd _ _ Hd). }
  exists r'. split.
  - assert (ROB : rob lt (real_formula (if p then EAnd l else EOr l)) (B2R g) r').
    { replace (real_formula (if p then EAnd l else EOr l)) with (node p (map real_formula l)) by (destruct p; reflexivity).
      apply rob_node. split.
      - exists (rob lt (real_formula f1)). split; [apply in_map, in_map, Hf1|exact V1].
      - intros P HP. apply in_map_iff in HP as (f' & <- & Hf). apply in_map_iff in Hf as (f & <- & Hf). destruct (ALL f Hf) as (r & (Q & _) & L). exists r. auto. }
    split; [exact ROB|]. destruct p; cbn [real_formula sat sgp] in *; split; intros H.
    + apply Forall_forall. intros P HP. apply in_map_iff in HP as (f' & <- & Hf). apply in_map_iff in Hf as (f & <- & Hf).
      destruct (ALL f Hf) as (r & (_ & Q & _) & L). apply Q. lra.
    + intros K. apply (V3 H). apply (proj1 (Forall_forall _ _) K (sat lt (real_formula f1))). apply in_map, in_map, Hf1.
    + apply Exists_exists. exists (sat lt (real_formula f1)). split; [apply in_map, in_map, Hf1|apply V2, H].
    + intros K. apply Exists_exists in K as (P & HP & K). apply in_map_iff in HP as (f' & <- & Hf). apply in_map_iff in Hf as (f & <- & Hf).
      destruct (ALL f Hf) as (r & (_ & _ & Q) & L). apply Q; [lra|exact K].
  - assert (Q1 : sgp p * B2R b <= sgp p * B2R vr) by (apply LB; rewrite <- ED; apply (in_map fst _ _ Hr)).
    pose proof (R2 rb (in_map snd _ _ Hb)) as Q2. apply Rabs_le_inv in E0, E1. apply Rabs_le. destruct p; cbn [sgp] in *; lra.
Qed.

Lemma parts_count p e : one_level p e = true -> fine e -> (length (parts e) <= length (names e))%nat.
Proof.
  intros L FI.
  assert (LIST : forall l : list (expr B64), (forall f, In f l -> (1 <= length (names f))%nat) -> (length l <= length (flat_map names l))%nat).
  { induction l as [|f l IH]; intros H; [apply le_n|]. cbn [flat_map length]. rewrite app_length. specialize (H f (or_introl eq_refl)) as H1.
    assert (length l <= length (flat_map names l))%nat by (apply IH; intros f' Hf'; apply H; right; exact Hf'). lia. }
  assert (NM : forall f, In f (parts e) -> (1 <= length (names f))%nat).
  { intros f Hf. destruct (chain_name f (parts_chain e p L f Hf) (parts_fine e f FI Hf)) as (n & x & -> & _). apply le_n. }
  replace (length (names e)) with (length (flat_map names (parts e))); [apply LIST, NM|]. f_equal. clear.
  induction e using expr_rec; cbn [parts flat_map names]; try apply app_nil_r; try reflexivity.
  rewrite <- IHe. generalize (parts e). intros l. induction l as [|f l IH]; [reflexivity|]. cbn [map flat_map names]. rewrite IH. reflexivity.
Qed.

Lemma guarded_at N phi : 2 * tol * N <= V -> guarded phi = true -> fine phi -> INR (length (names phi)) <= N -> forall g z, base g -> runs phi z ->
  exists v, hits g v z /\ value_ok ((2 * N + 1) * tol) g phi v.
Proof.
  intros HN GU FI LN g z Hg R. revert GU FI LN z R.
  assert (TMP : forall p e i z, one_level p e = true -> fine (tmp p e i) -> INR (length (names e)) <= N -> runs (tmp p e i) z ->
    exists v, hits g v z /\ value_ok ((2 * N + 1) * tol) g (tmp p e i) v).
  { intros p e i z L FI LN R. destruct (fine_tmp p e i FI) as (FE & _). pose proof tol_pos as TP.
    assert (LE : INR (length (parts e)) <= N) by (eapply Rle_trans; [apply le_INR, (parts_count p e L FE)|exact LN]).
    assert (0 <= tol * (N - INR (length (parts e)))) by (apply Rmult_le_pos; lra).
    destruct (temporal_at p e i g z L FI Hg) as (c & r & Hc & Ec & Fc & Vr & Er & _); [lra|exact R|].
    exists (s_value c). split; [exists c; auto|]. split; [exact Fc|]. exists r. split; [exact Vr|]. lra. }
  assert (LIST : forall l ys, Forall (fun e => guarded e = true -> fine e -> INR (length (names e)) <= N ->
      forall z, runs e z -> exists v, hits g v z /\ value_ok ((2 * N + 1) * tol) g e v) l ->
    forallb guarded l = true -> (forall e, In e l -> fine e) -> (forall e, In e l -> INR (length (names e)) <= N) -> Forall2 runs l ys ->
    exists vs, Forall2 (fun v (x : signal B64) => good x /\ hits g v x) vs ys /\ Forall2 (value_ok ((2 * N + 1) * tol) g) l vs).
  { intros l ys H L FI LN C. induction C as [|e y l ys E _ IH]; [exists []; split; constructor|].
    inversion H as [|? ? He Hl]; subst. cbn [forallb] in L. apply andb_prop in L as [Le L].
    destruct (He Le (FI e (or_introl eq_refl)) (LN e (or_introl eq_refl)) y E) as (v & Hv & Ov).
    destruct IH as (vs & A & B); auto.
    - intros e' He'. exact (FI e' (or_intror He')).
    - intros e' He'. exact (LN e' (or_intror He')).
    - exists (v :: vs). split; constructor; auto. split; [exact (runs_good e y E)|exact Hv]. }
  assert (NODE : forall (p : bool) l z, Forall (fun e => guarded e = true -> fine e -> INR (length (names e)) <= N ->
      forall z, runs e z -> exists v, hits g v z /\ value_ok ((2 * N + 1) * tol) g e v) l ->
    some_operand l = true -> forallb guarded l = true -> fine (if p then EAnd l else EOr l) -> INR (length (flat_map names l)) <= N -> runs (if p then EAnd l else EOr l) z ->
    exists v, hits g v z /\ value_ok ((2 * N + 1) * tol) g (if p then EAnd l else EOr l) v).
  { intros p l z H SO GL FI LN R.
    assert (exists ys, Forall2 runs l ys /\ minmax_list dbg (comp_of p) false ys = Ok z) as (ys & F2 & RL).
    { destruct p; unfold runs in R; cbn [compute] in R; apply bind_ok_inv in R as (ys & R1 & R2); exists ys; (split; [apply compute_list_inv, R1|exact R2]). }
    destruct (LIST l ys H GL) as (vs & A & B); [| |exact F2|].
    { intros e He. apply (parts_fine (if p then EAnd l else EOr l)); [exact FI|destruct p; exact He]. }
    { intros e He. eapply Rle_trans; [|exact LN]. apply le_INR. apply in_split in He as (l1 & l2 & ->). rewrite flat_map_app. cbn [flat_map]. rewrite !app_length. lia. }
    destruct vs as [|v vs]; [inversion B; subst; discriminate SO|].
    exists (fold_left (best_of_two p) vs v). split; [|apply value_node, B]. eapply list_hits; [exact (best_pick p)|exact A|exact RL]. }
  induction phi using expr_rec; intros GU FI LN z R; cbn [guarded] in GU; try discriminate.
  - assert (C : chain (EPred n o c) = true) by reflexivity. destruct FI as (A & B & K).
    destruct (chain_operand (EPred n o c) C A B K) as (y & Ry & (_ & TY & _)). unfold runs in R, Ry. rewrite R in Ry. injection Ry as <-.
    destruct (chain_at dbg fuel tr g U G3 (EPred n o c) eq_refl eq_refl eq_refl (constants_finite _ A) B) with (z := z) as (v & (d & Hd & Ed & Ev) & r & Vr & Nr & Dr).
    { intros m Hm. destruct (K m Hm) as (x & Hx). destruct (base_in m x g Hx Hg) as (a' & Ha' & E & _). eauto. }
    { exact R. }
    exists v. split; [exists d; auto|]. assert (Fv : finite v = true) by (rewrite <- Ev; apply (proj1 TY d Hd)).
    assert (Bv : Rabs (B2R v) <= 3 * V) by (rewrite <- Ev; apply (proj1 TY d Hd)).
    assert (ERR : Rabs (B2R v - r) <= bpow radix2 (-53) * Rabs r) by (apply difference_error; [exact Dr|apply near_rounds, Nr|exact Fv]).
    split; [exact Fv|]. exists r. split; [exact Vr|]. pose proof tol_pos.
    assert (Q : bpow radix2 (-53) * Rabs r <= tol).
    { apply tol_ulp. fold uu in ERR. pose proof uu_small.
      assert (Rabs r <= Rabs (B2R v) + Rabs (B2R v - r)). { replace r with (B2R v + - (B2R v - r)) at 1 by ring. eapply Rle_trans; [apply Rabs_triang|]. rewrite Rabs_Ropp. lra. }
      assert (uu * Rabs r <= / 1000000 * Rabs r) by (apply Rmult_le_compat_r; [apply Rabs_pos|lra]). pose proof (Rabs_pos r). lra. }
    assert (0 <= N) by (eapply Rle_trans; [apply (pos_INR (length (names (EPred n o c))))|exact LN]).
    assert (0 <= N * tol) by (apply Rmult_le_pos; lra). lra.
  - unfold runs in R. cbn [compute] in R. apply bind_ok_inv in R as (y & R1 & R2).
    destruct (IHphi GU (fine_not phi FI) LN y R1) as (v & Hv & Ov).
    exists (nopp v). split; [|apply value_not, Ov]. eapply (hits_map nopp g v y); [exact Hv| | |exact R2].
    + unfold times. rewrite map_map. reflexivity.
    + unfold points. rewrite map_map. reflexivity.
  - apply andb_prop in GU as [G1 G2]. apply (NODE true); assumption.
  - apply andb_prop in GU as [G1 G2]. apply (NODE false); assumption.
  - apply (TMP true); assumption.
  - apply (TMP false); assumption.
Qed.
End Uni.

(** ** C115 *)
Lemma origin (tr : trace B64) V T m y : Forall (fun e => wf (snd e) /\ snd e <> []) tr -> uniform tr -> moderate V T tr -> has_signal tr m y ->
  exists lo, forall n x a, has_signal tr n x -> In a x -> lo <= B2R (s_time a) <= lo + T.
Proof.
  intros G UN MO Hy. pose proof (proj1 (Forall_forall _ _) G _ Hy) as (W & N). cbn [snd] in *. destruct y as [|a0 y]; [congruence|].
  exists (B2R (s_time a0)). intros n x a Hx Ha. destruct (UN n m x (a0 :: y) a Hx Hy Ha) as (b & Hb & E).
  destruct (MO m _ Hy) as (M1 & M2 & _). destruct (MO n _ Hx) as (M3 & _).
  rewrite <- (neqb_B2R (s_time b) (s_time a)); [|apply (M1 b Hb)|apply (M3 a Ha)|exact E].
  pose proof (M2 a0 b (or_introl eq_refl) Hb). split; [|lra]. destruct Hb as [<-|Hb]; [lra|]. left.
  apply lt_B2R; [apply M1; left; reflexivity|apply M1; right; exact Hb|]. apply (SyncError.later [] a0 y); [apply W|exact Hb].
Qed.

Lemma margin_count V T phi : 0 <= V -> 0 <= T -> margin V T phi <= V -> 2 * tolerance (4 * V) T * INR (length (names phi)) <= V.
Proof. intros HV HT H. unfold margin in H. pose proof (tol_pos V T HV HT). lra. Qed.

Lemma C115_lemma dbg fuel (tr : trace B64) s phi V T n x a z : setting tr V T phi -> guarded phi = true -> has_signal tr n x -> In a x ->
  compute_robustness dbg fuel phi tr s = Ok z ->
  exists c r, In c z /\ neqb (s_time c) (s_time a) = true /\ finite (s_value c) = true /\
    rob (real_trace tr) (real_formula phi) (B2R (s_time a)) r /\ Rabs (B2R (s_value c) - r) <= margin V T phi /\
    (margin V T phi < B2R (s_value c) -> sat (real_trace tr) (real_formula phi) (B2R (s_time a))) /\
    (B2R (s_value c) < - margin V T phi -> ~ sat (real_trace tr) (real_formula phi) (B2R (s_time a))).
Proof.
  intros (U & G & UN & MO & HV & HT & HB & CW & IM & K & HM) GU Hx Ha R. destruct (origin tr V T n x G UN MO Hx) as (lo & Hlo).
  destruct (guarded_at dbg fuel tr V T U G UN MO HV HT HB lo Hlo (INR (length (names phi))) phi (margin_count V T phi HV HT HM) GU (conj CW (conj IM K)) (Rle_refl _)
    (s_time a) z) as (v & (c & Hc & Ec & <-) & Fv & r & (V1 & V2 & V3) & E); [exists n, x, a; auto|exact R|].
  exists c, r. split; [exact Hc|]. split; [exact Ec|]. split; [exact Fv|]. split; [exact V1|]. split; [exact E|].
  fold (margin V T phi) in E. apply Rabs_le_inv in E. split; intros H; [apply V2|apply V3]; lra.
Qed.

Lemma side_lemma p dbg fuel (tr : trace B64) s e i V T n x a z : setting tr V T (tmp p e i) -> one_level p e = true -> has_signal tr n x -> In a x ->
  compute_robustness dbg fuel (tmp p e i) tr s = Ok z ->
  exists c, In c z /\ neqb (s_time c) (s_time a) = true /\ finite (s_value c) = true /\
    (0 < sgp p * B2R (s_value c) -> if p then sat (real_trace tr) (real_formula (tmp p e i)) (B2R (s_time a)) else ~ sat (real_trace tr) (real_formula (tmp p e i)) (B2R (s_time a))).
Proof.
  intros (U & G & UN & MO & HV & HT & HB & CW & IM & K & HM) L Hx Ha R. destruct (origin tr V T n x G UN MO Hx) as (lo & Hlo).
  pose proof (conj CW (conj IM K) : fine tr V (tmp p e i)) as FT. destruct (fine_tmp tr V p e i FT) as (FE & _).
  destruct (temporal_at dbg fuel tr V T U G UN MO HV HT HB lo Hlo p e i (s_time a) z L FT) as (c & r & Hc & Ec & Fc & _ & _ & Q); [exists n, x, a; auto| |exact R|].
  - pose proof (margin_count V T (tmp p e i) HV HT HM) as Q. rewrite names_tmp in Q. pose proof (tol_pos V T HV HT).
    assert (INR (length (parts e)) <= INR (length (names e))) by (apply le_INR, (parts_count dbg fuel tr V T U G MO p e L FE)).
    assert (0 <= tolerance (4 * V) T * (INR (length (names e)) - INR (length (parts e)))) by (apply Rmult_le_pos; lra). lra.
  - exists c. auto.
Qed.
Lemma always_lemma dbg fuel (tr : trace B64) s e i V T n x a z : setting tr V T (EAlways e i) -> one_level true e = true -> has_signal tr n x -> In a x ->
  compute_robustness dbg fuel (EAlways e i) tr s = Ok z ->
  exists c, In c z /\ neqb (s_time c) (s_time a) = true /\ finite (s_value c) = true /\
    (nltb nzero (s_value c) = true -> sat (real_trace tr) (real_formula (EAlways e i)) (B2R (s_time a))).
Proof.
  intros S L Hx Ha R. destruct (side_lemma true dbg fuel tr s e i V T n x a z S L Hx Ha R) as (c & Hc & Ec & Fc & Q). exists c. repeat (split; [assumption|]).
  intros H. apply Q. apply lt_B2R in H; [|reflexivity|exact Fc]. cbn [sgp]. change (B2R nzero) with 0 in H. lra.
Qed.
Lemma eventually_lemma dbg fuel (tr : trace B64) s e i V T n x a z : setting tr V T (EEventually e i) -> one_level false e = true -> has_signal tr n x -> In a x ->
  compute_robustness dbg fuel (EEventually e i) tr s = Ok z ->
  exists c, In c z /\ neqb (s_time c) (s_time a) = true /\ finite (s_value c) = true /\
    (nltb (s_value c) nzero = true -> ~ sat (real_trace tr) (real_formula (EEventually e i)) (B2R (s_time a))).
Proof.
  intros S L Hx Ha R. destruct (side_lemma false dbg fuel tr s e i V T n x a z S L Hx Ha R) as (c & Hc & Ec & Fc & Q). exists c. repeat (split; [assumption|]).
  intros H. apply Q. apply lt_B2R in H; [|exact Fc|reflexivity]. cbn [sgp]. change (B2R nzero) with 0 in H. lra.
Qed.
