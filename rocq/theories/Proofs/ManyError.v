(** Error of the minimum and maximum of signals sampled at any times (C119), and of any number of signals at the same times (C120), in doubles. *)
From Coq Require Import Reals Lra Lia Sorted.
From Flocq Require Import Core.Core IEEE754.BinarySingleNaN.
From Verif Require Import Base Num NumB64.
From Verif.Model Require Import Signal MinMax Ast Robustness.
From Verif.Spec Require Import SignalSpec Pwl Formula Crossing Accuracy Apart Spaced.
From Verif.Proofs Require Import NumFacts SignalFacts PwlFacts B64Facts SafeFacts MinMaxFacts MinMaxCases SyncProps SyncCases RobFacts DiscreteFacts InterpError CrossingError SyncError PairBound ChainFacts UniformFacts QuantFacts WholeFacts JoinFormula PairError SlopeError.
Local Open Scope R_scope.

(** ** What [synchronize] keeps, on the reals *)
Lemma B2R_le (v w : B64) : finite v = true -> finite w = true -> B2R v <= B2R w -> nleb v w = true.
Proof.
  intros Fv Fw H. pose proof (finite_num v Fv). pose proof (finite_num w Fw). destruct (nleb v w) eqn:E; [reflexivity|]. exfalso.
  assert (K : nltb w v = true) by num. apply lt_B2R in K; [lra|assumption..].
Qed.
Lemma begin_first (x : signal B64) : x <> [] -> fins x -> finite (begin_time x) = true /\ B2R (begin_time x) = first_time (reals x).
Proof. destruct x as [|a x]; [congruence|]. intros _ F. inversion F as [|? ? (H & _) _]; subst. split; [exact H|reflexivity]. Qed.
Lemma end_final (x : signal B64) : x <> [] -> fins x -> finite (end_time x) = true /\ B2R (end_time x) = final_time (reals x).
Proof.
  intros N F. destruct (exists_last N) as (l & a & ->). unfold end_time, reals. rewrite map_app, last_opt_snoc. rewrite final_app by discriminate. split; [|reflexivity]. unfold fins in F. rewrite Forall_app in F. destruct F as (_ & F). inversion F as [|? ? (H & _) _]; subst. exact H.
Qed.
Lemma in_reals (x : signal B64) a : In a x -> In (B2R (s_time a), B2R (s_value a)) (reals x).
Proof. apply (in_map (fun a => (B2R (s_time a), B2R (s_value a)))). Qed.
Lemma first_in (x : signal B64) : x <> [] -> exists a, In a x /\ B2R (s_time a) = first_time (reals x).
Proof. destruct x as [|a x]; [congruence|]. intros _. exists a. split; [left; reflexivity|reflexivity]. Qed.
Lemma final_in (x : signal B64) : x <> [] -> exists a, In a x /\ B2R (s_time a) = final_time (reals x).
Proof.
  intros N. destruct (exists_last N) as (l & a & ->). exists a. split; [apply in_or_app; right; left; reflexivity|]. unfold reals. rewrite map_app, final_app by discriminate. reflexivity.
Qed.
Lemma in_range (x : signal B64) a : wf x -> fins x -> In a x -> first_time (reals x) <= B2R (s_time a) <= final_time (reals x).
Proof. intros W F Ha. apply (rincr_first_final (reals x) _ (reals_rincr x W F) (in_reals x a Ha)). Qed.

Section Sync.
Variables (x y x' y' : signal B64).
Hypothesis Wx : wf x. Hypothesis Wy : wf y. Hypothesis Nx : x <> []. Hypothesis Ny : y <> []. Hypothesis Fx : fins x. Hypothesis Fy : fins y.
Hypothesis HS : synchronize x y = Ok (x', y').

Lemma sync_time_finite c : In c x' -> finite (s_time c) = true.
Proof.
  intros Hc. destruct (sync_from _ _ _ _ Wx Wy HS) as (K & _). rewrite Forall_forall in K. destruct (K c Hc) as (_ & [(a & Ha & <-)|(a & Ha & <-)]).
  - apply (proj1 (Forall_forall _ _) Fx a Ha).
  - apply (proj1 (Forall_forall _ _) Fy a Ha).
Qed.
Lemma sync_time_range c : In c x' -> first_time (reals x) <= B2R (s_time c) <= final_time (reals x) /\ first_time (reals y) <= B2R (s_time c) <= final_time (reals y).
Proof.
  intros Hc. pose proof (sync_time_finite c Hc) as Fc. destruct (C16_lemma x y x' y' Wx Wy HS) as (_ & _ & _ & _ & _ & K & _).
  destruct (K c (or_introl Hc)) as (_ & K1 & K2 & K3 & K4).
  destruct (begin_first x Nx Fx) as (B1 & <-). destruct (begin_first y Ny Fy) as (B2 & <-). destruct (end_final x Nx Fx) as (B3 & <-). destruct (end_final y Ny Fy) as (B4 & <-).
  apply le_B2R in K1, K2, K3, K4; auto.
Qed.
Lemma sync_keeps a : In a x -> first_time (reals y) <= B2R (s_time a) <= final_time (reals y) -> exists a', In a' x' /\ s_time a' = s_time a /\ s_value a' = s_value a.
Proof.
  intros Ha Hr. destruct (C16_lemma x y x' y' Wx Wy HS) as (_ & _ & _ & K & _). destruct (begin_first y Ny Fy) as (B2 & E2). destruct (end_final y Ny Fy) as (B4 & E4).
  pose proof (proj1 (proj1 (Forall_forall _ _) Fx a Ha)) as Fa. apply K; [exact Ha| |]; apply B2R_le; auto; lra.
Qed.
End Sync.

Lemma sync_domain (x y x' y' : signal B64) t : wf x -> wf y -> x <> [] -> y <> [] -> fins x -> fins y -> fins x' -> synchronize x y = Ok (x', y') ->
  first_time (reals x) <= t <= final_time (reals x) -> first_time (reals y) <= t <= final_time (reals y) -> first_time (reals x') <= t <= final_time (reals x').
Proof.
  intros Wx Wy Nx Ny Fx Fy Fx' HS Dx Dy. pose proof (sync_sym _ _ _ _ Wx Wy HS) as HS'. destruct (sync_out _ _ _ _ Wx Wy HS) as (Wx' & Wy' & Nx' & Ny' & T).
  assert (KX : forall a, In a x -> first_time (reals y) <= B2R (s_time a) <= final_time (reals y) -> first_time (reals x') <= B2R (s_time a) <= final_time (reals x')).
  { intros a Ha Hr. destruct (sync_keeps x y x' y' Wx Wy Ny Fx Fy HS a Ha Hr) as (a' & Ha' & <- & _). apply in_range; assumption. }
  assert (KY : forall a, In a y -> first_time (reals x) <= B2R (s_time a) <= final_time (reals x) -> first_time (reals x') <= B2R (s_time a) <= final_time (reals x')).
  { intros a Ha Hr. destruct (sync_keeps y x y' x' Wy Wx Nx Fy Fx HS' a Ha Hr) as (a' & Ha' & <- & _).
    pose proof (sync_time_finite y x y' x' Wy Wx Fy Fx HS' a' Ha') as Fa. destruct (In_nth_error _ _ Ha') as (k & Hk).
    assert (exists b, In b x' /\ neqb (s_time b) (s_time a') = true) as (b & Hb & E).
    { clear - T Ha'. induction T as [|u w xs ys E T IH]; [destruct Ha'|]. destruct Ha' as [<-|Ha']; [exists u; split; [left; reflexivity|exact E]|]. destruct (IH Ha') as (b & Hb & Eb). exists b. split; [right; exact Hb|exact Eb]. }
    apply eq_B2R in E; [|apply (proj1 (Forall_forall _ _) Fx' b Hb)|exact Fa]. rewrite <- E. apply in_range; assumption. }
  destruct (first_in x Nx) as (ax & Hax & Eax). destruct (first_in y Ny) as (ay & Hay & Eay). destruct (final_in x Nx) as (bx & Hbx & Ebx). destruct (final_in y Ny) as (by' & Hby & Eby).
  split.
  - destruct (Rle_lt_dec (first_time (reals y)) (first_time (reals x))) as [L|L]; [specialize (KX ax Hax ltac:(lra))|specialize (KY ay Hay ltac:(lra))]; lra.
  - destruct (Rle_lt_dec (final_time (reals x)) (final_time (reals y))) as [L|L]; [specialize (KX bx Hbx ltac:(lra))|specialize (KY by' Hby ltac:(lra))]; lra.
Qed.

(** The synchronised operand defines nearly the same function. *)
Lemma sync_close (x y x' y' : signal B64) e : wf x -> wf y -> x <> [] -> y <> [] -> fins x -> fins y -> fins x' -> synchronize x y = Ok (x', y') -> 0 <= e ->
  (forall c, In c x' -> Rabs (B2R (s_value c) - pw (reals x) (B2R (s_time c))) <= e) ->
  forall t, first_time (reals x') <= t <= final_time (reals x') -> Rabs (pw (reals x') t - pw (reals x) t) <= e.
Proof.
  intros Wx Wy Nx Ny Fx Fy Fx' HS He C. destruct (sync_out _ _ _ _ Wx Wy HS) as (Wx' & Wy' & Nx' & Ny' & T).
  apply refine_close; auto; try (apply reals_rincr; assumption).
  - destruct x'; [congruence|discriminate].
  - intros q Hq. apply in_map_iff in Hq as (c & <- & Hc). cbn [fst snd]. split; [apply (sync_time_range x y x' y' Wx Wy Nx Ny Fx Fy HS c Hc)|apply C, Hc].
  - intros q Hq Hr. apply in_map_iff in Hq as (a & <- & Ha). cbn [fst] in *.
    destruct (first_in x' Nx') as (c & Hc & Ec). destruct (final_in x' Nx') as (d & Hd & Ed).
    destruct (sync_time_range x y x' y' Wx Wy Nx Ny Fx Fy HS c Hc) as (_ & R1). destruct (sync_time_range x y x' y' Wx Wy Nx Ny Fx Fy HS d Hd) as (_ & R2).
    assert (Hr' : first_time (reals y) <= B2R (s_time a) <= final_time (reals y)).
    { rewrite Ec in R1. rewrite Ed in R2. split; [eapply Rle_trans; [apply R1|apply Hr]|eapply Rle_trans; [apply Hr|apply R2]]. }
    destruct (sync_keeps x y x' y' Wx Wy Ny Fx Fy HS a Ha Hr') as (a' & Ha' & Et & _). exists (B2R (s_time a'), B2R (s_value a')). split; [apply in_reals, Ha'|]. cbn [fst]. rewrite Et. reflexivity.
Qed.

(** ** One more operand *)
Section Many.
Variables (V S H : R).
Hypothesis HV : lo <= V.
Hypothesis HV' : 4 * V <= hi.
Hypothesis HS : S <= hi.
Hypothesis HH : lo <= H <= S.
Hypothesis HlS : lo <= uu * S.
Definition L : R := 2 * V / H.
Let tol := tolerance V (2 * S).
Definition unit_error : R := 1024 * uu * (L * S).

Lemma many_parts : 0 < V /\ 0 < H /\ 0 < S /\ 0 < L /\ 2 * V <= L * S /\ L <= hi * hi / 2 /\ 0 <= tol /\ tol <= 17 * uu * V.
Proof.
  pose proof lo_hi as (L0 & L1 & L2). pose proof uu_small as Hu. pose proof eta_lo as EL. pose proof hi_4 as H4. pose proof eta_pos as Ep.
  assert (L > 0). { unfold L. apply Rmult_lt_0_compat; [lra|apply Rinv_0_lt_compat; lra]. }
  repeat (split; [lra|]). split; [|split; [|split]].
  - replace (2 * V) with (L * H) by (unfold L; field; lra). apply Rmult_le_compat_l; lra.
  - unfold L. apply Rmult_le_reg_r with H; [lra|]. unfold Rdiv at 1. rewrite Rmult_assoc, Rinv_l, Rmult_1_r by lra.
    assert (hi * hi / 2 * lo <= hi * hi / 2 * H) by (apply Rmult_le_compat_l; [nra|lra]). replace (hi * hi / 2 * lo) with (hi / 2 * (lo * hi)) in H1 by field. rewrite L2 in H1. lra.
  - unfold tol. rewrite tolerance_uu. apply Rplus_le_le_0_compat; apply Rmult_le_pos; lra.
  - unfold tol. rewrite tolerance_uu. assert (4 * eta * (2 * S + 1) <= uu * V); [|lra].
    assert (uu * lo <= uu * V) by (apply Rmult_le_compat_l; lra). eapply Rle_trans; [|exact H1]. eapply Rle_trans; [|exact EL].
    replace (16 * eta * (hi * hi)) with (4 * eta * (4 * (hi * hi))) by ring. apply Rmult_le_compat_l; [lra|]. assert (1 * hi <= hi * hi) by (apply Rmult_le_compat_r; lra). lra.
Qed.

Lemma base_mild x : wf x -> sized V S x -> spaced H x -> mild V (2 * S) x.
Proof.
  intros W (A & _) P. destruct many_parts as (V0 & H0 & S0 & L0 & LS & LH & _). pose proof lo_hi as (l0 & L1 & L2). pose proof hi_big as HB. unfold big in HB. split; [|split; [|split]].
  - intros a Ha. destruct (A a Ha) as (A1 & A2 & A3 & A4). repeat split; auto. lra.
  - intros x1 a b x2 E. specialize (P x1 a b x2 E).
    assert (Ha : In a x) by (rewrite E; apply in_or_app; right; left; reflexivity). assert (Hb : In b x) by (rewrite E; apply in_or_app; right; right; left; reflexivity).
    destruct (A a Ha) as (_ & _ & A3 & A4). destruct (A b Hb) as (_ & _ & B3 & B4). apply Rabs_le_inv in A3, A4, B3, B4. split; [lra|].
    assert (HI : hi * hi <= bpow radix2 1000) by (unfold hi; rewrite <- bpow_plus; apply bpow_le; lia).
    assert (hi * hi * lo <= bpow radix2 1000 * (B2R (s_time b) - B2R (s_time a))) by (apply Rmult_le_compat; [nra|lra|exact HI|lra]).
    replace (hi * hi * lo) with (hi * (lo * hi)) in H1 by ring. rewrite L2 in H1. apply Rabs_le. lra.
  - lra.
  - lra.
Qed.
Lemma base_gentle x : sized V S x -> spaced H x -> gentle L (reals x).
Proof.
  destruct many_parts as (V0 & H0 & S0 & L0 & _). induction x as [|a [|b x] IH]; intros Sz P; [exact I|exact I|]. split; [|apply IH; [apply (sized_tail _ _ _ _ Sz)|apply (spaced_tail _ _ _ P)]].
  specialize (P [] a b x eq_refl). destruct Sz as (A & _). destruct (A a (or_introl eq_refl)) as (_ & _ & _ & A4). destruct (A b (or_intror (or_introl eq_refl))) as (_ & _ & _ & B4).
  assert (K : Rabs (B2R (s_value b) - B2R (s_value a)) <= L * (B2R (s_time b) - B2R (s_time a))); [|exact K].
  assert (L * H <= L * (B2R (s_time b) - B2R (s_time a))) by (apply Rmult_le_compat_l; lra). replace (L * H) with (2 * V) in H1 by (unfold L; field; lra).
  apply Rabs_le_inv in A4, B4. apply Rabs_le. lra.
Qed.
Lemma pw_bound l t : rincr l -> l <> [] -> (forall p, In p l -> Rabs (snd p) <= V) -> first_time l <= t <= final_time l -> Rabs (pw l t) <= V.
Proof.
  intros I N A D. destruct (find_segment l t I N D) as [(p & Hp & <-)|(l1 & p & q & l2 & E & Hs)].
  - rewrite <- (repr_In l (pw l) p (repr_pw l I) Hp). apply A, Hp.
  - assert (Hp : In p l) by (rewrite E; apply in_or_app; right; left; reflexivity). assert (Hq : In q l) by (rewrite E; apply in_or_app; right; right; left; reflexivity).
    assert (K : pwl l t (line p q t)) by (right; exists l1, p, q, l2; auto). apply pwl_pw in K as (_ & <-); [|exact I|exact N].
    replace (line p q t) with (line (fst p, snd p) (fst q, snd q) t - line (fst p, 0) (fst q, 0) t) by (unfold line; cbn [fst snd]; lra).
    apply line_close; [lra|lra| |]; rewrite Rminus_0_r; apply A; assumption.
Qed.
Lemma base_bound x t : wf x -> x <> [] -> sized V S x -> first_time (reals x) <= t <= final_time (reals x) -> Rabs (pw (reals x) t) <= V.
Proof.
  intros W N Sz. apply pw_bound; [apply reals_rincr; [exact W|eapply sized_finite; eauto]|destruct x; [congruence|discriminate]|].
  intros p Hp. apply in_map_iff in Hp as (a & <- & Ha). apply (proj1 Sz a Ha).
Qed.

(** [x] is near [f]; the samples it gains in [synchronize] are within [d] of the line through its own. *)
Lemma step_error dbg (p : bool) (x y z : signal B64) f r d : wf x -> wf y -> x <> [] -> y <> [] -> fins x -> sized V S y -> spaced H y ->
  0 <= d -> d <= r -> tol <= r -> r <= V -> (forall a, In a x -> Rabs (B2R (s_time a)) <= S) ->
  (forall x' y' c, synchronize x y = Ok (x', y') -> In c x' -> finite (s_value c) = true /\ Rabs (B2R (s_value c) - pw (reals x) (B2R (s_time c))) <= d) ->
  (forall t, first_time (reals x) <= t <= final_time (reals x) -> Rabs (pw (reals x) t - f t) <= r - d) ->
  lipschitz L f (first_time (reals x)) (final_time (reals x)) -> (forall t, first_time (reals x) <= t <= final_time (reals x) -> Rabs (f t) <= V) ->
  minmax_pair dbg (comp_of p) false x y = Ok z ->
    wf z /\ z <> [] /\ fins z /\
    (first_time (reals x) <= first_time (reals z) /\ first_time (reals y) <= first_time (reals z) /\ final_time (reals z) <= final_time (reals x) /\ final_time (reals z) <= final_time (reals y)) /\
    forall t, first_time (reals x) <= t <= final_time (reals x) -> first_time (reals y) <= t <= final_time (reals y) -> first_time (reals z) <= t <= final_time (reals z) /\
      Rabs (pw (reals z) t - sbest (QuantFacts.sgp p) (f t) (pw (reals y) t)) <= 9 * r + 800 * uu * (L * S).
Proof.
  intros Wx Wy Nx Ny Fx Sy Py Hd Hdr Htr HrV Tx HG Hf Lf Bf Hz. destruct many_parts as (V0 & H0 & S0 & L0 & LS & LH & tol0 & tolV).
  pose proof lo_hi as (l0 & L1 & L2). pose proof uu_small as Hu.
  pose proof (sized_finite V S y Sy) as Fy. apply minmax_pair_inv in Hz as (x' & y' & HY & Hz). cbn in HY. pose proof (sync_sym _ _ _ _ Wx Wy HY) as HY'.
  destruct (sync_out _ _ _ _ Wx Wy HY) as (Wx' & Wy' & Nx' & Ny' & T).
  assert (CX : forall c, In c x' -> finite (s_time c) = true /\ finite (s_value c) = true /\ Rabs (B2R (s_value c) - pw (reals x) (B2R (s_time c))) <= d).
  { intros c Hc. split; [apply (sync_time_finite x y x' y'); auto|]. apply (HG x' y'); auto. }
  assert (CY : forall c, In c y' -> finite (s_time c) = true /\ finite (s_value c) = true /\ Rabs (B2R (s_value c) - pw (reals y) (B2R (s_time c))) <= tol).
  { intros c Hc. assert (Fc : finite (s_time c) = true) by (apply (sync_time_finite y x y' x'); auto). split; [exact Fc|].
    destruct (sync_from _ _ _ _ Wy Wx HY') as (K & _). rewrite Forall_forall in K. destruct (K c Hc) as (K1 & _).
    destruct (from_close V (2 * S) y _ _ Wy (base_mild y Wy Sy Py) Fc K1) as (F1 & r' & P1 & E1). split; [exact F1|].
    apply pwl_pw in P1 as (_ & ->); [exact E1|apply reals_rincr; assumption|destruct y; [congruence|discriminate]]. }
  assert (Fx' : fins x') by (apply Forall_forall; intros c Hc; destruct (CX c Hc) as (? & ? & _); auto).
  assert (Fy' : fins y') by (apply Forall_forall; intros c Hc; destruct (CY c Hc) as (? & ? & _); auto).
  set (a0 := Rmax (first_time (reals x)) (first_time (reals y))). set (b0 := Rmin (final_time (reals x)) (final_time (reals y))).
  assert (RX : forall c, In c x' -> a0 <= B2R (s_time c) <= b0 /\ first_time (reals x) <= B2R (s_time c) <= final_time (reals x) /\ first_time (reals y) <= B2R (s_time c) <= final_time (reals y)).
  { intros c Hc. destruct (sync_time_range x y x' y' Wx Wy Nx Ny Fx Fy HY c Hc) as (R1 & R2). split; [|auto]. unfold a0, b0. split; [apply Rmax_lub; lra|apply Rmin_glb; lra]. }
  assert (RY : forall c, In c y' -> a0 <= B2R (s_time c) <= b0 /\ first_time (reals x) <= B2R (s_time c) <= final_time (reals x) /\ first_time (reals y) <= B2R (s_time c) <= final_time (reals y)).
  { intros c Hc. destruct (sync_time_range y x y' x' Wy Wx Ny Nx Fy Fx HY' c Hc) as (R1 & R2). split; [|auto]. unfold a0, b0. split; [apply Rmax_lub; lra|apply Rmin_glb; lra]. }
  assert (AB : first_time (reals x) <= a0 /\ first_time (reals y) <= a0 /\ b0 <= final_time (reals x) /\ b0 <= final_time (reals y)) by (unfold a0, b0; split; [apply Rmax_l|split; [apply Rmax_r|split; [apply Rmin_l|apply Rmin_r]]]).
  clearbody a0 b0. destruct AB as (AB1 & AB2 & AB3 & AB4).
  assert (TS : forall t, first_time (reals y) <= t <= final_time (reals y) -> Rabs t <= S).
  { intros t Dt. destruct (first_in y Ny) as (c1 & Hc1 & E1). destruct (final_in y Ny) as (c2 & Hc2 & E2). destruct (proj1 Sy c1 Hc1) as (_ & _ & Q1 & _). destruct (proj1 Sy c2 Hc2) as (_ & _ & Q2 & _).
    apply Rabs_le_inv in Q1, Q2. apply Rabs_le. lra. }
  assert (uuV : uu * V <= V / 1000000) by (assert (uu * V <= / 1000000 * V) by (apply Rmult_le_compat_r; lra); lra).
  destruct (slope_pair (2 * V) S L (2 * r) ltac:(lra) HS HlS LS LH ltac:(lra) dbg p x' y' z f (pw (reals y)) a0 b0 Wx' Wy' Nx' T) as (Z1 & Z2 & Z3 & Z4 & Z5 & Z6).
  - intros c Hc. destruct (CX c Hc) as (C1 & C2 & C3). destruct (RX c Hc) as (C4 & C5 & C6). pose proof (Hf _ C5) as C7. pose proof (Bf _ C5) as C8.
    assert (C9 : Rabs (B2R (s_value c) - f (B2R (s_time c))) <= 2 * r / 2) by (apply Rabs_le_inv in C3, C7; apply Rabs_le; lra).
    split; [|auto]. repeat (split; [assumption|]). split; [apply TS, C6|]. apply Rabs_le_inv in C9, C8. apply Rabs_le. lra.
  - intros c Hc. destruct (CY c Hc) as (C1 & C2 & C3). destruct (RY c Hc) as (C4 & C5 & C6). pose proof (base_bound y _ Wy Ny Sy C6) as C8.
    split; [|split; [exact C4|lra]]. repeat (split; [assumption|]). split; [apply TS, C6|]. apply Rabs_le_inv in C3, C8. apply Rabs_le. lra.
  - intros t u A1 A2 A3. apply Lf; lra.
  - intros t u A1 A2 A3. apply (gentle_lipschitz L (reals y)); [apply reals_rincr; assumption|apply base_gentle; assumption|lra|lra|lra].
  - rewrite (minmax_true_same dbg (comp_of p) x' y' Nx' T). exact Hz.
  - split; [exact Z1|]. split; [exact Z2|]. split; [exact Z3|]. rewrite Z4, Z5. split.
    { destruct (first_in x' Nx') as (c & Hc & Ec). destruct (final_in x' Nx') as (e & He & Ee). destruct (RX c Hc) as (_ & R1 & R2). destruct (RX e He) as (_ & R3 & R4). lra. }
    intros t Dx Dy. pose proof (sync_domain x y x' y' t Wx Wy Nx Ny Fx Fy Fx' HY Dx Dy) as Dx'. split; [exact Dx'|].
    pose proof (sync_domain y x y' x' t Wy Wx Ny Nx Fy Fx Fy' HY' Dy Dx) as Dy'.
    pose proof (sync_close x y x' y' d Wx Wy Nx Ny Fx Fy Fx' HY Hd (fun c Hc => proj2 (proj2 (CX c Hc))) t Dx') as E1.
    pose proof (sync_close y x y' x' tol Wy Wx Ny Nx Fy Fx Fy' HY' tol0 (fun c Hc => proj2 (proj2 (CY c Hc))) t Dy') as E2.
    specialize (Z6 t Dx'). specialize (Hf t Dx).
    assert (E3 : Rabs (sbest (QuantFacts.sgp p) (pw (reals x') t) (pw (reals y') t) - sbest (QuantFacts.sgp p) (f t) (pw (reals y) t)) <= r).
    { apply sbest_near; [apply Rabs_le_inv in E1, Hf; apply Rabs_le; lra|lra]. }
    assert (uu * (2 * V) <= uu * (L * S)) by (apply Rmult_le_compat_l; lra). assert (0 <= uu * V) by (apply Rmult_le_pos; lra).
    apply Rabs_le_inv in Z6, E3. apply Rabs_le. lra.
Qed.

(** ** Two operands sampled at any times *)
Lemma async_error dbg (p : bool) (x y z : signal B64) : wf x -> wf y -> x <> [] -> y <> [] -> sized V S x -> sized V S y -> spaced H x -> spaced H y ->
  minmax_pair dbg (comp_of p) false x y = Ok z ->
    wf z /\ z <> [] /\ fins z /\
    (first_time (reals x) <= first_time (reals z) /\ first_time (reals y) <= first_time (reals z) /\ final_time (reals z) <= final_time (reals x) /\ final_time (reals z) <= final_time (reals y)) /\
    forall t, first_time (reals x) <= t <= final_time (reals x) -> first_time (reals y) <= t <= final_time (reals y) -> first_time (reals z) <= t <= final_time (reals z) /\
      Rabs (pw (reals z) t - sbest (QuantFacts.sgp p) (pw (reals x) t) (pw (reals y) t)) <= unit_error.
Proof.
  intros Wx Wy Nx Ny Sx Sy Px Py Hz. destruct many_parts as (V0 & H0 & S0 & L0 & LS & LH & tol0 & tolV). pose proof uu_small as Hu.
  assert (uuV : uu * V <= V / 1000000) by (assert (uu * V <= / 1000000 * V) by (apply Rmult_le_compat_r; lra); lra).
  pose proof (sized_finite V S x Sx) as Fx. pose proof (sized_finite V S y Sy) as Fy.
  destruct (step_error dbg p x y z (pw (reals x)) tol tol Wx Wy Nx Ny Fx Sy Py) as (Z1 & Z2 & Z3 & Z4 & Z5); auto; try lra.
  - intros a Ha. apply (proj1 Sx a Ha).
  - intros x' y' c HY Hc. pose proof (sync_time_finite x y x' y' Wx Wy Fx Fy HY c Hc) as Fc. destruct (sync_from _ _ _ _ Wx Wy HY) as (K & _). rewrite Forall_forall in K. destruct (K c Hc) as (K1 & _).
    destruct (from_close V (2 * S) x _ _ Wx (base_mild x Wx Sx Px) Fc K1) as (F1 & r' & P1 & E1). split; [exact F1|].
    apply pwl_pw in P1 as (_ & ->); [exact E1|apply reals_rincr; assumption|destruct x; [congruence|discriminate]].
  - intros t _. unfold Rminus. rewrite !Rplus_opp_r, Rabs_R0. lra.
  - apply gentle_lipschitz; [apply reals_rincr; assumption|apply base_gentle; assumption].
  - intros t. apply base_bound; assumption.
  - repeat (split; [assumption|]). intros t Dx Dy. destruct (Z5 t Dx Dy) as (D & E). split; [exact D|]. eapply Rle_trans; [exact E|].
    assert (uu * (2 * V) <= uu * (L * S)) by (apply Rmult_le_compat_l; lra). assert (0 <= uu * V) by (apply Rmult_le_pos; lra). unfold unit_error. lra.
Qed.

(** ** Any number of operands, sampled at the same times *)
Definition fbest (p : bool) (x : signal B64) (ys : list (signal B64)) (t : R) : R := fold_left (fun v y => sbest (QuantFacts.sgp p) v (pw (reals y) t)) ys (pw (reals x) t).
Definition same (x y : signal B64) : Prop := Forall2 (fun a b => neqb (s_time a) (s_time b) = true) x y.
Definition member (x y : signal B64) : Prop := wf y /\ y <> [] /\ sized V S y /\ spaced H y /\ same x y.

(** [z] is within [r] of [f] and has samples at all times of [x]. *)
Definition held (x : signal B64) (f : R -> R) (r : R) (z : signal B64) : Prop :=
  wf z /\ z <> [] /\ fins z /\ first_time (reals z) = first_time (reals x) /\ final_time (reals z) = final_time (reals x) /\
  (forall a, In a x -> has_time (s_time a) z) /\
  lipschitz L f (first_time (reals x)) (final_time (reals x)) /\
  forall t, first_time (reals x) <= t <= final_time (reals x) -> Rabs (f t) <= V /\ Rabs (pw (reals z) t - f t) <= r.

Lemma sbest_bound p a b : Rabs a <= V -> Rabs b <= V -> Rabs (sbest (QuantFacts.sgp p) a b) <= V.
Proof. unfold sbest. destruct (Rle_dec _ _); auto. Qed.
Lemma same_ends x y : sized V S x -> sized V S y -> same x y -> first_time (reals y) = first_time (reals x) /\ final_time (reals y) = final_time (reals x).
Proof. intros Sx Sy T. apply ends_agree; [exact (sized_finite V S x Sx)|exact (sized_finite V S y Sy)|exact T]. Qed.

Lemma held_step dbg p x f r z y z' : wf x -> x <> [] -> sized V S x -> held x f r z -> member x y -> tol <= r -> r <= V ->
  minmax_pair dbg (comp_of p) false z y = Ok z' -> held x (fun t => sbest (QuantFacts.sgp p) (f t) (pw (reals y) t)) (9 * r + 800 * uu * (L * S)) z'.
Proof.
  intros Wx Nx Sx (Z1 & Z2 & Z3 & Z4 & Z5 & Z6 & Z7 & Z8) (Wy & Ny & Sy & Py & Ty) Hr HrV Hz. destruct (same_ends x y Sx Sy Ty) as (E1 & E2).
  pose proof (sized_finite V S x Sx) as Fx. pose proof (sized_finite V S y Sy) as Fy. destruct many_parts as (_ & _ & _ & _ & _ & _ & tol0 & _).
  assert (YT : forall b, In b y -> has_time (s_time b) z).
  { intros b Hb. assert (exists a, In a x /\ neqb (s_time a) (s_time b) = true) as (a & Ha & E).
    { clear - Ty Hb. induction Ty as [|u w xs ys E T IH]; [destruct Hb|]. destruct Hb as [<-|Hb]; [exists u; split; [left; reflexivity|exact E]|]. destruct (IH Hb) as (a & Ha & Ea). exists a. split; [right; exact Ha|exact Ea]. }
    destruct (Z6 a Ha) as (c & Hc & Ec). exists c. split; [exact Hc|]. clear - E Ec. num_hyps. num. }
  assert (BZ : forall t, first_time (reals z) <= t <= final_time (reals z) -> Rabs t <= S).
  { intros t Dt. rewrite Z4, Z5 in Dt. destruct (first_in x Nx) as (c1 & Hc1 & Q1'). destruct (final_in x Nx) as (c2 & Hc2 & Q2'). destruct (proj1 Sx c1 Hc1) as (_ & _ & Q1 & _). destruct (proj1 Sx c2 Hc2) as (_ & _ & Q2 & _).
    apply Rabs_le_inv in Q1, Q2. apply Rabs_le. rewrite <- Q1', <- Q2' in Dt. lra. }
  destruct (step_error dbg p z y z' f r 0 Z1 Wy Z2 Ny Z3 Sy Py ltac:(lra) ltac:(lra) Hr HrV) as (Y1 & Y2 & Y3 & (Y4 & Y5 & Y6 & Y7) & Y8); auto.
  - intros a Ha. apply BZ, in_range; assumption.
  - intros z1 y1 c HY Hc. destruct (sync_from _ _ _ _ Z1 Wy HY) as (K & _). rewrite Forall_forall in K. destruct (K c Hc) as (K1 & K2).
    assert (HT : has_time (s_time c) z).
    { destruct K2 as [(a & Ha & Ea)|(b & Hb & Eb)]; [|rewrite <- Eb; apply YT, Hb]. exists a. split; [exact Ha|]. rewrite Ea.
      assert (isnum (s_time c) = true) by (rewrite <- Ea; apply finite_num, (proj1 (Forall_forall _ _) Z3 a Ha)). num. }
    destruct K1 as [(a & Ha & Et & Ev)|(u1 & a & b & u2 & Eu & H1 & H2 & _)]; [|destruct (not_between z u1 a b u2 _ Z1 Eu H1 H2 HT)].
    rewrite <- Et, <- Ev. split; [apply (proj1 (Forall_forall _ _) Z3 a Ha)|].
    pose proof (repr_In (reals z) (pw (reals z)) _ (repr_pw _ (reals_rincr z Z1 Z3)) (in_reals z a Ha)) as Q. cbn [fst snd] in Q. rewrite <- Q. unfold Rminus. rewrite Rplus_opp_r, Rabs_R0. lra.
  - rewrite Z4, Z5. intros t Dt. destruct (Z8 t Dt) as (_ & E). lra.
  - rewrite Z4, Z5. exact Z7.
  - rewrite Z4, Z5. intros t Dt. apply (Z8 t Dt).
  - rewrite Z4, Z5, E1, E2 in *. assert (FL : first_time (reals x) <= final_time (reals x)). { destruct (first_in x Nx) as (c & Hc & <-). apply (in_range x c Wx Fx Hc). }
    split; [exact Y1|]. split; [exact Y2|]. split; [exact Y3|].
    destruct (Y8 (first_time (reals x)) ltac:(lra) ltac:(lra)) as (D1 & _). destruct (Y8 (final_time (reals x)) ltac:(lra) ltac:(lra)) as (D2 & _).
    split; [lra|]. split; [lra|]. split; [|split].
    + intros a Ha. destruct (Z6 a Ha) as (c & Hc & Ec). assert (exists b, In b y /\ neqb (s_time b) (s_time a) = true) as (b & Hb & Eb).
      { clear - Ty Ha. induction Ty as [|u w xs ys E T IH]; [destruct Ha|]. destruct Ha as [<-|Ha]; [exists w; split; [left; reflexivity|clear - E; num_hyps; num]|]. destruct (IH Ha) as (b & Hb & Eb). exists b. split; [right; exact Hb|exact Eb]. }
      destruct (pair_hits (comp_of p) (best_of_two p) (best_pick p) dbg (s_time a) (s_value c) (s_value b) z y z' Z1 Wy Hz) as (d & Hd & Ed & _); [exists c; auto|exists b; auto|]. exists d. auto.
    + apply sbest_lipschitz; [exact Z7|]. rewrite <- E1, <- E2. apply gentle_lipschitz; [apply reals_rincr; assumption|apply base_gentle; assumption].
    + intros t Dt. split; [|apply (Y8 t Dt Dt)]. apply sbest_bound; [apply (Z8 t Dt)|]. apply base_bound; auto. rewrite E1, E2. exact Dt.
Qed.

Lemma fold_error dbg p x : wf x -> x <> [] -> sized V S x -> forall ys f r z z', held x f r z -> Forall (member x) ys -> tol <= r -> 800 * uu * (L * S) <= r -> r * 10 ^ length ys <= V ->
  minmax_fold dbg (comp_of p) false z ys = Ok z' ->
  held x (fun t => fold_left (fun v y => sbest (QuantFacts.sgp p) v (pw (reals y) t)) ys (f t)) (r * 10 ^ length ys) z'.
Proof.
  intros Wx Nx Sx. destruct many_parts as (V0 & H0 & S0 & L0 & LS & LH & tol0 & tolV). pose proof uu_small as Hu.
  induction ys as [|y ys IH]; intros f r z z' Hh F Ht Hc Hr Hz; cbn [length fold_left minmax_fold pow] in *.
  - injection Hz as <-. destruct Hh as (Z1 & Z2 & Z3 & Z4 & Z5 & Z6 & Z7 & Z8). repeat (split; [assumption|]). intros t Dt. destruct (Z8 t Dt). split; [assumption|lra].
  - apply bind_ok_inv in Hz as (z1 & Hz1 & Hz2). inversion F as [|? ? My Mys]; subst.
    assert (P : 1 <= 10 ^ length ys) by (apply pow_R1_Rle; lra).
    assert (r0 : 0 <= r) by lra. assert (r * 10 * 1 <= r * 10 * 10 ^ length ys) by (apply Rmult_le_compat_l; lra).
    pose proof (held_step dbg p x f r z y z1 Wx Nx Sx Hh My Ht ltac:(lra) Hz1) as Hh1.
    assert (Hh2 : held x (fun t => sbest (QuantFacts.sgp p) (f t) (pw (reals y) t)) (10 * r) z1).
    { destruct Hh1 as (Z1 & Z2 & Z3 & Z4 & Z5 & Z6 & Z7 & Z8). repeat (split; [assumption|]). intros t Dt. destruct (Z8 t Dt). split; [assumption|lra]. }
    replace (r * (10 * 10 ^ length ys)) with (10 * r * 10 ^ length ys) by ring.
    apply (IH _ (10 * r) z1 z' Hh2 Mys); try assumption; lra.
Qed.

Lemma list_error dbg p x ys z : wf x -> x <> [] -> sized V S x -> spaced H x -> Forall (member x) ys -> unit_error * 10 ^ length ys <= V ->
  minmax_list dbg (comp_of p) false (x :: ys) = Ok z -> held x (fbest p x ys) (unit_error * 10 ^ length ys) z.
Proof.
  intros Wx Nx Sx Px F Hr Hz. rewrite list_fold in Hz. destruct many_parts as (V0 & H0 & S0 & L0 & LS & LH & tol0 & tolV). pose proof uu_small as Hu.
  pose proof (sized_finite V S x Sx) as Fx.
  assert (uu * (2 * V) <= uu * (L * S)) by (apply Rmult_le_compat_l; lra). assert (0 <= uu * V) by (apply Rmult_le_pos; lra).
  apply (fold_error dbg p x Wx Nx Sx ys (pw (reals x)) unit_error x z); auto; try (unfold unit_error; lra).
  repeat (split; [assumption || reflexivity|]). split; [|split].
  - intros a Ha. exists a. split; [exact Ha|]. pose proof (finite_num _ (proj1 (proj1 (Forall_forall _ _) Fx a Ha))). num.
  - apply gentle_lipschitz; [apply reals_rincr; assumption|apply base_gentle; assumption].
  - intros t Dt. split; [apply base_bound; assumption|]. unfold Rminus. rewrite Rplus_opp_r, Rabs_R0. unfold unit_error. lra.
Qed.
End Many.
