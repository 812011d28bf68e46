(** Error of nested minima and maxima of signals sampled at any times, in doubles (C122). *)
From Coq Require Import Reals Lra Lia.
From Flocq Require Import Core.Core IEEE754.BinarySingleNaN.
From Verif Require Import Base Num NumB64.
From Verif.Model Require Import Signal MinMax Ast Robustness.
From Verif.Spec Require Import SignalSpec Pwl Formula Crossing Accuracy Apart Spaced.
From Verif.Proofs Require Import NumFacts SignalFacts PwlFacts B64Facts SafeFacts MinMaxFacts MinMaxCases SyncProps SyncCases RobFacts DiscreteFacts InterpError CrossingError SyncError PairBound ChainFacts UniformFacts QuantFacts WholeFacts JoinFormula PairError SlopeError ManyError.
Local Open Scope R_scope.

Definition tau : R := bpow radix2 (-200).
(** Doubles from [tau] on are at least [gap] apart. *)
Definition gap : R := bpow radix2 (-252).
Lemma double_gap (a b : B64) : tau <= B2R a -> B2R a < B2R b -> gap <= B2R b - B2R a.
Proof.
  intros Ha Hab. pose proof (bpow_gt_0 radix2 (-200)) as T0. fold tau in T0.
  assert (V0 : Valid_exp (SpecFloat.fexp 53 1024)) by (apply BinarySingleNaN.fexp_correct; reflexivity).
  pose proof (succ_le_lt radix2 (SpecFloat.fexp 53 1024) (B2R a) (B2R b) (generic_format_B2R 53 1024 a) (generic_format_B2R 53 1024 b) Hab) as K.
  rewrite succ_eq_pos in K by lra. unfold gap. enough (bpow radix2 (-252) <= ulp radix2 (SpecFloat.fexp 53 1024) (B2R a)) by lra.
  rewrite ulp_neq_0 by lra. apply bpow_le. unfold cexp. assert (M : (-199 <= mag radix2 (B2R a))%Z).
  { apply mag_ge_bpow. rewrite Rabs_pos_eq by lra. exact Ha. }
  unfold SpecFloat.fexp, SpecFloat.emin. lia.
Qed.

Section Tree.
Variables (V S H : R).
Hypothesis HV : lo <= V.
Hypothesis HV' : 4 * V <= hi.
Hypothesis HS : S <= hi.
Hypothesis HH : lo <= H <= S.
Hypothesis HlS : lo <= uu * S.
Let L := ManyError.L V H.
Let unit := unit_error V S H.
Let tol := tolerance (2 * V) (2 * S).

Lemma tree_tol : 0 <= tol /\ tol <= 34 * uu * V.
Proof.
  destruct (many_parts V S H HV HV' HS HH) as (V0 & H0 & S0 & _). pose proof lo_hi as (L0 & L1 & L2). pose proof uu_small as Hu. pose proof eta_lo as EL. pose proof hi_4 as H4. pose proof eta_pos as Ep.
  unfold tol. rewrite tolerance_uu. split.
  - apply Rplus_le_le_0_compat; apply Rmult_le_pos; lra.
  - assert (4 * eta * (2 * S + 1) <= uu * V); [|assert (0 <= uu * V) by (apply Rmult_le_pos; lra); lra].
    assert (uu * lo <= uu * V) by (apply Rmult_le_compat_l; lra). eapply Rle_trans; [|exact H1]. eapply Rle_trans; [|exact EL].
    replace (16 * eta * (hi * hi)) with (4 * eta * (4 * (hi * hi))) by ring. apply Rmult_le_compat_l; [lra|]. assert (1 * hi <= hi * hi) by (apply Rmult_le_compat_r; lra). lra.
Qed.

(** [z] is within [r] of [f], whose slope is at most [L]. *)
Definition near (f : R -> R) (r : R) (z : signal B64) : Prop :=
  wf z /\ z <> [] /\ fins z /\ (forall a, In a z -> Rabs (B2R (s_time a)) <= S) /\ spaced gap z /\
  lipschitz L f (first_time (reals z)) (final_time (reals z)) /\
  forall t, first_time (reals z) <= t <= final_time (reals z) -> Rabs (f t) <= V /\ Rabs (pw (reals z) t - f t) <= r.

Lemma near_value f r z a : near f r z -> r <= V -> In a z -> Rabs (B2R (s_value a)) <= 2 * V.
Proof.
  intros (W & N & F & _ & _ & _ & K) Hr Ha. destruct (K _ (in_range z a W F Ha)) as (K1 & K2).
  pose proof (repr_In (reals z) (pw (reals z)) _ (repr_pw _ (reals_rincr z W F)) (in_reals z a Ha)) as Q. cbn [fst snd] in Q.
  assert (E : B2R (s_value a) = pw (reals z) (B2R (s_time a))) by exact Q. rewrite E. apply Rabs_le_inv in K1, K2. apply Rabs_le. lra.
Qed.
Lemma near_mild f r z : near f r z -> r <= V -> mild (2 * V) (2 * S) z.
Proof.
  intros NZ Hr. destruct (many_parts V S H HV HV' HS HH) as (V0 & H0 & S0 & _). pose proof lo_hi as (l0 & L1 & L2). pose proof hi_big as HB. unfold big in HB.
  pose proof NZ as (W & N & F & T & P & _ & _). split; [|split; [|split]].
  - intros a Ha. destruct (proj1 (Forall_forall _ _) F a Ha) as (A1 & A2). split; [exact A1|]. split; [exact A2|]. split; [|exact (near_value f r z a NZ Hr Ha)].
    specialize (T a Ha). lra.
  - intros x1 a b x2 E.
    assert (Ha : In a z) by (rewrite E; apply in_or_app; right; left; reflexivity). assert (Hb : In b z) by (rewrite E; apply in_or_app; right; right; left; reflexivity).
    pose proof (T a Ha) as T1. pose proof (T b Hb) as T3. apply Rabs_le_inv in T1, T3. split; [lra|].
    pose proof (near_value f r z a NZ Hr Ha) as A4. pose proof (near_value f r z b NZ Hr Hb) as B4.
    pose proof (P _ _ _ _ E) as G.
    assert (HI : hi = bpow radix2 1000 * bpow radix2 (-700)) by (unfold hi; rewrite <- bpow_plus; reflexivity).
    assert (bpow radix2 1000 * bpow radix2 (-700) <= bpow radix2 1000 * (B2R (s_time b) - B2R (s_time a))).
    { apply Rmult_le_compat_l; [apply bpow_ge_0|]. eapply Rle_trans; [|exact G]. unfold gap. apply bpow_le. lia. }
    apply Rabs_le_inv in A4, B4. apply Rabs_le. lra.
  - lra.
  - lra.
Qed.

(** The samples added in [synchronize]. *)
Lemma near_sync f r x y x' y' c : near f r x -> r <= V -> wf y -> fins y -> synchronize x y = Ok (x', y') -> In c x' ->
  finite (s_time c) = true /\ finite (s_value c) = true /\ Rabs (B2R (s_value c) - pw (reals x) (B2R (s_time c))) <= tol.
Proof.
  intros NX Hr Wy Fy HY Hc. pose proof NX as (Wx & Nx & Fx & _). pose proof (sync_time_finite x y x' y' Wx Wy Fx Fy HY c Hc) as Fc. split; [exact Fc|].
  destruct (sync_from _ _ _ _ Wx Wy HY) as (K & _). rewrite Forall_forall in K. destruct (K c Hc) as (K1 & _).
  destruct (from_close (2 * V) (2 * S) x _ _ Wx (near_mild f r x NX Hr) Fc K1) as (F1 & r' & P1 & E1). split; [exact F1|].
  apply pwl_pw in P1 as (_ & ->); [exact E1|apply reals_rincr; assumption|destruct x; [congruence|discriminate]].
Qed.

Lemma near_step dbg (p : bool) (x y z : signal B64) f g r : near f r x -> near g r y -> unit <= r -> 2 * r <= V -> spaced gap z -> minmax_pair dbg (comp_of p) false x y = Ok z ->
  near (fun t => sbest (QuantFacts.sgp p) (f t) (g t)) (10 * r) z /\
  forall t, first_time (reals z) <= t <= final_time (reals z) <-> first_time (reals x) <= t <= final_time (reals x) /\ first_time (reals y) <= t <= final_time (reals y).
Proof.
  intros NX NY Hur HrV Pz Hz. destruct (many_parts V S H HV HV' HS HH) as (V0 & H0 & S0 & L0 & LS & LH & _). fold L in L0, LS, LH. destruct tree_tol as (tol0 & tolV).
  pose proof lo_hi as (l0 & L1 & L2). pose proof uu_small as Hu.
  assert (uuV : uu * V <= V / 1000000) by (assert (uu * V <= / 1000000 * V) by (apply Rmult_le_compat_r; lra); lra).
  assert (uuL : uu * (2 * V) <= uu * (L * S)) by (apply Rmult_le_compat_l; lra). assert (uu0 : 0 <= uu * V) by (apply Rmult_le_pos; lra).
  unfold unit, unit_error in Hur. fold L in Hur.
  pose proof NX as (Wx & Nx & Fx & Tx & _ & Lf & Bf). pose proof NY as (Wy & Ny & Fy & Ty & _ & Lg & Bg).
  apply minmax_pair_inv in Hz as (x' & y' & HY & Hz). cbn in HY. pose proof (sync_sym _ _ _ _ Wx Wy HY) as HY'.
  destruct (sync_out _ _ _ _ Wx Wy HY) as (Wx' & Wy' & Nx' & Ny' & T).
  assert (CX := fun c => near_sync f r x y x' y' c NX ltac:(lra) Wy Fy HY). assert (CY := fun c => near_sync g r y x y' x' c NY ltac:(lra) Wx Fx HY').
  assert (Fx' : fins x') by (apply Forall_forall; intros c Hc; destruct (CX c Hc) as (? & ? & _); auto).
  assert (Fy' : fins y') by (apply Forall_forall; intros c Hc; destruct (CY c Hc) as (? & ? & _); auto).
  set (a0 := Rmax (first_time (reals x)) (first_time (reals y))). set (b0 := Rmin (final_time (reals x)) (final_time (reals y))).
  assert (RX : forall c, In c x' -> a0 <= B2R (s_time c) <= b0 /\ first_time (reals x) <= B2R (s_time c) <= final_time (reals x) /\ first_time (reals y) <= B2R (s_time c) <= final_time (reals y)).
  { intros c Hc. destruct (sync_time_range x y x' y' Wx Wy Nx Ny Fx Fy HY c Hc) as (R1 & R2). split; [|auto]. unfold a0, b0. split; [apply Rmax_lub; lra|apply Rmin_glb; lra]. }
  assert (RY : forall c, In c y' -> a0 <= B2R (s_time c) <= b0 /\ first_time (reals x) <= B2R (s_time c) <= final_time (reals x) /\ first_time (reals y) <= B2R (s_time c) <= final_time (reals y)).
  { intros c Hc. destruct (sync_time_range y x y' x' Wy Wx Ny Nx Fy Fx HY' c Hc) as (R1 & R2). split; [|auto]. unfold a0, b0. split; [apply Rmax_lub; lra|apply Rmin_glb; lra]. }
  assert (AB : first_time (reals x) <= a0 /\ first_time (reals y) <= a0 /\ b0 <= final_time (reals x) /\ b0 <= final_time (reals y)) by (unfold a0, b0; split; [apply Rmax_l|split; [apply Rmax_r|split; [apply Rmin_l|apply Rmin_r]]]).
  clearbody a0 b0. destruct AB as (AB1 & AB2 & AB3 & AB4).
  assert (TS : forall t, first_time (reals x) <= t <= final_time (reals x) -> Rabs t <= S).
  { intros t Dt. destruct (first_in x Nx) as (c1 & Hc1 & E1). destruct (final_in x Nx) as (c2 & Hc2 & E2). pose proof (Tx c1 Hc1) as Q1. pose proof (Tx c2 Hc2) as Q2. rewrite E1 in Q1. rewrite E2 in Q2. apply Rabs_le_inv in Q1, Q2. apply Rabs_le. lra. }
  destruct (slope_pair (2 * V) S L (2 * (r + tol)) ltac:(lra) HS HlS LS LH ltac:(lra) dbg p x' y' z f g a0 b0 Wx' Wy' Nx' T) as (Z1 & Z2 & Z3 & Z4 & Z5 & Z6).
  - intros c Hc. destruct (CX c Hc) as (C1 & C2 & C3). destruct (RX c Hc) as (C4 & C5 & C6). destruct (Bf _ C5) as (C8 & C7).
    assert (C9 : Rabs (B2R (s_value c) - f (B2R (s_time c))) <= 2 * (r + tol) / 2) by (apply Rabs_le_inv in C3, C7; apply Rabs_le; lra).
    split; [|auto]. repeat (split; [assumption|]). split; [apply TS, C5|]. apply Rabs_le_inv in C9, C8. apply Rabs_le. lra.
  - intros c Hc. destruct (CY c Hc) as (C1 & C2 & C3). destruct (RY c Hc) as (C4 & C5 & C6). destruct (Bg _ C6) as (C8 & C7).
    assert (C9 : Rabs (B2R (s_value c) - g (B2R (s_time c))) <= 2 * (r + tol) / 2) by (apply Rabs_le_inv in C3, C7; apply Rabs_le; lra).
    split; [|auto]. repeat (split; [assumption|]). split; [apply TS, C5|]. apply Rabs_le_inv in C9, C8. apply Rabs_le. lra.
  - intros t u A1 A2 A3. apply Lf; lra.
  - intros t u A1 A2 A3. apply Lg; lra.
  - rewrite (minmax_true_same dbg (comp_of p) x' y' Nx' T). exact Hz.
  - assert (DZ : first_time (reals x) <= first_time (reals z) /\ first_time (reals y) <= first_time (reals z) /\ final_time (reals z) <= final_time (reals x) /\ final_time (reals z) <= final_time (reals y)).
    { rewrite Z4, Z5. destruct (first_in x' Nx') as (c & Hc & Ec). destruct (final_in x' Nx') as (e & He & Ee). destruct (RX c Hc) as (_ & R1 & R2). destruct (RX e He) as (_ & R3 & R4). lra. }
    assert (DI : forall t, first_time (reals z) <= t <= final_time (reals z) <-> first_time (reals x) <= t <= final_time (reals x) /\ first_time (reals y) <= t <= final_time (reals y)).
    { intros t. split; [intros; lra|]. intros (Dx & Dy). rewrite Z4, Z5. exact (sync_domain x y x' y' t Wx Wy Nx Ny Fx Fy Fx' HY Dx Dy). }
    split; [|exact DI]. split; [exact Z1|]. split; [exact Z2|]. split; [exact Z3|]. split; [|split; [exact Pz|split]].
    + intros a Ha. apply TS. pose proof (in_range z a Z1 Z3 Ha) as K. apply DI in K. apply K.
    + apply sbest_lipschitz; intros t u A1 A2 A3; [apply Lf|apply Lg]; lra.
    + intros t Dz. pose proof Dz as Dz'. apply DI in Dz' as (Dx & Dy). destruct (Bf t Dx) as (F1 & F2). destruct (Bg t Dy) as (G1 & G2). split; [apply sbest_bound; assumption|].
      rewrite Z4, Z5 in Dz. pose proof (sync_domain y x y' x' t Wy Wx Ny Nx Fy Fx Fy' HY' Dy Dx) as Dy'.
      pose proof (sync_close x y x' y' tol Wx Wy Nx Ny Fx Fy Fx' HY tol0 (fun c Hc => proj2 (proj2 (CX c Hc))) t Dz) as E1.
      pose proof (sync_close y x y' x' tol Wy Wx Ny Nx Fy Fx Fy' HY' tol0 (fun c Hc => proj2 (proj2 (CY c Hc))) t Dy') as E2.
      specialize (Z6 t Dz).
      assert (E3 : Rabs (sbest (QuantFacts.sgp p) (pw (reals x') t) (pw (reals y') t) - sbest (QuantFacts.sgp p) (f t) (g t)) <= r + tol).
      { apply sbest_near; [apply Rabs_le_inv in E1, F2; apply Rabs_le; lra|apply Rabs_le_inv in E2, G2; apply Rabs_le; lra]. }
      apply Rabs_le_inv in Z6, E3. apply Rabs_le. lra.
Qed.

Lemma near_weaken f r r' z : near f r z -> r <= r' -> near f r' z.
Proof. intros (A & B & C & D & P & E & K) Hr. repeat (split; [assumption|]). intros t Dt. destruct (K t Dt). split; [assumption|lra]. Qed.
Lemma near_ext f g r z : (forall t, f t = g t) -> near f r z -> near g r z.
Proof.
  intros E (A & B & C & D & P & Lf & K). repeat (split; [assumption|]). split; [intros t u H1 H2 H3; rewrite <- !E; apply Lf; assumption|]. intros t Dt. rewrite <- E. exact (K t Dt).
Qed.

(** An operand: its signal, the function it is near to, and the number of its predicates. *)
Definition operand : Type := signal B64 * (R -> R) * nat.
Definition fits (o : operand) : Prop := (1 <= snd o)%nat /\ near (snd (fst o)) (unit * 10 ^ (snd o - 1)) (fst (fst o)).
Definition count (ops : list operand) : nat := fold_right (fun o n => snd o + n)%nat O ops.
Definition reaches (z : signal B64) (t : R) : Prop := first_time (reals z) <= t <= final_time (reals z).

Lemma unit_pos : 0 < unit.
Proof.
  destruct (many_parts V S H HV HV' HS HH) as (V0 & H0 & S0 & L0 & LS & _). pose proof uu_small as Hu. unfold unit, unit_error.
  apply Rmult_lt_0_compat; [lra|]. apply Rmult_lt_0_compat; lra.
Qed.
Lemma pow_mono n m : (n <= m)%nat -> unit * 10 ^ n <= unit * 10 ^ m.
Proof. intros Hn. pose proof unit_pos. apply Rmult_le_compat_l; [lra|]. apply Rle_pow; [lra|exact Hn]. Qed.

Lemma tree_fold dbg p : forall ops f n z z', (1 <= n)%nat -> near f (unit * 10 ^ (n - 1)) z -> Forall fits ops -> unit * 10 ^ (n + count ops - 1) <= V ->
  (forall k y, minmax_fold dbg (comp_of p) false z (firstn k (map (fun o => fst (fst o)) ops)) = Ok y -> spaced gap y) ->
  minmax_fold dbg (comp_of p) false z (map (fun o => fst (fst o)) ops) = Ok z' ->
  near (fun t => fold_left (fun v o => sbest (QuantFacts.sgp p) v (snd (fst o) t)) ops (f t)) (unit * 10 ^ (n + count ops - 1)) z' /\
  forall t, reaches z' t <-> reaches z t /\ Forall (fun o => reaches (fst (fst o)) t) ops.
Proof.
  induction ops as [|((y, g), k) ops IH]; intros f n z z' Hn Hz F HV0 HP Hm; cbn [map minmax_fold fold_left count fold_right fst snd] in *.
  - injection Hm as <-. rewrite Nat.add_0_r in *. split; [exact Hz|]. intros t. split; [intros Ht; split; [exact Ht|constructor]|intros (Ht & _); exact Ht].
  - apply bind_ok_inv in Hm as (z1 & Hz1 & Hz2). inversion F as [|? ? (Hk & Hy) Fs]; subst. cbn [fst snd] in *. fold (count ops) in *.
    pose proof unit_pos as U0. set (m := (n + k - 2)%nat).
    assert (M1 : unit <= unit * 10 ^ m) by (rewrite <- (Rmult_1_r unit) at 1; change 1 with (10 ^ 0); apply pow_mono; lia).
    assert (M2 : 10 * (unit * 10 ^ m) = unit * 10 ^ (n + k - 1)). { replace (n + k - 1)%nat with (Datatypes.S m) by (unfold m; lia). cbn [pow]. ring. }
    assert (M3 : unit * 10 ^ (n + k - 1) <= unit * 10 ^ (n + (k + count ops) - 1)) by (apply pow_mono; lia).
    destruct (near_step dbg p z y z1 f g (unit * 10 ^ m)) as (N1 & D1); auto; try lra.
    { eapply near_weaken; [exact Hz|]. apply pow_mono. unfold m. lia. }
    { eapply near_weaken; [exact Hy|]. apply pow_mono. unfold m. lia. }
    { apply (HP 1%nat). cbn [firstn minmax_fold]. rewrite Hz1. reflexivity. }
    rewrite M2 in N1. replace (n + (k + count ops) - 1)%nat with (n + k + count ops - 1)%nat in * by lia.
    destruct (IH _ (n + k)%nat z1 z' ltac:(lia) N1 Fs HV0) as (N2 & D2); [intros i w Hw; apply (HP (Datatypes.S i)); cbn [firstn minmax_fold]; rewrite Hz1; exact Hw|exact Hz2|]. split; [exact N2|].
    intros t. rewrite D2. unfold reaches at 1. rewrite D1. split.
    + intros ((A & B) & C). split; [exact A|]. constructor; [exact B|exact C].
    + intros (A & B). inversion B; subst. auto.
Qed.
End Tree.
