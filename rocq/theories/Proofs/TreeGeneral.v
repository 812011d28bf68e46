(** Nested minima and maxima of signals in general position: they return (C123). *)
From Coq Require Import Reals Lra Lia.
From Flocq Require Import Core.Core IEEE754.BinarySingleNaN.
From Verif Require Import Base Num NumB64.
From Verif.Model Require Import Signal MinMax Ast Robustness.
From Verif.Spec Require Import SignalSpec Pwl Formula Crossing Accuracy Apart Spaced.
From Verif.Proofs Require Import NumFacts SignalFacts PwlFacts B64Facts SafeFacts MinMaxFacts MinMaxCases SyncProps SyncCases RobFacts DiscreteFacts InterpError CrossingError SyncError PairBound ChainFacts UniformFacts QuantFacts WholeFacts JoinFormula PairError SlopeError ManyError GeneralFacts TreeError.
Local Open Scope R_scope.

Lemma B2R_eqb (v w : B64) : finite v = true -> finite w = true -> B2R v = B2R w -> neqb v w = true.
Proof. intros Fv Fw E. pose proof (finite_num v Fv). pose proof (finite_num w Fw). pose proof (finite_rk v Fv). pose proof (finite_rk w Fw). num. Qed.

(** ** In a result, one of any two neighbours stands at a time of the operands. *)
Inductive alternates (A : B64 -> Prop) : list B64 -> Prop :=
| alt_nil : alternates A []
| alt_one ts a : alternates A ts -> A a -> alternates A (ts ++ [a])
| alt_two ts c a : alternates A ts -> A a -> alternates A (ts ++ [c; a]).
Lemma alternates_pairs A ts : alternates A ts -> (forall l1 a b l2, ts = l1 ++ a :: b :: l2 -> A a \/ A b) /\ forall l a, ts = l ++ [a] -> A a.
Proof.
  assert (SN : forall (l1 : list B64) a b l2 us c, us ++ [c] = l1 ++ a :: b :: l2 -> (b = c /\ us = l1 ++ [a]) \/ exists l3, us = l1 ++ a :: b :: l3).
  { intros l1 a b l2 us c E. destruct l2 as [|e l2 _] using rev_ind.
    - left. change (l1 ++ [a; b]) with (l1 ++ [a] ++ [b]) in E. rewrite app_assoc in E. apply app_inj_tail in E as (E1 & E2). auto.
    - right. exists l2. change (l1 ++ a :: b :: l2 ++ [e]) with (l1 ++ (a :: b :: l2) ++ [e]) in E. rewrite app_assoc in E. apply app_inj_tail in E as (E & _). exact E. }
  induction 1 as [|ts a H (I1 & I2) Ha|ts c a H (I1 & I2) Ha].
  - split; [intros l1 a b l2 E; destruct l1; discriminate|intros l a E; destruct l; discriminate].
  - split; [|intros l b E; apply app_inj_tail in E as (_ & <-); exact Ha]. intros l1 u v l2 E. destruct (SN _ _ _ _ _ _ E) as [(-> & _)|(l3 & E3)]; [right; exact Ha|exact (I1 _ _ _ _ E3)].
  - split; [|intros l b E; change (ts ++ [c; a]) with (ts ++ [c] ++ [a]) in E; rewrite app_assoc in E; apply app_inj_tail in E as (_ & <-); exact Ha].
    intros l1 u v l2 E. change (ts ++ [c; a]) with (ts ++ [c] ++ [a]) in E. rewrite app_assoc in E. destruct (SN _ _ _ _ _ _ E) as [(-> & _)|(l3 & E3)]; [right; exact Ha|].
    destruct (SN _ _ _ _ _ _ E3) as [(_ & E4)|(l4 & E4)]; [left; exact (I2 _ _ E4)|exact (I1 _ _ _ _ E4)].
Qed.
Lemma push_times (out out' : signal B64) x : push_back out x = Ok out' -> times out' = times out ++ [s_time x].
Proof.
  assert (OI : forall u v : signal B64, Ok u = Ok v -> u = v) by (intros u v E; injection E; auto).
  unfold push_back, push_back_st. destruct out as [|l out _] using rev_ind; [intros E; apply OI in E as <-; reflexivity|]. rewrite last_opt_snoc, removelast_last.
  destruct (nleb (s_time x) (s_time l)); [discriminate|]. intros E. apply OI in E as <-. unfold times. rewrite !map_app, <- app_assoc. reflexivity.
Qed.
Lemma step_alternates (A : B64 -> Prop) (out out' : signal B64) w pw' pl a : alternates A (times out) -> A (s_time a) -> pair_step out w pw' pl a = Ok out' -> alternates A (times out').
Proof.
  intros HA Ha HS. unfold pair_step in HS. apply bind_ok_inv in HS as (mid & H1 & H2). apply push_times in H2. rewrite H2.
  assert (K : times mid = times out \/ exists c, times mid = times out ++ [c]).
  { destruct w; [|injection H1 as <-; auto]. destruct pl, pw'; try discriminate. destruct (_ && _); [|injection H1 as <-; auto]. apply push_times in H1. right. eauto. }
  destruct K as [-> |(c & ->)]; [apply alt_one; assumption|]. rewrite <- app_assoc. apply alt_two; assumption.
Qed.
Lemma loop_alternates (A : B64 -> Prop) comp : forall xs ys pi pj last (out z : signal B64), (forall a, In a xs -> A (s_time a)) -> (forall b, In b ys -> A (s_time b)) -> alternates A (times out) ->
  pair_loop comp pi pj xs ys last out = Ok z -> alternates A (times z).
Proof.
  induction xs as [|i xs IH]; intros ys pi pj last out z HX HY HA HZ; [injection HZ as <-; exact HA|]. destruct ys as [|j ys]; [injection HZ as <-; exact HA|]. cbn [pair_loop] in HZ.
  assert (HX' : forall a, In a xs -> A (s_time a)) by (intros; apply HX; right; assumption). assert (HY' : forall a, In a ys -> A (s_time a)) by (intros; apply HY; right; assumption).
  destruct (comp i j); apply bind_ok_inv in HZ as (out' & H1 & H2); refine (IH ys _ _ _ out' z HX' HY' _ H2); eapply step_alternates; try exact H1; try exact HA; [apply HX|apply HY]; left; reflexivity.
Qed.

Section Tree.
Variables (V S H : R).
Hypothesis HV : lo <= V.
Hypothesis HV' : 4 * V <= hi.
Hypothesis HS : S <= hi.
Hypothesis HH : lo <= H <= S.
Hypothesis HlS : lo <= uu * S.
Hypothesis HgS : gap <= 1024 * uu * S.
Let L := ManyError.L V H.
Let unit := unit_error V S H.
Let tol := tolerance (2 * V) (2 * S).

Lemma near_exists dbg (p : bool) (x y : signal B64) f g r : near V S H f r x -> near V S H g r y -> unit <= r -> 2 * r <= V -> first_time (reals x) = first_time (reals y) ->
  (forall c, In c x \/ In c y -> reaches x (B2R (s_time c)) -> reaches y (B2R (s_time c)) -> 10 * r <= Rabs (f (B2R (s_time c)) - g (B2R (s_time c)))) ->
  exists z, minmax_pair dbg (comp_of p) false x y = Ok z /\ first_time (reals z) = first_time (reals x) /\
    (forall c, In c z -> (exists a, (In a x \/ In a y) /\ B2R (s_time c) = B2R (s_time a)) \/ Rabs (f (B2R (s_time c)) - g (B2R (s_time c))) < 7 * r) /\
    ((forall a b, In a x \/ In a y -> In b x \/ In b y -> reaches x (B2R (s_time a)) -> reaches y (B2R (s_time a)) -> reaches x (B2R (s_time b)) -> reaches y (B2R (s_time b)) ->
        B2R (s_time a) < B2R (s_time b) -> gap <= B2R (s_time b) - B2R (s_time a)) -> spaced gap z).
Proof.
  intros NX NY Hur HrV E0 HA. destruct (many_parts V S H HV HV' HS HH) as (V0 & H0 & S0 & L0 & LS & LH & _). fold L in L0, LS, LH. destruct (tree_tol V S H HV HV' HS HH) as (tol0 & tolV). fold tol in tol0, tolV.
  pose proof lo_hi as (l0 & L1 & L2). pose proof uu_small as Hu.
  assert (uuV : uu * V <= V / 1000000) by (assert (uu * V <= / 1000000 * V) by (apply Rmult_le_compat_r; lra); lra).
  assert (uuL : uu * (2 * V) <= uu * (L * S)) by (apply Rmult_le_compat_l; lra). assert (uu0 : 0 < uu * V) by (apply Rmult_lt_0_compat; lra).
  unfold unit, unit_error in Hur. fold L in Hur.
  pose proof NX as (Wx & Nx & Fx & Tx & _ & Lf & Bf). pose proof NY as (Wy & Ny & Fy & Ty & _ & Lg & Bg).
  assert (exists r, synchronize x y = Ok r) as ([x' y'] & HY).
  { apply sync_iff; auto. destruct x as [|a x]; [congruence|]. destruct y as [|b y]; [congruence|]. exists a, b. split; [left; reflexivity|]. split; [left; reflexivity|]. split; [|right; reflexivity].
    apply B2R_eqb; [apply (proj1 (Forall_forall _ _) Fx a (or_introl eq_refl))|apply (proj1 (Forall_forall _ _) Fy b (or_introl eq_refl))|exact E0]. }
  pose proof (sync_sym _ _ _ _ Wx Wy HY) as HY'. destruct (sync_out _ _ _ _ Wx Wy HY) as (Wx' & Wy' & Nx' & Ny' & T).
  assert (CX := fun c => near_sync V S H HV HV' HS HH f r x y x' y' c NX ltac:(lra) Wy Fy HY). assert (CY := fun c => near_sync V S H HV HV' HS HH g r y x y' x' c NY ltac:(lra) Wx Fx HY'). fold tol in CX, CY.
  assert (Fx' : fins x') by (apply Forall_forall; intros c Hc; destruct (CX c Hc) as (? & ? & _); auto).
  assert (Fy' : fins y') by (apply Forall_forall; intros c Hc; destruct (CY c Hc) as (? & ? & _); auto).
  set (a0 := Rmax (first_time (reals x)) (first_time (reals y))). set (b0 := Rmin (final_time (reals x)) (final_time (reals y))).
  assert (RX : forall c, In c x' -> a0 <= B2R (s_time c) <= b0 /\ first_time (reals x) <= B2R (s_time c) <= final_time (reals x) /\ first_time (reals y) <= B2R (s_time c) <= final_time (reals y)).
  { intros c Hc. destruct (sync_time_range x y x' y' Wx Wy Nx Ny Fx Fy HY c Hc) as (R1 & R2). split; [|auto]. unfold a0, b0. split; [apply Rmax_lub; lra|apply Rmin_glb; lra]. }
  assert (RY : forall c, In c y' -> a0 <= B2R (s_time c) <= b0 /\ first_time (reals x) <= B2R (s_time c) <= final_time (reals x) /\ first_time (reals y) <= B2R (s_time c) <= final_time (reals y)).
  { intros c Hc. destruct (sync_time_range y x y' x' Wy Wx Ny Nx Fy Fx HY' c Hc) as (R1 & R2). split; [|auto]. unfold a0, b0. split; [apply Rmax_lub; lra|apply Rmin_glb; lra]. }
  assert (AB : first_time (reals x) <= a0 /\ first_time (reals y) <= a0 /\ b0 <= final_time (reals x) /\ b0 <= final_time (reals y)) by (unfold a0, b0; split; [apply Rmax_l|split; [apply Rmax_r|split; [apply Rmin_l|apply Rmin_r]]]).
  clearbody a0 b0. destruct AB as (AB1 & AB2 & AB3 & AB4).
  assert (TS : forall t, first_time (reals x) <= t <= final_time (reals x) -> Rabs t <= S).
  { intros t Dt. destruct (first_in x Nx) as (c1 & Hc1 & E1). destruct (final_in x Nx) as (c2 & Hc2 & E2). pose proof (Tx c1 Hc1) as Q1. pose proof (Tx c2 Hc2) as Q2. rewrite E1 in Q1. rewrite E2 in Q2. apply Rabs_le_inv in Q1, Q2. apply Rabs_le. lra. }
  (* times of the aligned samples *)
  assert (TM : forall c, In c x' -> exists a, (In a x \/ In a y) /\ s_time a = s_time c).
  { intros c Hc. destruct (sync_from _ _ _ _ Wx Wy HY) as (K & _). rewrite Forall_forall in K. destruct (K c Hc) as (_ & [(a & Ha & Ea)|(b & Hb & Eb)]); [exists a|exists b]; auto. }
  assert (OKX : forall c, In c x' -> sample_ok (2 * V) S c /\ a0 <= B2R (s_time c) <= b0 /\ Rabs (B2R (s_value c) - f (B2R (s_time c))) <= 2 * (r + tol) / 2).
  { intros c Hc. destruct (CX c Hc) as (C1 & C2 & C3). destruct (RX c Hc) as (C4 & C5 & C6). destruct (Bf _ C5) as (C8 & C7).
    assert (C9 : Rabs (B2R (s_value c) - f (B2R (s_time c))) <= 2 * (r + tol) / 2) by (apply Rabs_le_inv in C3, C7; apply Rabs_le; lra).
    split; [|auto]. repeat (split; [assumption|]). split; [apply TS, C5|]. apply Rabs_le_inv in C9, C8. apply Rabs_le. lra. }
  assert (OKY : forall c, In c y' -> sample_ok (2 * V) S c /\ a0 <= B2R (s_time c) <= b0 /\ Rabs (B2R (s_value c) - g (B2R (s_time c))) <= 2 * (r + tol) / 2).
  { intros c Hc. destruct (CY c Hc) as (C1 & C2 & C3). destruct (RY c Hc) as (C4 & C5 & C6). destruct (Bg _ C6) as (C8 & C7).
    assert (C9 : Rabs (B2R (s_value c) - g (B2R (s_time c))) <= 2 * (r + tol) / 2) by (apply Rabs_le_inv in C3, C7; apply Rabs_le; lra).
    split; [|auto]. repeat (split; [assumption|]). split; [apply TS, C5|]. apply Rabs_le_inv in C9, C8. apply Rabs_le. lra. }
  assert (Lf' : lipschitz L f a0 b0) by (intros t u A1 A2 A3; apply Lf; lra). assert (Lg' : lipschitz L g a0 b0) by (intros t u A1 A2 A3; apply Lg; lra).
  assert (SX : steps (2 * V) S (slope_rel L (2 * (r + tol))) x') by (apply (lip_steps V S H (2 * (r + tol)) x' f a0 b0 Wx' OKX Lf')).
  assert (SY : steps (2 * V) S (slope_rel L (2 * (r + tol))) y') by (apply (lip_steps V S H (2 * (r + tol)) y' g a0 b0 Wy' OKY Lg')).
  set (K := 260 * uu * (L * S) + 128 * uu * (2 * V) + 2 * (2 * (r + tol))).
  assert (LV : 2 * V <= L * S) by lra. assert (KR : K + 2 * (r + tol) < 7 * r) by (unfold K; lra).
  assert (PI : forall a b, In (a, b) (combine x' y') -> B2R (s_time b) = B2R (s_time a)).
  { intros a b Hab. assert (E : neqb (s_time a) (s_time b) = true) by (clear - T Hab; induction T as [|u w us ws E T IH]; [destruct Hab|destruct Hab as [Hab|Hab]; [injection Hab as <- <-; exact E|auto]]).
    symmetry. apply eq_B2R; [apply (CX a (in_combine_l _ _ _ _ Hab))|apply (CY b (in_combine_r _ _ _ _ Hab))|exact E]. }
  destruct (pair_general (2 * V) S K (slope_rel L (2 * (r + tol))) (slope_gap (2 * V) S L (2 * (r + tol)) ltac:(lra) HS HlS LV LH ltac:(lra)) (slope_on_time (2 * V) S L (2 * (r + tol)) ltac:(lra) HS HlS LV LH ltac:(lra)) p dbg x' y' Wx' Wy' Nx' T SX SY) as (z & Hz & Q).
  { intros a b Hab. pose proof (in_combine_l _ _ _ _ Hab) as Ha. pose proof (in_combine_r _ _ _ _ Hab) as Hb. destruct (OKX a Ha) as (_ & _ & A1). destruct (OKY b Hb) as (_ & _ & B1). rewrite (PI a b Hab) in B1.
    destruct (TM a Ha) as (c & Hc & Ec). destruct (RX a Ha) as (_ & R1 & R2). pose proof (HA c Hc) as A2. rewrite Ec in A2. specialize (A2 R1 R2).
    set (u := B2R (s_value a)) in *. set (v := B2R (s_value b)) in *. set (fu := f (B2R (s_time a))) in *. set (fv := g (B2R (s_time a))) in *. clearbody u v fu fv. clear - A1 A2 B1 KR.
    revert A1 A2 B1. unfold Rabs. destruct (Rcase_abs (u - fu)), (Rcase_abs (fu - fv)), (Rcase_abs (v - fv)), (Rcase_abs (u - v)); lra. }
  assert (Hz' : minmax_pair dbg (comp_of p) false x y = Ok z) by (unfold minmax_pair in Hz |- *; rewrite HY; exact Hz).
  exists z. split; [exact Hz'|].
  destruct (slope_pair (2 * V) S L (2 * (r + tol)) ltac:(lra) HS HlS LS LH ltac:(lra) dbg p x' y' z f g a0 b0 Wx' Wy' Nx' T OKX OKY Lf' Lg' Hz) as (S1 & S2 & S3 & S4 & S5 & _).
  assert (FX : forall t, first_time (reals x') <= t <= final_time (reals x') -> first_time (reals x) <= t <= final_time (reals x) /\ first_time (reals y) <= t <= final_time (reals y)).
  { intros t Dt. destruct (first_in x' Nx') as (d1 & Hd1 & G1). destruct (final_in x' Nx') as (d2 & Hd2 & G2). destruct (RX d1 Hd1) as (_ & G3 & G5). destruct (RX d2 Hd2) as (_ & G4 & G6). lra. }
  split.
  { rewrite S4. destruct (first_in x Nx) as (c & Hc & Ec). destruct (first_in y Ny) as (c2 & Hc2 & Ec2). pose proof (in_range x c Wx Fx Hc) as D1. pose proof (in_range y c2 Wy Fy Hc2) as D2.
    assert (DX : first_time (reals x') <= first_time (reals x) <= final_time (reals x')) by (apply (sync_domain x y x' y' _ Wx Wy Nx Ny Fx Fy Fx' HY); lra).
    destruct (first_in x' Nx') as (d1 & Hd1 & G1). destruct (RX d1 Hd1) as (_ & G3 & _). lra. }
  assert (CR : forall c, In c z -> (exists a, (In a x \/ In a y) /\ B2R (s_time c) = B2R (s_time a)) \/ Rabs (f (B2R (s_time c)) - g (B2R (s_time c))) < 7 * r).
  { intros c Hc. destruct (Q c Hc) as [(a & Ha & Ea)|Q1].
  - left. destruct (TM a Ha) as (a' & Ha' & Et). exists a'. split; [exact Ha'|]. rewrite Et. exact Ea.
  - right. pose proof (in_range z c S1 S3 Hc) as D. rewrite S4, S5 in D.
    assert (D' : first_time (reals y') <= B2R (s_time c) <= final_time (reals y')). { destruct (ends_agree x' y' Fx' Fy' T) as (Q3 & Q4). rewrite Q3, Q4. exact D. }
    destruct (FX _ D) as (DX & DY).
    pose proof (sync_close x y x' y' tol Wx Wy Nx Ny Fx Fy Fx' HY tol0 (fun c Hc => proj2 (proj2 (CX c Hc))) _ D) as W1.
    pose proof (sync_close y x y' x' tol Wy Wx Ny Nx Fy Fx Fy' HY' tol0 (fun c Hc => proj2 (proj2 (CY c Hc))) _ D') as W2.
    destruct (Bf _ DX) as (_ & W3). destruct (Bg _ DY) as (_ & W4). apply Rabs_le_inv in Q1, W1, W2, W3, W4. apply Rabs_def1; lra. }
  split; [exact CR|]. intros AP z1 c c' z2 Ez.
  assert (Hc : In c z) by (rewrite Ez; apply in_or_app; right; left; reflexivity). assert (Hc' : In c' z) by (rewrite Ez; apply in_or_app; right; right; left; reflexivity).
  assert (Lc : B2R (s_time c) < B2R (s_time c')).
  { apply lt_B2R; [apply (proj1 (Forall_forall _ _) S3 c Hc)|apply (proj1 (Forall_forall _ _) S3 c' Hc')|]. destruct S1 as (_ & I & _). rewrite Ez in I. eapply later; [exact I|left; reflexivity]. }
  assert (RZ : forall e : sample B64, In e z -> reaches x (B2R (s_time e)) /\ reaches y (B2R (s_time e))) by (intros e He; apply FX; pose proof (in_range z e S1 S3 He) as D; rewrite S4, S5 in D; exact D).
  destruct (RZ c Hc) as (Rx & Ry). destruct (RZ c' Hc') as (Rx' & Ry').
  assert (AL : (exists a, (In a x \/ In a y) /\ B2R (s_time c) = B2R (s_time a)) \/ (exists a, (In a x \/ In a y) /\ B2R (s_time c') = B2R (s_time a))).
  { set (A := fun t : B64 => exists a, (In a x \/ In a y) /\ B2R t = B2R (s_time a)).
    assert (KA : alternates A (times z)).
    { unfold minmax_pair in Hz. cbn [bind] in Hz. apply bind_ok_inv in Hz as (_ & _ & Hz). apply bind_ok_inv in Hz as (_ & _ & Hz). apply bind_ok_inv in Hz as (_ & _ & Hz).
      apply (loop_alternates A _ _ _ _ _ _ _ _ ) in Hz; [exact Hz| | |constructor].
      - intros a Ha. destruct (TM a Ha) as (a' & Ha' & Et). exists a'. rewrite Et. auto.
      - intros b Hb. destruct (sync_from _ _ _ _ Wy Wx HY') as (Kf & _). rewrite Forall_forall in Kf. destruct (Kf b Hb) as (_ & [(a & Ha & Ea)|(a & Ha & Ea)]); exists a; rewrite Ea; auto. }
    apply alternates_pairs in KA as (KA & _). apply (KA (times z1) (s_time c) (s_time c') (times z2)). rewrite Ez. unfold times. rewrite map_app. reflexivity. }
  assert (LIP : 3 * r <= 2 * L * (B2R (s_time c') - B2R (s_time c)) -> gap <= B2R (s_time c') - B2R (s_time c)).
  { intros Q3. set (D := B2R (s_time c') - B2R (s_time c)) in *. assert (L * (1536 * uu * S) <= L * D) by lra. apply Rmult_le_reg_l in H1; [|exact L0]. lra. }
  pose proof (Lf (B2R (s_time c)) (B2R (s_time c')) ltac:(apply Rx) ltac:(lra) ltac:(apply Rx')) as LF. pose proof (Lg (B2R (s_time c)) (B2R (s_time c')) ltac:(apply Ry) ltac:(lra) ltac:(apply Ry')) as LG.
  assert (FAR : forall (e a : sample B64), In a x \/ In a y -> B2R (s_time e) = B2R (s_time a) -> reaches x (B2R (s_time e)) -> reaches y (B2R (s_time e)) -> 10 * r <= Rabs (f (B2R (s_time e)) - g (B2R (s_time e)))).
  { intros e a Ha -> R1 R2. exact (HA a Ha R1 R2). }
  assert (SUM : forall u v : R, u <= L * (B2R (s_time c') - B2R (s_time c)) -> v <= L * (B2R (s_time c') - B2R (s_time c)) -> u + v <= 2 * L * (B2R (s_time c') - B2R (s_time c))) by (intros u v Hu' Hv; rewrite Rmult_assoc; lra).
  assert (TRI : forall u v w t : R, 10 * r <= Rabs (u - v) -> Rabs (w - t) < 7 * r -> 3 * r <= Rabs (w - u) + Rabs (t - v)) by (clear; intros u v w t; unfold Rabs; repeat destruct Rcase_abs; lra).
  destruct AL as [(a & Ha & Ea)|(a & Ha & Ea)].
  - destruct (CR c' Hc') as [(b & Hb & Eb)|C]; [rewrite Ea, Eb in *; apply AP; assumption|]. apply LIP. exact (Rle_trans _ _ _ (TRI _ _ _ _ (FAR c a Ha Ea Rx Ry) C) (SUM _ _ LF LG)).
  - destruct (CR c Hc) as [(b & Hb & Eb)|C]; [rewrite Ea, Eb in *; apply AP; assumption|]. apply LIP. pose proof (TRI _ _ _ _ (FAR c' a Ha Ea Rx' Ry') C) as T3. rewrite (Rabs_minus_sym (f _)), (Rabs_minus_sym (g _)) in T3. exact (Rle_trans _ _ _ T3 (SUM _ _ LF LG)).
Qed.

Lemma spaced_apart (x : signal B64) a b : wf x -> fins x -> spaced gap x -> In a x -> In b x -> B2R (s_time a) < B2R (s_time b) -> gap <= B2R (s_time b) - B2R (s_time a).
Proof.
  intros W F P Ha Hb L1. apply in_split in Ha as (x1 & x2 & ->). destruct x2 as [|c x2].
  - exfalso. apply in_app_or in Hb as [Hb|[<-|[]]]; [|lra]. apply in_split in Hb as (x3 & x4 & ->). rewrite <- app_assoc in W, F. cbn [app] in W, F.
    assert (B2R (s_time b) < B2R (s_time a)); [|lra]. apply lt_B2R; [apply (proj1 (Forall_forall _ _) F b); apply in_or_app; right; left; reflexivity|apply (proj1 (Forall_forall _ _) F a); apply in_or_app; right; right; apply in_or_app; right; left; reflexivity|].
    destruct W as (_ & I & _). eapply later; [exact I|apply in_or_app; right; left; reflexivity].
  - specialize (P x1 a c x2 eq_refl). assert (B2R (s_time c) <= B2R (s_time b)); [|lra].
    assert (FF : forall e, In e (x1 ++ a :: c :: x2) -> finite (s_time e) = true) by (intros e He; apply (proj1 (Forall_forall _ _) F e He)).
    assert (Ia : In a (x1 ++ a :: c :: x2)) by (apply in_or_app; right; left; reflexivity). assert (Ic : In c (x1 ++ a :: c :: x2)) by (apply in_or_app; right; right; left; reflexivity).
    pose proof W as (_ & I & _). pose proof Hb as Hb'. apply in_app_or in Hb as [Hb|[<-|[<-|Hb]]]; [|lra|lra|].
    + exfalso. apply in_split in Hb as (x3 & x4 & ->). rewrite <- app_assoc in I. cbn [app] in I. assert (B2R (s_time b) < B2R (s_time a)); [|lra]. apply lt_B2R; [apply FF, Hb'|apply FF, Ia|]. eapply later; [exact I|apply in_or_app; right; left; reflexivity].
    + apply Rlt_le, lt_B2R; [apply FF, Ic|apply FF, Hb'|]. change (x1 ++ a :: c :: x2) with (x1 ++ [a] ++ c :: x2) in I. rewrite app_assoc in I. eapply later; [exact I|exact Hb].
Qed.

(** ** Leaves in general position *)
Variables (leaf : nat -> R -> R) (defd : nat -> R -> Prop) (stamp : R -> Prop) (N : nat) (d b0 : R).
Hypothesis GP1 : forall i j t, (i < j < N)%nat -> stamp t -> defd i t -> defd j t -> d <= Rabs (leaf i t - leaf j t).
Hypothesis GP2 : forall i j k l t, (i < j < N)%nat -> (k < l < N)%nat -> (i, j) <> (k, l) -> defd i t -> defd j t -> defd k t -> defd l t ->
  Rabs (leaf i t - leaf j t) < d -> d <= Rabs (leaf k t - leaf l t).

(** The trace alone keeps the results' samples apart: sample times do, and the leaves have bounded slope. *)
Definition input_apart : Prop :=
  (forall t u, stamp t -> stamp u -> t < u -> gap <= u - t) /\
  (forall i t u, defd i t -> defd i u -> Rabs (leaf i u - leaf i t) <= L * Rabs (u - t)).

(** [z] is computed from leaves [b], ..., [b + n - 1], all with sign [s]. *)
Definition node (s : R) (f : R -> R) (r : R) (z : signal B64) (b n : nat) : Prop :=
  near V S H f r z /\ first_time (reals z) = b0 /\
  (forall t, reaches z t -> exists k, (b <= k < b + n)%nat /\ f t = s * leaf k t) /\
  (forall t k, reaches z t -> (b <= k < b + n)%nat -> defd k t) /\
  forall c, In c z -> stamp (B2R (s_time c)) \/ exists i j, (b <= i)%nat /\ (i < j < b + n)%nat /\ Rabs (leaf i (B2R (s_time c)) - leaf j (B2R (s_time c))) < d - 3 * unit.

Lemma node_pair dbg p s x y f g r b n k : s = 1 \/ s = -1 -> node s f r x b n -> node s g r y (b + n) k -> unit <= r -> 2 * r <= V -> 10 * r <= d -> (b + n + k <= N)%nat ->
  exists z, minmax_pair dbg (comp_of p) false x y = Ok z /\ (input_apart \/ spaced gap z -> node s (fun t => sbest (QuantFacts.sgp p) (f t) (g t)) (10 * r) z b (n + k)).
Proof.
  intros Hs (NX & E1 & SX & DX & TX) (NY & E2 & SY & DY & TY) Hu Hr Hd HN.
  assert (SG : forall u v, Rabs (s * u - s * v) = Rabs (u - v)). { intros u v. destruct Hs as [-> | ->]; [f_equal; ring|]. rewrite <- Rabs_Ropp. f_equal. ring. }
  pose proof (unit_pos V S H HV HV' HS HH) as U0. fold unit in U0.
  destruct (near_exists dbg p x y f g r NX NY Hu Hr ltac:(lra)) as (z & Hz & Fz & Q & QS).
  { intros c Hc Rx Ry. destruct (SX _ Rx) as (i & Hi & ->). destruct (SY _ Ry) as (j & Hj & ->). rewrite SG. eapply Rle_trans; [exact Hd|].
    assert (HT : stamp (B2R (s_time c)) \/ exists i' j', (i' < j' < N)%nat /\ (i', j') <> (i, j) /\ defd i' (B2R (s_time c)) /\ defd j' (B2R (s_time c)) /\ Rabs (leaf i' (B2R (s_time c)) - leaf j' (B2R (s_time c))) < d - 3 * unit).
    { destruct Hc as [Hc|Hc]; [destruct (TX c Hc) as [T|(i' & j' & A1 & A2 & A3)]|destruct (TY c Hc) as [T|(i' & j' & A1 & A2 & A3)]]; [left; exact T|right|left; exact T|right]; exists i', j';
        (split; [lia|]); (split; [intros E; injection E as -> ->; lia|]); [split; [apply DX; [exact Rx|lia]|split; [apply DX; [exact Rx|lia]|exact A3]]|split; [apply DY; [exact Ry|lia]|split; [apply DY; [exact Ry|lia]|exact A3]]]. }
    destruct HT as [HT|(i' & j' & A1 & A2 & A3 & A4 & A5)].
    - apply GP1; [lia|exact HT|apply DX; [exact Rx|lia]|apply DY; [exact Ry|lia]].
    - apply (GP2 i' j' i j); [exact A1|lia|exact A2|exact A3|exact A4|apply DX; [exact Rx|lia]|apply DY; [exact Ry|lia]|lra]. }
  exists z. split; [exact Hz|]. intros Pz'. assert (Pz : spaced gap z).
  { destruct Pz' as [(AP1 & AP2)|Pz]; [|exact Pz]. apply QS. intros a a' Ha Hb Rxa Rya Rxb Ryb Lab.
    pose proof NX as (Wx & _ & Fx & _ & Px & _). pose proof NY as (Wy & _ & Fy & _ & Py & _).
    destruct (many_parts V S H HV HV' HS HH) as (_ & _ & _ & L0 & _). fold L in L0.
    (* two leaves close at one time and apart at the other *)
    assert (LIP : forall i j t u, defd i t -> defd i u -> defd j t -> defd j u -> Rabs (leaf i t - leaf j t) < d - 3 * unit -> d <= Rabs (leaf i u - leaf j u) -> gap <= Rabs (u - t)).
    { intros i j t u D1 D2 D3 D4 C1 C2. pose proof (AP2 i t u D1 D2) as E3. pose proof (AP2 j t u D3 D4) as E4.
      assert (3 * unit <= 2 * L * Rabs (u - t)). { clear - C1 C2 E3 E4. set (q := Rabs (u - t)) in *. clearbody q. revert C1 C2 E3 E4. unfold Rabs. repeat destruct Rcase_abs; lra. }
      unfold unit, unit_error in H0. fold L in H0. assert (K : L * (1536 * uu * S) <= L * Rabs (u - t)) by lra. apply Rmult_le_reg_l in K; [|exact L0].
      pose proof uu_small. assert (0 <= uu * S) by (destruct (many_parts V S H HV HV' HS HH) as (_ & _ & S0 & _); apply Rmult_le_pos; lra). lra. }
    (* one sample of each operand *)
    assert (MIX : forall (e h : sample B64), In e x -> In h y -> reaches x (B2R (s_time e)) -> reaches y (B2R (s_time e)) -> reaches x (B2R (s_time h)) -> reaches y (B2R (s_time h)) ->
      B2R (s_time e) <> B2R (s_time h) -> gap <= Rabs (B2R (s_time h) - B2R (s_time e))).
    { intros e h He Hh R1 R2 R3 R4 NE. destruct (TX e He) as [T|(i & j & A1 & A2 & A3)].
      - destruct (TY h Hh) as [T'|(i & j & B1 & B2 & B3)].
        + destruct (Rlt_or_le (B2R (s_time e)) (B2R (s_time h))) as [C|C]; [rewrite Rabs_pos_eq by lra; apply AP1; assumption|].
          rewrite Rabs_minus_sym, Rabs_pos_eq by lra. apply AP1; [assumption|assumption|]. lra.
        + rewrite Rabs_minus_sym. apply (LIP i j); try (apply DY; [assumption|lia]); [exact B3|]. apply GP1; [lia|exact T|apply DY; [assumption|lia]|apply DY; [assumption|lia]].
      - apply (LIP i j); try (apply DX; [assumption|lia]); [exact A3|]. destruct (TY h Hh) as [T'|(i' & j' & B1 & B2 & B3)].
        + apply GP1; [lia|exact T'|apply DX; [assumption|lia]|apply DX; [assumption|lia]].
        + apply (GP2 i' j' i j); [lia|lia|intros E; injection E as -> ->; lia|apply DY; [assumption|lia]|apply DY; [assumption|lia]|apply DX; [assumption|lia]|apply DX; [assumption|lia]|lra]. }
    destruct Ha as [Ha|Ha], Hb as [Hb|Hb].
    - apply (spaced_apart x); assumption.
    - pose proof (MIX a a' Ha Hb Rxa Rya Rxb Ryb ltac:(lra)) as M. rewrite Rabs_pos_eq in M by lra. exact M.
    - pose proof (MIX a' a Hb Ha Rxb Ryb Rxa Rya ltac:(lra)) as M. rewrite Rabs_minus_sym, Rabs_pos_eq in M by lra. exact M.
    - apply (spaced_apart y); assumption. }
  destruct (near_step V S H HV HV' HS HH HlS dbg p x y z f g r NX NY Hu Hr Pz Hz) as (NZ & DI).
  split; [exact NZ|]. split; [rewrite Fz; exact E1|]. split; [|split].
  - intros t Ht. apply DI in Ht as (Rx & Ry). destruct (SX t Rx) as (i & Hi & Ei). destruct (SY t Ry) as (j & Hj & Ej). unfold sbest. destruct (Rle_dec _ _); [exists i|exists j]; (split; [lia|assumption]).
  - intros t q Ht Hq. apply DI in Ht as (Rx & Ry). destruct (Nat.lt_ge_cases q (b + n)) as [C|C]; [apply DX; [exact Rx|lia]|apply DY; [exact Ry|lia]].
  - intros c Hc. destruct (Q c Hc) as [(a & Ha & ->)|C].
    + destruct Ha as [Ha|Ha]; [destruct (TX a Ha) as [T|(i & j & A1 & A2 & A3)]|destruct (TY a Ha) as [T|(i & j & A1 & A2 & A3)]]; [left; exact T|right|left; exact T|right]; exists i, j; (split; [lia|]); (split; [lia|exact A3]).
    + right. destruct NZ as (Wz & Nz & Fnz & _). pose proof (in_range z c Wz Fnz Hc) as D. apply DI in D as (Rx & Ry). destruct (SX _ Rx) as (i & Hi & Ei). destruct (SY _ Ry) as (j & Hj & Ej). rewrite Ei, Ej, SG in C.
      exists i, j. split; [lia|]. split; [lia|]. lra.
Qed.
Lemma node_weaken s f r r' z b n : node s f r z b n -> r <= r' -> node s f r' z b n.
Proof. intros (A & B) Hr. split; [eapply near_weaken; eauto|exact B]. Qed.

Fixpoint nodes (s : R) (b : nat) (ops : list operand) : Prop :=
  match ops with
  | [] => True
  | (y, g, k) :: ops => (1 <= k)%nat /\ node s g (unit * 10 ^ (k - 1)) y b k /\ nodes s (b + k) ops
  end.

Lemma fold_nodes dbg p s : s = 1 \/ s = -1 -> forall ops b n f z, (1 <= n)%nat -> node s f (unit * 10 ^ (n - 1)) z b n -> nodes s (b + n) ops -> (b + n + count ops <= N)%nat ->
  unit * 10 ^ (n + count ops - 1) <= V -> unit * 10 ^ (n + count ops - 1) <= d ->
  input_apart \/ (forall k y, minmax_fold dbg (comp_of p) false z (firstn k (map (fun o => fst (fst o)) ops)) = Ok y -> spaced gap y) ->
  exists z' f', minmax_fold dbg (comp_of p) false z (map (fun o => fst (fst o)) ops) = Ok z' /\ node s f' (unit * 10 ^ (n + count ops - 1)) z' b (n + count ops).
Proof.
  intros Hs. induction ops as [|((y, g), k) ops IH]; intros b n f z Hn Hz F HN HV0 Hd HP; cbn [map minmax_fold count fold_right fst snd nodes] in *.
  - rewrite Nat.add_0_r. exists z, f. split; [reflexivity|exact Hz].
  - destruct F as (Hk & Hy & Fs). fold (count ops) in *. pose proof (unit_pos V S H HV HV' HS HH) as U0. fold unit in U0. set (m := (n + k - 2)%nat).
    assert (PM : forall a c, (a <= c)%nat -> unit * 10 ^ a <= unit * 10 ^ c) by (intros; apply pow_mono; assumption).
    assert (M1 : unit <= unit * 10 ^ m) by (rewrite <- (Rmult_1_r unit) at 1; change 1 with (10 ^ 0); apply PM; lia).
    assert (M2 : 10 * (unit * 10 ^ m) = unit * 10 ^ (n + k - 1)). { replace (n + k - 1)%nat with (Datatypes.S m) by (unfold m; lia). cbn [pow]. ring. }
    assert (M3 : unit * 10 ^ (n + k - 1) <= unit * 10 ^ (n + (k + count ops) - 1)) by (apply PM; lia).
    destruct (node_pair dbg p s z y f g (unit * 10 ^ m) b n k Hs) as (z1 & Hz1 & Nz1); try lra; [| |lia|].
    { eapply node_weaken; [exact Hz|]. apply PM. unfold m. lia. }
    { eapply node_weaken; [exact Hy|]. apply PM. unfold m. lia. }
    assert (Pz1 : input_apart \/ spaced gap z1) by (destruct HP as [HP|HP]; [left; exact HP|right; apply (HP 1%nat); cbn [firstn minmax_fold]; rewrite Hz1; reflexivity]).
    specialize (Nz1 Pz1). rewrite M2 in Nz1. rewrite Hz1. unfold bind at 1. replace (n + (k + count ops))%nat with (n + k + count ops)%nat in * by lia.
    apply (IH b (n + k)%nat (fun t => sbest (QuantFacts.sgp p) (f t) (g t)) z1); [lia|exact Nz1|rewrite Nat.add_assoc; exact Fs|lia|exact HV0|exact Hd|].
    destruct HP as [HP|HP]; [left; exact HP|right]. intros i w Hw. apply (HP (Datatypes.S i)). cbn [firstn minmax_fold]. rewrite Hz1. exact Hw.
Qed.
End Tree.
