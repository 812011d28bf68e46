(** Minimum and maximum of signals that are apart where they change places (C116). *)
From Coq Require Import Reals Lra Lia Sorted.
From Flocq Require Import Core.Core IEEE754.BinarySingleNaN.
From Verif Require Import Base Num NumB64.
From Verif.Model Require Import Signal MinMax Ast Robustness.
From Verif.Spec Require Import SignalSpec Formula Crossing Accuracy Uniform Apart.
From Verif.Proofs Require Import NumFacts SignalFacts B64Facts MinMaxFacts MinMaxCases RobFacts RobWf InterpError CrossingError SyncError PairBound UntilFacts UniformFacts SignalProps RobExamples AccuracyExamples MinMaxExamples UniformExamples.
Local Open Scope R_scope.

Lemma prefix_length {A} : forall (l1 m1 l2 m2 : list A), length l1 = length m1 -> l1 ++ l2 = m1 ++ m2 -> l1 = m1 /\ l2 = m2.
Proof.
  induction l1 as [|a l1 IH]; intros [|b m1] l2 m2 L E; try discriminate; [auto|].
  injection E as -> E. destruct (IH m1 l2 m2) as [-> ->]; auto.
Qed.

Lemma crossing_in_time V S (i i' j j' : sample B64) : lo <= V <= hi -> S <= hi ->
  (forall a, In a [i; i'; j; j'] -> finite (s_time a) = true /\ finite (s_value a) = true /\ Rabs (B2R (s_time a)) <= S /\ Rabs (B2R (s_value a)) <= V) ->
  lo <= B2R (s_time i') - B2R (s_time i) -> neqb (s_time i) (s_time j) = true -> neqb (s_time i') (s_time j') = true ->
  s_deriv i = ndiv (nsub (s_value i') (s_value i)) (nsub (s_time i') (s_time i)) ->
  s_deriv j = ndiv (nsub (s_value j') (s_value j)) (nsub (s_time j') (s_time j)) ->
  bpow radix2 (-46) * V * S <= Rabs (B2R (s_value i') - B2R (s_value j')) * (B2R (s_time i') - B2R (s_time i)) ->
  (B2R (s_value i) - B2R (s_value j)) * (B2R (s_value i') - B2R (s_value j')) <= 0 ->
  finite (time_intersect i j) = true /\ B2R (time_intersect i j) <= B2R (s_time i').
Proof.
  intros HV HS H Hh E0 E1 Di Dj Hs Ho.
  destruct (H i ltac:(cbn; auto)) as (A1 & A2 & A3 & A4). destruct (H i' ltac:(cbn; auto)) as (A1' & A2' & A3' & A4').
  destruct (H j ltac:(cbn; auto)) as (B1 & B2 & B3 & B4). destruct (H j' ltac:(cbn; auto)) as (B1' & B2' & B3' & B4').
  apply eq_B2R in E0; auto. apply eq_B2R in E1; auto. pose proof lo_hi as (L & _).
  set (h := B2R (s_time i') - B2R (s_time i)) in *.
  assert (HhS : h <= 2 * S). { apply Rabs_le_inv in A3. apply Rabs_le_inv in A3'. unfold h. lra. }
  apply (crossing_near V S h HV HS Hh HhS i j (s_value i') (s_value j') (s_time i')) with (ta := s_time i') (tb := s_time j'); auto.
  assert (h0 : 0 < h) by lra. apply Rmult_le_reg_r with h; [exact h0|].
  replace (128 * uu * (V / h * S) * h) with (128 * uu * V * S) by (field; lra).
  replace (128 * uu) with (bpow radix2 (-46)); [exact Hs|]. unfold uu. change 128 with (bpow radix2 7). rewrite <- bpow_plus. reflexivity.
Qed.

Lemma apart_not_late (worse : B64 -> B64 -> bool) V S (x y : signal B64) : wf x -> wf y ->
  (worse = nltb \/ worse = fun v w => nltb w v) ->
  Forall2 (fun a b => neqb (s_time a) (s_time b) = true) x y -> lo <= V <= hi -> S <= hi -> sized V S x -> sized V S y -> apart V S x y ->
  ~ late_crossing worse x y.
Proof.
  intros Wx Wy HW T HV HS RX RY A (x1 & i & i' & x2 & y1 & j & j' & y2 & Ex & Ey & L & H).
  assert (T0 : neqb (s_time i) (s_time j) = true /\ neqb (s_time i') (s_time j') = true).
  { pose proof T as T9. rewrite Ex, Ey in T9. apply Forall2_app_inv_l in T9 as (l1 & l2 & T1 & T2 & E). 
    assert (l1 = y1 /\ l2 = j :: j' :: y2) as [-> ->].
    { apply prefix_length; [|symmetry; exact E]. rewrite <- L. clear -T1. induction T1; cbn; congruence. }
    inversion T2 as [|? ? ? ? Q1 T3]; subst. inversion T3; subst. auto. }
  destruct T0 as (T0 & T1). unfold sized in RX, RY. destruct RX as [Rx Gx]. destruct RY as [Ry Gy].
  assert (Ix : forall a, In a [i; i'] -> In a x) by (intros a Ha; rewrite Ex; apply in_or_app; right; cbn in *; tauto).
  assert (Iy : forall a, In a [j; j'] -> In a y) by (intros a Ha; rewrite Ey; apply in_or_app; right; cbn in *; tauto).
  assert (R : forall a, In a [i; i'; j; j'] -> finite (s_time a) = true /\ finite (s_value a) = true /\ Rabs (B2R (s_time a)) <= S /\ Rabs (B2R (s_value a)) <= V).
  { intros a Ha. cbn in Ha. destruct Ha as [<-|[<-|[<-|[<-|[]]]]]; first [apply Rx, Ix; cbn; tauto|apply Ry, Iy; cbn; tauto]. }
  assert (R' : forall a, In a [j; j'; i; i'] -> finite (s_time a) = true /\ finite (s_value a) = true /\ Rabs (B2R (s_time a)) <= S /\ Rabs (B2R (s_value a)) <= V).
  { intros a Ha. apply R. cbn in *. tauto. }
  pose proof (Gx _ _ _ _ Ex) as Gi. pose proof (Gy _ _ _ _ Ey) as Gj.
  assert (Di : s_deriv i = ndiv (nsub (s_value i') (s_value i)) (nsub (s_time i') (s_time i))) by (apply (slope_of x1 i i' x2); rewrite <- Ex; apply Wx).
  assert (Dj : s_deriv j = ndiv (nsub (s_value j') (s_value j)) (nsub (s_time j') (s_time j))) by (apply (slope_of y1 j j' y2); rewrite <- Ey; apply Wy).
  specialize (A _ _ _ _ _ _ _ _ Ex Ey L). cbv zeta in A.
  destruct (R i ltac:(cbn; auto)) as (A1 & A2 & A3 & A4). destruct (R i' ltac:(cbn; auto)) as (A1' & A2' & A3' & A4').
  destruct (R j ltac:(cbn; auto)) as (B1 & B2 & B3 & B4). destruct (R j' ltac:(cbn; auto)) as (B1' & B2' & B3' & B4').
  pose proof (eq_B2R _ _ A1 B1 T0) as E0. pose proof (eq_B2R _ _ A1' B1' T1) as E1.
  assert (NL : forall u v : B64, finite u = true -> finite v = true -> nltb u v = false -> B2R v <= B2R u).
  { intros u v Fu Fv Hn. destruct (Rle_lt_dec (B2R v) (B2R u)) as [|C]; [assumption|]. rewrite (B2R_lt u v) in Hn by assumption. discriminate. }
  assert (LT := fun u v (Fu : finite u = true) (Fv : finite v = true) => lt_B2R u v Fu Fv).
  set (v := B2R (s_value i)) in *. set (w := B2R (s_value j)) in *. set (v' := B2R (s_value i')) in *. set (w' := B2R (s_value j')) in *.
  assert (K : overtakes v w v' w' \/ overtakes w v w' v').
  { unfold overtakes, v, w, v', w'. destruct HW as [-> | ->]; destruct H as [(H1 & H2 & _)|(H1 & H2 & _)];
      pose proof (NL _ _ A2 B2); pose proof (NL _ _ B2 A2); pose proof (NL _ _ A2' B2'); pose proof (NL _ _ B2' A2');
      pose proof (LT _ _ A2 B2); pose proof (LT _ _ B2 A2); pose proof (LT _ _ A2' B2'); pose proof (LT _ _ B2' A2'); intuition lra. }
  specialize (A K).
  assert (K' : (v - w) * (v' - w') <= 0).
  { unfold overtakes in K. destruct K as [[K|K]|[K|K]]; nra. }
  destruct H as [(_ & _ & H)|(_ & _ & H)].
  - destruct (crossing_in_time V S i i' j j') as (F & B); auto. apply lt_B2R in H; auto. lra.
  - destruct (crossing_in_time V S j j' i i') as (F & B); auto; try (num; fail).
    + fold w' v' in A |- *. rewrite Rabs_minus_sym, <- E0, <- E1. exact A.
    + fold w v w' v'. nra.
    + apply lt_B2R in H; auto. lra.
Qed.

Lemma C116_pair_lemma dbg sync (x y : signal B64) V S : wf x -> wf y -> x <> [] ->
  Forall2 (fun a b => neqb (s_time a) (s_time b) = true) x y ->
  bpow radix2 (-300) <= V <= bpow radix2 300 -> S <= bpow radix2 300 -> sized V S x -> sized V S y -> apart V S x y ->
  (exists z, elementwise_min dbg sync x y = Ok z) /\ (exists z, elementwise_max dbg sync x y = Ok z).
Proof.
  intros Wx Wy N T HV HS Rx Ry A. split.
  - destruct (C26_min_lemma dbg x y Wx Wy N T) as [(_ & z & E1 & E2)|(L & _)]; [exists z; destruct sync; assumption|].
    exfalso. revert L. apply (apart_not_late _ V S); auto.
  - destruct (C26_max_lemma dbg x y Wx Wy N T) as [(_ & z & E1 & E2)|(L & _)]; [exists z; destruct sync; assumption|].
    exfalso. revert L. apply (apart_not_late _ V S); auto.
Qed.

Lemma C116_formula_lemma dbg fuel (tr : trace B64) s e1 e2 z1 z2 V S : Forall (fun e => wf (snd e) /\ snd e <> []) tr ->
  compute_robustness dbg fuel e1 tr s = Ok z1 -> compute_robustness dbg fuel e2 tr s = Ok z2 ->
  Forall2 (fun a b => neqb (s_time a) (s_time b) = true) z1 z2 ->
  bpow radix2 (-300) <= V <= bpow radix2 300 -> S <= bpow radix2 300 -> sized V S z1 -> sized V S z2 -> apart V S z1 z2 ->
  (exists z, compute_robustness dbg fuel (EAnd [e1; e2]) tr s = Ok z) /\ (exists z, compute_robustness dbg fuel (EOr [e1; e2]) tr s = Ok z).
Proof.
  intros G E1 E2 T HV HS R1 R2 A. destruct (C43_lemma _ _ _ _ _ _ G E1) as [W1 N1]. destruct (C43_lemma _ _ _ _ _ _ G E2) as [W2 _].
  destruct (C116_pair_lemma dbg false z1 z2 V S) as ((u & U) & (w & W)); auto.
  unfold compute_robustness in *. cbn [compute compute_list]. rewrite E1, E2. cbn [bind].
  split; [exists u; exact U|exists w; exact W].
Qed.

(** ** Instances *)
(** One decimal digit: 0.1 and 0 at time 0, 0.4 and 0.4 at time 1. *)
Definition n_x : signal B64 := sig_of [(dbl 0 0, dbl 3602879701896397 (-55)); (dbl 1 0, dbl 3602879701896397 (-53))].
Definition n_y : signal B64 := sig_of [(dbl 0 0, dbl 0 0); (dbl 1 0, dbl 3602879701896397 (-53))].
Definition n_tr : trace B64 := [(sx, n_x); (sy, n_y)].
Lemma n_wf : Forall (fun e => wf (snd e) /\ snd e <> []) n_tr.
Proof. repeat constructor; try discriminate; apply b64_wf; vm_compute; reflexivity. Qed.
Lemma n_cases n x : has_signal n_tr n x -> x = n_x \/ x = n_y.
Proof. intros [E|[E|[]]]; injection E as _ <-; auto. Qed.
Lemma n_uniform : uniform n_tr.
Proof.
  intros n m x y a Hx Hy Ha. destruct (n_cases n x Hx) as [-> | ->]; destruct (n_cases m y Hy) as [-> | ->]; destruct Ha as [<-|[<-|[]]];
    (eexists; split; [left; reflexivity|vm_compute; reflexivity]) || (eexists; split; [right; left; reflexivity|vm_compute; reflexivity]).
Qed.

Lemma C116_witness : exists (tr : trace B64) a b, keys_unique tr /\ Forall (fun e => wf (snd e) /\ snd e <> []) tr /\ uniform tr /\
  (forall n x c, has_signal tr n x -> In c x -> finite (s_time c) = true /\ finite (s_value c) = true /\ 0 <= B2R (s_time c) <= 1 /\ 0 <= B2R (s_value c) <= 1) /\
  forall dbg fuel s, compute_robustness dbg fuel (EAnd [EPred a GE nzero; EPred b GE nzero]) tr s = Throw InvalidArgument /\
    exists z, compute_robustness dbg fuel (EAnd [EPred b GE nzero; EPred a GE nzero]) tr s = Ok z.
Proof.
  exists n_tr, sx, sy. split; [repeat constructor; cbn; intuition discriminate|]. split; [exact n_wf|]. split; [exact n_uniform|]. split.
  - assert (K : forallb (fun e => forallb (fun c => finite (s_time c) && finite (s_value c) && nleb nzero (s_time c) && nleb (s_time c) (dbl 1 0) &&
        nleb nzero (s_value c) && nleb (s_value c) (dbl 1 0)) (snd e)) n_tr = true) by (vm_compute; reflexivity).
    intros n x c Hx Hc. rewrite forallb_forall in K. specialize (K _ Hx). cbn [snd] in K. rewrite forallb_forall in K. specialize (K _ Hc).
    repeat (apply andb_prop in K as [K ?]). assert (Z : finite (nzero : B64) = true) by reflexivity. assert (O : finite (dbl 1 0) = true) by reflexivity.
    assert (E0 : B2R (nzero : B64) = 0) by reflexivity. assert (E1 : B2R (dbl 1 0) = 1) by small.
    rewrite <- E0, <- E1. repeat split; try assumption; apply le_B2R; assumption.
  - intros dbg fuel s. split; [destruct dbg; vm_compute; reflexivity|].
    destruct (one_ok (compute_robustness dbg fuel (EAnd [EPred sy GE nzero; EPred sx GE nzero]) n_tr s) (fun _ => true)) as (z & E & _); [destruct dbg; vm_compute; reflexivity|].
    exists z. exact E.
Qed.

Lemma u_sized n x : has_signal u_tr n x -> sized 8 2 x.
Proof.
  assert (K : forall a b c : sample B64, (forall d, In d [a; b; c] -> finite (s_time d) = true /\ finite (s_value d) = true /\
       Rabs (B2R (s_time d)) <= 2 /\ Rabs (B2R (s_value d)) <= 8) ->
     B2R (s_time a) = 0 -> B2R (s_time b) = 1 -> B2R (s_time c) = 2 -> sized 8 2 [a; b; c]).
  { intros a b c H Ea Eb Ec. assert (bpow radix2 (-300) <= 1) by (change 1 with (bpow radix2 0); apply bpow_le; lia). split; [exact H|].
    intros [|w [|w' x1]] u v x2 E.
    + injection E as <- <- _. lra.
    + injection E as _ <- <- _. lra.
    + apply (f_equal (@length _)) in E. cbn in E. rewrite app_length in E. cbn in E. lia. }
  intros H. destruct (u_cases n x H) as [-> | ->]; (eapply K; [|small|small|small]); intros d [<-|[<-|[<-|[]]]]; small.
Qed.
Lemma u_apart : apart 8 2 u_x u_y.
Proof.
  assert (Q : bpow radix2 (-46) * 8 * 2 <= 1).
  { change (bpow radix2 (-46) * 8 * 2) with (bpow radix2 (-46) * bpow radix2 3 * bpow radix2 1). rewrite <- !bpow_plus. change 1 with (bpow radix2 0). apply bpow_le. lia. }
  assert (K : forall a b c a' b' c' : sample B64, B2R (s_time a) = 0 -> B2R (s_time b) = 1 -> B2R (s_time c) = 2 ->
    B2R (s_value b) = 1 -> B2R (s_value b') = 4 -> B2R (s_value c) = 5 -> B2R (s_value c') = 2 -> apart 8 2 [a; b; c] [a'; b'; c']).
  { intros a b c a' b' c' T1 T2 T3 V1 V2 V3 V4 x1 i i' x2 y1 j j' y2 Ex Ey L v w v' w' _. eapply Rle_trans; [exact Q|]. unfold v', w'.
    destruct x1 as [|p [|p' x1]].
    + destruct y1; [|discriminate]. injection Ex as <- <- _. injection Ey as _ <- _. rewrite T1, T2, V1, V2. replace (1 - 4) with (-3) by ring. rewrite Rabs_left; lra.
    + destruct y1 as [|q [|]]; try discriminate. injection Ex as _ <- <- _. injection Ey as _ _ <- _. rewrite T2, T3, V3, V4. replace (5 - 2) with 3 by ring. rewrite Rabs_pos_eq; lra.
    + apply (f_equal (@length _)) in Ex. cbn in Ex. rewrite app_length in Ex. cbn in Ex. lia. }
  apply K; small.
Qed.
Lemma u_same : Forall2 (fun a b => neqb (s_time a) (s_time b) = true) u_x u_y.
Proof. repeat (constructor; [vm_compute; reflexivity|]). constructor. Qed.

Lemma C116_case_lemma : wf u_x /\ wf u_y /\ u_x <> [] /\ Forall2 (fun a b => neqb (s_time a) (s_time b) = true) u_x u_y /\
  bpow radix2 (-300) <= 8 <= bpow radix2 300 /\ 2 <= bpow radix2 300 /\ sized 8 2 u_x /\ sized 8 2 u_y /\ apart 8 2 u_x u_y /\
  exists z, elementwise_min true false u_x u_y = Ok z /\ length z = 5%nat.
Proof.
  split; [apply b64_wf; vm_compute; reflexivity|]. split; [apply b64_wf; vm_compute; reflexivity|]. split; [discriminate|]. split; [exact u_same|].
  split. { change 8 with (bpow radix2 3). split; apply bpow_le; lia. }
  split. { change 2 with (bpow radix2 1). apply bpow_le; lia. }
  split; [apply (u_sized sx); left; reflexivity|]. split; [apply (u_sized sy); right; left; reflexivity|]. split; [exact u_apart|].
  destruct (one_ok (elementwise_min true false u_x u_y) (fun z => Nat.eqb (length z) 5)) as (z & E & H); [vm_compute; reflexivity|].
  exists z. split; [exact E|]. apply Nat.eqb_eq. exact H.
Qed.

Definition sf_signal (x : signal B64) := map (fun a => (B2SF (s_time a), B2SF (s_value a), B2SF (s_deriv a))) x.
Lemma sf_signal_inj : forall x y : signal B64, sf_signal x = sf_signal y -> x = y.
Proof.
  induction x as [|a x IH]; intros [|b y] E; try discriminate; [reflexivity|]. injection E as E1 E2 E3 E.
  rewrite (IH _ E). destruct a, b. cbn in *. apply B2SF_inj in E1, E2, E3. congruence.
Qed.
Lemma ok_is (m : outcome (signal B64)) (x : signal B64) : omap sf_signal m = Ok (sf_signal x) -> m = Ok x.
Proof. destruct m; cbn; intros H; try discriminate. injection H as H. f_equal. apply sf_signal_inj, H. Qed.

Lemma u_wf : Forall (fun e => wf (snd e) /\ snd e <> []) u_tr.
Proof. repeat constructor; try discriminate; apply b64_wf; vm_compute; reflexivity. Qed.
Lemma C116_formula_case_lemma : Forall (fun e => wf (snd e) /\ snd e <> []) u_tr /\
  compute_robustness true 0 (EPred sx GE nzero) u_tr false = Ok u_x /\ compute_robustness true 0 (EPred sy GE nzero) u_tr false = Ok u_y.
Proof. split; [exact u_wf|]. split; apply ok_is; vm_compute; reflexivity. Qed.
