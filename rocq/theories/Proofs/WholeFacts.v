(** Minimum and maximum of two signals of whole numbers, in doubles (C117). *)
From Coq Require Import Reals Lra Lia Sorted.
From Flocq Require Import Core.Core IEEE754.BinarySingleNaN.
From Verif Require Import Base Num NumB64.
From Verif.Model Require Import Signal MinMax Ast Robustness.
From Verif.Spec Require Import SignalSpec Pwl Formula Crossing Accuracy Whole.
From Verif.Proofs Require Import NumFacts SignalFacts PwlFacts B64Facts MinMaxFacts MinMaxCases SyncProps InterpError CrossingError SyncError PairBound ChainFacts UniformFacts QuantFacts.
Local Open Scope R_scope.

(** ** Whole numbers are exact *)
Lemma rnd_int (n : Z) : Rabs (IZR n) <= bpow radix2 53 -> rnd (IZR n) = IZR n.
Proof.
  intros H. apply round_generic; [apply valid_rnd_round_mode|].
  destruct (Rle_lt_or_eq_dec _ _ H) as [L|E].
  - apply generic_format_FLT. exists (Float radix2 n 0).
    + unfold F2R. cbn. ring.
    + cbn [Fnum]. apply lt_IZR. rewrite abs_IZR. exact L.
    + cbn. lia.
  - assert (K : n = (2 ^ 53)%Z \/ n = (- 2 ^ 53)%Z).
    { rewrite <- abs_IZR in E. apply eq_IZR in E. change (Z.pow_pos radix2 53) with (2 ^ 53)%Z in E. lia. }
    assert (G : generic_format radix2 (SpecFloat.fexp 53 1024) (bpow radix2 53)).
    { apply generic_format_bpow. unfold SpecFloat.fexp, SpecFloat.emin. lia. }
    destruct K as [-> | ->]; [exact G|]. rewrite opp_IZR. apply generic_format_opp. exact G.
Qed.
Lemma int_le_1023 r : Rabs r <= bpow radix2 53 -> Rabs r <= bpow radix2 1023.
Proof. intros H. eapply Rle_trans; [exact H|]. apply bpow_le. lia. Qed.

Definition is_int (x : B64) (n : Z) : Prop := finite x = true /\ B2R x = IZR n.
Lemma int_sub x y a b : is_int x a -> is_int y b -> Rabs (IZR (a - b)) <= bpow radix2 53 -> is_int (nsub x y) (a - b).
Proof.
  intros (Fx & Ex) (Fy & Ey) H. assert (D : B2R x - B2R y = IZR (a - b)) by (rewrite Ex, Ey, minus_IZR; reflexivity).
  destruct (sub_ok x y Fx Fy) as (F & E); [rewrite D; apply int_le_1023, H|]. split; [exact F|]. rewrite E, D. apply rnd_int, H.
Qed.
Lemma int_add x y a b : is_int x a -> is_int y b -> Rabs (IZR (a + b)) <= bpow radix2 53 -> is_int (nadd x y) (a + b).
Proof.
  intros (Fx & Ex) (Fy & Ey) H. assert (D : B2R x + B2R y = IZR (a + b)) by (rewrite Ex, Ey, plus_IZR; reflexivity).
  destruct (add_ok x y Fx Fy) as (F & E); [rewrite D; apply int_le_1023, H|]. split; [exact F|]. rewrite E, D. apply rnd_int, H.
Qed.
Lemma int_mul x y a b : is_int x a -> is_int y b -> Rabs (IZR (a * b)) <= bpow radix2 53 -> is_int (nmul x y) (a * b).
Proof.
  intros (Fx & Ex) (Fy & Ey) H. assert (D : B2R x * B2R y = IZR (a * b)) by (rewrite Ex, Ey, mult_IZR; reflexivity).
  destruct (mul_ok x y Fx Fy) as (F & E); [rewrite D; apply int_le_1023, H|]. split; [exact F|]. rewrite E, D. apply rnd_int, H.
Qed.
Lemma int_div_1 x y a : is_int x a -> is_int y 1 -> Rabs (IZR a) <= bpow radix2 53 -> is_int (ndiv x y) a.
Proof.
  intros (Fx & Ex) (Fy & Ey) H. assert (D : B2R x / B2R y = IZR a) by (rewrite Ex, Ey; field).
  destruct (div_ok x y Fx Fy) as (F & E); [rewrite Ey; lra|rewrite D; apply int_le_1023, H|]. split; [exact F|]. rewrite E, D. apply rnd_int, H.
Qed.
Lemma rnd_le x y : x <= y -> rnd x <= rnd y.
Proof. intros H. apply round_le; [apply (fexp_correct 53 1024); reflexivity|apply valid_rnd_round_mode|exact H]. Qed.

(** ** The crossing of two segments *)
Section Seg.
Variables (V S : R).
Hypothesis HV : 1 <= V.
Hypothesis HS : 1 <= S.
Hypothesis HVS : V * S <= bpow radix2 50.

Lemma VS53 : 8 * (V * S) <= bpow radix2 53.
Proof. change (bpow radix2 53) with (bpow radix2 (3 + 50)). rewrite bpow_plus. change (bpow radix2 3) with 8. lra. Qed.
Lemma V_VS : V <= V * S.
Proof. nra. Qed.
Lemma S_VS : S <= V * S.
Proof. nra. Qed.

(** The segment of [x] that starts at time [k] with value [v] and ends with value [v']. *)
Definition seg (i : sample B64) (k v v' : Z) : Prop :=
  is_int (s_time i) k /\ is_int (s_value i) v /\ is_int (s_deriv i) (v' - v) /\
  Rabs (IZR k) <= S /\ Rabs (IZR (k + 1)) <= S /\ Rabs (IZR v) <= V /\ Rabs (IZR v') <= V.

Lemma seg_of (i i' : sample B64) k v k' v' : is_int (s_time i) k -> is_int (s_value i) v -> is_int (s_time i') k' -> is_int (s_value i') v' ->
  k' = (k + 1)%Z -> s_deriv i = ndiv (nsub (s_value i') (s_value i)) (nsub (s_time i') (s_time i)) ->
  Rabs (IZR k) <= S -> Rabs (IZR k') <= S -> Rabs (IZR v) <= V -> Rabs (IZR v') <= V -> seg i k v v'.
Proof.
  intros A B C D -> E H1 H1' H2 H3. repeat (split; [assumption|]). split; [|auto]. rewrite E. pose proof VS53. pose proof V_VS.
  assert (Rabs (IZR (v' - v)) <= bpow radix2 53). { rewrite minus_IZR. eapply Rle_trans; [apply sub_abs; eassumption|]. lra. }
  apply int_div_1; [apply int_sub; assumption| |assumption].
  replace 1%Z with (k + 1 - k)%Z by lia. apply int_sub; auto. replace (k + 1 - k)%Z with 1%Z by lia. rewrite Rabs_pos_eq; lra.
Qed.

(** Real crossing [k + r] with [0 <= r <= 1], and the computed one. *)
Lemma meet (i j : sample B64) k v v' w w' : seg i k v v' -> seg j k w w' ->
  let g0 := IZR v - IZR w in let g1 := IZR v' - IZR w' in (g0 <= 0 <= g1 \/ g1 <= 0 <= g0) -> g0 <> g1 ->
  let it := time_intersect i j in
  finite it = true /\ IZR k <= B2R it <= IZR k + 1 /\ Rabs (g0 + (g1 - g0) * (B2R it - IZR k)) <= 5 * uu * (V * S).
Proof.
  intros (A1 & A2 & A3 & A4 & A4' & A5 & A6) (B1 & B2 & B3 & B4 & B4' & B5 & B6) g0 g1 Hg Hn it.
  pose proof VS53 as K1. pose proof V_VS as K2. pose proof S_VS as K3.
  assert (N1 : is_int (nsub (s_value i) (s_value j)) (v - w)).
  { apply int_sub; auto. rewrite minus_IZR. eapply Rle_trans; [apply sub_abs; eassumption|]. lra. }
  assert (DW : Rabs (IZR (w' - w)) <= 2 * V) by (rewrite minus_IZR; eapply Rle_trans; [apply sub_abs; eassumption|lra]).
  assert (DV : Rabs (IZR (v' - v)) <= 2 * V) by (rewrite minus_IZR; eapply Rle_trans; [apply sub_abs; eassumption|lra]).
  assert (PW : Rabs (IZR ((w' - w) * k)) <= 2 * V * S) by (rewrite mult_IZR; apply mul_abs; assumption).
  assert (PV : Rabs (IZR ((v' - v) * k)) <= 2 * V * S) by (rewrite mult_IZR; apply mul_abs; assumption).
  assert (N2 : is_int (nmul (s_deriv j) (s_time j)) ((w' - w) * k)) by (apply int_mul; auto; lra).
  assert (N3 : is_int (nmul (s_deriv i) (s_time i)) ((v' - v) * k)) by (apply int_mul; auto; lra).
  assert (Q4 : Rabs (IZR (v - w + (w' - w) * k)) <= 2 * V + 2 * V * S).
  { rewrite plus_IZR. apply add_abs; [rewrite minus_IZR; eapply Rle_trans; [apply sub_abs; eassumption|lra]|exact PW]. }
  assert (N4 : is_int (nadd (nsub (s_value i) (s_value j)) (nmul (s_deriv j) (s_time j))) (v - w + (w' - w) * k)) by (apply int_add; auto; lra).
  assert (N5 : is_int (nsub (nadd (nsub (s_value i) (s_value j)) (nmul (s_deriv j) (s_time j))) (nmul (s_deriv i) (s_time i))) (v - w + (w' - w) * k - (v' - v) * k)).
  { apply int_sub; auto. rewrite minus_IZR. eapply Rle_trans; [apply sub_abs; [exact Q4|exact PV]|lra]. }
  assert (N6 : is_int (nsub (s_deriv j) (s_deriv i)) (w' - w - (v' - v))).
  { apply int_sub; auto. rewrite minus_IZR. eapply Rle_trans; [apply sub_abs; [exact DW|exact DV]|lra]. }
  set (d := g1 - g0).
  assert (Ed : B2R (nsub (s_deriv j) (s_deriv i)) = - d). { rewrite (proj2 N6), !minus_IZR. unfold d, g0, g1. ring. }
  assert (d0 : d <> 0) by (unfold d; lra).
  assert (Eq : B2R (nsub (nadd (nsub (s_value i) (s_value j)) (nmul (s_deriv j) (s_time j))) (nmul (s_deriv i) (s_time i))) / B2R (nsub (s_deriv j) (s_deriv i)) = IZR k - g0 / d).
  { rewrite Ed, (proj2 N5). rewrite ?minus_IZR, ?plus_IZR, ?mult_IZR, ?minus_IZR. unfold d, g0, g1. field. unfold d, g0, g1 in d0. lra. }
  set (r := - (g0 / d)). assert (r01 : 0 <= r <= 1).
  { unfold r. replace (- (g0 / d)) with ((- g0) / d) by (field; exact d0). unfold d in *. destruct Hg as [Hg|Hg].
    - assert (0 < g1 - g0) by lra. split; [apply Rmult_le_pos; [lra|left; apply Rinv_0_lt_compat; lra]|].
      apply Rmult_le_reg_r with (g1 - g0); [lra|]. unfold Rdiv. rewrite Rmult_assoc, Rinv_l by lra. lra.
    - replace (- g0 / (g1 - g0)) with (g0 / (g0 - g1)) by (field; lra). assert (0 < g0 - g1) by lra. split; [apply Rmult_le_pos; [lra|left; apply Rinv_0_lt_compat; lra]|].
      apply Rmult_le_reg_r with (g0 - g1); [lra|]. unfold Rdiv. rewrite Rmult_assoc, Rinv_l by lra. lra. }
  replace (IZR k - g0 / d) with (IZR k + r) in Eq by (unfold r; ring).
  assert (KR : Rabs (IZR k + r) <= S). { rewrite plus_IZR in A4'. apply Rabs_le_inv in A4, A4'. apply Rabs_le. lra. }
  destruct (div_ok _ _ (proj1 N5) (proj1 N6)) as (F & E).
  { rewrite Ed. lra. } { rewrite Eq. apply int_le_1023. lra. }
  rewrite Eq in E. fold (time_intersect i j) in F, E. fold it in F, E.
  split; [exact F|].
  assert (R0 : rnd (IZR k) = IZR k) by (apply rnd_int; lra).
  assert (R1 : rnd (IZR k + 1) = IZR k + 1).
  { change 1 with (IZR 1). rewrite <- plus_IZR. apply rnd_int. rewrite plus_IZR. eapply Rle_trans; [apply add_abs; [exact A4|rewrite Rabs_pos_eq; [apply Rle_refl|lra]]|]. lra. }
  split. { rewrite E. split; [rewrite <- R0; apply rnd_le; lra|rewrite <- R1; apply rnd_le; lra]. }
  replace (g0 + d * (B2R it - IZR k)) with (d * (B2R it - (IZR k + r))) by (unfold r; field; exact d0).
  destruct (rnd_error (IZR k + r)) as (e & n & He & Hz & Er). rewrite E, Er.
  replace ((IZR k + r) * (1 + e) + n - (IZR k + r)) with ((IZR k + r) * e + n) by ring.
  assert (G0 : Rabs g0 <= 2 * V). { unfold g0. eapply Rle_trans; [apply sub_abs; eassumption|lra]. }
  assert (G1 : Rabs g1 <= 2 * V). { unfold g1. eapply Rle_trans; [apply sub_abs; eassumption|lra]. }
  eapply Rle_trans; [apply (mul_abs _ _ (2 * V + 2 * V) (S * uu + eta)); [unfold d; apply sub_abs; assumption|]|].
  - apply add_abs; [apply mul_abs; assumption|exact Hz].
  - assert (4 * eta <= uu). { unfold eta, uu. apply Rle_trans with (bpow radix2 (2 + -1075)); [rewrite bpow_plus; change (bpow radix2 2) with 4; lra|]. apply bpow_le. lia. }
    pose proof uu_small. assert (uu * V * 1 <= uu * V * S) by (apply Rmult_le_compat_l; [apply Rmult_le_pos; lra|exact HS]).
    assert (4 * eta * V <= uu * V) by (apply Rmult_le_compat_r; lra). nra.
Qed.

(** The value computed there. *)
Lemma meet_value (i : sample B64) k v v' (it : B64) : seg i k v v' -> finite it = true -> IZR k <= B2R it <= IZR k + 1 ->
  finite (interpolate i it) = true /\ Rabs (B2R (interpolate i it) - (IZR v + (IZR v' - IZR v) * (B2R it - IZR k))) <= 6 * uu * (V * S).
Proof.
  intros (A1 & A2 & A3 & A4 & A4' & A5 & A6) F Hit. pose proof VS53 as K1. pose proof V_VS as K2. pose proof uu_small as Hu. pose proof eta_pos as He.
  assert (B53 : bpow radix2 53 <= bpow radix2 1023) by (apply bpow_le; lia).
  assert (Heu : eta * 100 <= uu). { unfold eta, uu. apply Rle_trans with (bpow radix2 (7 + -1075)); [rewrite bpow_plus; change (bpow radix2 7) with 128; pose proof (bpow_gt_0 radix2 (-1075)); lra|]. apply bpow_le. lia. }
  set (sg := B2R it - IZR k). assert (S01 : 0 <= sg <= 1) by (unfold sg; lra).
  assert (DV : Rabs (B2R (s_deriv i)) <= 2 * V) by (rewrite (proj2 A3), minus_IZR; eapply Rle_trans; [apply sub_abs; eassumption|lra]).
  destruct (sub_near it (s_time i) 1 F (proj1 A1)) as (F1 & E1). { rewrite (proj2 A1). apply Rabs_le. fold sg. lra. } { lra. }
  rewrite (proj2 A1) in E1. fold sg in E1. set (y := nsub it (s_time i)) in *.
  assert (Y : Rabs (B2R y) <= 101 / 100). { eapply Rle_trans; [apply (near_abs _ sg (uu * 1) 1); [exact E1|apply Rabs_le; lra]|]. lra. }
  assert (MB : Rabs (B2R (s_deriv i) * B2R y) <= 2 * V * (101 / 100)) by (apply mul_abs; assumption).
  destruct (mul_near (s_deriv i) y (2 * V * (101 / 100)) (proj1 A3) F1 MB) as (F2 & E2); [lra|].
  assert (E3 : Rabs (B2R (nmul (s_deriv i) y) - (IZR v' - IZR v) * sg) <= 2 * V * (102 / 100) * uu + eta + 2 * V * uu).
  { rewrite <- minus_IZR, <- (proj2 A3). eapply Rle_trans; [eapply chain_abs; [exact E2|]|].
    - replace (B2R (s_deriv i) * B2R y - B2R (s_deriv i) * sg) with (B2R (s_deriv i) * (B2R y - sg)) by ring. apply mul_abs; [exact DV|exact E1].
    - assert (0 <= uu * V) by (apply Rmult_le_pos; lra). lra. }
  set (m := nmul (s_deriv i) y) in *.
  assert (X : Rabs (IZR v + (IZR v' - IZR v) * sg) <= V).
  { replace (IZR v + (IZR v' - IZR v) * sg) with (IZR v * (1 - sg) + IZR v' * sg) by ring. replace V with (V * (1 - sg) + V * sg) by ring.
    apply add_abs; rewrite Rabs_mult; rewrite (Rabs_pos_eq sg) || rewrite (Rabs_pos_eq (1 - sg)); try lra; apply Rmult_le_compat_r; lra. }
  assert (UV : 0 < uu * V) by (apply Rmult_lt_0_compat; lra). assert (UV1 : uu * V <= / 1000000 * V) by (apply Rmult_le_compat_r; lra).
  assert (E4 : Rabs (B2R (s_value i) + B2R m - (IZR v + (IZR v' - IZR v) * sg)) <= 2 * V * (102 / 100) * uu + eta + 2 * V * uu).
  { rewrite (proj2 A2). match goal with |- Rabs ?a <= _ => replace a with (B2R m - (IZR v' - IZR v) * sg) by ring end. exact E3. }
  assert (E5 : Rabs (B2R (s_value i) + B2R m) <= 101 / 100 * V).
  { eapply Rle_trans; [eapply near_abs; [exact E4|exact X]|]. lra. }
  destruct (add_near (s_value i) m _ (proj1 A2) F2 E5) as (F3 & E6); [lra|]. split; [exact F3|].
  eapply Rle_trans; [eapply chain_abs; [exact E6|exact E4]|].
  assert (uu * V <= uu * (V * S)) by (apply Rmult_le_compat_l; lra). assert (uu * 1 <= uu * V) by (apply Rmult_le_compat_l; lra). lra.
Qed.
End Seg.

(** ** Lines through slightly wrong crossings *)
Section Lines.
Variable s : R.
Hypothesis Hs : s = 1 \/ s = -1.
Definition sbest (p q : R) : R := if Rle_dec (s * p) (s * q) then p else q.

Lemma left_part al al' be be' sg vv e ka u : s * al <= s * be -> 0 < sg <= 1 -> Rabs ((al - be) + ((al' - be') - (al - be)) * sg) <= ka ->
  Rabs (vv - (al + (al' - al) * sg)) <= e -> 0 <= u <= sg ->
  Rabs (al + (vv - al) / sg * u - sbest (al + (al' - al) * u) (be + (be' - be) * u)) <= e + ka.
Proof.
  intros H0 Hg Hk He Hu. set (w := u / sg). assert (W : 0 <= w <= 1).
  { unfold w. split; [apply Rmult_le_pos; [lra|left; apply Rinv_0_lt_compat; lra]|]. apply Rmult_le_reg_r with sg; [lra|]. unfold Rdiv. rewrite Rmult_assoc, Rinv_l by lra. lra. }
  assert (Eu : u = w * sg) by (unfold w; field; lra).
  replace ((vv - al) / sg * u) with ((vv - al) * w) by (unfold w; field; lra). rewrite Eu. clearbody w. clear u Hu Eu.
  assert (P : Rabs (al + (vv - al) * w - (al + (al' - al) * (w * sg))) <= e).
  { replace (al + (vv - al) * w - (al + (al' - al) * (w * sg))) with ((vv - (al + (al' - al) * sg)) * w) by ring.
    rewrite Rabs_mult, (Rabs_pos_eq w) by lra. pose proof (Rabs_pos (vv - (al + (al' - al) * sg))). nra. }
  eapply Rle_trans; [eapply chain_abs; [exact P|]|apply Rle_refl]. unfold sbest. destruct (Rle_dec _ _) as [L|L].
  - rewrite Rminus_diag_eq by reflexivity. rewrite Rabs_R0. pose proof (Rabs_pos ((al - be) + ((al' - be') - (al - be)) * sg)). lra.
  - apply Rnot_le_lt in L. set (g1 := (al - be) + ((al' - be') - (al - be)) * sg) in *.
    replace (al + (al' - al) * (w * sg) - (be + (be' - be) * (w * sg))) with ((al - be) * (1 - w) + g1 * w) by (unfold g1; ring).
    assert (L' : 0 < s * ((al - be) * (1 - w) + g1 * w)).
    { replace (s * ((al - be) * (1 - w) + g1 * w)) with (s * (al + (al' - al) * (w * sg)) - s * (be + (be' - be) * (w * sg))) by (unfold g1; ring). lra. }
    apply Rabs_le_inv in Hk. apply Rabs_le. destruct Hs as [-> | ->]; split; nra.
Qed.
Lemma right_part al al' be be' sg vv e ka u : s * be' <= s * al' -> 0 <= sg < 1 -> Rabs ((al - be) + ((al' - be') - (al - be)) * sg) <= ka ->
  Rabs (vv - (al + (al' - al) * sg)) <= e -> sg <= u <= 1 ->
  Rabs (vv + (be' - vv) / (1 - sg) * (u - sg) - sbest (al + (al' - al) * u) (be + (be' - be) * u)) <= e + 2 * ka.
Proof.
  intros H0 Hg Hk He Hu. set (w := (u - sg) / (1 - sg)). assert (W : 0 <= w <= 1).
  { unfold w. split; [apply Rmult_le_pos; [lra|left; apply Rinv_0_lt_compat; lra]|]. apply Rmult_le_reg_r with (1 - sg); [lra|]. unfold Rdiv. rewrite Rmult_assoc, Rinv_l by lra. lra. }
  assert (Eu : u = sg + w * (1 - sg)) by (unfold w; field; lra).
  replace ((be' - vv) / (1 - sg) * (u - sg)) with ((be' - vv) * w) by (unfold w; field; lra). rewrite Eu. clearbody w. clear u Hu Eu.
  set (g1 := (al - be) + ((al' - be') - (al - be)) * sg) in *. set (uu' := sg + w * (1 - sg)).
  assert (P : Rabs (vv + (be' - vv) * w - (be + (be' - be) * uu')) <= e + ka).
  { replace (vv + (be' - vv) * w - (be + (be' - be) * uu')) with ((vv - (be + (be' - be) * sg)) * (1 - w)) by (unfold uu'; ring).
    assert (Q : Rabs (vv - (be + (be' - be) * sg)) <= e + ka).
    { eapply chain_abs; [exact He|]. replace (al + (al' - al) * sg - (be + (be' - be) * sg)) with g1 by (unfold g1; ring). exact Hk. }
    rewrite Rabs_mult, (Rabs_pos_eq (1 - w)) by lra. pose proof (Rabs_pos (vv - (be + (be' - be) * sg))). nra. }
  replace (e + 2 * ka) with (e + ka + ka) by ring. eapply chain_abs; [exact P|]. unfold sbest. destruct (Rle_dec _ _) as [L|L].
  - replace (be + (be' - be) * uu' - (al + (al' - al) * uu')) with (- (g1 * (1 - w) + (al' - be') * w)) by (unfold g1, uu'; ring). rewrite Rabs_Ropp.
    assert (L' : s * (g1 * (1 - w) + (al' - be') * w) <= 0).
    { replace (s * (g1 * (1 - w) + (al' - be') * w)) with (s * (al + (al' - al) * uu') - s * (be + (be' - be) * uu')) by (unfold g1, uu'; ring). lra. }
    apply Rabs_le_inv in Hk. apply Rabs_le. destruct Hs as [-> | ->]; split; nra.
  - rewrite Rminus_diag_eq by reflexivity. rewrite Rabs_R0. pose proof (Rabs_pos g1). lra.
Qed.
End Lines.

(** ** The loop of compute_minmax_pair *)
Definition rpt (p : B64 * B64) : R * R := (B2R (fst p), B2R (snd p)).
Lemma reals_sig_of pts : reals (sig_of pts) = map rpt pts.
Proof. induction pts as [|p r IH]; [reflexivity|]. cbn. f_equal. exact IH. Qed.

Lemma reals_cons (a : sample B64) x : reals (a :: x) = (B2R (s_time a), B2R (s_value a)) :: reals x.
Proof. reflexivity. Qed.

Lemma line_unit k a b t : line (IZR k, a) (IZR k + 1, b) t = a + (b - a) * (t - IZR k).
Proof. unfold line. cbn [fst snd]. replace (IZR k + 1 - IZR k) with 1 by ring. field. Qed.

Section Loop.
Variables (V S : R).
Hypothesis HV : 1 <= V.
Hypothesis HS : 1 <= S.
Hypothesis HVS : V * S <= bpow radix2 50.
Variable s : R.
Hypothesis Hs : s = 1 \/ s = -1.
Variable comp : sample B64 -> sample B64 -> bool.
Hypothesis Hcomp : forall i j, finite (s_value i) = true -> finite (s_value j) = true ->
  comp i j = if Rle_dec (s * B2R (s_value i)) (s * B2R (s_value j)) then true else false.

Definition EE : R := 16 * uu * (V * S).

Lemma B2R_le_false (a b : B64) : finite a = true -> finite b = true -> nltb a b = false -> B2R b <= B2R a.
Proof. intros Fa Fb H. destruct (Rle_lt_dec (B2R b) (B2R a)) as [L|L]; [exact L|]. rewrite (B2R_lt a b Fa Fb L) in H. discriminate. Qed.

(** What is appended between the old end at time [k] and the sample at [k + 1]. *)
Definition between (k : Z) (ext : list (B64 * B64)) : Prop :=
  ext = [] \/ exists it vv, ext = [(it, vv)] /\ finite it = true /\ finite vv = true /\ IZR k < B2R it < IZR k + 1.

Lemma step_switch pts (pl pw' win : sample B64) k al al' be be' : wfp pts -> pts <> [] -> end_time (sig_of pts) = s_time pl ->
  seg V S pl k al al' -> seg V S pw' k be be' -> is_int (s_time win) (k + 1) -> is_int (s_value win) be' ->
  s * IZR al <= s * IZR be -> s * IZR be' <= s * IZR al' -> IZR al - IZR be <> IZR al' - IZR be' ->
  exists ext, pair_step (sig_of pts) true (Some pw') (Some pl) win = Ok (sig_of (pts ++ ext ++ [pt win])) /\ wfp (pts ++ ext ++ [pt win]) /\
    between k ext /\ forall rest t, IZR k <= t <= IZR k + 1 ->
      Rabs (pw ((IZR k, IZR al) :: map rpt ext ++ (IZR k + 1, IZR be') :: rest) t -
            sbest s (IZR al + (IZR al' - IZR al) * (t - IZR k)) (IZR be + (IZR be' - IZR be) * (t - IZR k))) <= EE.
Proof.
  intros W Hne He Sl Sw (Ft & Et) (Fv & Ev) H0 H1 Hn. unfold pair_step. rewrite He. set (it := time_intersect pl pw').
  pose proof uu_small as Hu. assert (UVS : 0 < uu * (V * S)) by (apply Rmult_lt_0_compat; nra).
  assert (Hg : (IZR al - IZR be <= 0 <= IZR al' - IZR be') \/ (IZR al' - IZR be' <= 0 <= IZR al - IZR be)) by (destruct Hs as [E|E]; rewrite E in H0, H1; [left|right]; lra).
  destruct (meet V S HV HS HVS pl pw' k al al' be be' Sl Sw Hg Hn) as (Fi & Hit & Hk). fold it in Fi, Hit, Hk.
  destruct (meet_value V S HV HS HVS pl k al al' it Sl Fi Hit) as (Fvv & Hvv).
  pose proof Sl as ((Fl & El) & _). rewrite plus_IZR in Et.
  assert (L : nltb (end_time (sig_of pts)) (s_time win) = true) by (rewrite He; apply B2R_lt; auto; lra).
  destruct (nltb (s_time pl) it) eqn:L1; cbn [andb]; cycle 1.
  { exists []. cbn [bind app]. destruct (push_back_ok pts win W Hne L) as (P1 & P2). repeat (split; [assumption || (left; reflexivity)|]).
    intros rest t Ht. cbn [map app]. rewrite pw_first by exact (proj2 Ht). rewrite line_unit.
    assert (Z : B2R it = IZR k). { apply B2R_le_false in L1; auto. lra. }
    pose proof (right_part s Hs (IZR al) (IZR al') (IZR be) (IZR be') 0 (IZR al) 0 (5 * uu * (V * S)) (t - IZR k) H1) as Q.
    rewrite Z in Hk. replace (IZR k - IZR k) with 0 in Hk by ring.
    specialize (Q ltac:(lra) Hk). replace (IZR al + (IZR be' - IZR al) * (t - IZR k)) with (IZR al + (IZR be' - IZR al) / (1 - 0) * (t - IZR k - 0)) by field.
    eapply Rle_trans; [apply Q|unfold EE; lra]; [|lra]. match goal with |- Rabs ?a <= _ => replace a with 0 by ring end. rewrite Rabs_R0. lra. }
  destruct (neqb it (s_time win)) eqn:L2; cbn [negb bind].
  { exists []. cbn [app]. destruct (push_back_ok pts win W Hne L) as (P1 & P2). repeat (split; [assumption || (left; reflexivity)|]).
    intros rest t Ht. cbn [map app]. rewrite pw_first by exact (proj2 Ht). rewrite line_unit.
    assert (Z : B2R it = IZR k + 1). { apply eq_B2R in L2; auto. lra. }
    pose proof (left_part s Hs (IZR al) (IZR al') (IZR be) (IZR be') 1 (IZR be') (5 * uu * (V * S)) (5 * uu * (V * S)) (t - IZR k) H0) as Q.
    rewrite Z in Hk. replace (IZR k + 1 - IZR k) with 1 in Hk by ring.
    specialize (Q ltac:(lra) Hk). replace (IZR al + (IZR be' - IZR al) * (t - IZR k)) with (IZR al + (IZR be' - IZR al) / 1 * (t - IZR k)) by field.
    eapply Rle_trans; [apply Q|unfold EE; lra]; [|lra]. rewrite <- Rabs_Ropp. eapply Rle_trans; [|exact Hk]. right. f_equal. ring. }
  assert (K1 : IZR k < B2R it) by (apply lt_B2R in L1; auto; lra).
  assert (K2 : B2R it < IZR k + 1).
  { destruct (Rle_lt_or_eq_dec _ _ (proj2 Hit)) as [Q|Q]; [exact Q|]. exfalso. assert (neqb it (s_time win) = true); [|congruence].
    rewrite <- Et in Q. pose proof (finite_rk _ Fi). pose proof (finite_rk _ Ft). pose proof (finite_num _ Fi). pose proof (finite_num _ Ft). num_goal. rewrite H, H2. exact Q. }
  set (a := mkSample it (interpolate pl it) nzero). set (vv := interpolate pl it) in *.
  destruct (push_back_ok pts a W Hne) as (P1 & P2); [rewrite He; exact L1|]. cbn [bind].
  destruct (push_back_ok (pts ++ [pt a]) win P2) as (P3 & P4); [destruct pts; discriminate|rewrite end_snoc; apply B2R_lt; auto; cbn [a s_time]; lra|].
  exists [(it, vv)]. rewrite P1. cbn [bind]. change [(it, vv)] with [pt a]. rewrite app_assoc. split; [exact P3|]. split; [exact P4|].
  split. { right. exists it, vv. auto. }
  intros rest t Ht. change (map rpt [pt a]) with [(B2R it, B2R vv)]. cbn [app].
  set (sg := B2R it - IZR k) in *.
  destruct (Rle_lt_dec t (B2R it)) as [Lt|Lt].
  - rewrite pw_first by exact Lt. unfold line. cbn [fst snd]. fold sg.
    pose proof (left_part s Hs (IZR al) (IZR al') (IZR be) (IZR be') sg (B2R vv) (6 * uu * (V * S)) (5 * uu * (V * S)) (t - IZR k) H0) as Q.
    eapply Rle_trans; [apply Q; try assumption; unfold sg; lra|unfold EE; lra].
  - cbn [pw fst]. destruct (Rle_dec t (B2R it)) as [?|_]; [lra|]. destruct (Rle_dec t (IZR k + 1)) as [_|?]; [|lra]. unfold line. cbn [fst snd].
    pose proof (right_part s Hs (IZR al) (IZR al') (IZR be) (IZR be') sg (B2R vv) (6 * uu * (V * S)) (5 * uu * (V * S)) (t - IZR k) H1) as Q.
    replace (IZR k + 1 - B2R it) with (1 - sg) by (unfold sg; ring). replace (t - B2R it) with (t - IZR k - sg) by (unfold sg; ring).
    eapply Rle_trans; [apply Q; try assumption; unfold sg; lra|unfold EE; lra].
Qed.

(** The same operand is chosen at both ends. *)
Lemma step_same k al al' be be' rest t : s * IZR al <= s * IZR be -> s * IZR al' <= s * IZR be' -> IZR k <= t <= IZR k + 1 ->
  pw ((IZR k, IZR al) :: (IZR k + 1, IZR al') :: rest) t - sbest s (IZR al + (IZR al' - IZR al) * (t - IZR k)) (IZR be + (IZR be' - IZR be) * (t - IZR k)) = 0.
Proof.
  intros H0 H1 Ht. rewrite pw_first by exact (proj2 Ht). rewrite line_unit. unfold sbest. destruct (Rle_dec _ _) as [L|L]; [ring|]. exfalso. apply L.
  destruct Hs as [-> | ->]; nra.
Qed.
Lemma sbest_sym p q : sbest s p q = sbest s q p.
Proof. unfold sbest. destruct (Rle_dec _ _), (Rle_dec _ _); try reflexivity; [|lra]. destruct Hs as [-> | ->]; lra. Qed.

(** Operands sampled together from time [k] on. *)
Fixpoint linked (k v w : Z) (i j : sample B64) (xs ys : list (sample B64)) : Prop :=
  is_int (s_time i) k /\ is_int (s_time j) k /\ is_int (s_value i) v /\ is_int (s_value j) w /\
  match xs, ys with
  | [], [] => True
  | i' :: xs', j' :: ys' => exists v' w', seg V S i k v v' /\ seg V S j k w w' /\ linked (k + 1) v' w' i' j' xs' ys'
  | _, _ => False
  end.
Definition fpt (p : B64 * B64) : Prop := finite (fst p) = true /\ finite (snd p) = true.

Lemma linked_reals k v w i j xs ys : linked k v w i j xs ys -> exists lx ly, reals (i :: xs) = (IZR k, IZR v) :: lx /\ reals (j :: ys) = (IZR k, IZR w) :: ly.
Proof.
  intros H. assert (K : is_int (s_time i) k /\ is_int (s_time j) k /\ is_int (s_value i) v /\ is_int (s_value j) w) by (destruct xs, ys; cbn in H; tauto).
  destruct K as ((_ & A) & (_ & B) & (_ & C) & (_ & D)). rewrite !reals_cons, A, B, C, D. eauto.
Qed.
Lemma pick_int k v w i j xs ys : linked k v w i j xs ys -> is_int (s_time (pick comp i j)) k /\
  is_int (s_value (pick comp i j)) (if Rle_dec (s * IZR v) (s * IZR w) then v else w).
Proof.
  intros H. assert (K : is_int (s_time i) k /\ is_int (s_time j) k /\ is_int (s_value i) v /\ is_int (s_value j) w) by (destruct xs, ys; cbn in H; tauto).
  destruct K as (A & B & C & D). unfold pick. rewrite (Hcomp i j (proj1 C) (proj1 D)), (proj2 C), (proj2 D). destruct (Rle_dec _ _); auto.
Qed.
Lemma rpt_pt a : rpt (pt a) = (B2R (s_time a), B2R (s_value a)).
Proof. reflexivity. Qed.

Lemma loop_near : forall xs ys i j k v w pts, linked k v w i j xs ys -> wfp pts -> pts <> [] -> end_time (sig_of pts) = s_time (pick comp i j) ->
  exists pts', pair_loop comp (Some i) (Some j) xs ys (if comp i j then ChX else ChY) (sig_of pts) = Ok (sig_of (pts ++ pts')) /\ wfp (pts ++ pts') /\
    Forall fpt pts' /\ Forall (fun p => IZR k < B2R (fst p)) pts' /\
    final_time (map rpt (pt (pick comp i j) :: pts')) = final_time (reals (i :: xs)) /\
    forall t, IZR k <= t <= final_time (reals (i :: xs)) ->
      Rabs (pw (map rpt (pt (pick comp i j) :: pts')) t - sbest s (pw (reals (i :: xs)) t) (pw (reals (j :: ys)) t)) <= EE.
Proof.
  assert (E0 : 0 <= EE). { unfold EE. pose proof uu_small. assert (0 < uu * (V * S)) by (apply Rmult_lt_0_compat; nra). lra. }
  induction xs as [|i' xs IH]; intros ys i j k v w pts C W Hne He; destruct ys as [|j' ys]; try (exfalso; apply C; fail); try (destruct C as (? & ? & ? & ? & []); fail).
  - exists []. rewrite app_nil_r. split; [reflexivity|]. split; [exact W|]. split; [constructor|]. split; [constructor|].
    destruct (pick_int _ _ _ _ _ _ _ C) as ((_ & P1) & (_ & P2)). cbn [map]. rewrite rpt_pt, P1, P2.
    destruct C as ((_ & A1) & (_ & A2) & (_ & A3) & (_ & A4) & _). rewrite !reals_cons. cbn [pw final_time last_opt fst snd]. rewrite A1, ?A2, A3, A4. cbn [reals map pw snd]. split; [reflexivity|].
    intros t _. unfold sbest. destruct (Rle_dec _ _); rewrite Rminus_diag_eq by reflexivity; rewrite Rabs_R0; exact E0.
  - pose proof C as C0. destruct C as (A1 & A2 & A3 & A4 & v' & w' & Si & Sj & C).
    assert (Step : exists ext, (forall c, pair_loop comp (Some i) (Some j) (i' :: xs) (j' :: ys) (if comp i j then ChX else ChY) (sig_of pts) = c ->
         pair_loop comp (Some i') (Some j') xs ys (if comp i' j' then ChX else ChY) (sig_of (pts ++ ext ++ [pt (pick comp i' j')])) = c) /\
       wfp (pts ++ ext ++ [pt (pick comp i' j')]) /\ between k ext /\ forall rest t, IZR k <= t <= IZR k + 1 ->
         Rabs (pw (map rpt (pt (pick comp i j) :: ext ++ pt (pick comp i' j') :: rest)) t -
            sbest s (IZR v + (IZR v' - IZR v) * (t - IZR k)) (IZR w + (IZR w' - IZR w) * (t - IZR k))) <= EE).
    { destruct (pick_int _ _ _ _ _ _ _ C0) as (P1 & P2). destruct (pick_int _ _ _ _ _ _ _ C) as (P3 & P4).
      assert (L : nltb (end_time (sig_of pts)) (s_time (pick comp i' j')) = true).
      { rewrite He. apply B2R_lt; [apply P1|apply P3|]. rewrite (proj2 P1), (proj2 P3), plus_IZR. lra. }
      assert (Ce : comp i j = if Rle_dec (s * IZR v) (s * IZR w) then true else false) by (rewrite Hcomp by (apply A3 || apply A4); rewrite (proj2 A3), (proj2 A4); reflexivity).
      assert (Ce' : comp i' j' = if Rle_dec (s * IZR v') (s * IZR w') then true else false).
      { assert (K : is_int (s_time i') (k + 1) /\ is_int (s_time j') (k + 1) /\ is_int (s_value i') v' /\ is_int (s_value j') w') by (destruct xs, ys; cbn in C; tauto).
        destruct K as (_ & _ & K3 & K4). rewrite Hcomp by (apply K3 || apply K4). rewrite (proj2 K3), (proj2 K4). reflexivity. }
      assert (Hp : rpt (pt (pick comp i j)) = (IZR k, IZR (if Rle_dec (s * IZR v) (s * IZR w) then v else w))) by (rewrite rpt_pt, (proj2 P1), (proj2 P2); reflexivity).
      assert (Hp' : rpt (pt (pick comp i' j')) = (IZR k + 1, IZR (if Rle_dec (s * IZR v') (s * IZR w') then v' else w'))) by (rewrite rpt_pt, (proj2 P3), (proj2 P4), plus_IZR; reflexivity).
      cbn [pair_loop]. setoid_rewrite map_cons. setoid_rewrite map_app. setoid_rewrite map_cons. rewrite Hp, Hp'. clear Hp Hp'.
      unfold pick in He, L, P3, P4 |- *. rewrite Ce, Ce' in *.
      destruct (Rle_dec (s * IZR v) (s * IZR w)) as [Q|Q], (Rle_dec (s * IZR v') (s * IZR w')) as [Q'|Q']; cbn [chosen_eqb].
      - exists []. destruct (push_back_ok pts i' W Hne L) as (B1 & B2). unfold pair_step. cbn [bind app]. rewrite B1. cbn [bind]. split; [auto|]. split; [exact B2|].
        split; [left; reflexivity|]. intros rest t Ht. cbn [map app]. rewrite (step_same k v v' w w' (map rpt rest) t Q Q' Ht), Rabs_R0. exact E0.
      - apply Rnot_le_lt in Q'. destruct (step_switch pts i j j' k v v' w w' W Hne He Si Sj P3 P4 Q ltac:(lra)) as (ext & B1 & B2 & B3 & B4).
        { intro. destruct Hs as [E|E]; rewrite E in Q, Q'; lra. }
        exists ext. rewrite B1. cbn [bind]. split; [auto|]. split; [exact B2|]. split; [exact B3|]. intros rest t Ht. apply B4, Ht.
      - apply Rnot_le_lt in Q. destruct (step_switch pts j i i' k w w' v v' W Hne He Sj Si P3 P4 ltac:(lra) Q') as (ext & B1 & B2 & B3 & B4).
        { intro. destruct Hs as [E|E]; rewrite E in Q, Q'; lra. }
        exists ext. rewrite B1. cbn [bind]. split; [auto|]. split; [exact B2|]. split; [exact B3|]. intros rest t Ht. rewrite sbest_sym. apply B4, Ht.
      - apply Rnot_le_lt in Q, Q'. exists []. destruct (push_back_ok pts j' W Hne L) as (B1 & B2). unfold pair_step. cbn [bind app]. rewrite B1. cbn [bind]. split; [auto|]. split; [exact B2|].
        split; [left; reflexivity|]. intros rest t Ht. cbn [map app]. rewrite sbest_sym. rewrite (step_same k w w' v v' (map rpt rest) t ltac:(lra) ltac:(lra) Ht), Rabs_R0. exact E0. }
    destruct Step as (ext & S1 & S2 & S3 & S4).
    destruct (IH ys i' j' (k + 1)%Z v' w' (pts ++ ext ++ [pt (pick comp i' j')]) C S2) as (pts' & H1 & H2 & H3 & H4 & H5 & H6).
    { apply wfp_nonempty_app. } { rewrite app_assoc. apply end_snoc. }
    assert (Ea : (pts ++ ext ++ [pt (pick comp i' j')]) ++ pts' = pts ++ (ext ++ pt (pick comp i' j') :: pts')) by (rewrite <- !app_assoc; reflexivity).
    rewrite Ea in H1, H2. destruct (pick_int _ _ _ _ _ _ _ C0) as (P1 & P2). destruct (pick_int _ _ _ _ _ _ _ C) as (P3 & P4).
    exists (ext ++ pt (pick comp i' j') :: pts').
    split. { rewrite <- H1. symmetry. apply S1. reflexivity. }
    split; [exact H2|]. rewrite plus_IZR in H4, H6.
    split. { apply Forall_app. split; [destruct S3 as [-> | (it & vv & -> & F1 & F2 & _)]; repeat constructor; assumption|]. constructor; [split; [apply P3|apply P4]|exact H3]. }
    split. { apply Forall_app. split; [destruct S3 as [-> | (it & vv & -> & _ & _ & F3)]; [constructor|repeat constructor; cbn; lra]|].
      constructor; [cbn [pt fst]; rewrite (proj2 P3), plus_IZR; lra|]. eapply Forall_impl; [|exact H4]. cbn beta. intros; lra. }
    assert (Hf : final_time (map rpt (pt (pick comp i j) :: ext ++ pt (pick comp i' j') :: pts')) = final_time (map rpt (pt (pick comp i' j') :: pts'))).
    { rewrite map_cons, map_app. apply (final_app (rpt (pt (pick comp i j)) :: map rpt ext)). discriminate. }
    split. { rewrite Hf, H5. reflexivity. }
    destruct (linked_reals _ _ _ _ _ _ _ C0) as (lx & ly & Ex & Ey). destruct (linked_reals _ _ _ _ _ _ _ C) as (lx' & ly' & Ex' & Ey'). rewrite plus_IZR in Ex', Ey'.
    assert (Ex2 : reals (i :: i' :: xs) = (IZR k, IZR v) :: reals (i' :: xs)) by (rewrite (reals_cons _ (_ :: _)), (proj2 A1), (proj2 A3); reflexivity).
    assert (Ey2 : reals (j :: j' :: ys) = (IZR k, IZR w) :: reals (j' :: ys)) by (rewrite (reals_cons _ (_ :: _)), (proj2 A2), (proj2 A4); reflexivity).
    assert (Fx : final_time (reals (i :: i' :: xs)) = final_time (reals (i' :: xs))) by (rewrite Ex2, Ex'; reflexivity).
    rewrite Fx. intros t Ht. destruct (Rle_lt_dec t (IZR k + 1)) as [Lt|Lt].
    + rewrite Ex2, Ey2, Ex', Ey'. rewrite !pw_first by exact Lt. rewrite !line_unit. apply S4. lra.
    + assert (Px : pw (reals (i :: i' :: xs)) t = pw (reals (i' :: xs)) t).
      { rewrite Ex2, Ex'. cbn [pw fst]. destruct (Rle_dec t (IZR k + 1)); [lra|reflexivity]. }
      assert (Py : pw (reals (j :: j' :: ys)) t = pw (reals (j' :: ys)) t).
      { rewrite Ey2, Ey'. cbn [pw fst]. destruct (Rle_dec t (IZR k + 1)); [lra|reflexivity]. }
      rewrite Px, Py. assert (Pz : pw (map rpt (pt (pick comp i j) :: ext ++ pt (pick comp i' j') :: pts')) t = pw (map rpt (pt (pick comp i' j') :: pts')) t).
      { assert (G : B2R (s_time (pick comp i' j')) < t) by (rewrite (proj2 P3), plus_IZR; exact Lt).
        destruct S3 as [-> | (it & vv & -> & _ & _ & F3)]; cbn [map app pw rpt fst pt].
        - destruct (Rle_dec t _) as [?|_]; [lra|reflexivity].
        - destruct (Rle_dec t (B2R it)) as [?|_]; [lra|]. destruct (Rle_dec t _) as [?|_]; [lra|reflexivity]. }
      rewrite Pz. apply H6. lra.
Qed.
End Loop.

Lemma comp_real p (i j : sample B64) : finite (s_value i) = true -> finite (s_value j) = true ->
  comp_of p i j = if Rle_dec (QuantFacts.sgp p * B2R (s_value i)) (QuantFacts.sgp p * B2R (s_value j)) then true else false.
Proof.
  intros Fa Fb.
  assert (NE : forall u w : B64, finite u = true -> finite w = true -> B2R w <= B2R u -> nltb u w = false).
  { intros u u2 Fu Fw L'. destruct (nltb u u2) eqn:K; [|reflexivity]. apply lt_B2R in K; auto. lra. }
  destruct p; cbn [comp_of QuantFacts.sgp]; unfold sample_le, sample_ge, sample_gt, sample_lt; destruct (Rle_dec _ _) as [Q1|Q1].
  - apply negb_true_iff. apply NE; auto. lra.
  - apply negb_false_iff. apply B2R_lt; auto. lra.
  - apply negb_true_iff. apply NE; auto. lra.
  - apply negb_false_iff. apply B2R_lt; auto. lra.
Qed.

(** ** Two signals *)
Section Pair.
Variables (V S : R).
Hypothesis HV : 1 <= V.
Hypothesis HS : 1 <= S.
Hypothesis HVS : V * S <= bpow radix2 50.

Lemma whole_tail V' S' a x : whole V' S' (a :: x) -> whole V' S' x.
Proof. intros (A & B). split; [intros b Hb; apply A; right; exact Hb|]. intros x1 b c x2 ->. apply (B (a :: x1) b c x2). reflexivity. Qed.
Lemma whole_finite V' S' x : whole V' S' x -> Forall (fun a => finite (s_time a) = true /\ finite (s_value a) = true) x.
Proof. intros (A & _). apply Forall_forall. intros a Ha. destruct (A a Ha) as (H1 & H2 & _). auto. Qed.

Lemma linked_of : forall x y, whole V S x -> whole V S y -> slopes_ok x -> slopes_ok y -> Forall2 (fun a b => neqb (s_time a) (s_time b) = true) x y ->
  forall i j xs ys, x = i :: xs -> y = j :: ys -> exists k v w, linked V S k v w i j xs ys.
Proof.
  induction x as [|a x IH]; intros y Wx Wy Sx Sy F i j xs ys Ex Ey; [discriminate|]. injection Ex as -> ->. subst y.
  inversion F as [|? ? ? ? T F']; subst.
  destruct (proj1 Wx i (or_introl eq_refl)) as (Fti & Fvi & k & v & Ek & Ev & Bk & Bv). destruct (proj1 Wy j (or_introl eq_refl)) as (Ftj & Fvj & k' & w & Ek' & Ew & _ & Bw).
  assert (k' = k). { apply eq_IZR. rewrite <- Ek, <- Ek'. symmetry. apply eq_B2R; assumption. } subst k'.
  exists k, v, w. destruct xs as [|i' xs]; [inversion F'; subst; cbn; repeat split; assumption|]. inversion F' as [|? j' ? ys' T' F'']; subst. cbn [linked].
  destruct (IH (j' :: ys') (whole_tail _ _ _ _ Wx) (whole_tail _ _ _ _ Wy) (proj2 Sx) (proj2 Sy) F' i' j' xs ys' eq_refl eq_refl) as (k' & v' & w' & L).
  assert (K : is_int (s_time i') k' /\ is_int (s_time j') k' /\ is_int (s_value i') v' /\ is_int (s_value j') w') by (destruct xs, ys'; cbn in L; tauto).
  destruct K as (K1 & K2 & K3 & K4).
  assert (k' = (k + 1)%Z). { apply eq_IZR. rewrite plus_IZR, <- Ek, <- (proj2 K1). apply (proj2 Wx [] i i' xs eq_refl). } subst k'.
  destruct (proj1 Wx i' (or_intror (or_introl eq_refl))) as (_ & _ & k1 & v1 & E1 & E1' & B1 & B1'). rewrite (proj2 K1) in E1. apply eq_IZR in E1. subst k1. rewrite (proj2 K3) in E1'. apply eq_IZR in E1'. subst v1.
  destruct (proj1 Wy j' (or_intror (or_introl eq_refl))) as (_ & _ & k2 & w1 & _ & E2' & _ & B2'). rewrite (proj2 K4) in E2'. apply eq_IZR in E2'. subst w1.
  split; [split; assumption|]. split; [split; assumption|]. split; [split; assumption|]. split; [split; assumption|]. exists v', w'.
  split; [|split; [|exact L]].
  - apply (seg_of V S HV HS HVS i i' k v (k + 1) v'); auto; try (split; assumption). apply Sx.
  - apply (seg_of V S HV HS HVS j j' k w (k + 1) w'); auto; try (split; assumption). apply Sy.
Qed.

Lemma pair_near dbg (p : bool) (x y : signal B64) : wf x -> wf y -> x <> [] -> Forall2 (fun a b => neqb (s_time a) (s_time b) = true) x y ->
  whole V S x -> whole V S y ->
  exists z, minmax_pair dbg (comp_of p) false x y = Ok z /\ minmax_pair dbg (comp_of p) true x y = Ok z /\
    wf z /\ z <> [] /\ Forall (fun a => finite (s_time a) = true /\ finite (s_value a) = true) z /\
    first_time (reals z) = first_time (reals x) /\ final_time (reals z) = final_time (reals x) /\
    forall t, first_time (reals x) <= t <= final_time (reals x) -> Rabs (pw (reals z) t - sbest (QuantFacts.sgp p) (pw (reals x) t) (pw (reals y) t)) <= EE V S.
Proof.
  intros Wx Wy N T Hx Hy. assert (Q : minmax_pair dbg (comp_of p) false x y = minmax_pair dbg (comp_of p) true x y).
  { unfold minmax_pair. rewrite (sync_fixed x y) by assumption. reflexivity. }
  rewrite Q, (minmax_true_same dbg (comp_of p) x y N T). destruct T as [|i j xs ys E T]; [congruence|]. rewrite (pair_loop_start (comp_of p) i j xs ys E).
  destruct (linked_of _ _ Hx Hy (proj2 (proj2 Wx)) (proj2 (proj2 Wy)) (Forall2_cons _ _ E T) i j xs ys eq_refl eq_refl) as (k & v & w & L).
  pose proof (comp_real p) as Hc.
  destruct (pick_int V S (QuantFacts.sgp p) (sgp_cases p) (comp_of p) Hc _ _ _ _ _ _ _ L) as (P1 & P2).
  assert (W0 : wfp [pt (pick (comp_of p) i j)]). { split; cbn [map fst pt]; [constructor; [apply finite_num, P1|constructor]|repeat constructor]. }
  destruct (loop_near V S HV HS HVS (QuantFacts.sgp p) (sgp_cases p) (comp_of p) Hc xs ys i j k v w _ L W0 ltac:(discriminate) (end_snoc [] _)) as (pts' & H1 & H2 & H3 & H4 & H5 & H6).
  exists (sig_of ([pt (pick (comp_of p) i j)] ++ pts')). split; [exact H1|]. split; [exact H1|]. split; [apply wf_canon; eauto|]. split; [discriminate|].
  assert (FP : Forall fpt ([pt (pick (comp_of p) i j)] ++ pts')) by (constructor; [split; [apply P1|apply P2]|exact H3]).
  split. { clear - FP. induction FP as [|a l (A & B) _ IH]; cbn [sig_of]; constructor; auto. }
  rewrite reals_sig_of. assert (Hk : first_time (reals (i :: xs)) = IZR k). { destruct (linked_reals V S (QuantFacts.sgp p) (sgp_cases p) _ _ _ _ _ _ _ L) as (lx & ly & -> & _). reflexivity. }
  split. { rewrite Hk. cbn [app map first_time]. rewrite rpt_pt. apply P1. }
  split; [exact H5|]. rewrite Hk. exact H6.
Qed.
End Pair.
Lemma EE_is V S : EE V S = bpow radix2 (-49) * V * S.
Proof. unfold EE, uu. change (bpow radix2 (-49)) with (bpow radix2 (4 + -53)). rewrite bpow_plus. change (bpow radix2 4) with 16. ring. Qed.
Lemma sbest_min p q : sbest 1 p q = Rmin p q.
Proof. unfold sbest, Rmin. rewrite !Rmult_1_l. reflexivity. Qed.
Lemma sbest_max p q : sbest (-1) p q = Rmax p q.
Proof. unfold sbest, Rmax. destruct (Rle_dec _ _), (Rle_dec _ _); lra. Qed.

Lemma near_pwl (p : bool) (x y z : signal B64) V S : wf x -> wf y -> wf z -> x <> [] -> y <> [] -> z <> [] ->
  Forall (fun a => finite (s_time a) = true /\ finite (s_value a) = true) x -> Forall (fun a => finite (s_time a) = true /\ finite (s_value a) = true) y ->
  Forall (fun a => finite (s_time a) = true /\ finite (s_value a) = true) z ->
  first_time (reals z) = first_time (reals x) -> final_time (reals z) = final_time (reals x) ->
  (forall t, first_time (reals x) <= t <= final_time (reals x) -> Rabs (pw (reals z) t - sbest (QuantFacts.sgp p) (pw (reals x) t) (pw (reals y) t)) <= EE V S) ->
  forall t u v, pwl (reals x) t u -> pwl (reals y) t v -> exists w, pwl (reals z) t w /\ Rabs (w - if p then Rmin u v else Rmax u v) <= bpow radix2 (-49) * V * S.
Proof.
  intros Wx Wy Wz Nx Ny Nz Fx Fy Fz E1 E2 H t u v Hu Hv.
  apply pwl_pw in Hu as (D & ->); [|apply reals_rincr; assumption|destruct x; [congruence|discriminate]].
  apply pwl_pw in Hv as (_ & ->); [|apply reals_rincr; assumption|destruct y; [congruence|discriminate]].
  exists (pw (reals z) t). split. { apply pwl_pw; [apply reals_rincr; assumption|destruct z; [congruence|discriminate]|]. rewrite E1, E2. auto. }
  rewrite <- EE_is. specialize (H t D). destruct p; cbn [QuantFacts.sgp] in H; [rewrite sbest_min in H|rewrite sbest_max in H]; exact H.
Qed.

Lemma C117_pair_lemma dbg sync (x y : signal B64) V S : wf x -> wf y -> x <> [] -> Forall2 (fun a b => neqb (s_time a) (s_time b) = true) x y ->
  1 <= V -> 1 <= S -> V * S <= bpow radix2 50 -> whole V S x -> whole V S y ->
  (exists z, elementwise_min dbg sync x y = Ok z /\ forall t u v, pwl (reals x) t u -> pwl (reals y) t v ->
     exists w, pwl (reals z) t w /\ Rabs (w - Rmin u v) <= bpow radix2 (-49) * V * S) /\
  (exists z, elementwise_max dbg sync x y = Ok z /\ forall t u v, pwl (reals x) t u -> pwl (reals y) t v ->
     exists w, pwl (reals z) t w /\ Rabs (w - Rmax u v) <= bpow radix2 (-49) * V * S).
Proof.
  intros Wx Wy Nx T HV HS HVS Hx Hy. assert (Ny : y <> []) by (inversion T; subst; congruence).
  split; [set (p := true)|set (p := false)]; destruct (pair_near V S HV HS HVS dbg p x y Wx Wy Nx T Hx Hy) as (z & Z1 & Z2 & Z3 & Z4 & Z5 & Z6 & Z7 & Z8);
    (exists z; split; [destruct sync; assumption|]); apply (near_pwl p); eauto using whole_finite.
Qed.
