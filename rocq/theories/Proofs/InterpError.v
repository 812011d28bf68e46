(** Error of linear interpolation in doubles. *)
From Coq Require Import Reals Lra Lia Sorted.
From Flocq Require Import Core.Core IEEE754.BinarySingleNaN Plus_error Relative.
From Verif Require Import Base Num NumB64.
From Verif.Model Require Import Signal.
From Verif.Proofs Require Import NumFacts B64Facts.
Local Open Scope R_scope.

Definition uu : R := bpow radix2 (-53).
Definition eta : R := bpow radix2 (-1075).

Lemma uu_small : 0 < uu <= / 1000000.
Proof.
  split; [apply bpow_gt_0|]. unfold uu. apply Rle_trans with (bpow radix2 (-20)).
  - apply bpow_le; lia.
  - simpl. lra.
Qed.
Lemma eta_pos : 0 < eta. Proof. apply bpow_gt_0. Qed.

Lemma rnd_bound x e : (-1000 <= e <= 1023)%Z -> Rabs x <= bpow radix2 e -> Rabs (rnd x) <= bpow radix2 e.
Proof.
  intros He H. apply abs_round_le_generic; [apply (fexp_correct 53 1024); reflexivity|apply valid_rnd_round_mode| |exact H].
  apply generic_format_bpow. unfold SpecFloat.fexp, SpecFloat.emin. lia.
Qed.
Lemma rnd_fits x : Rabs x <= bpow radix2 1023 -> Rlt_bool (Rabs (rnd x)) (bpow radix2 1024) = true.
Proof.
  intro H. apply Rlt_bool_true. apply Rle_lt_trans with (bpow radix2 1023).
  - apply rnd_bound; [lia|exact H].
  - apply bpow_lt; lia.
Qed.

Lemma rnd_error x : exists e n, Rabs e <= uu /\ Rabs n <= eta /\ rnd x = x * (1 + e) + n.
Proof.
  destruct (error_N_FLT radix2 (-1074) 53 ltac:(lia) (fun z => negb (Z.even z)) x) as (e & n & He & Hn & _ & E).
  exists e, n. split; [|split].
  - replace uu with (/ 2 * bpow radix2 (-53 + 1)); [exact He|]. unfold uu. rewrite (bpow_plus radix2 (-53) 1). simpl (bpow radix2 1). lra.
  - replace eta with (/ 2 * bpow radix2 (-1074)); [exact Hn|]. unfold eta.
    change (-1074)%Z with (-1075 + 1)%Z. rewrite (bpow_plus radix2 (-1075) 1). simpl (bpow radix2 1). lra.
  - exact E.
Qed.

Lemma rnd_plus_error (x y : B64) : finite x = true -> finite y = true ->
  exists e, Rabs e <= uu /\ rnd (B2R x + B2R y) = (B2R x + B2R y) * (1 + e).
Proof.
  intros Hx Hy.
  destruct (@FLT_plus_error_N_ex radix2 (-1074) 53 b64_prec_gt_0 (fun z => negb (Z.even z)) (B2R x) (B2R y)) as (e & He & E).
  - apply (generic_format_B2R 53 1024).
  - apply (generic_format_B2R 53 1024).
  - exists e. split; [|exact E]. eapply Rle_trans; [exact He|].
    unfold u_ro. replace (/ 2 * bpow radix2 (- (53) + 1)) with uu.
    2: { unfold uu. change (- (53) + 1)%Z with (-53 + 1)%Z. rewrite (bpow_plus radix2 (-53) 1). simpl (bpow radix2 1). lra. }
    pose proof uu_small. unfold Rdiv. rewrite <- (Rmult_1_r uu) at 3. apply Rmult_le_compat_l; [lra|].
    rewrite <- Rinv_1. apply Rinv_le_contravar; lra.
Qed.
Lemma rnd_minus_error (x y : B64) : finite x = true -> finite y = true ->
  exists e, Rabs e <= uu /\ rnd (B2R x - B2R y) = (B2R x - B2R y) * (1 + e).
Proof.
  intros Hx Hy. destruct (rnd_plus_error x (nopp y)) as (e & He & E); [exact Hx|destruct y; exact Hy|].
  exists e. split; [exact He|]. change (nopp y) with (Bopp y) in E. rewrite B2R_Bopp in E. exact E.
Qed.

Lemma sub_ok (x y : B64) : finite x = true -> finite y = true -> Rabs (B2R x - B2R y) <= bpow radix2 1023 ->
  finite (nsub x y) = true /\ B2R (nsub x y) = rnd (B2R x - B2R y).
Proof.
  intros Hx Hy Hb. pose proof (Bminus_correct 53 1024 b64_prec_gt_0 b64_prec_lt_emax mode_NE x y Hx Hy) as H.
  pose proof (rnd_fits _ Hb) as Hf. unfold rnd in Hf. rewrite Hf in H. destruct H as (H1 & H2 & _). split; [exact H2|exact H1].
Qed.
Lemma add_ok (x y : B64) : finite x = true -> finite y = true -> Rabs (B2R x + B2R y) <= bpow radix2 1023 ->
  finite (nadd x y) = true /\ B2R (nadd x y) = rnd (B2R x + B2R y).
Proof.
  intros Hx Hy Hb. pose proof (Bplus_correct 53 1024 b64_prec_gt_0 b64_prec_lt_emax mode_NE x y Hx Hy) as H.
  pose proof (rnd_fits _ Hb) as Hf. unfold rnd in Hf. rewrite Hf in H. destruct H as (H1 & H2 & _). split; [exact H2|exact H1].
Qed.
Lemma mul_ok (x y : B64) : finite x = true -> finite y = true -> Rabs (B2R x * B2R y) <= bpow radix2 1023 ->
  finite (nmul x y) = true /\ B2R (nmul x y) = rnd (B2R x * B2R y).
Proof.
  intros Hx Hy Hb. pose proof (Bmult_correct 53 1024 b64_prec_gt_0 b64_prec_lt_emax mode_NE x y) as H.
  pose proof (rnd_fits _ Hb) as Hf. unfold rnd in Hf. rewrite Hf in H. destruct H as (H1 & H2 & _). split; [|exact H1].
  unfold finite in *. cbn. rewrite H2, Hx, Hy. reflexivity.
Qed.
Lemma div_ok (x y : B64) : finite x = true -> finite y = true -> B2R y <> 0 -> Rabs (B2R x / B2R y) <= bpow radix2 1023 ->
  finite (ndiv x y) = true /\ B2R (ndiv x y) = rnd (B2R x / B2R y).
Proof.
  intros Hx Hy H0 Hb. pose proof (Bdiv_correct 53 1024 b64_prec_gt_0 b64_prec_lt_emax mode_NE x y H0) as H.
  pose proof (rnd_fits _ Hb) as Hf. unfold rnd in Hf. rewrite Hf in H. destruct H as (H1 & H2 & _). split; [|exact H1].
  unfold finite in *. cbn. rewrite H2, Hx. reflexivity.
Qed.

(** Products of factors close to 1. *)
Lemma grow A e a : Rabs (A - 1) <= a -> a <= / 100 -> Rabs e <= uu -> Rabs (A * (1 + e) - 1) <= a + uu * (1 + / 100).
Proof.
  intros HA Ha He. pose proof uu_small. replace (A * (1 + e) - 1) with ((A - 1) + A * e) by ring.
  eapply Rle_trans; [apply Rabs_triang|]. apply Rplus_le_compat; [exact HA|].
  rewrite Rabs_mult, Rmult_comm. apply Rmult_le_compat; try apply Rabs_pos; [exact He|].
  replace A with ((A - 1) + 1) by ring. eapply Rle_trans; [apply Rabs_triang|]. rewrite Rabs_R1. lra.
Qed.
Lemma shrink A e a : Rabs (A - 1) <= a -> a <= / 100 -> Rabs e <= uu -> Rabs (A / (1 + e) - 1) <= (a + uu) * (1 + / 100).
Proof.
  intros HA Ha He. pose proof uu_small. apply Rabs_le_inv in He. assert (H0 : 0 < 1 + e) by lra.
  replace (A / (1 + e) - 1) with ((A - 1 - e) / (1 + e)) by (field; lra).
  unfold Rdiv. rewrite Rabs_mult. assert (Ha0 : 0 <= a) by (pose proof (Rabs_pos (A - 1)); lra).
  apply Rmult_le_compat; try apply Rabs_pos.
  - apply Rabs_le. apply Rabs_le_inv in HA. lra.
  - rewrite Rabs_pos_eq by (left; apply Rinv_0_lt_compat; exact H0).
    apply Rmult_le_reg_r with (1 + e); [exact H0|]. rewrite Rinv_l by lra. nra.
Qed.
Lemma factor5 e1 e2 e3 e4 e5 : Rabs e1 <= uu -> Rabs e2 <= uu -> Rabs e3 <= uu -> Rabs e4 <= uu -> Rabs e5 <= uu ->
  Rabs ((1 + e1) * (1 + e3) * (1 + e4) * (1 + e5) / (1 + e2) - 1) <= 6 * uu.
Proof.
  intros H1 H2 H3 H4 H5. pose proof uu_small.
  assert (A1 : Rabs ((1 + e1) - 1) <= uu) by (replace (1 + e1 - 1) with e1 by ring; exact H1).
  assert (A2 := grow _ e3 _ A1 ltac:(lra) H3).
  assert (A3 := grow _ e4 _ A2 ltac:(lra) H4).
  assert (A4 := grow _ e5 _ A3 ltac:(lra) H5).
  assert (A5 := shrink _ e2 _ A4 ltac:(lra) H2).
  eapply Rle_trans; [exact A5|]. lra.
Qed.

(** The interpolated value, up to rounding errors [e1]..[e6] (relative) and [n3], [n5] (underflow). *)
Lemma interp_reals V D H h v1 e1 e2 e3 e4 e5 e6 n3 n5 : 0 < H -> 0 <= h <= H -> Rabs v1 <= V -> Rabs (v1 + D) <= V ->
  Rabs e1 <= uu -> Rabs e2 <= uu -> Rabs e3 <= uu -> Rabs e4 <= uu -> Rabs e5 <= uu -> Rabs e6 <= uu ->
  Rabs n3 <= eta -> Rabs n5 <= eta ->
  let q := (D * (1 + e1)) / (H * (1 + e2)) * (1 + e3) + n3 in
  let m := q * (h * (1 + e4)) * (1 + e5) + n5 in
  Rabs (m - D * h / H) <= 12 * uu * V + 2 * eta * (H + 1) /\
  Rabs ((v1 + m) * (1 + e6) - (v1 + D * h / H)) <= 16 * uu * V + 4 * eta * (H + 1).
Proof.
  intros HH Hh Hv Hw H1 H2 H3 H4 H5 H6 N3 N5 q m. pose proof uu_small as Hu. pose proof eta_pos as He.
  assert (HV : 0 <= V) by (pose proof (Rabs_pos v1); lra).
  assert (Hl : 0 <= h / H <= 1).
  { split; [apply Rmult_le_pos; [lra|left; apply Rinv_0_lt_compat; lra]|].
    apply Rmult_le_reg_r with H; [lra|]. unfold Rdiv. rewrite Rmult_assoc, Rinv_l; lra. }
  set (m0 := D * h / H).
  assert (Em0 : m0 = D * (h / H)) by (unfold m0; field; lra).
  assert (HD : Rabs D <= 2 * V).
  { replace D with ((v1 + D) + - v1) by ring. eapply Rle_trans; [apply Rabs_triang|]. rewrite Rabs_Ropp. lra. }
  assert (Hm0 : Rabs m0 <= 2 * V).
  { rewrite Em0, Rabs_mult, (Rabs_pos_eq (h / H)) by lra. pose proof (Rabs_pos D). nra. }
  assert (HL : Rabs (v1 + m0) <= V).
  { rewrite Em0. replace (v1 + D * (h / H)) with (v1 * (1 - h / H) + (v1 + D) * (h / H)) by ring.
    apply Rabs_le_inv in Hv. apply Rabs_le_inv in Hw. apply Rabs_le. split; nra. }
  set (E := (1 + e1) * (1 + e3) * (1 + e4) * (1 + e5) / (1 + e2)).
  assert (HE : Rabs (E - 1) <= 6 * uu) by (apply factor5; assumption).
  set (N := n3 * (h * ((1 + e4) * (1 + e5))) + n5).
  assert (Em : m - m0 = m0 * (E - 1) + N).
  { unfold m, q, m0, E, N. apply Rabs_le_inv in H2. field. split; lra. }
  assert (HN : Rabs N <= 2 * eta * (H + 1)).
  { unfold N. eapply Rle_trans; [apply Rabs_triang|]. rewrite Rabs_mult.
    assert (K : Rabs (h * ((1 + e4) * (1 + e5))) <= H * 2).
    { apply Rabs_le_inv in H4. apply Rabs_le_inv in H5. rewrite Rabs_pos_eq.
      - apply Rmult_le_compat; try lra; [apply Rmult_le_pos; lra|]. nra.
      - apply Rmult_le_pos; [lra|]. apply Rmult_le_pos; lra. }
    pose proof (Rabs_pos n3). pose proof (Rabs_pos (h * ((1 + e4) * (1 + e5)))).
    assert (Rabs n3 * Rabs (h * ((1 + e4) * (1 + e5))) <= eta * (H * 2)) by (apply Rmult_le_compat; assumption).
    lra. }
  assert (Hmm : Rabs (m - m0) <= 12 * uu * V + 2 * eta * (H + 1)).
  { rewrite Em. eapply Rle_trans; [apply Rabs_triang|]. apply Rplus_le_compat; [|exact HN].
    rewrite Rabs_mult. replace (12 * uu * V) with (2 * V * (6 * uu)) by ring.
    apply Rmult_le_compat; try apply Rabs_pos; assumption. }
  split; [exact Hmm|].
  replace ((v1 + m) * (1 + e6) - (v1 + m0)) with ((m - m0) * (1 + e6) + (v1 + m0) * e6) by ring.
  eapply Rle_trans; [apply Rabs_triang|]. rewrite !Rabs_mult.
  assert (K1 : Rabs (1 + e6) <= 1 + / 100).
  { apply Rabs_le_inv in H6. apply Rabs_le. lra. }
  assert (K2 : Rabs (v1 + m0) * Rabs e6 <= V * uu) by (apply Rmult_le_compat; try apply Rabs_pos; assumption).
  assert (K3 : Rabs (m - m0) * Rabs (1 + e6) <= (12 * uu * V + 2 * eta * (H + 1)) * (1 + / 100))
    by (apply Rmult_le_compat; try apply Rabs_pos; assumption).
  assert (0 <= eta * (H + 1)) by (apply Rmult_le_pos; lra).
  assert (0 <= uu * V) by (apply Rmult_le_pos; lra).
  lra.
Qed.

Definition big : R := bpow radix2 1000.
Lemma big_pos : 1 <= big. Proof. change 1 with (bpow radix2 0). apply bpow_le. lia. Qed.
Lemma big_fits k r : (0 <= k <= 23)%Z -> Rabs r <= bpow radix2 k * big -> Rabs r <= bpow radix2 1023.
Proof.
  intros Hk H. eapply Rle_trans; [exact H|]. unfold big. rewrite <- bpow_plus. apply bpow_le. lia.
Qed.

Lemma div_finite (x y : B64) : B2R y <> 0 -> finite (ndiv x y) = true -> B2R (ndiv x y) = rnd (B2R x / B2R y).
Proof.
  intros H0 F. pose proof (Bdiv_correct 53 1024 b64_prec_gt_0 b64_prec_lt_emax mode_NE x y H0) as H.
  destruct (Rlt_bool _ _) eqn:E in H; [apply H|]. exfalso. revert F H.
  change (ndiv x y) with (@Bdiv 53 1024 b64_prec_gt_0 b64_prec_lt_emax mode_NE x y).
  destruct (Bdiv mode_NE x y); cbn; intros; discriminate.
Qed.

Lemma slope_finite (va vb ta tb : B64) V : finite va = true -> finite vb = true -> finite ta = true -> finite tb = true ->
  B2R ta < B2R tb -> Rabs (B2R ta) <= big -> Rabs (B2R tb) <= big -> Rabs (B2R va) <= V -> Rabs (B2R vb) <= V -> V <= big ->
  Rabs (B2R vb - B2R va) <= big * (B2R tb - B2R ta) -> finite (ndiv (nsub vb va) (nsub tb ta)) = true.
Proof.
  intros Fva Fvb Fta Ftb HH Hta Htb Hva Hvb HV HDH. pose proof uu_small as Hu. pose proof big_pos as Hb.
  set (D := B2R vb - B2R va) in *. set (H := B2R tb - B2R ta) in *.
  assert (H0 : 0 < H) by (unfold H; lra).
  assert (HD : Rabs D <= 2 * big).
  { unfold D. eapply Rle_trans; [apply Rabs_triang|]. rewrite Rabs_Ropp. lra. }
  assert (HHb : Rabs H <= 2 * big).
  { unfold H. eapply Rle_trans; [apply Rabs_triang|]. rewrite Rabs_Ropp. lra. }
  destruct (sub_ok vb va Fvb Fva) as (F1 & E1).
  { apply (big_fits 1); [lia|exact HD]. }
  destruct (rnd_minus_error vb va Fvb Fva) as (e1 & B1 & R1). fold D in R1, E1. rewrite R1 in E1.
  destruct (sub_ok tb ta Ftb Fta) as (F2 & E2).
  { apply (big_fits 1); [lia|exact HHb]. }
  destruct (rnd_minus_error tb ta Ftb Fta) as (e2 & B2 & R2). fold H in R2, E2. rewrite R2 in E2.
  assert (P2 : 0 < 1 + e2) by (apply Rabs_le_inv in B2; lra).
  assert (Hq : Rabs (D * (1 + e1) / (H * (1 + e2))) <= 2 * big).
  { replace (D * (1 + e1) / (H * (1 + e2))) with (D / H * ((1 + e1) / (1 + e2))) by (field; lra).
    rewrite Rabs_mult, Rmult_comm. apply Rmult_le_compat; try apply Rabs_pos.
    - assert (K : Rabs ((1 + e1) / (1 + e2) - 1) <= (uu + uu) * (1 + / 100)).
      { apply shrink; [replace (1 + e1 - 1) with e1 by ring; exact B1|lra|exact B2]. }
      apply Rabs_le_inv in K. apply Rabs_le. lra.
    - unfold Rdiv. rewrite Rabs_mult, (Rabs_pos_eq (/ H)) by (left; apply Rinv_0_lt_compat; exact H0).
      apply Rmult_le_reg_r with H; [exact H0|]. rewrite Rmult_assoc, Rinv_l; lra. }
  apply (div_ok (nsub vb va) (nsub tb ta) F1 F2).
  { rewrite E2. apply Rgt_not_eq. apply Rmult_lt_0_compat; assumption. }
  { rewrite E1, E2. apply (big_fits 1); [lia|exact Hq]. }
Qed.

Lemma interp_finite (a b : sample B64) (t : B64) V :
  finite (s_time a) = true -> finite (s_value a) = true -> finite (s_time b) = true -> finite (s_value b) = true ->
  finite t = true -> s_deriv a = ndiv (nsub (s_value b) (s_value a)) (nsub (s_time b) (s_time a)) ->
  B2R (s_time a) < B2R (s_time b) -> B2R (s_time a) <= B2R t <= B2R (s_time b) ->
  Rabs (B2R (s_time a)) <= big -> Rabs (B2R (s_time b)) <= big ->
  Rabs (B2R (s_value a)) <= V -> Rabs (B2R (s_value b)) <= V -> V <= big ->
  finite (s_deriv a) = true ->
  finite (interpolate a t) = true /\
  Rabs (B2R (interpolate a t) -
        (B2R (s_value a) + (B2R (s_value b) - B2R (s_value a)) * (B2R t - B2R (s_time a)) / (B2R (s_time b) - B2R (s_time a))))
    <= 16 * uu * V + 4 * eta * (B2R (s_time b) - B2R (s_time a) + 1).
Proof.
  intros Fta Fva Ftb Fvb Ft Ed HH Hh Hta Htb Hva Hvb HV Fd. pose proof uu_small as Hu. pose proof eta_pos as He. pose proof big_pos as Hb.
  set (D := B2R (s_value b) - B2R (s_value a)) in *. set (H := B2R (s_time b) - B2R (s_time a)) in *.
  set (h := B2R t - B2R (s_time a)). set (v1 := B2R (s_value a)) in *.
  assert (H0 : 0 < H) by (unfold H; lra). assert (Hh' : 0 <= h <= H) by (unfold h, H; lra).
  assert (HVD : Rabs (v1 + D) <= V) by (replace (v1 + D) with (B2R (s_value b)) by (unfold D; ring); exact Hvb).
  assert (HD : Rabs D <= 2 * big).
  { replace D with ((v1 + D) + - v1) by ring. eapply Rle_trans; [apply Rabs_triang|]. rewrite Rabs_Ropp. lra. }
  assert (HHb : Rabs H <= 2 * big).
  { unfold H. eapply Rle_trans; [apply Rabs_triang|]. rewrite Rabs_Ropp. lra. }
  assert (Hhb : Rabs h <= 2 * big) by (rewrite Rabs_pos_eq in HHb by lra; rewrite Rabs_pos_eq; lra).
  destruct (sub_ok (s_value b) (s_value a) Fvb Fva) as (F1 & E1).
  { apply (big_fits 1); [lia|exact HD]. }
  destruct (rnd_minus_error (s_value b) (s_value a) Fvb Fva) as (e1 & B1 & R1). fold v1 in R1, E1. fold D in R1, E1. rewrite R1 in E1.
  destruct (sub_ok (s_time b) (s_time a) Ftb Fta) as (F2 & E2).
  { apply (big_fits 1); [lia|exact HHb]. }
  destruct (rnd_minus_error (s_time b) (s_time a) Ftb Fta) as (e2 & B2 & R2). fold H in R2, E2. rewrite R2 in E2.
  destruct (sub_ok t (s_time a) Ft Fta) as (F4 & E4).
  { apply (big_fits 1); [lia|exact Hhb]. }
  destruct (rnd_minus_error t (s_time a) Ft Fta) as (e4 & B4 & R4). fold h in R4, E4. rewrite R4 in E4.
  assert (P2 : 0 < 1 + e2) by (apply Rabs_le_inv in B2; lra).
  pose proof (div_finite (nsub (s_value b) (s_value a)) (nsub (s_time b) (s_time a))) as E3.
  specialize (E3 ltac:(rewrite E2; apply Rgt_not_eq, Rmult_lt_0_compat; assumption) ltac:(rewrite <- Ed; exact Fd)).
  rewrite E1, E2 in E3. destruct (rnd_error (D * (1 + e1) / (H * (1 + e2)))) as (e3 & n3 & B3 & N3 & R3). rewrite R3 in E3.
  rewrite <- Ed in E3. pose proof Fd as F3.
  assert (Hm0 : Rabs (D * h / H) <= 2 * big).
  { replace (D * h / H) with (D * (h / H)) by (field; lra). rewrite Rabs_mult.
    assert (Rabs (h / H) <= 1).
    { rewrite Rabs_pos_eq.
      - apply Rmult_le_reg_r with H; [exact H0|]. unfold Rdiv. rewrite Rmult_assoc, Rinv_l; lra.
      - apply Rmult_le_pos; [lra|left; apply Rinv_0_lt_compat; exact H0]. }
    pose proof (Rabs_pos D). pose proof (Rabs_pos (h / H)). nra. }
  assert (Hsmall : 12 * uu * V + 2 * eta * (H + 1) <= big).
  { assert (uu * V <= / 1000000 * big).
    { apply Rmult_le_compat; try lra. pose proof (Rabs_pos v1). lra. }
    assert (eta * (H + 1) <= / 10 * big).
    { assert (eta <= / 100) by (apply Rle_trans with uu; [apply bpow_le; lia|lra]).
      rewrite Rabs_pos_eq in HHb by lra. apply Rle_trans with (/ 100 * (H + 1)).
      - apply Rmult_le_compat_r; lra.
      - lra. }
    lra. }
  assert (Z0 : Rabs 0 <= uu) by (rewrite Rabs_R0; lra). assert (Z1 : Rabs 0 <= eta) by (rewrite Rabs_R0; lra).
  destruct (interp_reals V D H h v1 e1 e2 e3 e4 0 0 n3 0 H0 Hh' Hva HVD B1 B2 B3 B4 Z0 Z0 N3 Z1) as (Hp & _).
  destruct (mul_ok (s_deriv a) (nsub t (s_time a)) F3 F4) as (F5 & E5).
  { rewrite E3, E4. apply (big_fits 2); [lia|]. simpl (bpow radix2 2).
    set (p := (D * (1 + e1) / (H * (1 + e2)) * (1 + e3) + n3) * (h * (1 + e4))) in *.
    replace p with ((p * (1 + 0) + 0 - D * h / H) + D * h / H) by ring.
    eapply Rle_trans; [apply Rabs_triang|]. lra. }
  rewrite E3, E4 in E5.
  destruct (rnd_error ((D * (1 + e1) / (H * (1 + e2)) * (1 + e3) + n3) * (h * (1 + e4)))) as (e5 & n5 & B5 & N5 & R5). rewrite R5 in E5.
  destruct (interp_reals V D H h v1 e1 e2 e3 e4 e5 0 n3 n5 H0 Hh' Hva HVD B1 B2 B3 B4 B5 Z0 N3 N5) as (Hm & _).
  set (m := (D * (1 + e1) / (H * (1 + e2)) * (1 + e3) + n3) * (h * (1 + e4)) * (1 + e5) + n5) in *.
  destruct (add_ok (s_value a) (nmul (s_deriv a) (nsub t (s_time a))) Fva F5) as (F6 & E6).
  { rewrite E5. fold v1. apply (big_fits 3); [lia|]. simpl (bpow radix2 3).
    replace (v1 + m) with (v1 + ((m - D * h / H) + D * h / H)) by ring.
    eapply Rle_trans; [apply Rabs_triang|]. pose proof (Rabs_triang (m - D * h / H) (D * h / H)). lra. }
  destruct (rnd_plus_error (s_value a) (nmul (s_deriv a) (nsub t (s_time a))) Fva F5) as (e6 & B6 & R6).
  rewrite R6, E5 in E6. fold v1 in E6.
  split; [exact F6|]. unfold interpolate. rewrite E6.
  exact (proj2 (interp_reals V D H h v1 e1 e2 e3 e4 e5 e6 n3 n5 H0 Hh' Hva HVD B1 B2 B3 B4 B5 B6 N3 N5)).
Qed.

Lemma interp_error (a b : sample B64) (t : B64) V :
  finite (s_time a) = true -> finite (s_value a) = true -> finite (s_time b) = true -> finite (s_value b) = true ->
  finite t = true -> s_deriv a = ndiv (nsub (s_value b) (s_value a)) (nsub (s_time b) (s_time a)) ->
  B2R (s_time a) < B2R (s_time b) -> B2R (s_time a) <= B2R t <= B2R (s_time b) ->
  Rabs (B2R (s_time a)) <= big -> Rabs (B2R (s_time b)) <= big ->
  Rabs (B2R (s_value a)) <= V -> Rabs (B2R (s_value b)) <= V -> V <= big ->
  Rabs (B2R (s_value b) - B2R (s_value a)) <= big * (B2R (s_time b) - B2R (s_time a)) ->
  finite (interpolate a t) = true /\
  Rabs (B2R (interpolate a t) -
        (B2R (s_value a) + (B2R (s_value b) - B2R (s_value a)) * (B2R t - B2R (s_time a)) / (B2R (s_time b) - B2R (s_time a))))
    <= 16 * uu * V + 4 * eta * (B2R (s_time b) - B2R (s_time a) + 1).
Proof.
  intros Fta Fva Ftb Fvb Ft Ed HH Hh Hta Htb Hva Hvb HV HDH. apply interp_finite; auto.
  rewrite Ed. apply slope_finite with V; auto.
Qed.
