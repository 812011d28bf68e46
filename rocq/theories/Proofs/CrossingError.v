(** Error of the crossing time computed in doubles. *)
From Coq Require Import Reals Lra Lia Sorted.
From Flocq Require Import Core.Core IEEE754.BinarySingleNaN Plus_error Relative.
From Verif Require Import Base Num NumB64.
From Verif.Model Require Import Signal.
From Verif.Proofs Require Import NumFacts B64Facts InterpError.
Local Open Scope R_scope.

Lemma mul_abs a b A B : Rabs a <= A -> Rabs b <= B -> Rabs (a * b) <= A * B.
Proof. intros. rewrite Rabs_mult. apply Rmult_le_compat; auto using Rabs_pos. Qed.
Lemma add_abs a b A B : Rabs a <= A -> Rabs b <= B -> Rabs (a + b) <= A + B.
Proof. intros. eapply Rle_trans; [apply Rabs_triang|]. lra. Qed.
Lemma sub_abs a b A B : Rabs a <= A -> Rabs b <= B -> Rabs (a - b) <= A + B.
Proof. intros. unfold Rminus. apply add_abs; [assumption|]. rewrite Rabs_Ropp. assumption. Qed.
(** An approximation of an approximation. *)
Lemma chain_abs x y z d e : Rabs (x - y) <= d -> Rabs (y - z) <= e -> Rabs (x - z) <= d + e.
Proof. intros. replace (x - z) with ((x - y) + (y - z)) by ring. apply add_abs; assumption. Qed.
Lemma near_abs x y d Y : Rabs (x - y) <= d -> Rabs y <= Y -> Rabs x <= d + Y.
Proof. intros. replace x with ((x - y) + y) by ring. apply add_abs; assumption. Qed.

(** ** Single operations *)
Lemma sub_near (x y : B64) X : finite x = true -> finite y = true -> Rabs (B2R x - B2R y) <= X -> X <= bpow radix2 1023 ->
  finite (nsub x y) = true /\ Rabs (B2R (nsub x y) - (B2R x - B2R y)) <= uu * X.
Proof.
  intros Fx Fy HX Hb. destruct (sub_ok x y Fx Fy) as (F & E); [lra|]. split; [exact F|].
  destruct (rnd_minus_error x y Fx Fy) as (e & He & R). rewrite E, R.
  replace ((B2R x - B2R y) * (1 + e) - (B2R x - B2R y)) with (e * (B2R x - B2R y)) by ring. apply mul_abs; assumption.
Qed.
Lemma add_near (x y : B64) X : finite x = true -> finite y = true -> Rabs (B2R x + B2R y) <= X -> X <= bpow radix2 1023 ->
  finite (nadd x y) = true /\ Rabs (B2R (nadd x y) - (B2R x + B2R y)) <= uu * X.
Proof.
  intros Fx Fy HX Hb. destruct (add_ok x y Fx Fy) as (F & E); [lra|]. split; [exact F|].
  destruct (rnd_plus_error x y Fx Fy) as (e & He & R). rewrite E, R.
  replace ((B2R x + B2R y) * (1 + e) - (B2R x + B2R y)) with (e * (B2R x + B2R y)) by ring. apply mul_abs; assumption.
Qed.
Lemma mul_near (x y : B64) X : finite x = true -> finite y = true -> Rabs (B2R x * B2R y) <= X -> X <= bpow radix2 1023 ->
  finite (nmul x y) = true /\ Rabs (B2R (nmul x y) - B2R x * B2R y) <= uu * X + eta.
Proof.
  intros Fx Fy HX Hb. destruct (mul_ok x y Fx Fy) as (F & E); [lra|]. split; [exact F|].
  destruct (rnd_error (B2R x * B2R y)) as (e & n & He & Hn & R). rewrite E, R.
  replace (B2R x * B2R y * (1 + e) + n - B2R x * B2R y) with (e * (B2R x * B2R y) + n) by ring. apply add_abs; [|exact Hn]. apply mul_abs; assumption.
Qed.

(** ** The slope between two samples *)
Definition lo : R := bpow radix2 (-300).
Definition hi : R := bpow radix2 300.
Lemma lo_hi : 0 < lo /\ 1 <= hi /\ lo * hi = 1.
Proof.
  unfold lo, hi. split; [apply bpow_gt_0|]. split.
  - change 1 with (bpow radix2 0). apply bpow_le. lia.
  - rewrite <- bpow_plus. reflexivity.
Qed.

Lemma hi3 : 64 * (hi * hi * hi) <= bpow radix2 1000.
Proof.
  unfold hi. rewrite <- !bpow_plus. change 64 with (bpow radix2 6). rewrite <- bpow_plus. apply bpow_le. lia.
Qed.
Lemma hi3' : 64 * (hi * hi * hi) <= bpow radix2 1023.
Proof. eapply Rle_trans; [apply hi3|]. apply bpow_le. lia. Qed.
Lemma hi_le : hi <= hi * hi * hi.
Proof. pose proof lo_hi as (_ & L & _). nra. Qed.

Section Scale.
(** [M]: the scale of slopes, [Q]: of products of slopes and times and of values. *)
Variables V M S Q h : R.
Hypothesis HV : V <= hi.
Hypothesis HS : S <= hi.
Hypothesis H0 : 0 < h.
Hypothesis HhS : h <= 2 * S.
Hypothesis HM : 0 < M.
Hypothesis HM' : M <= hi * hi.
Hypothesis HQ : M * S <= Q.
Hypothesis HVQ : V <= 2 * Q.
Hypothesis HQ' : Q <= hi * hi * hi.
Hypothesis HQM : Q <= M * (hi * hi).
Hypothesis HeM : eta <= uu * M.
Hypothesis HeQ : eta <= uu * Q.
Hypothesis HeS : eta <= uu * S.

Lemma S_pos0 : 0 < S. Proof. lra. Qed.
Lemma Q_pos0 : 0 < Q. Proof. pose proof S_pos0. assert (0 < M * S) by (apply Rmult_lt_0_compat; assumption). lra. Qed.

Lemma slope_near (va vb ta tb : B64) : finite va = true -> finite vb = true -> finite ta = true -> finite tb = true ->
  B2R tb - B2R ta = h -> Rabs (B2R vb - B2R va) <= 2 * M * h ->
  finite (ndiv (nsub vb va) (nsub tb ta)) = true /\ Rabs (B2R (ndiv (nsub vb va) (nsub tb ta)) - (B2R vb - B2R va) / h) <= 13 * uu * M.
Proof.
  intros Fva Fvb Fta Ftb Eh HD. pose proof uu_small as Hu. pose proof hi3' as H3. pose proof hi_le as H1. pose proof S_pos0 as HS0.
  assert (HMh : M * h <= hi * hi * (2 * hi)) by (apply Rmult_le_compat; lra).
  destruct (sub_ok vb va Fvb Fva) as (F1 & E1); [lra|].
  destruct (rnd_minus_error vb va Fvb Fva) as (e1 & B1 & R1). rewrite R1 in E1.
  destruct (sub_ok tb ta Ftb Fta) as (F2 & E2). { rewrite Eh, Rabs_pos_eq; lra. }
  destruct (rnd_minus_error tb ta Ftb Fta) as (e2 & B2 & R2). rewrite R2, Eh in E2.
  assert (P2 : 0 < 1 + e2) by (apply Rabs_le_inv in B2; lra).
  set (D := B2R vb - B2R va) in *.
  assert (Q0 : Rabs (D / h) <= 2 * M).
  { unfold Rdiv. replace (2 * M) with (2 * M * h * / h) by (field; lra). apply mul_abs; [exact HD|].
    rewrite Rabs_pos_eq; [lra|left; apply Rinv_0_lt_compat; assumption]. }
  assert (Z : Rabs 0 <= uu) by (rewrite Rabs_R0; lra).
  assert (Hq : Rabs (D * (1 + e1) / (h * (1 + e2))) <= 3 * M).
  { pose proof (factor5 e1 e2 0 0 0 B1 B2 Z Z Z) as K. set (E := (1 + e1) * (1 + 0) * (1 + 0) * (1 + 0) / (1 + e2)) in K.
    replace (D * (1 + e1) / (h * (1 + e2))) with (D / h * E) by (unfold E; field; lra).
    replace (3 * M) with (2 * M * (3 / 2)) by field. apply mul_abs; [exact Q0|]. apply Rabs_le_inv in K. apply Rabs_le. lra. }
  destruct (div_ok (nsub vb va) (nsub tb ta) F1 F2) as (F3 & E3).
  { rewrite E2. apply Rgt_not_eq, Rmult_lt_0_compat; assumption. }
  { rewrite E1, E2. pose proof lo_hi as (_ & L & _). assert (hi * hi <= hi * hi * hi) by nra. lra. }
  split; [exact F3|]. rewrite E3, E1, E2.
  destruct (rnd_error (D * (1 + e1) / (h * (1 + e2)))) as (e3 & n & B3 & Hn & R3). rewrite R3.
  pose proof (factor5 e1 e2 e3 0 0 B1 B2 B3 Z Z) as K. set (E := (1 + e1) * (1 + e3) * (1 + 0) * (1 + 0) / (1 + e2)) in K.
  replace (D * (1 + e1) / (h * (1 + e2)) * (1 + e3) + n - D / h) with (D / h * (E - 1) + n) by (unfold E; field; lra).
  replace (13 * uu * M) with (2 * M * (6 * uu) + uu * M) by ring. apply add_abs; [|lra]. apply mul_abs; assumption.
Qed.

(** Numerator and denominator of the crossing time, and their distances from the exact ones. *)
Lemma crossing_parts (a b : sample B64) (va vb t1 : B64) :
  finite (s_time a) = true -> finite (s_time b) = true -> finite (s_value a) = true -> finite (s_value b) = true ->
  finite va = true -> finite vb = true -> finite t1 = true -> B2R (s_time b) = B2R (s_time a) -> B2R t1 - B2R (s_time a) = h ->
  Rabs (B2R (s_time a)) <= S -> Rabs (B2R t1) <= S ->
  Rabs (B2R (s_value a)) <= V -> Rabs (B2R (s_value b)) <= V -> Rabs (B2R va - B2R (s_value a)) <= 2 * M * h -> Rabs (B2R vb - B2R (s_value b)) <= 2 * M * h ->
  forall ta tb, B2R ta = B2R t1 -> B2R tb = B2R t1 -> finite ta = true -> finite tb = true ->
  s_deriv a = ndiv (nsub va (s_value a)) (nsub ta (s_time a)) -> s_deriv b = ndiv (nsub vb (s_value b)) (nsub tb (s_time b)) ->
  exists s3 d, time_intersect a b = ndiv s3 d /\ finite s3 = true /\ finite d = true /\ Rabs (B2R s3) <= 13 * Q /\ Rabs (B2R d) <= 7 * M /\
    let k := ((B2R vb - B2R (s_value b)) - (B2R va - B2R (s_value a))) / h in
    Rabs (B2R s3 - (B2R (s_value a) - B2R (s_value b) + k * B2R (s_time a))) <= 58 * uu * Q /\ Rabs (B2R d - k) <= 32 * uu * M.
Proof.
  intros Fta Ftb Fva Fvb Fa Fb Ft Et Eh HT HT1 Hva Hvb Ha Hb ta tb Eta Etb Fta' Ftb' Da Db.
  pose proof uu_small as Hu. pose proof Q_pos0 as HQ0. pose proof hi3' as H3. pose proof hi_le as H1. pose proof S_pos0 as HS0.
  assert (uMS : uu * (M * S) <= uu * Q) by (apply Rmult_le_compat_l; lra).
  assert (Sa : finite (s_deriv a) = true /\ Rabs (B2R (s_deriv a) - (B2R va - B2R (s_value a)) / h) <= 13 * uu * M).
  { rewrite Da. apply slope_near; auto. lra. }
  assert (Sb : finite (s_deriv b) = true /\ Rabs (B2R (s_deriv b) - (B2R vb - B2R (s_value b)) / h) <= 13 * uu * M).
  { rewrite Db. apply slope_near; auto. lra. }
  destruct Sa as (Fda & Nda), Sb as (Fdb & Ndb).
  set (x := B2R (s_value a)) in *. set (y := B2R (s_value b)) in *. set (A := B2R va) in *. set (B := B2R vb) in *. set (t0 := B2R (s_time a)) in *.
  set (da := (A - x) / h) in *. set (db := (B - y) / h) in *.
  assert (Kd : forall u v, Rabs (u - v) <= 2 * M * h -> Rabs ((u - v) / h) <= 2 * M).
  { intros u v Huv. unfold Rdiv. replace (2 * M) with (2 * M * h * / h) by (field; lra). apply mul_abs; [exact Huv|].
    rewrite Rabs_pos_eq; [lra|left; apply Rinv_0_lt_compat; assumption]. }
  assert (Ka : Rabs da <= 2 * M) by (apply Kd; assumption). assert (Kb : Rabs db <= 2 * M) by (apply Kd; assumption).
  assert (Ka' : Rabs (B2R (s_deriv a)) <= 3 * M) by (pose proof (near_abs _ _ _ _ Nda Ka); nra).
  assert (Kb' : Rabs (B2R (s_deriv b)) <= 3 * M) by (pose proof (near_abs _ _ _ _ Ndb Kb); nra).
  unfold time_intersect.
  (* products of slope and time *)
  assert (Prod : forall (d : B64) e, finite d = true -> Rabs (B2R d - e) <= 13 * uu * M -> Rabs e <= 2 * M -> Rabs (B2R d) <= 3 * M ->
     forall t : B64, finite t = true -> B2R t = t0 ->
     finite (nmul d t) = true /\ Rabs (B2R (nmul d t) - e * t0) <= 17 * uu * Q /\ Rabs (B2R (nmul d t)) <= 3 * Q).
  { intros d e Fd Nd Ke Kd' t Ftt Ett.
    assert (P : Rabs (B2R d * B2R t) <= 3 * Q). { rewrite Ett. apply Rle_trans with (3 * M * S); [apply mul_abs; assumption|lra]. }
    destruct (mul_near d t (3 * Q)) as (F & N); auto; [lra|]. rewrite Ett in N.
    assert (K : Rabs (B2R (nmul d t) - e * t0) <= 17 * uu * Q).
    { replace (17 * uu * Q) with ((uu * (3 * Q) + uu * Q) + 13 * uu * Q) by ring. eapply chain_abs; [eapply Rle_trans; [exact N|lra]|].
      replace (B2R d * t0 - e * t0) with ((B2R d - e) * t0) by ring. apply Rle_trans with (13 * uu * M * S); [apply mul_abs; assumption|lra]. }
    split; [exact F|]. split; [exact K|].
    assert (Ke' : Rabs (e * t0) <= 2 * Q). { apply Rle_trans with (2 * M * S); [apply mul_abs; assumption|lra]. }
    pose proof (near_abs _ _ _ _ K Ke'). nra. }
  destruct (Prod (s_deriv b) db Fdb Ndb Kb Kb' (s_time b) Ftb Et) as (Fp1 & Np1 & Kp1).
  destruct (Prod (s_deriv a) da Fda Nda Ka Ka' (s_time a) Fta eq_refl) as (Fp2 & Np2 & Kp2). clear Prod.
  (* the numerator *)
  assert (Kxy : Rabs (x - y) <= 4 * Q) by (pose proof (sub_abs _ _ _ _ Hva Hvb); lra).
  destruct (sub_near (s_value a) (s_value b) (4 * Q)) as (Fs1 & Ns1); auto; [lra|]. fold x y in Ns1.
  assert (Ks1 : Rabs (B2R (nsub (s_value a) (s_value b))) <= 5 * Q) by (pose proof (near_abs _ _ _ _ Ns1 Kxy); nra).
  set (s1 := nsub (s_value a) (s_value b)) in *. set (p1 := nmul (s_deriv b) (s_time b)) in *. set (p2 := nmul (s_deriv a) (s_time a)) in *.
  pose proof (add_abs _ _ _ _ Ks1 Kp1) as Ks.
  destruct (add_near s1 p1 (8 * Q)) as (Fs2 & Ns2); auto; [lra|lra|].
  assert (Ks2 : Rabs (B2R (nadd s1 p1)) <= 9 * Q) by (pose proof (near_abs _ _ _ _ Ns2 Ks); nra).
  set (s2 := nadd s1 p1) in *. pose proof (sub_abs _ _ _ _ Ks2 Kp2) as Ks'.
  destruct (sub_near s2 p2 (12 * Q)) as (Fs3 & Ns3); auto; [lra|lra|].
  assert (Ks3 : Rabs (B2R (nsub s2 p2)) <= 13 * Q) by (pose proof (near_abs _ _ _ _ Ns3 Ks'); nra).
  set (s3 := nsub s2 p2) in *.
  assert (Nn : Rabs (B2R s3 - (x - y + db * t0 - da * t0)) <= 58 * uu * Q).
  { replace (B2R s3 - (x - y + db * t0 - da * t0)) with
      ((((B2R s3 - (B2R s2 - B2R p2)) + (B2R s2 - (B2R s1 + B2R p1))) + ((B2R s1 - (x - y)) + (B2R p1 - db * t0))) - (B2R p2 - da * t0)) by ring.
    replace (58 * uu * Q) with ((uu * (12 * Q) + uu * (8 * Q)) + (uu * (4 * Q) + 17 * uu * Q) + 17 * uu * Q) by ring.
    apply sub_abs; [|exact Np2]. apply add_abs; apply add_abs; assumption. }
  (* the denominator *)
  pose proof (sub_abs _ _ _ _ Kb' Ka') as Kdd.
  destruct (sub_near (s_deriv b) (s_deriv a) (6 * M)) as (Fd & Nd); auto; [lra| |].
  { pose proof lo_hi as (_ & L & _). assert (hi * hi <= hi * hi * hi) by nra. lra. }
  set (d := nsub (s_deriv b) (s_deriv a)) in *.
  assert (Ndd : Rabs (B2R d - (db - da)) <= 32 * uu * M).
  { replace (B2R d - (db - da)) with ((B2R d - (B2R (s_deriv b) - B2R (s_deriv a))) + ((B2R (s_deriv b) - db) - (B2R (s_deriv a) - da))) by ring.
    replace (32 * uu * M) with (uu * (6 * M) + (13 * uu * M + 13 * uu * M)) by ring. apply add_abs; [exact Nd|]. apply sub_abs; assumption. }
  exists s3, d. split; [reflexivity|]. split; [exact Fs3|]. split; [exact Fd|]. split; [exact Ks3|]. split; [pose proof (near_abs _ _ _ _ Nd Kdd); nra|].
  cbv zeta. replace (((B - y) - (A - x)) / h) with (db - da) by (unfold da, db; field; lra). split; [|exact Ndd].
  replace (x - y + (db - da) * t0) with (x - y + db * t0 - da * t0) by ring. exact Nn.
Qed.

(** The quotient is in range unless the denominator is tiny. *)
Lemma quotient_fits (s3 d : R) : Rabs s3 <= 13 * Q -> 32 * (uu * M) <= Rabs d -> Rabs (s3 / d) <= bpow radix2 1023.
Proof.
  intros Ks3 Hd. pose proof uu_small as Hu. assert (uM : 0 < uu * M) by (apply Rmult_lt_0_compat; lra).
  unfold Rdiv. rewrite Rabs_mult. rewrite Rabs_inv.
  assert (Hd0 : 0 < Rabs d) by lra. apply Rmult_le_reg_r with (Rabs d); [exact Hd0|]. rewrite Rmult_assoc, Rinv_l, Rmult_1_r by lra.
  apply Rle_trans with (13 * Q); [exact Ks3|]. apply Rle_trans with (bpow radix2 1023 * (32 * (uu * M))); [|apply Rmult_le_compat_l; [apply bpow_ge_0|lra]].
  replace (bpow radix2 1023 * (32 * (uu * M))) with (32 * (M * (bpow radix2 1023 * uu))) by ring.
  assert (hi * hi <= bpow radix2 1023 * uu). { unfold hi, uu. rewrite <- !bpow_plus. apply bpow_le. lia. }
  assert (M * (hi * hi) <= M * (bpow radix2 1023 * uu)) by (apply Rmult_le_compat_l; lra). pose proof Q_pos0. lra.
Qed.

(** The difference of the numerator and [t1] times the denominator is that of the later values. *)
Lemma crossing_late (a b : sample B64) (va vb t1 : B64) :
  finite (s_time a) = true -> finite (s_time b) = true -> finite (s_value a) = true -> finite (s_value b) = true ->
  finite va = true -> finite vb = true -> finite t1 = true -> B2R (s_time b) = B2R (s_time a) -> B2R t1 - B2R (s_time a) = h ->
  Rabs (B2R (s_time a)) <= S -> Rabs (B2R t1) <= S ->
  Rabs (B2R (s_value a)) <= V -> Rabs (B2R (s_value b)) <= V -> Rabs (B2R va - B2R (s_value a)) <= 2 * M * h -> Rabs (B2R vb - B2R (s_value b)) <= 2 * M * h ->
  forall ta tb, B2R ta = B2R t1 -> B2R tb = B2R t1 -> finite ta = true -> finite tb = true ->
  s_deriv a = ndiv (nsub va (s_value a)) (nsub ta (s_time a)) -> s_deriv b = ndiv (nsub vb (s_value b)) (nsub tb (s_time b)) ->
  128 * uu * Q <= Rabs (B2R va - B2R vb) ->
  (B2R (s_value a) - B2R (s_value b)) * (B2R va - B2R vb) <= 0 ->
  finite (time_intersect a b) = true /\ B2R (time_intersect a b) <= B2R t1.
Proof.
  intros Fta Ftb Fva Fvb Fa Fb Ft Et Eh HT HT1 Hva Hvb Ha Hb ta tb Eta Etb Fta' Ftb' Da Db Hsep Hsw.
  destruct (crossing_parts a b va vb t1 Fta Ftb Fva Fvb Fa Fb Ft Et Eh HT HT1 Hva Hvb Ha Hb ta tb Eta Etb Fta' Ftb' Da Db) as (s3 & d & Ei & Fs3 & Fd & Ks3 & _ & Nn & Ndd).
  pose proof uu_small as Hu. pose proof Q_pos0 as HQ0. pose proof S_pos0 as HS0. assert (uMS : uu * (M * S) <= uu * Q) by (apply Rmult_le_compat_l; lra). rewrite Ei.
  set (x := B2R (s_value a)) in *. set (y := B2R (s_value b)) in *. set (A := B2R va) in *. set (B := B2R vb) in *. set (t0 := B2R (s_time a)) in *.
  set (k := ((B - y) - (A - x)) / h) in *.
  (* the exact numerator minus [t1] times the exact denominator *)
  set (D := B2R s3 - B2R t1 * B2R d).
  assert (ND : Rabs (D - (A - B)) <= 90 * uu * Q).
  { assert (E : (x - y + k * t0) - B2R t1 * k = A - B).
    { replace (B2R t1) with (t0 + h) by lra. unfold k. field. lra. }
    rewrite <- E. unfold D.
    replace (B2R s3 - B2R t1 * B2R d - (x - y + k * t0 - B2R t1 * k)) with
      ((B2R s3 - (x - y + k * t0)) - B2R t1 * (B2R d - (k))) by ring.
    apply Rle_trans with (58 * uu * Q + S * (32 * uu * M)); [|lra]. apply sub_abs; [exact Nn|]. apply mul_abs; assumption. }
  assert (uQ : 0 < uu * Q) by (apply Rmult_lt_0_compat; lra). assert (uM : 0 < uu * M) by (apply Rmult_lt_0_compat; lra).
  (* the exact denominator *)
  assert (Ed : (k) * h = (x - y) - (A - B)). { unfold k. field. lra. }
  assert (Qh : uu * M * h <= 2 * (uu * Q)). { assert (uu * M * h <= uu * M * (2 * S)) by (apply Rmult_le_compat_l; lra). lra. }
  apply Rabs_le_inv in ND. apply Rabs_le_inv in Ndd.
  assert (Fmt : rnd (B2R t1) = B2R t1) by (apply round_generic; [apply valid_rnd_round_mode|apply (generic_format_B2R 53 1024)]).
  destruct (Rle_lt_dec 0 (A - B)) as [P|P].
  - (* the denominator is negative *)
    rewrite Rabs_pos_eq in Hsep by exact P.
    assert (X : x - y <= 0) by nra.
    assert (Hd : B2R d <= - (32 * (uu * M))).
    { assert ((k) * h <= - (64 * (uu * M)) * h) by (rewrite Ed; nra). assert (k <= - (64 * (uu * M))) by (apply Rmult_le_reg_r with h; lra). lra. }
    destruct (div_ok s3 d Fs3 Fd) as (Fr & Er); [lra|apply quotient_fits; [exact Ks3|rewrite Rabs_left by lra; lra]|].
    split; [exact Fr|]. rewrite Er. rewrite <- Fmt. apply rnd_mono.
    assert (D >= 0) by nra. unfold D in *. apply Rmult_le_reg_r with (- B2R d); [lra|].
    replace (B2R s3 / B2R d * - B2R d) with (- B2R s3) by (field; lra). lra.
  - rewrite Rabs_left in Hsep by exact P.
    assert (X : 0 <= x - y) by nra.
    assert (Hd : 32 * (uu * M) <= B2R d).
    { assert ((64 * (uu * M)) * h <= (k) * h) by (rewrite Ed; nra). assert (64 * (uu * M) <= k) by (apply Rmult_le_reg_r with h; lra). lra. }
    destruct (div_ok s3 d Fs3 Fd) as (Fr & Er); [lra|apply quotient_fits; [exact Ks3|rewrite Rabs_pos_eq by lra; lra]|].
    split; [exact Fr|]. rewrite Er. rewrite <- Fmt. apply rnd_mono.
    assert (D <= 0) by nra. unfold D in *. apply Rmult_le_reg_r with (B2R d); [lra|].
    replace (B2R s3 / B2R d * B2R d) with (B2R s3) by (field; lra). lra.
Qed.
(** How far apart the lines are where they are computed to meet, without any separation. *)
Lemma crossing_meet (a b : sample B64) (va vb t1 : B64) :
  finite (s_time a) = true -> finite (s_time b) = true -> finite (s_value a) = true -> finite (s_value b) = true ->
  finite va = true -> finite vb = true -> finite t1 = true -> B2R (s_time b) = B2R (s_time a) -> B2R t1 - B2R (s_time a) = h ->
  Rabs (B2R (s_time a)) <= S -> Rabs (B2R t1) <= S ->
  Rabs (B2R (s_value a)) <= V -> Rabs (B2R (s_value b)) <= V -> Rabs (B2R va - B2R (s_value a)) <= 2 * M * h -> Rabs (B2R vb - B2R (s_value b)) <= 2 * M * h ->
  forall ta tb, B2R ta = B2R t1 -> B2R tb = B2R t1 -> finite ta = true -> finite tb = true ->
  s_deriv a = ndiv (nsub va (s_value a)) (nsub ta (s_time a)) -> s_deriv b = ndiv (nsub vb (s_value b)) (nsub tb (s_time b)) ->
  let g0 := B2R (s_value a) - B2R (s_value b) in let g1 := B2R va - B2R vb in (g0 <= 0 <= g1 \/ g1 <= 0 <= g0) ->
  let it := time_intersect a b in let t0 := B2R (s_time a) in
  (Rabs g0 <= 128 * uu * Q /\ Rabs g1 <= 128 * uu * Q) \/
  (finite it = true /\ (B2R it < t0 -> Rabs g0 <= 128 * uu * Q) /\
   (t0 <= B2R it <= B2R t1 -> Rabs (g0 + (g1 - g0) * ((B2R it - t0) / h)) <= 128 * uu * Q)).
Proof.
  intros Fta Ftb Fva Fvb Fa Fb Ft Et Eh HT HT1 Hva Hvb Ha Hb ta tb Eta Etb Fta' Ftb' Da Db g0 g1 Hsw it t0.
  destruct (crossing_parts a b va vb t1 Fta Ftb Fva Fvb Fa Fb Ft Et Eh HT HT1 Hva Hvb Ha Hb ta tb Eta Etb Fta' Ftb' Da Db) as (s3 & d & Ei & Fs3 & Fd & Ks3 & Kd & Nn & Ndd).
  pose proof uu_small as Hu. pose proof Q_pos0 as HQ0. pose proof S_pos0 as HS0. assert (uMS : uu * (M * S) <= uu * Q) by (apply Rmult_le_compat_l; lra). unfold it. rewrite Ei. fold g0 t0 in Nn.
  set (k := ((B2R vb - B2R (s_value b)) - (B2R va - B2R (s_value a))) / h) in *.
  assert (Ek : k * h = g0 - g1). { unfold k, g0, g1. field. lra. }
  assert (uQ : 0 < uu * Q) by (apply Rmult_lt_0_compat; lra). assert (uM : 0 < uu * M) by (apply Rmult_lt_0_compat; lra).
  assert (Qh : uu * M * h <= 2 * (uu * Q)). { assert (uu * M * h <= uu * M * (2 * S)) by (apply Rmult_le_compat_l; lra). lra. }
  destruct (Rle_lt_dec (Rabs (B2R d)) (32 * (uu * M))) as [Sm|Lg].
  { left. assert (K : Rabs k <= 64 * (uu * M)).
    { replace k with (B2R d - (B2R d - k)) by ring. eapply Rle_trans; [apply (sub_abs _ _ (32 * (uu * M)) (32 * uu * M)); [lra|exact Ndd]|lra]. }
    assert (K2 : Rabs (g0 - g1) <= 128 * uu * Q).
    { rewrite <- Ek. eapply Rle_trans; [apply (mul_abs _ _ (64 * (uu * M)) h); [exact K|rewrite Rabs_pos_eq; lra]|]. lra. }
    apply Rabs_le_inv in K2. split; apply Rabs_le; lra. }
  right. assert (d0 : B2R d <> 0). { intros E. rewrite E, Rabs_R0 in Lg. lra. }
  destruct (div_ok s3 d Fs3 Fd d0 (quotient_fits _ _ Ks3 (Rlt_le _ _ Lg))) as (Fr & Er). split; [exact Fr|].
  assert (Fmt : rnd t0 = t0) by (apply round_generic; [apply valid_rnd_round_mode|apply (generic_format_B2R 53 1024)]).
  assert (Dec : forall t, Rabs t <= S -> Rabs ((B2R s3 - t * B2R d) - (g0 - k * (t - t0))) <= 90 * uu * Q).
  { intros t Ht. replace (B2R s3 - t * B2R d - (g0 - k * (t - t0))) with ((B2R s3 - (g0 + k * t0)) - t * (B2R d - k)) by ring.
    apply Rle_trans with (58 * uu * Q + S * (32 * uu * M)); [|lra]. apply sub_abs; [exact Nn|]. apply mul_abs; assumption. }
  split.
  - intros Hlt. rewrite Er in Hlt.
    assert (Lq : B2R s3 / B2R d < t0). { destruct (Rlt_le_dec (B2R s3 / B2R d) t0) as [?|C]; [assumption|]. apply rnd_mono in C. lra. }
    specialize (Dec t0 HT). replace (g0 - k * (t0 - t0)) with g0 in Dec by ring.
    assert (Es : B2R s3 = B2R s3 / B2R d * B2R d) by (field; exact d0). set (q := B2R s3 / B2R d) in *. rewrite Es in Dec.
    replace (q * B2R d - t0 * B2R d) with ((q - t0) * B2R d) in Dec by ring.
    apply Rabs_le_inv in Ndd, Dec. apply Rabs_le. destruct Hsw as [Hsw|Hsw].
    + assert (k <= 0) by (apply Rmult_le_reg_r with h; lra). assert (B2R d < 0). { destruct (Rlt_le_dec (B2R d) 0); [assumption|]. rewrite Rabs_pos_eq in Lg by assumption. lra. }
      assert (0 < (q - t0) * B2R d) by nra. lra.
    + assert (0 <= k) by (apply Rmult_le_reg_r with h; lra). assert (0 < B2R d). { destruct (Rlt_le_dec 0 (B2R d)); [assumption|]. rewrite Rabs_left1 in Lg by assumption. lra. }
      assert ((q - t0) * B2R d < 0) by nra. lra.
  - intros Hit. assert (Ht : Rabs (B2R (ndiv s3 d)) <= S). { apply Rabs_le_inv in HT, HT1. fold t0 in HT. apply Rabs_le. lra. }
    specialize (Dec _ Ht). replace (g0 + (g1 - g0) * ((B2R (ndiv s3 d) - t0) / h)) with (g0 - k * (B2R (ndiv s3 d) - t0)) by (replace (g1 - g0) with (- (k * h)) by lra; field; lra).
    assert (R0 : Rabs (B2R s3 - B2R (ndiv s3 d) * B2R d) <= 20 * (uu * Q)).
    { rewrite Er. destruct (rnd_error (B2R s3 / B2R d)) as (e & n & He & Hn & R). rewrite R.
      replace (B2R s3 - (B2R s3 / B2R d * (1 + e) + n) * B2R d) with (- (B2R s3 * e + B2R d * n)) by (field; exact d0). rewrite Rabs_Ropp.
      apply Rle_trans with (13 * Q * uu + 7 * M * (uu * S)); [|lra]. apply add_abs; apply mul_abs; lra. }
    replace (g0 - k * (B2R (ndiv s3 d) - t0)) with ((B2R s3 - B2R (ndiv s3 d) * B2R d) - ((B2R s3 - B2R (ndiv s3 d) * B2R d) - (g0 - k * (B2R (ndiv s3 d) - t0)))) by ring.
    eapply Rle_trans; [apply sub_abs; [exact R0|exact Dec]|lra].
Qed.
End Scale.

(** ** Values up to [V] at times [h] apart *)
Section Spacing.
(** [M]: the scale of slopes, [Q]: of products of slopes and times. *)
Variables V S h : R.
Hypothesis HV : lo <= V <= hi.
Hypothesis HS : S <= hi.
Hypothesis Hh : lo <= h.
Hypothesis HhS : h <= 2 * S.
Let M : R := V / h.
Let Q : R := M * S.

Lemma h_pos : 0 < h. Proof. pose proof lo_hi. lra. Qed.
Lemma M_h : M * h = V. Proof. unfold M. field. pose proof h_pos. lra. Qed.
Lemma M_pos : 0 < M.
Proof. pose proof lo_hi. unfold M, Rdiv. apply Rmult_lt_0_compat; [lra|]. apply Rinv_0_lt_compat, h_pos. Qed.
Lemma S_pos : 0 < S. Proof. pose proof h_pos. lra. Qed.
Lemma Q_pos : 0 < Q. Proof. apply Rmult_lt_0_compat; [apply M_pos|apply S_pos]. Qed.
Lemma V_le_Q : V <= 2 * Q.
Proof. rewrite <- M_h. unfold Q. pose proof M_pos. nra. Qed.
Lemma M_le : M <= hi * hi.
Proof.
  unfold M. pose proof lo_hi as (L1 & L2 & L3). pose proof h_pos. apply Rmult_le_reg_r with h; [assumption|]. unfold Rdiv.
  rewrite Rmult_assoc, Rinv_l, Rmult_1_r by lra. apply Rle_trans with (hi * hi * lo); [|apply Rmult_le_compat_l; nra].
  replace (hi * hi * lo) with (hi * (lo * hi)) by ring. rewrite L3. lra.
Qed.
Lemma Q_le : Q <= hi * hi * hi.
Proof. unfold Q. pose proof M_le. pose proof M_pos. pose proof S_pos. apply Rmult_le_compat; lra. Qed.
Lemma eta_M : eta <= uu * M.
Proof.
  pose proof lo_hi as (L1 & L2 & L3). pose proof h_pos. pose proof uu_small.
  apply Rle_trans with (uu * (lo * lo / 2)).
  - unfold eta, uu, lo. rewrite <- bpow_plus. unfold Rdiv. change (/ 2) with (bpow radix2 (-1)). rewrite <- !bpow_plus. apply bpow_le. lia.
  - apply Rmult_le_compat_l; [lra|]. unfold M. apply Rmult_le_reg_r with h; [assumption|]. unfold Rdiv at 2.
    rewrite Rmult_assoc, Rinv_l, Rmult_1_r by lra. apply Rle_trans with (lo * (lo * hi)); [|rewrite L3; lra].
    replace (lo * lo / 2 * h) with (lo * (lo * (h / 2))) by field. apply Rmult_le_compat_l; [lra|]. apply Rmult_le_compat_l; lra.
Qed.
Lemma eta_Q : eta <= uu * Q.
Proof.
  apply Rle_trans with (uu * (lo / 2)).
  - unfold eta, uu, lo, Rdiv. change (/ 2) with (bpow radix2 (-1)). rewrite <- !bpow_plus. apply bpow_le. lia.
  - pose proof uu_small. pose proof V_le_Q. apply Rmult_le_compat_l; lra.
Qed.
Lemma eta_S : eta <= uu * S.
Proof.
  apply Rle_trans with (uu * (lo / 2)).
  - unfold eta, uu, lo, Rdiv. change (/ 2) with (bpow radix2 (-1)). rewrite <- !bpow_plus. apply bpow_le. lia.
  - pose proof uu_small. apply Rmult_le_compat_l; lra.
Qed.
Lemma spacing_scale : V <= hi /\ S <= hi /\ 0 < h /\ 0 < M /\ M <= hi * hi /\ M * S <= Q /\ V <= 2 * Q /\ Q <= hi * hi * hi /\ Q <= M * (hi * hi) /\
  eta <= uu * M /\ eta <= uu * Q /\ eta <= uu * S.
Proof.
  pose proof lo_hi as (L1 & L2 & L3). pose proof M_pos. pose proof S_pos. repeat (split; [first [lra | apply h_pos | apply M_pos | apply M_le | unfold Q; lra | apply V_le_Q | apply Q_le | unfold Q; apply Rmult_le_compat_l; [lra|]; nra | apply eta_M | apply eta_Q]|]). apply eta_S.
Qed.
Lemma diff_fits u v : Rabs u <= V -> Rabs v <= V -> Rabs (u - v) <= 2 * M * h.
Proof. intros A B. replace (2 * M * h) with (V + V) by (pose proof M_h; lra). apply sub_abs; assumption. Qed.
Lemma crossing_near (a b : sample B64) (va vb t1 : B64) :
  finite (s_time a) = true -> finite (s_time b) = true -> finite (s_value a) = true -> finite (s_value b) = true ->
  finite va = true -> finite vb = true -> finite t1 = true -> B2R (s_time b) = B2R (s_time a) -> B2R t1 - B2R (s_time a) = h ->
  Rabs (B2R (s_time a)) <= S -> Rabs (B2R t1) <= S ->
  Rabs (B2R (s_value a)) <= V -> Rabs (B2R (s_value b)) <= V -> Rabs (B2R va) <= V -> Rabs (B2R vb) <= V ->
  forall ta tb, B2R ta = B2R t1 -> B2R tb = B2R t1 -> finite ta = true -> finite tb = true ->
  s_deriv a = ndiv (nsub va (s_value a)) (nsub ta (s_time a)) -> s_deriv b = ndiv (nsub vb (s_value b)) (nsub tb (s_time b)) ->
  128 * uu * Q <= Rabs (B2R va - B2R vb) ->
  (B2R (s_value a) - B2R (s_value b)) * (B2R va - B2R vb) <= 0 ->
  finite (time_intersect a b) = true /\ B2R (time_intersect a b) <= B2R t1.
Proof.
  intros. destruct spacing_scale as (? & ? & ? & ? & ? & ? & ? & ? & ? & ? & ? & ?). eapply (crossing_late V M S Q h) with (va := va) (vb := vb) (ta := ta) (tb := tb); try eassumption; apply diff_fits; assumption.
Qed.
Lemma crossing_gap (a b : sample B64) (va vb t1 : B64) :
  finite (s_time a) = true -> finite (s_time b) = true -> finite (s_value a) = true -> finite (s_value b) = true ->
  finite va = true -> finite vb = true -> finite t1 = true -> B2R (s_time b) = B2R (s_time a) -> B2R t1 - B2R (s_time a) = h ->
  Rabs (B2R (s_time a)) <= S -> Rabs (B2R t1) <= S ->
  Rabs (B2R (s_value a)) <= V -> Rabs (B2R (s_value b)) <= V -> Rabs (B2R va) <= V -> Rabs (B2R vb) <= V ->
  forall ta tb, B2R ta = B2R t1 -> B2R tb = B2R t1 -> finite ta = true -> finite tb = true ->
  s_deriv a = ndiv (nsub va (s_value a)) (nsub ta (s_time a)) -> s_deriv b = ndiv (nsub vb (s_value b)) (nsub tb (s_time b)) ->
  let g0 := B2R (s_value a) - B2R (s_value b) in let g1 := B2R va - B2R vb in (g0 <= 0 <= g1 \/ g1 <= 0 <= g0) ->
  let it := time_intersect a b in let t0 := B2R (s_time a) in
  (Rabs g0 <= 128 * uu * Q /\ Rabs g1 <= 128 * uu * Q) \/
  (finite it = true /\ (B2R it < t0 -> Rabs g0 <= 128 * uu * Q) /\
   (t0 <= B2R it <= B2R t1 -> Rabs (g0 + (g1 - g0) * ((B2R it - t0) / h)) <= 128 * uu * Q)).
Proof.
  intros. destruct spacing_scale as (? & ? & ? & ? & ? & ? & ? & ? & ? & ? & ? & ?). eapply (crossing_meet V M S Q h) with (va := va) (vb := vb) (ta := ta) (tb := tb); try eassumption; apply diff_fits; assumption.
Qed.
End Spacing.
