(** Error of the minimum and maximum of two signals whose slopes are bounded, up to an error in the values (C119, C120). *)
From Coq Require Import Reals Lra Lia Sorted.
From Flocq Require Import Core.Core IEEE754.BinarySingleNaN.
From Verif Require Import Base Num NumB64.
From Verif.Model Require Import Signal MinMax Ast Robustness.
From Verif.Spec Require Import SignalSpec Pwl Formula Crossing Accuracy Apart Spaced.
From Verif.Proofs Require Import NumFacts SignalFacts PwlFacts B64Facts SafeFacts MinMaxFacts MinMaxCases SyncProps InterpError CrossingError SyncError PairBound ChainFacts UniformFacts QuantFacts WholeFacts PairError.
Local Open Scope R_scope.

(** ** Piecewise-linear functions with bounded slopes *)
Fixpoint gentle (L : R) (l : list (R * R)) : Prop :=
  match l with p :: ((q :: _) as r) => Rabs (snd q - snd p) <= L * (fst q - fst p) /\ gentle L r | _ => True end.
(** [f] changes at a rate of at most [L] between [a] and [b]. *)
Definition lipschitz (L : R) (f : R -> R) (a b : R) : Prop := forall t u, a <= t -> t <= u -> u <= b -> Rabs (f u - f t) <= L * (u - t).

Lemma gentle_lipschitz L l : rincr l -> gentle L l -> lipschitz L (pw l) (first_time l) (final_time l).
Proof.
  induction l as [|p [|q r] IH]; intros Hi G t u H1 H2 H3.
  - cbn in *. assert (u = t) by lra. subst u. unfold Rminus. rewrite !Rplus_opp_r, Rabs_R0. lra.
  - unfold final_time in H3. cbn in *. unfold Rminus. rewrite Rplus_opp_r, Rabs_R0. assert (u = t) by lra. subst u. lra.
  - pose proof Hi as Hi0. apply rincr_cons2 in Hi0 as [Hlt Hr]. destruct G as (G1 & G2). specialize (IH Hr G2). rewrite final_cons in H3. cbn [first_time] in *.
    assert (LN : forall a b, fst p <= a -> a <= b -> b <= fst q -> Rabs (line p q b - line p q a) <= L * (b - a)).
    { intros a b A1 A2 A3. unfold line. set (h := fst q - fst p) in *. assert (h > 0) by (unfold h; lra).
      replace (snd p + (snd q - snd p) / h * (b - fst p) - (snd p + (snd q - snd p) / h * (a - fst p))) with ((snd q - snd p) * ((b - a) / h)) by (field; lra).
      rewrite Rabs_mult, (Rabs_pos_eq ((b - a) / h)) by (apply Rmult_le_pos; [lra|left; apply Rinv_0_lt_compat; lra]).
      replace (L * (b - a)) with (L * h * ((b - a) / h)) by (field; lra).
      apply Rmult_le_compat_r; [apply Rmult_le_pos; [lra|left; apply Rinv_0_lt_compat; lra]|exact G1]. }
    destruct (Rle_lt_dec u (fst q)) as [U|U]; [rewrite !pw_first by lra; apply LN; lra|].
    destruct (Rle_lt_dec (fst q) t) as [T|T]; [rewrite !(pw_tail p q r) by (try exact Hi; lra); apply IH; lra|].
    rewrite (pw_tail p q r u) by (try exact Hi; lra). rewrite (pw_first p q r t) by lra.
    pose proof (IH (fst q) u ltac:(lra) ltac:(lra) ltac:(lra)) as A. pose proof (LN t (fst q) ltac:(lra) ltac:(lra) ltac:(lra)) as B.
    rewrite pw_hd in A by exact Hr. rewrite line_r in B by exact Hlt.
    apply Rabs_le_inv in A, B. apply Rabs_le. lra.
Qed.

(** Between two times with no breakpoint strictly in between, the function is a line. *)
Lemma pw_straight l a b t : rincr l -> first_time l <= a -> a < b -> b <= final_time l -> (forall q, In q l -> ~ (a < fst q < b)) -> a <= t <= b ->
  pw l t = line (a, pw l a) (b, pw l b) t.
Proof.
  induction l as [|p [|q r] IH]; intros Hi H1 H2 H3 N Ht.
  - cbn in *. lra.
  - unfold final_time in H3. cbn in *. lra.
  - pose proof Hi as Hi0. apply rincr_cons2 in Hi0 as [Hlt Hr]. rewrite final_cons in H3. cbn [first_time] in *.
    destruct (Rle_lt_dec (fst q) a) as [A|A].
    + rewrite !(pw_tail p q r) by (try exact Hi; lra). apply IH; auto. intros c Hc. apply N. right. exact Hc.
    + assert (b <= fst q). { destruct (Rle_lt_dec b (fst q)) as [B|B]; [exact B|]. exfalso. apply (N q); [right; left; reflexivity|lra]. }
      rewrite !pw_first by lra. unfold line. cbn [fst snd]. field. split; lra.
Qed.

Lemma line_close a b v w v' w' t e : a < b -> a <= t <= b -> Rabs (v - v') <= e -> Rabs (w - w') <= e -> Rabs (line (a, v) (b, w) t - line (a, v') (b, w') t) <= e.
Proof.
  intros Hab Ht H1 H2. unfold line. cbn [fst snd]. set (k := (t - a) / (b - a)).
  assert (Hk : 0 <= k <= 1).
  { unfold k. split; [apply Rmult_le_pos; [lra|left; apply Rinv_0_lt_compat; lra]|].
    apply Rmult_le_reg_r with (b - a); [lra|]. unfold Rdiv. rewrite Rmult_assoc, Rinv_l; lra. }
  replace (v + (w - v) / (b - a) * (t - a)) with (v * (1 - k) + w * k) by (unfold k; field; lra).
  replace (v' + (w' - v') / (b - a) * (t - a)) with (v' * (1 - k) + w' * k) by (unfold k; field; lra).
  apply Rabs_le_inv in H1, H2. apply Rabs_le. split; nra.
Qed.

(** Samples close to a function, among them one at every breakpoint, define a function close to it. *)
Lemma refine_close l l' e : rincr l -> rincr l' -> l' <> [] -> 0 <= e ->
  (forall p, In p l' -> first_time l <= fst p <= final_time l /\ Rabs (snd p - pw l (fst p)) <= e) ->
  (forall q, In q l -> first_time l' <= fst q <= final_time l' -> exists p, In p l' /\ fst p = fst q) ->
  forall t, first_time l' <= t <= final_time l' -> Rabs (pw l' t - pw l t) <= e.
Proof.
  intros Hl Hl' N E A B t Ht. destruct (find_segment l' t Hl' N Ht) as [(p & Hp & <-)|(l1 & p & q & l2 & El & Hs)].
  - destruct (A p Hp) as (_ & A1). assert (pw l' (fst p) = snd p) as ->; [|exact A1].
    symmetry. apply (repr_In l'); [apply repr_pw, Hl'|exact Hp].
  - assert (Hp : In p l') by (rewrite El; apply in_or_app; right; left; reflexivity).
    assert (Hq : In q l') by (rewrite El; apply in_or_app; right; right; left; reflexivity).
    destruct (A p Hp) as (P1 & P2). destruct (A q Hq) as (Q1 & Q2).
    pose proof (rincr_first_final _ p Hl' Hp) as P3. pose proof (rincr_first_final _ q Hl' Hq) as Q3.
    assert (NB : forall c, In c l' -> ~ (fst p < fst c < fst q)).
    { intros c Hc C. rewrite El in Hl', Hc. apply rincr_app in Hl' as (_ & R1 & R2). apply rincr_cons in R1 as (R1 & R3). apply rincr_cons in R1 as (_ & R4).
      rewrite Forall_forall in R4. apply in_app_or in Hc as [Hc|[<-|[<-|Hc]]]; [specialize (R2 c p Hc (or_introl eq_refl)); lra|lra|lra|specialize (R4 c Hc); lra]. }
    rewrite (pw_straight l' (fst p) (fst q) t Hl') by (try lra; exact NB).
    rewrite (pw_straight l (fst p) (fst q) t Hl) by (try lra; intros c Hc C; destruct (B c Hc ltac:(lra)) as (d & Hd & Ed); apply (NB d Hd); lra).
    assert (EP : pw l' (fst p) = snd p) by (symmetry; apply (repr_In l'); [apply repr_pw, Hl'|exact Hp]).
    assert (EQ' : pw l' (fst q) = snd q) by (symmetry; apply (repr_In l'); [apply repr_pw, Hl'|exact Hq]).
    rewrite EP, EQ'. apply line_close; auto; lra.
Qed.

Lemma sbest_near p a b a' b' e : Rabs (a - a') <= e -> Rabs (b - b') <= e -> Rabs (sbest (QuantFacts.sgp p) a b - sbest (QuantFacts.sgp p) a' b') <= e.
Proof. intros. destruct p; cbn [QuantFacts.sgp]; [rewrite !sbest_min; apply min_close|rewrite !sbest_max; apply max_close]; assumption. Qed.
Lemma sbest_lipschitz p L f g a b : lipschitz L f a b -> lipschitz L g a b -> lipschitz L (fun t => sbest (QuantFacts.sgp p) (f t) (g t)) a b.
Proof. intros Hf Hg t u H1 H2 H3. apply sbest_near; auto. Qed.

(** ** Two operands with slopes of at most [L] up to an error of [e] in the values *)
Section Slope.
Variables (V S L e : R).
Hypothesis HV : lo <= V <= hi.
Hypothesis HS : S <= hi.
Hypothesis HlS : lo <= uu * S.
Hypothesis HL : V <= L * S.
Hypothesis HL' : L <= hi * hi / 2.
Hypothesis He : 0 <= e <= hi / 2.
Let K : R := 260 * uu * (L * S) + 128 * uu * V + 2 * e.
Definition slope_rel (i i' : sample B64) : Prop := Rabs (B2R (s_value i') - B2R (s_value i)) <= L * (B2R (s_time i') - B2R (s_time i)) + e.

Lemma SL_pos : 0 < S /\ 0 < L.
Proof.
  pose proof lo_hi as (L0 & L1 & L2). pose proof uu_small as Hu. assert (S0 : 0 < S). { apply Rmult_lt_reg_l with uu; lra. } split; [exact S0|].
  apply Rmult_lt_reg_r with S; [exact S0|]. lra.
Qed.
Lemma eta_lo : 16 * eta * (hi * hi) <= uu * lo.
Proof.
  unfold eta, hi, uu, lo. change 16 with (bpow radix2 4). rewrite <- !bpow_plus. apply bpow_le. lia.
Qed.
Lemma hi_4 : 4 <= hi.
Proof. unfold hi. change 4 with (bpow radix2 2). apply bpow_le. lia. Qed.

(** Two steps between the same times at which the lines may meet: either they are close at both ends, or the
    scale of the crossing analysis fits. *)
Definition scaled (a a' b b' : sample B64) (M T Q : R) : Prop :=
  let h := B2R (s_time a') - B2R (s_time a) in
  T <= hi /\ 0 < h /\ h <= 2 * T /\ 0 < M /\ M <= hi * hi /\ M * T <= Q /\ V <= 2 * Q /\ Q <= hi * hi * hi /\ Q <= M * (hi * hi) /\
  eta <= uu * M /\ eta <= uu * Q /\ eta <= uu * T /\ Rabs (B2R (s_time a)) <= T /\ Rabs (B2R (s_time a')) <= T /\
  Rabs (B2R (s_value a') - B2R (s_value a)) <= 2 * M * h /\ Rabs (B2R (s_value b') - B2R (s_value b)) <= 2 * M * h /\ 128 * uu * Q <= K.

Lemma slope_scale a a' b b' : follows V S slope_rel a a' -> follows V S slope_rel b b' -> B2R (s_time b) = B2R (s_time a) -> B2R (s_time b') = B2R (s_time a') ->
  let g0 := B2R (s_value a) - B2R (s_value b) in let g1 := B2R (s_value a') - B2R (s_value b') in (g0 <= 0 <= g1 \/ g1 <= 0 <= g0) ->
  (Rabs g0 <= K /\ Rabs g1 <= K) \/ exists M T Q, scaled a a' b b' M T Q.
Proof.
  intros ((Fl1 & Fl2 & Fl3 & Fl4) & (Fl5 & Fl6 & Fl7 & Fl8) & Lt & Rl & Dl) ((Fw1 & Fw2 & Fw3 & Fw4) & (Fw5 & Fw6 & Fw7 & Fw8) & _ & Rw & Dw) Et Et' g0 g1 Hg.
  unfold slope_rel in Rl, Rw. rewrite Et, Et' in Rw. set (h := B2R (s_time a') - B2R (s_time a)) in *.
  destruct SL_pos as (S0 & L0'). pose proof lo_hi as (L0 & L1 & L2). pose proof uu_small as Hu. pose proof eta_lo as EL. pose proof hi_4 as H4. pose proof eta_pos as Ep.
  assert (h0 : 0 < h) by (unfold h; lra).
  set (T := Rmax (Rabs (B2R (s_time a))) (Rabs (B2R (s_time a')))).
  assert (T1 : Rabs (B2R (s_time a)) <= T) by apply Rmax_l. assert (T2 : Rabs (B2R (s_time a')) <= T) by apply Rmax_r.
  assert (T3 : T <= S) by (apply Rmax_lub; assumption). clearbody T.
  assert (LS0 : 0 <= uu * (L * S)) by (apply Rmult_le_pos; [lra|apply Rmult_le_pos; lra]).
  assert (UV : 0 <= uu * V) by (apply Rmult_le_pos; lra).
  assert (HhT : h <= 2 * T) by (apply Rabs_le_inv in T1, T2; unfold h; lra).
  destruct (Rle_lt_dec (lo + 128 * uu * T) h) as [Big|Small].
  - set (M := (L + e / h) / 2). set (Q := M * T + V).
    assert (UT : 0 <= uu * T) by (apply Rmult_le_pos; lra).
    assert (eh : 0 <= e / h <= hi * hi / 2).
    { split; [apply Rmult_le_pos; [lra|left; apply Rinv_0_lt_compat; lra]|]. apply Rmult_le_reg_r with h; [lra|]. unfold Rdiv at 1. rewrite Rmult_assoc, Rinv_l, Rmult_1_r by lra.
      assert (hi * hi / 2 * lo <= hi * hi / 2 * h) by (apply Rmult_le_compat_l; [nra|lra]). replace (hi * hi / 2 * lo) with (hi / 2 * (lo * hi)) in H by field. rewrite L2 in H. lra. }
    assert (M0 : L / 2 <= M) by (unfold M; lra). assert (M1 : M <= hi * hi / 2) by (unfold M; lra).
    assert (MH : 2 * M * h = L * h + e) by (unfold M; field; lra).
    assert (VL : V <= L * hi) by (eapply Rle_trans; [exact HL|apply Rmult_le_compat_l; lra]).
    assert (MT : 0 <= M * T) by (apply Rmult_le_pos; lra).
    assert (HH : hi * 1 <= hi * hi) by (apply Rmult_le_compat_l; lra).
    assert (LL : lo * lo <= L).
    { apply Rmult_le_reg_r with hi; [lra|]. replace (lo * lo * hi) with (lo * (lo * hi)) by ring. rewrite L2. lra. }
    assert (E1 : eta <= uu * M).
    { assert (uu * (lo * lo) <= uu * L) by (apply Rmult_le_compat_l; lra).
      assert (16 * eta <= uu * (lo * lo)).
      { apply Rmult_le_reg_r with hi; [lra|]. replace (uu * (lo * lo) * hi) with (uu * (lo * (lo * hi))) by ring. rewrite L2, Rmult_1_r.
        eapply Rle_trans; [|exact EL]. apply Rmult_le_compat_l; lra. }
      assert (uu * (L / 2) <= uu * M) by (apply Rmult_le_compat_l; lra). lra. }
    assert (E2 : eta <= uu * V).
    { assert (uu * lo <= uu * V) by (apply Rmult_le_compat_l; lra). assert (16 * eta * 1 <= 16 * eta * (hi * hi)) by (apply Rmult_le_compat_l; lra). lra. }
    assert (E3 : eta <= uu * T).
    { assert (uu * (lo / 2) <= uu * T) by (apply Rmult_le_compat_l; lra). assert (16 * eta * 1 <= 16 * eta * (hi * hi)) by (apply Rmult_le_compat_l; lra). lra. }
    assert (QM : uu * (M * T) >= 0) by (apply Rle_ge, Rmult_le_pos; lra).
    assert (MT1 : M * T <= hi * hi / 2 * hi) by (apply Rmult_le_compat; lra).
    assert (MT2 : M * T <= M * hi) by (apply Rmult_le_compat_l; lra).
    assert (H3 : hi <= hi * hi / 2 * hi). { assert (4 * 4 <= hi * hi) by (apply Rmult_le_compat; lra). assert (1 * hi <= (hi * hi / 2) * hi) by (apply Rmult_le_compat_r; lra). lra. }
    assert (QH : Q <= hi * hi * hi) by (unfold Q; lra).
    assert (Mh0 : 0 <= M * hi) by (apply Rmult_le_pos; lra).
    assert (QMH : Q <= M * (hi * hi)).
    { assert (L / 2 * hi <= M * hi) by (apply Rmult_le_compat_r; lra). assert (M * hi * 4 <= M * hi * hi) by (apply Rmult_le_compat_l; lra). unfold Q. lra. }
    assert (KQ : 128 * uu * Q <= K).
    { unfold Q, K. assert (EE : 128 * uu * (M * T) = 64 * uu * (L * T) + 64 * (uu * T / h) * e) by (unfold M; field; lra).
      assert (uu * (L * T) <= uu * (L * S)) by (apply Rmult_le_compat_l; [lra|]; apply Rmult_le_compat_l; lra).
      assert (128 * (uu * T / h) <= 1). { apply Rmult_le_reg_r with h; [lra|]. replace (128 * (uu * T / h) * h) with (128 * uu * T) by (field; lra). lra. }
      assert (128 * (uu * T / h) * e <= 1 * e) by (apply Rmult_le_compat_r; lra).
      rewrite Rmult_plus_distr_l, EE. lra. }
    right. exists M, T, Q. unfold scaled. cbv zeta. fold h. repeat (split; [first [assumption|lra|unfold Q; lra]|]). exact KQ.
  - left. assert (Lh : L * h <= 129 * uu * (L * S)).
    { assert (uu * T <= uu * S) by (apply Rmult_le_compat_l; lra). assert (L * h <= L * (129 * (uu * S))) by (apply Rmult_le_compat_l; lra).
      replace (129 * uu * (L * S)) with (L * (129 * (uu * S))) by ring. exact H0. }
    apply Rabs_le_inv in Rl, Rw. fold g0 g1. assert (D : g1 - g0 = (B2R (s_value a') - B2R (s_value a)) - (B2R (s_value b') - B2R (s_value b))) by (unfold g0, g1; ring).
    unfold K. split; apply Rabs_le; lra.
Qed.

Lemma slope_gap a a' b b' : follows V S slope_rel a a' -> follows V S slope_rel b b' -> B2R (s_time b) = B2R (s_time a) -> B2R (s_time b') = B2R (s_time a') ->
  let g0 := B2R (s_value a) - B2R (s_value b) in let g1 := B2R (s_value a') - B2R (s_value b') in (g0 <= 0 <= g1 \/ g1 <= 0 <= g0) -> meets K a a' b b'.
Proof.
  intros Fl Fw Et Et' g0 g1 Hg. destruct (slope_scale a a' b b' Fl Fw Et Et' Hg) as [C|(M & T & Q & C)]; [left; exact C|].
  destruct Fl as ((Fl1 & Fl2 & Fl3 & Fl4) & (Fl5 & Fl6 & Fl7 & Fl8) & Lt & _ & Dl). destruct Fw as ((Fw1 & Fw2 & Fw3 & Fw4) & (Fw5 & Fw6 & Fw7 & Fw8) & _ & _ & Dw).
  unfold scaled in C. cbv zeta in C. set (h := B2R (s_time a') - B2R (s_time a)) in *. destruct C as (C0 & C1 & C2 & C3 & C4 & C5 & C6 & C7 & C8 & C9 & C10 & C11 & C12 & C13 & C14 & C15 & KQ).
  pose proof (crossing_meet V M T Q h ltac:(lra) C1 C2 C3 C4 C5 C6 C7 C8 C9 C10 C11
    a b (s_value a') (s_value b') (s_time a') Fl1 Fw1 Fl2 Fw2 Fl6 Fw6 Fl5 Et eq_refl C12 C13 Fl4 Fw4 C14 C15
    (s_time a') (s_time b') eq_refl Et' Fl5 Fw5 Dl Dw Hg) as G. cbv zeta in G. fold g0 g1 in G. unfold meets. cbv zeta. fold g0 g1 h.
  destruct G as [(G1 & G2)|(G0 & G1 & G2)]; [left; lra|right]. split; [exact G0|]. split; [intros D; specialize (G1 D); lra|intros D; specialize (G2 D); lra].
Qed.
(** If the later values differ by more than [K], the crossing is not after them. *)
Lemma slope_on_time a a' b b' : follows V S slope_rel a a' -> follows V S slope_rel b b' -> B2R (s_time b) = B2R (s_time a) -> B2R (s_time b') = B2R (s_time a') ->
  let g0 := B2R (s_value a) - B2R (s_value b) in let g1 := B2R (s_value a') - B2R (s_value b') in (g0 <= 0 <= g1 \/ g1 <= 0 <= g0) -> K < Rabs g1 ->
  finite (time_intersect a b) = true /\ B2R (time_intersect a b) <= B2R (s_time a').
Proof.
  intros Fl Fw Et Et' g0 g1 Hg HK. destruct (slope_scale a a' b b' Fl Fw Et Et' Hg) as [(_ & C)|(M & T & Q & C)]; [fold g1 in C; lra|].
  destruct Fl as ((Fl1 & Fl2 & Fl3 & Fl4) & (Fl5 & Fl6 & Fl7 & Fl8) & Lt & _ & Dl). destruct Fw as ((Fw1 & Fw2 & Fw3 & Fw4) & (Fw5 & Fw6 & Fw7 & Fw8) & _ & _ & Dw).
  unfold scaled in C. cbv zeta in C. set (h := B2R (s_time a') - B2R (s_time a)) in *. destruct C as (C0 & C1 & C2 & C3 & C4 & C5 & C6 & C7 & C8 & C9 & C10 & C11 & C12 & C13 & C14 & C15 & KQ).
  apply (crossing_late V M T Q h ltac:(lra) C1 C2 C3 C4 C5 C6 C7 C8 C9 C10
    a b (s_value a') (s_value b') (s_time a') Fl1 Fw1 Fl2 Fw2 Fl6 Fw6 Fl5 Et eq_refl C12 C13 Fl4 Fw4 C14 C15
    (s_time a') (s_time b') eq_refl Et' Fl5 Fw5 Dl Dw); fold g0 g1; [lra|]. destruct Hg as [(G1 & G2)|(G1 & G2)]; nra.
Qed.

Lemma slope_error : V <= L * S -> EQ V S K <= 275 * uu * V + 520 * uu * (L * S) + 4 * e.
Proof.
  intros _. destruct SL_pos as (S0 & L0'). pose proof lo_hi as (L0 & L1 & L2). pose proof uu_small as Hu. pose proof eta_lo as EL. pose proof hi_4 as H4. pose proof eta_pos as Ep.
  assert (4 * eta * (2 * S + 1) <= uu * V).
  { assert (uu * lo <= uu * V) by (apply Rmult_le_compat_l; lra). eapply Rle_trans; [|exact H]. eapply Rle_trans; [|exact EL].
    replace (16 * eta * (hi * hi)) with (4 * eta * (4 * (hi * hi))) by ring. apply Rmult_le_compat_l; [lra|]. assert (1 * hi <= hi * hi) by (apply Rmult_le_compat_r; lra). lra. }
  unfold EQ, DI, K. assert (0 <= uu * V) by (apply Rmult_le_pos; lra). lra.
Qed.

(** Two signals at the same times, with samples near functions of bounded slope. *)
Lemma slope_pair dbg (p : bool) (x y z : signal B64) f g a0 b0 : wf x -> wf y -> x <> [] -> Forall2 (fun a b => neqb (s_time a) (s_time b) = true) x y ->
  (forall a, In a x -> sample_ok V S a /\ a0 <= B2R (s_time a) <= b0 /\ Rabs (B2R (s_value a) - f (B2R (s_time a))) <= e / 2) ->
  (forall a, In a y -> sample_ok V S a /\ a0 <= B2R (s_time a) <= b0 /\ Rabs (B2R (s_value a) - g (B2R (s_time a))) <= e / 2) ->
  lipschitz L f a0 b0 -> lipschitz L g a0 b0 -> minmax_pair dbg (comp_of p) true x y = Ok z ->
    wf z /\ z <> [] /\ fins z /\ first_time (reals z) = first_time (reals x) /\ final_time (reals z) = final_time (reals x) /\
    forall t, first_time (reals x) <= t <= final_time (reals x) ->
      Rabs (pw (reals z) t - sbest (QuantFacts.sgp p) (pw (reals x) t) (pw (reals y) t)) <= 275 * uu * V + 520 * uu * (L * S) + 4 * e.
Proof.
  intros Wx Wy N T Hx Hy Lf Lg Hz. pose proof lo_hi as (L0 & L1 & _). pose proof hi_big. destruct SL_pos as (S0 & L0'). pose proof uu_small as Hu.
  assert (K0 : 0 <= K). { unfold K. assert (0 <= uu * (L * S)) by (apply Rmult_le_pos; [lra|apply Rmult_le_pos; lra]). assert (0 <= uu * V) by (apply Rmult_le_pos; lra). lra. }
  assert (ST : forall (u : signal B64) f, wf u -> (forall a, In a u -> sample_ok V S a /\ a0 <= B2R (s_time a) <= b0 /\ Rabs (B2R (s_value a) - f (B2R (s_time a))) <= e / 2) ->
    lipschitz L f a0 b0 -> steps V S slope_rel u).
  { intros u k Wu Hu' Lk. split; [intros a Ha; apply (Hu' a Ha)|]. intros x1 a b x2 Eu.
    assert (Ha : In a u) by (rewrite Eu; apply in_or_app; right; left; reflexivity).
    assert (Hb : In b u) by (rewrite Eu; apply in_or_app; right; right; left; reflexivity).
    destruct (Hu' a Ha) as ((A1 & A2 & A3 & A4) & A5 & A6). destruct (Hu' b Hb) as ((B1 & B2 & B3 & B4) & B5 & B6).
    assert (Lt : B2R (s_time a) < B2R (s_time b)).
    { apply lt_B2R; auto. destruct Wu as (_ & Iu & _). rewrite Eu in Iu. eapply later; [exact Iu|left; reflexivity]. }
    split; [exact Lt|]. unfold slope_rel. pose proof (Lk (B2R (s_time a)) (B2R (s_time b)) ltac:(lra) ltac:(lra) ltac:(lra)) as D.
    apply Rabs_le_inv in A6, B6, D. apply Rabs_le. lra. }
  destruct (together_error V S K slope_rel ltac:(lra) ltac:(lra) K0 slope_gap dbg p x y z Wx Wy N T) as (A1 & A2 & A3 & A4 & A5 & A6); eauto.
  repeat (split; [assumption|]). intros t Ht. eapply Rle_trans; [apply A6, Ht|]. apply slope_error, HL.
Qed.
End Slope.
