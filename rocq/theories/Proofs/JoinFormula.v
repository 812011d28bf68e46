(** Formulas joining predicates with And or Or below a temporal operator, in doubles (for C117 and C118). *)
From Coq Require Import Reals Lra Lia.
From Flocq Require Import Core.Core IEEE754.BinarySingleNaN.
From Verif Require Import Base Num NumXR NumB64.
From Verif.Model Require Import Signal MinMax Ast Robustness.
From Verif.Spec Require Import SignalSpec Pwl Formula Semantics Quantitative Rounding Accuracy Uniform Whole.
From Verif.Proofs Require Import NumFacts SignalFacts PwlFacts RobFacts RobWf B64Facts SeqFacts MinMaxProps InterpError SyncError Rounding ChainFacts LayerFacts RobExact QuantFacts PairBound UniformFacts PerturbFacts WholeFacts.
Local Open Scope R_scope.

Lemma Forall2_times (x y : signal B64) : Forall2 (fun a b => neqb (s_time a) (s_time b) = true) x y <-> Forall2 (fun t u => neqb t u = true) (times x) (times y).
Proof.
  split.
  - induction 1; cbn [times map]; constructor; assumption.
  - revert y. induction x as [|a x IH]; intros [|b y] H; inversion H; subst; constructor; auto.
Qed.
Lemma first_times (x y : signal B64) : times y = times x -> first_time (reals y) = first_time (reals x).
Proof. destruct x, y; try discriminate; [reflexivity|]. intros E. injection E as E _. exact (f_equal B2R E). Qed.
Lemma final_times (x y : signal B64) : times y = times x -> final_time (reals y) = final_time (reals x).
Proof.
  revert y. induction x as [|a x IH]; intros [|b y] E; try discriminate; [reflexivity|]. injection E as E1 E2. specialize (IH y E2).
  destruct x as [|a' x], y as [|b' y]; try discriminate; [exact (f_equal B2R E1)|]. exact IH.
Qed.
Lemma ends_agree (x y : signal B64) : Forall (fun a => finite (s_time a) = true /\ finite (s_value a) = true) x -> Forall (fun a => finite (s_time a) = true /\ finite (s_value a) = true) y ->
  Forall2 (fun a b => neqb (s_time a) (s_time b) = true) x y -> first_time (reals y) = first_time (reals x) /\ final_time (reals y) = final_time (reals x).
Proof.
  intros Fx Fy H. revert Fx Fy. induction H as [|a b x y E H IH]; intros Fx Fy; [split; reflexivity|].
  inversion Fx as [|? ? (Fa & _) Fx']; inversion Fy as [|? ? (Fb & _) Fy']; subst. apply eq_B2R in E; auto. split; [cbn [reals map first_time fst]; auto|].
  destruct (IH Fx' Fy') as (_ & K). destruct H as [|a' b' x y E' H]; [unfold final_time; cbn [reals map last_opt fst]; auto|exact K].
Qed.

Section G.
Variables (dbg : bool) (fuel : nat) (tr : trace B64).
Hypothesis U : keys_unique tr.
Hypothesis G3 : Forall (fun e => wf (snd e) /\ snd e <> [] /\ Forall (fun a => finite (s_time a) = true /\ finite (s_value a) = true) (snd e)) tr.
(** All signals start at the same time. *)
Hypothesis ST : forall n m x y, has_signal tr n x -> has_signal tr m y -> first_time (reals y) = first_time (reals x).
Let lt := real_trace tr.
Let r0 := mkRob (trace_begin tr) (trace_end tr) tr.

Lemma has_good n x : has_signal tr n x -> wf x /\ x <> [].
Proof. intros H. destruct (proj1 (Forall_forall _ _) G3 _ H) as (A & B & _). auto. Qed.
Lemma has_finite n x : has_signal tr n x -> Forall (fun a => finite (s_time a) = true /\ finite (s_value a) = true) x.
Proof. intros H. apply (proj1 (Forall_forall _ _) G3 _ H). Qed.

(** *** Literals *)
Lemma literal_chain e : literal e = true -> chain e = true.
Proof. induction e using expr_rec; cbn [literal]; intros L; try discriminate; [reflexivity|]. rewrite chain_not. auto. Qed.
Lemma literal_intervals e : literal e = true -> intervals_made e.
Proof.
  induction e using expr_rec; cbn [literal]; intros L; try discriminate; intros f Hf.
  - destruct Hf as [<-|[]]. exact I.
  - destruct Hf as [<-|Hf]; [exact I|]. apply IHe; assumption.
Qed.
Lemma literal_affine e : literal e = true -> exists n s o, names e = [n] /\ (s = 1 \/ s = -1) /\ (forall v w, exact_samples e (v :: w) = s * v + o) /\
  forall t v, rob lt (real_formula e) t v <-> exists u, value_at lt n t u /\ v = s * u + o.
Proof.
  induction e using expr_rec; cbn [literal]; intros L; try discriminate.
  - exists n. destruct o; [exists 1, (- B2R c)|exists 1, (- B2R c)|exists (-1), (B2R c)|exists (-1), (B2R c)]; (split; [reflexivity|]); (split; [auto|]);
      (split; [intros v w; cbn [exact_samples exact_pred]; ring|]); intros t v; cbn [real_formula rob]; (split; [intros (u & r & A & [= <-] & ->); exists u; split; [exact A|ring]|intros (u & A & ->); exists u, (B2R c); split; [exact A|]; split; [reflexivity|ring]]).
  - destruct (IHe L) as (n & s & o & N & Hs & E & R). exists n, (- s), (- o). split; [exact N|]. split; [destruct Hs as [-> | ->]; [right|left]; ring|].
    split; [intros v w; cbn [exact_samples]; rewrite E; ring|]. intros t v. cbn [real_formula rob]. rewrite R. split; intros (u & A & B); exists u; (split; [exact A|lra]).
Qed.
Lemma split_reals (f : R -> R) : forall (x y : signal B64), times y = times x ->
  (forall x1 a x2 y1 c y2, x = x1 ++ a :: x2 -> y = y1 ++ c :: y2 -> length x1 = length y1 -> B2R (s_value c) = f (B2R (s_value a))) ->
  reals y = map (fun p => (fst p, f (snd p))) (reals x).
Proof.
  induction x as [|a x IH]; intros [|c y] E H; try discriminate; [reflexivity|]. injection E as E1 E2. rewrite !reals_cons. cbn [map fst snd]. f_equal.
  - rewrite (H [] a x [] c y eq_refl eq_refl eq_refl), E1. reflexivity.
  - apply IH; [exact E2|]. intros x1 a' x2 y1 c' y2 -> -> L. apply (H (a :: x1) a' x2 (c :: y1) c' y2); [reflexivity|reflexivity|]. cbn. lia.
Qed.
Definition join (p : bool) (l : list (expr B64)) : expr B64 := if p then EAnd l else EOr l.
Lemma real_join p l : real_formula (join p l) = node p (map real_formula l).
Proof. destruct p; reflexivity. Qed.
Lemma rob_two p a b t r : rob lt (real_formula (join p [a; b])) t r -> exists u v, rob lt (real_formula a) t u /\ rob lt (real_formula b) t v /\ r = if p then Rmin u v else Rmax u v.
Proof.
  rewrite real_join. intros H. apply rob_node in H as ((P & HP & Q) & K). cbn [map] in *.
  destruct (K _ (or_introl eq_refl)) as (u & Hu & Lu). destruct (K _ (or_intror (or_introl eq_refl))) as (v & Hv & Lv).
  destruct HP as [<-|[<-|[]]].
  - destruct (K _ (or_intror (or_introl eq_refl))) as (w & Hw & Lw). exists r, w. split; [exact Q|]. split; [exact Hw|].
    destruct p; cbn [sgp] in *; [rewrite Rmin_left; lra|rewrite Rmax_left; lra].
  - destruct (K _ (or_introl eq_refl)) as (w & Hw & Lw). exists w, r. split; [exact Hw|]. split; [exact Q|].
    destruct p; cbn [sgp] in *; [rewrite Rmin_right; lra|rewrite Rmax_right; lra].
Qed.

(** *** Temporal operators *)
Definition xtr : trace XR := map (fun e => (fst e, fsig (reals (snd e)))) tr.
Lemma xtr_good : exists t0, PerturbFacts.good lt xtr t0.
Proof.
  assert (A : trace_of lt xtr).
  { unfold trace_of, lt, real_trace, xtr. pose proof G3 as G3'. clear - G3'. induction G3' as [|[n x] l (W & N & F) _ IH]; cbn [map]; constructor; [|exact IH].
    cbn [fst snd] in *. split; [reflexivity|]. apply built_iff. split; [apply reals_rincr; assumption|reflexivity]. }
  assert (B : keys_unique xtr). { unfold keys_unique, xtr. rewrite map_map. exact U. }
  assert (D : (forall e, ~ In e tr) \/ exists n x, has_signal tr n x). { clear. destruct tr as [|[n x] l]; [left; intros e []|]. right. exists n, x. left. reflexivity. }
  destruct D as [D|(n & x & Hx)].
  { exists 0. repeat split; [exact A|exact B|]. unfold all_start, lt, real_trace. apply Forall_map, Forall_forall. intros e He. destruct (D e He). }
  exists (first_time (reals x)). repeat split; [exact A|exact B|].
  unfold all_start, lt, real_trace. apply Forall_map, Forall_forall. intros [m y] Hy. cbn [snd]. split.
  - destruct (has_good m y Hy) as (_ & N). destruct y; [congruence|discriminate].
  - apply (ST n m x y); assumption.
Qed.

Lemma pwl_least p (y : signal B64) (c a : sample B64) t v : wf y -> Forall (fun a => finite (s_time a) = true /\ finite (s_value a) = true) y -> In a y ->
  (forall b, In b y -> B2R (s_time a) <= B2R (s_time b) -> sgp p * B2R (s_value c) <= sgp p * B2R (s_value b)) ->
  B2R (s_time a) <= t -> pwl (reals y) t v -> sgp p * B2R (s_value c) <= sgp p * v.
Proof.
  intros W F Ha L Ht [(q & Hq & <- & <-)|(l1 & q & q' & l2 & E & H & ->)].
  - apply in_map_iff in Hq as (b & <- & Hb). cbn [fst snd] in *. apply L; assumption.
  - assert (Hq : In q (reals y)) by (rewrite E; apply in_or_app; right; left; reflexivity). assert (Hq' : In q' (reals y)) by (rewrite E; apply in_or_app; right; right; left; reflexivity).
    pose proof (reals_rincr y W F) as I. rewrite E in I. apply rincr_app in I as (_ & I & I2).
    assert (A : B2R (s_time a) <= fst q).
    { assert (Hin : In (B2R (s_time a), B2R (s_value a)) (reals y)) by apply (in_map (fun a => (B2R (s_time a), B2R (s_value a)))), Ha.
      rewrite E in Hin. apply in_app_or in Hin as [Hin|[Hin|[Hin|Hin]]].
      - specialize (I2 _ q Hin (or_introl eq_refl)). cbn [fst] in I2. lra.
      - rewrite Hin. cbn [fst]. lra.
      - rewrite Hin in H. cbn [fst] in H. lra.
      - apply rincr_cons in I as (I & _). apply rincr_cons in I as (_ & I). rewrite Forall_forall in I. specialize (I _ Hin). cbn [fst] in I. lra. }
    assert (LV : forall q0, In q0 (reals y) -> B2R (s_time a) <= fst q0 -> sgp p * B2R (s_value c) <= sgp p * snd q0).
    { intros q0 H0 Hle. apply in_map_iff in H0 as (b & <- & Hb). apply (L b Hb Hle). }
    pose proof (LV q Hq A) as L1. pose proof (LV q' Hq' ltac:(lra)) as L2. clear LV L Hq Hq' I I2 E.
    set (w := (t - fst q) / (fst q' - fst q)). assert (Hw : 0 <= w <= 1).
    { unfold w. split; [apply Rmult_le_pos; [lra|left; apply Rinv_0_lt_compat; lra]|]. apply Rmult_le_reg_r with (fst q' - fst q); [lra|]. unfold Rdiv. rewrite Rmult_assoc, Rinv_l by lra. lra. }
    match goal with |- _ <= _ * ?e => replace e with (snd q * (1 - w) + snd q' * w) by (unfold w; field; lra) end.
    destruct p; cbn [sgp] in *; nra.
Qed.

Lemma literal_temporal e : literal e = true -> free_of is_temporal (real_formula e) = true /\ free_of is_const (real_formula e) = true /\ free_of (short 1) (real_formula e) = true /\ intervals_made (real_formula e).
Proof.
  induction e using expr_rec; cbn [literal]; intros L; try discriminate.
  - split; [reflexivity|]. split; [reflexivity|]. split; [reflexivity|]. intros f' [<-|[]]. exact I.
  - destruct (IHe L) as (A & B & C & D). split; [exact A|]. split; [exact B|]. split; [exact C|]. intros f [<-|Hf]; [exact I|]. apply D, Hf.
Qed.
Lemma literal_consts e : forall f, In f (subs (real_formula e)) -> match f with EPred _ _ c => exists r, c = Fin r | _ => True end.
Proof.
  induction e using expr_rec; cbn [real_formula]; intros f' Hf; cbn [subs] in Hf.
  - destruct Hf as [<-|[]]. exact I.
  - destruct Hf as [<-|[]]. eauto.
  - destruct Hf as [<-|Hf]; [exact I|]. exact (IHe f' Hf).
  - destruct Hf as [<-|Hf]; [exact I|]. apply in_flat_map in Hf as (g & Hg & Hf). apply in_map_iff in Hg as (h & <- & Hh). rewrite Forall_forall in H. exact (H h Hh f' Hf).
  - destruct Hf as [<-|Hf]; [exact I|]. apply in_flat_map in Hf as (g & Hg & Hf). apply in_map_iff in Hg as (h & <- & Hh). rewrite Forall_forall in H. exact (H h Hh f' Hf).
  - destruct Hf as [<-|Hf]; [exact I|]. exact (IHe f' Hf).
  - destruct Hf as [<-|Hf]; [exact I|]. exact (IHe f' Hf).
  - destruct Hf as [<-|Hf]; [exact I|]. apply in_app_or in Hf as [Hf|Hf]; [exact (IHe1 f' Hf)|exact (IHe2 f' Hf)].
Qed.

Lemma join_evaluable q a b : literal a = true -> literal b = true -> (forall n, In n (names a ++ names b) -> exists x, has_signal tr n x) ->
  evaluable lt (real_formula (join q [a; b])) /\ free_of is_temporal (real_formula (join q [a; b])) = true.
Proof.
  intros La Lb NA. destruct (literal_temporal a La) as (A1 & A2 & A3 & A4). destruct (literal_temporal b Lb) as (B1 & B2 & B3 & B4).
  split; [|destruct q; cbn [join real_formula map free_of is_temporal forallb negb andb]; rewrite A1, B1; reflexivity].
  split; [destruct q; cbn [join real_formula map free_of is_const forallb negb andb]; rewrite A2, B2; reflexivity|].
  split; [destruct q; cbn [join real_formula map free_of short length Nat.ltb Nat.leb forallb negb andb]; rewrite A3, B3; reflexivity|].
  split. { intros e He. assert (K : e = real_formula (join q [a; b]) \/ In e (subs (real_formula a)) \/ In e (subs (real_formula b))).
    { destruct q; cbn [join real_formula map subs flat_map] in He |- *; destruct He as [<-|He]; auto; rewrite app_nil_r in He; apply in_app_or in He as [He|He]; auto. }
    destruct K as [->|[K|K]]; [destruct q; exact I|apply A4, K|apply B4, K]. }
  split; [apply literal_consts|].
  intros n Hn. rewrite names_real in Hn. assert (K : In n (names a) \/ In n (names b)).
  { destruct q; cbn [join names flat_map] in Hn; rewrite app_nil_r in Hn; apply in_app_or, Hn. }
  assert (exists x, has_signal tr n x) as (x & Hx) by (apply NA, in_or_app; exact K).
  exists (reals x). apply in_map_iff. exists (n, x). split; [reflexivity|exact Hx].
Qed.

Lemma join_extreme p q a b : free_of is_temporal (real_formula (join q [a; b])) = true -> extreme_exact p (real_formula (join q [a; b])) = true.
Proof. intros NT. destruct q; cbn [join real_formula extreme_exact] in NT |- *; rewrite NT; reflexivity. Qed.

Hypothesis TO : forall n m x y, has_signal tr n x -> has_signal tr m y -> Forall2 (fun a b => neqb (s_time a) (s_time b) = true) x y.
Lemma same_starts n m x y : has_signal tr n x -> has_signal tr m y -> first_time (reals y) = first_time (reals x).
Proof. intros Hx Hy. eapply ends_agree; [eapply has_finite; eauto|eapply has_finite; eauto|eapply TO; eauto]. Qed.

(** Signals between the ends of the trace are where the formula has a value. *)
Lemma join_inside q a b n x (z : signal B64) : (forall n, In n (names a ++ names b) -> exists x, has_signal tr n x) -> has_signal tr n x ->
  wf z -> z <> [] -> Forall (fun a => finite (s_time a) = true /\ finite (s_value a) = true) z ->
  first_time (reals z) = first_time (reals x) -> final_time (reals z) = final_time (reals x) ->
  forall t w, pwl (reals z) t w -> inside lt (real_formula (join q [a; b])) t.
Proof.
  intros NA Hx Z1 Z2 Z3 Z4 Z5 t w H. apply pwl_pw in H as (D & _); [|apply reals_rincr; assumption|destruct z; [congruence|discriminate]]. rewrite Z4, Z5 in D.
  intros m Hm. rewrite real_join in Hm. assert (Hm' : exists y, has_signal tr m y).
  { apply NA. destruct q; cbn [node names map flat_map] in Hm; rewrite !names_real, app_nil_r in Hm; exact Hm. }
  destruct Hm' as (y & Hy). destruct (ends_agree x y) as (E1 & E2); [eapply has_finite; eauto|eapply has_finite; eauto|eapply TO; eauto|].
  rewrite <- E1, <- E2 in D. exists (pw (reals y) t). apply (values_of tr U m y Hy). destruct (has_good m y Hy) as (Wy & Ny).
  apply pwl_pw; [apply reals_rincr; [exact Wy|eapply has_finite; eauto]|destruct y; [congruence|discriminate]|auto].
Qed.

(** A temporal operator over a formula whose values [y] are within [E] of the exact ones. *)
Lemma temporal_near p e0 i y E : compute dbg fuel r0 e0 = Ok y -> wf y -> y <> [] -> Forall (fun a => finite (s_time a) = true /\ finite (s_value a) = true) y ->
  (forall t w, pwl (reals y) t w -> inside lt (real_formula e0) t) ->
  (forall t r, rob lt (real_formula e0) t r -> exists w, pwl (reals y) t w /\ Rabs (w - r) <= E) ->
  evaluable lt (real_formula e0) -> free_of is_temporal (real_formula e0) = true -> extreme_exact p (real_formula e0) = true -> made_interval i ->
  exists z, compute dbg fuel r0 (tmp p e0 i) = Ok z /\ z <> [] /\
    forall c, In c z -> exists r, rob lt (real_formula (tmp p e0 i)) (B2R (s_time c)) r /\ finite (s_value c) = true /\
      Rabs (B2R (s_value c) - r) <= E /\ (0 < r -> sat lt (real_formula (tmp p e0 i)) (B2R (s_time c))) /\
      (r < 0 -> ~ sat lt (real_formula (tmp p e0 i)) (B2R (s_time c))).
Proof.
  intros C W N F IN NEAR EV NT X0 M. destruct xtr_good as (t0 & GD). set (e := real_formula e0) in *.
  assert (FT : ftime y) by (eapply Forall_impl; [|exact F]; intros c (H & _); exact H).
  assert (Cz : compute dbg fuel r0 (tmp p e0 i) = minmax_seq (comp_of p) y).
  { destruct p; cbn [tmp compute]; rewrite C; cbn [bind]; [apply (temporal_seq fuel sample_le i y (conj W N) FT M)|apply (temporal_seq fuel sample_ge i y (conj W N) FT M)]. }
  pose proof (minmax_seq_roll (comp_of p) y W N) as HZ. set (z := sig_of (rollp (comp_of p) y)) in *. exists z. rewrite Cz. split; [exact HZ|].
  assert (TZ : times z = times y) by (unfold z; rewrite times_sig_of; apply rollp_times).
  split. { intros E9. rewrite E9 in TZ. destruct y; [congruence|discriminate]. }
  intros c Hc. assert (Hz := Hc). apply in_split in Hc as (z1 & z2 & Ez). destruct (split_times y z TZ z1 c z2 Ez) as (y1 & d & y2 & Ey & _ & Et & _).
  assert (Hd : In d y) by (rewrite Ey; apply in_or_app; right; left; reflexivity).
  destruct (seq_at p y z d W F HZ Hd) as (c' & Hc' & Tc' & (b0 & Hb0 & Lb0 & Vb0) & LE).
  assert (Wz : wf z) by (apply wf_canon; eexists; split; [apply rollp_wfp, W|reflexivity]).
  assert (c' = c). { apply (wf_unique z); auto. rewrite Tc', Et. assert (finite (s_time c) = true) by (rewrite <- Et; apply (proj1 (Forall_forall _ _) F d Hd)). pose proof (finite_num _ H). num. } subst c'.
  rewrite <- Et. set (t := B2R (s_time d)) in *. rewrite real_tmp. fold e.
  assert (XE : extreme_exact p (unbounded p e interval_default) = true).
  { destruct p; cbn [unbounded extreme_exact negb andb]; rewrite X0; apply orb_true_r. }
  assert (EU : evaluable lt (unbounded p e interval_default)).
  { destruct EV as (E1 & E2 & E3 & E4 & E5). split; [destruct p; exact E1|]. split; [destruct p; exact E2|]. split; [|split].
    - intros f Hf. assert (f = unbounded p e interval_default \/ In f (subs e)) as [->|K] by (destruct p; destruct Hf as [<-|Hf]; auto); [destruct p; left; reflexivity|apply E3, K].
    - intros f Hf. assert (f = unbounded p e interval_default \/ In f (subs e)) as [->|K] by (destruct p; destruct Hf as [<-|Hf]; auto); [destruct p; exact I|apply E4, K].
    - intros n Hn. apply E5. destruct p; exact Hn. }
  assert (SAMPLE : forall b, In b y -> pwl (reals y) (B2R (s_time b)) (B2R (s_value b))).
  { intros b' Hb'. left. exists (B2R (s_time b'), B2R (s_value b')). split; [apply (in_map (fun a => (B2R (s_time a), B2R (s_value a)))), Hb'|auto]. }
  assert (ID : inside lt e t) by (eapply IN, SAMPLE, Hd).
  destruct (good_total lt xtr t0 GD p (unbounded p e interval_default) t EU XE) as (r & Hr). { apply inside_unbounded, ID. }
  exists r. split; [exact Hr|]. split. { rewrite Vb0. apply (proj1 (Forall_forall _ _) F b0 Hb0). }
  split.
  - apply rob_unbounded in Hr as (_ & (t' & Ht' & Rt') & LL).
    destruct (NEAR t' r Rt') as (w & Pw & Ew). pose proof (pwl_least p y c d t' w W F Hd LE Ht' Pw) as K1.
    destruct (good_total lt xtr t0 GD p e (B2R (s_time b0)) EV X0) as (u & Hu). { eapply IN, SAMPLE, Hb0. }
    destruct (NEAR _ u Hu) as (w' & Pw' & Ew'). assert (w' = B2R (s_value b0)) by (eapply MinMaxProps.pwl_fun; [apply (reals_rincr y W F)|exact Pw'|apply SAMPLE, Hb0]). subst w'.
    pose proof (LL _ u Lb0 Hu) as K2. rewrite Vb0 in *. apply Rabs_le_inv in Ew, Ew'. apply Rabs_le. destruct p; cbn [sgp] in *; lra.
  - apply (rob_sign lt xtr t0 GD _ EU); [|exact Hr]. right. exists p. exact XE.
Qed.
End G.
