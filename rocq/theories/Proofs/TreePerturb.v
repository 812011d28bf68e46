(** C126: traces near the given one. *)
From Coq Require Import Reals Lra Lia.
From Flocq Require Import Core.Core IEEE754.BinarySingleNaN.
From Verif Require Import Base Num NumXR NumB64.
From Verif.Model Require Import Signal Ast Robustness.
From Verif.Proofs Require Import NumFacts B64Facts RobFacts RobExact QuantFacts LayerFacts UniformFacts PerturbFacts JoinFormula SpacedFormula ManyFormula TreeFormula TreePosition TreePositionExamples TreeTimes.
From Verif.Spec Require Import SignalSpec Pwl Formula Semantics Quantitative Accuracy Uniform Whole Apart Spaced Many General Tree Perturb.
Local Open Scope R_scope.

Section Near.
Variables (lt lt' : ptrace) (d : R).
Hypothesis VR : forall n t v v', value_at lt n t v -> value_at lt' n t v' -> Rabs (v - v') <= d.
Hypothesis VD : forall n t, (exists v, value_at lt n t v) <-> exists v', value_at lt' n t v'.

Lemma inside_iff e t : inside lt e t <-> inside lt' e t.
Proof. split; intros I n Hn; apply VD, I, Hn. Qed.

Lemma near_sat : forall e : expr B64, boolean e = true -> forall t r, rob lt (real_formula e) t r -> (d < r -> sat lt' (real_formula e) t) /\ (r < - d -> ~ sat lt' (real_formula e) t).
Proof.
  assert (LIST : forall l, Forall (fun e : expr B64 => boolean e = true -> forall t r, rob lt (real_formula e) t r -> (d < r -> sat lt' (real_formula e) t) /\ (r < - d -> ~ sat lt' (real_formula e) t)) l ->
    match l with a :: l => boolean a && forallb boolean l | [] => false end = true -> forall e, In e l -> forall t r, rob lt (real_formula e) t r -> (d < r -> sat lt' (real_formula e) t) /\ (r < - d -> ~ sat lt' (real_formula e) t)).
  { intros l F B e He. rewrite Forall_forall in F. apply (F e He). destruct l as [|a l]; [discriminate|]. apply andb_prop in B as [B1 B2]. destruct He as [<-|He]; [exact B1|]. rewrite forallb_forall in B2. auto. }
  induction e using expr_rec; intros B; try discriminate; intros t r R.
  - destruct R as (x & q & X & Ec & ->). cbn [real_formula sat] in *. split.
    + intros L. destruct (proj1 (VD n t) (ex_intro _ x X)) as (x' & X'). pose proof (VR _ _ _ _ X X') as K. apply Rabs_le_inv in K. exists x', q. split; [exact X'|]. split; [exact Ec|]. destruct o; cbn [real_cmp]; lra.
    + intros L (x' & q' & X' & Ec' & K'). pose proof (VR _ _ _ _ X X') as K. apply Rabs_le_inv in K. assert (q' = q) by congruence. subst q'. destruct o; cbn [real_cmp] in K'; lra.
  - cbn [real_formula rob sat] in *. destruct (IHe B t (- r) R) as (A1 & A2). split; intros L; [apply A2; lra|]. intros N. apply N, A1. lra.
  - pose proof (LIST l H B) as K. cbn [real_formula rob] in R. destruct R as (E & A). cbn [real_formula]. rewrite sat_and. rewrite Exists_exists in E. rewrite Forall_forall in A. split.
    + intros L f Hf. apply in_map_iff in Hf as (g & <- & Hg). destruct (A (rob lt (real_formula g))) as (w & W & Lw); [apply in_map, in_map, Hg|]. apply (K g Hg t w W). lra.
    + intros L S. destruct E as (Q & HQ & Qr). apply in_map_iff in HQ as (f & <- & Hf). apply in_map_iff in Hf as (g & <- & Hg). apply (proj2 (K g Hg t r Qr) L). apply S, in_map, Hg.
  - pose proof (LIST l H B) as K. cbn [real_formula rob] in R. destruct R as (E & A). cbn [real_formula]. rewrite sat_or. rewrite Exists_exists in E. rewrite Forall_forall in A. split.
    + intros L. destruct E as (Q & HQ & Qr). apply in_map_iff in HQ as (f & <- & Hf). apply in_map_iff in Hf as (g & <- & Hg). exists (real_formula g). split; [apply in_map, Hg|]. apply (proj1 (K g Hg t r Qr) L).
    + intros L (f & Hf & S). apply in_map_iff in Hf as (g & <- & Hg). destruct (A (rob lt (real_formula g))) as (w & W & Lw); [apply in_map, in_map, Hg|]. apply (proj2 (K g Hg t w W)); [lra|exact S].
Qed.

Lemma near_rob : forall e : expr B64, boolean e = true -> forall t r r', rob lt (real_formula e) t r -> rob lt' (real_formula e) t r' -> Rabs (r - r') <= d.
Proof.
  assert (LIST : forall l, Forall (fun e : expr B64 => boolean e = true -> forall t r r', rob lt (real_formula e) t r -> rob lt' (real_formula e) t r' -> Rabs (r - r') <= d) l ->
    match l with a :: l => boolean a && forallb boolean l | [] => false end = true -> forall e, In e l -> forall t r r', rob lt (real_formula e) t r -> rob lt' (real_formula e) t r' -> Rabs (r - r') <= d).
  { intros l F B e He. rewrite Forall_forall in F. apply (F e He). destruct l as [|a l]; [discriminate|]. apply andb_prop in B as [B1 B2]. destruct He as [<-|He]; [exact B1|]. rewrite forallb_forall in B2. auto. }
  assert (PICK : forall (m : ptrace) l t v, Exists (fun P => P t v) (map (rob m) (map real_formula l)) -> exists g, In g l /\ rob m (real_formula g) t v).
  { intros m l t v E. rewrite Exists_exists in E. destruct E as (Q & HQ & Qr). apply in_map_iff in HQ as (f & <- & Hf). apply in_map_iff in Hf as (g & <- & Hg). eauto. }
  induction e using expr_rec; intros B; try discriminate; intros t r r' R R'.
  - destruct R as (x & q & X & Ec & ->). destruct R' as (x' & q' & X' & Ec' & ->). assert (q' = q) by congruence. subst q'. pose proof (VR _ _ _ _ X X') as K. apply Rabs_le_inv in K. apply Rabs_le. destruct o; lra.
  - cbn [real_formula rob] in *. pose proof (IHe B t _ _ R R') as K. apply Rabs_le_inv in K. apply Rabs_le. lra.
  - pose proof (LIST l H B) as K. cbn [real_formula rob] in R, R'. destruct R as (E & A). destruct R' as (E' & A'). rewrite Forall_forall in A, A'.
    destruct (PICK lt l t r E) as (g & Hg & Wg). destruct (PICK lt' l t r' E') as (h & Hh & Wh).
    destruct (A (rob lt (real_formula h))) as (w & W & Lw); [apply in_map, in_map, Hh|]. destruct (A' (rob lt' (real_formula g))) as (w' & W' & Lw'); [apply in_map, in_map, Hg|].
    pose proof (K h Hh t _ _ W Wh) as K1. pose proof (K g Hg t _ _ Wg W') as K2. apply Rabs_le_inv in K1, K2. apply Rabs_le. lra.
  - pose proof (LIST l H B) as K. cbn [real_formula rob] in R, R'. destruct R as (E & A). destruct R' as (E' & A'). rewrite Forall_forall in A, A'.
    destruct (PICK lt l t r E) as (g & Hg & Wg). destruct (PICK lt' l t r' E') as (h & Hh & Wh).
    destruct (A (rob lt (real_formula h))) as (w & W & Lw); [apply in_map, in_map, Hh|]. destruct (A' (rob lt' (real_formula g))) as (w' & W' & Lw'); [apply in_map, in_map, Hg|].
    pose proof (K h Hh t _ _ W Wh) as K1. pose proof (K g Hg t _ _ Wg W') as K2. apply Rabs_le_inv in K1, K2. apply Rabs_le. lra.
Qed.
End Near.

(** A trace with the names of the given one. *)
Lemma close_values (tr : trace B64) lt' d : keys_unique tr -> Perturb.close d (real_trace tr) lt' ->
  (forall n t v v', value_at (real_trace tr) n t v -> value_at lt' n t v' -> Rabs (v - v') <= d) /\ (forall n t, (exists v, value_at (real_trace tr) n t v) <-> exists v', value_at lt' n t v').
Proof.
  intros U C. split.
  - intros n t v v' (l & Hl & Hv) (l' & Hl' & Hv'). destruct (F2_r _ _ _ _ C Hl') as ([m l2] & H2 & E & D & K). cbn [fst snd] in *. subst m. apply in_map_iff in Hl as ((n1 & x1) & E1 & H1). apply in_map_iff in H2 as ((n2 & x2) & E2 & H2).
    cbn [fst snd] in E1, E2. apply pair_equal_spec in E1 as (-> & <-). apply pair_equal_spec in E2 as (-> & <-). rewrite (sig_unique tr U n x1 x2 H1 H2) in *. eapply K; eauto.
  - intros n t. split; intros (v & l & Hl & Hv).
    + destruct (F2_l _ _ _ _ C Hl) as ([m l'] & H2 & E & D & _). cbn [fst snd] in *. subst m. destruct (proj1 (D t) (ex_intro _ v Hv)) as (v' & Hv'). exists v', l'. auto.
    + destruct (F2_r _ _ _ _ C Hl) as ([m l'] & H2 & E & D & _). cbn [fst snd] in *. subst m. destruct (proj2 (D t) (ex_intro _ v Hv)) as (v' & Hv'). exists v', l'. auto.
Qed.

Section Runs.
Variables (dbg : bool) (fuel : nat) (tr : trace B64) (s : bool) (phi : expr B64) (V S H d : R).
Hypothesis ST : spread_trace V S H tr.
Hypothesis SB : same_begin tr.
Hypothesis TA : times_apart tr.
Hypothesis MO : moderate V S H.
Hypothesis B : boolean phi = true.
Hypothesis IT : in_trace V tr phi.
Hypothesis EV : error_of (length (names phi)) V S H <= V.
Hypothesis GP : general_formulas (8 * error_of (length (names phi)) V S H) tr (signed_predicates false phi).

Lemma rob_total t : inside (real_trace tr) (real_formula phi) t -> exists r, rob (real_trace tr) (real_formula phi) t r.
Proof.
  intros I. destruct ST as (U & G & WH). pose proof (boolean_evaluable tr V phi B IT) as EE. destruct (boolean_plain phi B) as (NT & _).
  destruct (xtr_good tr U (G3s tr V S H G WH) (begins tr V S H G WH SB)) as (t0 & GD).
  apply (good_total _ _ t0 GD true (real_formula phi) t EE); [|exact I]. destruct (real_formula phi); cbn [extreme_exact]; rewrite NT; reflexivity.
Qed.
Lemma C126_boolean_lemma lt' : Perturb.close d (real_trace tr) lt' ->
  exists z, compute_robustness dbg fuel phi tr s = Ok z /\
    forall t, inside (real_trace tr) (real_formula phi) t -> exists v, pwl (reals z) t v /\
      (8 * error_of (length (names phi)) V S H + d < v -> sat lt' (real_formula phi) t) /\
      (v < - (8 * error_of (length (names phi)) V S H + d) -> ~ sat lt' (real_formula phi) t).
Proof.
  intros C. destruct (close_values tr lt' d (proj1 ST) C) as (VR & VD). destruct (C124_boolean_lemma dbg fuel tr s phi V S H ST SB TA MO B IT EV GP) as (z & Hz & K). exists z. split; [exact Hz|].
  intros t I. destruct (rob_total t I) as (r & Hr). destruct (K t r Hr) as (v & Pv & Dv). exists v. split; [exact Pv|]. apply Rabs_le_inv in Dv.
  destruct (near_sat (real_trace tr) lt' d VR VD phi B t r Hr) as (A1 & A2). split; intros L; [apply A1|apply A2]; lra.
Qed.
Lemma C126_temporal_lemma lt' outer i : outer = EAlways \/ outer = EEventually -> made_interval i -> Perturb.close d (real_trace tr) lt' ->
  exists z, compute_robustness dbg fuel (outer phi i) tr s = Ok z /\ z <> [] /\
    forall c, In c z -> finite (s_value c) = true /\
      (8 * error_of (length (names phi)) V S H + d < B2R (s_value c) -> sat lt' (real_formula (outer phi i)) (B2R (s_time c))) /\
      (B2R (s_value c) < - (8 * error_of (length (names phi)) V S H + d) -> ~ sat lt' (real_formula (outer phi i)) (B2R (s_time c))).
Proof.
  intros Ho MI C. destruct (close_values tr lt' d (proj1 ST) C) as (VR & VD). destruct (C124_temporal_lemma dbg fuel tr s outer phi i V S H ST SB TA MO Ho B IT EV GP MI) as (z & Hz & Nz & K).
  exists z. split; [exact Hz|]. split; [exact Nz|]. intros c Hc. destruct (K c Hc) as (r & Hr & Fc & Dc & _). split; [exact Fc|]. apply Rabs_le_inv in Dc. set (tc := B2R (s_time c)) in *. clearbody tc.
  pose proof (near_sat (real_trace tr) lt' d VR VD phi B) as NS. pose proof (inside_iff (real_trace tr) lt' VD (real_formula phi)) as II.
  destruct Ho as [-> | ->]; cbn [real_formula rob sat] in *; destruct Hr as (_ & (t' & Lt' & Rt') & ALL); split; intros L.
  - intros t1 L1 I1. destruct (rob_total t1) as (w & Hw); [apply II, I1|]. apply (NS t1 w Hw). pose proof (ALL t1 w L1 Hw). lra.
  - intros Q. apply (proj2 (NS t' r Rt')); [lra|]. apply Q; [exact Lt'|]. apply II. eapply rob_inside; eauto.
  - exists t'. split; [exact Lt'|]. split; [apply II; eapply rob_inside; eauto|]. apply (NS t' r Rt'). lra.
  - intros (t1 & L1 & I1 & Q). destruct (rob_total t1) as (w & Hw); [apply II, I1|]. apply (proj2 (NS t1 w Hw)); [|exact Q]. pose proof (ALL t1 w L1 Hw). lra.
Qed.
End Runs.

(** Two traces of doubles. *)
Lemma C126_results_lemma dbg fuel (tr tr' : trace B64) s phi V S H d :
  spread_trace V S H tr -> same_begin tr -> times_apart tr -> spread_trace V S H tr' -> same_begin tr' -> times_apart tr' -> moderate V S H -> boolean phi = true -> in_trace V tr phi ->
  error_of (length (names phi)) V S H <= V -> general_formulas (8 * error_of (length (names phi)) V S H) tr (signed_predicates false phi) ->
  general_formulas (8 * error_of (length (names phi)) V S H) tr' (signed_predicates false phi) -> Perturb.close d (real_trace tr) (real_trace tr') ->
  exists z z', compute_robustness dbg fuel phi tr s = Ok z /\ compute_robustness dbg fuel phi tr' s = Ok z' /\
    forall t, inside (real_trace tr) (real_formula phi) t -> exists v v', pwl (reals z) t v /\ pwl (reals z') t v' /\ Rabs (v - v') <= 16 * error_of (length (names phi)) V S H + d.
Proof.
  intros ST SB TA ST' SB' TA' MO B IT EV GP GP' C. destruct (close_values tr _ d (proj1 ST) C) as (VR & VD).
  assert (IT' : in_trace V tr' phi).
  { split; [apply IT|]. intros n Hn. destruct (proj2 IT n Hn) as (x & Hx). assert (K : In (n, reals x) (real_trace tr)) by (apply in_map_iff; exists (n, x); auto).
    destruct (F2_l _ _ _ _ C K) as ([m l'] & H2 & E & _). cbn [fst] in E. subst m. apply in_map_iff in H2 as ((n2 & x2) & E2 & H2). apply pair_equal_spec in E2 as (E2 & _). cbn [fst] in E2. subst n2. eauto. }
  destruct (C124_boolean_lemma dbg fuel tr s phi V S H ST SB TA MO B IT EV GP) as (z & Hz & K). destruct (C124_boolean_lemma dbg fuel tr' s phi V S H ST' SB' TA' MO B IT' EV GP') as (z' & Hz' & K').
  exists z, z'. split; [exact Hz|]. split; [exact Hz'|]. intros t I.
  destruct (rob_total tr phi V S H ST SB B IT t I) as (r & Hr). destruct (rob_total tr' phi V S H ST' SB' B IT' t) as (r' & Hr'); [apply (inside_iff _ _ VD), I|].
  destruct (K t r Hr) as (v & Pv & Dv). destruct (K' t r' Hr') as (v' & Pv' & Dv'). exists v, v'. split; [exact Pv|]. split; [exact Pv'|].
  pose proof (near_rob _ _ d VR phi B t r r' Hr Hr') as N. apply Rabs_le_inv in Dv, Dv', N. apply Rabs_le. lra.
Qed.
