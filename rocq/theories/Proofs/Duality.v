(** C31: negation turns maxima into minima (exact arithmetic). *)
From Coq Require Import Sorted Reals Lra.
From Flocq Require Import Core.Raux.
From Verif Require Import Base Num NumXR.
From Verif.Model Require Import Signal MonoWedge MinMax Ast Robustness.
From Verif.Spec Require Import SignalSpec Formula.
From Verif.Proofs Require Import NumFacts SignalFacts LowerBound Reshape Sync SyncProps SyncCases MinMaxFacts SeqFacts MinMaxCases PwlFacts RobFacts RobWf Transport RobTransport.
Local Open Scope nat_scope.

Notation NG := (tr_sample (fun t : XR => t) xopp xopp).
Lemma neg_is : forall s : sample XR, sample_neg s = NG s.
Proof. reflexivity. Qed.

Lemma neg_slope (a b v w : XR) : xdiv (xsub (xopp w) (xopp v)) (xsub b a) = xopp (xdiv (xsub w v) (xsub b a)).
Proof. rewrite opp_sub, opp_div. reflexivity. Qed.
Lemma neg_interp s t : interpolate (NG s) t = xopp (interpolate s t).
Proof. unfold interpolate, tr_sample. cbn [s_time s_value s_deriv]. change nmul with xmul. change nadd with xadd. rewrite opp_mul, opp_add. reflexivity. Qed.
Lemma opp_zero : xopp (Fin 0) = Fin 0.
Proof. cbn. rewrite Ropp_0. reflexivity. Qed.
Lemma neg_le a b : sample_le (NG a) (NG b) = sample_ge a b.
Proof. unfold sample_le, sample_ge, sample_gt, sample_lt. cbn [s_value tr_sample]. change nltb with xlt. rewrite opp_lt. reflexivity. Qed.
Lemma neg_ge a b : sample_ge (NG a) (NG b) = sample_le a b.
Proof. unfold sample_le, sample_ge, sample_gt, sample_lt. cbn [s_value tr_sample]. change nltb with xlt. rewrite opp_lt. reflexivity. Qed.

Lemma neg_from l : from_samples (map NG l) = omap (map NG) (from_samples l).
Proof. apply T_from; auto using opp_zero, neg_slope. Qed.
Lemma rob_not_good y : good y -> rob_not y = Ok (map NG y).
Proof.
  intros [W _]. unfold rob_not. rewrite (map_ext _ _ neg_is), neg_from. apply wf_canon in W as (pts & P & ->).
  rewrite from_samples_canon, points_sig_of, (wfp_steps _ P). reflexivity.
Qed.

Lemma neg_temporal fuel comp comp' i y : (forall a b, comp' (NG a) (NG b) = comp a b) -> good y ->
  rob_temporal fuel comp' i (map NG y) = omap (map NG) (rob_temporal fuel comp i y).
Proof. intros Hc G. apply T_temporal; auto using opp_zero, neg_slope, neg_interp. Qed.

Lemma good_neg_ok dbg fuel (tr : trace XR) phi z : Forall (fun e => good (snd e)) tr ->
  compute dbg fuel (mkRob (trace_begin tr) (trace_end tr) tr) phi = Ok z -> good z.
Proof. intros G. apply (good_compute xr_win xr_hv dbg fuel tr phi G). Qed.

Lemma C31_temporal_lemma dbg fuel phi i (tr : trace XR) s : Forall (fun e => wf (snd e) /\ snd e <> []) tr ->
  compute_robustness dbg fuel (ENot (EEventually phi i)) tr s = compute_robustness dbg fuel (EAlways (ENot phi) i) tr s /\
  compute_robustness dbg fuel (ENot (EAlways phi i)) tr s = compute_robustness dbg fuel (EEventually (ENot phi) i) tr s.
Proof.
  intros G. unfold compute_robustness. set (r := mkRob _ _ _).
  assert (GC : forall e z, compute dbg fuel r e = Ok z -> good z) by (intros e z; apply good_neg_ok, G).
  assert (K : forall comp comp', (forall a b, comp' (NG a) (NG b) = comp a b) ->
     (forall z, (y <- compute dbg fuel r phi ;; rob_temporal fuel comp i y) = Ok z -> good z) ->
     (x <- (y <- compute dbg fuel r phi ;; rob_temporal fuel comp i y) ;; rob_not x) =
     (y <- (x <- compute dbg fuel r phi ;; rob_not x) ;; rob_temporal fuel comp' i y)).
  { intros comp comp' Hc Hg. destruct (compute dbg fuel r phi) as [y| | | |] eqn:E; try reflexivity. cbn [bind] in *.
    rewrite (rob_not_good y) by eauto. cbn [bind]. rewrite (neg_temporal fuel comp comp' i y Hc) by eauto.
    destruct (rob_temporal fuel comp i y) as [z| | | |]; try reflexivity. cbn [bind omap]. apply rob_not_good, Hg. reflexivity. }
  split; cbn [compute]; apply K.
  - apply neg_le.
  - apply (GC (EEventually phi i)).
  - apply neg_ge.
  - apply (GC (EAlways phi i)).
Qed.

(** ** And/Or *)
Definition fin (t : XR) : Prop := exists r, t = Fin r.
Definition ft (s : signal XR) : Prop := Forall fin (times s).

Lemma fin_between a b t : fin a -> fin b -> nltb a t = true -> nltb t b = true -> fin t.
Proof. intros (x & ->) (y & ->) H1 H2. destruct t; try discriminate. eexists; reflexivity. Qed.
Lemma fin_eqb a b : fin a -> neqb a b = true -> a = b.
Proof.
  intros (x & ->) H. change (xeq (Fin x) b = true) in H. destruct b as [| |y|]; try discriminate. rewrite fin_eq in H.
  revert H. case Req_bool_spec; [intros -> _; reflexivity|discriminate].
Qed.

Lemma sync_ft (x y x' y' : signal XR) : wf x -> wf y -> ft x -> ft y -> synchronize x y = Ok (x', y') -> ft x' /\ times y' = times x'.
Proof.
  intros Wx Wy Fx Fy H. assert (K : ft x').
  { apply Forall_forall. intros t Ht. apply in_map_iff in Ht as (a & <- & Ha).
    destruct (sync_sound _ _ _ _ _ Wx Wy H Ha) as ((c & Hc & E) & _). unfold ft in *. rewrite Forall_forall in *.
    assert (Fc : fin (s_time c)) by (destruct Hc; [apply Fx|apply Fy]; apply in_map; assumption). apply fin_eqb in E; [|exact Fc]. rewrite <- E. exact Fc. }
  split; [exact K|]. destruct (sync_out _ _ _ _ Wx Wy H) as (_ & _ & _ & _ & M). clear -M K. induction M as [|a b l l' E M IH]; [reflexivity|].
  inversion K as [|? ? K1 K2]; subst. cbn [times map]. f_equal; [symmetry; apply fin_eqb; assumption|]. apply IH, K2.
Qed.

(** Slopes of consecutive samples that are equal and finite: no switch between them. *)
Definition linked (a i : sample XR) : Prop := s_deriv a = xdiv (xsub (s_value i) (s_value a)) (xsub (s_time i) (s_time a)).
Lemma xsub_fin a b r : xsub a b = Fin r -> exists x y, a = Fin x /\ b = Fin y /\ r = (x - y)%R.
Proof. destruct a, b; cbn; intros H; try discriminate. injection H as <-. eexists _, _. split; [reflexivity|]. split; reflexivity. Qed.
Lemma link_fin a i m : linked a i -> fin (s_time a) -> fin (s_time i) -> nltb (s_time a) (s_time i) = true -> s_deriv a = Fin m ->
  exists u v, s_value a = Fin u /\ s_value i = Fin v /\ forall t0 t1, s_time a = Fin t0 -> s_time i = Fin t1 -> (v - u = m * (t1 - t0))%R.
Proof.
  intros L (t0 & E0) (t1 & E1) LT D. unfold linked in L. rewrite D, E0, E1 in L. rewrite fin_sub in L.
  assert (P : (t0 < t1)%R).
  { rewrite E0, E1 in LT. change (Rlt_bool t0 t1 = true) in LT. revert LT. case Rlt_bool_spec; [auto|discriminate]. }
  destruct (xsub (s_value i) (s_value a)) as [| |d|] eqn:Ed; cbn in L; try discriminate; try (destruct (Rlt_bool _ _); discriminate).
  rewrite Req_bool_false in L by lra. injection L as ->. apply xsub_fin in Ed as (v & u & -> & -> & ->).
  exists u, v. split; [reflexivity|]. split; [reflexivity|]. intros t0' t1' Q0 Q1. rewrite E0 in Q0. rewrite E1 in Q1. injection Q0 as <-. injection Q1 as <-. field. lra.
Qed.

Definition lincomp (comp : sample XR -> sample XR -> bool) : Prop :=
  forall a b u v, s_value a = Fin u -> s_value b = Fin v -> forall c d u' v', s_value c = Fin u' -> s_value d = Fin v' -> (u - v = u' - v')%R -> comp a b = comp c d.
Lemma lincomp_le : lincomp sample_le.
Proof.
  intros a b u v E1 E2 c d u' v' E3 E4 Q. unfold sample_le, sample_gt, sample_lt. rewrite E1, E2, E3, E4. change (negb (Rlt_bool v u) = negb (Rlt_bool v' u')).
  f_equal. case Rlt_bool_spec; case Rlt_bool_spec; intros; auto; lra.
Qed.
Lemma lincomp_ge : lincomp sample_ge.
Proof.
  intros a b u v E1 E2 c d u' v' E3 E4 Q. unfold sample_ge, sample_lt. rewrite E1, E2, E3, E4. change (negb (Rlt_bool u v) = negb (Rlt_bool u' v')).
  f_equal. case Rlt_bool_spec; case Rlt_bool_spec; intros; auto; lra.
Qed.

Lemma neg_tint a b : xsub (s_deriv b) (s_deriv a) <> Fin 0 -> tint_eq (fun t => t) xopp xopp a b.
Proof.
  intros H. unfold tint_eq, time_intersect, tr_sample. cbn [s_time s_value s_deriv]. change ndiv with xdiv. change nsub with xsub. change nadd with xadd. change nmul with xmul.
  rewrite !opp_sub, !opp_mul, !opp_add, !opp_sub. apply opp_ratio, H.
Qed.

Lemma wfp_cons p q pts : wfp (p :: q :: pts) -> nltb (fst p) (fst q) = true /\ wfp (q :: pts) (F := XR).
Proof.
  intros [N I]. cbn [map] in *. inversion N; subst. inversion I as [|? ? I1 I2]; subst. inversion I2; subst. split; [assumption|]. split; assumption.
Qed.

Lemma switch_tint comp a b i j : lincomp comp -> linked a i -> linked b j -> fin (s_time a) -> fin (s_time i) -> nltb (s_time a) (s_time i) = true ->
  s_time b = s_time a -> s_time j = s_time i -> comp a b <> comp i j -> xsub (s_deriv b) (s_deriv a) <> Fin 0.
Proof.
  intros LC La Lb Fa Fi LT E1 E2 SW D. apply xsub_fin in D as (mb & ma & Db & Da & Q).
  destruct (link_fin a i ma La Fa Fi LT Da) as (u & v & Ua & Vi & Ka).
  destruct (link_fin b j mb Lb) as (u' & v' & Ub & Vj & Kb); auto; try (rewrite E1; assumption); try (rewrite E2; assumption); try (rewrite E1, E2; assumption).
  apply SW. destruct Fa as (t0 & E0). destruct Fi as (t1 & E3). specialize (Ka t0 t1 E0 E3). specialize (Kb t0 t1 ltac:(congruence) ltac:(congruence)).
  apply (LC a b u u' Ua Ub i j v v' Vi Vj). assert (ma = mb) by lra. subst. lra.
Qed.
Lemma xsub_zero_sym a b : xsub a b = Fin 0 -> xsub b a = Fin 0.
Proof. intros H. apply xsub_fin in H as (x & y & -> & -> & Q). cbn. f_equal. lra. Qed.

Lemma neg_tint_ok comp : lincomp comp -> forall px py p q, wfp (p :: px) -> wfp (q :: py) -> map fst (q :: py) = map fst (p :: px) ->
  Forall fin (map fst (p :: px)) ->
  forall last, let a := hd (mkSample NaN NaN NaN) (sig_of (p :: px)) in let b := hd (mkSample NaN NaN NaN) (sig_of (q :: py)) in
  last = (if comp a b then ChX else ChY) -> tint_ok (fun t => t) xopp xopp comp (Some a) (Some b) (sig_of px) (sig_of py) last.
Proof.
  intros LC. induction px as [|p' px IH]; intros py p q Wx Wy ET FT last a b EL; [exact I|].
  destruct py as [|q' py]; [exact I|]. subst a b. cbn [sig_of hd] in *.
  apply wfp_cons in Wx as [LT Wx']. apply wfp_cons in Wy as [_ Wy']. cbn [map] in ET, FT. injection ET as E1 E2 E3.
  inversion FT as [|? ? F1 FT']; subst. inversion FT' as [|? ? F2 FT'']; subst.
  cbn [tint_ok].
  set (a := mkSample (fst p) (snd p) (slope p p')). set (b := mkSample (fst q) (snd q) (slope q q')) in *.
  set (i := mkSample (fst p') (snd p') _). set (j := mkSample (fst q') (snd q') _).
  assert (SW : comp a b <> comp i j -> xsub (s_deriv b) (s_deriv a) <> Fin 0).
  { apply (switch_tint comp a b i j LC); auto; reflexivity. }
  split.
  - destruct (comp i j) eqn:C, (comp a b) eqn:C'; intros Q; try discriminate.
    + apply neg_tint. intros Z. apply xsub_zero_sym in Z. revert Z. apply SW. congruence.
    + apply neg_tint. apply SW. congruence.
  - apply (IH py p' q'); auto; cbn [map]; congruence.
Qed.

Lemma neg_sync_tint comp x y : lincomp comp -> wf x -> wf y -> ft x -> ft y -> sync_tint (fun t => t) xopp xopp comp x y.
Proof.
  intros LC Wx Wy Fx Fy x' y' H. destruct (sync_ft _ _ _ _ Wx Wy Fx Fy H) as [F1 F2].
  destruct (sync_out _ _ _ _ Wx Wy H) as (W1 & W2 & N1 & N2 & _). apply wf_canon in W1 as (px & P1 & ->). apply wf_canon in W2 as (py & P2 & ->).
  unfold ft in F1. rewrite times_sig_of in *. rewrite times_sig_of in F2. destruct px as [|p px]; [exfalso; apply N1; reflexivity|]. destruct py as [|q py]; [exfalso; apply N2; reflexivity|]. cbn [sig_of tint_ok].
  split.
  - destruct (comp _ _); discriminate.
  - apply (neg_tint_ok comp LC px py p q); auto.
Qed.

(** ** Finite times are kept *)
Lemma pair_loop_ft comp : forall xs ys pi pj last pts z, wfp pts -> Forall fin (map fst pts) -> (last <> ChNone -> pts <> []) ->
  ft xs -> ft ys -> pair_loop comp pi pj xs ys last (sig_of pts) = Ok z -> ft z.
Proof.
  induction xs as [|i xs IH]; intros [|j ys] pi pj last pts z W Fp Hl Fx Fy H; cbn [pair_loop] in H; try (injection H as <-; unfold ft; rewrite times_sig_of; exact Fp).
  inversion Fx as [|? ? F1 Fx']; subst. inversion Fy as [|? ? F2 Fy']; subst.
  assert (K : forall sw pw pl w o, fin (s_time w) -> (sw = true -> pts <> []) -> pair_step (sig_of pts) sw pw pl w = Ok o ->
    exists pts', o = sig_of pts' /\ pts' <> [] /\ wfp pts' /\ Forall fin (map fst pts')).
  { intros sw pw pl w o Fw Hsw Hs. assert (Nw : isnum (s_time w) = true) by (destruct Fw as (? & ->); apply fin_num).
    assert (Add : push_back (sig_of pts) w = Ok o -> exists pts', o = sig_of pts' /\ pts' <> [] /\ wfp pts' /\ Forall fin (map fst pts')).
    { intros Q. apply push_back_inv in Q as [-> W']; auto. exists (pts ++ [pt w]). split; [reflexivity|]. split; [destruct pts; discriminate|]. split; [exact W'|].
      rewrite map_app. apply Forall_app. split; [exact Fp|]. repeat constructor. exact Fw. }
    unfold pair_step in Hs. apply bind_ok_inv in Hs as (o1 & H1 & H2). destruct sw; [|injection H1 as <-; apply Add, H2].
    destruct pl as [a|]; [|discriminate]. destruct pw as [b|]; [|discriminate].
    destruct (nltb (end_time (sig_of pts)) (time_intersect a b)) eqn:L; cbn [andb] in H1; [|injection H1 as <-; apply Add, H2].
    destruct (negb _); [|injection H1 as <-; apply Add, H2].
    apply push_back_inv in H1 as [-> W1]; auto; [|apply nltb_true in L; apply L]. apply push_back_inv in H2 as [-> W2]; auto. rewrite <- app_assoc in *.
    eexists. split; [reflexivity|]. split; [destruct pts; discriminate|]. split; [exact W2|]. rewrite map_app. apply Forall_app. split; [exact Fp|]. cbn [app map].
    constructor; [|repeat constructor; exact Fw]. cbn [pt fst s_time]. apply (fin_between (end_time (sig_of pts)) (s_time w)); auto.
    - unfold end_time. rewrite last_opt_sig_of. destruct (last_opt pts) as [p|] eqn:E; [|apply last_opt_none in E; exfalso; apply Hsw; auto]. cbn [option_map s_time].
      rewrite Forall_forall in Fp. apply Fp, in_map, last_opt_In, E.
    - destruct W2 as [_ I2]. rewrite map_app in I2. cbn [app map] in I2. clear -I2. induction (map fst pts) as [|c l IH]; cbn [app] in I2.
      + inversion I2 as [|? ? _ Q]; subst. inversion Q; assumption.
      + inversion I2; subst. auto. }
  destruct (comp i j); apply bind_ok_inv in H as (o & H1 & H2).
  - apply K in H1 as (pts' & -> & N' & W' & F'); [|exact F1|intros Q; apply Hl; destruct last; discriminate].
    eapply IH; [exact W'|exact F'| | | |exact H2]; auto.
  - apply K in H1 as (pts' & -> & N' & W' & F'); [|exact F2|intros Q; apply Hl; destruct last; discriminate].
    eapply IH; [exact W'|exact F'| | | |exact H2]; auto.
Qed.

Definition inv31 (x : signal XR) : Prop := good x /\ ft x.
Lemma inv31_pair dbg comp x y z : inv31 x -> inv31 y -> minmax_pair dbg comp false x y = Ok z -> inv31 z.
Proof.
  intros [Gx Fx] [Gy Fy] H. split; [apply (good_pair dbg comp x y z Gx Gy H)|]. apply minmax_pair_inv in H as (x' & y' & S & H).
  destruct (sync_ft _ _ _ _ (proj1 Gx) (proj1 Gy) Fx Fy S) as [F1 F2].
  eapply (pair_loop_ft comp x' y' None None ChNone [] z); eauto; try constructor; try congruence; try constructor. unfold ft. rewrite F2. exact F1.
Qed.
Lemma neg_list dbg comp comp' xs : (forall a b, comp' (NG a) (NG b) = comp a b) -> lincomp comp -> xs <> [] -> Forall inv31 xs ->
  minmax_list dbg comp' false (map (map NG) xs) = omap (map NG) (minmax_list dbg comp false xs).
Proof.
  intros Hc LC N G. apply (T_list (NF := Num_XR) (fun t => t) xopp xopp) with (Inv := inv31); auto using opp_zero, neg_slope, neg_interp.
  - intros x Hx. apply Hx.
  - intros x y [[Wx _] Fx] [[Wy _] Fy]. apply neg_sync_tint; assumption.
  - intros d x y z. apply inv31_pair.
Qed.

Lemma ft_list dbg comp xs z : xs <> [] -> Forall inv31 xs -> minmax_list dbg comp false xs = Ok z -> inv31 z.
Proof.
  intros N C H. destruct xs as [|x [|y xs]]; cbn [minmax_list] in H; [congruence|injection H as <-; inversion C; assumption|].
  inversion C as [|? ? G1 C']; subst.
  assert (K : forall l acc z, Forall inv31 l -> inv31 acc -> minmax_fold dbg comp false acc l = Ok z -> inv31 z).
  { clear. induction l as [|u l IH]; intros acc z C A H; cbn [minmax_fold] in H; [injection H as <-; exact A|].
    inversion C as [|? ? C1 C2]; subst. apply bind_ok_inv in H as (acc' & H1 & H2). eapply IH; [eassumption| |exact H2]. apply (inv31_pair dbg comp acc u); assumption. }
  destruct xs as [|w xs]; [inversion C'; subst; eapply (inv31_pair dbg comp x y); eauto|]. eapply K; [exact C'|exact G1|exact H].
Qed.

Lemma std_min_fin a b : fin a -> fin b -> fin (std_min a b).
Proof. intros. unfold std_min. destruct (nltb _ _); assumption. Qed.
Lemma std_max_fin a b : fin a -> fin b -> fin (std_max a b).
Proof. intros. unfold std_max. destruct (nltb _ _); assumption. Qed.
Lemma ft_ends (s : signal XR) : s <> [] -> ft s -> fin (begin_time s) /\ fin (end_time s).
Proof.
  intros N H. unfold ft in H. rewrite Forall_forall in H. split.
  - destruct s; [congruence|]. apply H. left. reflexivity.
  - unfold end_time. destruct (last_opt s) eqn:E; [|apply last_opt_none in E; congruence]. apply H, in_map, last_opt_In, E.
Qed.
Lemma trace_fin (tr : trace XR) : tr <> [] -> Forall (fun e => inv31 (snd e)) tr -> fin (trace_begin tr) /\ fin (trace_end tr).
Proof.
  intros N G. assert (K : forall l u v, Forall (fun e : string * signal XR => inv31 (snd e)) l -> fin u -> fin v ->
    fin (fold_left (fun b e => std_min b (begin_time (snd e))) l u) /\ fin (fold_left (fun b e => std_max b (end_time (snd e))) l v)).
  { induction l as [|e l IH]; intros u v C A B; cbn [fold_left]; [auto|]. inversion C as [|? ? [[_ Ne] Fe] C']; subst. destruct (ft_ends _ Ne Fe).
    apply IH; auto using std_min_fin, std_max_fin. }
  destruct tr as [|e tr]; [congruence|]. inversion G as [|? ? [[_ Ne] Fe] G']; subst. destruct (ft_ends _ Ne Fe) as [A B].
  unfold trace_begin, trace_end. cbn [fold_left]. apply K; auto.
  - destruct A as (x & ->). exists x. reflexivity.
  - destruct B as (x & ->). exists x. reflexivity.
Qed.

Lemma ft_seq comp x z : good x -> ft x -> minmax_seq comp x = Ok z -> ft z.
Proof. intros [W N] F H. rewrite minmax_seq_roll in H by assumption. injection H as <-. unfold ft. rewrite times_sig_of, rollp_times. exact F. Qed.

Lemma times_from l s : from_samples l = Ok s -> times s = times l.
Proof. rewrite from_samples_canon. destruct (steps_ok _); [|discriminate]. intros [= <-]. rewrite times_sig_of. apply map_map. Qed.

Lemma Forall2_outs {A B} (f : A -> outcome B) (P : B -> Prop) l ys : Forall2 (fun e y => f e = Ok y) l ys ->
  (forall e z, In e l -> f e = Ok z -> P z) -> Forall P ys.
Proof. induction 1; intros H'; constructor; eauto using in_eq, in_cons. Qed.

Lemma ft_compute dbg fuel (tr : trace XR) phi : Forall (fun e => inv31 (snd e)) tr ->
  forall z, compute dbg fuel (mkRob (trace_begin tr) (trace_end tr) tr) phi = Ok z -> inv31 z.
Proof.
  intros G z H. assert (GG : Forall (fun e => good (snd e)) tr) by (eapply Forall_impl; [|exact G]; intros e He; apply He).
  set (r := mkRob (trace_begin tr) (trace_end tr) tr) in *.
  assert (GC : forall e z, compute dbg fuel r e = Ok z -> good z) by (intros e z'; apply good_neg_ok, GG).
  split; [eapply GC; eauto|]. revert z H. induction phi using expr_rec; intros z H0; cbn [compute] in H0.
  - destruct tr as [|e tr]; [cbn in H0; discriminate|]. unfold ft. rewrite (times_from _ _ H0). cbn [times map s_time min_time max_time r].
    destruct (trace_fin (e :: tr) ltac:(discriminate) G) as [A B]. repeat constructor; assumption.
  - unfold rob_pred in H0. cbn [r_trace r] in H0. destruct (trace_find tr n) as [x|] eqn:E; [|discriminate]. rewrite pred_loop_push in H0.
    apply trace_find_In in E. rewrite Forall_forall in G. apply G in E. unfold ft. rewrite (times_from _ _ H0). unfold times. rewrite map_map. apply E.
  - apply bind_ok_inv in H0 as (x & H1 & H0). apply IHphi in H1; auto. unfold ft, rob_not in *. rewrite (times_from _ _ H0). unfold times. rewrite map_map. exact H1.
  - apply bind_ok_inv in H0 as (ys & H1 & H0). apply compute_list_inv in H1.
    destruct ys as [|y0 ys]; [cbn in H0; injection H0 as <-; constructor; [eexists; reflexivity|constructor]|].
    apply (ft_list dbg sample_le (y0 :: ys) z); auto.
    + discriminate.
    + rewrite Forall_forall in H. eapply Forall2_outs; [exact H1|]. intros e y He Hy. split; [eapply GC; eauto|]. eapply H; eauto.
  - apply bind_ok_inv in H0 as (ys & H1 & H0). apply compute_list_inv in H1.
    destruct ys as [|y0 ys]; [cbn in H0; injection H0 as <-; constructor; [eexists; reflexivity|constructor]|].
    apply (ft_list dbg sample_ge (y0 :: ys) z); auto.
    + discriminate.
    + rewrite Forall_forall in H. eapply Forall2_outs; [exact H1|]. intros e y He Hy. split; [eapply GC; eauto|]. eapply H; eauto.
  - apply bind_ok_inv in H0 as (x & H1 & H0). pose proof (GC _ _ H1) as Gx. apply IHphi in H1; auto.
    unfold rob_temporal in H0. destruct (has_value i) eqn:V; cbn [negb] in H0; [|eapply ft_seq; eauto].
    pose proof (xr_hv i V) as Z. destruct (as_double i) as [a b]. cbn [fst] in Z. cbn zeta in H0. destruct (nltb _ _); [discriminate|].
    destruct (neqb (nsub b a) _); [injection H0 as <-; exact H1|]. destruct (nleb _ _); [eapply ft_seq; eauto|].
    exfalso. eapply xr_win; [exact Z|apply Gx|exact H0].
  - apply bind_ok_inv in H0 as (x & H1 & H0). pose proof (GC _ _ H1) as Gx. apply IHphi in H1; auto.
    unfold rob_temporal in H0. destruct (has_value i) eqn:V; cbn [negb] in H0; [|eapply ft_seq; eauto].
    pose proof (xr_hv i V) as Z. destruct (as_double i) as [a b]. cbn [fst] in Z. cbn zeta in H0. destruct (nltb _ _); [discriminate|].
    destruct (neqb (nsub b a) _); [injection H0 as <-; exact H1|]. destruct (nleb _ _); [eapply ft_seq; eauto|].
    exfalso. eapply xr_win; [exact Z|apply Gx|exact H0].
  - apply bind_ok_inv in H0 as (x & H1 & H0). apply bind_ok_inv in H0 as (y & H2 & H0).
    pose proof (GC _ _ H1) as Gx. pose proof (GC _ _ H2) as Gy. apply IHphi1 in H1; auto. apply IHphi2 in H2; auto.
    apply rob_until_inv, until_inv in H0 as (x' & y' & SY & H0). destruct (sync_ft _ _ _ _ (proj1 Gx) (proj1 Gy) H1 H2 SY) as [F1 F2].
    unfold ft. rewrite (times_from _ _ H0), times_rev, until_loop_times.
    + cbn [times map app]. rewrite times_rev, rev_involutive. exact F1.
    + rewrite !rev_length. apply (f_equal (@length _)) in F2. unfold times in F2. rewrite !map_length in F2. auto.
Qed.

Lemma not_list dbg fuel (r : rob_op XR) l : (forall e z, In e l -> compute dbg fuel r e = Ok z -> good z) ->
  compute_list (compute dbg fuel r) (map ENot l) = omap (map (map NG)) (compute_list (compute dbg fuel r) l).
Proof.
  intros G. apply T_compute_list. apply Forall_forall. intros e He. cbn [compute].
  destruct (compute dbg fuel r e) eqn:E; try reflexivity. cbn [bind omap]. apply rob_not_good. eauto.
Qed.

Lemma C31_andor_lemma dbg fuel l (tr : trace XR) s : Forall (fun e => wf (snd e) /\ snd e <> [] /\ Forall (fun t => exists r, t = Fin r) (times (snd e))) tr ->
  l <> [] ->
  compute_robustness dbg fuel (ENot (EAnd l)) tr s = compute_robustness dbg fuel (EOr (map ENot l)) tr s /\
  compute_robustness dbg fuel (ENot (EOr l)) tr s = compute_robustness dbg fuel (EAnd (map ENot l)) tr s.
Proof.
  intros G0 N. assert (G : Forall (fun e => inv31 (snd e)) tr) by (eapply Forall_impl; [|exact G0]; intros e (? & ? & ?); split; [split|]; assumption).
  assert (GG : Forall (fun e => good (snd e)) tr) by (eapply Forall_impl; [|exact G]; intros e He; apply He).
  unfold compute_robustness. set (r := mkRob _ _ _).
  assert (GC : forall e z, compute dbg fuel r e = Ok z -> good z) by (intros e z; apply good_neg_ok, GG).
  assert (K : forall comp comp', (forall a b, comp' (NG a) (NG b) = comp a b) -> lincomp comp ->
     (x <- (ys <- compute_list (compute dbg fuel r) l ;; minmax_list dbg comp false ys) ;; rob_not x) =
     (ys <- compute_list (compute dbg fuel r) (map ENot l) ;; minmax_list dbg comp' false ys)).
  { intros comp comp' Hc LC. rewrite not_list by (intros; eapply GC; eauto). rewrite bind_omap.
    destruct (compute_list (compute dbg fuel r) l) as [ys| | | |] eqn:E; try reflexivity. cbn [bind].
    assert (I : Forall inv31 ys).
    { apply compute_list_inv in E. eapply Forall2_outs; [exact E|]. intros e y He Hy. eapply ft_compute; eauto. }
    assert (Ny : ys <> []) by (apply compute_list_inv in E; inversion E; subst; [congruence|discriminate]).
    rewrite (neg_list dbg comp comp' ys Hc LC Ny I). destruct (minmax_list dbg comp false ys) as [z| | | |] eqn:Z; try reflexivity.
    cbn [bind omap]. apply rob_not_good. apply (ft_list dbg comp ys z Ny I Z). }
  split; cbn [compute]; apply K.
  - apply neg_ge.
  - apply lincomp_le.
  - apply neg_le.
  - apply lincomp_ge.
Qed.
