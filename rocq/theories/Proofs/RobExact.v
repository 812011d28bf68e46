(** C35, C36, C47: evaluation on finite traces with a common begin time (exact arithmetic). *)
From Coq Require Import Sorted Reals Lra Classical_Prop.
From Flocq Require Import Core.Raux.
From Verif Require Import Base Num NumXR.
From Verif.Model Require Import Signal MonoWedge MinMax Ast Robustness.
From Verif.Spec Require Import SignalSpec Pwl Formula Semantics Bounds.
From Verif.Proofs Require Import NumFacts SignalFacts LowerBound Reshape Sync SyncProps SyncExact SampleFacts PwlFacts SignalProps PairExact MinMaxFacts MinMaxProps SeqFacts SeqExact MinMaxCases RobFacts RobWf RobTransport Duality UntilFacts.
Open Scope R_scope.

(** ** Domains *)
Lemma dom_iff l t : rincr l -> l <> [] -> ((exists v, pwl l t v) <-> first_time l <= t <= final_time l).
Proof.
  intros I N. split.
  - intros (v & H). apply pwl_pw in H as [B _]; auto.
  - intros B. exists (pw l t). apply pwl_pw; auto.
Qed.

Section S.
Variables (sg : R) (comp : sample XR -> sample XR -> bool) (bst : R -> R -> R).
Hypothesis SG : sg_comp sg comp.
Hypothesis BST : forall a b, best sg (fun t => bst (a t) (b t)) a b.

Lemma list_exact1 dbg ls t0 : ls <> [] -> Forall (fun l => rincr l /\ starts t0 l) ls ->
  exists l, minmax_list dbg comp false (map fsig ls) = Ok (fsig l) /\ rincr l /\ starts t0 l /\
    forall t v, pwl l t v <-> extreme sg ls t v.
Proof.
  intros N H. destruct ls as [|l [|l' ls]]; [congruence| |].
  - inversion H as [|? ? [I St] _]; subst. exists l. split; [reflexivity|]. split; [exact I|]. split; [exact St|].
    intros t v. unfold extreme. split.
    + intros P. split; [intros l0 [<-|[]]; eauto|]. split; [exists l; cbn; auto|]. intros l0 vl [<-|[]] Hl. rewrite (pwl_fun _ _ _ _ I P Hl). lra.
    + intros (_ & (l0 & [<-|[]] & Q) & _). exact Q.
  - eapply list_exact; eauto. cbn. lia.
Qed.
Lemma extreme_ex ls t : ls <> [] -> Forall rincr ls -> (forall l, In l ls -> exists v, pwl l t v) -> exists v, extreme sg ls t v.
Proof.
  intros N I D. induction ls as [|l ls IH]; [congruence|]. inversion I as [|? ? I1 I2]; subst.
  destruct (D l (or_introl eq_refl)) as (v & Hv). destruct ls as [|l' ls].
  - exists v. split; [intros l0 [<-|[]]; eauto|]. split; [exists l; cbn; auto|]. intros l0 vl [<-|[]] Hl. rewrite (pwl_fun _ _ _ _ I1 Hv Hl). lra.
  - destruct IH as (w & (W1 & (lw & W2 & W2') & W3)); [discriminate|exact I2|intros; apply D; right; assumption|].
    destruct (Rle_dec (sg * v) (sg * w)) as [C|C].
    + exists v. split; [exact D|]. split; [exists l; split; [left; reflexivity|exact Hv]|]. intros l0 vl [<-|Hl] H0.
      * rewrite (pwl_fun _ _ _ _ I1 Hv H0). lra.
      * specialize (W3 l0 vl Hl H0). lra.
    + exists w. split; [exact D|]. split; [exists lw; split; [right; exact W2|exact W2']|]. intros l0 vl [<-|Hl] H0.
      * rewrite <- (pwl_fun _ _ _ _ I1 Hv H0). lra.
      * exact (W3 l0 vl Hl H0).
Qed.
End S.

(** ** Temporal operators *)
Lemma made_xr (i : interval XR) a b : made_interval i -> has_value i = true -> as_double i = (a, b) -> a = Fin 0 /\ b = PInf.
Proof.
  intros M V E. destruct (xr_hv_inf i a b V E) as [-> [-> | ->]]; [auto|exfalso].
  unfold as_double in E. injection E as _ Eb. destruct M as [-> |[(k & m & ->)|(x & y & H)]].
  - discriminate.
  - discriminate.
  - unfold interval_dbl in H. destruct (nltb x nzero || nltb y nzero) eqn:Q; [discriminate|]. apply orb_false_elim in Q as [_ Q].
    destruct (nleb y x); [discriminate|]. injection H as <-. cbn [high inum_double] in Eb. subst y. discriminate Q.
Qed.
Lemma fsig_ends l : l <> [] -> begin_time (fsig l) = Fin (first_time l) /\ end_time (fsig l) = Fin (final_time l).
Proof.
  intros N. split; [destruct l; [congruence|reflexivity]|]. unfold end_time, final_time, fsig. rewrite last_opt_sig_of, last_opt_map.
  destruct (last_opt l) eqn:E; [reflexivity|apply last_opt_none in E; congruence].
Qed.
Lemma temporal_xr fuel comp i l : rincr l -> l <> [] -> made_interval i -> rob_temporal fuel comp i (fsig l) = minmax_seq comp (fsig l).
Proof.
  intros I N M. unfold rob_temporal. destruct (has_value i) eqn:V; cbn [negb]; [|reflexivity].
  destruct (as_double i) as [a b] eqn:E. destruct (made_xr i a b M V E) as [-> ->].
  destruct (fsig_ends l N) as [-> ->]. reflexivity.
Qed.

(** ** Until *)
Lemma std_max_real a b : exists r, std_max (Fin a) (Fin b) = Fin r.
Proof. unfold std_max. destruct (nltb _ _); eauto. Qed.
Lemma std_min_real a b : exists r, std_min (Fin a) (Fin b) = Fin r.
Proof. unfold std_min. destruct (nltb _ _); eauto. Qed.
Lemma until_loop_real : forall (xs ys : list (sample XR)) p m st,
  Forall (fun a => fin (s_value a)) xs -> Forall (fun a => fin (s_value a)) ys -> (p = PInf \/ fin p) -> (m = NInf \/ fin m) ->
  Forall (fun a => fin (s_value a)) st -> Forall (fun a => fin (s_value a)) (until_loop xs ys p m st).
Proof.
  induction xs as [|i xs IH]; intros [|j ys] p m st Fx Fy Hp Hm Fs; cbn [until_loop]; auto.
  inversion Fx as [|? ? [vi Ei] Fx']; subst. inversion Fy as [|? ? [vj Ej] Fy']; subst.
  assert (M : fin (std_max m (s_value j))).
  { rewrite Ej. destruct Hm as [-> |[r ->]]; [exists vj; reflexivity|]. apply std_max_real. }
  assert (P : fin (std_min (s_value i) p)).
  { rewrite Ei. destruct Hp as [-> |[r ->]]; [exists vi; reflexivity|]. apply std_min_real. }
  assert (Q : fin (std_max3 (s_value j) (std_min (s_value i) p) (nopp (std_max m (s_value j))))).
  { unfold std_max3. destruct M as [u ->], P as [w ->]. rewrite Ej. destruct (std_max_real vj w) as [k ->]. apply (std_max_real k (- u)). }
  apply IH; auto. apply Forall_app. split; [exact Fs|]. repeat constructor. exact Q.
Qed.

Lemma fsig_fin l : Forall (fun a => fin (s_value a)) (fsig l) /\ Forall (fun a => fin (s_time a)) (fsig l).
Proof.
  induction l as [|p l [IH1 IH2]]; [split; constructor|]. rewrite fsig_cons. split; constructor; auto; eexists; reflexivity.
Qed.

Lemma real_points (s : list (sample XR)) : Forall (fun a => fin (s_value a)) s -> Forall fin (times s) -> exists l, points s = map inj l.
Proof.
  induction s as [|a s IH]; intros V T; [exists []; reflexivity|]. inversion V as [|? ? [v Ev] V']; subst. inversion T as [|? ? [t Et] T']; subst.
  destruct (IH V' T') as (l & E). exists ((t, v) :: l). cbn. rewrite Et, Ev. f_equal. exact E.
Qed.

(** Not less than the value of until from the first sample on. *)
Fixpoint until_below (gx gy : R -> R) (v t : R) (ts : list R) : Prop :=
  gy t <= v /\ match ts with [] => True | t' :: r => gx t <= v \/ until_below gx gy v t' r end.
Lemma until_below_mono gx gy v w : v <= w -> forall ts t, until_below gx gy v t ts -> until_below gx gy w t ts.
Proof.
  intros L. induction ts as [|t' ts IH]; intros t [H1 H2]; (split; [lra|]); [exact I|]. destruct H2 as [H2|H2]; [left; lra|right; auto].
Qed.
Lemma std_max3_ge (a b c : R) : exists v, std_max3 (Fin a) (Fin b) (Fin c) = Fin v /\ a <= v /\ b <= v.
Proof.
  assert (M : forall x y, exists v, std_max (Fin x) (Fin y) = Fin v /\ x <= v /\ y <= v).
  { intros x y. unfold std_max. rewrite fin_lt. case Rlt_bool_spec; intros; eexists; (split; [reflexivity|lra]). }
  unfold std_max3. destruct (M a b) as (v & -> & H1 & H2). destruct (M v c) as (w & -> & H3 & H4). exists w. split; [reflexivity|lra].
Qed.
Lemma uval_below gx gy : forall ts t, exists v m out, uval (fsig (graph gx (t :: ts))) (fsig (graph gy (t :: ts))) = (Fin v, Fin m, out) /\ until_below gx gy v t ts.
Proof.
  induction ts as [|t' ts IH]; intros t.
  - cbn. unfold std_min, std_max. cbn. destruct (std_max3_ge (gy t) (gx t) (- gy t)) as (v & E & H1 & H2). unfold std_max3, std_max in *. cbn in *.
    rewrite E. do 3 eexists. split; [reflexivity|]. split; [exact H1|exact I].
  - destruct (IH t') as (v & m & out & E & B). change (graph gx (t :: t' :: ts)) with ((t, gx t) :: graph gx (t' :: ts)). change (graph gy (t :: t' :: ts)) with ((t, gy t) :: graph gy (t' :: ts)).
    rewrite (fsig_cons (t, gx t)), (fsig_cons (t, gy t)). cbn [uval].
    rewrite E. cbn [s_value snd].
    destruct (std_max_real m (gy t)) as (m' & ->). assert (K : exists w, std_min (Fin (gx t)) (Fin v) = Fin w /\ (w = gx t \/ w = v)).
    { unfold std_min. destruct (nltb (Fin v) (Fin (gx t))); eauto. }
    destruct K as (w & -> & Hw). destruct (std_max3_ge (gy t) w (- m')) as (z & Ez & H1 & H2). change (nopp (Fin m')) with (Fin (- m')). rewrite Ez.
    do 3 eexists. split; [reflexivity|]. split; [exact H1|]. destruct Hw as [-> | ->]; [left; exact H2|right; eapply until_below_mono; [exact H2|exact B]].
Qed.
Lemma until_below_all gx gy v : forall ts t, achain gy t ts -> until_below gx gy v t ts -> forall t', t <= t' <= last_from t ts ->
  gy t' <= v \/ exists u, t <= u < t' /\ gx u <= v.
Proof.
  induction ts as [|t1 ts IH]; intros t A [H1 H2] t' Ht; cbn [last_from] in Ht.
  - left. replace t' with t by lra. exact H1.
  - cbn [achain] in A. destruct A as (L & AF & A). destruct (Req_dec t t') as [<-|N]; [left; exact H1|].
    destruct H2 as [H2|H2]; [right; exists t; split; [lra|exact H2]|].
    destruct (Rlt_dec t' t1) as [C|C].
    + left. assert (gy t1 <= v) by (destruct ts; apply H2). destruct AF as (a & b & AF).
      pose proof (AF t ltac:(lra)) as E0. pose proof (AF t' ltac:(lra)) as E1. pose proof (AF t1 ltac:(lra)) as E2.
      rewrite E1. rewrite E0 in H1. rewrite E2 in H. destruct (Rle_dec 0 a); nra.
    + destruct (IH t1 A H2 t' ltac:(lra)) as [Q|(u & Hu & Q)]; [left; exact Q|right; exists u; split; [lra|exact Q]].
Qed.

Lemma until_exact dbg lx ly t0 : rincr lx -> rincr ly -> starts t0 lx -> starts t0 ly ->
  exists lz, compute_until dbg (fsig lx) (fsig ly) = Ok (fsig lz) /\ rincr lz /\ starts t0 lz /\ final_time lz = Rmin (final_time lx) (final_time ly) /\
    forall v, pwl lz t0 v -> forall t', t0 <= t' <= Rmin (final_time lx) (final_time ly) -> pw ly t' <= v \/ exists u, t0 <= u < t' /\ pw lx u <= v.
Proof.
  intros Ix Iy [Nx Fx] [Ny Fy]. pose proof (meets_first lx ly Nx Ny ltac:(congruence)) as M.
  apply (sync_iff _ _ (fsig_wf _ Ix) (fsig_wf _ Iy)) in M as ([x' y'] & E).
  destruct (sync_exact_inv _ _ _ _ Ix Iy E) as (_ & _ & u0 & ts & -> & -> & A1 & A2 & E0 & E1).
  rewrite Fx, Fy, Rmax_left in E0 by lra. subst u0.
  set (gx := graph (pw lx) (t0 :: ts)) in *. set (gy := graph (pw ly) (t0 :: ts)) in *.
  assert (Lg : length (fsig gx) = length (fsig gy)) by (unfold gx, gy; rewrite !length_fsig_graph; reflexivity).
  set (w := rev (until_loop (rev (fsig gx)) (rev (fsig gy)) ninf (nopp ninf) [])).
  assert (Tw : times w = times (fsig gx)).
  { unfold w. rewrite times_rev, until_loop_times by (rewrite !rev_length; exact Lg). cbn [times map app]. rewrite times_rev. apply rev_involutive. }
  assert (Ig : rincr gx) by apply achain_rincr, A1. destruct (fsig_fine _ Ig) as [Ng Inc].
  destruct (real_points w) as (lz & Ez).
  { unfold w. apply Forall_rev, until_loop_real; [apply Forall_rev, fsig_fin|apply Forall_rev, fsig_fin|left; reflexivity|left; reflexivity|constructor]. }
  { rewrite Tw. apply Forall_map. apply fsig_fin. }
  exists lz. assert (Hf : map fst lz = t0 :: ts).
  { assert (Q : map fst (map inj lz) = times w) by (rewrite <- Ez; unfold points, times; rewrite map_map; reflexivity).
    rewrite Tw in Q. unfold fsig in Q. rewrite times_sig_of in Q. unfold gx, graph in Q. rewrite !map_map in Q. cbn [inj fst] in Q.
    assert (K : forall a b : list R, map Fin a = map Fin b -> a = b).
    { induction a as [|u a IH]; intros [|v b] Z; try discriminate; [reflexivity|]. injection Z as -> Z. f_equal. auto. }
    apply K. rewrite <- (map_map fst Fin) in Q. exact Q. }
  split.
  - unfold compute_until. rewrite E. cbn [bind]. rewrite Lg, Nat.eqb_refl.
    destruct (fsig_ends gx ltac:(discriminate)) as [-> ->]. destruct (fsig_ends gy ltac:(discriminate)) as [-> ->].
    unfold gx, gy. rewrite !first_graph, !final_graph, !fin_eq_refl. fold gx gy. unfold assert_. rewrite !andb_false_r. cbn [bind]. fold w.
    rewrite from_samples_ok by (rewrite Tw; assumption). rewrite Ez. reflexivity.
  - assert (Iz : rincr lz).
    { apply rincr_fst. rewrite Hf. apply rincr_fst in Ig. unfold gx, graph in Ig. rewrite map_map in Ig. cbn [fst] in Ig. rewrite map_id in Ig. exact Ig. }
    assert (BEL : forall v, pwl lz t0 v -> forall t', t0 <= t' <= Rmin (final_time lx) (final_time ly) -> pw ly t' <= v \/ exists u, t0 <= u < t' /\ pw lx u <= v).
    { intros v Hv t' Ht. rewrite <- E1 in Ht. refine (until_below_all _ _ v ts t0 A2 _ t' Ht).
      destruct (uval_below (pw lx) (pw ly) ts t0) as (v0 & m0 & out & EU & B). assert (v = v0) as ->; [|exact B].
      destruct (until_loop_uval (fsig gx) (fsig gy) Lg) as [_ Ew]. fold w in Ew. fold gx gy in EU. rewrite EU in Ew. cbn [snd] in Ew.
      assert (Hd : exists a out', out = a :: out' /\ s_value a = Fin v0).
      { clear -EU. unfold gx, gy, graph in EU. cbn [map] in EU. rewrite !fsig_cons in EU. cbn [uval] in EU. destruct (uval _ _) as [[p m] o].
        injection EU as E1 _ <-. do 2 eexists. split; [reflexivity|]. exact E1. }
      destruct Hd as (a & out' & -> & Ha). rewrite Ew in Ez. destruct lz as [|[pt pv] lz]; [discriminate|]. cbn in Ez. injection Ez as _ Ev _.
      rewrite Ha in Ev. injection Ev as <-. injection Hf as -> _. apply (pwl_fun _ _ _ _ Iz Hv). left. exists (t0, v0). split; [left; reflexivity|auto]. }
    split; [exact Iz|]. destruct lz as [|p lz]; [discriminate|]. injection Hf as H1 H2. split; [split; [discriminate|exact H1]|]. split; [|exact BEL]. clear BEL.
    rewrite <- E1. unfold final_time. change (p :: lz) with ([p] ++ lz). clear -H1 H2. revert p t0 ts H1 H2. induction lz as [|q lz IH]; intros p t0 ts H1 H2.
    + subst. reflexivity.
    + destruct ts as [|t ts]; [discriminate|]. injection H2 as H2 H3. change (last_opt ([p] ++ q :: lz)) with (last_opt ([q] ++ lz)). cbn [last_from]. apply IH; assumption.
Qed.

(** ** Formulas *)
Lemma sat_and lt l t : sat lt (EAnd l) t <-> forall e, In e l -> sat lt e t.
Proof. cbn [sat]. rewrite Forall_map, Forall_forall. reflexivity. Qed.
Lemma sat_or lt l t : sat lt (EOr l) t <-> exists e, In e l /\ sat lt e t.
Proof. cbn [sat]. rewrite Exists_exists. split; [intros (P & H & Q); apply in_map_iff in H as (e & <- & H); eauto|]. intros (e & H & Q). exists (sat lt e). split; [apply in_map, H|exact Q]. Qed.
Lemma inside_and lt l t : inside lt (EAnd l) t <-> forall e, In e l -> inside lt e t.
Proof.
  unfold inside. cbn [names]. split.
  - intros H e He n Hn. apply H. apply in_flat_map. eauto.
  - intros H n Hn. apply in_flat_map in Hn as (e & He & Hn). eauto.
Qed.
Lemma rho_and lt l t v : rho lt (EAnd l) t v <-> (exists e, In e l /\ rho lt e t v) /\ forall e, In e l -> exists w, rho lt e t w /\ v <= w.
Proof.
  cbn [rho]. rewrite Forall_map, Forall_forall, Exists_exists. split; intros [A B]; split; auto.
  - destruct A as (P & H & Q). apply in_map_iff in H as (e & <- & H). eauto.
  - destruct A as (e & H & Q). exists (rho lt e). split; [apply in_map, H|exact Q].
Qed.
Lemma rho_or lt l t v : rho lt (EOr l) t v <-> (exists e, In e l /\ rho lt e t v) /\ forall e, In e l -> exists w, rho lt e t w /\ w <= v.
Proof.
  cbn [rho]. rewrite Forall_map, Forall_forall, Exists_exists. split; intros [A B]; split; auto.
  - destruct A as (P & H & Q). apply in_map_iff in H as (e & <- & H). eauto.
  - destruct A as (e & H & Q). exists (rho lt e). split; [apply in_map, H|exact Q].
Qed.

Definition sgn (p : bool) (v : R) : Prop := if p then 0 < v else v < 0.
Definition verdict lt (p : bool) (e : expr XR) (t : R) : Prop := if p then sat lt e t else ~ sat lt e t.

Lemma bound_and lt l p t c : bound lt (EAnd l) p t c <-> if p then forall e, In e l -> bound lt e p t c else exists e, In e l /\ bound lt e p t c.
Proof.
  destruct p; cbn [bound].
  - rewrite Forall_map, Forall_forall. reflexivity.
  - rewrite Exists_exists. split; [intros (P & H & Q); apply in_map_iff in H as (e & <- & H); eauto|]. intros (e & H & Q). exists (bound lt e). split; [apply in_map, H|exact Q].
Qed.
Lemma bound_or lt l p t c : bound lt (EOr l) p t c <-> if p then exists e, In e l /\ bound lt e p t c else forall e, In e l -> bound lt e p t c.
Proof.
  destruct p; cbn [bound].
  - rewrite Exists_exists. split; [intros (P & H & Q); apply in_map_iff in H as (e & <- & H); eauto|]. intros (e & H & Q). exists (bound lt e). split; [apply in_map, H|exact Q].
  - rewrite Forall_map, Forall_forall. reflexivity.
Qed.
Definition le_for (p : bool) (v w : R) : Prop := if p then v <= w else w <= v.
Lemma bound_le lt e : forall p t v w, le_for p v w -> bound lt e p t w -> bound lt e p t v.
Proof.
  induction e using expr_rec; intros p t v w L B; cbn [bound] in *.
  - exact B.
  - destruct B as (x & r & H1 & H2 & H3). exists x, r. split; [exact H1|]. split; [exact H2|]. destruct p; cbn [le_for] in *; lra.
  - eapply IHe; [|exact B]. destruct p; cbn in *; lra.
  - rewrite Forall_forall in H. change (bound lt (EAnd l) p t w) in B. change (bound lt (EAnd l) p t v). rewrite bound_and in *.
    destruct p; [intros e He; eapply H; eauto|]. destruct B as (e & He & B). exists e. split; [exact He|]. eapply H; eauto.
  - rewrite Forall_forall in H. change (bound lt (EOr l) p t w) in B. change (bound lt (EOr l) p t v). rewrite bound_or in *.
    destruct p; [|intros e He; eapply H; eauto]. destruct B as (e & He & B). exists e. split; [exact He|]. eapply H; eauto.
  - destruct p; [intros t' Ht Hi; eapply IHe; eauto|]. destruct B as (t' & H1 & H2 & H3). exists t'. split; [exact H1|]. split; [exact H2|]. eapply IHe; eauto.
  - destruct p; [|intros t' Ht Hi; eapply IHe; eauto]. destruct B as (t' & H1 & H2 & H3). exists t'. split; [exact H1|]. split; [exact H2|]. eapply IHe; eauto.
  - destruct p.
    + destruct B as (t' & H1 & H2 & H3 & H4 & H5). exists t'. repeat split; auto; [eapply IHe2; eauto|]. intros u Hu. eapply IHe1; eauto.
    + intros t' Ht Ha Hb. destruct (B t' Ht Ha Hb) as [Q|(u & Hu & Q)]; [left; eapply IHe2; eauto|right; exists u; split; [exact Hu|eapply IHe1; eauto]].
Qed.
Lemma bound_verdict lt e : (forall n t v w, value_at lt n t v -> value_at lt n t w -> v = w) ->
  forall p t c, bound lt e p t c -> sgn p c -> verdict lt p e t.
Proof.
  intros VF. induction e using expr_rec; intros p t v B Sg; cbn [bound] in B.
  - destruct p; cbn; congruence.
  - destruct B as (x & r & H1 & -> & H3). destruct p; cbn [verdict sat sgn] in *.
    + exists x, r. split; [exact H1|]. split; [reflexivity|]. match goal with o : cmp_op |- _ => destruct o end; cbn in *; lra.
    + intros (x' & r' & H & [= <-] & Q). rewrite (VF _ _ _ _ H H1) in Q. match goal with o : cmp_op |- _ => destruct o end; cbn in *; lra.
  - assert (Q : verdict lt (negb p) e t) by (eapply IHe; [exact B|]; destruct p; cbn in *; lra). destruct p; cbn in *; auto.
  - rewrite Forall_forall in H. apply bound_and in B. destruct p; cbn [verdict].
    + apply sat_and. intros e He. apply (H e He true t v (B e He) Sg).
    + destruct B as (e & He & B). intros Q. rewrite sat_and in Q. exact (H e He false t v B Sg (Q e He)).
  - rewrite Forall_forall in H. apply bound_or in B. destruct p; cbn [verdict].
    + apply sat_or. destruct B as (e & He & B). exists e. split; [exact He|]. apply (H e He true t v B Sg).
    + intros Q. apply sat_or in Q as (e & He & Q). exact (H e He false t v (B e He) Sg Q).
  - destruct p; cbn [verdict sat].
    + intros t' Ht Hi. exact (IHe true t' v (B t' Ht Hi) Sg).
    + destruct B as (t' & H1 & H2 & H3). intros Q. exact (IHe false t' v H3 Sg (Q t' H1 H2)).
  - destruct p; cbn [verdict sat].
    + destruct B as (t' & H1 & H2 & H3). exists t'. repeat split; auto. exact (IHe true t' v H3 Sg).
    + intros (t' & H1 & H2 & Q). exact (IHe false t' v (B t' H1 H2) Sg Q).
  - destruct p; cbn [verdict sat].
    + destruct B as (t' & H1 & H2 & H3 & H4 & H5). exists t'. repeat split; auto; [exact (IHe2 true t' v H4 Sg)|]. intros u Hu. exact (IHe1 true u v (H5 u Hu) Sg).
    + intros (t' & H1 & H2 & H3 & H4 & H5). destruct (B t' H1 H2 H3) as [Q|(u & Hu & Q)]; [exact (IHe2 false t' v Q Sg H4)|exact (IHe1 false u v Q Sg (H5 u Hu))].
Qed.

(** Everything to be shown about a formula. *)
Definition evaluated lt (t0 : R) (phi : expr XR) (l : list (R * R)) : Prop :=
  rincr l /\ starts t0 l /\
  (forall t, (exists v, pwl l t v) <-> inside lt phi t) /\
  (free_of is_temporal phi = true -> forall t v, pwl l t v <-> rho lt phi t v) /\
  (forall p, sound_for p phi = true -> forall t v, pwl l t v -> bound lt phi p t v) /\
  (forall p, sound_first p phi = true -> forall v, pwl l t0 v -> bound lt phi p t0 v).

Lemma pwl_map (f : R -> R) l t v : (exists a b, forall x, f x = a * x + b) -> pwl l t v -> pwl (map (fun p => (fst p, f (snd p))) l) t (f v).
Proof.
  intros (a & b & Hf) [(p & Hp & <- & <-)|(l1 & p & q & l2 & -> & Ht & ->)].
  - left. exists (fst p, f (snd p)). split; [apply (in_map (fun p => (fst p, f (snd p))) l p Hp)|auto].
  - right. rewrite map_app. cbn [map]. eexists _, (fst p, f (snd p)), (fst q, f (snd q)), _. split; [reflexivity|]. cbn [fst snd]. split; [exact Ht|].
    rewrite !Hf. field. lra.
Qed.
Lemma pwl_map_iff (f g : R -> R) l t v : (exists a b, forall x, f x = a * x + b) -> (exists a b, forall x, g x = a * x + b) ->
  (forall x, f (g x) = x) -> (forall x, g (f x) = x) -> pwl (map (fun p => (fst p, f (snd p))) l) t v <-> pwl l t (g v).
Proof.
  intros Hf Hg FG GF. split; intros H.
  - apply (pwl_map g) in H; auto. rewrite map_map in H. cbn [fst snd] in H. rewrite (map_ext _ (fun p => p)), map_id in H; [exact H|].
    intros [x y]. cbn. rewrite GF. reflexivity.
  - apply (pwl_map f) in H; auto. rewrite FG in H. exact H.
Qed.
Lemma rincr_map (f : R -> R) l : rincr l -> rincr (map (fun p => (fst p, f (snd p))) l).
Proof. rewrite !rincr_fst, map_map. auto. Qed.
Lemma starts_map (f : R -> R) t0 l : starts t0 l -> starts t0 (map (fun p => (fst p, f (snd p))) l).
Proof. intros [N S]. destruct l; [congruence|]. split; [discriminate|exact S]. Qed.

Lemma not_fsig l : rincr l -> rob_not (fsig l) = Ok (fsig (map (fun p => (fst p, - snd p)) l)).
Proof.
  intros I. unfold fsig. rewrite rob_not_canon by (apply wfp_steps, rincr_wfp, I). do 2 f_equal. rewrite !map_map. reflexivity.
Qed.

Lemma pred_fsig n op r fuel dbg (ro : rob_op XR) l : trace_find (r_trace ro) n = Some (fsig l) -> rincr l ->
  compute dbg fuel ro (EPred n op (Fin r)) = Ok (fsig (map (fun p => (fst p, match op with GT | GE => snd p - r | LT | LE => r - snd p end)) l)).
Proof.
  intros E I. cbn [compute]. unfold rob_pred. rewrite E, pred_loop_push. set (s := map _ (fsig l)). change (push_all [] s) with (from_samples s).
  assert (Ht : times s = times (fsig l)) by (unfold s, times; rewrite map_map; reflexivity). destruct (fsig_fine _ I).
  rewrite from_samples_ok by (rewrite Ht; assumption). unfold fsig. do 2 f_equal. unfold s, points, fsig.
  rewrite !map_map. cbn [inj fst snd s_time s_value].
  clear. induction l as [|p l IH]; [reflexivity|]. cbn [map sig_of]. rewrite IH. f_equal. cbn [s_time s_value fst snd inj]. destruct op; reflexivity.
Qed.

Lemma trace_of_find lt tr n s : trace_of lt tr -> keys_unique tr -> trace_find tr n = Some s -> exists l, In (n, l) lt /\ built l s /\ forall l', In (n, l') lt -> l' = l.
Proof.
  intros T U H. apply trace_find_In in H. unfold keys_unique in U. induction T as [|[k l] [k' s'] lt tr [E B] T IH]; [destruct H|].
  cbn [fst snd] in *. subst k'. cbn [map fst] in U. inversion U as [|? ? U1 U2]; subst.
  assert (KS : map fst lt = map fst tr) by (clear -T; induction T as [|? ? ? ? [E _] _ IH]; cbn; congruence).
  destruct H as [[= -> ->]|H].
  - exists l. split; [left; reflexivity|]. split; [exact B|]. intros l' [[= ->]|Hl]; [reflexivity|]. exfalso. apply U1. rewrite <- KS. apply (in_map fst) in Hl. exact Hl.
  - destruct (IH U2 H) as (l0 & H1 & H2 & H3). exists l0. split; [right; exact H1|]. split; [exact H2|]. intros l' [[= -> ->]|Hl]; [|auto].
    exfalso. apply U1. apply (in_map fst) in H. exact H.
Qed.
Lemma trace_of_some lt tr n l : trace_of lt tr -> In (n, l) lt -> exists s, trace_find tr n = Some s.
Proof.
  intros T H. induction T as [|[k l'] [k' s'] lt tr [E B] T IH]; [destruct H|]. cbn [fst snd] in *. subst k'. cbn [trace_find].
  destruct (String.eqb k n) eqn:Q; [eauto|]. destruct H as [[= -> ->]|H]; [rewrite String.eqb_refl in Q; discriminate|auto].
Qed.

Section Main.
Variables (dbg : bool) (fuel : nat) (lt : ptrace) (tr : trace XR) (t0 : R) (r : rob_op XR).
Hypothesis TO : trace_of lt tr.
Hypothesis KU : keys_unique tr.
Hypothesis AS : all_start lt t0.
Hypothesis RT : r_trace r = tr.

Lemma named n : (exists l, In (n, l) lt) -> exists l, trace_find tr n = Some (fsig l) /\ rincr l /\ starts t0 l /\
  forall t v, value_at lt n t v <-> pwl l t v.
Proof.
  intros (l & H). destruct (trace_of_some _ _ _ _ TO H) as (s & E). destruct (trace_of_find _ _ _ _ TO KU E) as (l0 & H1 & B & U).
  apply built_iff in B as [I ->]. exists l0. split; [exact E|]. split; [exact I|]. unfold all_start in AS. rewrite Forall_forall in AS. split; [apply (AS _ H1)|].
  intros t v. unfold value_at. split; [intros (l' & H' & P); apply U in H'; subst; exact P|eauto].
Qed.

Lemma eval_pred n op c : evaluable lt (EPred n op c) -> exists l, compute dbg fuel r (EPred n op c) = Ok (fsig l) /\ evaluated lt t0 (EPred n op c) l.
Proof.
  intros (_ & _ & _ & C & N). destruct (C _ (or_introl eq_refl)) as (k & ->). destruct (named n (N n (or_introl eq_refl))) as (l & E & I & S & V).
  set (f := fun x => match op with GT | GE => x - k | LT | LE => k - x end).
  set (g := fun x => match op with GT | GE => x + k | LT | LE => k - x end).
  assert (Hf : exists a b, forall x, f x = a * x + b) by (unfold f; destruct op; [exists 1, (- k)|exists 1, (- k)|exists (-1), k|exists (-1), k]; intros; ring).
  assert (Hg : exists a b, forall x, g x = a * x + b) by (unfold g; destruct op; [exists 1, k|exists 1, k|exists (-1), k|exists (-1), k]; intros; ring).
  assert (FG : forall x, f (g x) = x) by (unfold f, g; destruct op; intros; ring).
  assert (GF : forall x, g (f x) = x) by (unfold f, g; destruct op; intros; ring).
  exists (map (fun p => (fst p, f (snd p))) l). split; [apply pred_fsig; [rewrite RT; exact E|exact I]|].
  assert (P : forall t v, pwl (map (fun p => (fst p, f (snd p))) l) t v <-> value_at lt n t (g v)) by (intros; rewrite V; apply pwl_map_iff; auto).
  assert (PS : forall p t v, pwl (map (fun p => (fst p, f (snd p))) l) t v -> bound lt (EPred n op (Fin k)) p t v).
  { intros p t v H. apply P in H. exists (g v), k. split; [exact H|]. split; [reflexivity|]. unfold g. destruct op, p; cbn; lra. }
  split; [apply rincr_map, I|]. split; [apply starts_map, S|]. split; [|split; [|split]].
  - intros t. unfold inside. cbn [names]. split.
    + intros (v & H) n' [<-|[]]. apply P in H. eauto.
    + intros H. destruct (H n (or_introl eq_refl)) as (v & Q). exists (f v). apply P. rewrite GF. exact Q.
  - intros _ t v. rewrite P. cbn [rho]. split.
    + intros H. exists (g v), k. split; [exact H|]. split; [reflexivity|]. unfold g. destruct op; ring.
    + intros (x & k' & H & [= <-] & ->). assert (g (f x) = x) as Q by apply GF. unfold f in Q. rewrite Q. exact H.
  - intros p _ t v. apply PS.
  - intros p _ v. apply PS.
Qed.

Lemma eval_not e l : evaluated lt t0 e l -> compute dbg fuel r e = Ok (fsig l) ->
  exists l', compute dbg fuel r (ENot e) = Ok (fsig l') /\ evaluated lt t0 (ENot e) l'.
Proof.
  intros (I & S & D & R & V & W) E. set (f := fun x => - x).
  assert (Hf : exists a b, forall x, f x = a * x + b) by (exists (-1), 0; intros; unfold f; ring).
  assert (FF : forall x, f (f x) = x) by (intros; unfold f; ring).
  assert (P : forall t v, pwl (map (fun p => (fst p, f (snd p))) l) t v <-> pwl l t (- v)) by (intros; apply pwl_map_iff; auto).
  exists (map (fun p => (fst p, f (snd p))) l). split; [cbn [compute]; rewrite E; cbn [bind]; apply not_fsig, I|].
  split; [apply rincr_map, I|]. split; [apply starts_map, S|]. split; [|split; [|split]].
  - intros t. change (inside lt (ENot e) t) with (inside lt e t). rewrite <- D. split; intros (v & H).
    + apply P in H. eauto.
    + exists (- v). apply P. rewrite Ropp_involutive. exact H.
  - intros T t v. rewrite P. cbn [rho]. apply R. exact T.
  - intros p Hp t v H. apply P in H. exact (V (negb p) Hp t (- v) H).
  - intros p Hp v H. apply P in H. exact (W (negb p) Hp (- v) H).
Qed.

Lemma Forall2_in_l {A B} (P : A -> B -> Prop) l l' a : Forall2 P l l' -> In a l -> exists b, In b l' /\ P a b.
Proof. induction 1 as [|x y l l' H _ IH]; intros []; [subst; exists y; split; [left; reflexivity|exact H]|]. destruct (IH H0) as (b & ? & ?). exists b. split; [right|]; assumption. Qed.
Lemma Forall2_in_r {A B} (P : A -> B -> Prop) l l' b : Forall2 P l l' -> In b l' -> exists a, In a l /\ P a b.
Proof. induction 1 as [|x y l l' H _ IH]; intros []; [subst; exists x; split; [left; reflexivity|exact H]|]. destruct (IH H0) as (a & ? & ?). exists a. split; [right|]; assumption. Qed.

Lemma eval_list es ls : Forall2 (fun e l => compute dbg fuel r e = Ok (fsig l)) es ls -> compute_list (compute dbg fuel r) es = Ok (map fsig ls).
Proof.
  induction 1 as [|e l es ls H _ IH]; [reflexivity|].
  change (compute_list (compute dbg fuel r) (e :: es)) with (y <- compute dbg fuel r e ;; ys <- compute_list (compute dbg fuel r) es ;; Ok (y :: ys)).
  rewrite H, IH. reflexivity.
Qed.

Lemma eval_and es ls : es <> [] -> Forall2 (fun e l => compute dbg fuel r e = Ok (fsig l)) es ls -> Forall2 (evaluated lt t0) es ls ->
  exists l, compute dbg fuel r (EAnd es) = Ok (fsig l) /\ evaluated lt t0 (EAnd es) l.
Proof.
  intros N C E. assert (Nl : ls <> []) by (inversion E; subst; congruence).
  assert (IS : Forall (fun l => rincr l /\ starts t0 l) ls) by (clear -E; induction E as [|? ? ? ? H]; constructor; [split; apply H|assumption]).
  destruct (list_exact1 1 sample_le Rmin sg_le (fun a b => best_min a b) dbg ls t0 Nl IS) as (l & EL & I & S & X).
  exists l. split; [cbn [compute]; rewrite (eval_list es ls C); exact EL|].
  assert (IR : Forall rincr ls) by (eapply Forall_impl; [|exact IS]; intros a Ha; apply Ha).
  assert (KV : forall p t v, pwl l t v ->
     (forall e l' v', In e es -> In l' ls -> evaluated lt t0 e l' -> pwl l' t v' -> bound lt e p t v') -> bound lt (EAnd es) p t v).
  { intros p t v H K. apply X in H as (D & (l1 & Hl1 & P1) & M). apply bound_and. destruct p.
    - intros e He. destruct (Forall2_in_l _ _ _ _ E He) as (l' & Hl & El). destruct (D l' Hl) as (v' & Hv'). specialize (M l' v' Hl Hv').
      apply (bound_le lt e true t v v'); [cbn; lra|]. apply (K e l' v' He Hl El Hv').
    - destruct (Forall2_in_r _ _ _ _ E Hl1) as (e & He & El). exists e. split; [exact He|]. apply (K e l1 v He Hl1 El P1). }
  split; [exact I|]. split; [exact S|]. split; [|split; [|split]].
  - intros t. rewrite inside_and. split.
    + intros (v & H) e He. apply X in H as (D & _). destruct (Forall2_in_l _ _ _ _ E He) as (l' & Hl & (_ & _ & D' & _)). apply D', D, Hl.
    + intros H. destruct (extreme_ex 1 ls t Nl IR) as (v & Hv); [|exists v; apply X, Hv].
      intros l' Hl. destruct (Forall2_in_r _ _ _ _ E Hl) as (e & He & (_ & _ & D' & _)). apply D', H, He.
  - intros T t v. cbn [free_of is_temporal negb andb] in T. rewrite forallb_forall in T. rewrite X, rho_and. split.
    + intros (D & (l1 & Hl1 & P1) & M). split.
      * destruct (Forall2_in_r _ _ _ _ E Hl1) as (e & He & (_ & _ & _ & R' & _)). exists e. split; [exact He|]. apply R'; [apply T, He|exact P1].
      * intros e He. destruct (Forall2_in_l _ _ _ _ E He) as (l' & Hl & (_ & _ & _ & R' & _)). destruct (D l' Hl) as (w & Hw). exists w. split; [apply R'; [apply T, He|exact Hw]|].
        specialize (M l' w Hl Hw). lra.
    + intros ((e & He & Q) & M). split; [|split].
      * intros l' Hl. destruct (Forall2_in_r _ _ _ _ E Hl) as (e' & He' & (_ & _ & _ & R' & _)). destruct (M e' He') as (w & Hw & _). exists w. apply (R' (T e' He')), Hw.
      * destruct (Forall2_in_l _ _ _ _ E He) as (l' & Hl & (_ & _ & _ & R' & _)). exists l'. split; [exact Hl|]. apply (R' (T e He)), Q.
      * intros l' v' Hl Hv'. destruct (Forall2_in_r _ _ _ _ E Hl) as (e' & He' & (I' & _ & _ & R' & _)). destruct (M e' He') as (w & Hw & Le).
        apply (R' (T e' He')) in Hw. rewrite (pwl_fun _ _ _ _ I' Hv' Hw). lra.
  - intros p Hp t v H. cbn [sound_for] in Hp. rewrite forallb_forall in Hp. eapply KV; [exact H|].
    intros e l' v' He Hl (_ & _ & _ & _ & V & _) Hv'. eapply V; eauto.
  - intros p Hp v H. cbn [sound_first] in Hp. rewrite forallb_forall in Hp. eapply KV; [exact H|].
    intros e l' v' He Hl (_ & _ & _ & _ & _ & V) Hv'. eapply V; eauto.
Qed.

Lemma eval_or es ls : es <> [] -> Forall2 (fun e l => compute dbg fuel r e = Ok (fsig l)) es ls -> Forall2 (evaluated lt t0) es ls ->
  exists l, compute dbg fuel r (EOr es) = Ok (fsig l) /\ evaluated lt t0 (EOr es) l.
Proof.
  intros N C E. assert (Nl : ls <> []) by (inversion E; subst; congruence).
  assert (IS : Forall (fun l => rincr l /\ starts t0 l) ls) by (clear -E; induction E as [|? ? ? ? H]; constructor; [split; apply H|assumption]).
  destruct (list_exact1 (-1) sample_ge Rmax sg_ge (fun a b => best_max a b) dbg ls t0 Nl IS) as (l & EL & I & S & X).
  exists l. split; [cbn [compute]; rewrite (eval_list es ls C); exact EL|].
  assert (IR : Forall rincr ls) by (eapply Forall_impl; [|exact IS]; intros a Ha; apply Ha).
  assert (KV : forall p t v, pwl l t v ->
     (forall e l' v', In e es -> In l' ls -> evaluated lt t0 e l' -> pwl l' t v' -> bound lt e p t v') -> bound lt (EOr es) p t v).
  { intros p t v H K. apply X in H as (D & (l1 & Hl1 & P1) & M). apply bound_or. destruct p.
    - destruct (Forall2_in_r _ _ _ _ E Hl1) as (e & He & El). exists e. split; [exact He|]. apply (K e l1 v He Hl1 El P1).
    - intros e He. destruct (Forall2_in_l _ _ _ _ E He) as (l' & Hl & El). destruct (D l' Hl) as (v' & Hv'). specialize (M l' v' Hl Hv').
      apply (bound_le lt e false t v v'); [cbn; lra|]. apply (K e l' v' He Hl El Hv'). }
  split; [exact I|]. split; [exact S|]. split; [|split; [|split]].
  - intros t. change (inside lt (EOr es) t) with (inside lt (EAnd es) t). rewrite inside_and. split.
    + intros (v & H) e He. apply X in H as (D & _). destruct (Forall2_in_l _ _ _ _ E He) as (l' & Hl & (_ & _ & D' & _)). apply D', D, Hl.
    + intros H. destruct (extreme_ex (-1) ls t Nl IR) as (v & Hv); [|exists v; apply X, Hv].
      intros l' Hl. destruct (Forall2_in_r _ _ _ _ E Hl) as (e & He & (_ & _ & D' & _)). apply D', H, He.
  - intros T t v. cbn [free_of is_temporal negb andb] in T. rewrite forallb_forall in T. rewrite X, rho_or. split.
    + intros (D & (l1 & Hl1 & P1) & M). split.
      * destruct (Forall2_in_r _ _ _ _ E Hl1) as (e & He & (_ & _ & _ & R' & _)). exists e. split; [exact He|]. apply R'; [apply T, He|exact P1].
      * intros e He. destruct (Forall2_in_l _ _ _ _ E He) as (l' & Hl & (_ & _ & _ & R' & _)). destruct (D l' Hl) as (w & Hw). exists w. split; [apply R'; [apply T, He|exact Hw]|].
        specialize (M l' w Hl Hw). lra.
    + intros ((e & He & Q) & M). split; [|split].
      * intros l' Hl. destruct (Forall2_in_r _ _ _ _ E Hl) as (e' & He' & (_ & _ & _ & R' & _)). destruct (M e' He') as (w & Hw & _). exists w. apply (R' (T e' He')), Hw.
      * destruct (Forall2_in_l _ _ _ _ E He) as (l' & Hl & (_ & _ & _ & R' & _)). exists l'. split; [exact Hl|]. apply (R' (T e He)), Q.
      * intros l' v' Hl Hv'. destruct (Forall2_in_r _ _ _ _ E Hl) as (e' & He' & (I' & _ & _ & R' & _)). destruct (M e' He') as (w & Hw & Le).
        apply (R' (T e' He')) in Hw. rewrite (pwl_fun _ _ _ _ I' Hv' Hw). lra.
  - intros p Hp t v H. cbn [sound_for] in Hp. rewrite forallb_forall in Hp. eapply KV; [exact H|].
    intros e l' v' He Hl (_ & _ & _ & _ & V & _) Hv'. eapply V; eauto.
  - intros p Hp v H. cbn [sound_first] in Hp. rewrite forallb_forall in Hp. eapply KV; [exact H|].
    intros e l' v' He Hl (_ & _ & _ & _ & _ & V) Hv'. eapply V; eauto.
Qed.

Lemma roll_dom sg l t : rincr l -> l <> [] -> (exists v, pwl (rroll sg l) t v) <-> (exists v, pwl l t v).
Proof.
  intros I N. rewrite dom_iff; [|apply rincr_rroll, I|destruct l; [congruence|discriminate]]. rewrite dom_iff by assumption.
  destruct (rroll_final sg l) as [-> ->]. reflexivity.
Qed.
Lemma roll_starts sg l : starts t0 l -> starts t0 (rroll sg l).
Proof. intros [N S]. destruct l; [congruence|]. split; [discriminate|exact S]. Qed.
Lemma roll_first sg comp l v : sg_comp sg comp -> rincr l -> starts t0 l -> pwl (rroll sg l) t0 v -> exists t', t0 <= t' /\ pwl l t' v.
Proof.
  intros SG I [N S] H. destruct l as [|p l]; [congruence|]. cbn in S. subst t0. eapply roll_attained_at; eauto. left. reflexivity.
Qed.

Lemma eval_always e i l : made_interval i -> evaluated lt t0 e l -> compute dbg fuel r e = Ok (fsig l) ->
  exists l', compute dbg fuel r (EAlways e i) = Ok (fsig l') /\ evaluated lt t0 (EAlways e i) l'.
Proof.
  intros M (I & S & D & R & V & W) E. pose proof S as [N _]. exists (rroll 1 l).
  assert (UP : forall t v t' v', pwl (rroll 1 l) t v -> t <= t' -> pwl l t' v' -> v <= v').
  { intros t v t' v' H1 H2 H3. pose proof (roll_bound 1 l t v t' v' I N H1 H2 H3). lra. }
  split; [cbn [compute]; rewrite E; cbn [bind]; rewrite temporal_xr by assumption; apply (seq_fsig 1 sample_le sg_le); assumption|].
  assert (POS : sound_for true e = true -> forall t v, pwl (rroll 1 l) t v -> bound lt (EAlways e i) true t v).
  { intros Hp t v H t' Ht Hi. apply D in Hi as (v' & Hv'). pose proof (UP t v t' v' H Ht Hv'). apply (bound_le lt e true t' v v'); [exact H0|]. apply (V true Hp t' v' Hv'). }
  split; [apply rincr_rroll, I|]. split; [apply roll_starts, S|]. split; [|split; [|split]].
  - intros t. rewrite roll_dom by assumption. apply D.
  - discriminate.
  - intros [] Hp t v H; [|discriminate]. apply (POS Hp t v H).
  - intros [] Hp v H; [apply (POS Hp t0 v H)|]. cbn [sound_first bound] in *.
    destruct (roll_first 1 sample_le l v sg_le I S H) as (t' & Ht & Hv). exists t'. split; [exact Ht|]. split; [apply D; eauto|]. apply (V false Hp t' v Hv).
Qed.
Lemma eval_eventually e i l : made_interval i -> evaluated lt t0 e l -> compute dbg fuel r e = Ok (fsig l) ->
  exists l', compute dbg fuel r (EEventually e i) = Ok (fsig l') /\ evaluated lt t0 (EEventually e i) l'.
Proof.
  intros M (I & S & D & R & V & W) E. pose proof S as [N _]. exists (rroll (-1) l).
  assert (UP : forall t v t' v', pwl (rroll (-1) l) t v -> t <= t' -> pwl l t' v' -> v' <= v).
  { intros t v t' v' H1 H2 H3. pose proof (roll_bound (-1) l t v t' v' I N H1 H2 H3). lra. }
  split; [cbn [compute]; rewrite E; cbn [bind]; rewrite temporal_xr by assumption; apply (seq_fsig (-1) sample_ge sg_ge); assumption|].
  assert (NEG : sound_for false e = true -> forall t v, pwl (rroll (-1) l) t v -> bound lt (EEventually e i) false t v).
  { intros Hp t v H t' Ht Hi. apply D in Hi as (v' & Hv'). pose proof (UP t v t' v' H Ht Hv'). apply (bound_le lt e false t' v v'); [exact H0|]. apply (V false Hp t' v' Hv'). }
  split; [apply rincr_rroll, I|]. split; [apply roll_starts, S|]. split; [|split; [|split]].
  - intros t. rewrite roll_dom by assumption. apply D.
  - discriminate.
  - intros [] Hp t v H; [discriminate|]. apply (NEG Hp t v H).
  - intros [] Hp v H; [|apply (NEG Hp t0 v H)]. cbn [sound_first bound] in *.
    destruct (roll_first (-1) sample_ge l v sg_ge I S H) as (t' & Ht & Hv). exists t'. split; [exact Ht|]. split; [apply D; eauto|]. apply (V true Hp t' v Hv).
Qed.

Lemma eval_until a b i la lb : evaluated lt t0 a la -> evaluated lt t0 b lb -> compute dbg fuel r a = Ok (fsig la) -> compute dbg fuel r b = Ok (fsig lb) ->
  made_interval i ->
  exists l', compute dbg fuel r (EUntil a b i) = Ok (fsig l') /\ evaluated lt t0 (EUntil a b i) l'.
Proof.
  intros (Ia & Sa & Da & _ & Va & _) (Ib & Sb & Db & _ & Vb & _) Ea Eb M. destruct (until_exact dbg la lb t0 Ia Ib Sa Sb) as (l & E & I & S & F & BEL).
  exists l. split.
  { cbn [compute]. rewrite Ea, Eb. cbn [bind]. unfold rob_until. destruct (has_value i) eqn:V; cbn [negb]; [|exact E].
    destruct (as_double i) as [u w] eqn:Q. destruct (made_xr i u w M V Q) as [-> ->]. change (neqb (Fin 0) nzero) with (neqb (Fin 0) (Fin 0)). rewrite fin_eq_refl. exact E. }
  split; [exact I|]. split; [exact S|]. split; [|split; [|split]]; try discriminate.
  2: { intros [] Hp v Hv; [discriminate|]. cbn [sound_first negb andb] in Hp. apply andb_prop in Hp as [Hp1 Hp2]. cbn [bound]. intros t' Ht Ha Hb.
       apply Da in Ha as (va & Ha). apply Db in Hb as (vb & Hb). assert (Da' := Ha). assert (Db' := Hb).
       apply pwl_pw in Da' as [Ba _]; [|exact Ia|apply Sa]. apply pwl_pw in Db' as [Bb Eb']; [|exact Ib|apply Sb].
       destruct (BEL v Hv t') as [Q|(u & Hu & Q)].
       - split; [exact Ht|]. apply Rmin_glb; lra.
       - left. apply (bound_le lt b false t' v vb); [cbn; lra|]. apply (Vb false Hp2 t' vb Hb).
       - right. exists u. split; [exact Hu|]. apply (bound_le lt a false u v (pw la u)); [exact Q|]. apply (Va false Hp1).
         apply pwl_pw; [exact Ia|apply Sa|]. split; [|reflexivity]. rewrite (proj2 Sa) in *. lra. }
  intros t. rewrite dom_iff; [|exact I|apply S]. rewrite (proj2 S), F.
  assert (inside lt (EUntil a b i) t <-> inside lt a t /\ inside lt b t) as ->.
  { unfold inside. cbn [names]. split; [intros H; split; intros n Hn; apply H, in_or_app; auto|]. intros [H1 H2] n Hn. apply in_app_or in Hn as [Hn|Hn]; auto. }
  rewrite <- Da, <- Db, !dom_iff by (assumption || apply Sa || apply Sb). rewrite (proj2 Sa), (proj2 Sb). unfold Rmin. destruct (Rle_dec _ _); lra.
Qed.

Lemma evaluable_sub phi e : evaluable lt phi -> (forall x, In x (subs e) -> In x (subs phi)) -> (free_of is_const phi = true -> free_of is_const e = true) ->
  (free_of (short 1) phi = true -> free_of (short 1) e = true) -> (forall n, In n (names e) -> In n (names phi)) -> evaluable lt e.
Proof.
  intros (A & B & C & D & E) H1 H2 H3 H4. split; [auto|]. split; [auto|]. split; [intros x Hx; apply C, H1, Hx|]. split; [intros x Hx; apply D, H1, Hx|].
  intros n Hn. apply E, H4, Hn.
Qed.

Lemma evaluable_in es e : evaluable lt (EAnd es) -> In e es -> evaluable lt e.
Proof.
  intros H He. apply (evaluable_sub _ e H).
  - intros x Hx. right. apply in_flat_map. eauto.
  - cbn [free_of is_const negb andb]. rewrite forallb_forall. auto.
  - cbn [free_of short]. intros Q. apply andb_prop in Q as [_ Q]. rewrite forallb_forall in Q. auto.
  - intros n Hn. cbn [names]. apply in_flat_map. eauto.
Qed.

Lemma eval_main phi : evaluable lt phi -> exists l, compute dbg fuel r phi = Ok (fsig l) /\ evaluated lt t0 phi l.
Proof.
  assert (LISTS : forall es, Forall (fun e => evaluable lt e -> exists l, compute dbg fuel r e = Ok (fsig l) /\ evaluated lt t0 e l) es ->
    (forall e, In e es -> evaluable lt e) -> exists ls, Forall2 (fun e l => compute dbg fuel r e = Ok (fsig l)) es ls /\ Forall2 (evaluated lt t0) es ls).
  { induction 1 as [|e es H _ IH]; intros Q; [exists []; split; constructor|].
    destruct (H (Q e (or_introl eq_refl))) as (l & C & E). destruct IH as (ls & C' & E'); [intros; apply Q; right; assumption|]. exists (l :: ls). split; constructor; assumption. }
  induction phi using expr_rec; intros HE.
  - destruct HE as [HE _]. discriminate.
  - apply eval_pred, HE.
  - destruct IHphi as (l & C & E); [|eapply eval_not; eauto]. apply (evaluable_sub _ phi HE); auto. intros x Hx. right. exact Hx.
  - destruct (LISTS l H) as (ls & C & E); [intros e; apply evaluable_in, HE|]. eapply eval_and; eauto. intros ->. destruct HE as (_ & HE & _). discriminate.
  - assert (HE' : evaluable lt (EAnd l)).
    { destruct HE as (A & B & C & D & E). split; [exact A|]. split; [exact B|]. split; [|split; [|exact E]].
      - intros e [<-|He]; [exact I|]. apply C. right. exact He.
      - intros e [<-|He]; [exact I|]. apply D. right. exact He. }
    destruct (LISTS l H) as (ls & C & E); [intros e; apply evaluable_in, HE'|]. eapply eval_or; eauto. intros ->. destruct HE as (_ & HE & _). discriminate.
  - destruct IHphi as (l & C & E); [apply (evaluable_sub _ phi HE); auto; intros x Hx; right; exact Hx|]. eapply eval_always; eauto.
    destruct HE as (_ & _ & HE & _). apply (HE _ (or_introl eq_refl)).
  - destruct IHphi as (l & C & E); [apply (evaluable_sub _ phi HE); auto; intros x Hx; right; exact Hx|]. eapply eval_eventually; eauto.
    destruct HE as (_ & _ & HE & _). apply (HE _ (or_introl eq_refl)).
  - assert (H1 : evaluable lt phi1).
    { apply (evaluable_sub _ phi1 HE).
      - intros x Hx. right. apply in_or_app. auto.
      - cbn [free_of is_const negb andb]. intros Q. apply andb_prop in Q as [Q _]. exact Q.
      - cbn [free_of short negb andb]. intros Q. apply andb_prop in Q as [Q _]. exact Q.
      - intros n Hn. apply in_or_app. auto. }
    assert (H2 : evaluable lt phi2).
    { apply (evaluable_sub _ phi2 HE).
      - intros x Hx. right. apply in_or_app. auto.
      - cbn [free_of is_const negb andb]. intros Q. apply andb_prop in Q as [_ Q]. exact Q.
      - cbn [free_of short negb andb]. intros Q. apply andb_prop in Q as [_ Q]. exact Q.
      - intros n Hn. apply in_or_app. auto. }
    destruct (IHphi1 H1) as (la & Ca & Ea). destruct (IHphi2 H2) as (lb & Cb & Eb). eapply eval_until; eauto. destruct HE as (_ & _ & HE & _). apply (HE _ (or_introl eq_refl)).
Qed.
End Main.

Lemma C35_lemma dbg fuel lt tr t0 phi s : trace_of lt tr -> keys_unique tr -> all_start lt t0 -> evaluable lt phi -> free_of is_temporal phi = true ->
  exists l z, compute_robustness dbg fuel phi tr s = Ok z /\ built l z /\ forall t v, pwl l t v <-> rho lt phi t v.
Proof.
  intros T K A E B. destruct (eval_main dbg fuel lt tr t0 (mkRob (trace_begin tr) (trace_end tr) tr) T K A eq_refl phi E) as (l & C & I & S & D & R & _).
  exists l, (fsig l). split; [exact C|]. split; [apply built_iff; auto|]. apply R, B.
Qed.
Lemma value_fun lt tr t0 : trace_of lt tr -> keys_unique tr -> all_start lt t0 ->
  forall n t v w, value_at lt n t v -> value_at lt n t w -> v = w.
Proof.
  intros T K A n t a b Ha Hb. pose proof Ha as (la & La & _). destruct (named lt tr t0 (mkRob (trace_begin tr) (trace_end tr) tr) T K A eq_refl n (ex_intro _ la La)) as (l' & _ & I & _ & V).
  apply V in Ha, Hb. eapply pwl_fun; eauto.
Qed.
Lemma C80_lemma dbg fuel lt tr t0 phi s : trace_of lt tr -> keys_unique tr -> all_start lt t0 -> evaluable lt phi ->
  exists l z, compute_robustness dbg fuel phi tr s = Ok z /\ built l z /\
    (forall t, (exists v, pwl l t v) <-> inside lt phi t) /\
    (forall p, sound_for p phi = true -> forall t v, pwl l t v -> bound lt phi p t v) /\
    (forall p, sound_first p phi = true -> forall v, pwl l t0 v -> bound lt phi p t0 v).
Proof.
  intros T K A E. destruct (eval_main dbg fuel lt tr t0 (mkRob (trace_begin tr) (trace_end tr) tr) T K A eq_refl phi E) as (l & C & I & S & D & R & V & W).
  exists l, (fsig l). split; [exact C|]. split; [apply built_iff; auto|]. split; [exact D|]. split; [exact V|exact W].
Qed.
Lemma C36_lemma dbg fuel lt tr t0 phi s : trace_of lt tr -> keys_unique tr -> all_start lt t0 -> evaluable lt phi ->
  exists l z, compute_robustness dbg fuel phi tr s = Ok z /\ built l z /\
    (forall t, (exists v, pwl l t v) <-> inside lt phi t) /\
    (sound_for true phi = true -> forall t v, pwl l t v -> 0 < v -> sat lt phi t) /\
    (sound_for false phi = true -> forall t v, pwl l t v -> v < 0 -> ~ sat lt phi t) /\
    (sound_first true phi = true -> forall v, pwl l t0 v -> 0 < v -> sat lt phi t0) /\
    (sound_first false phi = true -> forall v, pwl l t0 v -> v < 0 -> ~ sat lt phi t0).
Proof.
  intros T K A E. pose proof (value_fun lt tr t0 T K A) as VF. destruct (C80_lemma dbg fuel lt tr t0 phi s T K A E) as (l & z & C & B & D & V & W).
  exists l, z. split; [exact C|]. split; [exact B|]. split; [exact D|].
  split; [intros Hp t v H Sg; exact (bound_verdict lt phi VF true t v (V true Hp t v H) Sg)|].
  split; [intros Hp t v H Sg; exact (bound_verdict lt phi VF false t v (V false Hp t v H) Sg)|].
  split; [intros Hp v H Sg; exact (bound_verdict lt phi VF true t0 v (W true Hp v H) Sg)|].
  intros Hp v H Sg; exact (bound_verdict lt phi VF false t0 v (W false Hp v H) Sg).
Qed.
Lemma C47_lemma dbg fuel lt tr t0 phi s : trace_of lt tr -> keys_unique tr -> all_start lt t0 -> evaluable lt phi ->
  exists l z, compute_robustness dbg fuel phi tr s = Ok z /\ built l z /\ l <> [] /\ first_time l = t0 /\
    forall t, (exists v, pwl l t v) <-> inside lt phi t.
Proof.
  intros T K A E. destruct (eval_main dbg fuel lt tr t0 (mkRob (trace_begin tr) (trace_end tr) tr) T K A eq_refl phi E) as (l & C & I & S & D & _).
  exists l, (fsig l). split; [exact C|]. split; [apply built_iff; auto|]. split; [apply S|]. split; [apply S|]. exact D.
Qed.
