(** Elementwise min/max in exact arithmetic. *)
From Coq Require Import Sorted Reals Lra Psatz.
From Flocq Require Import Core.Raux.
From Verif Require Import Base Num NumXR.
From Verif.Model Require Import Signal MinMax.
From Verif.Spec Require Import SignalSpec Pwl.
From Verif.Proofs Require Import NumFacts SignalFacts PwlFacts SyncExact SampleFacts.
Open Scope R_scope.

(** [sg] is 1 for the minimum and -1 for the maximum. *)
Definition sg_comp (sg : R) (comp : sample XR -> sample XR -> bool) : Prop :=
  sg <> 0 /\ forall a b x y, s_value a = Fin x -> s_value b = Fin y -> comp a b = Rle_bool (sg * x) (sg * y).

Lemma sg_le : sg_comp 1 sample_le.
Proof.
  split; [lra|]. intros a b x y Ha Hb. unfold sample_le, sample_gt, sample_lt. rewrite Ha, Hb.
  change nltb with xlt. rewrite fin_lt. case Rlt_bool_spec; case Rle_bool_spec; intros; try reflexivity; exfalso; lra.
Qed.
Lemma sg_ge : sg_comp (-1) sample_ge.
Proof.
  split; [lra|]. intros a b x y Ha Hb. unfold sample_ge, sample_lt. rewrite Ha, Hb.
  change nltb with xlt. rewrite fin_lt. case Rlt_bool_spec; case Rle_bool_spec; intros; try reflexivity; exfalso; lra.
Qed.

(** [h] is pointwise the better of [a] and [b]. *)
Definition best (sg : R) (h a b : R -> R) : Prop :=
  forall t, (sg * a t <= sg * b t -> h t = a t) /\ (sg * b t <= sg * a t -> h t = b t).

Lemma best_sym sg h a b : best sg h a b -> best sg h b a.
Proof. intros H t. destruct (H t). auto. Qed.
Lemma best_min a b : best 1 (fun t => Rmin (a t) (b t)) a b.
Proof. intros t. split; intros; [apply Rmin_left|apply Rmin_right]; lra. Qed.
Lemma best_max a b : best (-1) (fun t => Rmax (a t) (b t)) a b.
Proof. intros t. split; intros; [apply Rmax_left|apply Rmax_right]; lra. Qed.

Lemma fsig_push pre t0 v0 t v s : t0 < t -> s_time s = Fin t -> s_value s = Fin v ->
  push_back (fsig (pre ++ [(t0, v0)])) s = Ok (fsig (pre ++ [(t0, v0); (t, v)])).
Proof.
  intros L Ht Hv. unfold fsig. rewrite map_app. cbn [map]. rewrite push_back_snoc, Ht, Hv. cbn [inj fst snd].
  change nleb with xle. rewrite fin_le, Rle_bool_false by exact L. rewrite map_app. reflexivity.
Qed.

(** A sample whose derivative describes [g] up to [t]. *)
Definition tangent (g : R -> R) (t0 t m : R) : Prop := forall u, t0 <= u <= t -> g u = g t0 + m * (u - t0).

Lemma tangent_affine g t0 t m : tangent g t0 t m -> affine_on g t0 t.
Proof. intros H. exists m, (g t0 - m * t0). intros u Hu. rewrite (H u Hu). ring. Qed.

Lemma tangent_graph g t0 t ts p xs : achain g t0 (t :: ts) -> p :: xs = fsig (graph g (t0 :: t :: ts)) ->
  exists m, p = fsample t0 (g t0) m /\ tangent g t0 t m /\ xs = fsig (graph g (t :: ts)).
Proof.
  intros (L & (m & c & A) & _) E. cbn [graph map] in E. pose proof (fsig_head _ _ _ _ E) as (E1 & E2 & E3 & E4).
  rewrite slope_inj in E4 by exact L. cbn [fst snd] in *.
  exists m. split; [|split; [|exact E3]].
  - destruct p as [pt pv pd]. cbn in *. subst. unfold fsample. f_equal. f_equal.
    rewrite (A t0), (A t) by lra. field. lra.
  - intros u Hu. rewrite (A u Hu), (A t0) by lra. ring.
Qed.

Section Pair.
Variables (sg : R) (comp : sample XR -> sample XR -> bool).
Hypothesis SG : sg_comp sg comp.

(** No crossing: the same function is the better one at both ends. *)
Lemma stay h a b t0 t : best sg h a b -> affine_on a t0 t -> affine_on b t0 t -> t0 < t ->
  sg * a t0 <= sg * b t0 -> sg * a t <= sg * b t -> affine_on h t0 t.
Proof.
  intros B Aa (mb & cb & Hb) L H0 H1. eapply affine_ext; [|exact Aa]. intros u Hu. symmetry. apply B.
  destruct Aa as (ma & ca & Ha). rewrite (Ha t0), (Hb t0) in H0 by lra. rewrite (Ha t), (Hb t) in H1 by lra.
  rewrite (Ha u), (Hb u) by lra. 
  set (d := sg * mb - sg * ma) in *. set (e := sg * cb - sg * ca) in *.
  assert (0 <= d * t0 + e) by (unfold d, e; nra). assert (0 <= d * t + e) by (unfold d, e; nra).
  assert (0 <= d * u + e); [|unfold d, e in *; nra].
  destruct (Rle_dec 0 d); nra.
Qed.

Lemma step_switch h gw gl mw ml pre t0 t win : best sg h gw gl ->
  tangent gw t0 t mw -> tangent gl t0 t ml -> t0 < t ->
  sg * gl t0 <= sg * gw t0 -> sg * gw t <= sg * gl t ->
  (sg * gl t0 < sg * gw t0 \/ sg * gw t < sg * gl t) ->
  s_time win = Fin t -> s_value win = Fin (gw t) ->
  exists us, pair_step (fsig (pre ++ [(t0, h t0)])) true (Some (fsample t0 (gw t0) mw)) (Some (fsample t0 (gl t0) ml)) win =
      Ok (fsig (pre ++ graph h (t0 :: us))) /\ achain h t0 us /\ last_from t0 us = t /\ In t us.
Proof.
  intros B Tw Tl L H0 H1 S Wt Wv.
  assert (Ew : gw t = gw t0 + mw * (t - t0)) by (apply Tw; lra).
  assert (El : gl t = gl t0 + ml * (t - t0)) by (apply Tl; lra).
  assert (D : ml <> mw).
  { intros ->. rewrite Ew, El in *. assert (sg * (mw * (t - t0)) = sg * mw * (t - t0)) by ring. rewrite !Rmult_plus_distr_l in *. lra. }
  unfold pair_step. rewrite intersect_fin by exact D.
  set (c := (gl t0 - gw t0 + mw * t0 - ml * t0) / (mw - ml)).
  assert (Ec : c - t0 = (gl t0 - gw t0) / (mw - ml)) by (unfold c; field; lra).
  set (k := sg * (mw - ml)) in *.
  assert (K0 : sg * (gl t0 - gw t0) = k * (c - t0)) by (rewrite Ec; unfold k; field; lra).
  assert (K1 : sg * (gl t - gw t) = k * (c - t)).
  { rewrite Ew, El. replace (sg * (gl t0 + ml * (t - t0) - (gw t0 + mw * (t - t0)))) with (sg * (gl t0 - gw t0) - k * (t - t0)) by (unfold k; ring).
    rewrite K0. ring. }
  assert (Kn : k < 0).
  { assert (k <> 0) by (unfold k; apply Rmult_integral_contrapositive_currified; [apply SG|lra]).
    assert (Q : k * (c - t0) <= 0) by (rewrite <- K0; lra). assert (Q1 : 0 <= k * (c - t)) by (rewrite <- K1; lra). nra. }
  assert (C0 : t0 <= c) by (assert (Q : k * (c - t0) <= 0) by (rewrite <- K0; lra); nra).
  assert (C1 : c <= t) by (assert (Q : 0 <= k * (c - t)) by (rewrite <- K1; lra); nra).
  (* below c the loser is better, after it the winner *)
  assert (Kd : forall u, t0 <= u <= t -> sg * (gl u - gw u) = k * (c - u)).
  { intros u Hu. rewrite (Tw u Hu), (Tl u Hu).
    replace (sg * (gl t0 + ml * (u - t0) - (gw t0 + mw * (u - t0)))) with (sg * (gl t0 - gw t0) - k * (u - t0)) by (unfold k; ring).
    rewrite K0. ring. }
  assert (Hl : forall u, t0 <= u <= c -> h u = gl u).
  { intros u Hu. apply B. assert (sg * (gl u - gw u) <= 0); [|lra]. rewrite Kd by lra. nra. }
  assert (Hw : forall u, c <= u <= t -> h u = gw u).
  { intros u Hu. apply B. assert (0 <= sg * (gl u - gw u)); [|lra]. rewrite Kd by lra. nra. }
  pose proof (tangent_affine _ _ _ _ Tw) as Aw. pose proof (tangent_affine _ _ _ _ Tl) as Al.
  rewrite end_fsig, final_snoc. cbn [fst]. rewrite Wt.
  change (@nltb XR _) with xlt. change (@neqb XR _) with xeq. rewrite fin_lt, fin_eq.
  case Rlt_bool_spec; intros Cl; [case Req_bool_spec; intros Ct|]; cbn [andb negb bind].
  - exists [t]. rewrite (fsig_push _ _ _ t (gw t)) by auto. rewrite <- (Hw t) by lra.
    split; [reflexivity|]. cbn. repeat split; auto.
    eapply affine_ext; [|exact Al]. intros u Hu. symmetry. apply Hl. lra.
  - rewrite (fsig_push _ _ _ c (h c)) by (cbn; auto; rewrite Hl by lra; change (fst (t0, 0)) with t0; f_equal; symmetry; apply Tl; lra).
    cbn [bind]. exists [c; t].
    replace (pre ++ [(t0, h t0); (c, h c)]) with ((pre ++ [(t0, h t0)]) ++ [(c, h c)]) by (rewrite <- app_assoc; reflexivity).
    rewrite (fsig_push _ _ _ t (gw t)) by (auto; lra). rewrite <- (Hw t) by lra. rewrite <- app_assoc.
    split; [reflexivity|]. cbn. repeat split; auto; try lra.
    + eapply affine_ext; [|eapply affine_sub; [| |exact Al]; lra]. intros u Hu. symmetry. apply Hl. lra.
    + eapply affine_ext; [|eapply affine_sub; [| |exact Aw]; lra]. intros u Hu. symmetry. apply Hw. lra.
  - exists [t]. rewrite (fsig_push _ _ _ t (gw t)) by auto. rewrite <- (Hw t) by lra.
    split; [reflexivity|]. cbn. repeat split; auto.
    eapply affine_ext; [|exact Aw]. intros u Hu. symmetry. apply Hw. lra.
Qed.

Definition choice (gx gy : R -> R) (t : R) : chosen := if Rle_dec (sg * gx t) (sg * gy t) then ChX else ChY.

Lemma last_from_app t0 us vs : last_from t0 (us ++ vs) = last_from (last_from t0 us) vs.
Proof. revert t0. induction us as [|u us IH]; intros t0; cbn; auto. Qed.
Lemma achain_app g t0 us vs : achain g t0 us -> achain g (last_from t0 us) vs -> achain g t0 (us ++ vs).
Proof. revert t0. induction us as [|u us IH]; intros t0; cbn; [auto|]. intros (A & B & C) D. auto. Qed.
Lemma graph_app g us vs : graph g (us ++ vs) = graph g us ++ graph g vs.
Proof. apply map_app. Qed.
Lemma graph_snoc g t0 us : exists pre, graph g (t0 :: us) = pre ++ [(last_from t0 us, g (last_from t0 us))].
Proof.
  revert t0. induction us as [|u us IH]; intros t0; [exists []; reflexivity|].
  destruct (IH u) as (pre & E). exists ((t0, g t0) :: pre). cbn [graph map last_from app]. cbn [graph map] in E. rewrite E. reflexivity.
Qed.

Lemma pair_loop_exact h gx gy : best sg h gx gy -> forall ts t0 pi pj pre,
  achain gx t0 ts -> achain gy t0 ts ->
  hd_error (fsig (graph gx (t0 :: ts))) = Some pi -> hd_error (fsig (graph gy (t0 :: ts))) = Some pj ->
  exists us, pair_loop comp (Some pi) (Some pj) (fsig (graph gx ts)) (fsig (graph gy ts)) (choice gx gy t0)
      (fsig (pre ++ [(t0, h t0)])) = Ok (fsig (pre ++ graph h (t0 :: us))) /\
    achain h t0 us /\ last_from t0 us = last_from t0 ts /\ incl ts us.
Proof.
  intros B. induction ts as [|t ts IH]; intros t0 pi pj pre Ax Ay Hi Hj.
  - exists []. repeat split. intros ? [].
  - destruct (fsig (graph gx (t0 :: t :: ts))) as [|pi' xs] eqn:Ex; [discriminate|].
    destruct (fsig (graph gy (t0 :: t :: ts))) as [|pj' ys] eqn:Ey; [discriminate|].
    cbn in Hi, Hj. injection Hi as ->. injection Hj as ->. symmetry in Ex, Ey.
    destruct (tangent_graph _ _ _ _ _ _ Ax Ex) as (mx & -> & Tx & Exs).
    destruct (tangent_graph _ _ _ _ _ _ Ay Ey) as (my & -> & Ty & Eys).
    destruct Ax as (L & Aax & Ax). destruct Ay as (_ & Aay & Ay).
    destruct xs as [|i xs]; [cbn [graph map] in Exs; rewrite fsig_cons in Exs; discriminate|]. destruct ys as [|j ys]; [cbn [graph map] in Eys; rewrite fsig_cons in Eys; discriminate|].
    rewrite <- Exs, <- Eys. cbn [graph map] in Exs, Eys.
    pose proof (fsig_head _ _ _ _ Exs) as (It & Iv & Ei & _). pose proof (fsig_head _ _ _ _ Eys) as (Jt & Jv & Ej & _).
    cbn [fst snd] in *. cbn [pair_loop].
    assert (STEP : exists us out, (if comp i j
        then pair_step (fsig (pre ++ [(t0, h t0)])) (chosen_eqb (choice gx gy t0) ChY) (Some (fsample t0 (gx t0) mx)) (Some (fsample t0 (gy t0) my)) i
        else pair_step (fsig (pre ++ [(t0, h t0)])) (chosen_eqb (choice gx gy t0) ChX) (Some (fsample t0 (gy t0) my)) (Some (fsample t0 (gx t0) mx)) j) = Ok out /\
        out = fsig (pre ++ graph h (t0 :: us)) /\ achain h t0 us /\ last_from t0 us = t /\ In t us /\
        choice gx gy t = (if comp i j then ChX else ChY)).
    { rewrite (proj2 SG _ _ _ _ Iv Jv). unfold choice.
      destruct (Rle_dec (sg * gx t0) (sg * gy t0)) as [C0|C0]; case Rle_bool_spec; intros C1; cbn [chosen_eqb].
      - exists [t]. eexists. unfold pair_step. cbn [bind]. pose proof (proj1 (B t) C1) as Ev. rewrite (fsig_push _ _ _ t (h t)) by (rewrite ?Ev; auto). split; [reflexivity|].
        split; [reflexivity|]. cbn. repeat split; auto.
        + eapply stay; eauto.
        + destruct (Rle_dec (sg * gx t) (sg * gy t)); [reflexivity|lra].
      - destruct (step_switch h gy gx my mx pre t0 t j) as (us & E1 & E2 & E3 & E4); auto; try lra; [apply best_sym, B|].
        exists us. eexists. split; [exact E1|]. repeat split; auto. destruct (Rle_dec (sg * gx t) (sg * gy t)); [lra|reflexivity].
      - destruct (step_switch h gx gy mx my pre t0 t i) as (us & E1 & E2 & E3 & E4); auto; try lra.
        exists us. eexists. split; [exact E1|]. repeat split; auto. destruct (Rle_dec (sg * gx t) (sg * gy t)); [reflexivity|lra].
      - exists [t]. eexists. unfold pair_step. cbn [bind]. assert (C1' : sg * gy t <= sg * gx t) by lra. assert (C0' : sg * gy t0 <= sg * gx t0) by lra.
        pose proof (proj2 (B t) C1') as Ev. rewrite (fsig_push _ _ _ t (h t)) by (rewrite ?Ev; auto). split; [reflexivity|]. split; [reflexivity|]. cbn. repeat split; auto.
        + eapply (stay h gy gx); eauto. apply best_sym, B.
        + destruct (Rle_dec (sg * gx t) (sg * gy t)); [lra|reflexivity]. }
    destruct STEP as (us & out & E1 & E2 & E3 & E4 & E5 & E6).
    destruct (graph_snoc h t0 us) as (pre' & Ep). rewrite E4 in Ep.
    destruct (IH t i j (pre ++ pre')) as (vs & V1 & V2 & V3 & V4); auto.
    { cbn [graph map]. rewrite <- Exs. reflexivity. } { cbn [graph map]. rewrite <- Eys. reflexivity. }
    exists (us ++ vs). split; [|split; [|split]].
    + assert (O : out = fsig ((pre ++ pre') ++ [(t, h t)])) by (rewrite E2, Ep, app_assoc; reflexivity).
      assert (Q : fsig ((pre ++ pre') ++ graph h (t :: vs)) = fsig (pre ++ graph h (t0 :: us ++ vs))).
      { f_equal. rewrite <- app_assoc. f_equal. change (t0 :: us ++ vs) with ((t0 :: us) ++ vs). rewrite graph_app, Ep, <- app_assoc. reflexivity. }
      rewrite <- Q, <- V1. rewrite E6. unfold graph. rewrite Ei, Ej. 
      destruct (comp i j); rewrite E1; cbn [bind]; rewrite O; reflexivity.
    + apply achain_app; [exact E3|]. rewrite E4. exact V2.
    + rewrite last_from_app, E4. exact V3.
    + intros u [<-|Hu]; apply in_or_app; [left; exact E5|right; apply V4, Hu].
Qed.

(** The whole loop. *)
Lemma pair_exact h gx gy t0 ts : best sg h gx gy -> achain gx t0 ts -> achain gy t0 ts ->
  exists us, pair_loop comp None None (fsig (graph gx (t0 :: ts))) (fsig (graph gy (t0 :: ts))) ChNone [] =
      Ok (fsig (graph h (t0 :: us))) /\ achain h t0 us /\ last_from t0 us = last_from t0 ts /\ incl ts us.
Proof.
  intros B Ax Ay.
  destruct (fsig (graph gx (t0 :: ts))) as [|i xs] eqn:Ex; [cbn [graph map] in Ex; rewrite fsig_cons in Ex; discriminate|].
  destruct (fsig (graph gy (t0 :: ts))) as [|j ys] eqn:Ey; [cbn [graph map] in Ey; rewrite fsig_cons in Ey; discriminate|].
  destruct (pair_loop_exact h gx gy B ts t0 i j [] Ax Ay) as (us & E & R).
  { rewrite Ex. reflexivity. } { rewrite Ey. reflexivity. }
  exists us. split; [|exact R]. cbn [app] in E. rewrite <- E. symmetry in Ex, Ey. cbn [graph map] in Ex, Ey.
  pose proof (fsig_head _ _ _ _ Ex) as (It & Iv & Ei & _). pose proof (fsig_head _ _ _ _ Ey) as (Jt & Jv & Ej & _).
  cbn [pair_loop]. rewrite (proj2 SG _ _ _ _ Iv Jv). cbn [fst snd chosen_eqb].
  unfold pair_step. cbn [bind chosen_eqb]. rewrite !push_back_nil. cbn [bind app].
  unfold choice. destruct (B t0) as [B1 B2]. unfold graph. rewrite Ei, Ej.
  case Rle_bool_spec; intros C; cbn [bind]; rewrite ?It, ?Iv, ?Jt, ?Jv; cbn [fst snd].
  - destruct (Rle_dec (sg * gx t0) (sg * gy t0)); [|lra]. rewrite B1 by lra. reflexivity.
  - destruct (Rle_dec (sg * gx t0) (sg * gy t0)); [lra|]. rewrite B2 by lra. reflexivity.
Qed.
End Pair.
