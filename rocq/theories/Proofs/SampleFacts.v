(** C21-C23. *)
From Coq Require Import Reals Lra Psatz.
From Flocq Require Import Core.Raux.
From Verif Require Import Base Num NumXR.
From Verif.Model Require Import Signal.
From Verif.Proofs Require Import NumFacts PwlFacts.
Open Scope R_scope.

Definition fsample (t v d : R) : sample XR := mkSample (Fin t) (Fin v) (Fin d).

Lemma interp_fin t v d u : interpolate (fsample t v d) (Fin u) = Fin (v + d * (u - t)).
Proof. reflexivity. Qed.

Lemma intersect_fin t v d t' v' d' : d <> d' ->
  time_intersect (fsample t v d) (fsample t' v' d') = Fin ((v - v' + d' * t' - d * t) / (d' - d)).
Proof.
  intros H. unfold time_intersect. cbn [fsample s_time s_value s_deriv].
  change (@ndiv XR _) with xdiv. cbn. rewrite Req_bool_false by lra. reflexivity.
Qed.

Lemma intersect_correct t v d t' v' d' : d <> d' ->
  exists u w, time_intersect (fsample t v d) (fsample t' v' d') = Fin u /\
    interpolate (fsample t v d) (Fin u) = Fin w /\ interpolate (fsample t' v' d') (Fin u) = Fin w /\
    (forall u' : R, interpolate (fsample t v d) (Fin u') = interpolate (fsample t' v' d') (Fin u') -> u' = u).
Proof.
  intros H. rewrite intersect_fin by exact H. eexists. exists (v + d * ((v - v' + d' * t' - d * t) / (d' - d) - t)).
  split; [reflexivity|]. rewrite !interp_fin. split; [reflexivity|]. split.
  - f_equal. field. lra.
  - intros u' E. rewrite !interp_fin in E. injection E as E.
    apply Rmult_eq_reg_r with (d' - d); [|lra]. unfold Rdiv. rewrite Rmult_assoc, Rinv_l, Rmult_1_r by lra. lra.
Qed.

Lemma intersect_inside t v d v' d' u : t < u ->
  (v < v' /\ v' + d' * (u - t) < v + d * (u - t)) \/ (v' < v /\ v + d * (u - t) < v' + d' * (u - t)) ->
  exists c, time_intersect (fsample t v d) (fsample t v' d') = Fin c /\ t < c < u.
Proof.
  intros L H. assert (d <> d') by (intros ->; destruct H; lra).
  rewrite intersect_fin by assumption. eexists. split; [reflexivity|].
  assert (E : (v - v' + d' * t - d * t) / (d' - d) = t + (v - v') / (d' - d)) by (field; lra). rewrite E.
  destruct H as [[H1 H2]|[H1 H2]].
  - assert (P : 0 < d - d') by nra. replace ((v - v') / (d' - d)) with ((v' - v) / (d - d')) by (field; lra).
    assert (0 < (v' - v) / (d - d')) by (apply Rdiv_lt_0_compat; lra).
    assert ((v' - v) / (d - d') < u - t); [|lra].
    apply Rmult_lt_reg_r with (d - d'); [lra|]. unfold Rdiv. rewrite Rmult_assoc, Rinv_l, Rmult_1_r by lra. nra.
  - assert (P : 0 < d' - d) by nra.
    assert (0 < (v - v') / (d' - d)) by (apply Rdiv_lt_0_compat; lra).
    assert ((v - v') / (d' - d) < u - t); [|lra].
    apply Rmult_lt_reg_r with (d' - d); [lra|]. unfold Rdiv. rewrite Rmult_assoc, Rinv_l, Rmult_1_r by lra. nra.
Qed.

(** The integral by the standard library's Riemann integral. *)
From Coq Require Import RiemannInt Ranalysis.

Lemma area_integral t v d u : t < u ->
  exists a, area (fsample t v d) (Fin u) = Fin a /\
    forall (pr : Riemann_integrable (fun x => v + d * (x - t)) t u), RiemannInt pr = a.
Proof.
  intros L. unfold area. cbn [fsample s_time s_value s_deriv].
  change (@nltb XR _) with xlt. rewrite fin_lt, Rlt_bool_true by exact L.
  change (@ndiv XR _) with xdiv. unfold interpolate. cbn [s_time s_value s_deriv].
  eexists. split.
  - cbn. rewrite Req_bool_false by lra. reflexivity.
  - intros pr. cbn.
    set (G := fun x => v * x + d * (x * x / 2 - t * x)).
    assert (D : forall x, derivable_pt_lim G x (v + d * (x - t))).
    { intros x. unfold G.
      replace (v + d * (x - t)) with (v * 1 + d * ((1 * x + x * 1) * / 2 - t * 1)) by field.
      apply (derivable_pt_lim_plus (fun x => v * x) (fun x => d * (x * x / 2 - t * x))).
      - apply (derivable_pt_lim_scal id v x 1). apply derivable_pt_lim_id.
      - apply (derivable_pt_lim_scal (fun x => x * x / 2 - t * x) d x).
        apply (derivable_pt_lim_minus (fun x => x * x / 2) (fun x => t * x)).
        + unfold Rdiv. replace ((1 * x + x * 1) * / 2) with (/2 * (1 * x + x * 1)) by ring.
          assert (E : derivable_pt_lim (fun x => /2 * (x * x)) x (/2 * (1 * x + x * 1))).
          { apply (derivable_pt_lim_scal (fun x => x * x) (/2) x).
            apply (derivable_pt_lim_mult id id x 1 1); apply derivable_pt_lim_id. }
          intros eps He. destruct (E eps He) as [del Hd]. exists del. intros h Hh1 Hh2. specialize (Hd h Hh1 Hh2).
          replace ((x + h) * (x + h) * / 2 - x * x * / 2) with (/ 2 * ((x + h) * (x + h)) - / 2 * (x * x)) by ring. exact Hd.
        + apply (derivable_pt_lim_scal id t x 1). apply derivable_pt_lim_id. }
    assert (C : forall x, t <= x <= u -> continuity_pt (fun x => v + d * (x - t)) x).
    { intros x _. reg. }
    assert (prG : antiderivative (fun x => v + d * (x - t)) G t u).
    { split; [|lra]. intros x Hx. exists (exist _ _ (D x)). reflexivity. }
    assert (h : t <= u) by lra.
    pose proof (RiemannInt_P29 h C) as A1.
    destruct (antiderivative_Ucte _ _ _ _ _ A1 prG) as [c Hc].
    assert (E : RiemannInt pr = primitive h (FTC_P1 h C) u - primitive h (FTC_P1 h C) t).
    { rewrite (RiemannInt_P20 h (FTC_P1 h C) pr). reflexivity. }
    rewrite E, !Hc by lra. unfold G. field.
Qed.

Lemma area_zero t v d u : u <= t -> area (fsample t v d) (Fin u) = Fin 0.
Proof. intros L. unfold area. cbn [fsample s_time]. change (@nltb XR _) with xlt. rewrite fin_lt, Rlt_bool_false by exact L. reflexivity. Qed.

Section Cmp.
Context {F : Type} `{NF : Num F} {NL : NumLaws F}.
Lemma sample_order (a b c : sample F) :
  isnum (s_value a) = true -> isnum (s_value b) = true -> isnum (s_value c) = true ->
  sample_lt a a = false /\
  (sample_lt a b = true -> sample_lt b c = true -> sample_lt a c = true) /\
  (sample_lt a b = true -> sample_lt b a = false) /\
  (sample_lt a b = false -> sample_lt b c = false -> sample_lt a c = false) /\
  sample_gt a b = sample_lt b a /\ sample_le a b = negb (sample_gt a b) /\ sample_ge a b = negb (sample_lt a b) /\
  (sample_lt a b = nltb (s_value a) (s_value b)) /\ (sample_le a b = nleb (s_value a) (s_value b)) /\
  (sample_ge a b = nleb (s_value b) (s_value a)) /\ (sample_gt a b = nltb (s_value b) (s_value a)).
Proof.
  intros A B C. unfold sample_le, sample_ge, sample_gt, sample_lt. rewrite !nltb_law, !nleb_law, A, B, C. cbn [andb].
  repeat match goal with |- _ /\ _ => split end;
    repeat (match goal with
            | |- context [Rlt_bool ?u ?v] => case (Rlt_bool_spec u v); intro
            | |- context [Rle_bool ?u ?v] => case (Rle_bool_spec u v); intro
            end); cbn [negb]; intros; try discriminate; try reflexivity; lra.
Qed.
End Cmp.

Lemma line_integrable t v d u : t < u ->
  exists pr : Riemann_integrable (fun x => v + d * (x - t)) t u, True.
Proof.
  intros L. assert (C : forall x, t <= x <= u -> continuity_pt (fun x => v + d * (x - t)) x) by (intros; reg).
  exists (continuity_implies_RiemannInt (Rlt_le _ _ L) C). exact I.
Qed.

Lemma area_case : area (mkSample (Fin 1) (Fin 2) (Fin 3)) (Fin 3) = Fin 10.
Proof.
  unfold area, interpolate. cbn [s_time s_value s_deriv]. change (@nltb XR _) with xlt. rewrite fin_lt, Rlt_bool_true by lra.
  change (@ndiv XR _) with xdiv. cbn. rewrite Req_bool_false by lra. f_equal. lra.
Qed.
