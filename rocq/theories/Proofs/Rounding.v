(** C91: values at samples are the correctly rounded exact values. *)
From Coq Require Import Sorted Reals Lra.
From Flocq Require Import Core.Core IEEE754.BinarySingleNaN Plus_error Relative.
From Verif Require Import Base Num NumB64.
From Verif.Model Require Import Signal MonoWedge MinMax Ast Robustness.
From Verif.Spec Require Import SignalSpec Formula Discrete Rounding.
From Verif.Proofs Require Import NumFacts SignalFacts Reshape MinMaxFacts SeqFacts B64Facts MinMaxCases RobFacts RobWf DiscreteFacts SafeFacts RobExamples SafeExamples.
Local Open Scope R_scope.

Lemma b64_round_rnd r : b64_round r = rnd r.
Proof. reflexivity. Qed.

Definition near (r : R) (v : B64) : Prop := isnum v = true /\ rk v = clip (rnd r).
Lemma near_rounds r v : near r v <-> rounds_to r v.
Proof.
  pose proof (bpow_gt_0 radix2 1024) as P. unfold near, rounds_to. change (b64_round r) with (rnd r). rewrite b64_isnum. change (rk v) with (b64_rk v). unfold clip.
  case Rlt_bool_spec; intros L.
  - split.
    + intros [N E]. assert (Fv : finite v = true).
      { destruct v as [s|s| |s m e Hm]; try reflexivity; try discriminate. exfalso. cbn -[bpow] in E. rewrite <- E in L.
        destruct s; [rewrite Rabs_Ropp in L|]; rewrite Rabs_pos_eq in L; lra. }
      split; [exact Fv|]. rewrite <- E. destruct v; try discriminate; reflexivity.
    + intros [Fv E]. rewrite <- E. destruct v; try discriminate; split; reflexivity.
  - assert (Q : Rlt_bool (rnd r) 0 = Rlt_bool r 0).
    { case (Rlt_bool_spec r 0); intros H.
      - apply Rlt_bool_true. pose proof (rnd_mono r 0 ltac:(lra)) as M. rewrite rnd_0 in M. destruct M as [M|M]; [exact M|]. rewrite M, Rabs_R0 in L. lra.
      - apply Rlt_bool_false. rewrite <- rnd_0. apply rnd_mono. exact H. }
    rewrite Q. split.
    + intros [N E]. destruct v as [s|s| |s m e Hm]; try discriminate.
      * exfalso. cbn -[bpow] in E. destruct (Rlt_bool r 0); lra.
      * f_equal. cbn -[bpow] in E. destruct s, (Rlt_bool r 0); try reflexivity; lra.
      * exfalso. pose proof (abs_B2R_lt_emax 53 1024 (B754_finite s m e Hm)) as H. change (b64_rk (B754_finite s m e Hm)) with (B2R (B754_finite s m e Hm)) in E.
        rewrite E in H. destruct (Rlt_bool r 0); [rewrite Rabs_Ropp in H|]; rewrite Rabs_pos_eq in H; lra.
    + intros ->. split; [reflexivity|]. destruct (Rlt_bool r 0); reflexivity.
Qed.

Lemma rnd_opp r : rnd (- r) = - rnd r.
Proof. apply (round_NE_opp radix2). Qed.
Lemma near_opp r v : near r v -> near (- r) (nopp v).
Proof. intros [N E]. split; [rewrite isnum_opp; exact N|]. rewrite rk_opp, rnd_opp, clip_opp, E. reflexivity. Qed.
Lemma clip_rnd_mono r s : r <= s -> clip (rnd r) <= clip (rnd s).
Proof. intros H. apply clip_mono, rnd_mono, H. Qed.
Lemma near_lesser r s v w : near r v -> near s w -> near (Rmin r s) (lesser v w).
Proof.
  intros [N1 E1] [N2 E2]. unfold lesser. destruct (nltb w v) eqn:Q.
  - split; [exact N2|]. apply nltb_true in Q as (_ & _ & Q). rewrite Rmin_right; [exact E2|].
    destruct (Rle_dec r s) as [H|H]; [|lra]. apply clip_rnd_mono in H. lra.
  - split; [exact N1|]. assert (L : rk v <= rk w).
    { apply Rnot_lt_le. intros H. assert (nltb w v = true) by (apply nltb_true; auto). congruence. }
    unfold Rmin. destruct (Rle_dec r s) as [H|H]; [exact E1|]. assert (H' : s <= r) by lra. apply clip_rnd_mono in H'. lra.
Qed.
Lemma near_greater r s v w : near r v -> near s w -> near (Rmax r s) (greater v w).
Proof.
  intros [N1 E1] [N2 E2]. unfold greater. destruct (nltb v w) eqn:Q.
  - split; [exact N2|]. apply nltb_true in Q as (_ & _ & Q). rewrite Rmax_right; [exact E2|].
    destruct (Rle_dec s r) as [H|H]; [|lra]. apply clip_rnd_mono in H. lra.
  - split; [exact N1|]. assert (L : rk w <= rk v).
    { apply Rnot_lt_le. intros H. assert (nltb v w = true) by (apply nltb_true; auto). congruence. }
    unfold Rmax. destruct (Rle_dec r s) as [H|H]; [|exact E1]. apply clip_rnd_mono in H. lra.
Qed.
Lemma near_pred op (v c : B64) : finite v = true -> finite c = true -> near (exact_pred op (B2R v) (B2R c)) (pred_value op c v).
Proof. intros Fv Fc. destruct op; cbn [exact_pred pred_value]; apply sub_rk; assumption. Qed.

Lemma near_fold_min rs vs : Forall2 near rs vs -> forall r v, near r v -> near (fold_left Rmin rs r) (fold_left lesser vs v).
Proof. induction 1; intros; cbn [fold_left]; auto using near_lesser. Qed.
Lemma near_fold_max rs vs : Forall2 near rs vs -> forall r v, near r v -> near (fold_left Rmax rs r) (fold_left greater vs v).
Proof. induction 1; intros; cbn [fold_left]; auto using near_greater. Qed.

Lemma near_now env phi : propositional phi -> (forall n, In n (names phi) -> finite (env n) = true) ->
  (forall e, In e (subs phi) -> match e with EPred _ _ c => finite c = true | _ => True end) ->
  near (exact_now (fun n => B2R (env n)) phi) (value_now env phi).
Proof.
  intros (P1 & P2 & P3). induction phi using expr_rec; intros HN HS; cbn [free_of is_const is_temporal_op negb andb] in P1, P2; try discriminate.
  - cbn [exact_now value_now]. pose proof (near_pred o (env n) c (HN n (or_introl eq_refl)) (HS _ (or_introl eq_refl))) as K. destruct o; exact K.
  - cbn [free_of short negb andb] in P3. cbn [exact_now value_now]. apply near_opp, IHphi; auto. intros e He. apply HS. right. exact He.
  - cbn [free_of] in P1, P2, P3. apply andb_prop in P3 as [P0 P3].
    assert (K : Forall2 near (map (exact_now (fun n => B2R (env n))) l) (map (value_now env) l)).
    { assert (HN' : forall e, In e l -> forall n, In n (names e) -> finite (env n) = true) by (intros e He n Hn; apply HN; cbn [names]; apply in_flat_map; eauto).
      assert (HS' : forall e, In e l -> forall f, In f (subs e) -> match f with EPred _ _ c => finite c = true | _ => True end) by (intros e He f Hf; apply HS; right; apply in_flat_map; eauto).
      clear HN HS P0. induction H as [|e l He Hl IH]; [constructor|]. cbn [forallb] in P1, P2, P3. apply andb_prop in P1 as [? ?], P2 as [? ?], P3 as [? ?].
      cbn [map]. constructor; [apply He; auto; [apply HN'|apply HS']; left; reflexivity|]. apply IH; auto; intros; [eapply HN'|eapply HS']; eauto; right; assumption. }
    cbn [exact_now value_now]. destruct l as [|e l]; [discriminate|]. cbn [map Rleast least_of] in *. inversion K; subst. apply near_fold_min; assumption.
  - cbn [free_of] in P1, P2, P3. apply andb_prop in P3 as [P0 P3].
    assert (K : Forall2 near (map (exact_now (fun n => B2R (env n))) l) (map (value_now env) l)).
    { assert (HN' : forall e, In e l -> forall n, In n (names e) -> finite (env n) = true) by (intros e He n Hn; apply HN; cbn [names]; apply in_flat_map; eauto).
      assert (HS' : forall e, In e l -> forall f, In f (subs e) -> match f with EPred _ _ c => finite c = true | _ => True end) by (intros e He f Hf; apply HS; right; apply in_flat_map; eauto).
      clear HN HS P0. induction H as [|e l He Hl IH]; [constructor|]. cbn [forallb] in P1, P2, P3. apply andb_prop in P1 as [? ?], P2 as [? ?], P3 as [? ?].
      cbn [map]. constructor; [apply He; auto; [apply HN'|apply HS']; left; reflexivity|]. apply IH; auto; intros; [eapply HN'|eapply HS']; eauto; right; assumption. }
    cbn [exact_now value_now]. destruct l as [|e l]; [discriminate|]. cbn [map Rgreatest greatest_of] in *. inversion K; subst. apply near_fold_max; assumption.
Qed.

Lemma C91_now_lemma dbg fuel (tr : trace B64) s phi env t z : keys_unique tr ->
  Forall (fun e => wf (snd e) /\ snd e <> []) tr -> propositional phi -> sampled_at tr env t phi ->
  (forall n, In n (names phi) -> finite (env n) = true) ->
  (forall e, In e (subs phi) -> match e with EPred _ _ c => finite c = true | _ => True end) ->
  compute_robustness dbg fuel phi tr s = Ok z ->
  exists c, In c z /\ neqb (s_time c) t = true /\ rounds_to (exact_now (fun n => B2R (env n)) phi) (s_value c).
Proof.
  intros U G P S FN FC H. destruct (now_lemma dbg fuel tr s phi env t z U G P S H) as (_ & c & Hc & Ec & Vc).
  exists c. split; [exact Hc|]. split; [exact Ec|]. apply near_rounds. rewrite Vc. apply near_now; assumption.
Qed.

(** ** Relative error *)
Definition difference (r : R) : Prop := exists x y : B64, r = B2R x - B2R y.
Lemma difference_error r v : difference r -> rounds_to r v -> finite v = true -> Rabs (B2R v - r) <= bpow radix2 (-53) * Rabs r.
Proof.
  intros (x & y & E) H Fv. unfold rounds_to in H. destruct (Rlt_bool _ _); [|subst v; discriminate]. destruct H as [_ ->].
  destruct (@FLT_plus_error_N_ex radix2 (-1074) 53 b64_prec_gt_0 (fun n => negb (Z.even n)) (B2R x) (- B2R y)) as (eps & He & Hr).
  - apply (generic_format_B2R 53 1024 x).
  - apply generic_format_opp, (generic_format_B2R 53 1024 y).
  - unfold b64_round. rewrite E. unfold Rminus at 1. change ZnearestE with (Znearest (fun n => negb (Z.even n))).
    unfold Rminus at 1. rewrite Hr. replace ((B2R x + - B2R y) * (1 + eps) + - (B2R x - B2R y)) with ((B2R x - B2R y) * eps) by ring.
    rewrite Rabs_mult, Rmult_comm. apply Rmult_le_compat_r; [apply Rabs_pos|]. eapply Rle_trans; [exact He|].
    assert (U : u_ro radix2 53 = bpow radix2 (-53)).
    { unfold u_ro. change (-(53) + 1)%Z with (-53 + 1)%Z. rewrite bpow_plus. change (bpow radix2 1) with 2. lra. }
    rewrite U. pose proof (bpow_gt_0 radix2 (-53)) as B. apply Rmult_le_reg_r with (1 + bpow radix2 (-53)); [lra|].
    unfold Rdiv. rewrite Rmult_assoc, Rinv_l, Rmult_1_r by lra. rewrite Rmult_plus_distr_l, Rmult_1_r.
    pose proof (Rmult_lt_0_compat _ _ B B). lra.
Qed.
Lemma diff_opp r : difference r -> difference (- r).
Proof. intros (x & y & ->). exists y, x. ring. Qed.
Lemma diff_zero : difference 0.
Proof. exists nzero, nzero. cbn. ring. Qed.
Lemma diff_pred op (v c : B64) : difference (exact_pred op (B2R v) (B2R c)).
Proof. destruct op; [exists v, c|exists v, c|exists c, v|exists c, v]; reflexivity. Qed.
Lemma diff_min l : Forall difference l -> difference (Rleast l).
Proof.
  destruct 1 as [|r l D F]; [exact diff_zero|]. cbn [Rleast]. revert r D. induction F; intros; cbn [fold_left]; [exact D|].
  apply IHF. unfold Rmin. destruct (Rle_dec r x); assumption.
Qed.
Lemma diff_max l : Forall difference l -> difference (Rgreatest l).
Proof.
  destruct 1 as [|r l D F]; [exact diff_zero|]. cbn [Rgreatest]. revert r D. induction F; intros; cbn [fold_left]; [exact D|].
  apply IHF. unfold Rmax. destruct (Rle_dec r x); assumption.
Qed.
Lemma diff_now (env : string -> B64) phi : difference (exact_now (fun n => B2R (env n)) phi).
Proof.
  induction phi using expr_rec; cbn [exact_now]; auto using diff_zero, diff_opp, diff_pred.
  - apply diff_min. rewrite Forall_map. exact H.
  - apply diff_max. rewrite Forall_map. exact H.
Qed.
Lemma diff_samples phi : forall ws : list B64, difference (exact_samples phi (map (@B2R 53 1024) ws)).
Proof.
  assert (T : forall ws : list B64, tails (map (@B2R 53 1024) ws) = map (map (@B2R 53 1024)) (tails ws)) by (induction ws as [|w ws IH]; [reflexivity|]; cbn [map tails]; rewrite IH; reflexivity).
  induction phi using expr_rec; intros ws; cbn [exact_samples]; auto using diff_zero, diff_opp.
  - destruct ws; cbn [map]; auto using diff_zero, diff_pred.
  - apply diff_min. rewrite T, map_map, Forall_map. apply Forall_forall. auto.
  - apply diff_max. rewrite T, map_map, Forall_map. apply Forall_forall. auto.
Qed.

(** ** Temporal formulas over one signal *)
Lemma fold_min_assoc l : forall a b, fold_left Rmin l (Rmin a b) = Rmin a (fold_left Rmin l b).
Proof. induction l as [|c l IH]; intros a b; cbn [fold_left]; [reflexivity|]. rewrite <- Rmin_assoc. apply IH. Qed.
Lemma fold_max_assoc l : forall a b, fold_left Rmax l (Rmax a b) = Rmax a (fold_left Rmax l b).
Proof. induction l as [|c l IH]; intros a b; cbn [fold_left]; [reflexivity|]. rewrite <- Rmax_assoc. apply IH. Qed.
Lemma least_cons a l : l <> [] -> Rleast (a :: l) = Rmin a (Rleast l).
Proof. destruct l as [|b l]; [congruence|]. intros _. cbn [Rleast fold_left]. apply fold_min_assoc. Qed.
Lemma greatest_cons a l : l <> [] -> Rgreatest (a :: l) = Rmax a (Rgreatest l).
Proof. destruct l as [|b l]; [congruence|]. intros _. cbn [Rgreatest fold_left]. apply fold_max_assoc. Qed.

Section Roll.
Variables (comp : sample B64 -> sample B64 -> bool) (best : B64 -> B64 -> B64) (rbest : R -> R -> R) (rall : list R -> R).
Hypothesis HB : forall a b, s_value (pick comp a b) = best (s_value a) (s_value b).
Hypothesis NB : forall r s v w, near r v -> near s w -> near (rbest r s) (best v w).
Hypothesis R1 : forall a, rall [a] = a.
Hypothesis R2 : forall a l, l <> [] -> rall (a :: l) = rbest a (rall l).

Lemma best_near f : forall (r : list (sample B64)) a (w : list R), Forall2 (fun w b => near (f w) (s_value b)) (tails w) (a :: r) ->
  near (rall (map f (tails w))) (s_value (best_of comp a r)).
Proof.
  induction r as [|b r IH]; intros a w F2; destruct w as [|v w]; cbn [tails] in *; inversion F2 as [|? ? ? ? N T]; subst.
  - inversion T as [E|]. cbn [map best_of]. rewrite <- E in *. cbn [map]. rewrite R1. exact N.
  - pose proof (IH b w T) as K. cbn [map best_of]. rewrite R2; [|destruct w; [inversion T|discriminate]].
    change (if comp a (best_of comp b r) then a else best_of comp b r) with (pick comp a (best_of comp b r)). rewrite HB. apply NB; assumption.
Qed.
Lemma roll_near f : forall (y : list (sample B64)) (w : list R), Forall2 (fun w b => near (f w) (s_value b)) (tails w) y ->
  Forall2 (fun w v => near (rall (map f (tails w))) v) (tails w) (map snd (rollp comp y)).
Proof.
  induction y as [|a y IH]; intros w F2; destruct w as [|v w]; cbn [tails] in *; inversion F2 as [|? ? ? ? N T]; subst; cbn [rollp map snd]; constructor.
  - apply (best_near f y a (v :: w)). exact F2.
  - apply IH, T.
Qed.
End Roll.

Lemma F2_map_r {A B C} (P : A -> C -> Prop) (f : B -> C) y : forall l, Forall2 P l (map f y) -> Forall2 (fun w b => P w (f b)) l y.
Proof. induction y as [|a y IH]; intros l H; inversion H; subst; constructor; auto. Qed.

Lemma unary_near dbg fuel (r : rob_op B64) phi : unary phi -> free_of bad_const phi = true -> intervals_made phi ->
  (forall n, In n (names phi) -> exists x, trace_find (r_trace r) n = Some x) ->
  (forall n x, trace_find (r_trace r) n = Some x -> good x /\ ftime x /\ Forall (fun a => finite (s_value a) = true) x) ->
  exists n x z, names phi = [n] /\ trace_find (r_trace r) n = Some x /\ compute dbg fuel r phi = Ok z /\
    times z = times x /\ Forall2 (fun w v => near (exact_samples phi w) v) (tails (map (@B2R 53 1024) (values x))) (values z).
Proof.
  intros U BC IM HN HT. destruct (discrete dbg fuel r phi U BC IM HN HT) as (n & x & z & E1 & E2 & E3 & G & Et & _).
  exists n, x, z. split; [exact E1|]. split; [exact E2|]. split; [exact E3|]. split; [exact Et|].
  destruct (HT n x E2) as (_ & FT & FV). clear HN. revert z E3 G Et.
  destruct U as (U1 & U2 & U3). induction phi using expr_rec; intros z E3 G Et; cbn [free_of is_const is_andor is_until bad_const negb andb] in U1, U2, U3, BC; try discriminate.
  - cbn [names] in E1. injection E1 as ->. rewrite andb_true_r, negb_involutive in BC. cbn [compute] in E3. unfold rob_pred in E3. rewrite E2, pred_loop_push in E3.
    apply from_samples_wf in E3 as (_ & P & _).
    2: { unfold times. rewrite map_map. destruct (HT n x E2) as ([(Nt & _) _] & _). exact Nt. }
    assert (V : values z = map (fun a => pred_value o c (s_value a)) x).
    { transitivity (map snd (points z)); [unfold values, points; rewrite map_map; reflexivity|]. rewrite P. unfold points. rewrite !map_map. reflexivity. }
    rewrite V. clear -FV BC. induction FV as [|a x Fa _ IH]; cbn [values map tails]; constructor; [|exact IH]. cbn [exact_samples]. apply near_pred; assumption.
  - cbn [compute] in E3. apply bind_ok_inv in E3 as (y & E3 & E4).
    assert (IM' : intervals_made phi) by (intros e He; apply (IM e); right; exact He).
    destruct (discrete dbg fuel r phi (conj U1 (conj U2 U3)) BC IM') as (n' & x' & y' & Q1 & Q2 & Q3 & Gy & Ety & _); [|exact HT|].
    { intros m Hm. cbn [names] in E1. rewrite E1 in Hm. destruct Hm as [<-|[]]. exists x. exact E2. }
    cbn [names] in E1. rewrite E1 in Q1. injection Q1 as <-. rewrite E2 in Q2. injection Q2 as <-. rewrite E3 in Q3. injection Q3 as <-.
    specialize (IHphi U1 U2 U3 BC IM' E1 y E3 Gy Ety). 
    apply from_samples_wf in E4 as (_ & P & _).
    2: { unfold times. rewrite map_map. apply Gy. }
    assert (V : values z = map nopp (values y)).
    { transitivity (map snd (points z)); [unfold values, points; rewrite map_map; reflexivity|]. rewrite P. unfold points, values. rewrite !map_map. reflexivity. }
    rewrite V. clear -IHphi. cbn [exact_samples]. induction IHphi; cbn [map]; constructor; auto using near_opp.
  - cbn [compute] in E3. apply bind_ok_inv in E3 as (y & E3 & E4).
    assert (IM' : intervals_made phi) by (intros e He; apply (IM e); right; exact He).
    destruct (discrete dbg fuel r phi (conj U1 (conj U2 U3)) BC IM') as (n' & x' & y' & Q1 & Q2 & Q3 & Gy & Ety & _); [|exact HT|].
    { intros m Hm. cbn [names] in E1. rewrite E1 in Hm. destruct Hm as [<-|[]]. exists x. exact E2. }
    cbn [names] in E1. rewrite E1 in Q1. injection Q1 as <-. rewrite E2 in Q2. injection Q2 as <-. rewrite E3 in Q3. injection Q3 as <-.
    specialize (IHphi U1 U2 U3 BC IM' E1 y E3 Gy Ety).
    assert (FTy : ftime y).
    { unfold ftime in *. rewrite Forall_forall in *. intros a Ha. apply (in_map s_time) in Ha.
      change (In (s_time a) (times y)) in Ha. rewrite Ety in Ha. apply in_map_iff in Ha as (b & <- & Hb). apply FT, Hb. }
    rewrite temporal_seq in E4; [|exact Gy|exact FTy|exact (IM _ (or_introl eq_refl))].
    rewrite minmax_seq_roll in E4 by apply Gy. injection E4 as <-. rewrite values_sig_of. cbn [exact_samples].
    apply (roll_near sample_le lesser Rmin Rleast); auto using value_le, near_lesser, least_cons.
    apply (F2_map_r (fun w v => near (exact_samples phi w) v) s_value), IHphi.
  - cbn [compute] in E3. apply bind_ok_inv in E3 as (y & E3 & E4).
    assert (IM' : intervals_made phi) by (intros e He; apply (IM e); right; exact He).
    destruct (discrete dbg fuel r phi (conj U1 (conj U2 U3)) BC IM') as (n' & x' & y' & Q1 & Q2 & Q3 & Gy & Ety & _); [|exact HT|].
    { intros m Hm. cbn [names] in E1. rewrite E1 in Hm. destruct Hm as [<-|[]]. exists x. exact E2. }
    cbn [names] in E1. rewrite E1 in Q1. injection Q1 as <-. rewrite E2 in Q2. injection Q2 as <-. rewrite E3 in Q3. injection Q3 as <-.
    specialize (IHphi U1 U2 U3 BC IM' E1 y E3 Gy Ety).
    assert (FTy : ftime y).
    { unfold ftime in *. rewrite Forall_forall in *. intros a Ha. apply (in_map s_time) in Ha.
      change (In (s_time a) (times y)) in Ha. rewrite Ety in Ha. apply in_map_iff in Ha as (b & <- & Hb). apply FT, Hb. }
    rewrite temporal_seq in E4; [|exact Gy|exact FTy|exact (IM _ (or_introl eq_refl))].
    rewrite minmax_seq_roll in E4 by apply Gy. injection E4 as <-. rewrite values_sig_of. cbn [exact_samples].
    apply (roll_near sample_ge greater Rmax Rgreatest); auto using value_ge, near_greater, greatest_cons.
    apply (F2_map_r (fun w v => near (exact_samples phi w) v) s_value), IHphi.
Qed.

Lemma tails_split {A} (P : list A -> B64 -> Prop) (w1 : list A) a w2 : forall v1 c v2, Forall2 P (tails (w1 ++ a :: w2)) (v1 ++ c :: v2) ->
  length w1 = length v1 -> P (a :: w2) c.
Proof.
  induction w1 as [|b w1 IH]; intros [|d v1] c v2 H L; try discriminate; cbn [app tails] in H; inversion H; subst; [assumption|].
  eapply IH; [eassumption|]. cbn in L. lia.
Qed.
Lemma no_bad_const (phi : expr B64) : (forall e, In e (subs phi) -> match e with EPred _ _ c => finite c = true | _ => True end) -> free_of bad_const phi = true.
Proof.
  induction phi using expr_rec; intros FC; cbn [free_of bad_const negb andb]; auto.
  - rewrite (FC _ (or_introl eq_refl)). reflexivity.
  - apply IHphi. intros e He. apply (FC e). right. exact He.
  - apply forallb_forall. intros e He. rewrite Forall_forall in H. apply H; [exact He|]. intros e' He'. apply FC. right. apply in_flat_map. eauto.
  - apply forallb_forall. intros e He. rewrite Forall_forall in H. apply H; [exact He|]. intros e' He'. apply FC. right. apply in_flat_map. eauto.
  - apply IHphi. intros e He. apply (FC e). right. exact He.
  - apply IHphi. intros e He. apply (FC e). right. exact He.
  - rewrite IHphi1, IHphi2; [reflexivity| |]; intros e He; apply (FC e); right; apply in_or_app; auto.
Qed.
Lemma C91_temporal_lemma dbg fuel (tr : trace B64) s phi : keys_unique tr ->
  free_of is_const phi = true -> free_of is_andor phi = true -> free_of is_until phi = true ->
  (forall e, In e (subs phi) -> match e with EPred _ _ c => finite c = true | _ => True end) -> intervals_made phi ->
  (forall n, In n (names phi) -> exists x, has_signal tr n x) ->
  Forall (fun e => wf (snd e) /\ snd e <> [] /\ Forall (fun a => finite (s_time a) = true /\ finite (s_value a) = true) (snd e)) tr ->
  exists n x z, names phi = [n] /\ has_signal tr n x /\ compute_robustness dbg fuel phi tr s = Ok z /\ times z = times x /\
    forall x1 a x2 z1 c z2, x = x1 ++ a :: x2 -> z = z1 ++ c :: z2 -> length x1 = length z1 ->
      let r := exact_samples phi (map (fun b => B2R (s_value b)) (a :: x2)) in
      rounds_to r (s_value c) /\ (finite (s_value c) = true -> Rabs (B2R (s_value c) - r) <= bpow radix2 (-53) * Rabs r).
Proof.
  intros U F1 F2 F3 FC IM HN G. rewrite Forall_forall in G.
  destruct (unary_near dbg fuel (mkRob (trace_begin tr) (trace_end tr) tr) phi) as (n & x & z & A & B & C & D & K).
  - repeat split; assumption.
  - apply no_bad_const, FC.
  - exact IM.
  - cbn [r_trace]. intros n Hn. destruct (HN n Hn) as (x & Hx). exists x. apply trace_find_iff; assumption.
  - cbn [r_trace]. intros n x Hx. apply trace_find_In in Hx. destruct (G _ Hx) as (W & N & Q). cbn [snd] in *. split; [split; assumption|].
    rewrite Forall_forall in Q. split; apply Forall_forall; intros a Ha; apply Q, Ha.
  - exists n, x, z. split; [exact A|]. split; [apply trace_find_In, B|]. split; [exact C|]. split; [exact D|].
    intros x1 a x2 z1 c z2 -> -> L r. assert (Q : near r (s_value c)).
    { unfold values in K. rewrite !map_map, !map_app in K. cbn [map] in K. apply tails_split in K; [exact K|]. rewrite !map_length. exact L. }
    apply near_rounds in Q. split; [exact Q|]. intros Fc. apply difference_error; [|exact Q|exact Fc]. unfold r. rewrite <- (map_map s_value (@B2R 53 1024)). apply diff_samples.
Qed.
Lemma C91_error_lemma dbg fuel (tr : trace B64) s phi env t z : keys_unique tr ->
  Forall (fun e => wf (snd e) /\ snd e <> []) tr -> propositional phi -> sampled_at tr env t phi ->
  (forall n, In n (names phi) -> finite (env n) = true) ->
  (forall e, In e (subs phi) -> match e with EPred _ _ c => finite c = true | _ => True end) ->
  compute_robustness dbg fuel phi tr s = Ok z ->
  exists c, In c z /\ neqb (s_time c) t = true /\ let r := exact_now (fun n => B2R (env n)) phi in
    rounds_to r (s_value c) /\ (finite (s_value c) = true -> Rabs (B2R (s_value c) - r) <= bpow radix2 (-53) * Rabs r).
Proof.
  intros U G P S FN FC H. destruct (C91_now_lemma dbg fuel tr s phi env t z U G P S FN FC H) as (c & Hc & Ec & R).
  exists c. split; [exact Hc|]. split; [exact Ec|]. intros r. split; [exact R|]. intros Fc. apply difference_error; [apply diff_now|exact R|exact Fc].
Qed.
