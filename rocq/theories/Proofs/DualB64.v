(** C114: negation turns maxima into minima in double arithmetic, up to the sign of zeros, where both sides return. *)
From Coq Require Import Sorted Reals Lra.
From Flocq Require Import Core.Core IEEE754.BinarySingleNaN.
From Verif Require Import Base Num NumB64.
From Verif.Model Require Import Signal MonoWedge MinMax Ast Robustness.
From Verif.Spec Require Import SignalSpec Formula Alike.
From Verif.Proofs Require Import NumFacts SignalFacts LowerBound Reshape Sync SyncProps SyncCases MinMaxFacts SeqFacts MinMaxCases B64Facts RobFacts RobWf UntilFacts.
From Verif.Proofs Require NegFacts.
Local Open Scope nat_scope.

(** ** The same double, up to the sign of a zero *)
Definition sim (x y : B64) : Prop := isnum x = isnum y /\ rk x = rk y.
Lemma sim_refl x : sim x x.
Proof. split; reflexivity. Qed.
Lemma sim_sym x y : sim x y -> sim y x.
Proof. intros [A B]. split; auto. Qed.
Lemma sim_trans x y z : sim x y -> sim y z -> sim x z.
Proof. intros [A B] [C D]. split; congruence. Qed.
Lemma sim_opp x y : sim x y -> sim (nopp x) (nopp y).
Proof. intros [A B]. split; [rewrite !isnum_opp; exact A|rewrite !rk_opp, B; reflexivity]. Qed.
Lemma sim_lt x y x' y' : sim x x' -> sim y y' -> nltb x y = nltb x' y'.
Proof. intros [A B] [C D]. rewrite !nltb_law, A, B, C, D. reflexivity. Qed.
Lemma sim_le x y x' y' : sim x x' -> sim y y' -> nleb x y = nleb x' y'.
Proof. intros [A B] [C D]. rewrite !nleb_law, A, B, C, D. reflexivity. Qed.
Lemma sim_eq x y x' y' : sim x x' -> sim y y' -> neqb x y = neqb x' y'.
Proof. intros [A B] [C D]. rewrite !neqb_law, A, B, C, D. reflexivity. Qed.
Lemma sim_zero s s' : sim (B754_zero s) (B754_zero s').
Proof. split; rewrite ?b64_isnum; reflexivity. Qed.

Lemma fin_rk_lt (x : B64) : is_finite x = true -> (- bpow radix2 1024 < rk x < bpow radix2 1024)%R.
Proof. intros H. rewrite (finite_rk x H). apply Rabs_lt_inv, abs_B2R_lt_emax. Qed.
Lemma rk_b (x : B64) : rk x = b64_rk x.
Proof. reflexivity. Qed.

Lemma sim_cases x y : sim x y -> x = y \/ exists s s', x = B754_zero s /\ y = B754_zero s'.
Proof.
  intros [N R]. pose proof (bpow_gt_0 radix2 1024) as P. rewrite !b64_isnum in N.
  destruct (is_finite x) eqn:Fx, (is_finite y) eqn:Fy.
  - rewrite !finite_rk in R by assumption.
    destruct x as [s|s| |s m e H], y as [s'|s'| |s' m' e' H']; try discriminate.
    + right. eauto.
    + exfalso. symmetry in R. cbn [B2R] in R. apply eq_0_F2R in R. destruct s'; discriminate R.
    + exfalso. cbn [B2R] in R. apply eq_0_F2R in R. destruct s; discriminate R.
    + left. apply B2R_inj; auto.
  - pose proof (fin_rk_lt x Fx) as Q. rewrite R in Q. rewrite rk_b in Q.
    destruct y as [|[]| |]; try discriminate; try (unfold b64_rk in Q; lra). destruct x; discriminate.
  - pose proof (fin_rk_lt y Fy) as Q. rewrite <- R in Q. rewrite rk_b in Q.
    destruct x as [|[]| |]; try discriminate; try (unfold b64_rk in Q; lra). destruct y; discriminate.
  - rewrite (rk_b x), (rk_b y) in R. destruct x as [|[]| |], y as [|[]| |]; try discriminate; auto; exfalso; unfold b64_rk in R; lra.
Qed.

Ltac zz := repeat match goal with |- context [B754_zero ?s] => is_var s; destruct s end; try apply sim_refl; try apply sim_zero.
Lemma sim_add x y x' y' : sim x x' -> sim y y' -> sim (nadd x y) (nadd x' y').
Proof.
  intros A B. apply sim_cases in A as [->|(s & s' & -> & ->)], B as [->|(u & u' & -> & ->)]; try apply sim_refl.
  - destruct x' as [v|v| |v m e H]; try apply sim_refl. destruct u, u', v; apply sim_zero.
  - destruct y' as [v|v| |v m e H]; try apply sim_refl. destruct s, s', v; apply sim_zero.
  - destruct s, s', u, u'; apply sim_zero.
Qed.
Lemma sub_is (x y : B64) : nsub x y = nadd x (nopp y).
Proof. destruct x as [s|s| |s m e H], y as [s'|s'| |s' m' e' H']; reflexivity. Qed.
Lemma sim_sub x y x' y' : sim x x' -> sim y y' -> sim (nsub x y) (nsub x' y').
Proof. intros A B. rewrite !sub_is. apply sim_add; auto using sim_opp. Qed.
Lemma sim_mul x y x' y' : sim x x' -> sim y y' -> sim (nmul x y) (nmul x' y').
Proof.
  intros A B. apply sim_cases in A as [->|(s & s' & -> & ->)], B as [->|(u & u' & -> & ->)]; try apply sim_refl.
  - destruct x' as [v|v| |v m e H]; try apply sim_refl; apply sim_zero.
  - destruct y' as [v|v| |v m e H]; try apply sim_refl; apply sim_zero.
  - apply sim_zero.
Qed.
Lemma sim_div x y x' y' : sim x x' -> sim y y' -> neqb y nzero = false -> sim (ndiv x y) (ndiv x' y').
Proof.
  intros A B Z. apply sim_cases in B as [->|(u & u' & -> & ->)]; [|discriminate Z].
  apply sim_cases in A as [->|(s & s' & -> & ->)]; [apply sim_refl|].
  destruct y' as [v|v| |v m e H]; try apply sim_refl; try apply sim_zero.
Qed.
Lemma div_zero x y : neqb y nzero = true -> ndiv x y = B754_nan \/ exists s, ndiv x y = B754_infinity s.
Proof.
  intros Z. destruct (b64_zero_inv _ Z) as (u & ->). destruct x as [v|v| |v m e H]; cbn; eauto.
Qed.

Lemma same_sim x y : NegFacts.same x y -> sim x y.
Proof.
  intros [E H]. split; [exact E|]. destruct (isnum x) eqn:N; [specialize (H eq_refl); apply neqb_true in H; apply H|].
  symmetry in E. rewrite b64_isnum in N, E. destruct x, y; try discriminate. reflexivity.
Qed.
Lemma opp_add x y : sim (nadd (nopp x) (nopp y)) (nopp (nadd x y)).
Proof. apply same_sim, NegFacts.b64_add_opp. Qed.
Lemma opp_sub x y : sim (nsub (nopp x) (nopp y)) (nopp (nsub x y)).
Proof. rewrite !sub_is. apply opp_add. Qed.

Lemma opp_div_l (x y : B64) : ndiv (nopp x) y = nopp (ndiv x y).
Proof.
  destruct (is_finite x) eqn:Fx, (is_finite_strict y) eqn:Fy;
    [|destruct x as [s|s| |s m e H], y as [s'|s'| |s' m' e' H']; try discriminate; cbn; try reflexivity; try (destruct s, s'; reflexivity)..].
  assert (Y0 : B2R y <> 0%R).
  { destruct y as [s|s| |s m e H]; try discriminate. cbn [B2R]. intros Q. apply eq_0_F2R in Q. destruct s; discriminate. }
  pose proof (Bdiv_correct 53 1024 b64_prec_gt_0 b64_prec_lt_emax mode_NE x y Y0) as A.
  pose proof (Bdiv_correct 53 1024 b64_prec_gt_0 b64_prec_lt_emax mode_NE (Bopp x) y Y0) as B.
  rewrite B2R_Bopp in B. replace (- B2R x / B2R y)%R with (- (B2R x / B2R y))%R in B by (unfold Rdiv; ring). rewrite NegFacts.rnd_opp, Rabs_Ropp in B.
  change (ndiv (nopp x) y) with (@Bdiv 53 1024 b64_prec_gt_0 b64_prec_lt_emax mode_NE (Bopp x) y).
  change (ndiv x y) with (@Bdiv 53 1024 b64_prec_gt_0 b64_prec_lt_emax mode_NE x y).
  change (@nopp B64 _) with (@Bopp 53 1024).
  set (m := Bdiv mode_NE x y) in *. set (n := Bdiv mode_NE (Bopp x) y) in *. clearbody m n.
  rewrite is_finite_Bopp, Fx in B. rewrite Fx in A. rewrite Bsign_Bopp in B by (apply NegFacts.finite_num; exact Fx).
  destruct (Rlt_bool _ _).
  - destruct A as (A1 & A2 & A3), B as (B1 & B2 & B3).
    apply B2R_Bsign_inj; [exact B2|rewrite is_finite_Bopp; exact A2| |].
    + rewrite B1, B2R_Bopp, A1. reflexivity.
    + rewrite Bsign_Bopp by (apply NegFacts.finite_num; exact A2). rewrite A3, B3 by (apply NegFacts.finite_num; assumption).
      apply eq_sym, Bool.negb_xorb_l.
  - apply B2SF_inj. rewrite B.
    destruct m as [s|s| |s m' e He]; cbn in A; try discriminate. cbn.
    injection A as ->. rewrite <- Bool.negb_xorb_l. reflexivity.
Qed.
Lemma opp_div_r (x y : B64) : ndiv x (nopp y) = nopp (ndiv x y).
Proof.
  destruct (is_finite x) eqn:Fx, (is_finite_strict y) eqn:Fy;
    [|destruct x as [s|s| |s m e H], y as [s'|s'| |s' m' e' H']; try discriminate; cbn; try reflexivity; try (destruct s, s'; reflexivity)..].
  assert (Y0 : B2R y <> 0%R).
  { destruct y as [s|s| |s m e H]; try discriminate. cbn [B2R]. intros Q. apply eq_0_F2R in Q. destruct s; discriminate. }
  assert (Y1 : B2R (Bopp y) <> 0%R) by (rewrite B2R_Bopp; lra).
  pose proof (Bdiv_correct 53 1024 b64_prec_gt_0 b64_prec_lt_emax mode_NE x y Y0) as A.
  pose proof (Bdiv_correct 53 1024 b64_prec_gt_0 b64_prec_lt_emax mode_NE x (Bopp y) Y1) as B.
  rewrite B2R_Bopp in B. replace (B2R x / - B2R y)%R with (- (B2R x / B2R y))%R in B by (field; exact Y0). rewrite NegFacts.rnd_opp, Rabs_Ropp in B.
  change (ndiv x (nopp y)) with (@Bdiv 53 1024 b64_prec_gt_0 b64_prec_lt_emax mode_NE x (Bopp y)).
  change (ndiv x y) with (@Bdiv 53 1024 b64_prec_gt_0 b64_prec_lt_emax mode_NE x y).
  change (@nopp B64 _) with (@Bopp 53 1024).
  set (m := Bdiv mode_NE x y) in *. set (n := Bdiv mode_NE x (Bopp y)) in *. clearbody m n.
  assert (Ny : is_nan y = false) by (destruct y; reflexivity || discriminate).
  rewrite Fx in A, B. rewrite Bsign_Bopp in B by exact Ny.
  destruct (Rlt_bool _ _).
  - destruct A as (A1 & A2 & A3), B as (B1 & B2 & B3).
    apply B2R_Bsign_inj; [exact B2|rewrite is_finite_Bopp; exact A2| |].
    + rewrite B1, B2R_Bopp, A1. reflexivity.
    + rewrite Bsign_Bopp by (apply NegFacts.finite_num; exact A2). rewrite A3, B3 by (apply NegFacts.finite_num; assumption).
      apply eq_sym, Bool.negb_xorb_r.
  - apply B2SF_inj. rewrite B.
    destruct m as [s|s| |s m' e He]; cbn in A; try discriminate. cbn.
    injection A as ->. rewrite <- Bool.negb_xorb_r. reflexivity.
Qed.

(** ** Related samples: opposite value and slope *)
Definition rs (a b : sample B64) : Prop :=
  sim (s_time a) (s_time b) /\ sim (nopp (s_value a)) (s_value b) /\ sim (nopp (s_deriv a)) (s_deriv b).
Notation rl := (Forall2 rs).
Lemma rs_neg a : rs a (sample_neg a).
Proof. split; [|split]; apply sim_refl. Qed.
Lemma rl_neg s : rl s (map sample_neg s).
Proof. induction s; constructor; auto using rs_neg. Qed.
Lemma rs_mk t t' v v' : sim t t' -> sim (nopp v) v' -> rs (mkSample t v nzero) (mkSample t' v' nzero).
Proof. intros A B. split; [exact A|]. split; [exact B|]. apply sim_zero. Qed.
Lemma rs_interp a b t t' : rs a b -> sim t t' -> sim (nopp (interpolate a t)) (interpolate b t').
Proof.
  intros (T & V & D) E. unfold interpolate. eapply sim_trans; [apply sim_sym, opp_add|]. apply sim_add; [exact V|].
  rewrite <- NegFacts.b64_mul_opp. apply sim_mul; [exact D|]. apply sim_sub; assumption.
Qed.

Lemma sub_ne0 (a b : B64) : nleb b a = false -> neqb (nsub b a) nzero = false.
Proof.
  intros H. destruct (is_finite a) eqn:Fa, (is_finite b) eqn:Fb.
  - destruct (sub_sign b a Fb Fa) as (P & _ & N). apply nleb_false in H; [|apply finite_num; assumption..].
    assert (nltb a b = true) as Q by (apply nltb_true; auto using finite_num). rewrite Q in P. apply nltb_true in P as (_ & _ & P).
    apply neqb_false; [exact N|apply isnum_zero|]. rewrite rk_zero in *. lra.
  - destruct b as [|[]| |]; try discriminate; destruct a as [|[]| |]; try discriminate; reflexivity.
  - destruct a as [|[]| |]; try discriminate; destruct b as [|[]| |]; try discriminate; reflexivity.
  - destruct a as [|[]| |]; try discriminate; destruct b as [|[]| |]; try discriminate; reflexivity.
Qed.

(** Outcomes: related results, or the same failure, *)
Definition orel {A B} (R : A -> B -> Prop) (o : outcome A) (o' : outcome B) : Prop :=
  match o, o' with
  | Ok a, Ok b => R a b
  | Throw e, Throw e' => e = e'
  | UB, UB | Hang, Hang | AssertFail, AssertFail => True
  | _, _ => False
  end.
Lemma orel_bind {A B A' B'} (R : A -> A' -> Prop) (S : B -> B' -> Prop) m m' k k' : orel R m m' ->
  (forall a a', R a a' -> m = Ok a -> orel S (k a) (k' a')) -> orel S (bind m k) (bind m' k').
Proof. destruct m, m'; cbn; try tauto; auto. Qed.
(** or one side throws because a time is not after the last. *)
Definition drel {A B} (R : A -> B -> Prop) (o : outcome A) (o' : outcome B) : Prop :=
  o = Throw InvalidArgument \/ o' = Throw InvalidArgument \/ orel R o o'.
Lemma drel_bind {A B A' B'} (R : A -> A' -> Prop) (S : B -> B' -> Prop) m m' k k' : drel R m m' ->
  (forall a a', R a a' -> m = Ok a -> m' = Ok a' -> drel S (k a) (k' a')) -> drel S (bind m k) (bind m' k').
Proof.
  intros [->|[->|H]] K; [left; reflexivity|right; left; reflexivity|]. destruct m, m'; cbn in *; try tauto; auto.
  - right. right. cbn. exact H.
  - right. right. exact I.
  - right. right. exact I.
  - right. right. exact I.
Qed.
Lemma drel_or {A B} (R : A -> B -> Prop) o o' : orel R o o' -> drel R o o'.
Proof. right. right. assumption. Qed.

Lemma rl_last s s' : rl s s' -> match last_opt s, last_opt s' with Some a, Some b => rs a b | None, None => True | _, _ => False end.
Proof.
  induction 1 as [|a b l l' H1 H2 IH]; [exact I|]. destruct H2 as [|c d l l' H2 H3]; [exact H1|]. exact IH.
Qed.
Lemma rl_removelast s s' : rl s s' -> rl (removelast s) (removelast s').
Proof. induction 1 as [|a b l l' H1 H2 IH]; [constructor|]. destruct H2 as [|c d l l' H2 H3]; [constructor|]. constructor; [exact H1|exact IH]. Qed.

Lemma r_push s s' x x' : rl s s' -> rs x x' -> orel rl (push_back s x) (push_back s' x').
Proof.
  intros H (T & V & _). pose proof (rl_last _ _ H) as L. unfold push_back, push_back_st.
  destruct (last_opt s) as [a|], (last_opt s') as [b|]; try contradiction.
  - destruct L as (LT & LV & LD). rewrite <- (sim_le (s_time x) (s_time a) (s_time x') (s_time b)) by assumption.
    destruct (nleb _ _) eqn:Q; [reflexivity|]. cbn [orel]. apply Forall2_app; [apply rl_removelast, H|].
    constructor; [|constructor; [|constructor]].
    + split; [exact LT|]. split; [exact LV|]. cbn [s_deriv]. rewrite <- opp_div_l. apply sim_div.
      * eapply sim_trans; [apply sim_sym, opp_sub|]. apply sim_sub; assumption.
      * apply sim_sub; assumption.
      * apply sub_ne0, Q.
    + apply rs_mk; assumption.
  - constructor; [|constructor]. apply rs_mk; assumption.
Qed.
Lemma r_push_all l l' : rl l l' -> forall s s', rl s s' -> orel rl (push_all s l) (push_all s' l').
Proof.
  induction 1 as [|a b l l' H1 H2 IH]; intros s s' Hs; [exact Hs|]. cbn [push_all].
  eapply orel_bind; [apply r_push; eassumption|]. intros z z' Hz _. apply IH, Hz.
Qed.
Lemma r_from l l' : rl l l' -> orel rl (from_samples l) (from_samples l').
Proof. intros H. apply r_push_all; [exact H|constructor]. Qed.

Lemma r_begin s s' : rl s s' -> sim (begin_time s) (begin_time s').
Proof. intros [|a b l l' H1 H2]; [apply sim_refl|apply H1]. Qed.
Lemma r_end s s' : rl s s' -> sim (end_time s) (end_time s').
Proof. intros H. pose proof (rl_last _ _ H) as L. unfold end_time. destruct (last_opt s), (last_opt s'); try contradiction; [apply L|apply sim_refl]. Qed.
Lemma r_max a b a' b' : sim a a' -> sim b b' -> sim (std_max a b) (std_max a' b').
Proof. intros A B. unfold std_max. rewrite (sim_lt a b a' b') by assumption. destruct (nltb _ _); assumption. Qed.
Lemma r_nth s s' k : rl s s' -> match nth_error s k, nth_error s' k with Some a, Some b => rs a b | None, None => True | _, _ => False end.
Proof. intros H. revert k. induction H as [|a b l l' H1 H2 IH]; intros [|k]; try exact I; [exact H1|apply IH]. Qed.
Lemma r_skipn s s' k : rl s s' -> rl (skipn k s) (skipn k s').
Proof. intros H. revert k. induction H as [|a b l l' H1 H2 IH]; intros [|k]; cbn; auto; constructor; auto. Qed.

Lemma r_lb_loop s s' (p p' : sample B64 -> bool) : rl s s' -> (forall a b, rs a b -> p a = p' b) ->
  forall fuel first len, lower_bound_loop fuel s p first len = lower_bound_loop fuel s' p' first len.
Proof.
  intros H E. induction fuel as [|fuel IH]; intros first len; [reflexivity|]. cbn [lower_bound_loop].
  destruct (Nat.eqb len 0); [reflexivity|]. pose proof (r_nth _ _ (first + Nat.div2 len) H) as K.
  destruct (nth_error s _), (nth_error s' _); try contradiction; [|reflexivity]. rewrite (E _ _ K). destruct (p' _); apply IH.
Qed.
Lemma rl_length s s' : rl s s' -> length s = length s'.
Proof. induction 1; cbn; congruence. Qed.
Lemma r_lb s s' (p p' : sample B64 -> bool) : rl s s' -> (forall a b, rs a b -> p a = p' b) -> lower_bound s p = lower_bound s' p'.
Proof. intros H E. unfold lower_bound. rewrite (rl_length _ _ H). apply r_lb_loop; assumption. Qed.

Definition ro (o o' : option (sample B64)) : Prop := match o, o' with Some a, Some b => rs a b | None, None => True | _, _ => False end.
Definition ri (i i' : @iter B64) : Prop := ro (fst i) (fst i') /\ rl (snd i) (snd i').
Lemma r_iter s s' k : rl s s' -> ri (iter_at s k) (iter_at s' k).
Proof. intros H. split; [|apply r_skipn, H]. destruct k; [exact I|]. apply (r_nth _ _ k H). Qed.
Lemma r_first t t' i i' d d' : sim t t' -> ri i i' -> ri d d' -> orel rl (sync_first t i d) (sync_first t' i' d').
Proof.
  intros T [A B] [C _]. unfold sync_first. destruct B as [|a b l l' H1 H2]; [exact I|].
  rewrite (sim_lt t (s_time a) t' (s_time b)) by (assumption || apply H1). destruct (nltb _ _); [|constructor].
  destruct (fst i) as [p|], (fst i') as [p'|]; try contradiction; [|constructor].
  destruct (fst d) as [q|], (fst d') as [q'|]; try contradiction; [|exact I].
  constructor; [|constructor]. split; [exact T|]. split; [apply rs_interp; assumption|apply C].
Qed.
Definition rp (p p' : list (sample B64) * list (sample B64)) : Prop := rl (fst p) (fst p') /\ rl (snd p) (snd p').
Lemma rl_snoc l l' a b : rl l l' -> rs a b -> rl (l ++ [a]) (l' ++ [b]).
Proof. intros H Q. apply Forall2_app; [exact H|]. constructor; [exact Q|constructor]. Qed.
Lemma r_at p p' t t' : rs p p' -> sim t t' -> rs (mkSample t (interpolate p t) nzero) (mkSample t' (interpolate p' t') nzero).
Proof. intros H E. apply rs_mk; [exact E|apply rs_interp; assumption]. Qed.

Lemma r_loop : forall fuel pi pi' xs xs' pj pj' ys ys' xv xv' yv yv', ro pi pi' -> rl xs xs' -> ro pj pj' -> rl ys ys' -> rl xv xv' -> rl yv yv' ->
  orel rp (sync_loop fuel pi xs pj ys xv yv) (sync_loop fuel pi' xs' pj' ys' xv' yv').
Proof.
  induction fuel as [|fuel IH]; intros pi pi' xs xs' pj pj' ys ys' xv xv' yv yv' H1 H2 H3 H4 H5 H6; [exact I|]. cbn [sync_loop].
  destruct H2 as [|i i' xs xs' Q1 Q2]; [split; assumption|]. destruct H4 as [|j j' ys ys' Q3 Q4]; [split; assumption|].
  assert (T1 : sim (s_time i) (s_time i')) by apply Q1. assert (T2 : sim (s_time j) (s_time j')) by apply Q3.
  rewrite (sim_eq _ _ _ _ T1 T2), (sim_lt _ _ _ _ T1 T2), (sim_lt _ _ _ _ T2 T1).
  destruct (neqb _ _). { apply IH; auto using rl_snoc. }
  destruct (nltb (s_time i') _).
  { destruct pj as [p|], pj' as [p'|]; try contradiction; [|exact I]. apply IH; auto using rl_snoc, r_at. }
  destruct (nltb (s_time j') _).
  { destruct pi as [p|], pi' as [p'|]; try contradiction; [|exact I]. apply IH; auto using rl_snoc, r_at. }
  apply IH; auto.
Qed.
Lemma r_back s s' : rl s s' -> orel rs (back s) (back s').
Proof. intros H. pose proof (rl_last _ _ H) as L. unfold back. destruct (last_opt s), (last_opt s'); try contradiction; [exact L|exact I]. Qed.
Lemma r_close xv xv' yv yv' : rl xv xv' -> rl yv yv' -> orel rp (sync_close xv yv) (sync_close xv' yv').
Proof.
  intros Hx Hy. unfold sync_close. eapply orel_bind; [apply r_back, Hx|]. intros xb xb' Q1 _. eapply orel_bind; [apply r_back, Hy|]. intros yb yb' Q2 _. cbn zeta.
  assert (K : rl (if nltb (s_time yb) (s_time xb) then yv ++ [mkSample (s_time xb) (interpolate yb (s_time xb)) nzero] else yv)
                 (if nltb (s_time yb') (s_time xb') then yv' ++ [mkSample (s_time xb') (interpolate yb' (s_time xb')) nzero] else yv')).
  { rewrite (sim_lt (s_time yb) (s_time xb) (s_time yb') (s_time xb')) by (apply Q1 || apply Q2). destruct (nltb _ _); [|exact Hy].
    apply rl_snoc; [exact Hy|]. apply r_at; [exact Q2|apply Q1]. }
  eapply orel_bind; [apply r_back, K|]. intros zb zb' Q3 _. eapply orel_bind; [apply r_back, Hx|]. intros xc xc' Q4 _. cbn zeta. split; [|exact K]. cbn [fst]. clear K.
  rewrite (sim_lt (s_time xc) (s_time zb) (s_time xc') (s_time zb')) by (apply Q3 || apply Q4). destruct (nltb (s_time xc') _); [|exact Hx].
  apply rl_snoc; [exact Hx|]. apply r_at; [exact Q4|apply Q3].
Qed.
Lemma r_sync x x' y y' : rl x x' -> rl y y' -> orel rp (synchronize x y) (synchronize x' y').
Proof.
  intros Hx Hy. unfold synchronize, synchronize_fuel. rewrite (rl_length _ _ Hx), (rl_length _ _ Hy).
  set (bt := std_max (begin_time x) (begin_time y)). set (bt' := std_max (begin_time x') (begin_time y')).
  assert (B : sim bt bt') by (apply r_max; apply r_begin; assumption).
  assert (P : forall a b, rs a b -> before bt a = before bt' b) by (intros a b Q; apply sim_lt; [apply Q|exact B]).
  rewrite (r_lb x x' _ _ Hx P), (r_lb y y' _ _ Hy P). cbn zeta.
  destruct (lower_bound x' (before bt')) as [ki| | | |]; cbn [bind orel]; auto.
  eapply orel_bind; [apply r_first; auto using r_iter|]. intros xv0 xv0' Q1 _.
  destruct (lower_bound y' (before bt')) as [kj| | | |]; cbn [bind orel]; auto.
  eapply orel_bind; [apply r_first; auto using r_iter|]. intros yv0 yv0' Q2 _.
  destruct (r_iter x x' ki Hx) as [I1 I2], (r_iter y y' kj Hy) as [I3 I4].
  eapply orel_bind; [apply r_loop; assumption|]. intros [xv yv] [xv' yv'] [Q3 Q4] _.
  eapply orel_bind; [apply r_close; assumption|]. intros [xw yw] [xw' yw'] [Q5 Q6] _.
  eapply orel_bind; [apply r_from; assumption|]. intros sx sx' Q7 _.
  eapply orel_bind; [apply r_from; assumption|]. intros sy sy' Q8 _. split; assumption.
Qed.

(** ** Crossings.  With equal slopes the time is infinite or NaN. *)
Lemma sim_num x y : sim x y -> isnum x = isnum y.
Proof. intros [H _]; exact H. Qed.
Lemma r_tint a a' b b' : rs a a' -> rs b b' ->
  sim (time_intersect a b) (time_intersect a' b') \/
  ((time_intersect a b = B754_nan \/ exists s, time_intersect a b = B754_infinity s) /\ (time_intersect a' b' = B754_nan \/ exists s, time_intersect a' b' = B754_infinity s)).
Proof.
  intros (T1 & V1 & D1) (T2 & V2 & D2). unfold time_intersect.
  set (N := nsub (nadd _ _) _). set (D := nsub _ _). set (N' := nsub (nadd (nsub (s_value a') _) _) _). set (D' := nsub (s_deriv b') _).
  assert (ED : sim (nopp D) D').
  { unfold D, D'. eapply sim_trans; [apply sim_sym, opp_sub|]. apply sim_sub; assumption. }
  assert (EN : sim (nopp N) N').
  { unfold N, N'. eapply sim_trans; [apply sim_sym, opp_sub|]. apply sim_sub.
    - eapply sim_trans; [apply sim_sym, opp_add|]. apply sim_add.
      + eapply sim_trans; [apply sim_sym, opp_sub|]. apply sim_sub; assumption.
      + rewrite <- NegFacts.b64_mul_opp. apply sim_mul; assumption.
    - rewrite <- NegFacts.b64_mul_opp. apply sim_mul; assumption. }
  destruct (neqb D nzero) eqn:Z.
  - right. assert (Z' : neqb D' nzero = true).
    { rewrite <- (sim_eq (nopp D) nzero D' nzero ED (sim_refl _)). apply neqb_true in Z as (Z1 & Z2 & Z3). apply neqb_true. rewrite isnum_opp, rk_opp. rewrite rk_zero in *. split; [exact Z1|]. split; [exact Z2|]. lra. }
    split; apply div_zero; assumption.
  - left. assert (Z' : neqb (nopp D) nzero = false).
    { destruct (neqb (nopp D) nzero) eqn:Q; [|reflexivity]. rewrite <- Z. apply neqb_true in Q as (Z1 & Z2 & Z3). symmetry. rewrite isnum_opp in Z1. rewrite rk_opp in Z3. apply neqb_true. rewrite rk_zero in *. split; [exact Z1|]. split; [exact Z2|]. lra. }
    replace (ndiv N D) with (ndiv (nopp N) (nopp D)) by (rewrite opp_div_l, opp_div_r, nopp_opp; reflexivity).
    apply sim_div; assumption.
Qed.

(** Such a time is not added, or the next sample is rejected. *)
Lemma step_inf (out : signal B64) (pw pl w : sample B64) : isnum (s_time w) = true -> time_intersect pl pw = B754_nan \/ (exists s, time_intersect pl pw = B754_infinity s) ->
  pair_step out true (Some pw) (Some pl) w = Throw InvalidArgument \/ pair_step out true (Some pw) (Some pl) w = push_back out w.
Proof.
  intros Nw H. unfold pair_step. cbn zeta. set (it := time_intersect pl pw) in *. clearbody it.
  destruct (nltb (end_time out) it && negb (neqb it (s_time w))) eqn:Q; [|right; reflexivity].
  apply andb_prop in Q as [Q1 Q2]. left.
  assert (it = B754_infinity false) as ->.
  { destruct H as [->|([] & ->)]; [|exfalso|reflexivity].
    - rewrite nltb_nan_r in Q1 by reflexivity. discriminate.
    - apply nltb_true in Q1 as (Q1 & _ & Q3). pose proof (rk_ninf_opp _ Q1) as Q. exact (Rlt_not_le _ _ Q3 Q). }
  set (c := mkSample _ _ _). assert (exists o, push_back out c = Ok o /\ last_opt o = Some c) as (o & E & L).
  { unfold push_back, push_back_st. destruct (last_opt out) as [l|] eqn:L.
    - assert (nleb (s_time c) (s_time l) = false) as ->.
      { unfold end_time in Q1. rewrite L in Q1. apply nltb_true in Q1 as (A & B & C). apply nleb_false; auto. }
      eexists. split; [reflexivity|]. match goal with |- last_opt (?r ++ [?x; ?y]) = _ => change (r ++ [x; y]) with (r ++ [x] ++ [y]) end. rewrite app_assoc. apply last_opt_snoc.
    - eexists. split; reflexivity. }
  rewrite E. cbn [bind]. unfold push_back, push_back_st. rewrite L.
  assert (nleb (s_time w) (s_time c) = true) as ->; [|reflexivity]. apply nleb_true. split; [exact Nw|]. split; [exact (isnum_inf (F := B64))|]. exact (rk_inf (F := B64) _ Nw).
Qed.

Definition dual (comp comp' : sample B64 -> sample B64 -> bool) : Prop := forall a b a' b', rs a a' -> rs b b' -> comp' a' b' = comp a b.
Lemma lt_opp (x y : B64) : nltb (nopp x) (nopp y) = nltb y x.
Proof.
  rewrite !nltb_law, !isnum_opp, !rk_opp, (andb_comm (isnum x)). f_equal.
  case (Rlt_bool_spec (rk y) (rk x)); intros; [apply Rlt_bool_true|apply Rlt_bool_false]; lra.
Qed.
Lemma rs_lt a b a' b' : rs a a' -> rs b b' -> sample_lt a' b' = sample_lt b a.
Proof. intros (_ & V & _) (_ & W & _). unfold sample_lt. rewrite <- (sim_lt _ _ _ _ V W). apply lt_opp. Qed.
Lemma dual_le : dual sample_le sample_ge.
Proof. intros a b a' b' A B. unfold sample_le, sample_ge, sample_gt. rewrite (rs_lt a b a' b') by assumption. reflexivity. Qed.
Lemma dual_ge : dual sample_ge sample_le.
Proof. intros a b a' b' A B. unfold sample_le, sample_ge, sample_gt. rewrite (rs_lt b a b' a') by assumption. reflexivity. Qed.

Lemma r_step out out' sw pw pw' pl pl' w w' : rl out out' -> ro pw pw' -> ro pl pl' -> rs w w' -> isnum (s_time w) = true ->
  drel rl (pair_step out sw pw pl w) (pair_step out' sw pw' pl' w').
Proof.
  intros O P L W N. assert (N' : isnum (s_time w') = true) by (rewrite <- N; symmetry; apply sim_num, W).
  destruct sw; [|apply drel_or; cbn [pair_step bind]; apply r_push; assumption].
  destruct pl as [a|], pl' as [a'|]; try contradiction; [|apply drel_or; exact I].
  destruct pw as [b|], pw' as [b'|]; try contradiction; [|apply drel_or; exact I].
  destruct (r_tint a a' b b' L P) as [E|[E E']].
  - apply drel_or. unfold pair_step. cbn zeta.
    rewrite (sim_lt (end_time out) (time_intersect a b) (end_time out') (time_intersect a' b')) by (auto using r_end).
    rewrite (sim_eq (time_intersect a b) (s_time w) (time_intersect a' b') (s_time w')) by (exact E || apply W).
    eapply (orel_bind rl).
    + destruct (_ && _); [|exact O]. apply r_push; [exact O|]. apply r_at; assumption.
    + intros o o' Q _. apply r_push; assumption.
  - destruct (step_inf out b a w N E) as [-> | ->]; [left; reflexivity|].
    destruct (step_inf out' b' a' w' N' E') as [-> | ->]; [right; left; reflexivity|]. apply drel_or, r_push; assumption.
Qed.

Lemma r_pair_loop comp comp' : dual comp comp' -> forall xs xs' ys ys' pi pi' pj pj' last out out', rl xs xs' -> rl ys ys' -> ro pi pi' -> ro pj pj' -> rl out out' ->
  all_num (times xs) -> all_num (times ys) ->
  drel rl (pair_loop comp pi pj xs ys last out) (pair_loop comp' pi' pj' xs' ys' last out').
Proof.
  intros D. intros xs xs' ys ys' pi pi' pj pj' last out out' HX. revert ys ys' pi pi' pj pj' last out out'.
  induction HX as [|i i' xs xs' H1 H2 IH]; intros ys ys' pi pi' pj pj' last out out' HY Pi Pj O Nx Ny; [apply drel_or; exact O|].
  destruct HY as [|j j' ys ys' H3 H4]; [apply drel_or; exact O|]. inversion Nx; subst. inversion Ny; subst. cbn [pair_loop].
  rewrite (D i j i' j' H1 H3). destruct (comp i j).
  - eapply drel_bind; [apply r_step; eassumption|]. intros o o' Q _ _. apply IH; assumption.
  - eapply drel_bind; [apply r_step; eassumption|]. intros o o' Q _ _. apply IH; assumption.
Qed.

Lemma r_pair dbg comp comp' x x' y y' : dual comp comp' -> good x -> good y -> rl x x' -> rl y y' ->
  drel rl (minmax_pair dbg comp false x y) (minmax_pair dbg comp' false x' y').
Proof.
  intros D [Wx _] [Wy _] Hx Hy. unfold minmax_pair. eapply drel_bind; [apply drel_or, r_sync; eassumption|].
  intros [u v] [u' v'] [Hu Hv] E _. destruct (sync_out _ _ _ _ Wx Wy E) as (W1 & W2 & _). cbn [fst snd] in Hu, Hv.
  rewrite (rl_length _ _ Hu), (rl_length _ _ Hv), (sim_eq _ _ _ _ (r_begin _ _ Hu) (r_begin _ _ Hv)), (sim_eq _ _ _ _ (r_end _ _ Hu) (r_end _ _ Hv)).
  destruct (assert_ dbg (Nat.eqb _ _)) as [[]|e| | |]; cbn [bind]; try (apply drel_or; (exact I || reflexivity)).
  destruct (assert_ dbg (neqb (begin_time _) _)) as [[]|e| | |]; cbn [bind]; try (apply drel_or; (exact I || reflexivity)).
  destruct (assert_ dbg (neqb (end_time _) _)) as [[]|e| | |]; cbn [bind]; try (apply drel_or; (exact I || reflexivity)).
  apply r_pair_loop; try exact I; auto; [apply W1|apply W2].
Qed.
Lemma r_fold dbg comp comp' : dual comp comp' -> forall l l' acc acc', Forall2 rl l l' -> Forall good l -> rl acc acc' -> good acc ->
  drel rl (minmax_fold dbg comp false acc l) (minmax_fold dbg comp' false acc' l').
Proof.
  intros D l l' acc acc' H. revert acc acc'. induction H as [|x x' l l' H1 H2 IH]; intros acc acc' G A GA; [apply drel_or; exact A|].
  inversion G; subst. cbn [minmax_fold]. eapply drel_bind; [apply r_pair; eassumption|]. intros z z' Q E _.
  apply IH; auto. eapply good_pair; [| |exact E]; assumption.
Qed.
Lemma r_list dbg comp comp' l l' : dual comp comp' -> l <> [] -> Forall2 rl l l' -> Forall good l ->
  drel rl (minmax_list dbg comp false l) (minmax_list dbg comp' false l').
Proof.
  intros D N H G. destruct H as [|x x' l l' H1 H2]; [congruence|]. inversion G as [|? ? G1 G2]; subst.
  destruct H2 as [|y y' l l' H2 H3]; [apply drel_or; exact H1|]. inversion G2 as [|? ? G3 G4]; subst.
  destruct H3 as [|z z' l l' H3 H4]; cbn [minmax_list]; [apply r_pair; assumption|]. inversion G4; subst.
  apply (r_fold dbg comp comp' D (y :: z :: l) (y' :: z' :: l')); auto; constructor; auto.
Qed.

Lemma not_ok y : good y -> exists y', rob_not y = Ok y' /\ rl y y'.
Proof.
  intros [W _]. apply wf_canon in W as (pts & P & ->). rewrite rob_not_canon by apply (wfp_steps _ P). eexists. split; [reflexivity|].
  pose proof (r_from (sig_of pts) (map sample_neg (sig_of pts)) (rl_neg _)) as K.
  rewrite !from_samples_canon, points_neg, steps_ok_neg, points_sig_of, (wfp_steps _ P) in K. exact K.
Qed.

Lemma sim_alike x y : sim x y -> alike x y.
Proof. intros H. apply sim_cases in H as [->|(s & s' & -> & ->)]; [left; reflexivity|right; destruct s, s'; reflexivity]. Qed.
Lemma rl_alike x y z : rl x y -> rl x z -> alike_signals y z.
Proof.
  intros H. revert z. induction H as [|a b l l' H1 H2 IH]; intros z K; inversion K as [|? c ? l'' K1 K2]; subst; constructor; [|apply IH; assumption].
  destruct H1 as (T & V & D), K1 as (T' & V' & D'). split; [|split]; apply sim_alike; eapply sim_trans; try (apply sim_sym; eassumption); assumption.
Qed.

Lemma not_list dbg fuel r l : (forall e z, compute dbg fuel r e = Ok z -> good z) ->
  orel (fun ys ys' => Forall2 rl ys ys' /\ Forall good ys) (compute_list (compute dbg fuel r) l) (compute_list (compute dbg fuel r) (map ENot l)).
Proof.
  intros G. induction l as [|e l IH]; [split; constructor|]. cbn [map compute_list].
  change (compute dbg fuel r (ENot e)) with (x <- compute dbg fuel r e ;; rob_not x).
  destruct (compute dbg fuel r e) as [y| | | |] eqn:E; cbn [bind orel]; auto.
  destruct (not_ok y (G _ _ E)) as (y' & -> & Q). cbn [bind]. eapply orel_bind; [exact IH|]. intros ys ys' [A B] _. split; constructor; eauto.
Qed.

Lemma C114_andor_lemma dbg fuel l (tr : trace B64) s : Forall (fun e => wf (snd e) /\ snd e <> []) tr -> l <> [] ->
  let alike_or_rejected o o' := alike_outcomes o o' \/ o = Throw InvalidArgument \/ o' = Throw InvalidArgument in
  alike_or_rejected (compute_robustness dbg fuel (ENot (EAnd l)) tr s) (compute_robustness dbg fuel (EOr (map ENot l)) tr s) /\
  alike_or_rejected (compute_robustness dbg fuel (ENot (EOr l)) tr s) (compute_robustness dbg fuel (EAnd (map ENot l)) tr s).
Proof.
  intros G N. cbv zeta. unfold compute_robustness. set (r := mkRob _ _ _).
  assert (GC : forall e z, compute dbg fuel r e = Ok z -> good z) by (intros e z; apply (good_compute b64_win b64_hv dbg fuel tr e G)).
  assert (K : forall comp comp', dual comp comp' -> (forall z, (ys <- compute_list (compute dbg fuel r) l ;; minmax_list dbg comp false ys) = Ok z -> good z) ->
     let o := (x <- (ys <- compute_list (compute dbg fuel r) l ;; minmax_list dbg comp false ys) ;; rob_not x) in
     let o' := (ys <- compute_list (compute dbg fuel r) (map ENot l) ;; minmax_list dbg comp' false ys) in
     alike_outcomes o o' \/ o = Throw InvalidArgument \/ o' = Throw InvalidArgument).
  { intros comp comp' D GZ. cbv zeta.
    assert (Q : drel rl (ys <- compute_list (compute dbg fuel r) l ;; minmax_list dbg comp false ys) (ys <- compute_list (compute dbg fuel r) (map ENot l) ;; minmax_list dbg comp' false ys)).
    { eapply drel_bind; [apply drel_or, (not_list dbg fuel r l GC)|]. intros ys ys' [A B] E _. apply r_list; auto.
      apply compute_list_inv in E. inversion E; subst; [congruence|discriminate]. }
    destruct Q as [->|[->|Q]]; [right; left; reflexivity|right; right; reflexivity|]. left.
    revert Q GZ. generalize (ys <- compute_list (compute dbg fuel r) l ;; minmax_list dbg comp false ys). generalize (ys <- compute_list (compute dbg fuel r) (map ENot l) ;; minmax_list dbg comp' false ys).
    intros o' o Q GZ. destruct o as [z| | | |], o' as [z'| | | |]; try contradiction; cbn [bind alike_outcomes]; try reflexivity.
    - destruct (not_ok z (GZ z eq_refl)) as (w & -> & Hw). exact (rl_alike _ _ _ Hw Q).
    - cbn in Q. subst. reflexivity. }
  split; cbn [compute]; apply K.
  - apply dual_le.
  - intros z Hz. apply (GC (EAnd l) z Hz).
  - apply dual_ge.
  - intros z Hz. apply (GC (EOr l) z Hz).
Qed.

(** ** Temporal operators: exact equality *)
Lemma best_neg comp comp' : (forall a b, comp' (sample_neg a) (sample_neg b) = comp a b) -> (forall a b a' b' : sample B64, s_value a = s_value a' -> s_value b = s_value b' -> comp' a b = comp' a' b') ->
  forall r r' a a', s_value a' = nopp (s_value a) -> Forall2 (fun b b' => s_value b' = nopp (s_value b)) r r' -> s_value (best_of comp' a' r') = nopp (s_value (best_of comp a r)).
Proof.
  intros C V r r' a a' H1 H2. revert a a' H1. induction H2 as [|b b' r r' Hb Hr IH]; intros a a' Ha; [exact Ha|]. cbn [best_of]. specialize (IH b b' Hb). cbn zeta.
  rewrite <- (C a), (V (sample_neg a) (sample_neg (best_of comp b r)) a' (best_of comp' b' r')); [destruct (comp' _ _); assumption|symmetry; exact Ha|symmetry; exact IH].
Qed.
Lemma roll_neg comp comp' : (forall a b, comp' (sample_neg a) (sample_neg b) = comp a b) -> (forall a b a' b' : sample B64, s_value a = s_value a' -> s_value b = s_value b' -> comp' a b = comp' a' b') ->
  forall x x', times x' = times x -> Forall2 (fun b b' => s_value b' = nopp (s_value b)) x x' -> rollp comp' x' = map negp (rollp comp x).
Proof.
  intros C V x x' T H. induction H as [|b b' r r' Hb Hr IH]; [reflexivity|]. cbn [times map] in T. injection T as T1 T2. cbn [rollp map negp fst snd]. unfold negp at 1. cbn [fst snd].
  rewrite (best_neg comp comp' C V r r' b b' Hb Hr), T1. f_equal. apply IH, T2.
Qed.
Lemma roll_vals comp (x : signal B64) : values (sig_of (rollp comp x)) = map snd (rollp comp x).
Proof. apply values_sig_of. Qed.

Lemma not_points y : good y -> exists y', rob_not y = Ok y' /\ good y' /\ times y' = times y /\ Forall2 (fun b b' => s_value b' = nopp (s_value b)) y y'.
Proof.
  intros [W Ne]. apply wf_canon in W as (pts & P & ->). rewrite rob_not_canon by apply (wfp_steps _ P). eexists. split; [reflexivity|].
  assert (Ef : map fst (map negp pts) = map fst pts) by (rewrite map_map; reflexivity).
  assert (Et : times (sig_of (map negp pts)) = times (sig_of pts)) by (rewrite !times_sig_of; exact Ef). split; [|split; [exact Et|]].
  - split; [apply wf_canon; exists (map negp pts); split; [|reflexivity]; unfold wfp; rewrite Ef; exact P|]. destruct pts; [exact Ne|discriminate].
  - clear. induction pts as [|p [|q pts] IH]; cbn [map sig_of]; constructor; auto; constructor.
Qed.

Lemma neg_seq comp comp' y y' : (forall a b, comp' (sample_neg a) (sample_neg b) = comp a b) -> (forall a b a' b' : sample B64, s_value a = s_value a' -> s_value b = s_value b' -> comp' a b = comp' a' b') ->
  good y -> good y' -> times y' = times y -> Forall2 (fun b b' => s_value b' = nopp (s_value b)) y y' ->
  (x <- minmax_seq comp y ;; rob_not x) = minmax_seq comp' y'.
Proof.
  intros C V [W N] [W' N'] T H. rewrite !minmax_seq_roll by assumption. cbn [bind].
  rewrite (roll_neg comp comp' C V y y' T H). apply rob_not_canon. apply wfp_steps. unfold wfp. rewrite rollp_times. destruct W as (A & B & _). split; assumption.
Qed.

(** One sample at an infinite time: the windowed loop starts with an empty window. *)
Lemma win_single comp fuel (a b : B64) c : neqb a nzero = true -> nsub b a = ninf -> finite (s_time c) = false -> isnum (s_time c) = true ->
  minmax_seq_win comp fuel [c] a b = match fuel with O => Hang | _ => UB end.
Proof.
  intros Z W Fc Nc. unfold minmax_seq_win. rewrite Z, W. cbn [bind begin_time win_fill].
  assert (nltb (s_time c) (nadd (s_time c) ninf) = false) as ->.
  { destruct c as [t v d]. cbn [s_time] in *. rewrite b64_isnum in Nc. destruct t as [|[]| |]; try discriminate; reflexivity. }
  cbn [bind]. destruct fuel; reflexivity.
Qed.

Lemma neg_temporal fuel comp comp' i y y' : (forall a b, comp' (sample_neg a) (sample_neg b) = comp a b) -> (forall a b a' b' : sample B64, s_value a = s_value a' -> s_value b = s_value b' -> comp' a b = comp' a' b') ->
  made_interval i -> good y -> good y' -> times y' = times y -> Forall2 (fun b b' => s_value b' = nopp (s_value b)) y y' ->
  (x <- rob_temporal fuel comp i y ;; rob_not x) = rob_temporal fuel comp' i y'.
Proof.
  intros C V M G G' T H. unfold rob_temporal. destruct (has_value i) eqn:E; cbn [negb]; [|apply neg_seq; assumption].
  pose proof (made_b64 i M E) as E1. pose proof (b64_hv i E) as E2. destruct (as_double i) as [a b]. cbn [fst snd] in E1, E2. cbn zeta. rewrite !E1.
  assert (nltb (ninf : B64) nzero = false) as -> by reflexivity. assert (neqb (ninf : B64) nzero = false) as -> by reflexivity.
  assert (Eb : begin_time y' = begin_time y) by (destruct y, y'; try discriminate; [reflexivity|]; injection T; auto).
  assert (Ee : end_time y' = end_time y).
  { unfold end_time. assert (option_map s_time (last_opt y') = option_map s_time (last_opt y)) by (rewrite <- !last_opt_map; unfold times in T; rewrite T; reflexivity).
    destruct (last_opt y'), (last_opt y); try discriminate; [injection H0; auto|reflexivity]. }
  rewrite Eb, Ee. destruct (nleb (nsub (end_time y) (begin_time y)) ninf) eqn:Q; [apply neg_seq; assumption|].
  assert (S : exists c, y = [c] /\ finite (s_time c) = false /\ isnum (s_time c) = true).
  { destruct G as [W N]. destruct y as [|c [|d y]]; [congruence| |].
    - exists c. split; [reflexivity|]. pose proof (proj1 W) as A. inversion A; subst. split; [|assumption].
      destruct (finite (s_time c)) eqn:F; [|reflexivity]. exfalso. assert (isnum (nsub (end_time [c]) (begin_time [c])) = true) by (apply span_num; [exact W|discriminate|right; exact F]).
      apply Bool.not_true_iff_false in Q. apply Q. apply nleb_true. split; [assumption|]. split; [apply isnum_inf|]. apply rk_inf. assumption.
    - exfalso. assert (isnum (nsub (end_time (c :: d :: y)) (begin_time (c :: d :: y))) = true) by (apply span_num; [exact W|discriminate|left; cbn; lia]).
      apply Bool.not_true_iff_false in Q. apply Q. apply nleb_true. split; [assumption|]. split; [apply isnum_inf|]. apply rk_inf. assumption. }
  destruct S as (c & -> & F & Nc). inversion H as [|? c' ? ? _ H2]; subst. inversion H2; subst. cbn [times map] in T. injection T as T.
  rewrite !win_single; rewrite ?T; auto. destruct fuel; reflexivity.
Qed.

Lemma vals_le (a b a' b' : sample B64) : s_value a = s_value a' -> s_value b = s_value b' -> sample_le a b = sample_le a' b'.
Proof. intros A B. unfold sample_le, sample_gt, sample_lt. rewrite A, B. reflexivity. Qed.
Lemma vals_ge (a b a' b' : sample B64) : s_value a = s_value a' -> s_value b = s_value b' -> sample_ge a b = sample_ge a' b'.
Proof. intros A B. unfold sample_ge, sample_lt. rewrite A, B. reflexivity. Qed.

Lemma C114_temporal_lemma dbg fuel phi i (tr : trace B64) s : Forall (fun e => wf (snd e) /\ snd e <> []) tr -> made_interval i ->
  compute_robustness dbg fuel (ENot (EEventually phi i)) tr s = compute_robustness dbg fuel (EAlways (ENot phi) i) tr s /\
  compute_robustness dbg fuel (ENot (EAlways phi i)) tr s = compute_robustness dbg fuel (EEventually (ENot phi) i) tr s.
Proof.
  intros G M. unfold compute_robustness. set (r := mkRob _ _ _). cbn [compute].
  destruct (compute dbg fuel r phi) as [y| | | |] eqn:E; try (split; reflexivity). cbn [bind].
  assert (Gy : good y) by (apply (good_compute b64_win b64_hv dbg fuel tr phi G y E)).
  destruct (not_points y Gy) as (y' & -> & Gy' & T & H). cbn [bind].
  split; apply neg_temporal; auto using vals_le, vals_ge; intros a b.
  - apply dual_ge; apply rs_neg.
  - apply dual_le; apply rs_neg.
Qed.
