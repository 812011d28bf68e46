(** Rounding facts about binary64 addition and subtraction of finite numbers. *)
From Coq Require Import Reals Lra.
From Flocq Require Import Core.Core IEEE754.BinarySingleNaN Plus_error.
From Verif Require Import Base Num NumB64.
From Verif.Proofs Require Import NumFacts.
Open Scope R_scope.

Definition rnd : R -> R := round radix2 (SpecFloat.fexp 53 1024) (round_mode mode_NE).
Definition clip (r : R) : R :=
  if Rlt_bool (Rabs r) (bpow radix2 1024) then r
  else if Rlt_bool r 0 then - bpow radix2 1024 else bpow radix2 1024.

Lemma finite_num x : finite x = true -> isnum x = true.
Proof. rewrite b64_isnum. destruct x; auto. Qed.
Lemma finite_rk x : finite x = true -> rk x = B2R x.
Proof. intros H. change (rk x) with (b64_rk x). destruct x; try discriminate; reflexivity. Qed.

Lemma clip_mono a b : a <= b -> clip a <= clip b.
Proof.
  pose proof (bpow_gt_0 radix2 1024) as P. intros H. unfold clip. generalize dependent (bpow radix2 1024).
  intros B P. unfold Rabs.
  destruct (Rcase_abs a), (Rcase_abs b); case Rlt_bool_spec; intros; case Rlt_bool_spec; intros;
    repeat (case Rlt_bool_spec; intros); lra.
Qed.
Lemma clip_opp a : clip (- a) = - clip a.
Proof.
  pose proof (bpow_gt_0 radix2 1024) as P. unfold clip. rewrite Rabs_Ropp. generalize dependent (bpow radix2 1024).
  intros B P. case Rlt_bool_spec; intros H; [reflexivity|].
  case Rlt_bool_spec; intros; case Rlt_bool_spec; intros; try lra. unfold Rabs in H. destruct (Rcase_abs a); lra.
Qed.
Lemma clip_pos a : 0 < a -> 0 < clip a.
Proof.
  pose proof (bpow_gt_0 radix2 1024) as P. intros H. unfold clip. case Rlt_bool_spec; intros; [lra|].
  case Rlt_bool_spec; intros; lra.
Qed.
Lemma clip_0 : clip 0 = 0.
Proof. unfold clip. rewrite Rabs_R0. rewrite Rlt_bool_true; [reflexivity|apply bpow_gt_0]. Qed.

#[local] Instance fexp_valid : Valid_exp (SpecFloat.fexp 53 1024) := fexp_correct 53 1024 b64_prec_gt_0.
#[local] Instance rnd_valid : Valid_rnd (round_mode mode_NE) := valid_rnd_round_mode mode_NE.

Lemma rnd_mono a b : a <= b -> rnd a <= rnd b.
Proof. intros H. unfold rnd. apply round_le; auto; typeclasses eauto. Qed.
Lemma rnd_0 : rnd 0 = 0.
Proof. unfold rnd. apply round_0. typeclasses eauto. Qed.

Lemma sign_B2R (x : B64) : finite x = true -> if Bsign x then B2R x <= 0 else 0 <= B2R x.
Proof.
  destruct x as [s|s| |s m e H]; try discriminate; intros _; cbn [Bsign B2R].
  - destruct s; lra.
  - destruct s; [apply F2R_le_0|apply F2R_ge_0]; cbn; lia.
Qed.

Lemma overflow_rk (z : B64) s : B2SF z = binary_overflow 53 1024 mode_NE s ->
  isnum z = true /\ rk z = if s then - bpow radix2 1024 else bpow radix2 1024.
Proof. rewrite b64_isnum. change (rk z) with (b64_rk z). destruct z; try discriminate. cbn. intros [= ->]. destruct s; auto. Qed.

Lemma clip_overflow r (s : bool) : (if s then r <= 0 else 0 <= r) -> bpow radix2 1024 <= Rabs r ->
  clip r = if s then - bpow radix2 1024 else bpow radix2 1024.
Proof.
  pose proof (bpow_gt_0 radix2 1024) as P. intros H1 H2. unfold clip. rewrite Rlt_bool_false by exact H2.
  destruct s; [rewrite Rlt_bool_true|rewrite Rlt_bool_false]; auto.
  destruct H1 as [H1|H1]; [lra|]. rewrite H1, Rabs_R0 in H2. lra.
Qed.

Lemma add_rk x y : finite x = true -> finite y = true ->
  isnum (nadd x y) = true /\ rk (nadd x y) = clip (rnd (B2R x + B2R y)).
Proof.
  intros Fx Fy. pose proof (Bplus_correct 53 1024 b64_prec_gt_0 b64_prec_lt_emax mode_NE x y Fx Fy) as H.
  fold (rnd (B2R x + B2R y)) in H. change (Bplus mode_NE x y) with (nadd x y) in H.
  revert H. case Rlt_bool_spec; intros L.
  - intros (H1 & H2 & _). split; [apply finite_num, H2|]. rewrite finite_rk by exact H2. rewrite H1.
    unfold clip. rewrite Rlt_bool_true by exact L. reflexivity.
  - intros (H1 & H2). apply overflow_rk in H1 as [H1 H3]. split; [exact H1|]. rewrite H3. symmetry. apply clip_overflow; [|exact L].
    pose proof (sign_B2R x Fx) as Sx. pose proof (sign_B2R y Fy) as Sy. rewrite <- H2 in Sy.
    rewrite <- rnd_0. destruct (Bsign x); apply rnd_mono; lra.
Qed.

Lemma sub_rk x y : finite x = true -> finite y = true ->
  isnum (nsub x y) = true /\ rk (nsub x y) = clip (rnd (B2R x - B2R y)).
Proof.
  intros Fx Fy. pose proof (Bminus_correct 53 1024 b64_prec_gt_0 b64_prec_lt_emax mode_NE x y Fx Fy) as H.
  fold (rnd (B2R x - B2R y)) in H. change (Bminus mode_NE x y) with (nsub x y) in H.
  revert H. case Rlt_bool_spec; intros L.
  - intros (H1 & H2 & _). split; [apply finite_num, H2|]. rewrite finite_rk by exact H2. rewrite H1.
    unfold clip. rewrite Rlt_bool_true by exact L. reflexivity.
  - intros (H1 & H2). apply overflow_rk in H1 as [H1 H3]. split; [exact H1|]. rewrite H3. symmetry. apply clip_overflow; [|exact L].
    pose proof (sign_B2R x Fx) as Sx. pose proof (sign_B2R y Fy) as Sy. rewrite H2 in *.
    rewrite <- rnd_0. destruct (Bsign y); cbn [negb] in *; apply rnd_mono; lra.
Qed.

(** Gradual underflow: the difference of distinct doubles does not round to 0. *)
Lemma rnd_sub_neq x y : B2R (x : B64) <> B2R (y : B64) -> rnd (B2R x - B2R y) <> 0.
Proof.
  intros H. unfold rnd, Rminus. change (SpecFloat.fexp 53 1024) with (FLT.FLT_exp (-1074) 53).
  apply round_plus_neq_0; try typeclasses eauto.
  - apply generic_format_B2R.
  - apply generic_format_opp. apply generic_format_B2R.
  - lra.
Qed.

Lemma sub_sign x y : finite x = true -> finite y = true ->
  nltb nzero (nsub x y) = nltb y x /\ nltb (nsub x y) nzero = nltb x y /\ isnum (nsub x y) = true.
Proof.
  intros Fx Fy. destruct (sub_rk x y Fx Fy) as [N E].
  rewrite !nltb_law, !E, !N, !(finite_num _ Fx), !(finite_num _ Fy), isnum_zero, rk_zero, !finite_rk by assumption.
  cbn [andb].
  assert (K : (B2R x < B2R y /\ clip (rnd (B2R x - B2R y)) < 0) \/ (B2R x = B2R y /\ clip (rnd (B2R x - B2R y)) = 0) \/
              (B2R y < B2R x /\ 0 < clip (rnd (B2R x - B2R y)))).
  { destruct (Rtotal_order (B2R x) (B2R y)) as [L|[L|L]].
    - left. split; [exact L|]. assert (rnd (B2R x - B2R y) < 0).
      { pose proof (rnd_mono (B2R x - B2R y) 0 ltac:(lra)). rewrite rnd_0 in H.
        pose proof (rnd_sub_neq x y ltac:(lra)). lra. }
      pose proof (clip_pos (- rnd (B2R x - B2R y)) ltac:(lra)). rewrite clip_opp in H0. lra.
    - right. left. split; [exact L|]. rewrite L. unfold Rminus. rewrite Rplus_opp_r, rnd_0. apply clip_0.
    - right. right. split; [exact L|]. apply clip_pos.
      pose proof (rnd_mono 0 (B2R x - B2R y) ltac:(lra)). rewrite rnd_0 in H.
      pose proof (rnd_sub_neq x y ltac:(lra)). lra. }
  split; [|split; [|reflexivity]]; repeat (case Rlt_bool_spec; intros); auto; lra.
Qed.

(** Adding a finite number is monotone. *)
Lemma add_mono x y d : finite d = true -> nleb x y = true -> nleb (nadd x d) (nadd y d) = true.
Proof.
  intros Fd H. pose proof H as H0. rewrite nleb_law in H. apply andb_prop in H as [H H3]. apply andb_prop in H as [H1 H2].
  destruct (finite x) eqn:Fx, (finite y) eqn:Fy.
  - destruct (add_rk x d Fx Fd) as [N1 E1]. destruct (add_rk y d Fy Fd) as [N2 E2].
    rewrite nleb_law, N1, N2, E1, E2. cbn [andb]. apply Rle_bool_true.
    rewrite !finite_rk in H3 by assumption.
    apply clip_mono, rnd_mono. revert H3. case Rle_bool_spec; [lra|discriminate].
  - destruct (add_rk x d Fx Fd) as [N1 E1].
    destruct y as [s|s| |s m e Hy]; try discriminate.
    assert (Es : s = false).
    { destruct s; [|reflexivity]. revert H3. case Rle_bool_spec; [|discriminate]. intros H3 _.
      rewrite finite_rk in H3 by assumption. pose proof (abs_B2R_lt_emax 53 1024 x) as B. apply Rabs_lt_inv in B.
      change (rk (B754_infinity true)) with (- bpow radix2 1024) in H3. lra. }
    subst s. replace (nadd (B754_infinity false) d) with (@B754_infinity 53 1024 false) by (destruct d; try discriminate; reflexivity).
    rewrite nleb_law, N1. cbn [andb]. apply Rle_bool_true. pose proof (rk_inf (nadd x d) N1) as H. change (rk ninf) with (bpow radix2 1024) in H. change (rk (B754_infinity false)) with (bpow radix2 1024). exact H.
  - destruct (add_rk y d Fy Fd) as [N1 E1].
    destruct x as [s|s| |s m e Hx]; try discriminate.
    assert (Es : s = true).
    { destruct s; [reflexivity|]. revert H3. case Rle_bool_spec; [|discriminate]. intros H3 _.
      rewrite (finite_rk y) in H3 by assumption. pose proof (abs_B2R_lt_emax 53 1024 y) as B. apply Rabs_lt_inv in B.
      change (rk (B754_infinity false)) with (bpow radix2 1024) in H3. lra. }
    subst s. replace (nadd (B754_infinity true) d) with (@B754_infinity 53 1024 true) by (destruct d; try discriminate; reflexivity).
    rewrite nleb_law, N1. cbn [andb]. apply Rle_bool_true.
    pose proof (rk_inf (nopp (nadd y d))). rewrite isnum_opp, rk_opp in H. specialize (H N1).
    change (rk ninf) with (bpow radix2 1024) in H. change (rk (B754_infinity true)) with (- bpow radix2 1024). lra.
  - destruct x as [s|s| |s m e Hx]; try discriminate. destruct y as [s'|s'| |s' m' e' Hy]; try discriminate.
    replace (nadd (B754_infinity s) d) with (@B754_infinity 53 1024 s) by (destruct d; try discriminate; reflexivity).
    replace (nadd (B754_infinity s') d) with (@B754_infinity 53 1024 s') by (destruct d; try discriminate; reflexivity).
    exact H0.
Qed.
