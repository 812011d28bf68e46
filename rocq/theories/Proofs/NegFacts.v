(** C65: unary minus of a sample. *)
From Coq Require Import Reals Lra.
From Flocq Require Import Core.Core IEEE754.BinarySingleNaN.
From Verif Require Import Base Num NumXR NumB64.
From Verif.Model Require Import Signal.
From Verif.Proofs Require Import NumFacts.
Open Scope R_scope.

(** ** Rounding to nearest even is symmetric, so products and sums of opposites are opposite. *)
Notation rnd := (round radix2 (SpecFloat.fexp 53 1024) (round_mode mode_NE)).

Lemma rnd_opp x : rnd (- x) = - rnd x.
Proof. apply round_NE_opp. Qed.

Lemma finite_num (z : B64) : is_finite z = true -> is_nan z = false.
Proof. destruct z; reflexivity || discriminate. Qed.

Lemma b64_mul_opp (x y : B64) : nmul (nopp x) y = nopp (nmul x y).
Proof.
  destruct (is_finite x) eqn:Fx, (is_finite y) eqn:Fy;
    [|destruct x as [s|s| |s m e H], y as [s'|s'| |s' m' e' H']; try discriminate; cbn; try reflexivity; try (destruct s, s'; reflexivity)..].
  pose proof (Bmult_correct 53 1024 b64_prec_gt_0 b64_prec_lt_emax mode_NE x y) as A.
  pose proof (Bmult_correct 53 1024 b64_prec_gt_0 b64_prec_lt_emax mode_NE (Bopp x) y) as B.
  rewrite B2R_Bopp, <- Ropp_mult_distr_l, rnd_opp, Rabs_Ropp in B.
  change (nmul (nopp x) y) with (@Bmult 53 1024 b64_prec_gt_0 b64_prec_lt_emax mode_NE (Bopp x) y).
  change (nmul x y) with (@Bmult 53 1024 b64_prec_gt_0 b64_prec_lt_emax mode_NE x y).
  change (@nopp B64 _) with (@Bopp 53 1024).
  set (m := Bmult mode_NE x y) in *. set (n := Bmult mode_NE (Bopp x) y) in *. clearbody m n.
  rewrite is_finite_Bopp, Fx, Fy in B. rewrite Fx, Fy in A. rewrite Bsign_Bopp in B by (apply finite_num; exact Fx).
  destruct (Rlt_bool _ _).
  - destruct A as (A1 & A2 & A3), B as (B1 & B2 & B3).
    apply B2R_Bsign_inj; [exact B2|rewrite is_finite_Bopp; exact A2| |].
    + rewrite B1, B2R_Bopp, A1. reflexivity.
    + rewrite Bsign_Bopp by (apply finite_num; exact A2). rewrite A3, B3 by (apply finite_num; assumption).
      apply eq_sym, Bool.negb_xorb_l.
  - apply B2SF_inj. rewrite B.
    destruct m as [s|s| |s m' e He]; cbn in A; try discriminate. cbn.
    injection A as ->. rewrite <- Bool.negb_xorb_l. reflexivity.
Qed.

(** Equal as doubles: both NaN, or [==]. *)
Definition same (x y : B64) : Prop := isnum x = isnum y /\ (isnum x = true -> neqb x y = true).

Lemma same_rk (x y : B64) : isnum x = isnum y -> rk x = rk y -> same x y.
Proof. intros E R. split; [exact E|]. intros N. rewrite neqb_law, <- E, N, R. cbn. apply Raux.Req_bool_true. reflexivity. Qed.

Lemma finite_rk (z : B64) : is_finite z = true -> rk z = B2R z /\ isnum z = true.
Proof. rewrite b64_isnum. destruct z; try discriminate; split; reflexivity. Qed.

Lemma b64_add_opp (x y : B64) : same (nadd (nopp x) (nopp y)) (nopp (nadd x y)).
Proof.
  destruct (is_finite x) eqn:Fx, (is_finite y) eqn:Fy;
    [|destruct x as [s|s| |s m e H], y as [s'|s'| |s' m' e' H']; try discriminate;
      try (apply same_rk; [reflexivity|]; try reflexivity; destruct s; reflexivity);
      try (apply same_rk; destruct s; reflexivity); try (apply same_rk; destruct s'; reflexivity);
      try (apply same_rk; destruct s, s'; reflexivity)..].
  pose proof (Bplus_correct 53 1024 b64_prec_gt_0 b64_prec_lt_emax mode_NE x y Fx Fy) as A.
  pose proof (Bplus_correct 53 1024 b64_prec_gt_0 b64_prec_lt_emax mode_NE (Bopp x) (Bopp y)) as B.
  rewrite !is_finite_Bopp in B. specialize (B Fx Fy).
  rewrite !B2R_Bopp, <- Ropp_plus_distr, rnd_opp, Rabs_Ropp in B.
  change (nadd (nopp x) (nopp y)) with (@Bplus 53 1024 b64_prec_gt_0 b64_prec_lt_emax mode_NE (Bopp x) (Bopp y)).
  change (nadd x y) with (@Bplus 53 1024 b64_prec_gt_0 b64_prec_lt_emax mode_NE x y).
  set (m := Bplus mode_NE x y) in *. set (n := Bplus mode_NE (Bopp x) (Bopp y)) in *. clearbody m n.
  rewrite Bsign_Bopp in B by (apply finite_num; exact Fx).
  destruct (Rlt_bool _ _).
  - destruct A as (A1 & A2 & _), B as (B1 & B2 & _). apply finite_rk in A2 as [R2 N2], B2 as [R3 N3].
    apply same_rk; [rewrite isnum_opp; congruence|]. rewrite rk_opp. congruence.
  - destruct A as [A _], B as [B _].
    destruct m as [s|s| |s m' e He]; cbn in A; try discriminate. destruct n as [s1|s1| |s1 m1 e1 He1]; cbn in B; try discriminate.
    injection A as ->. injection B as ->. apply same_rk; [reflexivity|]. destruct (Bsign x); cbn -[bpow]; lra.
Qed.

(** ** C65 *)
Section Neg.
Context {F : Type} `{NF : Num F} {NL : NumLaws F}.
Lemma neg_fields (s : sample F) : (s_time (sample_neg s) = s_time s) /\ s_value (sample_neg s) = nopp (s_value s) /\ s_deriv (sample_neg s) = nopp (s_deriv s) /\ sample_neg (sample_neg s) = s.
Proof. destruct s. unfold sample_neg. cbn. rewrite !nopp_opp. auto. Qed.
Lemma neg_order (a b : sample F) : sample_lt (sample_neg a) (sample_neg b) = sample_lt b a.
Proof.
  unfold sample_lt, sample_neg. cbn. rewrite !nltb_law, !isnum_opp, !rk_opp.
  rewrite (andb_comm (isnum (s_value a))). f_equal.
  case (Raux.Rlt_bool_spec (rk (s_value b)) (rk (s_value a))); intro; [apply Raux.Rlt_bool_true|apply Raux.Rlt_bool_false]; lra.
Qed.
End Neg.

Lemma C65_lemma (s : sample B64) (t : B64) :
  s_time (sample_neg s) = s_time s /\ isnum (interpolate (sample_neg s) t) = isnum (interpolate s t) /\ (isnum (interpolate s t) = true -> neqb (interpolate (sample_neg s) t) (nopp (interpolate s t)) = true).
Proof.
  split; [reflexivity|]. unfold interpolate, sample_neg. cbn [s_time s_value s_deriv]. rewrite b64_mul_opp.
  destruct (b64_add_opp (s_value s) (nmul (s_deriv s) (nsub t (s_time s)))) as [E H].
  rewrite isnum_opp in E. split; [exact E|]. intros N. apply H. rewrite E. exact N.
Qed.

Lemma C65_exact_lemma (s : sample XR) (t : XR) : interpolate (sample_neg s) t = nopp (interpolate s t).
Proof.
  destruct s as [u v d]. unfold interpolate, sample_neg. cbn [s_time s_value s_deriv].
  assert (M : forall a b : XR, nmul (nopp a) b = nopp (nmul a b)).
  { assert (I : forall r, xinf_sign (- r) = xopp (xinf_sign r)).
    { intros r. unfold xinf_sign. case (Rcompare_spec r 0); intro; [rewrite Rcompare_Gt|rewrite Rcompare_Eq|rewrite Rcompare_Lt]; try reflexivity; lra. }
    intros [| |x|] [| |y|]; cbn; try reflexivity; rewrite ?I, ?Ropp_involutive; try reflexivity.
    all: first [f_equal; lra | change (@nopp XR _) with xopp; change (xopp (xopp (xinf_sign y))) with (@nopp XR _ (nopp (xinf_sign y))); rewrite nopp_opp; reflexivity]. }
  rewrite M. generalize (nmul d (nsub t u)). intros z. destruct v as [| |x|], z as [| |y|]; cbn; try reflexivity. f_equal. lra.
Qed.

Lemma C65_case_lemma : interpolate (sample_neg (mkSample (Fin 1) (Fin 2) (Fin 3))) (Fin 3) = Fin (-8).
Proof. unfold interpolate, sample_neg. cbn. f_equal. lra. Qed.

Lemma C65_order_lemma (a b : sample B64) :
  sample_neg (sample_neg a) = a /\ sample_lt (sample_neg a) (sample_neg b) = sample_lt b a /\
  s_value (sample_neg a) = nopp (s_value a) /\ s_deriv (sample_neg a) = nopp (s_deriv a).
Proof. destruct (neg_fields a) as (_ & V & D & I). repeat split; auto using neg_order. Qed.
