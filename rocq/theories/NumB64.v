(** IEEE 754 binary64 with round-to-nearest-even, as formalised by Flocq: the
    arithmetic of C++ [double] on the supported platforms (NaN payloads identified). *)
From Verif Require Import Base Num.
From Coq Require Import Reals Lra.
From Flocq Require Import Core.Core IEEE754.BinarySingleNaN.
Open Scope R_scope.

Definition B64 : Type := binary_float 53 1024.
Definition b64_prec_gt_0 : Prec_gt_0 53 := eq_refl.
Definition b64_prec_lt_emax : Prec_lt_emax 53 1024 := eq_refl.

(** The double nearest to [m * 2^e]. *)
Definition dbl (m e : Z) : B64 :=
  @binary_normalize 53 1024 b64_prec_gt_0 b64_prec_lt_emax mode_NE m e false.

(** Neither infinite nor NaN. *)
Definition finite (x : B64) : bool := is_finite x.

Definition b64_isinf (x : B64) : bool := match x with B754_infinity _ => true | _ => false end.

#[export] Instance Num_B64 : Num B64 := {|
  nzero := B754_zero false; ntwo := dbl 2 0; ninf := B754_infinity false;
  nopp := @Bopp 53 1024;
  nadd := @Bplus 53 1024 b64_prec_gt_0 b64_prec_lt_emax mode_NE;
  nsub := @Bminus 53 1024 b64_prec_gt_0 b64_prec_lt_emax mode_NE;
  nmul := @Bmult 53 1024 b64_prec_gt_0 b64_prec_lt_emax mode_NE;
  ndiv := @Bdiv 53 1024 b64_prec_gt_0 b64_prec_lt_emax mode_NE;
  nltb := @Bltb 53 1024; nleb := @Bleb 53 1024; neqb := @Beqb 53 1024;
  nisinf := b64_isinf;
  nofZ := fun z => dbl z 0
|}.

(** Order embedding: the real value, and +-2^1024 for the infinities. *)
Definition b64_rk (x : B64) : R :=
  match x with
  | B754_infinity false => bpow radix2 1024
  | B754_infinity true => - bpow radix2 1024
  | _ => B2R x
  end.

Definition b64_num (x : B64) : bool := negb (is_nan x).

Lemma Bcompare_rk (x y : B64) :
  Bcompare x y = if b64_num x && b64_num y then Some (Rcompare (b64_rk x) (b64_rk y)) else None.
Proof.
  destruct (is_finite x) eqn:Fx, (is_finite y) eqn:Fy.
  - rewrite Bcompare_correct by assumption.
    replace (b64_num x) with true by (destruct x; reflexivity || discriminate).
    replace (b64_num y) with true by (destruct y; reflexivity || discriminate). cbn.
    f_equal. f_equal; [destruct x|destruct y]; reflexivity || discriminate.
  - pose proof (abs_B2R_lt_emax 53 1024 x) as Hx. apply Rabs_lt_inv in Hx.
    replace (b64_num x) with true by (destruct x; reflexivity || discriminate).
    replace (b64_rk x) with (B2R x) by (destruct x; reflexivity || discriminate).
    destruct y as [s|s| |s m e Hy]; try discriminate; cbn -[bpow]; try (destruct x; reflexivity || discriminate).
    destruct s; [rewrite Rcompare_Gt by lra | rewrite Rcompare_Lt by lra];
      destruct x; reflexivity || discriminate.
  - pose proof (abs_B2R_lt_emax 53 1024 y) as Hy. apply Rabs_lt_inv in Hy.
    replace (b64_num y) with true by (destruct y; reflexivity || discriminate).
    replace (b64_rk y) with (B2R y) by (destruct y; reflexivity || discriminate).
    destruct x as [s|s| |s m e Hx]; try discriminate; cbn -[bpow]; try (destruct y; reflexivity || discriminate).
    destruct s; [rewrite Rcompare_Lt by lra | rewrite Rcompare_Gt by lra];
      destruct y; reflexivity || discriminate.
  - pose proof (bpow_gt_0 radix2 1024) as Hp.
    destruct x as [s|s| |s m e Hx]; try discriminate; destruct y as [s'|s'| |s' m' e' Hy]; try discriminate; try reflexivity.
    + cbn -[bpow]. destruct s, s'; [rewrite Rcompare_Eq by lra|rewrite Rcompare_Lt by lra|rewrite Rcompare_Gt by lra|rewrite Rcompare_Eq by lra]; reflexivity.
Qed.

Lemma Bltb_rk (x y : B64) : Bltb x y = b64_num x && b64_num y && Rlt_bool (b64_rk x) (b64_rk y).
Proof.
  change (Bltb x y) with (match Bcompare x y with Some Lt => true | _ => false end).
  rewrite Bcompare_rk. destruct (b64_num x && b64_num y); [|reflexivity]. cbn.
  unfold Rlt_bool. destruct (Rcompare _ _); reflexivity.
Qed.

Lemma Bleb_rk (x y : B64) : Bleb x y = b64_num x && b64_num y && Rle_bool (b64_rk x) (b64_rk y).
Proof.
  change (Bleb x y) with (match Bcompare x y with Some Lt | Some Eq => true | _ => false end).
  rewrite Bcompare_rk. destruct (b64_num x && b64_num y); [|reflexivity]. cbn.
  unfold Rle_bool. destruct (Rcompare _ _); reflexivity.
Qed.

Lemma Beqb_rk (x y : B64) : Beqb x y = b64_num x && b64_num y && Req_bool (b64_rk x) (b64_rk y).
Proof.
  change (Beqb x y) with (match Bcompare x y with Some Eq => true | _ => false end).
  rewrite Bcompare_rk. destruct (b64_num x && b64_num y); [|reflexivity]. cbn.
  unfold Req_bool. destruct (Rcompare _ _); reflexivity.
Qed.

Lemma b64_isnum (x : B64) : isnum x = b64_num x.
Proof.
  unfold isnum. cbn. rewrite Beqb_rk. destruct (b64_num x); [|reflexivity]. cbn.
  apply Req_bool_true. reflexivity.
Qed.

#[export] Instance NumLaws_B64 : NumLaws B64.
Proof.
  apply (@MkNumLaws B64 _ b64_rk).
  - intros. rewrite !b64_isnum. apply Bltb_rk.
  - intros. rewrite !b64_isnum. apply Bleb_rk.
  - intros. rewrite !b64_isnum. apply Beqb_rk.
  - reflexivity.
  - reflexivity.
  - reflexivity.
  - intros x Hx. rewrite b64_isnum in Hx. pose proof (abs_B2R_lt_emax 53 1024 x) as H. apply Rabs_lt_inv in H.
    pose proof (bpow_gt_0 radix2 1024) as Hp.
    change (b64_rk ninf) with (bpow radix2 1024).
    destruct x as [s|[]| |s m e Hf]; try discriminate; unfold b64_rk; lra.
  - intros x. rewrite !b64_isnum. destruct x; reflexivity.
  - intros x. destruct x as [s|[]| |s m e Hf]; cbn -[bpow]; try lra.
    + rewrite <- F2R_Zopp. destruct s; reflexivity.
  - intros x. apply Bopp_involutive.
Defined.
