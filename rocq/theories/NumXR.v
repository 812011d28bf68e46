(** Exact arithmetic: real numbers extended with infinities and NaN, following the
    IEEE 754 rules for the special values.  Differences from binary64: no rounding,
    no overflow, one zero (treated as +0 by division). *)
From Verif Require Import Base Num.
From Coq Require Import Reals Lra.
From Flocq Require Import Core.Raux.
Open Scope R_scope.

Inductive XR : Type := NaN | NInf | Fin (r : R) | PInf.

Definition xopp (a : XR) : XR :=
  match a with NaN => NaN | NInf => PInf | Fin r => Fin (- r) | PInf => NInf end.

Definition xadd (a b : XR) : XR :=
  match a, b with
  | NaN, _ | _, NaN => NaN
  | Fin x, Fin y => Fin (x + y)
  | PInf, NInf | NInf, PInf => NaN
  | PInf, _ | _, PInf => PInf
  | NInf, _ | _, NInf => NInf
  end.

Definition xsub (a b : XR) : XR := xadd a (xopp b).

(** An infinity with the sign of [r]; NaN for 0 (0 * inf). *)
Definition xinf_sign (r : R) : XR :=
  match Rcompare r 0 with Gt => PInf | Lt => NInf | Eq => NaN end.

Definition xmul (a b : XR) : XR :=
  match a, b with
  | NaN, _ | _, NaN => NaN
  | Fin x, Fin y => Fin (x * y)
  | Fin x, PInf | PInf, Fin x => xinf_sign x
  | Fin x, NInf | NInf, Fin x => xinf_sign (- x)
  | PInf, PInf | NInf, NInf => PInf
  | PInf, NInf | NInf, PInf => NInf
  end.

Definition xdiv (a b : XR) : XR :=
  match a, b with
  | NaN, _ | _, NaN => NaN
  | Fin x, Fin y => if Req_bool y 0 then xinf_sign x else Fin (x / y)
  | Fin _, (PInf | NInf) => Fin 0
  | PInf, Fin y => if Rlt_bool y 0 then NInf else PInf
  | NInf, Fin y => if Rlt_bool y 0 then PInf else NInf
  | (PInf | NInf), (PInf | NInf) => NaN
  end.

Definition xnum (a : XR) : bool := match a with NaN => false | _ => true end.

(** Order embedding into the interval [-1,1]. *)
Definition xrk (a : XR) : R :=
  match a with NaN => 0 | NInf => -1 | Fin r => r / (1 + Rabs r) | PInf => 1 end.

Definition xlt (a b : XR) : bool :=
  match a, b with
  | NaN, _ | _, NaN => false
  | Fin x, Fin y => Rlt_bool x y
  | NInf, NInf => false
  | NInf, _ => true
  | PInf, _ => false
  | Fin _, PInf => true
  | Fin _, NInf => false
  end.

Definition xle (a b : XR) : bool := xnum a && xnum b && negb (xlt b a).
Definition xeq (a b : XR) : bool := xle a b && xle b a.
Definition xisinf (a : XR) : bool := match a with PInf | NInf => true | _ => false end.

#[export] Instance Num_XR : Num XR := {|
  nzero := Fin 0; ntwo := Fin 2; ninf := PInf;
  nopp := xopp; nadd := xadd; nsub := xsub; nmul := xmul; ndiv := xdiv;
  nltb := xlt; nleb := xle; neqb := xeq; nisinf := xisinf; nofZ := fun z => Fin (IZR z)
|}.

Lemma xrk_lt_1 r : -1 < r / (1 + Rabs r) < 1.
Proof.
  assert (0 <= Rabs r) by apply Rabs_pos.
  assert (-(Rabs r) <= r <= Rabs r) by (split; [rewrite <- (Ropp_involutive r) at 2; apply Ropp_le_contravar; rewrite <- Rabs_Ropp; apply Rle_abs | apply Rle_abs]).
  split; apply Rmult_lt_reg_r with (1 + Rabs r); try lra; field_simplify; lra.
Qed.

Lemma xrk_mono x y : x < y <-> x / (1 + Rabs x) < y / (1 + Rabs y).
Proof.
  assert (Hx : 0 <= Rabs x) by apply Rabs_pos. assert (Hy : 0 <= Rabs y) by apply Rabs_pos.
  assert (E : y / (1 + Rabs y) - x / (1 + Rabs x) = (y * (1 + Rabs x) - x * (1 + Rabs y)) / ((1 + Rabs y) * (1 + Rabs x))) by (field; lra).
  assert (P : 0 < / ((1 + Rabs y) * (1 + Rabs x))) by (apply Rinv_0_lt_compat; nra).
  assert (S : x < y <-> 0 < y * (1 + Rabs x) - x * (1 + Rabs y)).
  { unfold Rabs in *. destruct (Rcase_abs x), (Rcase_abs y); split; intros; nra. }
  rewrite S. unfold Rdiv in E at 3. split; intros.
  - assert (0 < (y * (1 + Rabs x) - x * (1 + Rabs y)) * / ((1 + Rabs y) * (1 + Rabs x))) by (apply Rmult_lt_0_compat; lra). lra.
  - apply Rmult_lt_reg_r with (/ ((1 + Rabs y) * (1 + Rabs x))); [lra|]. lra.
Qed.

Lemma xlt_rk a b : xlt a b = xnum a && xnum b && Rlt_bool (xrk a) (xrk b).
Proof.
  destruct a as [| |x|], b as [| |y|]; cbn; try reflexivity;
    try (case Rlt_bool_spec; intros; try reflexivity; exfalso; try lra;
         match goal with H : context [ ?r / (1 + Rabs ?r) ] |- _ => pose proof (xrk_lt_1 r); lra end).
  case (Rlt_bool_spec x y); intros Hxy; case Rlt_bool_spec; intros Hr; try reflexivity; exfalso.
  - apply xrk_mono in Hxy. lra.
  - apply xrk_mono in Hr. lra.
Qed.

Lemma xle_rk a b : xle a b = xnum a && xnum b && Rle_bool (xrk a) (xrk b).
Proof.
  unfold xle. rewrite xlt_rk. destruct (xnum a), (xnum b); cbn; try reflexivity.
  case Rlt_bool_spec; case Rle_bool_spec; intros; cbn; try reflexivity; exfalso; lra.
Qed.

Lemma xisnum a : isnum a = xnum a.
Proof.
  unfold isnum; cbn. unfold xeq, xle. destruct a; cbn; try reflexivity.
  case Rlt_bool_spec; intros; cbn; [lra|reflexivity].
Qed.

Lemma xeq_rk a b : xeq a b = xnum a && xnum b && Req_bool (xrk a) (xrk b).
Proof.
  unfold xeq. rewrite !xle_rk. destruct (xnum a), (xnum b); cbn; try reflexivity.
  case Req_bool_spec; case Rle_bool_spec; case Rle_bool_spec; intros; cbn; try reflexivity; exfalso; lra.
Qed.

#[export] Instance NumLaws_XR : NumLaws XR.
Proof.
  apply (@MkNumLaws XR _ xrk).
  - intros. rewrite !xisnum. apply xlt_rk.
  - intros. rewrite !xisnum. apply xle_rk.
  - intros. rewrite !xisnum. apply xeq_rk.
  - rewrite xisnum. reflexivity.
  - cbn. rewrite Rabs_R0. field.
  - rewrite xisnum. reflexivity.
  - intros x _. destruct x as [| |r|]; cbn; try lra. pose proof (xrk_lt_1 r). lra.
  - intros x. rewrite !xisnum. destruct x; reflexivity.
  - intros x. destruct x as [| |r|]; cbn; try lra. rewrite Rabs_Ropp. field.
    pose proof (Rabs_pos r). lra.
  - intros x. destruct x as [| |r|]; cbn; try reflexivity. rewrite Ropp_involutive. reflexivity.
Defined.
