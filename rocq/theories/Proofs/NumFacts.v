(** Consequences of the order laws, and automation. *)
From Verif Require Import Base Num.
From Coq Require Import Reals Lra.
From Flocq Require Import Core.Raux.

Section Facts.
Context {F : Type} `{NF : Num F} {NL : NumLaws F}.
Local Open Scope R_scope.

Lemma nltb_true x y : nltb x y = true <-> isnum x = true /\ isnum y = true /\ rk x < rk y.
Proof.
  rewrite nltb_law. destruct (isnum x), (isnum y); cbn; split; intros H; try easy.
  - case (Rlt_bool_spec (rk x) (rk y)) in H; easy.
  - apply Rlt_bool_true; easy.
Qed.
Lemma nleb_true x y : nleb x y = true <-> isnum x = true /\ isnum y = true /\ rk x <= rk y.
Proof.
  rewrite nleb_law. destruct (isnum x), (isnum y); cbn; split; intros H; try easy.
  - case (Rle_bool_spec (rk x) (rk y)) in H; easy.
  - apply Rle_bool_true; easy.
Qed.
Lemma neqb_true x y : neqb x y = true <-> isnum x = true /\ isnum y = true /\ rk x = rk y.
Proof.
  rewrite neqb_law. destruct (isnum x), (isnum y); cbn; split; intros H; try easy.
  - case (Req_bool_spec (rk x) (rk y)) in H; easy.
  - apply Req_bool_true; easy.
Qed.
Lemma nltb_false x y : isnum x = true -> isnum y = true -> (nltb x y = false <-> rk y <= rk x).
Proof.
  rewrite nltb_law. intros -> ->; cbn. case Rlt_bool_spec; intros; split; intros; try easy; lra.
Qed.
Lemma nleb_false x y : isnum x = true -> isnum y = true -> (nleb x y = false <-> rk y < rk x).
Proof.
  rewrite nleb_law. intros -> ->; cbn. case Rle_bool_spec; intros; split; intros; try easy; lra.
Qed.
Lemma neqb_false x y : isnum x = true -> isnum y = true -> (neqb x y = false <-> rk x <> rk y).
Proof.
  rewrite neqb_law. intros -> ->; cbn. case Req_bool_spec; intros; split; intros; try easy; lra.
Qed.
Lemma nleb_nan_l x y : isnum x = false -> nleb x y = false.
Proof. rewrite nleb_law. intros ->. reflexivity. Qed.
Lemma nleb_nan_r x y : isnum y = false -> nleb x y = false.
Proof. rewrite nleb_law. intros ->. destruct (isnum x); reflexivity. Qed.
Lemma nltb_nan_l x y : isnum x = false -> nltb x y = false.
Proof. rewrite nltb_law. intros ->. reflexivity. Qed.
Lemma nltb_nan_r x y : isnum y = false -> nltb x y = false.
Proof. rewrite nltb_law. intros ->. destruct (isnum x); reflexivity. Qed.
Lemma neqb_nan_l x y : isnum x = false -> neqb x y = false.
Proof. rewrite neqb_law. intros ->. reflexivity. Qed.
Lemma neqb_nan_r x y : isnum y = false -> neqb x y = false.
Proof. rewrite neqb_law. intros ->. destruct (isnum x); reflexivity. Qed.

Lemma rk_ninf_opp x : isnum x = true -> rk (nopp ninf) <= rk x.
Proof.
  intros Hx. rewrite rk_opp. assert (H := rk_inf (nopp x)). rewrite isnum_opp, rk_opp in H.
  specialize (H Hx). lra.
Qed.
End Facts.

(** Turn comparisons in hypotheses and goal into facts about [rk]; close with lra. *)
Ltac num_hyps :=
  repeat match goal with
  | H : nltb _ _ = true |- _ => apply nltb_true in H; destruct H as [? [? ?]]
  | H : nleb _ _ = true |- _ => apply nleb_true in H; destruct H as [? [? ?]]
  | H : neqb _ _ = true |- _ => apply neqb_true in H; destruct H as [? [? ?]]
  | H : negb _ = true |- _ => apply negb_true_iff in H
  | H : negb _ = false |- _ => apply negb_false_iff in H
  | H : nltb _ _ = false |- _ => apply nltb_false in H; [|solve [assumption | apply isnum_zero | apply isnum_inf]..]
  | H : nleb _ _ = false |- _ => apply nleb_false in H; [|solve [assumption | apply isnum_zero | apply isnum_inf]..]
  | H : neqb _ _ = false |- _ => apply neqb_false in H; [|solve [assumption | apply isnum_zero | apply isnum_inf]..]
  end.
Ltac num_goal :=
  match goal with
  | |- nltb _ _ = true => apply nltb_true; repeat split; try assumption
  | |- nleb _ _ = true => apply nleb_true; repeat split; try assumption
  | |- neqb _ _ = true => apply neqb_true; repeat split; try assumption
  | |- nltb _ _ = false => apply nltb_false; try assumption
  | |- nleb _ _ = false => apply nleb_false; try assumption
  | |- neqb _ _ = false => apply neqb_false; try assumption
  | _ => idtac
  end.
Ltac num := num_hyps; num_goal; try lra.
