(** Doubles that are zero or not tiny are far apart (for C124). *)
From Coq Require Import Reals Lra.
From Flocq Require Import Core.Core IEEE754.BinarySingleNaN.
From Verif Require Import Base Num NumB64.
From Verif.Model Require Import Signal Robustness.
From Verif.Spec Require Import SignalSpec Formula Tree.
From Verif.Proofs Require Import TreeError TreePositionExamples.
Local Open Scope R_scope.

Lemma C124_times_lemma (tr : trace B64) : (forall n x a, has_signal tr n x -> In a x -> B2R (s_time a) = 0 \/ bpow radix2 (-200) <= Rabs (B2R (s_time a))) -> times_apart tr.
Proof.
  intros T n m x y a b Hx Hy Ha Hb L. pose proof (T n x a Hx Ha) as Ta. pose proof (T m y b Hy Hb) as Tb. fold tau in Ta, Tb. fold gap.
  assert (GT : gap < tau) by (apply bpow_lt; reflexivity). assert (G0 : 0 < gap) by apply bpow_gt_0.
  destruct (Rle_or_lt (B2R (s_time b)) 0) as [B|B].
  - rewrite (Rabs_left (B2R (s_time a))) in Ta by lra. destruct Ta as [Ta|Ta]; [lra|]. destruct Tb as [Tb|Tb]; [lra|].
    destruct (Req_dec (B2R (s_time b)) 0) as [Z|Z]; [lra|]. rewrite Rabs_left in Tb by lra.
    pose proof (double_gap (Bopp (s_time b)) (Bopp (s_time a))) as K. rewrite !B2R_Bopp in K. specialize (K Tb ltac:(lra)). lra.
  - rewrite (Rabs_pos_eq (B2R (s_time b))) in Tb by lra. destruct Tb as [Tb|Tb]; [lra|].
    destruct (Rle_or_lt (B2R (s_time a)) 0) as [A|A]; [lra|]. rewrite Rabs_pos_eq in Ta by lra. destruct Ta as [Ta|Ta]; [lra|]. apply double_gap; assumption.
Qed.
Lemma C124_times_case_lemma n x a : has_signal p_tr n x -> In a x -> B2R (s_time a) = 0 \/ bpow radix2 (-200) <= Rabs (B2R (s_time a)).
Proof.
  intros Hx Ha. assert (Q : bpow radix2 (-200) <= bpow radix2 (-2)) by (apply bpow_le; intros E; discriminate E). replace (bpow radix2 (-2)) with (1 / 4) in Q by (simpl; lra).
  destruct (p_times n x a Hx Ha) as [E|[E|E]]; rewrite E; [left; reflexivity|right|right]; rewrite Rabs_pos_eq; lra.
Qed.
