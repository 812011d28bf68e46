(** Cases for C81-C84. *)
From Coq Require Import Reals Lra.
From Verif Require Import Base Num NumXR NumB64.
From Verif.Model Require Import Signal MonoWedge MinMax Ast Robustness.
From Verif.Spec Require Import SignalSpec Formula.
From Verif.Proofs Require Import RobFacts UntilFacts RobExamples SafeExamples.
Local Open Scope nat_scope.

Definition other (n : string) : string := if String.eqb n sx then sy else "w"%string.
Definition btr_other : trace B64 := [("w"%string, by_); (sy, bx)].
Lemma C81_case_lemma : free_of is_const bphi = true /\ keys_unique btr /\ keys_unique btr_other /\
  (forall n x, In n (names bphi) -> (has_signal btr n x <-> has_signal btr_other (other n) x)) /\
  renamed other bphi <> bphi /\ exists z, compute_robustness true 0 bphi btr false = Ok z.
Proof.
  split; [reflexivity|]. split; [exact btr_keys|]. split.
  { unfold keys_unique. cbn [map fst btr_other]. constructor; [intros [H|[]]; discriminate H|]. constructor; [intros []|constructor]. }
  split; [|split; [discriminate|exact C70_ok_lemma]]. intros n x Hn.
  assert (K : n = sx \/ n = sy) by (cbn in Hn; repeat (destruct Hn as [<-|Hn]; [auto|]); destruct Hn).
  unfold has_signal, btr, btr_other. destruct K as [-> | ->]; cbn [In]; split.
  - intros [H|[H|[]]]; [|discriminate H]. injection H as <-. right. left. reflexivity.
  - intros [H|[H|[]]]; [discriminate H|]. injection H as <-. left. reflexivity.
  - intros [H|[H|[]]]; [discriminate H|]. injection H as <-. left. reflexivity.
  - intros [H|[H|[]]]; [|discriminate H]. injection H as <-. right. left. reflexivity.
Qed.
Lemma C82_case_lemma : mirrored (String.eqb sx) bphi <> bphi /\ exists z, compute_robustness true 0 bphi btr false = Ok z.
Proof. split; [discriminate|exact C70_ok_lemma]. Qed.
Lemma C83_case_lemma : rebased (fun n => Fin (if String.eqb n sx then 5 else 7)) phi2 <> phi2 /\ exists z, compute_robustness true 0 phi2 tr1 false = Ok z.
Proof.
  split; [|exact (proj2 (proj2 C45_case_lemma))]. unfold phi2, rebased, gx. cbn [map_pred map]. intros [= H _]. cbn in H. lra.
Qed.
