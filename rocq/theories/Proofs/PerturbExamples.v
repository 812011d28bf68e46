(** C75-C77: a concrete pair of traces. *)
From Coq Require Import Sorted Reals Lra.
From Verif Require Import Base Num NumXR.
From Verif.Model Require Import Signal MonoWedge MinMax Ast Robustness.
From Verif.Spec Require Import SignalSpec Pwl Formula Semantics Quantitative Perturb.
From Verif.Proofs Require Import NumFacts SignalFacts PwlFacts SignalProps PairExact SeqExact MinMaxCases MinMaxExamples RobFacts RobWf RobTransport Duality RobExact UntilFacts RobExamples QuantFacts QuantExamples PerturbFacts.
Open Scope R_scope.

Definition lx3 : list (R * R) := [(0, -1); (1/2, 5); (1, 21/2); (2, 1)].
Definition ly3 : list (R * R) := [(0, 3); (3, 0)].
Lemma lx3_incr : rincr lx3. Proof. unfold lx3. rincr_tac. Qed.
Lemma ly3_incr : rincr ly3. Proof. unfold ly3. rincr_tac. Qed.
Definition lt3 : ptrace := [(sx, lx3); (sy, ly3)].
Definition tr3 : trace XR := [(sx, fsig lx3); (sy, fsig ly3)].
Lemma tr3_of : trace_of lt3 tr3.
Proof.
  constructor; [split; [reflexivity|]; apply built_iff; split; [exact lx3_incr|reflexivity]|].
  constructor; [split; [reflexivity|]; apply built_iff; split; [exact ly3_incr|reflexivity]|constructor].
Qed.
Lemma tr3_keys : keys_unique tr3.
Proof. unfold keys_unique. cbn. constructor; [intros [H|[]]; discriminate H|]. constructor; [intros []|constructor]. Qed.
Lemma tr3_start : all_start lt3 0.
Proof. repeat constructor; discriminate. Qed.

Lemma x13 t x y : pwl lx1 t x -> pwl lx3 t y -> 0 <= y - x <= 1/2.
Proof.
  intros H K. apply (pwl_pw lx1 t x lx1_incr) in H as [B ->]; [|discriminate]. apply (pwl_pw lx3 t y lx3_incr) in K as [_ ->]; [|discriminate].
  unfold lx1, lx3 in *. cbn in B. cbn [pw fst snd]. repeat destruct (Rle_dec _ _); unfold line; cbn [fst snd]; lra.
Qed.
Lemma y13 t x y : pwl ly1 t x -> pwl ly3 t y -> 0 <= y - x <= 1.
Proof.
  intros H K. apply (pwl_pw ly1 t x ly1_incr) in H as [B ->]; [|discriminate]. apply (pwl_pw ly3 t y ly3_incr) in K as [_ ->]; [|discriminate].
  unfold ly1, ly3 in *. cbn in B. cbn [pw fst snd]. repeat destruct (Rle_dec _ _); unfold line; cbn [fst snd]; lra.
Qed.
Lemma rel13 (P : R -> R -> Prop) : (forall x y, 0 <= y - x <= 1 -> P x y) -> related P lt1 lt3.
Proof.
  intros H. assert (D : forall l l', rincr l -> rincr l' -> l <> [] -> l' <> [] -> first_time l = first_time l' -> final_time l = final_time l' ->
    forall t, (exists x, pwl l t x) <-> exists y, pwl l' t y).
  { intros l l' I I' N N' A B t. rewrite !dom_iff by assumption. rewrite A, B. reflexivity. }
  constructor; [|constructor; [|constructor]]; (split; [reflexivity|]); cbn [snd].
  - split; [apply D; [apply lx1_incr|apply lx3_incr|discriminate|discriminate|reflexivity|reflexivity]|].
    intros t x y A B. apply H. pose proof (x13 t x y A B). lra.
  - split; [apply D; [apply ly1_incr|apply ly3_incr|discriminate|discriminate|reflexivity|reflexivity]|].
    intros t x y A B. apply H. exact (y13 t x y A B).
Qed.
Lemma close13 : close 1 lt1 lt3.
Proof. apply rel13. intros x y H. apply Rabs_le. lra. Qed.
Lemma below13 : below lt1 lt3.
Proof. apply rel13. intros x y H. lra. Qed.

Definition c76_phi : expr XR :=
  EOr [EAlways (EAnd [gx; EPred sy GE (Fin 1)]) interval_default; ENot (EAlways (EPred sy LT (Fin 2)) interval_default)].
Lemma c76_ev : evaluable lt1 c76_phi.
Proof.
  split; [reflexivity|]. split; [reflexivity|]. split; [|split].
  - intros e He. cbn in He. repeat (destruct He as [<-|He]; [first [exact I|left; reflexivity]|]). destruct He.
  - intros e He. cbn in He. repeat (destruct He as [<-|He]; [first [exact I|eexists; reflexivity]|]). destruct He.
  - intros n Hn. apply lt1_names. cbn in Hn. repeat (destruct Hn as [<-|Hn]; [auto|]). destruct Hn.
Qed.
Lemma C75_case_lemma : trace_of lt1 tr1 /\ keys_unique tr1 /\ all_start lt1 0 /\ trace_of lt3 tr3 /\ keys_unique tr3 /\ all_start lt3 0 /\
  evaluable lt1 c72_phi /\ first_exact c72_phi = true /\ evaluable lt1 phi1 /\ free_of is_temporal phi1 = true /\ close 1 lt1 lt3 /\ lt1 <> lt3.
Proof.
  split; [exact tr1_of|]. split; [exact tr1_keys|]. split; [exact tr1_start|]. split; [exact tr3_of|]. split; [exact tr3_keys|]. split; [exact tr3_start|].
  split; [exact c72_ev|]. split; [reflexivity|]. split; [exact phi1_ev|]. split; [reflexivity|]. split; [exact close13|].
  unfold lt1, lt3, lx1, lx3. intros E. injection E. intros. discriminate.
Qed.
Lemma C76_case_lemma : trace_of lt1 tr1 /\ keys_unique tr1 /\ all_start lt1 0 /\ trace_of lt3 tr3 /\ keys_unique tr3 /\ all_start lt3 0 /\
  evaluable lt1 c76_phi /\ first_exact c76_phi = true /\ rising true c76_phi = true /\ below lt1 lt3.
Proof.
  split; [exact tr1_of|]. split; [exact tr1_keys|]. split; [exact tr1_start|]. split; [exact tr3_of|]. split; [exact tr3_keys|]. split; [exact tr3_start|].
  split; [exact c76_ev|]. split; [reflexivity|]. split; [reflexivity|exact below13].
Qed.
