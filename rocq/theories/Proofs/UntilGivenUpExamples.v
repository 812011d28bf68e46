(** Instances for C129. *)
From Coq Require Import Reals Lia.
From Verif Require Import Base Num NumB64.
From Verif.Model Require Import Signal Ast Robustness.
From Verif.Spec Require Import SignalSpec Formula UntilSpec UntilSampled.
From Verif.Proofs Require Import NumFacts B64Facts SignalFacts SignalProps RobFacts MinMaxExamples UntilFacts RobExamples UntilSampledFacts UntilSampledExamples.
Local Open Scope nat_scope.

(** y > 10, which holds at no sample of [us_tr]. *)
Definition gu_b : expr B64 := EPred sy GT (dbl 10 0).

Lemma C129_values_case_lemma : Forall (fun e => wf (snd e) /\ snd e <> []) us_tr /\ made_interval (F := B64) interval_default /\ exists x y x' y',
  compute_robustness true 0 us_a us_tr false = Ok x /\ compute_robustness true 0 gu_b us_tr false = Ok y /\
  synchronize x y = Ok (x', y') /\ all_num (values x') /\ all_num (values y') /\ length y' = 3 /\
  forall l q, 0 <= l -> nth_error (values y') l = Some q -> nltb q nzero = true.
Proof.
  split. { destruct C128_case_lemma as (_ & G & _). eapply Forall_impl; [|exact G]. intros e (A & B & _). auto. }
  split; [left; reflexivity|].
  destruct (two_ok (compute_robustness true 0 us_a us_tr false) (compute_robustness true 0 gu_b us_tr false)
    (fun x y => match synchronize x y with Ok (x', y') => forallb isnum (values x') && forallb isnum (values y') && Nat.eqb (length y') 3 &&
       forallb (fun q => nltb q nzero) (values y') | _ => false end)) as (x & y & E1 & E2 & H).
  { vm_compute; reflexivity. }
  destruct (synchronize x y) as [[x' y']| | | |] eqn:E3; try discriminate H. apply andb_prop in H as [H H4]. apply andb_prop in H as [H H3]. apply andb_prop in H as [H1 H2].
  exists x, y, x', y'. split; [exact E1|]. split; [exact E2|]. split; [exact E3|]. split; [apply Forall_forall, forallb_forall, H1|].
  split; [apply Forall_forall, forallb_forall, H2|]. split; [apply Nat.eqb_eq, H3|]. intros l q _ El. rewrite forallb_forall in H4. eapply H4, nth_error_In, El.
Qed.

Lemma C129_sampled_case_lemma : sampled_operand us_tr us_a /\ sampled_operand us_tr gu_b /\
  (forall n m x y, In n (names us_a) -> In m (names gu_b) -> has_signal us_tr n x -> has_signal us_tr m y -> Forall2 (fun p q => neqb (s_time p) (s_time q) = true) x y) /\
  (forall l, 0 <= l < length us_y -> ~ sampled_sat gu_b (skipn l us_y)) /\
  exists z v, compute_robustness true 0 (EUntil us_a gu_b interval_default) us_tr false = Ok z /\ nth_error (values z) 0 = Some v /\ nltb nzero v = true.
Proof.
  assert (F1 : finite (dbl 10 0) = true) by (vm_compute; reflexivity). destruct C128_case_lemma as (_ & _ & A & _ & _ & T & _).
  split; [exact A|]. split.
  { split; [reflexivity|]. split; [reflexivity|]. split; [reflexivity|]. split; [intros f [<-|[]]; exact F1|]. split; [intros f [<-|[]]; exact I|]. intros n [<-|[]]. exists us_y. right. left. reflexivity. }
  split; [exact T|]. split.
  { assert (L : length us_y = 3) by (vm_compute; reflexivity). assert (K : forallb (fun a : sample B64 => negb (cmp_holds GT (s_value a) (dbl 10 0))) us_y = true) by (vm_compute; reflexivity).
    intros l _ H. unfold gu_b, sampled_sat in H. destruct (skipn l us_y) as [|a w] eqn:Q; [exact H|]. rewrite forallb_forall in K.
    assert (In a us_y) as Ia by (rewrite <- (firstn_skipn l us_y), Q; apply in_or_app; right; left; reflexivity). apply K in Ia. rewrite H in Ia. discriminate Ia. }
  destruct (one_ok (compute_robustness true 0 (EUntil us_a gu_b interval_default) us_tr false) us_first) as (z & E & K); [vm_compute; reflexivity|]. unfold us_first in K. destruct (values z) as [|v l] eqn:Q; [discriminate K|]. exists z, v. rewrite Q. auto.
Qed.
