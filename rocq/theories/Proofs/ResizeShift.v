(** C98: resize_shift is resize followed by shift. *)
From Verif Require Import Base Num NumB64.
From Verif.Model Require Import Signal.
From Verif.Proofs Require Import NumFacts SignalFacts RobFacts Reshape SignalProps.

Section Resize.
Context {F} {N : Num F}.

Lemma canon_resize_loop start fin l : forall sig prev s', canon sig -> resize_loop start fin sig prev l = Ok s' -> canon s'.
Proof.
  induction l as [|i l IH]; intros sig prev s' C H; cbn [resize_loop] in H; [injection H as <-; exact C|].
  repeat match type of H with
  | (if ?b then _ else _) = _ => destruct b
  | match prev with _ => _ end = _ => destruct prev
  | bind (push_back _ _) _ = _ => destruct (push_back _ _) eqn:P in H; try discriminate; cbn [bind] in H; apply canon_push in P; [|exact C]
  end; try (injection H as <-; exact C); eauto.
Qed.
Lemma canon_resize (s s' : signal F) start fin fill : resize s start fin fill = Ok s' -> canon s'.
Proof.
  unfold resize. intros H. assert (C : canon (@nil (sample F))) by (exists []; auto).
  destruct (nltb _ _); [|cbn [bind] in H; eapply canon_resize_loop; eassumption].
  destruct (push_back _ _) eqn:P in H; try discriminate. cbn [bind] in H. eapply canon_resize_loop; [|exact H]. eapply canon_push; eassumption.
Qed.
Lemma push_outcome (sig : signal F) x : (exists s, push_back sig x = Ok s) \/ push_back sig x = Throw InvalidArgument.
Proof. unfold push_back, push_back_st. destruct (last_opt sig) as [l|]; [destruct (nleb (s_time x) (s_time l))|]; eauto. Qed.
Lemma resize_loop_outcome start fin l : forall sig prev,
  (exists s, resize_loop start fin sig prev l = Ok s) \/ resize_loop start fin sig prev l = Throw InvalidArgument.
Proof.
  induction l as [|i l IH]; intros sig prev; cbn [resize_loop]; [eauto|].
  repeat match goal with
  | |- context [if ?b then _ else _] => destruct b
  | |- context [match prev with _ => _ end] => destruct prev
  | |- context [bind (push_back ?a ?b) _] => destruct (push_outcome a b) as [[? ->] | ->]; cbn [bind]
  end; eauto.
Qed.
Lemma C98_lemma (s : signal F) start fin fill dt :
  ((exists out, resize s start fin fill = Ok out) \/ resize s start fin fill = Throw InvalidArgument) /\
  (forall out, resize s start fin fill = Ok out -> resize_shift s start fin fill dt = shift out dt) /\
  (forall e, resize s start fin fill = Throw e -> resize_shift s start fin fill dt = Throw e).
Proof.
  split; [|split].
  - unfold resize. destruct (nltb _ _); [destruct (push_outcome [] (mkSample start fill nzero)) as [[? ->] | ->]|]; cbn [bind]; auto using resize_loop_outcome.
  - intros out E. unfold resize_shift, shift. rewrite E, (canon_self _ (canon_resize _ _ _ _ _ E)). reflexivity.
  - intros e E. unfold resize_shift. rewrite E. reflexivity.
Qed.
End Resize.

Lemma C98_case_lemma : exists out, resize ex_signal (dbl 3 (-1)) (dbl 2 0) nzero = Ok out /\ length out = 2%nat.
Proof.
  destruct ex_signal_wf as (W1 & W2 & _). pose proof (resize_last_segment (firstn 1 ex_signal)
    (mkSample (dbl 1 0) (dbl 3 0) (slope (dbl 1 0, dbl 3 0) (dbl 2 0, dbl (-1) 0))) (mkSample (dbl 2 0) (dbl (-1) 0) nzero) (dbl 3 (-1)) (dbl 2 0) nzero) as R.
  eexists. split; [apply R; [exact W1|exact W2|..]; vm_compute; reflexivity|reflexivity].
Qed.
