(** C16, C18, C19 in the form of Props/Synchronize.v, witnesses and cases. *)
From Coq Require Import Sorted Reals Lra.
From Flocq Require Import IEEE754.BinarySingleNaN Core.Raux.
From Verif Require Import Base Num NumXR NumB64.
From Verif.Model Require Import Signal.
From Verif.Spec Require Import SignalSpec History Pwl.
From Verif.Proofs Require Import NumFacts SignalFacts LowerBound Reshape Sync PwlFacts SyncExact SyncProps SignalProps.

Section G.
Context {F : Type} `{NF : Num F} {NL : NumLaws F}.

Lemma C19_lemma (x y x' y' : signal F) : wf x -> wf y ->
  (synchronize x y = Ok (x', y') <-> synchronize y x = Ok (y', x')).
Proof. intros Wx Wy. split; apply sync_sym; assumption. Qed.

Lemma C16_lemma (x y x' y' : signal F) : wf x -> wf y -> synchronize x y = Ok (x', y') ->
  Forall2 (fun a b => neqb (s_time a) (s_time b) = true) x' y' /\ wf x' /\ wf y' /\
  (forall a, In a x -> nleb (begin_time y) (s_time a) = true -> nleb (s_time a) (end_time y) = true ->
     exists a', In a' x' /\ s_time a' = s_time a /\ s_value a' = s_value a) /\
  (forall b, In b y -> nleb (begin_time x) (s_time b) = true -> nleb (s_time b) (end_time x) = true ->
     exists b', In b' y' /\ s_time b' = s_time b /\ s_value b' = s_value b) /\
  (forall a', In a' x' \/ In a' y' ->
     (exists c, (In c x \/ In c y) /\ neqb (s_time c) (s_time a') = true) /\
     nleb (begin_time x) (s_time a') = true /\ nleb (begin_time y) (s_time a') = true /\
     nleb (s_time a') (end_time x) = true /\ nleb (s_time a') (end_time y) = true) /\
  (forall a' c, In a' x' -> In c x -> neqb (s_time c) (s_time a') = true -> s_value a' = s_value c) /\
  (forall b' c, In b' y' -> In c y -> neqb (s_time c) (s_time b') = true -> s_value b' = s_value c).
Proof.
  intros Wx Wy H. pose proof (sync_sym _ _ _ _ Wx Wy H) as H'.
  destruct (sync_out _ _ _ _ Wx Wy H) as (W1 & W2 & _ & _ & T).
  split; [exact T|]. split; [exact W1|]. split; [exact W2|].
  split; [intros; eapply (sync_complete x y); eauto|]. split; [intros; eapply (sync_complete y x); eauto|].
  split; [|split].
  - intros a' [Ha|Ha].
    + destruct (sync_sound _ _ _ _ _ Wx Wy H Ha) as (A & B & C & D & E & _). auto 10.
    + destruct (sync_sound _ _ _ _ _ Wy Wx H' Ha) as ((c & A1 & A2) & B & C & D & E & _).
      split; [exists c; tauto|auto].
  - intros a' c Ha. apply (sync_sound _ _ _ _ _ Wx Wy H Ha).
  - intros b' c Hb. apply (sync_sound _ _ _ _ _ Wy Wx H' Hb).
Qed.
End G.

Definition ex_x : signal B64 := sig_of [(dbl 0 0, dbl 1 0); (dbl 2 0, dbl 3 0); (dbl 4 0, dbl 0 0)].
Definition ex_y : signal B64 := sig_of [(dbl 2 0, dbl 5 0); (dbl 3 0, dbl 7 0); (dbl 5 0, dbl 1 0)].

Lemma ex_x_wf : wf ex_x. Proof. apply b64_wf; vm_compute; reflexivity. Qed.
Lemma ex_y_wf : wf ex_y. Proof. apply b64_wf; vm_compute; reflexivity. Qed.

Lemma C15_case_lemma : wf ex_x /\ wf ex_y /\ meets ex_x ex_y.
Proof.
  split; [exact ex_x_wf|]. split; [exact ex_y_wf|].
  eexists. eexists. split; [right; left; reflexivity|]. split; [left; reflexivity|].
  split; [vm_compute; reflexivity|right; reflexivity].
Qed.

Lemma C16_case_lemma : wf ex_x /\ wf ex_y /\ exists r, synchronize ex_x ex_y = Ok r.
Proof. destruct C15_case_lemma as (A & B & C). split; [exact A|]. split; [exact B|]. apply sync_iff; assumption. Qed.

Lemma C19_case_lemma : wf ex_x /\ wf ex_y /\ exists x' y', synchronize ex_x ex_y = Ok (x', y').
Proof. destruct C16_case_lemma as (A & B & [x' y'] & E). split; [exact A|]. split; [exact B|]. exists x', y'. exact E. Qed.

Lemma C15_witness : exists x y : signal B64, wf x /\ wf y /\ x <> [] /\ y <> [] /\
  nltb (begin_time x) (begin_time y) = true /\ nltb (begin_time y) (end_time x) = true /\
  synchronize x y = Throw InvalidArgument /\ synchronize y x = UB.
Proof.
  exists (sig_of [(dbl 0 0, dbl 1 0); (dbl 2 0, dbl 3 0)]), (sig_of [(dbl 1 0, dbl 1 0); (dbl 2 0, dbl 3 0)]).
  assert (W1 : wf (sig_of [(dbl 0 0, dbl 1 0); (dbl 2 0, dbl 3 0)])) by (apply b64_wf; vm_compute; reflexivity).
  assert (W2 : wf (sig_of [(dbl 1 0, dbl 1 0); (dbl 2 0, dbl 3 0)])) by (apply b64_wf; vm_compute; reflexivity).
  split; [exact W1|]. split; [exact W2|]. split; [discriminate|]. split; [discriminate|].
  split; [vm_compute; reflexivity|]. split; [vm_compute; reflexivity|].
  split; vm_compute; reflexivity.
Qed.

Lemma C18_witness : exists hx hy : list (sample B64), after hx <> [] /\ after hy <> [] /\
  forall fuel, synchronize_fuel fuel (after hx) (after hy) = Hang.
Proof.
  exists [mkSample B754_nan nzero nzero], [mkSample nzero nzero nzero]. split; [discriminate|]. split; [discriminate|].
  intros fuel. apply (sync_hang fuel). reflexivity.
Qed.

Open Scope R_scope.
Lemma C17_case_lemma : exists x y r, built [(0, 1); (2, 3)] x /\ built [(0, 5); (1, 0); (3, 3)] y /\
  synchronize x y = Ok r.
Proof.
  assert (I1 : rincr [(0, 1); (2, 3)]) by rincr_tac. assert (I2 : rincr [(0, 5); (1, 0); (3, 3)]) by rincr_tac.
  destruct (sync_exact [] (0, 1) [(2, 3)] [] (0, 5) [(1, 0); (3, 3)] _ _ (repr_pw _ I1) (repr_pw _ I2)) as (ts & H & _); auto.
  eexists _, _, _. split; [apply built_iff; split; [exact I1|reflexivity]|].
  split; [apply built_iff; split; [exact I2|reflexivity]|]. exact H.
Qed.
