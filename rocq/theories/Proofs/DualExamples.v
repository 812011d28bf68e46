(** Witnesses for C114. *)
From Coq Require Import Reals.
From Verif Require Import Base Num NumB64.
From Verif.Model Require Import Signal MonoWedge MinMax Ast Robustness.
From Verif.Spec Require Import SignalSpec Formula Alike.
From Verif.Proofs Require Import SignalFacts B64Facts RobFacts RobExamples UntilFacts SignalProps.
Local Open Scope nat_scope.

(** Slopes that both round to 2^53: -2^53 to 1 and -2^53 + 1 to 1/2 within one second. *)
Definition d_x : signal B64 := sig_of [(dbl 0 0, dbl (- (2 ^ 53)) 0); (dbl 1 0, dbl 1 0)].
Definition d_y : signal B64 := sig_of [(dbl 0 0, dbl (1 - 2 ^ 53) 0); (dbl 1 0, dbl 1 (-1))].
Definition d_tr : trace B64 := [(sx, d_x); (sy, d_y)].
Definition d_p : expr B64 := EPred sx GT nzero.
Definition d_q : expr B64 := EPred sy GT nzero.
Definition is_rejected (o : outcome (signal B64)) : bool := match o with Throw InvalidArgument => true | _ => false end.
Lemma rejected o : is_rejected o = true -> o = Throw InvalidArgument.
Proof. destruct o as [|[]| | |]; cbn; congruence. Qed.
Definition is_ok (o : outcome (signal B64)) : bool := match o with Ok _ => true | _ => false end.
Lemma ok_is o : is_ok o = true -> exists z, o = Ok z.
Proof. destruct o; cbn; try discriminate. eauto. Qed.

Lemma C114_witness : exists (tr : trace B64) p q z z', keys_unique tr /\
  Forall (fun e => wf (snd e) /\ snd e <> [] /\ Forall (fun a => finite (s_time a) = true /\ finite (s_value a) = true) (snd e)) tr /\
  compute_robustness true 0 (ENot (EAnd [p; q])) tr false = Ok z /\
  compute_robustness true 0 (EOr [ENot p; ENot q]) tr false = Throw InvalidArgument /\
  compute_robustness true 0 (ENot (EOr [p; q])) tr false = Throw InvalidArgument /\
  compute_robustness true 0 (EAnd [ENot p; ENot q]) tr false = Ok z'.
Proof.
  destruct (ok_is (compute_robustness true 0 (ENot (EAnd [d_p; d_q])) d_tr false)) as (z & E1); [vm_compute; reflexivity|].
  destruct (ok_is (compute_robustness true 0 (EAnd [ENot d_p; ENot d_q]) d_tr false)) as (z' & E2); [vm_compute; reflexivity|].
  exists d_tr, d_p, d_q, z, z'. split.
  { repeat constructor; cbn; intuition discriminate. }
  split.
  { assert (K : forall l, forallb (fun a : sample B64 => finite (s_time a) && finite (s_value a)) l = true -> Forall (fun a => finite (s_time a) = true /\ finite (s_value a) = true) l).
    { intros l H. apply Forall_forall. intros a Ha. rewrite forallb_forall in H. apply andb_prop, H, Ha. }
    apply Forall_cons; [|apply Forall_cons; [|apply Forall_nil]]; cbn [snd].
    - split; [apply b64_wf; vm_compute; reflexivity|]. split; [discriminate|]. apply K. vm_compute. reflexivity.
    - split; [apply b64_wf; vm_compute; reflexivity|]. split; [discriminate|]. apply K. vm_compute. reflexivity. }
  split; [exact E1|]. split; [apply rejected; vm_compute; reflexivity|]. split; [apply rejected; vm_compute; reflexivity|exact E2].
Qed.

Lemma C114_case_lemma : Forall (fun e => wf (snd e) /\ snd e <> []) btr /\ made_interval c38_i /\
  (exists z, compute_robustness true 0 (ENot (EEventually (EOr [bp; bq]) c38_i)) btr false = Ok z /\ 3 <= length z) /\
  (exists z, compute_robustness true 0 (ENot (EAnd [bp; bq; EAlways bp c38_i])) btr false = Ok z /\ 5 <= length z) /\
  (exists z, compute_robustness true 0 (EOr (map ENot [bp; bq; EAlways bp c38_i])) btr false = Ok z /\ 5 <= length z).
Proof.
  split; [exact btr_good|]. split.
  { right. right. exists nzero, (dbl 1 0). unfold interval_dbl.
    assert (nltb (nzero : B64) nzero || nltb (dbl 1 0) nzero = false) as -> by (vm_compute; reflexivity).
    assert (nleb (dbl 1 0) nzero = false) as -> by (vm_compute; reflexivity). reflexivity. }
  assert (K : forall n (o : outcome (signal B64)), match o with Ok z => Nat.leb n (length z) | _ => false end = true -> exists z, o = Ok z /\ n <= length z).
  { intros n [z| | | |] H; try discriminate. exists z. split; [reflexivity|]. apply Nat.leb_le, H. }
  split; [|split]; apply K; vm_compute; reflexivity.
Qed.
