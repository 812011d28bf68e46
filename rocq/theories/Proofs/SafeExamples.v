(** Concrete cases for Props/Safety.v. *)
From Coq Require Import Sorted Reals Lra.
From Flocq Require Import IEEE754.BinarySingleNaN.
From Verif Require Import Base Num NumXR NumB64.
From Verif.Model Require Import Signal MonoWedge MinMax Ast Robustness.
From Verif.Spec Require Import SignalSpec Pwl Formula Semantics UntilSpec Discrete.
From Verif.Proofs Require Import NumFacts SignalFacts B64Facts SignalProps MinMaxExamples RobFacts RobWf UntilFacts RobExamples.
Local Open Scope nat_scope.

(** C70 *)
Definition c70_phi : expr B64 := EOr [EConst true; ENot (EAlways bphi (interval_ull 1 2))].
Lemma C70_case_lemma : btr <> [] /\
  Forall (fun e => wf (snd e) /\ snd e <> [] /\ neqb (begin_time (snd e)) nzero = true /\
    Forall (fun a => finite (s_time a) = true) (snd e)) btr /\
  (forall n, In n (names c70_phi) -> In n (map fst btr)) /\
  free_of (short 1) c70_phi = true /\ intervals_made c70_phi.
Proof.
  split; [discriminate|]. split.
  { constructor; [split; [exact bx_wf|]; split; [discriminate|]; split; [vm_compute; reflexivity|apply all_finite_spec; vm_compute; reflexivity]|].
    constructor; [split; [exact by_wf|]; split; [discriminate|]; split; [vm_compute; reflexivity|apply all_finite_spec; vm_compute; reflexivity]|constructor]. }
  split. { intros n Hn. cbn in Hn. cbn. repeat (destruct Hn as [<-|Hn]; [auto|]). destruct Hn. }
  split; [reflexivity|]. intros e He. cbn in He.
  repeat (destruct He as [<-|He]; [first [exact I|left; reflexivity|right; left; eexists _, _; reflexivity]|]). destruct He.
Qed.
(** Both outcomes occur. *)
Lemma C70_ok_lemma : exists z, compute_robustness true 0 bphi btr false = Ok z.
Proof. exact (proj2 C43_case_lemma). Qed.
Lemma C70_throw_lemma : exists (phi : expr B64) tr, tr <> [] /\
  Forall (fun e => wf (snd e) /\ snd e <> [] /\ neqb (begin_time (snd e)) nzero = true /\
    Forall (fun a => finite (s_time a) = true) (snd e)) tr /\
  (forall n, In n (names phi) -> In n (map fst tr)) /\
  free_of (short 1) phi = true /\ intervals_made phi /\ compute_robustness true 0 phi tr false = Throw InvalidArgument.
Proof.
  exists (EConst true), [(sx, sig_of [(dbl 0 0, dbl 1 0)])]. split; [discriminate|]. split.
  { constructor; [|constructor]. split; [apply b64_wf; vm_compute; reflexivity|]. split; [discriminate|]. split; [vm_compute; reflexivity|].
    apply Forall_forall, forallb_forall. vm_compute; reflexivity. }
  split; [intros n []|]. split; [reflexivity|]. split; [intros e [<-|[]]; exact I|vm_compute; reflexivity].
Qed.

(** C71 *)
Definition c71_phi : expr B64 := EAnd [ENot bq; EOr [bp; bq]; bp].
Definition c71_env (n : string) : B64 := if String.eqb n sx then dbl (-1) 0 else dbl 5 0.
Lemma C71_case_lemma : keys_unique btr /\ Forall (fun e => wf (snd e) /\ snd e <> []) btr /\
  propositional c71_phi /\ sampled_at btr c71_env (dbl 4 0) c71_phi /\
  (forall n, In n (names c71_phi) -> finite (c71_env n) = true) /\
  (forall e, In e (subs c71_phi) -> match e with EPred _ _ c => finite c = true | _ => True end) /\
  exists z, compute_robustness true 0 c71_phi btr false = Ok z.
Proof.
  assert (K : forall n, In n (names c71_phi) -> n = sx \/ n = sy) by (intros n Hn; cbn in Hn; repeat (destruct Hn as [<-|Hn]; [auto|]); destruct Hn).
  split; [exact btr_keys|]. split; [exact btr_good|]. split; [repeat split; reflexivity|]. split.
  { intros n Hn. destruct (K n Hn) as [-> | ->].
    - exists bx, (nth 2 bx (mkSample nzero nzero nzero)). split; [left; reflexivity|]. split; [right; right; left; reflexivity|]. split; [vm_compute; reflexivity|reflexivity].
    - exists by_, (nth 2 by_ (mkSample nzero nzero nzero)). split; [right; left; reflexivity|]. split; [right; right; left; reflexivity|]. split; [vm_compute; reflexivity|reflexivity]. }
  split. { intros n Hn. destruct (K n Hn) as [-> | ->]; vm_compute; reflexivity. }
  split. { intros e He. cbn in He. repeat (destruct He as [<-|He]; [first [exact I|vm_compute; reflexivity]|]). destruct He. }
  destruct (one_ok (compute_robustness true 0 c71_phi btr false) (fun y => true)) as (y & E & H); [vm_compute; reflexivity|eauto].
Qed.
