(** Instances for C115. *)
From Coq Require Import Reals Lra Lia.
From Flocq Require Import Core.Core IEEE754.BinarySingleNaN.
From Verif Require Import Base Num NumB64.
From Verif.Model Require Import Signal Ast Robustness.
From Verif.Proofs Require Import NumFacts SignalFacts SignalProps MinMaxExamples UntilFacts RobExamples AccuracyExamples.
From Verif.Spec Require Import SignalSpec Formula Accuracy Uniform.
Local Open Scope R_scope.

(** Both signals sampled at 0, 1, 2; they cross in (0,1) and in (1,2). *)
Definition u_x : signal B64 := sig_of [(dbl 0 0, dbl 4 0); (dbl 1 0, dbl 1 0); (dbl 2 0, dbl 5 0)].
Definition u_y : signal B64 := sig_of [(dbl 0 0, dbl 1 0); (dbl 1 0, dbl 4 0); (dbl 2 0, dbl 2 0)].
Definition u_tr : trace B64 := [(sx, u_x); (sy, u_y)].
Definition u_in : expr B64 := EAnd [EPred sx GT (dbl 0 0); EPred sy GE (dbl 0 0); EEventually (EPred sx GT (dbl 3 0)) interval_default].
Definition u_out : expr B64 := EOr [EPred sx LT (dbl 1 0); ENot (EPred sy GT (dbl 1 0))].
Definition u_phi : expr B64 := EAnd [EAlways u_in interval_default; ENot (EEventually u_out interval_default); EAlways (ENot u_out) interval_default].

Lemma u_cases n x : has_signal u_tr n x -> x = u_x \/ x = u_y.
Proof. intros [E|[E|[]]]; injection E as _ <-; auto. Qed.

Lemma u_moderate : moderate 8 2 u_tr.
Proof.
  assert (K : forall a b c : sample B64, (forall d, In d [a; b; c] -> finite (s_time d) = true /\ finite (s_value d) = true /\
       Rabs (B2R (s_time d)) <= bpow radix2 1000 /\ Rabs (B2R (s_value d)) <= 8) ->
     B2R (s_time a) = 0 -> B2R (s_time b) = 1 -> B2R (s_time c) = 2 -> forall x, x = [a; b; c] ->
     (forall a, In a x -> finite (s_time a) = true /\ finite (s_value a) = true /\
       Rabs (B2R (s_time a)) <= bpow radix2 1000 /\ Rabs (B2R (s_value a)) <= 8) /\
     (forall a b, In a x -> In b x -> B2R (s_time b) - B2R (s_time a) <= 2) /\
     (forall x1 a b x2, x = x1 ++ a :: b :: x2 -> 6 * 8 <= bpow radix2 1000 * (B2R (s_time b) - B2R (s_time a)))).
  { intros a b c S Ea Eb Ec x ->. split; [exact S|]. split.
    - intros u v [<-|[<-|[<-|[]]]] [<-|[<-|[<-|[]]]]; lra.
    - intros [|w [|w' x1]] u v x2 E.
      + injection E as <- <- _. pose proof million. rewrite Ea, Eb. lra.
      + injection E as _ <- <- _. pose proof million. rewrite Eb, Ec. lra.
      + apply (f_equal (@length _)) in E. cbn in E. rewrite app_length in E. cbn in E. lia. }
  intros n x H. destruct (u_cases n x H) as [-> | ->]; (eapply K; [| | | |reflexivity]; [|small|small|small]);
    intros d [<-|[<-|[<-|[]]]]; small.
Qed.
Lemma u_uniform : uniform u_tr.
Proof.
  intros n m x y a Hx Hy Ha. destruct (u_cases n x Hx) as [-> | ->]; destruct (u_cases m y Hy) as [-> | ->]; destruct Ha as [<-|[<-|[<-|[]]]];
    (eexists; split; [left; reflexivity|vm_compute; reflexivity]) || (eexists; split; [right; left; reflexivity|vm_compute; reflexivity]) ||
    (eexists; split; [right; right; left; reflexivity|vm_compute; reflexivity]).
Qed.
Lemma u_margin phi : (length (names phi) <= 10)%nat -> margin 8 2 phi <= 8.
Proof.
  intros L. apply le_INR in L. replace (INR 10) with 10 in L by (cbn; lra). unfold margin, tolerance.
  assert (bpow radix2 (-49) <= / 1000000) by (apply Rle_trans with (bpow radix2 (-20)); [apply bpow_le; lia|simpl; lra]).
  assert (bpow radix2 (-1073) <= / 1000000) by (apply Rle_trans with (bpow radix2 (-20)); [apply bpow_le; lia|simpl; lra]).
  pose proof (bpow_gt_0 radix2 (-49)). pose proof (bpow_gt_0 radix2 (-1073)). pose proof (pos_INR (length (names phi))).
  set (t := bpow radix2 (-49) * (4 * 8) + bpow radix2 (-1073) * (2 + 1)). assert (0 <= t <= / 1000) by (unfold t; lra).
  apply Rle_trans with (21 * / 1000); [|lra]. apply Rmult_le_compat; lra.
Qed.
Lemma u_setting phi : (length (names phi) <= 10)%nat -> (forall n, In n (names phi) -> n = sx \/ n = sy) ->
  constants_within 8 phi -> intervals_made phi -> setting u_tr 8 2 phi.
Proof.
  intros L N C I. split. { unfold keys_unique. cbn [map fst u_tr]. constructor; [intros [H|[]]; discriminate H|]. constructor; [intros []|constructor]. }
  split. { unfold u_tr. apply Forall_cons; [|apply Forall_cons; [|apply Forall_nil]]; cbn [snd]; (split; [apply b64_wf; vm_compute; reflexivity|discriminate]). }
  split; [exact u_uniform|]. split; [exact u_moderate|]. split; [lra|]. split; [lra|]. split; [pose proof million; lra|]. split; [exact C|]. split; [exact I|].
  split; [|apply u_margin, L]. intros n Hn. destruct (N n Hn) as [-> | ->]; [exists u_x|exists u_y]; [left|right; left]; reflexivity.
Qed.
Ltac u_solve := apply u_setting; [vm_compute; lia| | |];
  [intros n Hn; cbn in Hn; repeat (destruct Hn as [<-|Hn]; [auto|]); destruct Hn
  |intros e He; cbn -[dbl] in He; repeat (destruct He as [<-|He]; [first [exact Logic.I|small]|]); destruct He
  |intros e He; cbn in He; repeat (destruct He as [<-|He]; [first [exact Logic.I|left; reflexivity]|]); destruct He].
Lemma C115_case_lemma : setting u_tr 8 2 u_phi /\ guarded u_phi = true /\ exists z, compute_robustness true 0 u_phi u_tr false = Ok z /\ (4 <= length z)%nat.
Proof.
  split; [u_solve|]. split; [reflexivity|].
  destruct (one_ok (compute_robustness true 0 u_phi u_tr false) (fun z => Nat.leb 4 (length z))) as (z & E & H); [vm_compute; reflexivity|].
  exists z. split; [exact E|]. apply Nat.leb_le, H.
Qed.
Lemma C115_always_case_lemma : setting u_tr 8 2 (EAlways u_in interval_default) /\ one_level true u_in = true /\
  exists z, compute_robustness true 0 (EAlways u_in interval_default) u_tr false = Ok z /\ forallb (fun c => nltb nzero (s_value c)) z = true.
Proof.
  split; [u_solve|]. split; [reflexivity|].
  destruct (one_ok (compute_robustness true 0 (EAlways u_in interval_default) u_tr false) (fun z => forallb (fun c => nltb nzero (s_value c)) z)) as (z & E & H); [vm_compute; reflexivity|eauto].
Qed.
Lemma C115_eventually_case_lemma : setting u_tr 8 2 (EEventually u_out interval_default) /\ one_level false u_out = true /\
  exists z, compute_robustness true 0 (EEventually u_out interval_default) u_tr false = Ok z /\ exists c, In c z /\ nltb (s_value c) nzero = true.
Proof.
  split; [u_solve|]. split; [reflexivity|].
  destruct (one_ok (compute_robustness true 0 (EEventually u_out interval_default) u_tr false) (fun z => existsb (fun c => nltb (s_value c) nzero) z)) as (z & E & H); [vm_compute; reflexivity|].
  exists z. split; [exact E|]. apply existsb_exists in H. exact H.
Qed.
