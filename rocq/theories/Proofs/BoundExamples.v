(** Cases for C79 and C80. *)
From Coq Require Import Reals Lra.
From Verif Require Import Base Num NumXR NumB64.
From Verif.Model Require Import Signal MonoWedge MinMax Ast Robustness.
From Verif.Spec Require Import SignalSpec Pwl Formula Semantics Bounds UntilSpec.
From Verif.Proofs Require Import NumFacts PwlFacts SignalProps MinMaxExamples RobFacts UntilFacts RobExact RobExamples.
Local Open Scope nat_scope.

Lemma C79_case_lemma : exists x y x' y' q,
  compute_robustness true 0 bp btr false = Ok x /\ compute_robustness true 0 (ENot bq) btr false = Ok y /\
  synchronize x y = Ok (x', y') /\ all_num (values x') /\ all_num (values y') /\ last_opt (values y') = Some q /\ nltb nzero q = true.
Proof.
  destruct (two_ok (compute_robustness true 0 bp btr false) (compute_robustness true 0 (ENot bq) btr false)
    (fun x y => match synchronize x y with Ok (x', y') => forallb isnum (values x') && forallb isnum (values y') &&
       match last_opt (values y') with Some q => nltb nzero q | None => false end | _ => false end)) as (x & y & E1 & E2 & H).
  { vm_compute; reflexivity. }
  destruct (synchronize x y) as [[x' y']| | | |] eqn:E3; try discriminate H. apply andb_prop in H as [H H3]. apply andb_prop in H as [H1 H2].
  destruct (last_opt (values y')) as [q|] eqn:E4; [|discriminate H3].
  exists x, y, x', y', q. split; [exact E1|]. split; [exact E2|]. split; [exact E3|]. split; [apply Forall_forall, forallb_forall, H1|].
  split; [apply Forall_forall, forallb_forall, H2|]. split; [exact E4|exact H3].
Qed.

Definition c80_psi : expr XR := EUntil (ENot ey) (EEventually gx interval_default) interval_default.
Lemma c80_ev : evaluable lt1 c80_psi.
Proof.
  split; [reflexivity|]. split; [reflexivity|]. split; [|split].
  - intros e He. cbn in He. repeat (destruct He as [<-|He]; [first [exact I|left; reflexivity]|]). destruct He.
  - intros e He. cbn in He. repeat (destruct He as [<-|He]; [first [exact I|eexists; reflexivity]|]). destruct He.
  - intros n Hn. apply lt1_names. cbn in Hn. repeat (destruct Hn as [<-|Hn]; [auto|]). destruct Hn.
Qed.
Lemma C80_case_lemma : trace_of lt1 tr1 /\ keys_unique tr1 /\ all_start lt1 0 /\ evaluable lt1 phi2 /\ evaluable lt1 c80_psi /\
  sound_first true phi2 = true /\ sound_first false phi2 = true /\ sound_first false c80_psi = true /\
  sound_for true (EAnd [EAlways gx interval_default; ENot ey]) = true.
Proof.
  split; [exact tr1_of|]. split; [exact tr1_keys|]. split; [exact tr1_start|]. split; [exact phi2_ev|]. split; [exact c80_ev|]. repeat split; reflexivity.
Qed.

Lemma bound_consistent lt tr t0 : trace_of lt tr -> keys_unique tr -> all_start lt t0 ->
  forall e t c d, bound lt e true t c -> bound lt e false t d -> (c <= d)%R.
Proof.
  intros T K A. pose proof (value_fun lt tr t0 T K A) as VF.
  induction e using expr_rec; intros t u w B1 B2.
  - cbn in *. congruence.
  - cbn [bound] in *. destruct B1 as (x & r & H1 & -> & H2). destruct B2 as (x' & r' & H3 & [= <-] & H4).
    rewrite (VF _ _ _ _ H3 H1) in H4. cbn zeta in *. lra.
  - cbn [bound negb] in *. specialize (IHe t _ _ B2 B1). lra.
  - rewrite Forall_forall in H. apply bound_and in B1, B2. destruct B2 as (e & He & B2). eapply (H e He); eauto.
  - rewrite Forall_forall in H. apply bound_or in B1, B2. destruct B1 as (e & He & B1). eapply (H e He); eauto.
  - cbn [bound] in *. destruct B2 as (t' & H1 & H2 & H3). eapply IHe; eauto.
  - cbn [bound] in *. destruct B1 as (t' & H1 & H2 & H3). eapply IHe; eauto.
  - cbn [bound] in *. destruct B1 as (t' & H1 & H2 & H3 & H4 & H5). destruct (B2 t' H1 H2 H3) as [Q|(v & Hv & Q)]; [eapply IHe2; eauto|eapply IHe1; eauto].
Qed.
