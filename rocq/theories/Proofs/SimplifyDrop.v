(** Which samples simplify drops (exact arithmetic). *)
From Coq Require Import Sorted Reals Lra.
From Flocq Require Import Core.Raux.
From Verif Require Import Base Num NumXR.
From Verif.Model Require Import Signal.
From Verif.Spec Require Import SignalSpec Subseq Pwl.
From Verif.Proofs Require Import NumFacts SignalFacts LowerBound Reshape PwlFacts ShapeExact.
Open Scope R_scope.

Fixpoint lastd (b : R * R) (l : list (R * R)) : R * R := match l with [] => b | a :: l' => lastd a l' end.

Lemma rkeep_In b l a : In a (rkeep b l) -> In a l.
Proof.
  revert b. induction l as [|q l IH]; intros b H; [exact H|]. cbn [rkeep] in H.
  destruct (rdrop b q l); [right; eauto|]. destruct H as [->|H]; [left; reflexivity|right; eauto].
Qed.

Lemma rkeep_interior l1 : forall b q r l2, rincr (l1 ++ q :: r :: l2) ->
  (In q (rkeep b (l1 ++ q :: r :: l2)) <-> ~ (snd (lastd b l1) = snd q /\ snd r = snd q)).
Proof.
  induction l1 as [|a l1 IH]; intros b q r l2 I.
  - cbn [app lastd]. change (rkeep b (q :: r :: l2)) with (if rdrop b q (r :: l2) then rkeep b (r :: l2) else q :: rkeep q (r :: l2)).
    unfold rdrop. case Req_bool_spec; intros H1; case Req_bool_spec; intros H2; cbn [andb].
    + split; [|tauto]. intros H. apply rkeep_In in H. cbn [app] in I. apply rincr_cons in I as [_ I].
      rewrite Forall_forall in I. specialize (I q H). lra.
    + split; [tauto|left; reflexivity].
    + split; [tauto|left; reflexivity].
    + split; [tauto|left; reflexivity].
  - cbn [app] in *. assert (I' : rincr (l1 ++ q :: r :: l2)) by (apply rincr_cons in I as [I _]; exact I).
    cbn [rkeep lastd]. destruct (rdrop b a (l1 ++ q :: r :: l2)) eqn:D.
    + rewrite IH by exact I'. apply andb_prop in D as [D _].
      assert (snd b = snd a) by (revert D; case Req_bool_spec; [auto|discriminate]).
      destruct l1; cbn [lastd]; [rewrite H|]; tauto.
    + rewrite <- (IH a q r l2 I'). split; [intros [<- | H]; [|exact H]|right; exact H].
      apply rincr_cons in I as [_ I]. rewrite Forall_forall in I.
      assert (Ha : In a (l1 ++ a :: r :: l2)) by (apply in_or_app; right; left; reflexivity). specialize (I a Ha). lra.
Qed.

Lemma lastd_snoc b l p : lastd b (l ++ [p]) = p.
Proof. revert b. induction l as [|a l IH]; intros b; [reflexivity|]. apply IH. Qed.

Lemma rincr_NoDup l : rincr l -> NoDup l.
Proof.
  induction l as [|a l IH]; intros I; constructor; apply rincr_cons in I as [I1 I2]; auto.
  intros H. rewrite Forall_forall in I2. specialize (I2 _ H). lra.
Qed.

Lemma simplify_drops l1 p q r l2 s' l' : let l := l1 ++ p :: q :: r :: l2 in rincr l ->
  simplify (fsig l) = Ok s' -> built l' s' ->
  (In q l' <-> ~ (snd p = snd q /\ snd q = snd r)).
Proof.
  intros l I E B. apply built_iff in B as [_ ->].
  assert (Hl : exists b rest l1', l = b :: rest /\ rest = l1' ++ q :: r :: l2 /\ lastd b l1' = p).
  { unfold l. destruct l1 as [|b l1]; [exists p, (q :: r :: l2), []; auto|].
    exists b, (l1 ++ p :: q :: r :: l2), (l1 ++ [p]). rewrite <- app_assoc. repeat split. apply lastd_snoc. }
  destruct Hl as (b & rest & l1' & El & Er & Ep).
  assert (I' : rincr rest) by (rewrite El in I; apply rincr_cons in I as [I _]; exact I).
  assert (W : wfp (points (fsig l))) by (rewrite points_fsig; apply rincr_wfp, I).
  assert (EE : simp_points (fsig l) = map inj (rfin (b :: rkeep b rest) l)).
  { rewrite El. assert (K : simp_keep None (fsig (b :: rest)) = map inj (b :: rkeep b rest)).
    { rewrite fsig_cons. cbn [simp_keep]. change (s_time _, s_value _) with (inj b). rewrite rkeep_keep by exact I'. reflexivity. }
    unfold simp_points. rewrite K, end_fsig.
    change (sig_of (map inj (b :: rkeep b rest))) with (fsig (b :: rkeep b rest)).
    rewrite end_fsig. change (@neqb XR _) with xeq. rewrite fin_eq. unfold rfin.
    destruct (Req_bool _ _); cbn [negb]; [reflexivity|].
    rewrite points_fsig, last_opt_map. destruct (last_opt (b :: rest)); cbn [option_map]; [|reflexivity].
    rewrite map_app. reflexivity. }
  rewrite simplify_ok in E by exact W. injection E as E.
  assert (El' : l' = rfin (b :: rkeep b rest) l).
  { apply map_inj_eq. rewrite <- EE. apply (f_equal points) in E. rewrite points_sig_of, points_fsig in E. symmetry. exact E. }
  assert (Hq : In q l' <-> In q (b :: rkeep b rest)).
  { rewrite El'. unfold rfin. destruct (Req_bool _ _); [tauto|]. destruct (last_opt l) as [z|] eqn:Ez; [|tauto].
    rewrite in_app_iff. split; [|auto]. intros [H|[<- | []]]; [exact H|]. exfalso.
    rewrite El, Er in Ez. apply last_opt_some in Ez as [lz Ez].
    assert (Hz : last_opt (b :: l1' ++ z :: r :: l2) = Some z) by (rewrite Ez; apply last_opt_snoc).
    replace (b :: l1' ++ z :: r :: l2) with ((b :: l1' ++ [z]) ++ r :: l2) in Hz by (cbn; rewrite <- app_assoc; reflexivity).
    rewrite last_opt_app in Hz by discriminate. apply last_opt_In in Hz.
    rewrite Er in I'. apply rincr_app in I' as (_ & I' & _). apply rincr_cons in I' as [_ I'].
    rewrite Forall_forall in I'. specialize (I' _ Hz). lra. }
  rewrite Hq. rewrite Er in *. pose proof (rkeep_interior l1' b q r l2 I') as K. rewrite Ep in K.
  split.
  - intros [-> | H]; [|intros [H1 H2]; apply K in H; apply H; auto].
    exfalso. rewrite El in I. apply rincr_cons in I as [_ I]. rewrite Forall_forall in I.
    assert (Ha : In q (l1' ++ q :: r :: l2)) by (apply in_or_app; right; left; reflexivity). specialize (I q Ha). lra.
  - intros H. right. apply K. intros [H1 H2]. apply H. auto.
Qed.
