(** The rolling min/max (unbounded Eventually/Always). *)
From Coq Require Import Sorted Reals Lra.
From Verif Require Import Base Num.
From Verif.Model Require Import Signal MinMax.
From Verif.Spec Require Import SignalSpec.
From Verif.Proofs Require Import NumFacts SignalFacts MinMaxFacts.

Section G.
Context {F : Type} `{NF : Num F} {NL : NumLaws F}.
Variable comp : sample F -> sample F -> bool.

Fixpoint best_of (a : sample F) (r : list (sample F)) : sample F :=
  match r with
  | [] => a
  | b :: r' => let o := best_of b r' in if comp a o then a else o
  end.

Fixpoint rollp (x : list (sample F)) : list (F * F) :=
  match x with
  | [] => []
  | a :: r => (s_time a, s_value (best_of a r)) :: rollp r
  end.

Lemma seq_loop_roll rl : forall a r z, points (rev z) = rollp (a :: r) ->
  points (rev (seq_loop comp (best_of a r) z rl)) = rollp (rev rl ++ a :: r).
Proof.
  induction rl as [|i rl IH]; intros a r z H; [exact H|]. cbn [seq_loop rev].
  rewrite <- app_assoc. apply (IH i (a :: r)). rewrite rev_app_distr. change (rollp (i :: a :: r)) with ((s_time i, s_value (best_of i (a :: r))) :: rollp (a :: r)). rewrite <- H. reflexivity.
Qed.

Lemma rollp_times x : map fst (rollp x) = times x.
Proof. induction x as [|a r IH]; cbn; [reflexivity|]. rewrite IH. reflexivity. Qed.

Lemma minmax_seq_roll x : wf x -> x <> [] -> minmax_seq comp x = Ok (sig_of (rollp x)).
Proof.
  intros (N & I & _) Hne. unfold minmax_seq. destruct (rev x) as [|b rl] eqn:E.
  { apply (f_equal (@rev _)) in E. rewrite rev_involutive in E. contradiction. }
  assert (Ex : x = rev rl ++ [b]) by (rewrite <- (rev_involutive x), E; reflexivity).
  rewrite from_samples_canon. pose proof (seq_loop_roll rl b [] [b] eq_refl) as Q. cbn [best_of] in Q. rewrite Q, <- Ex.
  assert (steps_ok (rollp x) = true) as ->; [|reflexivity].
  apply wfp_steps. split; rewrite rollp_times; assumption.
Qed.

Lemma rollp_wfp x : wf x -> wfp (rollp x).
Proof. intros (N & I & _). split; rewrite rollp_times; assumption. Qed.

Section Ord.
Variable ordb : F -> F -> bool.
Hypothesis comp_ord : forall a b, isnum (s_value a) = true -> isnum (s_value b) = true -> comp a b = ordb (s_value a) (s_value b).
Hypothesis ord_refl : forall v, isnum v = true -> ordb v v = true.
Hypothesis ord_total : forall v w, isnum v = true -> isnum w = true -> ordb v w = false -> ordb w v = true.
Hypothesis ord_trans : forall u v w, ordb u v = true -> ordb v w = true -> ordb u w = true.

Lemma best_of_spec r : forall a, all_num (values (a :: r)) ->
  In (best_of a r) (a :: r) /\ isnum (s_value (best_of a r)) = true /\
  Forall (fun b => ordb (s_value (best_of a r)) (s_value b) = true) (a :: r).
Proof.
  induction r as [|b r IH]; intros a N.
  { inversion N; subst. split; [left; reflexivity|]. split; [assumption|]. repeat constructor. apply ord_refl. assumption. }
  inversion N as [|? ? N1 N2]; subst. destruct (IH b N2) as (H1 & H2 & H3).
  cbn [best_of]. rewrite comp_ord by assumption. destruct (ordb (s_value a) (s_value (best_of b r))) eqn:E.
  - split; [left; reflexivity|]. split; [exact N1|]. constructor; [apply ord_refl, N1|].
    eapply Forall_impl; [|exact H3]. intros c Hc. cbn in Hc. eapply ord_trans; eauto.
  - split; [right; exact H1|]. split; [exact H2|]. constructor; [|exact H3]. apply ord_total; assumption.
Qed.

Lemma rollp_app x1 a x2 : exists z1 z2, rollp (x1 ++ a :: x2) = z1 ++ (s_time a, s_value (best_of a x2)) :: z2 /\
  length z1 = length x1 /\ z2 = rollp x2.
Proof.
  induction x1 as [|b x1 IH]; cbn [app].
  - exists [], (rollp x2). split; [reflexivity|]. split; reflexivity.
  - destruct IH as (z1 & z2 & E & L & E2). cbn [rollp]. rewrite E. eexists (_ :: z1), z2. split; [reflexivity|]. cbn. auto.
Qed.

Lemma all_num_suffix x1 (x2 : list (sample F)) : all_num (values (x1 ++ x2)) -> all_num (values x2).
Proof. unfold values. rewrite map_app. intros H. apply all_num_app in H. apply H. Qed.

(** Once rolled, every element is already at least as good as all later ones. *)
Lemma rollp_again x : all_num (values x) -> rollp (sig_of (rollp x)) = rollp x.
Proof.
  induction x as [|a r IH]; intros N; [reflexivity|].
  inversion N as [|? ? N1 N2]; subst. specialize (IH N2).
  cbn [rollp]. cbn [sig_of fst snd]. cbn [rollp s_time s_value]. rewrite IH. f_equal. f_equal.
  destruct r as [|b r]; [reflexivity|].
  destruct (best_of_spec (b :: r) a N) as (H1 & H2 & H3). destruct (best_of_spec r b N2) as (G1 & G2 & G3).
  cbn [rollp] in IH |- *. cbn [sig_of fst snd] in IH |- *. cbn [rollp s_time s_value] in IH.
  apply (f_equal (fun l => match l with [] => nzero | p :: _ => snd p end)) in IH. cbn [snd] in IH.
  set (c := mkSample (s_time a) _ _). set (d := mkSample (s_time b) _ _) in *.
  change (s_value (best_of c (d :: sig_of (rollp r))) = s_value (best_of a (b :: r))).
  cbn [best_of]. set (o := best_of d (sig_of (rollp r))) in *. cbn beta iota zeta.
  assert (Ec : comp c o = true).
  { rewrite comp_ord; [|exact H2|rewrite IH; exact G2]. rewrite IH. cbn [c s_value].
    rewrite Forall_forall in H3. apply H3. right. exact G1. }
  rewrite Ec. reflexivity.
Qed.

Lemma rollp_sorted x : all_num (values x) -> StronglySorted (fun v w => ordb v w = true) (map snd (rollp x)).
Proof.
  induction x as [|a r IH]; intros N; [constructor|]. inversion N as [|? ? N1 N2]; subst. cbn [rollp map snd].
  constructor; [apply IH, N2|].
  destruct (best_of_spec r a N) as (H1 & H2 & H3). rewrite Forall_forall in H3.
  apply Forall_forall. intros v Hv. apply in_map_iff in Hv as (p & <- & Hp).
  assert (exists b, In b r /\ snd p = s_value b) as (b & Hb & ->); [|apply H3; right; exact Hb].
  clear -Hp N2 comp_ord ord_refl ord_total ord_trans NL. induction r as [|c r IH]; [destruct Hp|]. cbn [rollp] in Hp. destruct Hp as [<-|Hp].
  - exists (best_of c r). split; [|reflexivity]. apply best_of_spec, N2.
  - inversion N2; subst. destruct IH as (b & Hb & E); [assumption..|]. exists b. split; [right; exact Hb|exact E].
Qed.
End Ord.
End G.

Section Inst.
Context {F : Type} `{NF : Num F} {NL : NumLaws F}.
Lemma le_comp (a b : sample F) : isnum (s_value a) = true -> isnum (s_value b) = true -> sample_le a b = nleb (s_value a) (s_value b).
Proof. intros. unfold sample_le, sample_gt, sample_lt. destruct (nltb (s_value b) (s_value a)) eqn:E; symmetry; cbn; num. Qed.
Lemma ge_comp (a b : sample F) : isnum (s_value a) = true -> isnum (s_value b) = true -> sample_ge a b = nleb (s_value b) (s_value a).
Proof. intros. unfold sample_ge, sample_lt. destruct (nltb (s_value a) (s_value b)) eqn:E; symmetry; cbn; num. Qed.
Lemma nleb_refl (v : F) : isnum v = true -> nleb v v = true. Proof. intros. num. Qed.
Lemma nleb_total (v w : F) : isnum v = true -> isnum w = true -> nleb v w = false -> nleb w v = true. Proof. intros. num. Qed.
Lemma nleb_total' (v w : F) : isnum v = true -> isnum w = true -> nleb w v = false -> nleb v w = true. Proof. intros. num. Qed.
Lemma nleb_trans (u v w : F) : nleb u v = true -> nleb v w = true -> nleb u w = true. Proof. intros. num. Qed.
Lemma nleb_trans' (u v w : F) : nleb v u = true -> nleb w v = true -> nleb w u = true. Proof. intros. num. Qed.

Lemma C28_min (x : signal F) : wf x -> x <> [] -> all_num (values x) ->
  exists z, min_seq x = Ok z /\ wf z /\ times z = times x /\
    forall x1 a x2, x = x1 ++ a :: x2 ->
    exists z1 c z2, z = z1 ++ c :: z2 /\ length z1 = length x1 /\ s_time c = s_time a /\
      (exists b, In b (a :: x2) /\ s_value c = s_value b) /\
      (forall b, In b (a :: x2) -> nleb (s_value c) (s_value b) = true).
Proof.
  intros W Hne N. unfold min_seq. rewrite minmax_seq_roll by assumption. eexists. split; [reflexivity|].
  split; [apply wf_canon; exists (rollp sample_le x); split; [apply rollp_wfp, W|reflexivity]|].
  split; [rewrite times_sig_of; apply rollp_times|]. intros x1 a x2 ->.
  destruct (rollp_app sample_le x1 a x2) as (z1 & z2 & E & L & _).
  pose proof (all_num_suffix _ _ N) as N'.
  destruct (best_of_spec sample_le nleb le_comp nleb_refl nleb_total nleb_trans _ _ N') as (H1 & H2 & H3).
  assert (S : exists s1 c s2, sig_of (z1 ++ (s_time a, s_value (best_of sample_le a x2)) :: z2) = s1 ++ c :: s2 /\
     length s1 = length z1 /\ s_time c = s_time a /\ s_value c = s_value (best_of sample_le a x2)).
  { clear. induction z1 as [|p z1 IH]; cbn [app sig_of]; [eexists [], _, _; split; [reflexivity|]; auto|].
    destruct IH as (s1 & c & s2 & E & L & T & V). rewrite E. eexists (_ :: s1), c, s2. split; [reflexivity|]. cbn. auto. }
  rewrite E. destruct S as (s1 & c & s2 & -> & L' & T & V). exists s1, c, s2. split; [reflexivity|].
  split; [congruence|]. split; [exact T|]. rewrite V. split; [eauto|]. rewrite Forall_forall in H3. exact H3.
Qed.

Lemma C28_max (x : signal F) : wf x -> x <> [] -> all_num (values x) ->
  exists z, max_seq x = Ok z /\ wf z /\ times z = times x /\
    forall x1 a x2, x = x1 ++ a :: x2 ->
    exists z1 c z2, z = z1 ++ c :: z2 /\ length z1 = length x1 /\ s_time c = s_time a /\
      (exists b, In b (a :: x2) /\ s_value c = s_value b) /\
      (forall b, In b (a :: x2) -> nleb (s_value b) (s_value c) = true).
Proof.
  intros W Hne N. unfold max_seq. rewrite minmax_seq_roll by assumption. eexists. split; [reflexivity|].
  split; [apply wf_canon; exists (rollp sample_ge x); split; [apply rollp_wfp, W|reflexivity]|].
  split; [rewrite times_sig_of; apply rollp_times|]. intros x1 a x2 ->.
  destruct (rollp_app sample_ge x1 a x2) as (z1 & z2 & E & L & _).
  pose proof (all_num_suffix _ _ N) as N'.
  destruct (best_of_spec sample_ge (fun v w => nleb w v) ge_comp nleb_refl nleb_total' nleb_trans' _ _ N') as (H1 & H2 & H3).
  assert (S : exists s1 c s2, sig_of (z1 ++ (s_time a, s_value (best_of sample_ge a x2)) :: z2) = s1 ++ c :: s2 /\
     length s1 = length z1 /\ s_time c = s_time a /\ s_value c = s_value (best_of sample_ge a x2)).
  { clear. induction z1 as [|p z1 IH]; cbn [app sig_of]; [eexists [], _, _; split; [reflexivity|]; auto|].
    destruct IH as (s1 & c & s2 & E & L & T & V). rewrite E. eexists (_ :: s1), c, s2. split; [reflexivity|]. cbn. auto. }
  rewrite E. destruct S as (s1 & c & s2 & -> & L' & T & V). exists s1, c, s2. split; [reflexivity|].
  split; [congruence|]. split; [exact T|]. rewrite V. split; [eauto|]. rewrite Forall_forall in H3. exact H3.
Qed.

Lemma best_of_num comp (r : list (sample F)) : forall a, all_num (values (a :: r)) -> isnum (s_value (best_of comp a r)) = true.
Proof.
  induction r as [|b r IH]; intros a N; inversion N as [|? ? N1 N2]; subst; [exact N1|].
  cbn [best_of]. destruct (comp _ _); [exact N1|]. apply IH, N2.
Qed.
Lemma rollp_num comp (x : list (sample F)) : all_num (values x) -> all_num (map snd (rollp comp x)).
Proof.
  induction x as [|a r IH]; intros N; [constructor|]. constructor; [apply best_of_num, N|].
  apply IH. inversion N; assumption.
Qed.

Lemma C30_min (x : signal F) : wf x -> x <> [] -> all_num (values x) ->
  exists z, min_seq x = Ok z /\ min_seq z = Ok z /\ StronglySorted (fun v w => nleb v w = true) (values z).
Proof.
  intros W Hne N. unfold min_seq. rewrite minmax_seq_roll by assumption. eexists. split; [reflexivity|].
  rewrite minmax_seq_roll.
  - rewrite (rollp_again sample_le nleb le_comp nleb_refl nleb_total nleb_trans) by assumption. split; [reflexivity|].
    rewrite values_sig_of. apply (rollp_sorted sample_le nleb le_comp nleb_refl nleb_total nleb_trans), N.
  - apply wf_canon. exists (rollp sample_le x). split; [apply rollp_wfp, W|reflexivity].
  - destruct x; [congruence|discriminate].
Qed.
Lemma C30_max (x : signal F) : wf x -> x <> [] -> all_num (values x) ->
  exists z, max_seq x = Ok z /\ max_seq z = Ok z /\ StronglySorted (fun v w => nleb w v = true) (values z).
Proof.
  intros W Hne N. unfold max_seq. rewrite minmax_seq_roll by assumption. eexists. split; [reflexivity|].
  rewrite minmax_seq_roll.
  - rewrite (rollp_again sample_ge (fun v w => nleb w v) ge_comp nleb_refl nleb_total' nleb_trans') by assumption. split; [reflexivity|].
    rewrite values_sig_of. apply (rollp_sorted sample_ge (fun v w => nleb w v) ge_comp nleb_refl nleb_total' nleb_trans'), N.
  - apply wf_canon. exists (rollp sample_ge x). split; [apply rollp_wfp, W|reflexivity].
  - destruct x; [congruence|discriminate].
Qed.

Lemma C28_empty : max_seq ([] : signal F) = UB /\ min_seq ([] : signal F) = UB.
Proof. split; reflexivity. Qed.
End Inst.
