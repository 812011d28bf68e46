(** std::lower_bound finds the partition point, and the lookups built on it. *)
From Coq Require Import Sorted Reals Lra.
From Verif Require Import Base Num.
From Verif.Model Require Import Signal.
From Verif.Spec Require Import SignalSpec.
From Verif.Proofs Require Import NumFacts SignalFacts.

Section LB.
Context {A : Type}.

Lemma lower_bound_loop_partition (p : A -> bool) (l1 l2 : list A) :
  Forall (fun a => p a = true) l1 -> Forall (fun a => p a = false) l2 ->
  forall fuel first len, len < fuel -> first <= length l1 <= first + len ->
    first + len <= length (l1 ++ l2) ->
    lower_bound_loop fuel (l1 ++ l2) p first len = Ok (length l1).
Proof.
  intros H1 H2. rewrite Forall_forall in *.
  induction fuel as [|fuel IH]; intros first len Hf Hb Hl; [lia|]. cbn [lower_bound_loop].
  destruct (Nat.eqb_spec len 0) as [->|Hne]; [f_equal; lia|].
  assert (Hd : Nat.div2 len < len) by (apply Nat.lt_div2; lia).
  destruct (nth_error (l1 ++ l2) (first + Nat.div2 len)) as [a|] eqn:E.
  2: { apply nth_error_None in E. lia. }
  destruct (Nat.ltb_spec (first + Nat.div2 len) (length l1)) as [Hc|Hc].
  - rewrite nth_error_app1 in E by exact Hc. rewrite (H1 a) by (eapply nth_error_In; eauto).
    apply IH; lia.
  - rewrite nth_error_app2 in E by exact Hc. rewrite (H2 a) by (eapply nth_error_In; eauto).
    apply IH; lia.
Qed.

Lemma lower_bound_partition (p : A -> bool) (l1 l2 : list A) :
  Forall (fun a => p a = true) l1 -> Forall (fun a => p a = false) l2 ->
  lower_bound (l1 ++ l2) p = Ok (length l1).
Proof.
  intros H1 H2. unfold lower_bound. apply lower_bound_loop_partition; auto; rewrite ?app_length; lia.
Qed.

Lemma lower_bound_loop_total (p : A -> bool) (l : list A) :
  forall fuel first len, len < fuel -> first + len <= length l ->
    exists k, lower_bound_loop fuel l p first len = Ok k /\ first <= k <= first + len.
Proof.
  induction fuel as [|fuel IH]; intros first len Hf Hl; [lia|]. cbn [lower_bound_loop].
  destruct (Nat.eqb_spec len 0) as [->|Hne]; [exists first; split; [reflexivity|lia]|].
  assert (Hd : Nat.div2 len < len) by (apply Nat.lt_div2; lia).
  destruct (nth_error l (first + Nat.div2 len)) as [a|] eqn:E.
  2: { apply nth_error_None in E. lia. }
  destruct (p a).
  - destruct (IH (first + Nat.div2 len + 1) (len - Nat.div2 len - 1)) as (k & Hk & ?); try lia.
    exists k. split; [exact Hk|lia].
  - destruct (IH first (Nat.div2 len)) as (k & Hk & ?); try lia. exists k. split; [exact Hk|lia].
Qed.

Lemma lower_bound_total (p : A -> bool) (l : list A) :
  exists k, lower_bound l p = Ok k /\ k <= length l.
Proof.
  destruct (lower_bound_loop_total p l (S (length l)) 0 (length l)) as (k & Hk & ?); try lia.
  exists k. split; [exact Hk|lia].
Qed.
End LB.

Section Lookup.
Context {F : Type} `{NF : Num F} {NL : NumLaws F}.
Local Open Scope R_scope.

(** Splitting an increasing list at a time. *)
Lemma split_at (l : list (sample F)) t : all_num (times l) -> increasing (times l) -> isnum t = true ->
  exists l1 l2, l = l1 ++ l2 /\ Forall (fun a => nltb (s_time a) t = true) l1 /\
    Forall (fun a => nltb (s_time a) t = false) l2.
Proof.
  intros Hn Hi Ht. induction l as [|a l IH].
  - exists [], []. repeat constructor.
  - inversion Hn as [|? ? Ha Hn']; subst. cbn in Hi. apply increasing_cons in Hi as [Hi Hf].
    destruct (nltb (s_time a) t) eqn:E.
    + destruct IH as (l1 & l2 & -> & H1 & H2); auto. exists (a :: l1), l2. repeat split; auto.
    + exists [], (a :: l). repeat split; auto. constructor; [exact E|].
      unfold times in Hf. rewrite Forall_map in Hf. eapply Forall_impl; [|exact Hf]. cbn. intros b Hb.
      num.
Qed.

Lemma lower_bound_split (l1 l2 : list (sample F)) t :
  Forall (fun a => nltb (s_time a) t = true) l1 -> Forall (fun a => nltb (s_time a) t = false) l2 ->
  lower_bound (l1 ++ l2) (before t) = Ok (length l1).
Proof. intros. apply lower_bound_partition; assumption. Qed.

Lemma nth_error_split_head {A} (l1 : list A) a l2 : nth_error (l1 ++ a :: l2) (length l1) = Some a.
Proof. rewrite nth_error_app2 by lia. rewrite Nat.sub_diag. reflexivity. Qed.

Lemma begin_le_end (s : signal F) a : all_num (times s) -> increasing (times s) -> In a s ->
  rk (begin_time s) <= rk (s_time a) <= rk (end_time s).
Proof.
  intros Hn Hi Ha. unfold begin_time, end_time. split.
  - destruct s as [|b s]; [destruct Ha|]. cbn in Hi. apply increasing_cons in Hi as [_ Hf].
    destruct Ha as [->|Ha]; [lra|]. rewrite Forall_forall in Hf.
    assert (H : nltb (s_time b) (s_time a) = true) by (apply Hf, in_map, Ha). num.
  - destruct (last_opt s) as [e|] eqn:E; [|apply last_opt_none in E; subst; destruct Ha].
    apply last_opt_some in E as [s' ->]. unfold times in Hi. rewrite map_app in Hi.
    apply increasing_app in Hi as (_ & _ & H). apply in_app_or in Ha as [Ha|[->|[]]]; [|lra].
    assert (H' : nltb (s_time a) (s_time e) = true) by (apply H; [apply in_map, Ha|left; reflexivity]). num.
Qed.

Lemma all_num_In (s : signal F) a : all_num (times s) -> In a s -> isnum (s_time a) = true.
Proof. intros H Ha. unfold all_num in H. rewrite Forall_forall in H. apply H, in_map, Ha. Qed.

Lemma at_range_check_false (s : signal F) t : all_num (times s) -> increasing (times s) -> s <> [] ->
  nltb t (begin_time s) && nltb (end_time s) t = false.
Proof.
  intros Hn Hi Hne. destruct s as [|a s]; [congruence|].
  destruct (nltb t (begin_time (a :: s))) eqn:E1; [|reflexivity]. cbn [andb].
  destruct (nltb (end_time (a :: s)) t) eqn:E2; [|reflexivity].
  pose proof (begin_le_end (a :: s) a Hn Hi (or_introl eq_refl)). num.
Qed.

Lemma at_hit (s : signal F) a t : all_num (times s) -> increasing (times s) ->
  In a s -> neqb (s_time a) t = true -> at_time s t = Ok a.
Proof.
  intros Hn Hi Ha Ht. unfold at_time.
  rewrite at_range_check_false by (auto; intros ->; destruct Ha).
  assert (Htn : isnum t = true) by (num_hyps; assumption).
  destruct (split_at s t Hn Hi Htn) as (l1 & l2 & -> & H1 & H2).
  rewrite lower_bound_split by assumption. cbn [bind].
  rewrite Forall_forall in H1, H2.
  apply in_app_or in Ha as [Ha|Ha]; [specialize (H1 a Ha); num|].
  destruct l2 as [|b l2]; [destruct Ha|]. rewrite nth_error_split_head.
  destruct Ha as [->|Ha]; [rewrite Ht; reflexivity|].
  exfalso. unfold times in Hi. rewrite map_app in Hi. apply increasing_app in Hi as (_ & Hi & _).
  cbn in Hi. apply increasing_cons in Hi as [_ Hf]. rewrite Forall_forall in Hf.
  assert (H : nltb (s_time b) (s_time a) = true) by (apply Hf, in_map, Ha).
  specialize (H2 b (or_introl eq_refl)). num.
Qed.

(** Between two samples, and before the first one, the value is extrapolated backwards from
    the next sample. *)
Lemma at_miss (l1 : list (sample F)) b l2 t :
  all_num (times (l1 ++ b :: l2)) -> increasing (times (l1 ++ b :: l2)) ->
  isnum t = true -> nltb t (s_time b) = true -> Forall (fun a => nltb (s_time a) t = true) l1 ->
  at_time (l1 ++ b :: l2) t = Ok (mkSample t (interpolate b t) (s_deriv b)).
Proof.
  intros Hn Hi Ht Hb H1. unfold at_time.
  rewrite at_range_check_false by (auto; destruct l1; discriminate).
  rewrite lower_bound_split; auto.
  - cbn [bind]. rewrite nth_error_split_head. destruct (neqb (s_time b) t) eqn:E; [|reflexivity]. num.
  - constructor; [num|]. unfold times in Hi. rewrite map_app in Hi. apply increasing_app in Hi as (_ & Hi & _).
    cbn in Hi. apply increasing_cons in Hi as [_ Hf]. rewrite Forall_map in Hf.
    eapply Forall_impl; [|exact Hf]. cbn. intros c Hc. num.
Qed.

Lemma at_after_end (s : signal F) t : all_num (times s) -> increasing (times s) ->
  s <> [] -> nltb (end_time s) t = true -> at_time s t = UB.
Proof.
  intros Hn Hi Hne Ht. unfold at_time. rewrite at_range_check_false by auto.
  rewrite <- (app_nil_r s). rewrite lower_bound_split.
  - cbn [bind]. rewrite app_nil_r. rewrite (proj2 (nth_error_None _ _)); [reflexivity|lia].
  - rewrite Forall_forall. intros a Ha. pose proof (begin_le_end s a Hn Hi Ha).
    pose proof (all_num_In s a Hn Ha). num.
  - constructor.
Qed.

Lemma at_empty t : at_time ([] : signal F) t = UB.
Proof.
  unfold at_time. cbn. destruct (nltb t nzero) eqn:E1; [|reflexivity]. cbn.
  destruct (nltb nzero t) eqn:E2; [|reflexivity]. num.
Qed.

Lemma begin_at_spec (s : signal F) t : all_num (times s) -> increasing (times s) -> isnum t = true ->
  exists k, begin_at s t = Ok k /\ (k <= length s)%nat /\
    (forall i a, nth_error s i = Some a -> ((i < k)%nat <-> nltb (s_time a) t = true)).
Proof.
  intros Hn Hi Ht. unfold begin_at. destruct (nleb t (begin_time s)) eqn:E.
  - exists 0%nat. split; [reflexivity|]. split; [lia|]. intros i a Ha. split; [lia|].
    intros H. exfalso. apply nth_error_In in Ha. pose proof (begin_le_end s a Hn Hi Ha). num.
  - destruct (split_at s t Hn Hi Ht) as (l1 & l2 & -> & H1 & H2).
    exists (length l1). rewrite lower_bound_split by assumption. split; [reflexivity|].
    rewrite app_length. split; [lia|]. rewrite Forall_forall in H1, H2. intros i a Ha.
    destruct (Nat.ltb_spec i (length l1)) as [Hc|Hc].
    + rewrite nth_error_app1 in Ha by exact Hc. apply nth_error_In in Ha. split; auto.
    + rewrite nth_error_app2 in Ha by exact Hc. apply nth_error_In in Ha. specialize (H2 a Ha).
      split; [lia|congruence].
Qed.

Lemma end_at_in (s : signal F) t : nleb (end_time s) t = true -> end_at s t = Ok (length s).
Proof. intros H. unfold end_at. rewrite H. reflexivity. Qed.

Lemma end_at_out (s : signal F) t : nleb (end_time s) t = false -> end_at s t = UB.
Proof.
  intros H. unfold end_at. rewrite H. destruct (length s) eqn:E.
  - apply length_zero_iff_nil in E. subst. reflexivity.
  - cbn [end_at_loop]. rewrite (proj2 (nth_error_None _ _)); [reflexivity|lia].
Qed.
End Lookup.
