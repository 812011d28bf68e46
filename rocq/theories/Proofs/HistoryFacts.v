(** C01-C04. *)
From Coq Require Import Sorted.
From Verif Require Import Base Num.
From Verif.Model Require Import Signal.
From Verif.Spec Require Import SignalSpec History.
From Verif.Proofs Require Import NumFacts SignalFacts.

Section H.
Context {F : Type} `{NF : Num F}.

Lemma after_snoc (h : list (sample F)) x : after (h ++ [x]) = fst (push_back_st (after h) x).
Proof. unfold after. rewrite fold_left_app. reflexivity. Qed.

Lemma push_back_st_canon pts (x : sample F) :
  (exists p, last_opt pts = Some p /\ nleb (s_time x) (fst p) = true /\
     push_back_st (sig_of pts) x = (sig_of pts, Some InvalidArgument)) \/
  ((pts = [] \/ exists p, last_opt pts = Some p /\ nleb (s_time x) (fst p) = false) /\
     push_back_st (sig_of pts) x = (sig_of (pts ++ [(s_time x, s_value x)]), None)).
Proof.
  destruct pts as [|p pts _] using rev_ind.
  - right. split; [left; reflexivity|]. apply (push_back_st_nil x).
  - rewrite push_back_st_snoc, last_opt_snoc. destruct (nleb (s_time x) (fst p)) eqn:E.
    + left. exists p. auto.
    + right. split; [right; eauto|]. rewrite <- app_assoc. reflexivity.
Qed.

Lemma after_canon (h : list (sample F)) : exists pts, after h = sig_of pts /\ steps_ok pts = true.
Proof.
  induction h as [|x h IH] using rev_ind; [exists []; auto|].
  destruct IH as (pts & E & S). rewrite after_snoc, E.
  destruct (push_back_st_canon pts x) as [(p & H1 & H2 & ->)|[H ->]]; [exists pts; auto|].
  eexists. split; [reflexivity|]. destruct H as [-> | (p & Hl & Hp)]; [reflexivity|].
  apply last_opt_some in Hl as [pts' ->]. rewrite <- app_assoc. cbn [app]. rewrite steps_ok_snoc2, S.
  cbn [fst]. rewrite Hp. reflexivity.
Qed.

Lemma after_slopes (h : list (sample F)) : slopes_ok (after h).
Proof. destruct (after_canon h) as (pts & -> & _). apply slopes_ok_sig_of. Qed.

Lemma after_times (h : list (sample F)) (P : F -> Prop) : Forall (fun x => P (s_time x)) h ->
  Forall P (times (after h)).
Proof.
  induction h as [|x h IH] using rev_ind; intros H; [constructor|].
  apply Forall_app in H as [H1 H2]. specialize (IH H1). inversion H2; subst. rewrite after_snoc.
  destruct (after_canon h) as (pts & E & S). rewrite E in *.
  destruct (push_back_st_canon pts x) as [(p & _ & _ & ->)|[_ ->]]; [exact IH|]. cbn [fst].
  rewrite times_sig_of in *. rewrite map_app. apply Forall_app. split; [exact IH|]. repeat constructor. assumption.
Qed.

Lemma push_back_st_after (h : list (sample F)) x : let s := after h in
  (s <> [] /\ nleb (s_time x) (end_time s) = true -> push_back_st s x = (s, Some InvalidArgument)) /\
  (s = [] \/ nleb (s_time x) (end_time s) = false ->
     exists s', push_back_st s x = (s', None) /\ points s' = points s ++ [(s_time x, s_value x)]).
Proof.
  intros s. destruct (after_canon h) as (pts & E & S). unfold s. rewrite E.
  assert (Hend : forall p, last_opt pts = Some p -> end_time (sig_of pts) = fst p).
  { intros p Hp. unfold end_time. rewrite last_opt_sig_of, Hp. reflexivity. }
  assert (Hne : sig_of pts = [] -> pts = []) by (destruct pts; [auto|discriminate]).
  destruct (push_back_st_canon pts x) as [(p & H1 & H2 & ->)|[H ->]]; split.
  - auto.
  - rewrite (Hend _ H1), H2. intros [H|H]; [|discriminate]. apply Hne in H. subst. discriminate.
  - intros [N L]. destruct H as [-> | (p & Hl & Hp)]; [elim N; reflexivity|]. rewrite (Hend _ Hl) in L. congruence.
  - intros _. eexists. split; [reflexivity|]. rewrite !points_sig_of. reflexivity.
Qed.
End H.

Section O.
Context {F : Type} `{NF : Num F} {NL : NumLaws F}.

Lemma after_increasing (h : list (sample F)) :
  Forall (fun x => isnum (s_time x) = true) h -> increasing (times (after h)).
Proof.
  intros H. apply after_times with (P := fun t => isnum t = true) in H.
  destruct (after_canon h) as (pts & E & S). rewrite E in *. rewrite times_sig_of in *.
  apply increasing_steps; assumption.
Qed.

Lemma C01_lemma (h : list (sample F)) : Forall (fun x => isnum (s_time x) = true) h ->
  let s := after h in
  increasing (times s) /\
  forall x,
    (s <> [] /\ nleb (s_time x) (end_time s) = true -> push_back_st s x = (s, Some InvalidArgument) /\ push_back s x = Throw InvalidArgument) /\
    (s = [] \/ nleb (s_time x) (end_time s) = false ->
       exists s', push_back_st s x = (s', None) /\ push_back s x = Ok s' /\ points s' = points s ++ [(s_time x, s_value x)]).
Proof.
  intros H s. split; [apply after_increasing, H|]. intros x. destruct (push_back_st_after h x) as [A B]. fold s in A, B.
  unfold push_back. split.
  - intros K. rewrite (A K). split; reflexivity.
  - intros K. destruct (B K) as (s' & E & P). exists s'. rewrite E. repeat split; assumption.
Qed.

Lemma C02_accepts (h : list (sample F)) x : isnum (s_time x) = false ->
  exists s', push_back_st (after h) x = (s', None) /\ points s' = points (after h) ++ [(s_time x, s_value x)].
Proof. intros H. apply push_back_st_after. right. apply nleb_nan_l. exact H. Qed.

Lemma C04_lemma (ps ts : list F) : all_num ts ->
  (length ps <> length ts \/ ~ increasing ts -> from_vectors ps ts = Throw InvalidArgument) /\
  (length ps = length ts -> increasing ts ->
     exists s, from_vectors ps ts = Ok s /\ points s = combine ts ps /\ from_samples s = Ok s).
Proof.
  intros N. assert (Efst : length ps = length ts -> map fst (combine ts ps) = ts).
  { clear. revert ps. induction ts as [|t ts IH]; intros [|p ps] H; try discriminate; [reflexivity|].
    cbn. f_equal. apply IH. injection H; auto. }
  destruct (Nat.eq_dec (length ps) (length ts)) as [E|E].
  - specialize (Efst E). rewrite (from_vectors_canon _ _ E). split.
    + intros [H|H]; [contradiction|]. destruct (steps_ok (combine ts ps)) eqn:S; [|reflexivity].
      elim H. rewrite <- Efst. apply increasing_steps; [rewrite Efst; exact N|exact S].
    + intros _ I. assert (S : steps_ok (combine ts ps) = true) by (apply increasing_steps; rewrite Efst; assumption).
      rewrite S. eexists. split; [reflexivity|]. rewrite points_sig_of. split; [reflexivity|].
      rewrite from_samples_canon, points_sig_of, S. reflexivity.
  - split; [|intros; contradiction]. intros _. unfold from_vectors. rewrite (proj2 (Nat.eqb_neq _ _) E). reflexivity.
Qed.
End O.
