(** Canonical form of signals: points with computed slopes. *)
From Coq Require Import Sorted Reals Lra.
From Verif Require Import Base Num.
From Verif.Model Require Import Signal.
From Verif.Spec Require Import SignalSpec.
From Verif.Proofs Require Import NumFacts.

Section Canon.
Context {F : Type} `{NF : Num F}.

Definition slope (p q : F * F) : F := ndiv (nsub (snd q) (snd p)) (nsub (fst q) (fst p)).

Fixpoint sig_of (pts : list (F * F)) : signal F :=
  match pts with
  | [] => []
  | p :: r =>
      mkSample (fst p) (snd p) (match r with [] => nzero | q :: _ => slope p q end) :: sig_of r
  end.

(** Consecutive points pass the check of push_back. *)
Fixpoint steps_ok (pts : list (F * F)) : bool :=
  match pts with
  | [] => true
  | p :: r => match r with [] => true | q :: _ => negb (nleb (fst q) (fst p)) end && steps_ok r
  end.

Lemma points_sig_of pts : points (sig_of pts) = pts.
Proof. induction pts as [|[t v] r IH]; cbn; [|f_equal]; auto. Qed.

Lemma times_sig_of pts : times (sig_of pts) = map fst pts.
Proof. induction pts as [|p r IH]; cbn; [|f_equal]; auto. Qed.

Lemma values_sig_of pts : values (sig_of pts) = map snd pts.
Proof. induction pts as [|p r IH]; cbn; [|f_equal]; auto. Qed.

Lemma times_points (s : signal F) : times s = map fst (points s).
Proof. unfold times, points. rewrite map_map. reflexivity. Qed.

Lemma values_points (s : signal F) : values s = map snd (points s).
Proof. unfold values, points. rewrite map_map. reflexivity. Qed.

Lemma length_sig_of pts : length (sig_of pts) = length pts.
Proof. induction pts; cbn; auto. Qed.

Lemma length_points (s : signal F) : length (points s) = length s.
Proof. apply map_length. Qed.

Lemma slopes_ok_sig_of pts : slopes_ok (sig_of pts).
Proof. induction pts as [|p [|q r] IH]; cbn in *; auto. Qed.

Lemma slopes_ok_canon s : slopes_ok s -> s = sig_of (points s).
Proof.
  induction s as [|a s IH]; [reflexivity|]. intros [Hd Hs]. specialize (IH Hs).
  unfold points in *. cbn. rewrite <- IH.
  destruct a as [t v d]; cbn in *. f_equal. f_equal. destruct s as [|b s']; cbn in *; exact Hd.
Qed.

Lemma last_opt_sig_of pts :
  last_opt (sig_of pts) = option_map (fun p => mkSample (fst p) (snd p) nzero) (last_opt pts).
Proof. induction pts as [|p [|q r] IH]; cbn in *; auto. Qed.

Lemma removelast_sig_of_snoc2 pts p q :
  sig_of (pts ++ [p; q]) =
  removelast (sig_of (pts ++ [p])) ++
    [mkSample (fst p) (snd p) (slope p q); mkSample (fst q) (snd q) nzero].
Proof.
  induction pts as [|a r IH]; [reflexivity|]. cbn [app sig_of]. rewrite IH.
  destruct (sig_of (r ++ [p])) eqn:E.
  { destruct r; discriminate. }
  cbn [removelast app]. f_equal. f_equal. destruct r; reflexivity.
Qed.

Lemma push_back_st_nil x : push_back_st ([] : signal F) x = (sig_of [(s_time x, s_value x)], None).
Proof. reflexivity. Qed.

Lemma push_back_st_snoc pts p x :
  push_back_st (sig_of (pts ++ [p])) x =
  if nleb (s_time x) (fst p) then (sig_of (pts ++ [p]), Some InvalidArgument)
  else (sig_of (pts ++ [p; (s_time x, s_value x)]), None).
Proof.
  unfold push_back_st. rewrite last_opt_sig_of, last_opt_snoc. cbn [option_map s_time s_value].
  destruct (nleb (s_time x) (fst p)); [reflexivity|]. rewrite removelast_sig_of_snoc2. reflexivity.
Qed.

Lemma push_back_snoc pts p x :
  push_back (sig_of (pts ++ [p])) x =
  if nleb (s_time x) (fst p) then Throw InvalidArgument
  else Ok (sig_of (pts ++ [p; (s_time x, s_value x)])).
Proof. unfold push_back. rewrite push_back_st_snoc. destruct (nleb _ _); reflexivity. Qed.

Lemma push_back_single p x :
  push_back (sig_of [p]) x =
  if nleb (s_time x) (fst p) then Throw InvalidArgument
  else Ok (sig_of [p; (s_time x, s_value x)]).
Proof. exact (push_back_snoc [] p x). Qed.

Lemma push_back_nil x : push_back ([] : signal F) x = Ok (sig_of [(s_time x, s_value x)]).
Proof. reflexivity. Qed.

Lemma steps_ok_snoc2 pts p q :
  steps_ok (pts ++ [p; q]) = steps_ok (pts ++ [p]) && negb (nleb (fst q) (fst p)).
Proof.
  induction pts as [|a r IH]; cbn.
  - rewrite !andb_true_r. reflexivity.
  - rewrite IH. rewrite andb_assoc. f_equal. f_equal. destruct r; reflexivity.
Qed.

Lemma steps_ok_app_l p q : steps_ok (p ++ q) = true -> steps_ok p = true.
Proof.
  induction p as [|a [|b r] IH]; cbn in *; auto. rewrite !andb_true_iff in *. intuition.
Qed.

Lemma push_back_canon pts x :
  steps_ok pts = true ->
  push_back (sig_of pts) x =
  if steps_ok (pts ++ [(s_time x, s_value x)]) then Ok (sig_of (pts ++ [(s_time x, s_value x)]))
  else Throw InvalidArgument.
Proof.
  intros H. destruct pts as [|p pts _] using rev_ind; [reflexivity|].
  rewrite push_back_snoc. rewrite <- app_assoc. cbn [app]. rewrite steps_ok_snoc2, H. cbn.
  destruct (nleb _ _); reflexivity.
Qed.

Lemma push_all_canon l : forall pts, steps_ok pts = true ->
  push_all (sig_of pts) l =
  if steps_ok (pts ++ points l) then Ok (sig_of (pts ++ points l)) else Throw InvalidArgument.
Proof.
  induction l as [|a l IH]; intros pts H.
  - cbn. rewrite app_nil_r, H. reflexivity.
  - cbn [push_all]. rewrite push_back_canon by exact H.
    destruct (steps_ok (pts ++ [(s_time a, s_value a)])) eqn:E; cbn [bind].
    + rewrite IH by exact E. rewrite <- app_assoc. reflexivity.
    + change (points (a :: l)) with ([(s_time a, s_value a)] ++ points l). rewrite app_assoc.
      destruct (steps_ok ((pts ++ [(s_time a, s_value a)]) ++ points l)) eqn:E2; [|reflexivity].
      apply steps_ok_app_l in E2. congruence.
Qed.

Lemma from_samples_canon l :
  from_samples l = if steps_ok (points l) then Ok (sig_of (points l)) else Throw InvalidArgument.
Proof. apply (push_all_canon l []). reflexivity. Qed.

Lemma from_vectors_canon pts tms : length pts = length tms ->
  from_vectors pts tms =
  if steps_ok (combine tms pts) then Ok (sig_of (combine tms pts)) else Throw InvalidArgument.
Proof.
  intros H. unfold from_vectors. rewrite (proj2 (Nat.eqb_eq _ _) H). cbn [negb].
  rewrite from_samples_canon. unfold points. rewrite map_map. cbn [s_time s_value].
  erewrite map_ext with (g := fun x => x); [rewrite map_id; reflexivity|]. intros []; reflexivity.
Qed.
End Canon.

Section Order.
Context {F : Type} `{NF : Num F} {NL : NumLaws F}.
Local Open Scope R_scope.

Lemma increasing_cons t ts :
  increasing (t :: ts) <-> increasing ts /\ Forall (fun u => nltb t u = true) ts.
Proof. split; [inversion 1; auto|]. intros [H1 H2]. constructor; auto. Qed.

Lemma increasing_cons2 t u ts :
  increasing (t :: u :: ts) <-> nltb t u = true /\ increasing (u :: ts).
Proof.
  rewrite increasing_cons. split; intros [H1 H2].
  - split; [|exact H1]. inversion H2; assumption.
  - split; [exact H2|]. apply increasing_cons in H2 as [H2 H3]. constructor; [exact H1|].
    eapply Forall_impl; [|exact H3]. intros a Ha. cbn in Ha. num.
Qed.

Lemma increasing_steps pts : all_num (map fst pts) ->
  (steps_ok pts = true <-> increasing (map fst pts)).
Proof.
  induction pts as [|p [|q r] IH]; intros Hn.
  - split; constructor.
  - split; [|reflexivity]. intros _. repeat constructor.
  - inversion Hn as [|? ? Hp Hn']; subst. specialize (IH Hn'). inversion Hn' as [|? ? Hq ?]; subst.
    cbn [map]. rewrite increasing_cons2. cbn [map] in IH. rewrite <- IH.
    cbn [steps_ok]. rewrite (andb_true_iff (negb _)). cbn [steps_ok].
    assert (negb (nleb (fst q) (fst p)) = true <-> nltb (fst p) (fst q) = true) as ->; [|reflexivity].
    split; intros; num_hyps; num. apply negb_true_iff. num.
Qed.

Lemma increasing_num2 t u ts : increasing (t :: u :: ts) -> all_num (t :: u :: ts).
Proof.
  intros H. apply increasing_cons in H as [_ H]. constructor.
  - inversion H; subst. num_hyps. assumption.
  - eapply Forall_impl; [|exact H]. intros a Ha. cbn in Ha. num_hyps. assumption.
Qed.

Lemma increasing_app ts us : increasing (ts ++ us) <->
  increasing ts /\ increasing us /\ (forall a b, In a ts -> In b us -> nltb a b = true).
Proof.
  induction ts as [|t ts IH]; cbn [app].
  - split; intros H; [|tauto]. split; [constructor|]. split; [exact H|]. intros a b [].
  - rewrite !increasing_cons, IH, Forall_app, !Forall_forall. split; intros H.
    + destruct H as ((H1 & H2 & H3) & H4 & H5). repeat split; auto. intros a b [->|Ha] Hb; auto.
    + destruct H as ((H1 & H2) & H3 & H4). repeat split; auto; intros; apply H4; cbn; auto.
Qed.

(** Canonical form of well-formed signals. *)
Definition wfp (pts : list (F * F)) : Prop := all_num (map fst pts) /\ increasing (map fst pts).

Lemma wf_canon s : wf s <-> exists pts, wfp pts /\ s = sig_of pts.
Proof.
  split.
  - intros (Hn & Hi & Hs). exists (points s). rewrite times_points in *. split; [split; assumption|].
    apply slopes_ok_canon, Hs.
  - intros (pts & (Hn & Hi) & ->). unfold wf. rewrite times_sig_of. split; [exact Hn|]. split; [exact Hi|].
    apply slopes_ok_sig_of.
Qed.

Lemma wfp_steps pts : wfp pts -> steps_ok pts = true.
Proof. intros [Hn Hi]. apply increasing_steps; assumption. Qed.

Lemma from_samples_ok l : all_num (times l) -> increasing (times l) ->
  from_samples l = Ok (sig_of (points l)).
Proof.
  intros Hn Hi. rewrite from_samples_canon. rewrite times_points in *.
  rewrite (proj2 (increasing_steps _ Hn) Hi). reflexivity.
Qed.

Lemma from_samples_wf l s : all_num (times l) -> from_samples l = Ok s ->
  wf s /\ points s = points l /\ increasing (times l).
Proof.
  intros Hn. rewrite from_samples_canon. rewrite times_points in *.
  destruct (steps_ok (points l)) eqn:E; [|discriminate]. intros [= <-].
  rewrite points_sig_of. apply increasing_steps in E; [|exact Hn]. split; [|auto].
  apply wf_canon. exists (points l). repeat split; assumption.
Qed.

Lemma from_samples_self s : wf s -> from_samples s = Ok s.
Proof.
  intros Hw. pose proof Hw as (Hn & Hi & Hs). rewrite from_samples_ok by assumption.
  f_equal. symmetry. apply slopes_ok_canon, Hs.
Qed.

Lemma wf_cons a s : wf (a :: s) -> wf s.
Proof.
  intros (Hn & Hi & [_ Hs]). inversion Hn; subst. apply increasing_cons in Hi as [Hi _].
  repeat split; assumption.
Qed.
End Order.
