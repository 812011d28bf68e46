(** Elementwise and rolling min/max: order facts that hold for every number type with [NumLaws]. *)
From Coq Require Import Sorted Reals Lra.
From Verif Require Import Base Num.
From Verif.Model Require Import Signal MinMax.
From Verif.Spec Require Import SignalSpec.
From Verif.Proofs Require Import NumFacts SignalFacts LowerBound Reshape Sync SyncProps.

Section G.
Context {F : Type} `{NF : Num F} {NL : NumLaws F}.
Variable comp : sample F -> sample F -> bool.

Definition pt (a : sample F) : F * F := (s_time a, s_value a).
Definition pick (i j : sample F) : sample F := if comp i j then i else j.

Lemma all_num_app (a b : list F) : all_num (a ++ b) <-> all_num a /\ all_num b.
Proof. apply Forall_app. Qed.

Lemma push_back_inv pts x z : wfp pts -> isnum (s_time x) = true -> push_back (sig_of pts) x = Ok z ->
  z = sig_of (pts ++ [pt x]) /\ wfp (pts ++ [pt x]).
Proof.
  intros W N H. rewrite push_back_canon in H by (apply wfp_steps, W).
  destruct (steps_ok (pts ++ [(s_time x, s_value x)])) eqn:E; [|discriminate]. injection H as <-.
  split; [reflexivity|]. assert (A : all_num (map fst (pts ++ [pt x]))).
  { rewrite map_app. apply all_num_app. split; [apply W|]. repeat constructor. exact N. }
  split; [exact A|]. apply increasing_steps; assumption.
Qed.

Lemma pair_step_inv pts sw pw pl win z : wfp pts -> isnum (s_time win) = true ->
  pair_step (sig_of pts) sw pw pl win = Ok z ->
  exists extra, z = sig_of (pts ++ extra ++ [pt win]) /\ wfp (pts ++ extra ++ [pt win]).
Proof.
  intros W N H. unfold pair_step in H. apply bind_ok_inv in H as (o & H1 & H2).
  destruct sw; cycle 1.
  { injection H1 as <-. exists []. apply push_back_inv in H2 as [-> ?]; auto. }
  destruct pl as [pl|]; [|discriminate]. destruct pw as [pw|]; [|discriminate].
  destruct (nltb _ _) eqn:E; cbn [andb] in H1; cycle 1.
  { injection H1 as <-. exists []. apply push_back_inv in H2 as [-> ?]; auto. }
  destruct (negb _); cycle 1.
  { injection H1 as <-. exists []. apply push_back_inv in H2 as [-> ?]; auto. }
  apply push_back_inv in H1 as [-> W1]; auto; [|apply nltb_true in E; apply E].
  apply push_back_inv in H2 as [-> W2]; auto. rewrite <- app_assoc in *. eexists [_]. split; [reflexivity|exact W2].
Qed.

Lemma pair_loop_inv : forall xs ys pi pj last pts z, wfp pts ->
  all_num (times xs) -> all_num (times ys) ->
  pair_loop comp pi pj xs ys last (sig_of pts) = Ok z ->
  exists pts', z = sig_of (pts ++ pts') /\ wfp (pts ++ pts') /\
    forall i j, In (i, j) (combine xs ys) -> In (pt (pick i j)) pts'.
Proof.
  induction xs as [|i xs IH]; intros ys pi pj last pts z W Nx Ny H.
  { injection H as <-. exists []. rewrite app_nil_r. split; [reflexivity|]. split; [exact W|]. intros i j []. }
  destruct ys as [|j ys].
  { injection H as <-. exists []. rewrite app_nil_r. split; [reflexivity|]. split; [exact W|]. intros i' j []. }
  cbn [pair_loop] in H. inversion Nx as [|? ? N1 N2]; subst. inversion Ny as [|? ? N3 N4]; subst.
  assert (S : exists o, pair_loop comp (Some i) (Some j) xs ys (if comp i j then ChX else ChY) o = Ok z /\
     exists e, o = sig_of (pts ++ e ++ [pt (pick i j)]) /\ wfp (pts ++ e ++ [pt (pick i j)])).
  { unfold pick. destruct (comp i j); apply bind_ok_inv in H as (o & H1 & H2); apply pair_step_inv in H1; auto; eauto. }
  destruct S as (o & H2 & e & -> & W').
  destruct (IH _ _ _ _ _ _ W' N2 N4 H2) as (p & -> & W2 & Hin).
  exists (e ++ [pt (pick i j)] ++ p). rewrite !app_assoc in *. split; [reflexivity|]. split; [exact W2|].
  intros i' j' [E|Hc].
  - injection E as <- <-. rewrite <- app_assoc. apply in_or_app. right. left. reflexivity.
  - apply in_or_app. right. apply Hin, Hc.
Qed.

(** ** When does the loop throw?  Only if a computed crossing lies after the next sample. *)
Fixpoint crossings_ok (i j : sample F) (xs ys : list (sample F)) : Prop :=
  match xs, ys with
  | i' :: xs', j' :: ys' =>
      (comp i j = true -> comp i' j' = false -> nltb (s_time j') (time_intersect i j) = false) /\
      (comp i j = false -> comp i' j' = true -> nltb (s_time i') (time_intersect j i) = false) /\
      crossings_ok i' j' xs' ys'
  | _, _ => True
  end.

Lemma wfp_snoc pts x : wfp pts -> isnum (s_time x) = true -> pts <> [] ->
  (nltb (end_time (sig_of pts)) (s_time x) = true -> wfp (pts ++ [pt x])).
Proof.
  intros W N Hne L. assert (A : all_num (map fst (pts ++ [pt x]))).
  { rewrite map_app. apply all_num_app. split; [apply W|]. repeat constructor. exact N. }
  split; [exact A|]. apply increasing_steps; [exact A|].
  destruct pts as [|p pts _] using rev_ind; [congruence|].
  rewrite <- app_assoc. cbn [app]. rewrite steps_ok_snoc2. apply andb_true_intro. split; [apply wfp_steps, W|].
  unfold end_time in L. rewrite last_opt_sig_of, last_opt_snoc in L. cbn in L.
  apply negb_true_iff. cbn. num.
Qed.

Lemma end_snoc pts x : end_time (sig_of (pts ++ [pt x])) = s_time x.
Proof. unfold end_time. rewrite last_opt_sig_of, last_opt_snoc. reflexivity. Qed.

Lemma push_back_ok pts x : wfp pts -> pts <> [] -> nltb (end_time (sig_of pts)) (s_time x) = true ->
  push_back (sig_of pts) x = Ok (sig_of (pts ++ [pt x])) /\ wfp (pts ++ [pt x]).
Proof.
  intros W Hne L. assert (N : isnum (s_time x) = true) by (apply nltb_true in L; apply L).
  pose proof (wfp_snoc _ _ W N Hne L) as W'. split; [|exact W']. apply push_back_wfp, W'.
Qed.

Lemma pair_step_ok pts sw pw pl win : wfp pts -> pts <> [] ->
  nltb (end_time (sig_of pts)) (s_time win) = true ->
  (sw = true -> nltb (s_time win) (time_intersect pl pw) = false) ->
  exists extra, pair_step (sig_of pts) sw (Some pw) (Some pl) win = Ok (sig_of (pts ++ extra ++ [pt win])) /\
    wfp (pts ++ extra ++ [pt win]).
Proof.
  intros W Hne L X. unfold pair_step. destruct sw; cycle 1.
  { exists []. cbn [bind app]. apply push_back_ok; auto. }
  specialize (X eq_refl). set (it := time_intersect pl pw) in *.
  destruct (nltb (end_time (sig_of pts)) it) eqn:E; cbn [andb]; cycle 1.
  { exists []. cbn [bind app]. apply push_back_ok; auto. }
  destruct (neqb it (s_time win)) eqn:E2; cbn [negb].
  { exists []. cbn [bind app]. apply push_back_ok; auto. }
  set (c := mkSample it _ _). destruct (push_back_ok pts c) as [P1 P2]; auto.
  rewrite P1. cbn [bind]. destruct (push_back_ok (pts ++ [pt c]) win) as [P3 P4]; auto.
  { intros Q. apply app_eq_nil in Q as [_ Q]. discriminate. }
  { rewrite end_snoc. cbn [c s_time]. assert (isnum it = true /\ isnum (s_time win) = true) as [? ?].
    { apply nltb_true in E, L. tauto. }
    assert (~ rk (s_time win) = rk it) by (intros Q; apply neqb_false in E2; auto).
    apply nltb_false in X; auto. apply nltb_true. repeat split; auto. lra. }
  rewrite P3. exists [pt c]. rewrite <- app_assoc in *. auto.
Qed.

Lemma pair_step_throw pts pw pl win : wfp pts -> pts <> [] ->
  nltb (end_time (sig_of pts)) (s_time win) = true -> nltb (s_time win) (time_intersect pl pw) = true ->
  pair_step (sig_of pts) true (Some pw) (Some pl) win = Throw InvalidArgument.
Proof.
  intros W Hne L X. unfold pair_step. set (it := time_intersect pl pw) in *.
  assert (E : nltb (end_time (sig_of pts)) it = true) by num.
  assert (E2 : neqb it (s_time win) = false) by num. rewrite E, E2. cbn [andb negb].
  set (c := mkSample it _ _). destruct (push_back_ok pts c) as [P1 P2]; auto. rewrite P1. cbn [bind].
  change (sig_of (pts ++ [pt c])) with (sig_of (pts ++ [pt c])).
  rewrite push_back_snoc. cbn [pt fst c s_time]. assert (nleb (s_time win) it = true) as -> by num. reflexivity.
Qed.

Definition same_times (x y : list (sample F)) : Prop := Forall2 (fun a b => neqb (s_time a) (s_time b) = true) x y.

Lemma wfp_nonempty_app (p e : list (F * F)) x : p ++ e ++ [pt x] <> [].
Proof. destruct p; [destruct e|]; discriminate. Qed.

Lemma pair_loop_total : forall xs ys i j pts,
  wfp pts -> pts <> [] -> end_time (sig_of pts) = s_time (pick i j) -> neqb (s_time i) (s_time j) = true ->
  same_times xs ys -> increasing (times (i :: xs)) -> all_num (times (i :: xs)) ->
  (crossings_ok i j xs ys /\ exists z, pair_loop comp (Some i) (Some j) xs ys (if comp i j then ChX else ChY) (sig_of pts) = Ok z) \/
  (~ crossings_ok i j xs ys /\ pair_loop comp (Some i) (Some j) xs ys (if comp i j then ChX else ChY) (sig_of pts) = Throw InvalidArgument).
Proof.
  induction xs as [|i' xs IH]; intros ys i j pts W Hne He Eij S I N.
  { inversion S; subst. left. split; [exact Logic.I|]. eexists. reflexivity. }
  inversion S as [|? j' ? ys' Eij' S']; subst. cbn [pair_loop crossings_ok].
  cbn [times map] in I, N. apply increasing_cons2 in I as [L I].
  assert (N' : all_num (times (i' :: xs))) by (inversion N; assumption).
  assert (L1 : nltb (end_time (sig_of pts)) (s_time i') = true) by (rewrite He; unfold pick; destruct (comp i j); num).
  assert (L2 : nltb (end_time (sig_of pts)) (s_time j') = true) by (rewrite He; unfold pick; destruct (comp i j); num).
  destruct (comp i' j') eqn:C'.
  - destruct (comp i j) eqn:C.
    + cbn [chosen_eqb]. destruct (pair_step_ok pts false i j i' W Hne L1) as (e & -> & W'); [discriminate|]. cbn [bind chosen_eqb].
      destruct (IH ys' i' j' _ W') as [[K [z Z]]|[K Z]]; auto; try apply wfp_nonempty_app.
      { unfold pick. rewrite C', app_assoc. apply end_snoc. }
      * left. rewrite C' in Z. split; [|eauto]. repeat split; auto; intros; discriminate.
      * right. rewrite C' in Z. split; [tauto|exact Z].
    + cbn [chosen_eqb]. destruct (nltb (s_time i') (time_intersect j i)) eqn:X.
      * right. split; [intros (_ & Q & _); discriminate (Q eq_refl eq_refl)|]. rewrite pair_step_throw; auto.
      * destruct (pair_step_ok pts true i j i' W Hne L1) as (e & -> & W'); [auto|]. cbn [bind].
        destruct (IH ys' i' j' _ W') as [[K [z Z]]|[K Z]]; auto; try apply wfp_nonempty_app.
        { unfold pick. rewrite C', app_assoc. apply end_snoc. }
        -- left. rewrite C' in Z. split; [|eauto]. repeat split; auto; intros; discriminate.
        -- right. rewrite C' in Z. split; [tauto|exact Z].
  - destruct (comp i j) eqn:C.
    + cbn [chosen_eqb]. destruct (nltb (s_time j') (time_intersect i j)) eqn:X.
      * right. split; [intros (Q & _); discriminate (Q eq_refl eq_refl)|]. rewrite pair_step_throw; auto.
      * destruct (pair_step_ok pts true j i j' W Hne L2) as (e & -> & W'); [auto|]. cbn [bind].
        destruct (IH ys' i' j' _ W') as [[K [z Z]]|[K Z]]; auto; try apply wfp_nonempty_app.
        { unfold pick. rewrite C', app_assoc. apply end_snoc. }
        -- left. rewrite C' in Z. split; [|eauto]. repeat split; auto; intros; discriminate.
        -- right. rewrite C' in Z. split; [tauto|exact Z].
    + cbn [chosen_eqb]. destruct (pair_step_ok pts false j i j' W Hne L2) as (e & -> & W'); [discriminate|]. cbn [bind chosen_eqb].
      destruct (IH ys' i' j' _ W') as [[K [z Z]]|[K Z]]; auto; try apply wfp_nonempty_app.
      { unfold pick. rewrite C', app_assoc. apply end_snoc. }
      * left. rewrite C' in Z. split; [|eauto]. repeat split; auto; intros; discriminate.
      * right. rewrite C' in Z. split; [tauto|exact Z].
Qed.

Lemma pair_loop_start i j xs ys : neqb (s_time i) (s_time j) = true ->
  pair_loop comp None None (i :: xs) (j :: ys) ChNone [] =
  pair_loop comp (Some i) (Some j) xs ys (if comp i j then ChX else ChY) (sig_of [pt (pick i j)]).
Proof.
  intros _. cbn [pair_loop]. unfold pick, pair_step. destruct (comp i j); cbn [chosen_eqb bind]; rewrite push_back_nil; reflexivity.
Qed.
End G.
