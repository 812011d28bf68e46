(** C15-C20 from the lemmas of Sync and SyncExact. *)
From Coq Require Import Sorted Reals Lra.
From Flocq Require Import Core.Raux.
From Verif Require Import Base Num NumXR.
From Verif.Model Require Import Signal.
From Verif.Spec Require Import SignalSpec Pwl.
From Verif.Proofs Require Import NumFacts SignalFacts LowerBound Reshape Sync PwlFacts SyncExact.

Section S.
Context {F : Type} `{NF : Num F} {NL : NumLaws F}.

Lemma wf_fine s : wf s -> fine s.
Proof. intros (A & B & _). split; assumption. Qed.

Lemma meets_split x y : fine x -> fine y -> meets x y ->
  exists x1 i xs y1 j ys, x = x1 ++ i :: xs /\ y = y1 ++ j :: ys /\ neqb (s_time i) (s_time j) = true /\ (x1 = [] \/ y1 = []).
Proof.
  intros Fx Fy (a & b & Ha & Hb & E & [H|H]).
  - destruct x as [|c x]; [discriminate|]. injection H as ->.
    apply in_split in Hb as (y1 & y2 & ->). exists [], a, x, y1, b, y2. auto.
  - destruct y as [|c y]; [discriminate|]. injection H as ->.
    apply in_split in Ha as (x1 & x2 & ->). exists x1, a, x2, [], b, y. auto.
Qed.

Lemma ok_meets x y r : fine x -> fine y -> synchronize x y = Ok r -> meets x y.
Proof.
  intros Fx Fy H. destruct x as [|x0 x]; [rewrite sync_empty_l in H; discriminate|].
  destruct y as [|y0 y]; [rewrite sync_empty_r in H; discriminate|].
  destruct (overlap_cases (x0 :: x) (y0 :: y)) as [x1 i xs y1 j ys Ex Ey E Hb|D|x1 p i xs j ys Ex Ey L1 L2|y1 p j ys i xs Ex Ey L1 L2]; auto; try discriminate.
  - exists i, j. rewrite Ex, Ey. repeat split; auto; try (apply in_or_app; right; left; reflexivity).
    destruct Hb as [-> | ->]; [left|right]; reflexivity.
  - rewrite sync_ub_disjoint in H; auto; discriminate.
  - rewrite Ex, Ey in H. rewrite sync_throw_inside in H; congruence.
  - rewrite Ex, Ey in H. rewrite sync_ub_inside in H; congruence.
Qed.

Lemma sync_iff x y : wf x -> wf y -> ((exists r, synchronize x y = Ok r) <-> meets x y).
Proof.
  intros Wx Wy. apply wf_fine in Wx, Wy. split.
  - intros [r H]. eapply ok_meets; eauto.
  - intros M. destruct (meets_split _ _ Wx Wy M) as (x1 & i & xs & y1 & j & ys & -> & -> & E & Hb).
    destruct (sync_ok x1 i xs y1 j ys Wx Wy E Hb) as (l & _ & ->). eauto.
Qed.

Lemma sync_not_ok x y : wf x -> wf y -> x <> [] -> y <> [] -> ~ meets x y ->
  (disjoint x y -> synchronize x y = UB) /\
  (~ disjoint x y -> nltb (begin_time x) (begin_time y) = true -> synchronize x y = Throw InvalidArgument) /\
  (~ disjoint x y -> nltb (begin_time y) (begin_time x) = true -> synchronize x y = UB).
Proof.
  intros Wx Wy Nx Ny NM. apply wf_fine in Wx, Wy.
  assert (D : disjoint x y -> synchronize x y = UB) by (intros; apply sync_ub_disjoint; auto).
  split; [exact D|].
  destruct (overlap_cases x y) as [x1 i xs y1 j ys Ex Ey E Hb|D'|x1 p i xs j ys Ex Ey L1 L2|y1 p j ys i xs Ex Ey L1 L2]; auto.
  - elim NM. exists i, j. rewrite Ex, Ey. repeat split; auto; try (apply in_or_app; right; left; reflexivity).
    destruct Hb as [-> | ->]; [left|right]; reflexivity.
  - split; intros H; elim H; exact D'.
  - subst. rewrite sync_throw_inside by auto. split; [auto|]. intros _ L. exfalso.
    cbn [begin_time] in L. assert (Hx : In p (x1 ++ p :: i :: xs)) by (apply in_or_app; right; left; reflexivity).
    pose proof (begin_le_end _ p (proj1 Wx) (proj2 Wx) Hx) as [B _].
    pose proof (begin_num _ Wx Nx). num_hyps. lra.
  - subst. rewrite sync_ub_inside by auto. split; [|auto]. intros _ L. exfalso.
    cbn [begin_time] in L. assert (Hy : In p (y1 ++ p :: j :: ys)) by (apply in_or_app; right; left; reflexivity).
    pose proof (begin_le_end _ p (proj1 Wy) (proj2 Wy) Hy) as [B _].
    num_hyps. lra.
Qed.

Lemma sync_not_hang x y : wf x -> wf y -> synchronize x y <> Hang /\ synchronize x y <> AssertFail.
Proof.
  intros Wx Wy. destruct x as [|x0 x]; [rewrite sync_empty_l; split; discriminate|].
  destruct y as [|y0 y]; [rewrite sync_empty_r; split; discriminate|].
  apply wf_fine in Wx, Wy.
  destruct (overlap_cases (x0 :: x) (y0 :: y)) as [x1 i xs y1 j ys Ex Ey E Hb|D|x1 p i xs j ys Ex Ey L1 L2|y1 p j ys i xs Ex Ey L1 L2]; auto; try discriminate.
  - rewrite Ex, Ey in *. destruct (sync_ok x1 i xs y1 j ys) as (l & _ & ->); auto. split; discriminate.
  - rewrite sync_ub_disjoint by (auto; discriminate). split; discriminate.
  - rewrite Ex, Ey in *. rewrite sync_throw_inside by auto. split; discriminate.
  - rewrite Ex, Ey in *. rewrite sync_ub_inside by auto. split; discriminate.
Qed.

(** What a successful call looks like. *)
Lemma sync_inv x y x' y' : fine x -> fine y -> synchronize x y = Ok (x', y') ->
  exists x1 i xs y1 j ys l, x = x1 ++ i :: xs /\ y = y1 ++ j :: ys /\ neqb (s_time i) (s_time j) = true /\
    (x1 = [] \/ y1 = []) /\ merged i xs j ys l /\
    x' = sig_of (points (i :: map fst l)) /\ y' = sig_of (points (j :: map snd l)).
Proof.
  intros Fx Fy H. destruct (meets_split _ _ Fx Fy (ok_meets _ _ _ Fx Fy H)) as (x1 & i & xs & y1 & j & ys & -> & -> & E & Hb).
  destruct (sync_ok x1 i xs y1 j ys Fx Fy E Hb) as (l & M & K). rewrite K in H. injection H as <- <-.
  exists x1, i, xs, y1, j, ys, l. auto 10.
Qed.

Lemma sync_sym x y x' y' : wf x -> wf y -> synchronize x y = Ok (x', y') -> synchronize y x = Ok (y', x').
Proof.
  intros Wx Wy H. apply wf_fine in Wx, Wy.
  destruct (sync_inv _ _ _ _ Wx Wy H) as (x1 & i & xs & y1 & j & ys & l & -> & -> & E & Hb & M & -> & ->).
  assert (E' : neqb (s_time j) (s_time i) = true) by (num_hyps; num_goal; lra).
  destruct (sync_ok y1 j ys x1 i xs) as (l' & M' & ->); [exact Wy|exact Wx|exact E'|tauto|].
  rewrite (merged_det _ _ _ _ _ M' _ (merged_sym _ _ _ _ _ M)). rewrite !map_map. cbn [fst snd].
  reflexivity.
Qed.

Lemma points_eq_times (a b : list (sample F)) : points a = points b -> times a = times b.
Proof. intros H. rewrite !times_points, H. reflexivity. Qed.

Lemma out_times pts : times (sig_of pts) = map fst pts.
Proof. apply times_sig_of. Qed.

Lemma merged_wf x1 i xs y1 j ys l : fine (x1 ++ i :: xs) -> fine (y1 ++ j :: ys) ->
  neqb (s_time i) (s_time j) = true -> merged i xs j ys l ->
  fine (i :: map fst l) /\ fine (j :: map snd l) /\
  Forall2 (fun a b => neqb (s_time a) (s_time b) = true) (i :: map fst l) (j :: map snd l).
Proof.
  intros Fx Fy E M. apply fine_app_r in Fx. apply fine_app_r in Fy.
  apply fine_cons in Fx as (Nx & [Fx1 Fx2] & Ax). apply fine_cons in Fy as (Ny & [Fy1 Fy2] & Ay).
  destruct (merged_num _ _ _ _ _ M Fx1 Fy1) as [N1 N2].
  destruct (merged_incr _ _ _ _ _ M Fx2 Fy2) as [I1 I2].
  assert (Ax' : Forall (fun a => nltb (s_time j) (s_time a) = true) xs).
  { eapply Forall_lt_trans; [|exact Ax]. num_hyps; num_goal; lra. }
  assert (Ay' : Forall (fun a => nltb (s_time i) (s_time a) = true) ys).
  { eapply Forall_lt_trans; [|exact Ay]. num_hyps; num_goal; lra. }
  pose proof (merged_after _ _ _ _ _ _ M Ax Ay') as A1.
  pose proof (merged_after _ _ _ _ _ _ M Ax' Ay) as A2.
  split; [|split].
  - apply fine_cons. split; [exact Nx|]. split; [split; [exact N1|]|].
    + unfold times. rewrite map_map. exact I1.
    + apply Forall_map. eapply Forall_impl; [|exact A1]. cbn. tauto.
  - apply fine_cons. split; [exact Ny|]. split; [split; [exact N2|]|].
    + unfold times. rewrite map_map. exact I2.
    + apply Forall_map. eapply Forall_impl; [|exact A2]. cbn. tauto.
  - constructor; [exact E|]. pose proof (merged_times _ _ _ _ _ Fx1 Fy1 M) as T. clear -T.
    induction T; cbn; constructor; auto.
Qed.

Lemma fine_points_wf (l : list (sample F)) : fine l -> wf (sig_of (points l)).
Proof. intros [A B]. apply wf_canon. exists (points l). split; [|reflexivity]. split; rewrite <- times_points; assumption. Qed.

Lemma merged_same : forall (xs ys : list (sample F)) p q,
  Forall2 (fun a b => neqb (s_time a) (s_time b) = true) xs ys ->
  forall l, merged p xs q ys l -> map fst l = xs /\ map snd l = ys.
Proof.
  intros xs ys p q H. revert p q. induction H as [|a b xs ys E H IH]; intros p q l M.
  - inversion M; subst; auto.
  - inversion M; subst; cbn.
    + destruct (IH _ _ _ ltac:(eassumption)) as [-> ->]. auto.
    + exfalso. num_hyps. lra.
    + exfalso. num_hyps. lra.
Qed.

Lemma sync_fixed x y : wf x -> wf y -> x <> [] -> Forall2 (fun a b => neqb (s_time a) (s_time b) = true) x y ->
  synchronize x y = Ok (x, y).
Proof.
  intros Wx Wy N H. destruct H as [|i j xs ys E H]; [congruence|].
  destruct (sync_ok [] i xs [] j ys) as (l & M & K); auto; try (apply wf_fine; assumption).
  cbn [app] in K. rewrite K. destruct (merged_same _ _ _ _ H _ M) as [-> ->].
  rewrite <- !slopes_ok_canon by (apply Wx || apply Wy). reflexivity.
Qed.

Lemma Forall2_sig_of (a b : list (sample F)) : Forall2 (fun a b => neqb (s_time a) (s_time b) = true) a b ->
  Forall2 (fun a b => neqb (s_time a) (s_time b) = true) (sig_of (points a)) (sig_of (points b)).
Proof. induction 1 as [|x y l l' E H IH]; [constructor|]. cbn [points map sig_of]. constructor; [exact E|exact IH]. Qed.

Lemma sync_out x y x' y' : wf x -> wf y -> synchronize x y = Ok (x', y') ->
  wf x' /\ wf y' /\ x' <> [] /\ y' <> [] /\ Forall2 (fun a b => neqb (s_time a) (s_time b) = true) x' y'.
Proof.
  intros Wx Wy H. apply wf_fine in Wx, Wy.
  destruct (sync_inv _ _ _ _ Wx Wy H) as (x1 & i & xs & y1 & j & ys & l & -> & -> & E & Hb & M & -> & ->).
  destruct (merged_wf _ _ _ _ _ _ _ Wx Wy E M) as (F1 & F2 & T).
  split; [apply fine_points_wf; assumption|]. split; [apply fine_points_wf; assumption|].
  split; [discriminate|]. split; [discriminate|]. apply Forall2_sig_of, T.
Qed.

Lemma sync_idem x y x' y' : wf x -> wf y -> synchronize x y = Ok (x', y') -> synchronize x' y' = Ok (x', y').
Proof.
  intros Wx Wy H. destruct (sync_out _ _ _ _ Wx Wy H) as (W1 & W2 & N1 & N2 & T). apply sync_fixed; assumption.
Qed.

Lemma In_points_sig_of (l : list (sample F)) a : In a l ->
  exists a', In a' (sig_of (points l)) /\ s_time a' = s_time a /\ s_value a' = s_value a.
Proof.
  intros H. assert (K : In (s_time a, s_value a) (points (sig_of (points l)))).
  { rewrite points_sig_of. apply (in_map (fun a => (s_time a, s_value a))), H. }
  apply in_map_iff in K as (a' & K1 & K2). injection K1 as K1 K3. eauto.
Qed.
Lemma In_sig_of_points (l : list (sample F)) a' : In a' (sig_of (points l)) ->
  exists a, In a l /\ s_time a' = s_time a /\ s_value a' = s_value a.
Proof.
  intros H. assert (K : In (s_time a', s_value a') (points (sig_of (points l)))).
  { apply (in_map (fun a => (s_time a, s_value a))), H. }
  rewrite points_sig_of in K. apply in_map_iff in K as (a & K1 & K2). injection K1 as K1 K3. eauto.
Qed.

(** Every input sample inside the common range survives in x'. *)
Lemma sync_complete x y x' y' a : wf x -> wf y -> synchronize x y = Ok (x', y') -> In a x ->
  nleb (begin_time y) (s_time a) = true -> nleb (s_time a) (end_time y) = true ->
  exists a', In a' x' /\ s_time a' = s_time a /\ s_value a' = s_value a.
Proof.
  intros Wx Wy H Ha Hb He. apply wf_fine in Wx, Wy.
  destruct (sync_inv _ _ _ _ Wx Wy H) as (x1 & i & xs & y1 & j & ys & l & -> & -> & E & Hh & M & -> & ->).
  apply In_points_sig_of.
  pose proof (fine_app_r _ _ Wx) as Wx'. pose proof (fine_app_r _ _ Wy) as Wy'.
  apply fine_cons in Wx' as (Nx & Fx & Ax). apply fine_cons in Wy' as (Ny & Fy & Ay).
  assert (Hax : a = i \/ In a xs).
  { apply in_app_or in Ha as [Ha|[->|Ha]]; auto. exfalso.
    destruct Hh as [-> | ->]; [destruct Ha|]. cbn [app begin_time] in Hb.
    pose proof (increasing_app_cons_lt _ _ _ _ (proj2 Wx) Ha) as L. num_hyps. lra. }
  destruct Hax as [-> | Hax]; [left; reflexivity|]. right.
  rewrite Forall_forall in Ax. specialize (Ax a Hax).
  destruct ys as [|b ys _] using rev_ind.
  - exfalso. unfold end_time in He. rewrite last_opt_snoc in He. num_hyps. lra.
  - eapply (proj1 (merged_complete _ _ _ _ _ M (proj2 Fx) (proj2 Fy)) a b Hax).
    + apply in_or_app. right. left. reflexivity.
    + unfold end_time in He. replace (y1 ++ j :: ys ++ [b]) with ((y1 ++ j :: ys) ++ [b]) in He by (rewrite <- app_assoc; reflexivity).
      rewrite last_opt_snoc in He. exact He.
Qed.

Lemma std_max_ge (a b : F) : isnum a = true -> isnum b = true ->
  nleb a (std_max a b) = true /\ nleb b (std_max a b) = true.
Proof. intros A B. destruct (std_max_cases a b A B) as [[-> H]|[-> H]]; split; num_hyps; num_goal; lra. Qed.

(** Every sample of x' has a time of one of the inputs, in the common range. *)
Lemma sync_sound x y x' y' a' : wf x -> wf y -> synchronize x y = Ok (x', y') -> In a' x' ->
  (exists c, (In c x \/ In c y) /\ neqb (s_time c) (s_time a') = true) /\
  nleb (begin_time x) (s_time a') = true /\ nleb (begin_time y) (s_time a') = true /\
  nleb (s_time a') (end_time x) = true /\ nleb (s_time a') (end_time y) = true /\
  (forall c, In c x -> neqb (s_time c) (s_time a') = true -> s_value a' = s_value c).
Proof.
  intros Wx Wy H Ha.
  pose proof (sync_out _ _ _ _ Wx Wy H) as (W1 & W2 & _).
  pose proof (sync_complete x y x' y') as SC.
  pose proof Wx as Fx. pose proof Wy as Fy. apply wf_fine in Fx, Fy.
  destruct (sync_inv _ _ _ _ Fx Fy H) as (x1 & i & xs & y1 & j & ys & l & Ex & Ey & E & Hh & M & Ex' & Ey').
  assert (R : (exists c, (In c x \/ In c y) /\ neqb (s_time c) (s_time a') = true) /\
    nleb (begin_time x) (s_time a') = true /\ nleb (begin_time y) (s_time a') = true /\
    nleb (s_time a') (end_time x) = true /\ nleb (s_time a') (end_time y) = true).
  { rewrite Ex' in Ha. apply In_sig_of_points in Ha as (a & Ha & Et & Ev). rewrite Et.
    assert (Ii : In i x) by (rewrite Ex; apply in_or_app; right; left; reflexivity).
    assert (Ij : In j y) by (rewrite Ey; apply in_or_app; right; left; reflexivity).
    assert (Hxs : forall u, In u xs -> In u x) by (intros; rewrite Ex; apply in_or_app; right; right; assumption).
    assert (Hys : forall u, In u ys -> In u y) by (intros; rewrite Ey; apply in_or_app; right; right; assumption).
    assert (Rx : forall u, In u x -> nleb (begin_time x) (s_time u) = true /\ nleb (s_time u) (end_time x) = true).
    { intros u Hu. pose proof (begin_le_end _ u (proj1 Fx) (proj2 Fx) Hu).
      assert (x <> []) by (intros ->; destruct Hu). pose proof (begin_num _ Fx H1). pose proof (end_num _ Fx H1).
      pose proof (all_num_In _ _ (proj1 Fx) Hu). split; num_goal; lra. }
    assert (Ry : forall u, In u y -> nleb (begin_time y) (s_time u) = true /\ nleb (s_time u) (end_time y) = true).
    { intros u Hu. pose proof (begin_le_end _ u (proj1 Fy) (proj2 Fy) Hu).
      assert (y <> []) by (intros ->; destruct Hu). pose proof (begin_num _ Fy H1). pose proof (end_num _ Fy H1).
      pose proof (all_num_In _ _ (proj1 Fy) Hu). split; num_goal; lra. }
    destruct Ha as [<- | Ha].
    - split; [exists i; split; [auto|num_hyps; num_goal; lra]|].
      destruct (Rx i Ii), (Ry j Ij). repeat split; auto; num_hyps; num_goal; lra.
    - apply in_map_iff in Ha as ([u w] & Eu & Huw). cbn [fst] in Eu. subst u.
      pose proof (fine_app_r x1 (i :: xs)) as G1. rewrite <- Ex in G1. specialize (G1 Fx). apply fine_cons in G1 as (_ & Gx & Ax).
      pose proof (fine_app_r y1 (j :: ys)) as G2. rewrite <- Ey in G2. specialize (G2 Fy). apply fine_cons in G2 as (_ & Gy & Ay).
      pose proof (merged_times _ _ _ _ _ (proj1 Gx) (proj1 Gy) M) as T. rewrite Forall_forall in T. specialize (T _ Huw). cbn [fst snd] in T.
      assert (Ay' : Forall (fun a => nltb (s_time i) (s_time a) = true) ys).
      { eapply Forall_lt_trans; [|exact Ay]. num_hyps; num_goal; lra. }
      pose proof (merged_after _ _ _ _ _ _ M Ax Ay') as A1. rewrite Forall_forall in A1. specialize (A1 _ Huw). cbn [fst snd] in A1.
      destruct A1 as [A1 A2].
      destruct (merged_origin _ _ _ _ _ _ M Huw) as [O1 O2]. cbn [fst snd] in *.
      destruct (Rx i Ii) as [Bx _], (Ry j Ij) as [By _].
      split; [|split; [|split]].
      + destruct O1 as [O|(O & _)].
        * exists a. split; [auto|]. num_hyps; num_goal; lra.
        * exists w. split; [auto|]. num_hyps; num_goal; lra.
      + num_hyps; num_goal; lra.
      + num_hyps; num_goal; lra.
      + (* ends: need that later samples do not exceed either end *)
        assert (Mx : forall ab, In ab l -> nleb (s_time (fst ab)) (end_time x) = true /\ nleb (s_time (fst ab)) (end_time y) = true).
        { assert (G : forall p xs q ys l, merged p xs q ys l -> forall ex ey,
            (forall u, In u xs -> nleb (s_time u) ex = true) -> (forall u, In u ys -> nleb (s_time u) ey = true) ->
            forall ab, In ab l -> nleb (s_time (fst ab)) ex = true /\ nleb (s_time (fst ab)) ey = true).
          { clear -NL. induction 1 as [p q ys|p q xs|p i xs q j ys l E M IH|p i xs q j ys l E M IH|p i xs q j ys l E M IH]; intros ex ey Hx Hy ab Hab; try destruct Hab.
            - subst ab. cbn [fst]. specialize (Hx i (or_introl eq_refl)). specialize (Hy j (or_introl eq_refl)). split; num_hyps; num_goal; lra.
            - apply IH; auto; intros; [apply Hx|apply Hy]; right; assumption.
            - subst ab. cbn [fst]. specialize (Hx i (or_introl eq_refl)). specialize (Hy j (or_introl eq_refl)). split; num_hyps; num_goal; lra.
            - apply IH; auto. intros; apply Hx; right; assumption.
            - subst ab. cbn [fst interp_at s_time]. specialize (Hx i (or_introl eq_refl)). specialize (Hy j (or_introl eq_refl)). split; num_hyps; num_goal; lra.
            - apply IH; auto. intros; apply Hy; right; assumption. }
          apply (G _ _ _ _ _ M); intros u Hu; [apply Rx, Hxs, Hu|apply Ry, Hys, Hu]. }
        destruct (Mx _ Huw). cbn [fst] in *. split; assumption. }
  destruct R as (R1 & R2 & R3 & R4 & R5). repeat split; auto.
  intros c Hc Ec.
  destruct (SC c Wx Wy H Hc) as (c' & Hc' & Et' & Ev').
  { clear - R3 Ec NL. num_hyps; num_goal; lra. }
  { clear - R5 Ec NL. num_hyps; num_goal; lra. }
  assert (c' = a').
  { apply In_nth_error in Ha as [n1 Hn1]. apply In_nth_error in Hc' as [n2 Hn2].
    pose proof (at_hit x' a' (s_time a') (proj1 W1) (proj1 (proj2 W1)) (nth_error_In _ _ Hn1)) as A1.
    pose proof (at_hit x' c' (s_time a') (proj1 W1) (proj1 (proj2 W1)) (nth_error_In _ _ Hn2)) as A2.
    rewrite Et' in A2. specialize (A2 Ec).
    pose proof (all_num_In _ _ (proj1 W1) (nth_error_In _ _ Hn1)) as Q. unfold isnum in Q.
    specialize (A1 Q). congruence. }
  congruence.
Qed.
End S.

Open Scope R_scope.

Lemma map_inj_inv l a : In a (map inj l) -> exists p, In p l /\ a = inj p.
Proof. intros H. apply in_map_iff in H as (p & <- & H). eauto. Qed.

Lemma fsig_split l s1 a s2 : fsig l = s1 ++ a :: s2 ->
  exists l1 A l2, l = l1 ++ A :: l2 /\ s_time a = Fin (fst A) /\ length l1 = length s1.
Proof.
  revert s1. induction l as [|p l IH]; intros s1 H; [destruct s1; discriminate|].
  rewrite fsig_cons in H. destruct s1 as [|b s1].
  - cbn [app] in H. injection H as H1 H2. exists [], p, l. subst a. auto.
  - cbn [app] in H. injection H as H1 H2. destruct (IH _ H2) as (l1 & A & l2 & -> & E & L).
    exists (p :: l1), A, l2. cbn. rewrite L. auto.
Qed.

Lemma sync_exact_inv lx ly x' y' : rincr lx -> rincr ly ->
  synchronize (fsig lx) (fsig ly) = Ok (x', y') ->
  lx <> [] /\ ly <> [] /\
  exists t0 ts, x' = fsig (graph (pw lx) (t0 :: ts)) /\ y' = fsig (graph (pw ly) (t0 :: ts)) /\
    achain (pw lx) t0 ts /\ achain (pw ly) t0 ts /\
    t0 = Rmax (first_time lx) (first_time ly) /\ last_from t0 ts = Rmin (final_time lx) (final_time ly).
Proof.
  intros Ix Iy H. pose proof (fsig_fine _ Ix) as Fx. pose proof (fsig_fine _ Iy) as Fy.
  split; [intros ->; pose proof (sync_empty_l (fsig ly)) as K; change (fsig []) with (@nil (sample XR)) in H; congruence|].
  split; [intros ->; pose proof (sync_empty_r (fsig lx)) as K; change (fsig []) with (@nil (sample XR)) in H; congruence|].
  destruct (meets_split _ _ Fx Fy (ok_meets _ _ _ Fx Fy H)) as (x1 & i & xs & y1 & j & ys & Ex & Ey & E & Hb).
  apply fsig_split in Ex as (lx1 & X & lx2 & -> & Ti & Lx). apply fsig_split in Ey as (ly1 & Y & ly2 & -> & Tj & Ly).
  assert (EXY : fst X = fst Y).
  { rewrite Ti, Tj in E. change (@neqb XR _) with xeq in E. rewrite fin_eq in E. revert E. case Req_bool_spec; [auto|discriminate]. }
  assert (Hb' : lx1 = [] \/ ly1 = []).
  { destruct Hb as [-> | ->]; [left; destruct lx1|right; destruct ly1]; auto; discriminate. }
  destruct (sync_exact lx1 X lx2 ly1 Y ly2 _ _ (repr_pw _ Ix) (repr_pw _ Iy) EXY Hb') as (ts & K & A1 & A2 & L).
  rewrite K in H. injection H as <- <-. exists (fst X), ts. repeat split; auto.
  assert (BX : first_time (lx1 ++ X :: lx2) <= fst X) by (apply (rincr_first_final _ X Ix); apply in_or_app; right; left; reflexivity).
  assert (BY : first_time (ly1 ++ Y :: ly2) <= fst Y) by (apply (rincr_first_final _ Y Iy); apply in_or_app; right; left; reflexivity).
  destruct Hb' as [-> | ->].
  - change (first_time ([] ++ X :: lx2)) with (fst X). rewrite Rmax_left; [reflexivity|]. lra.
  - change (first_time ([] ++ Y :: ly2)) with (fst Y). rewrite Rmax_right; [exact EXY|]. lra.
Qed.

Lemma achain_rincr g t0 ts : achain g t0 ts -> rincr (graph g (t0 :: ts)).
Proof. intros H. eapply repr_rincr, repr_graph, H. Qed.

Lemma sync_pwl lx ly x y x' y' : built lx x -> built ly y -> synchronize x y = Ok (x', y') ->
  exists lx' ly', built lx' x' /\ built ly' y' /\ lx' <> [] /\ ly' <> [] /\
    (forall t v, pwl lx' t v <-> pwl lx t v /\ first_time ly <= t <= final_time ly) /\
    (forall t v, pwl ly' t v <-> pwl ly t v /\ first_time lx <= t <= final_time lx).
Proof.
  intros Bx By H. apply built_iff in Bx as [Ix ->]. apply built_iff in By as [Iy ->].
  destruct (sync_exact_inv _ _ _ _ Ix Iy H) as (Nx & Ny & t0 & ts & -> & -> & A1 & A2 & E0 & E1).
  exists (graph (pw lx) (t0 :: ts)), (graph (pw ly) (t0 :: ts)).
  pose proof (repr_graph _ _ _ A1) as R1. pose proof (repr_graph _ _ _ A2) as R2.
  split; [apply built_iff; split; [apply achain_rincr, A1|reflexivity]|].
  split; [apply built_iff; split; [apply achain_rincr, A2|reflexivity]|].
  split; [discriminate|]. split; [discriminate|]. split; intros t v.
  - rewrite (repr_pwl _ _ _ _ R1) by discriminate. rewrite pwl_pw by assumption.
    rewrite first_graph, final_graph, E1, E0. unfold Rmax, Rmin.
    destruct (Rle_dec _ _), (Rle_dec _ _); intuition lra.
  - rewrite (repr_pwl _ _ _ _ R2) by discriminate. rewrite pwl_pw by assumption.
    rewrite first_graph, final_graph, E1, E0. unfold Rmax, Rmin.
    destruct (Rle_dec _ _), (Rle_dec _ _); intuition lra.
Qed.
