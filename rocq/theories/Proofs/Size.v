(** C89 and C90: the number of samples of a result, and which sample times it keeps. *)
From Coq Require Import Sorted Reals Lra.
From Verif Require Import Base Num NumB64.
From Verif.Model Require Import Signal MonoWedge MinMax Ast Robustness.
From Verif.Spec Require Import SignalSpec Formula Size.
From Verif.Proofs Require Import NumFacts SignalFacts LowerBound Reshape Sync SyncProps SyncCases MinMaxFacts SeqFacts MinMaxCases RobFacts RobWf UntilFacts B64Facts SignalProps RobExamples.
Local Open Scope nat_scope.

Lemma in_F2_r {A B} (P : A -> B -> Prop) l l' b : Forall2 P l l' -> In b l' -> exists a, In a l /\ P a b.
Proof. induction 1 as [|x y l l' H T IH]; [intros []|]. intros [<-|Hb]; [exists x; cbn; auto|]. destruct (IH Hb) as (a & Ha & Pa). exists a. cbn; auto. Qed.

Section G.
Context {F : Type} `{NF : Num F} {NL : NumLaws F}.

Lemma merged_length p xs q ys (l : list (sample F * sample F)) : merged p xs q ys l -> length l <= length xs + length ys - 1.
Proof. induction 1; cbn [length] in *; lia. Qed.

Lemma sig_of_length (pts : list (F * F)) : length (sig_of pts) = length pts.
Proof. induction pts as [|p pts IH]; [reflexivity|]. cbn [sig_of length]. f_equal. exact IH. Qed.

Lemma sync_length x y x' y' : wf x -> wf y -> synchronize x y = Ok (x', y') ->
  length x' <= merge_size (length x) (length y) /\ length y' = length x' /\ 0 < length x'.
Proof.
  intros Wx Wy H. destruct (sync_out _ _ _ _ Wx Wy H) as (_ & _ & N & _ & T). apply wf_fine in Wx, Wy.
  destruct (sync_inv _ _ _ _ Wx Wy H) as (x1 & i & xs & y1 & j & ys & l & -> & -> & E & Hb & M & -> & ->).
  apply merged_length in M. pose proof (same_length _ _ T) as L. rewrite <- L. split; [|split; [reflexivity|]].
  - unfold points, merge_size. rewrite sig_of_length, map_length, !app_length. cbn [length]. rewrite map_length. lia.
  - unfold points. rewrite sig_of_length. cbn [map length]. lia.
Qed.

Lemma pair_step_shape pts sw pw pl (win : sample F) z : wfp pts -> isnum (s_time win) = true ->
  pair_step (sig_of pts) sw pw pl win = Ok z ->
  exists extra, z = sig_of (pts ++ extra ++ [pt win]) /\ wfp (pts ++ extra ++ [pt win]) /\ length extra <= 1 /\ (sw = false -> extra = []).
Proof.
  intros W N H. unfold pair_step in H. apply bind_ok_inv in H as (o & H1 & H2).
  destruct sw; cycle 1.
  { injection H1 as <-. exists []. apply push_back_inv in H2 as [-> ?]; auto. }
  destruct pl as [pl|]; [|discriminate]. destruct pw as [pw|]; [|discriminate].
  destruct (nltb _ _) eqn:E; cbn [andb] in H1; cycle 1.
  { injection H1 as <-. exists []. apply push_back_inv in H2 as [-> ?]; auto. }
  destruct (negb _); cycle 1.
  { injection H1 as <-. exists []. apply push_back_inv in H2 as [-> ?]; auto. }
  apply push_back_inv in H1 as [-> W1]; auto; [|apply nltb_true in E; apply E].
  apply push_back_inv in H2 as [-> W2]; auto. rewrite <- app_assoc in *. eexists [_]. split; [reflexivity|]. split; [exact W2|].
  split; [cbn; lia|discriminate].
Qed.

Lemma wfp_before (l : list (F * F)) : forall p m, wfp (p :: l ++ m) -> Forall (fun q => nltb (fst p) (fst q) = true) (l ++ m).
Proof.
  intros p m [N I]. cbn [map] in I. apply increasing_cons in I as [_ I]. rewrite Forall_map in I. exact I.
Qed.

Variable comp : sample F -> sample F -> bool.

Lemma pair_loop_shape : forall xs ys pi pj last pts z, wfp pts ->
  all_num (times xs) -> all_num (times ys) -> length xs = length ys ->
  pair_loop comp pi pj xs ys last (sig_of pts) = Ok z ->
  exists pts', z = sig_of (pts ++ pts') /\ wfp (pts ++ pts') /\
    length pts' <= 2 * length xs /\ (last = ChNone -> length pts' <= 2 * length xs - 1) /\
    (forall i j, In (i, j) (combine xs ys) -> In (pt (if comp i j then i else j)) pts') /\
    (forall t, Forall (fun a => nleb (s_time a) t = true) (xs ++ ys) -> Forall (fun p => nleb (fst p) t = true) pts') /\
    (forall t, (last = ChNone \/ exists p, In p pts /\ nleb t (fst p) = true) ->
       Forall (fun a => nleb t (s_time a) = true) (xs ++ ys) -> Forall (fun p => nleb t (fst p) = true) pts').
Proof.
  induction xs as [|i xs IH]; intros [|j ys] pi pj last pts z W Nx Ny L H; try discriminate.
  { injection H as <-. exists []. rewrite app_nil_r. cbn. repeat split; auto; try lia; try apply W; try (intros ? ? []). }
  cbn [pair_loop] in H. inversion Nx as [|? ? N1 N2]; subst. inversion Ny as [|? ? N3 N4]; subst.
  set (w := if comp i j then i else j).
  assert (S : exists o, pair_loop comp (Some i) (Some j) xs ys (if comp i j then ChX else ChY) o = Ok z /\
     exists e, o = sig_of (pts ++ e ++ [pt w]) /\ wfp (pts ++ e ++ [pt w]) /\ length e <= 1 /\ (last = ChNone -> e = [])).
  { unfold w. destruct (comp i j); apply bind_ok_inv in H as (o & H1 & H2); apply pair_step_shape in H1; auto;
      (exists o; split; [exact H2|]); destruct H1 as (e & A & B & C & D); exists e; repeat split; auto; try apply B; intros ->; apply D; reflexivity. }
  destruct S as (o & H2 & e & -> & W' & Le & De).
  assert (L' : length xs = length ys) by (cbn in L; lia).
  destruct (IH _ _ _ _ _ _ W' N2 N4 L' H2) as (p & -> & W2 & L1 & _ & Hin & Hu & Hl).
  exists (e ++ [pt w] ++ p). rewrite !app_assoc in *. split; [reflexivity|]. split; [exact W2|].
  assert (Ww : In w [i; j]) by (unfold w; destruct (comp i j); cbn; auto).
  split; [|split; [|split; [|split]]].
  - rewrite !app_length. cbn [length] in *. lia.
  - intros ->. rewrite De by reflexivity. cbn [app length]. lia.
  - intros i' j' [[= <- <-]|Hc]; [|apply in_or_app; right; apply Hin, Hc].
    apply in_or_app. left. apply in_or_app. right. left. reflexivity.
  - intros t Ht. cbn [app] in Ht. inversion Ht as [|? ? T1 T2]; subst. apply Forall_app in T2 as [T2 T3]. inversion T3 as [|? ? T4 T5]; subst.
    assert (Tw : nleb (s_time w) t = true) by (unfold w; destruct (comp i j); assumption).
    rewrite <- app_assoc. apply Forall_app. split; [|constructor; [exact Tw|apply Hu, Forall_app; auto]].
    destruct e as [|q [|q' e]]; [constructor| |cbn in Le; lia]. constructor; [|constructor].
    destruct W' as [_ I]. rewrite <- app_assoc in I. cbn [app] in I. rewrite map_app in I. apply increasing_app in I as (_ & I & _).
    cbn [map] in I. apply increasing_cons in I as [_ I]. inversion I; subst. cbn [fst pt] in *. num.
  - intros t Hp Ht. cbn [app] in Ht. inversion Ht as [|? ? T1 T2]; subst. apply Forall_app in T2 as [T2 T3]. inversion T3 as [|? ? T4 T5]; subst.
    assert (Tw : nleb t (s_time w) = true) by (unfold w; destruct (comp i j); assumption).
    rewrite <- app_assoc. apply Forall_app. split.
    + destruct Hp as [->|(q & Hq & Tq)]; [rewrite De by reflexivity; constructor|].
      destruct W' as [_ I]. rewrite <- app_assoc, map_app in I. apply increasing_app in I as (_ & _ & I).
      apply Forall_forall. intros r Hr. specialize (I (fst q) (fst r) (in_map _ _ _ Hq)).
      rewrite map_app in I. specialize (I ltac:(apply in_or_app; left; apply in_map, Hr)). num.
    + constructor; [exact Tw|]. apply Hl; [|apply Forall_app; auto]. right. exists (pt w). split; [|exact Tw]. apply in_or_app. right. left. reflexivity.
Qed.

Definition within (z : signal F) (t : F) : Prop := nleb (begin_time z) t = true /\ nleb t (end_time z) = true.
Definition covers (z x : signal F) : Prop := nleb (begin_time x) (begin_time z) = true /\ nleb (end_time z) (end_time x) = true.
Definition has (z : signal F) (t : F) : Prop := exists c, In c z /\ neqb (s_time c) t = true.
Definition keeps (z x : signal F) : Prop := covers z x /\ forall a, In a x -> within z (s_time a) -> has z (s_time a).

Lemma covers_within z x t : covers z x -> within z t -> within x t.
Proof. intros [A B] [C D]. split; num. Qed.
Lemma keeps_trans z y x : keeps z y -> keeps y x -> keeps z x.
Proof.
  intros [C K] [C' K']. split.
  - destruct C, C'. split; num.
  - intros a Ha Wa. destruct (K' a Ha (covers_within _ _ _ C Wa)) as (c & Hc & Ec).
    destruct (K c Hc) as (d & Hd & Ed); [destruct Wa; split; num|]. exists d. split; [exact Hd|num].
Qed.
Lemma keeps_times z x : good x -> times z = times x -> keeps z x.
Proof.
  intros G E. assert (B : begin_time z = begin_time x /\ end_time z = end_time x).
  { split.
    - destruct z, x; try discriminate; [reflexivity|]. cbn in *. congruence.
    - unfold end_time. assert (Q : option_map s_time (last_opt z) = option_map s_time (last_opt x)); [|destruct (last_opt z), (last_opt x); cbn in Q; congruence].
      clear G. revert x E. induction z as [|a z IH]; intros [|b x] E; try discriminate; [reflexivity|]. cbn [times map] in E. injection E as E1 E2.
      destruct z as [|a' z], x as [|b' x]; try discriminate; [cbn; congruence|]. exact (IH (b' :: x) E2). }
  destruct B as [B1 B2]. destruct (good_begin x G) as [N1 N2]. split.
  - unfold covers. rewrite B1, B2. split; num.
  - intros a Ha _. assert (T : In (s_time a) (times z)) by (rewrite E; apply in_map, Ha). apply in_map_iff in T as (c & Ec & Hc). exists c. split; [exact Hc|].
    rewrite Ec. destruct G as [(N & _) _]. unfold all_num in N. rewrite Forall_forall in N. specialize (N _ (in_map _ _ _ Ha)). num.
Qed.

Lemma begin_in (z : signal F) : z <> [] -> exists c, In c z /\ s_time c = begin_time z.
Proof. destruct z as [|c z]; [congruence|]. intros _. exists c. split; [left; reflexivity|reflexivity]. Qed.
Lemma end_in (z : signal F) : z <> [] -> exists c, In c z /\ s_time c = end_time z.
Proof.
  intros N. unfold end_time. destruct (last_opt z) as [c|] eqn:E; [|apply last_opt_none in E; congruence]. exists c. split; [apply last_opt_In, E|reflexivity].
Qed.
Lemma covers_all z x : z <> [] -> (forall c, In c z -> nleb (begin_time x) (s_time c) = true /\ nleb (s_time c) (end_time x) = true) -> covers z x.
Proof.
  intros N H. destruct (begin_in z N) as (b & Hb & Eb), (end_in z N) as (e & He & Ee). apply H in Hb, He. split; [rewrite <- Eb; apply Hb|rewrite <- Ee; apply He].
Qed.

Lemma sync_keeps x y x' y' : wf x -> wf y -> synchronize x y = Ok (x', y') -> keeps x' x /\ keeps x' y.
Proof.
  intros Wx Wy H. destruct (C16_lemma _ _ _ _ Wx Wy H) as (T & W1 & W2 & Kx & Ky & Only & _).
  destruct (sync_out _ _ _ _ Wx Wy H) as (_ & _ & N1 & N2 & _).
  assert (Cx : covers x' x) by (apply covers_all; [exact N1|]; intros c Hc; destruct (Only c (or_introl Hc)) as (_ & A & _ & B & _); auto).
  assert (Cy : covers x' y) by (apply covers_all; [exact N1|]; intros c Hc; destruct (Only c (or_introl Hc)) as (_ & _ & A & _ & B); auto).
  split; split; auto.
  - intros a Ha Wa. destruct (covers_within _ _ _ Cy Wa) as [A B]. destruct (Kx a Ha A B) as (a' & Ha' & E & _). exists a'. split; [exact Ha'|]. rewrite E. num.
  - intros b Hb Wb. destruct (covers_within _ _ _ Cx Wb) as [A B]. destruct (Ky b Hb A B) as (b' & Hb' & E & _).
    destruct (in_F2_r _ _ _ _ T Hb') as (a' & Ha' & Ea). exists a'. split; [exact Ha'|]. rewrite <- E. exact Ea.
Qed.

Lemma combine_in {A B} (l : list A) : forall (l' : list B) a, length l = length l' -> In a l -> exists b, In (a, b) (combine l l').
Proof. induction l as [|x l IH]; intros [|y l'] a L H; try discriminate; [destruct H|]. destruct H as [->|H]; [exists y; left; reflexivity|]. destruct (IH l' a) as (b & Hb); [cbn in L; lia|exact H|]. exists b. right. exact Hb. Qed.
Lemma combine_F2 {A B} (P : A -> B -> Prop) l l' a b : Forall2 P l l' -> In (a, b) (combine l l') -> P a b.
Proof. induction 1; [intros []|]. intros [[= -> ->]|H1]; auto. Qed.
Lemma sig_of_in (pts : list (F * F)) p : In p pts -> exists c, In c (sig_of pts) /\ s_time c = fst p.
Proof. induction pts as [|q pts IH]; [intros []|]. intros [->|H]; cbn [sig_of]; [eexists; split; [left; reflexivity|reflexivity]|]. destruct (IH H) as (c & Hc & E). exists c. split; [right; exact Hc|exact E]. Qed.
Lemma in_sig_of (pts : list (F * F)) c : In c (sig_of pts) -> exists p, In p pts /\ s_time c = fst p.
Proof. induction pts as [|q pts IH]; [intros []|]. cbn [sig_of]. intros [<-|H]; [exists q; split; [left; reflexivity|reflexivity]|]. destruct (IH H) as (p & Hp & E). exists p. split; [right; exact Hp|exact E]. Qed.
Lemma in_bounds (x : signal F) a : wf x -> In a x -> nleb (begin_time x) (s_time a) = true /\ nleb (s_time a) (end_time x) = true.
Proof.
  intros W H. pose proof W as (N & I & _). destruct (begin_le_end x a N I H) as [A B].
  assert (Hne : x <> []) by (intros ->; destruct H). destruct (good_begin x (conj W Hne)) as [N1 N2].
  unfold all_num in N. rewrite Forall_forall in N. specialize (N _ (in_map _ _ _ H)). split; apply nleb_true; auto.
Qed.

Lemma pair_keeps dbg x y z : good x -> good y -> minmax_pair dbg comp false x y = Ok z ->
  length z <= cross_size (length x) (length y) /\ keeps z x /\ keeps z y.
Proof.
  intros [Wx Nx] [Wy Ny] H. pose proof (good_pair dbg comp x y z (conj Wx Nx) (conj Wy Ny) H) as [Wz Nz].
  apply minmax_pair_inv in H as (x' & y' & S & H).
  destruct (sync_out _ _ _ _ Wx Wy S) as (W1 & W2 & N1 & N2 & T). destruct (sync_length _ _ _ _ Wx Wy S) as (L1 & L2 & L3).
  destruct (pair_loop_shape x' y' None None ChNone [] z) as (pts & -> & W & _ & L4 & P & U & D); auto.
  { split; constructor. } { apply W1. } { apply W2. }
  cbn [app] in *. specialize (L4 eq_refl).
  assert (K : keeps (sig_of pts) x').
  { split.
    - apply covers_all; [exact Nz|]. intros c Hc. apply in_sig_of in Hc as (p & Hp & ->).
      assert (A : Forall (fun a => nleb (begin_time x') (s_time a) = true /\ nleb (s_time a) (end_time x') = true) (x' ++ y')).
      { apply Forall_app. split; apply Forall_forall; intros a Ha; [apply in_bounds; assumption|].
        destruct (in_F2_r _ _ _ _ T Ha) as (b & Hb & Eb). apply in_bounds in Hb as [B1 B2]; [|exact W1]. split; num. }
      specialize (U (end_time x') ltac:(eapply Forall_impl; [|exact A]; cbn; tauto)).
      specialize (D (begin_time x') (or_introl eq_refl) ltac:(eapply Forall_impl; [|exact A]; cbn; tauto)).
      rewrite Forall_forall in U, D. auto.
    - intros a Ha _. destruct (combine_in x' y' a) as (b & Hb); [auto|exact Ha|]. pose proof (combine_F2 _ _ _ _ _ T Hb) as E. cbn beta in E.
      apply P, sig_of_in in Hb as (c & Hc & Ec). exists c. split; [exact Hc|]. rewrite Ec. destruct (comp a b); cbn [pt fst]; num. }
  destruct (sync_keeps _ _ _ _ Wx Wy S) as [K1 K2].
  split; [|split; eapply keeps_trans; eassumption].
  rewrite sig_of_length. unfold cross_size. lia.
Qed.

Lemma until_keeps dbg x y z : good x -> good y -> compute_until dbg x y = Ok z ->
  length z <= merge_size (length x) (length y) /\ keeps z x /\ keeps z y.
Proof.
  intros [Wx Nx] [Wy Ny] H. apply until_inv in H as (x' & y' & S & H).
  destruct (sync_out _ _ _ _ Wx Wy S) as (W1 & W2 & N1 & N2 & T). pose proof (same_length _ _ T) as L.
  assert (E : times (rev (until_loop (rev x') (rev y') ninf (nopp ninf) [])) = times x').
  { rewrite times_rev, until_loop_times by (rewrite !rev_length; exact L). cbn [times map app]. rewrite times_rev. apply rev_involutive. }
  assert (T' : times z = times x').
  { apply from_samples_wf in H as (_ & P & _); [|rewrite E; apply W1]. rewrite <- E, !times_points. congruence. }
  destruct (sync_length _ _ _ _ Wx Wy S) as (L1 & _).
  assert (K : keeps z x') by (apply keeps_times; [split; assumption|exact T']).
  destruct (sync_keeps _ _ _ _ Wx Wy S) as [K1 K2].
  split; [|split; eapply keeps_trans; eassumption].
  apply (f_equal (@length _)) in T'. unfold times in T'. rewrite !map_length in T'. lia.
Qed.

Lemma until_from dbg x y z : good x -> good y -> compute_until dbg x y = Ok z ->
  forall c, In c z -> exists d, (In d x \/ In d y) /\ neqb (s_time c) (s_time d) = true.
Proof.
  intros [Wx Nx] [Wy Ny] H. apply until_inv in H as (x' & y' & S & H).
  destruct (sync_out _ _ _ _ Wx Wy S) as (W1 & W2 & N1 & N2 & T). pose proof (same_length _ _ T) as L.
  assert (E : times (rev (until_loop (rev x') (rev y') ninf (nopp ninf) [])) = times x').
  { rewrite times_rev, until_loop_times by (rewrite !rev_length; exact L). cbn [times map app]. rewrite times_rev. apply rev_involutive. }
  assert (T' : times z = times x').
  { apply from_samples_wf in H as (_ & P & _); [|rewrite E; apply W1]. rewrite <- E, !times_points. congruence. }
  destruct (C16_lemma _ _ _ _ Wx Wy S) as (_ & _ & _ & _ & _ & Only & _).
  intros c Hc. apply (in_map s_time) in Hc. change (In (s_time c) (times z)) in Hc. rewrite T' in Hc. apply in_map_iff in Hc as (a & Ea & Ha).
  destruct (Only a (or_introl Ha)) as ((d & Hd & Ed) & _). exists d. split; [exact Hd|]. rewrite <- Ea. num.
Qed.

Lemma cross_mono a b c d : 0 < a -> 0 < b -> a <= c -> b <= d -> cross_size a b <= cross_size c d.
Proof. unfold cross_size, merge_size. lia. Qed.

Lemma fold_keeps dbg xs ms : Forall2 (fun x m => good x /\ length x <= m) xs ms -> forall acc n z, good acc -> length acc <= n ->
  minmax_fold dbg comp false acc xs = Ok z ->
  length z <= fold_left cross_size ms n /\ keeps z acc /\ forall x, In x xs -> keeps z x.
Proof.
  induction 1 as [|x m xs ms [Gx Lx] _ IH]; intros acc n z Ga La H; cbn [minmax_fold] in H.
  { injection H as <-. split; [exact La|]. split; [apply keeps_times; auto|intros x []]. }
  apply bind_ok_inv in H as (acc' & H1 & H2). destruct (pair_keeps dbg acc x acc' Ga Gx H1) as (L & K1 & K2).
  pose proof (good_pair dbg comp acc x acc' Ga Gx H1) as G'.
  destruct (IH acc' (cross_size n m) z G') as (L' & K & Ks); [|exact H2|].
  { assert (0 < length acc) by (destruct Ga as [_ N]; destruct acc; [congruence|cbn; lia]).
    assert (0 < length x) by (destruct Gx as [_ N]; destruct x; [congruence|cbn; lia]).
    pose proof (cross_mono (length acc) (length x) n m). lia. }
  split; [exact L'|]. split; [eapply keeps_trans; eauto|]. intros x' [<-|Hx]; [eapply keeps_trans; eauto|auto].
Qed.

Lemma list_keeps dbg xs ms z : Forall2 (fun x m => good x /\ length x <= m) xs ms -> minmax_list dbg comp false xs = Ok z ->
  length z <= list_size ms /\ forall x, In x xs -> keeps z x.
Proof.
  intros F2 H. destruct F2 as [|x m xs ms [Gx Lx] F2]; cbn [minmax_list list_size] in *.
  { unfold push_back_tv in H. rewrite push_back_nil in H. injection H as <-. split; [cbn; lia|intros x []]. }
  assert (Q : minmax_fold dbg comp false x xs = Ok z).
  { destruct F2 as [|x' m' xs ms [Gx' Lx'] F2]; [exact H|]. destruct F2; [|exact H].
    cbn [minmax_fold]. rewrite H. reflexivity. }
  destruct (fold_keeps dbg xs ms F2 x m z Gx Lx Q) as (L & K & Ks). split; [exact L|]. intros x' [<-|Hx]; auto.
Qed.
End G.

Section C.
Context {F : Type} `{NF : Num F} {NL : NumLaws F}.
Hypothesis WIN : forall comp fuel a b (y : signal F), neqb a nzero = true -> wf y -> forall z, minmax_seq_win comp fuel y a b <> Ok z.
Hypothesis HV : forall i : interval F, has_value i = true -> neqb (fst (as_double i)) nzero = true.

Lemma seq_times comp (x z : signal F) : good x -> minmax_seq comp x = Ok z -> times z = times x.
Proof.
  intros [W Hne] H. rewrite minmax_seq_roll in H by assumption. injection H as <-. rewrite times_sig_of. apply rollp_times.
Qed.
Lemma temporal_times fuel comp i (y z : signal F) : good y -> rob_temporal fuel comp i y = Ok z -> times z = times y.
Proof.
  intros C H. unfold rob_temporal in H. destruct (has_value i) eqn:V; cbn [negb] in H; [|eapply seq_times; eauto].
  apply HV in V. destruct (as_double i) as [a b]. cbn [fst] in V.
  cbn zeta in H. destruct (nltb _ _); [discriminate|]. destruct (neqb (nsub b a) _); [injection H as <-; reflexivity|].
  destruct (nleb _ _); [eapply seq_times; eauto|]. exfalso. eapply WIN; [exact V|apply C|exact H].
Qed.
Lemma same_times_size (z x : signal F) : times z = times x -> length z = length x.
Proof. intros E. apply (f_equal (@length _)) in E. unfold times in E. rewrite !map_length in E. exact E. Qed.

Variable dbg : bool.
Variable fuel : nat.
Variable tr : trace F.
Variable len : string -> nat.
Hypothesis G : Forall (fun e => good (snd e)) tr.
Hypothesis L : forall n x, has_signal tr n x -> length x <= len n.
Let r := mkRob (trace_begin tr) (trace_end tr) tr.
Definition kept (phi : expr F) (z : signal F) : Prop :=
  length z <= size len phi /\ forall n x, In n (names phi) -> trace_find tr n = Some x -> keeps z x.

Lemma list_kept comp l ys z : Forall (fun phi => forall z, compute dbg fuel r phi = Ok z -> kept phi z) l ->
  compute_list (compute dbg fuel r) l = Ok ys -> minmax_list dbg comp false ys = Ok z ->
  length z <= list_size (map (size len) l) /\ forall n x, In n (flat_map names l) -> trace_find tr n = Some x -> keeps z x.
Proof.
  intros IH H1 H2. apply compute_list_inv in H1.
  assert (F2 : Forall2 (fun x m => good x /\ length x <= m) ys (map (size len) l) /\ Forall2 (fun e y => kept e y) l ys).
  { clear H2. induction H1 as [|e y l ys E H1 IHl]; [split; constructor|]. inversion IH as [|? ? I1 I2]; subst. destruct (IHl I2) as [A B].
    pose proof (I1 _ E) as K. split; constructor; auto. split; [|apply K]. eapply (good_compute WIN HV dbg fuel tr e G), E. }
  destruct F2 as [F2 K]. destruct (list_keeps comp dbg ys _ z F2 H2) as (Lz & Ks). split; [exact Lz|].
  intros n x Hn Hx. apply in_flat_map in Hn as (e & He & Hn).
  assert (Q : exists y, In y ys /\ kept e y).
  { clear -K He. induction K as [|e' y l ys K0 K IH]; [destruct He|]. destruct He as [->|He]; [exists y; cbn; auto|]. destruct (IH He) as (y' & A & B). exists y'. cbn; auto. }
  destruct Q as (y & Hy & [_ Ky]). eapply keeps_trans; [apply Ks, Hy|]. eapply Ky; eauto.
Qed.

Lemma compute_kept phi : forall z, compute dbg fuel r phi = Ok z -> kept phi z.
Proof.
  induction phi using expr_rec; intros z H0; pose proof (good_compute WIN HV dbg fuel tr _ G z H0) as Gz; cbn [compute] in H0.
  - split; [|intros ? ? []]. apply from_samples_wf in H0 as (_ & P & _).
    + apply (f_equal (@length _)) in P. unfold points in P. rewrite !map_length in P. rewrite P. cbn. lia.
    + destruct (trace_begin_num tr G) as [A B]. repeat constructor; assumption.
  - unfold rob_pred in H0. cbn [r_trace r] in H0. destruct (trace_find tr _) as [x|] eqn:E; [|discriminate]. rewrite pred_loop_push in H0.
    pose proof E as E'. apply trace_find_In in E. pose proof E as E2. rewrite Forall_forall in G. apply G in E. cbn in E.
    assert (T : times z = times x).
    { apply from_samples_wf in H0 as (_ & P & _); [rewrite times_points, P, <- times_points; unfold times; rewrite map_map; reflexivity|].
      unfold times. rewrite map_map. apply E. }
    split; [rewrite (same_times_size _ _ T); apply L, E2|].
    intros n' x' [<-|[]] Ex. rewrite E' in Ex. injection Ex as <-. apply keeps_times; assumption.
  - apply bind_ok_inv in H0 as (x & H1 & H0). pose proof (good_compute WIN HV dbg fuel tr _ G _ H1) as Gx. apply IHphi in H1 as [L1 K1].
    assert (T : times z = times x).
    { apply from_samples_wf in H0 as (_ & P & _); [rewrite times_points, P, <- times_points; unfold times; rewrite map_map; reflexivity|].
      unfold times. rewrite map_map. apply Gx. }
    split; [rewrite (same_times_size _ _ T); exact L1|]. intros n' x' Hn Hx. eapply keeps_trans; [apply (keeps_times z x Gx T)|eapply K1; eauto].
  - apply bind_ok_inv in H0 as (ys & H1 & H0). eapply list_kept; eauto.
  - apply bind_ok_inv in H0 as (ys & H1 & H0). eapply list_kept; eauto.
  - apply bind_ok_inv in H0 as (x & H1 & H0). pose proof (good_compute WIN HV dbg fuel tr _ G _ H1) as Gx. apply IHphi in H1 as [L1 K1].
    apply temporal_times in H0; [|exact Gx].
    split; [rewrite (same_times_size _ _ H0); exact L1|]. intros n' x' Hn Hx. eapply keeps_trans; [apply (keeps_times z x Gx H0)|eapply K1; eauto].
  - apply bind_ok_inv in H0 as (x & H1 & H0). pose proof (good_compute WIN HV dbg fuel tr _ G _ H1) as Gx. apply IHphi in H1 as [L1 K1].
    apply temporal_times in H0; [|exact Gx].
    split; [rewrite (same_times_size _ _ H0); exact L1|]. intros n' x' Hn Hx. eapply keeps_trans; [apply (keeps_times z x Gx H0)|eapply K1; eauto].
  - apply bind_ok_inv in H0 as (x & H1 & H0). apply bind_ok_inv in H0 as (y & H2 & H0). apply rob_until_inv in H0.
    pose proof (good_compute WIN HV dbg fuel tr _ G _ H1) as Gx. pose proof (good_compute WIN HV dbg fuel tr _ G _ H2) as Gy.
    destruct (until_keeps dbg x y z Gx Gy H0) as (L3 & K3 & K4). apply IHphi1 in H1 as [L1 K1]. apply IHphi2 in H2 as [L2 K2]. split.
    + cbn [size]. unfold merge_size in *. lia.
    + intros n' x' Hn Hx. cbn [names] in Hn. apply in_app_or in Hn as [Hn|Hn]; [eapply keeps_trans; [exact K3|eapply K1; eauto]|eapply keeps_trans; [exact K4|eapply K2; eauto]].
Qed.

Definition from_inputs (phi : expr F) (z : signal F) : Prop :=
  forall c, In c z -> exists n x a, In n (names phi) /\ has_signal tr n x /\ In a x /\ neqb (s_time c) (s_time a) = true.
Lemma from_times (z x : signal F) : times z = times x -> forall c, In c z -> exists d, In d x /\ s_time d = s_time c.
Proof. intros E c H. apply (in_map s_time) in H. change (In (s_time c) (times z)) in H. rewrite E in H. apply in_map_iff in H as (d & A & B). exists d. auto. Qed.

Lemma compute_from phi : free_of is_const phi = true -> free_of is_andor phi = true -> forall z, compute dbg fuel r phi = Ok z -> from_inputs phi z.
Proof.
  induction phi using expr_rec; intros C A z H0; pose proof (good_compute WIN HV dbg fuel tr _ G z H0) as Gz; cbn [compute] in H0; try discriminate.
  - unfold rob_pred in H0. cbn [r_trace r] in H0. destruct (trace_find tr _) as [x|] eqn:E; [|discriminate]. rewrite pred_loop_push in H0.
    apply trace_find_In in E. pose proof E as E2. rewrite Forall_forall in G. apply G in E. cbn in E.
    assert (T : times z = times x).
    { apply from_samples_wf in H0 as (_ & P & _); [rewrite times_points, P, <- times_points; unfold times; rewrite map_map; reflexivity|].
      unfold times. rewrite map_map. apply E. }
    intros e He. pose proof (in_bounds z e (proj1 Gz) He) as [B _]. destruct (from_times z x T e He) as (d & Hd & Ed). exists n, x, d. split; [left; reflexivity|]. split; [exact E2|]. split; [exact Hd|].
    rewrite Ed. num.
  - apply bind_ok_inv in H0 as (x & H1 & H0). pose proof (good_compute WIN HV dbg fuel tr _ G _ H1) as Gx.
    assert (T : times z = times x).
    { apply from_samples_wf in H0 as (_ & P & _); [rewrite times_points, P, <- times_points; unfold times; rewrite map_map; reflexivity|].
      unfold times. rewrite map_map. apply Gx. }
    intros c Hc. destruct (from_times z x T c Hc) as (d & Hd & Ed). rewrite <- Ed. eapply (IHphi C A); eauto.
  - apply bind_ok_inv in H0 as (x & H1 & H0). pose proof (good_compute WIN HV dbg fuel tr _ G _ H1) as Gx. apply temporal_times in H0; [|exact Gx].
    intros c Hc. destruct (from_times z x H0 c Hc) as (d & Hd & Ed). rewrite <- Ed. eapply (IHphi C A); eauto.
  - apply bind_ok_inv in H0 as (x & H1 & H0). pose proof (good_compute WIN HV dbg fuel tr _ G _ H1) as Gx. apply temporal_times in H0; [|exact Gx].
    intros c Hc. destruct (from_times z x H0 c Hc) as (d & Hd & Ed). rewrite <- Ed. eapply (IHphi C A); eauto.
  - cbn [free_of is_const is_andor] in C, A. cbn in C, A. apply andb_prop in C as [C1 C2], A as [A1 A2].
    apply bind_ok_inv in H0 as (x & H1 & H0). apply bind_ok_inv in H0 as (y & H2 & H0). apply rob_until_inv in H0.
    pose proof (good_compute WIN HV dbg fuel tr _ G _ H1) as [Wx Nx]. pose proof (good_compute WIN HV dbg fuel tr _ G _ H2) as [Wy Ny].
    pose proof (IHphi1 C1 A1 _ H1) as F1. pose proof (IHphi2 C2 A2 _ H2) as F2.
    intros c Hc. destruct (until_from dbg x y z (conj Wx Nx) (conj Wy Ny) H0 c Hc) as (d & [Hd|Hd] & Ed).
    + destruct (F1 d Hd) as (n & u & a & P & Q & R & S). exists n, u, a. split; [apply in_or_app; auto|]. split; [exact Q|]. split; [exact R|num].
    + destruct (F2 d Hd) as (n & u & a & P & Q & R & S). exists n, u, a. split; [apply in_or_app; auto|]. split; [exact Q|]. split; [exact R|num].
Qed.
End C.

Lemma C89_lemma dbg fuel phi (tr : trace B64) s z len : Forall (fun e => wf (snd e) /\ snd e <> []) tr ->
  (forall n x, has_signal tr n x -> length x <= len n) -> compute_robustness dbg fuel phi tr s = Ok z -> length z <= size len phi.
Proof. intros G L H. apply (compute_kept b64_win b64_hv dbg fuel tr len G L phi z H). Qed.

Lemma C90_lemma dbg fuel phi (tr : trace B64) s z : Forall (fun e => wf (snd e) /\ snd e <> []) tr -> keys_unique tr ->
  compute_robustness dbg fuel phi tr s = Ok z -> forall n x, In n (names phi) -> has_signal tr n x ->
  nleb (begin_time x) (begin_time z) = true /\ nleb (end_time z) (end_time x) = true /\
  forall a, In a x -> nleb (begin_time z) (s_time a) = true -> nleb (s_time a) (end_time z) = true ->
    exists c, In c z /\ neqb (s_time c) (s_time a) = true.
Proof.
  intros G U H n x Hn Hx. set (len := fun n => match trace_find tr n with Some x => length x | None => 0 end).
  assert (L : forall n x, has_signal tr n x -> length x <= len n).
  { intros n' x' H'. apply (trace_find_iff tr n' x' U) in H'. unfold len. rewrite H'. auto. }
  destruct (compute_kept b64_win b64_hv dbg fuel tr len G L phi z H) as [_ K].
  destruct (K n x Hn) as [[A B] C]; [apply trace_find_iff; assumption|]. split; [exact A|]. split; [exact B|]. intros a Ha A1 A2. apply C; [exact Ha|split; assumption].
Qed.

Lemma C90_from_lemma dbg fuel phi (tr : trace B64) s z : Forall (fun e => wf (snd e) /\ snd e <> []) tr ->
  free_of is_const phi = true -> free_of is_andor phi = true -> compute_robustness dbg fuel phi tr s = Ok z ->
  forall c, In c z -> exists n x a, In n (names phi) /\ has_signal tr n x /\ In a x /\ neqb (s_time c) (s_time a) = true.
Proof. intros G C A H. exact (compute_from b64_win b64_hv dbg fuel tr G phi C A z H). Qed.

Definition c89_tr : trace B64 :=
  [(sx, sig_of [(dbl 0 0, dbl 0 0); (dbl 3 0, dbl 0 0)]); (sy, sig_of [(dbl 0 0, dbl 1 0); (dbl 1 0, dbl (-1) 0); (dbl 2 0, dbl 1 0)])].
Definition c89_phi : expr B64 := EAnd [EPred sx GT (dbl 0 0); EPred sy GT (dbl 0 0)].
Definition c89_len (n : string) : nat := if String.eqb n sx then 2 else 3.
Lemma c89_good : Forall (fun e => wf (snd e) /\ snd e <> []) c89_tr.
Proof. repeat constructor; try discriminate; apply b64_wf; vm_compute; reflexivity. Qed.
Lemma C89_case_lemma : Forall (fun e => wf (snd e) /\ snd e <> []) c89_tr /\ keys_unique c89_tr /\
  (forall n x, has_signal c89_tr n x -> length x <= c89_len n) /\
  exists z, compute_robustness true 0 c89_phi c89_tr false = Ok z /\ length z = size c89_len c89_phi /\ size c89_len c89_phi = 5.
Proof.
  split; [exact c89_good|]. split.
  { unfold keys_unique. cbn. repeat constructor; cbn; intuition discriminate. }
  split; [intros n x [[= <- <-]|[[= <- <-]|[]]]; cbn; auto|].
  destruct (one_ok (compute_robustness true 0 c89_phi c89_tr false) (fun z => Nat.eqb (length z) 5)) as (z & E & H); [vm_compute; reflexivity|].
  exists z. split; [exact E|]. apply Nat.eqb_eq in H. split; [rewrite H|]; reflexivity.
Qed.
Lemma C90_case_lemma : Forall (fun e => wf (snd e) /\ snd e <> []) btr /\ keys_unique btr /\ (exists z, compute_robustness true 0 bphi btr false = Ok z) /\
  In sx (names bphi) /\ In sy (names bphi).
Proof.
  destruct C43_case_lemma as [A B]. split; [exact A|]. split; [unfold keys_unique; cbn; repeat constructor; cbn; intuition discriminate|]. split; [exact B|].
  split; cbn; auto.
Qed.

Definition c90_phi : expr B64 := EAlways (EUntil bq (ENot bp) interval_default) interval_default.
Lemma C90_from_case_lemma : Forall (fun e => wf (snd e) /\ snd e <> []) btr /\ free_of is_const c90_phi = true /\ free_of is_andor c90_phi = true /\
  exists z, compute_robustness true 0 c90_phi btr false = Ok z /\ length z = 4.
Proof.
  split; [exact btr_good|]. split; [reflexivity|]. split; [reflexivity|].
  destruct (one_ok (compute_robustness true 0 c90_phi btr false) (fun z => Nat.eqb (length z) 4)) as (z & E & H); [vm_compute; reflexivity|].
  exists z. apply Nat.eqb_eq in H. auto.
Qed.
