(** The rolling min/max between samples (exact arithmetic). *)
From Coq Require Import Sorted Reals Lra Psatz.
From Flocq Require Import Core.Raux.
From Verif Require Import Base Num NumXR.
From Verif.Model Require Import Signal MinMax.
From Verif.Spec Require Import SignalSpec Pwl.
From Verif.Proofs Require Import NumFacts SignalFacts PwlFacts SyncExact SampleFacts PairExact SeqFacts SignalProps.
Open Scope R_scope.

Section Roll.
Variables (sg : R) (comp : sample XR -> sample XR -> bool).
Hypothesis SG : sg_comp sg comp.

Fixpoint vb (p : R * R) (r : list (R * R)) : R :=
  match r with
  | [] => snd p
  | q :: r' => let o := vb q r' in if Rle_bool (sg * snd p) (sg * o) then snd p else o
  end.
Fixpoint rroll (l : list (R * R)) : list (R * R) :=
  match l with [] => [] | p :: r => (fst p, vb p r) :: rroll r end.

Lemma best_of_fsig r : forall p a x, a :: x = fsig (p :: r) -> s_value (best_of comp a x) = Fin (vb p r).
Proof.
  induction r as [|q r IH]; intros p a x E.
  - rewrite fsig_cons in E. injection E as E1 E2. subst. reflexivity.
  - rewrite fsig_cons in E. destruct x as [|b x]; [rewrite fsig_cons in E; discriminate|].
    assert (E2 : b :: x = fsig (q :: r)) by (apply (f_equal (@tl _)) in E; exact E).
    apply (f_equal (@hd _ a)) in E. cbn [hd] in E.
    specialize (IH q b x E2). cbn [best_of vb].
    assert (Ha : s_value a = Fin (snd p)) by (rewrite E; reflexivity).
    cbn zeta. rewrite (proj2 SG _ _ _ _ Ha IH). destruct (Rle_bool _ _); assumption.
Qed.

Lemma rollp_fsig l : rollp comp (fsig l) = map inj (rroll l).
Proof.
  induction l as [|p r IH]; [reflexivity|]. destruct (fsig (p :: r)) as [|a x] eqn:E; [rewrite fsig_cons in E; discriminate|].
  symmetry in E. pose proof (best_of_fsig _ _ _ _ E) as V. pose proof (fsig_head _ _ _ _ E) as (T & _ & -> & _).
  cbn [rollp rroll map]. rewrite V, T, IH. reflexivity.
Qed.

Lemma rroll_fst l : map fst (rroll l) = map fst l.
Proof. induction l as [|p r IH]; cbn; [|rewrite IH]; reflexivity. Qed.

Lemma rincr_fst l : rincr l <-> StronglySorted Rlt (map fst l).
Proof.
  induction l as [|p l IH]; [split; constructor|]. rewrite rincr_cons, IH. cbn [map]. split.
  - intros [A B]. constructor; [exact A|]. apply Forall_map. exact B.
  - intros H. inversion H; subst. split; [assumption|]. apply Forall_map. assumption.
Qed.
Lemma rincr_rroll l : rincr l -> rincr (rroll l).
Proof. rewrite !rincr_fst, rroll_fst. auto. Qed.

Lemma seq_fsig l : rincr l -> l <> [] -> minmax_seq comp (fsig l) = Ok (fsig (rroll l)).
Proof.
  intros I Hne. rewrite minmax_seq_roll; [rewrite rollp_fsig; reflexivity|apply fsig_wf, I|].
  destruct l; [congruence|]. rewrite fsig_cons. discriminate.
Qed.

Lemma vb_cases p q r : sg * vb p (q :: r) <= sg * snd p /\ sg * vb p (q :: r) <= sg * vb q r /\
  (vb p (q :: r) = snd p \/ vb p (q :: r) = vb q r).
Proof. cbn [vb]. cbn zeta. case Rle_bool_spec; intros; repeat split; auto; lra. Qed.

Lemma vb_In r : forall p, exists c, In c (p :: r) /\ vb p r = snd c.
Proof.
  induction r as [|q r IH]; intros p; [exists p; cbn; auto|]. destruct (vb_cases p q r) as (_ & _ & [-> | ->]).
  - exists p. cbn; auto.
  - destruct (IH q) as (c & Hc & ->). exists c. split; [right; exact Hc|reflexivity].
Qed.
Lemma vb_le r : forall p c, In c (p :: r) -> sg * vb p r <= sg * snd c.
Proof.
  induction r as [|q r IH]; intros p c Hc; [destruct Hc as [<-|[]]; cbn; lra|].
  destruct (vb_cases p q r) as (A & B & _). destruct Hc as [<-|Hc]; [exact A|]. specialize (IH q c Hc). lra.
Qed.

(** Weight of the right end. *)
Lemma line_weight (p q : R * R) t : fst p < fst q -> fst p <= t <= fst q -> exists k, 0 <= k <= 1 /\
  (fst p < t -> 0 < k) /\ (t < fst q -> k < 1) /\ (forall a b, line (fst p, a) (fst q, b) t = (1 - k) * a + k * b) /\
  k = (t - fst p) * / (fst q - fst p).
Proof.
  intros L Ht. exists ((t - fst p) / (fst q - fst p)).
  assert (P : 0 < / (fst q - fst p)) by (apply Rinv_0_lt_compat; lra).
  assert (E : 1 - (t - fst p) / (fst q - fst p) = (fst q - t) * / (fst q - fst p)) by (field; lra).
  assert (E0 : (t - fst p) / (fst q - fst p) = (t - fst p) * / (fst q - fst p)) by reflexivity.
  set (k := (t - fst p) / (fst q - fst p)) in *. clearbody k.
  split; [split; nra|]. split; [intros; nra|]. split; [intros; nra|]. split; [|exact E0].
  intros a b. unfold line. cbn [fst snd]. rewrite E0. field. lra.
Qed.

Lemma line_eta p q t : line p q t = line (fst p, snd p) (fst q, snd q) t.
Proof. reflexivity. Qed.

Lemma vb_bound p r t v : rincr (p :: r) -> pwl (p :: r) t v -> sg * vb p r <= sg * v.
Proof.
  intros I [(c & Hc & _ & <-)|(l1 & c & d & l2 & E & Ht & ->)]; [apply vb_le, Hc|].
  assert (Hc : In c (p :: r)) by (rewrite E; apply in_or_app; right; left; reflexivity).
  assert (Hd : In d (p :: r)) by (rewrite E; apply in_or_app; right; right; left; reflexivity).
  apply vb_le in Hc, Hd. fold (line c d t). destruct (line_weight c d t) as (k & K & _ & _ & W & _); try lra.
  rewrite line_eta, W. nra.
Qed.

(** Values at or after a time inside the segment [p,q]. *)
Lemma later_values l1 p q r t t' v' : rincr (l1 ++ p :: q :: r) -> fst p <= t -> t <= t' ->
  pwl (l1 ++ p :: q :: r) t' v' -> (t' <= fst q /\ v' = line p q t') \/ (fst q < t' /\ pwl (q :: r) t' v').
Proof.
  intros I Ht Htt H. pose proof (repr_app_r _ _ _ (repr_pw _ I)) as R.
  assert (Hne : l1 ++ p :: q :: r <> []) by (destruct l1; discriminate).
  apply pwl_pw in H as [B ->]; auto. rewrite final_app in B by discriminate.
  assert (Iq : rincr (p :: q :: r)) by (apply rincr_app in I; apply I).
  rewrite <- (repr_eq_pw _ _ _ R) by (try discriminate; cbn [first_time]; lra).
  destruct (Rle_dec t' (fst q)) as [C|C].
  - left. split; [exact C|]. apply pw_first, C.
  - right. split; [lra|]. rewrite pw_tail by (auto; lra). apply rincr_cons2 in Iq as [_ Iq].
    apply pwl_pw; auto; [discriminate|]. cbn [first_time]. rewrite final_cons in B. split; [lra|reflexivity].
Qed.

Lemma rroll_app l1 p r : exists z1, rroll (l1 ++ p :: r) = z1 ++ (fst p, vb p r) :: rroll r /\ length z1 = length l1.
Proof.
  induction l1 as [|a l1 IH]; cbn [app].
  - exists []. split; reflexivity.
  - destruct IH as (z1 & E & L). cbn [rroll]. rewrite E. eexists (_ :: z1). split; [reflexivity|]. cbn. auto.
Qed.

Lemma rroll_final l : first_time (rroll l) = first_time l /\ final_time (rroll l) = final_time l.
Proof.
  split; [destruct l; reflexivity|]. unfold final_time. pose proof (rroll_fst l) as E.
  apply (f_equal last_opt) in E. rewrite !last_opt_map in E. destruct (last_opt (rroll l)), (last_opt l); cbn in E; congruence.
Qed.

(** Output at a sample time. *)
Lemma roll_at l1 p r v : rincr (l1 ++ p :: r) ->
  (pwl (rroll (l1 ++ p :: r)) (fst p) v <-> v = vb p r).
Proof.
  intros I. pose proof (rincr_rroll _ I) as I'. destruct (rroll_app l1 p r) as (z1 & E & _). rewrite E in *. split.
  - intros H. apply pwl_pw in H as [_ ->]; [|exact I'|destruct z1; discriminate].
    pose proof (repr_pw _ I') as Q. apply (repr_In _ _ (fst p, vb p r)) in Q; [symmetry; exact Q|].
    apply in_or_app. right. left. reflexivity.
  - intros ->. left. exists (fst p, vb p r). split; [|split; reflexivity]. apply in_or_app. right. left. reflexivity.
Qed.

Lemma roll_mid l1 p q r t v : rincr (l1 ++ p :: q :: r) -> fst p < t < fst q ->
  (pwl (rroll (l1 ++ p :: q :: r)) t v <-> v = line (fst p, vb p (q :: r)) (fst q, vb q r) t).
Proof.
  intros I Ht. pose proof (rincr_rroll _ I) as I'. destruct (rroll_app l1 p (q :: r)) as (z1 & E & _). rewrite E in *.
  apply pwl_mid; auto.
Qed.

(** The rolled signal is at least as good as everything from [t] on. *)
Lemma roll_bound l t v t' v' : rincr l -> l <> [] -> pwl (rroll l) t v -> t <= t' -> pwl l t' v' -> sg * v <= sg * v'.
Proof.
  intros I Hne H Htt H'. pose proof (rincr_rroll _ I) as I'.
  assert (Hz : rroll l <> []) by (destruct l; [congruence|discriminate]).
  assert (B : first_time l <= t <= final_time l).
  { apply pwl_pw in H as [B _]; auto. destruct (rroll_final l) as [-> ->] in B. exact B. }
  destruct (find_segment l t I Hne B) as [(p & Hp & <-)|(l1 & p & q & r & -> & Ht)].
  - apply in_split in Hp as (l1 & r & ->). apply roll_at in H; [|exact I]. subst v.
    assert (Hs : pwl (p :: r) t' v').
    { pose proof (repr_app_r _ _ _ (repr_pw _ I)) as Q. apply pwl_pw in H' as [B' ->]; auto. rewrite final_app in B' by discriminate.
      apply (repr_pwl _ _ _ _ Q); [discriminate|]. cbn [first_time]. split; [lra|reflexivity]. }
    eapply vb_bound; [|exact Hs]. apply rincr_app in I. apply I.
  - apply roll_mid in H; auto. subst v. pose proof I as I0. apply rincr_app in I0 as (_ & I0 & _). pose proof I0 as I1. apply rincr_cons2 in I1 as [L I1].
    destruct (vb_cases p q r) as (C1 & C2 & C3). pose proof (vb_le r q q (or_introl eq_refl)) as C4.
    destruct (line_weight p q t) as (k & K & K0 & K1 & W & Ek); try lra. rewrite W.
    destruct (later_values _ _ _ _ t _ _ I (Rlt_le _ _ (proj1 Ht)) Htt H') as [[D ->]|[D Q]].
    + destruct (line_weight p q t') as (k' & K' & _ & _ & W' & Ek'); try lra. rewrite line_eta, W'.
      assert (k <= k') by (subst k k'; apply Rmult_le_compat_r; [apply Rlt_le, Rinv_0_lt_compat; lra|lra]).
      set (a := sg * snd p) in *. set (b := sg * snd q) in *. set (m := sg * vb q r) in *. set (mp := sg * vb p (q :: r)) in *.
      replace (sg * ((1 - k) * vb p (q :: r) + k * vb q r)) with ((1 - k) * mp + k * m) by (unfold mp, m; ring).
      replace (sg * ((1 - k') * snd p + k' * snd q)) with ((1 - k') * a + k' * b) by (unfold a, b; ring).
      assert (M : mp = a \/ mp = m) by (unfold mp, a, m; destruct C3 as [-> | ->]; auto). clearbody a b m mp.
      destruct M as [-> | ->].
      * assert ((1 - k) * a + k * m <= (1 - k') * a + k' * m) by nra. nra.
      * nra.
    + apply vb_bound in Q; [|exact I1]. 
      replace (sg * ((1 - k) * vb p (q :: r) + k * vb q r)) with ((1 - k) * (sg * vb p (q :: r)) + k * (sg * vb q r)) by ring. nra.
Qed.

(** At sample times it is attained. *)
Lemma roll_attained_at l p v : rincr l -> In p l -> pwl (rroll l) (fst p) v ->
  exists t', fst p <= t' /\ pwl l t' v.
Proof.
  intros I Hp H. apply in_split in Hp as (l1 & r & ->). apply roll_at in H; [|exact I]. subst v.
  destruct (vb_In r p) as (c & Hc & ->). exists (fst c). split.
  - apply rincr_app in I as (_ & I & _). apply rincr_cons in I as [_ I]. rewrite Forall_forall in I.
    destruct Hc as [<-|Hc]; [lra|]. specialize (I c Hc). lra.
  - left. exists c. split; [apply in_or_app; right; exact Hc|auto].
Qed.

(** Between samples it is attained iff not (snd p better than the later extreme, which is strictly better than snd q). *)
Lemma roll_attained_mid l1 p q r t v : rincr (l1 ++ p :: q :: r) -> fst p < t < fst q ->
  pwl (rroll (l1 ++ p :: q :: r)) t v ->
  ~ (sg * snd p < sg * vb q r /\ sg * vb q r < sg * snd q) ->
  exists t', t <= t' /\ pwl (l1 ++ p :: q :: r) t' v.
Proof.
  intros I Ht H C. apply roll_mid in H; auto. subst v.
  pose proof I as I0. apply rincr_app in I0 as (_ & I0 & _). pose proof I0 as I1. apply rincr_cons2 in I1 as [L I1].
  destruct (vb_cases p q r) as (C1 & C2 & C3). pose proof (vb_le r q q (or_introl eq_refl)) as C4.
  assert (S0 : sg <> 0) by apply SG.
  destruct (Rle_dec (sg * vb q r) (sg * snd p)) as [D|D].
  - assert (E : vb p (q :: r) = vb q r).
    { cbn [vb]. cbn zeta. case Rle_bool_spec; intros; [|reflexivity]. apply (Rmult_eq_reg_l sg); [lra|exact S0]. }
    destruct (vb_In r q) as (c & Hc & Ec). exists (fst c). split.
    + apply rincr_cons in I1 as [_ I1]. rewrite Forall_forall in I1. destruct Hc as [<-|Hc]; [lra|]. specialize (I1 c Hc). lra.
    + destruct (line_weight p q t) as (k & K & K0 & K1 & W & Ek); try lra. rewrite W, E. left. exists c.
      split; [apply in_or_app; right; right; exact Hc|]. split; [reflexivity|]. rewrite <- Ec. ring.
  - assert (E : vb p (q :: r) = snd p).
    { cbn [vb]. cbn zeta. case Rle_bool_spec; intros; [reflexivity|lra]. }
    assert (E2 : vb q r = snd q) by (apply (Rmult_eq_reg_l sg); [lra|exact S0]).
    rewrite E, E2. exists t. split; [lra|]. apply pwl_mid; auto.
Qed.

Lemma roll_strict l1 p q r t v : rincr (l1 ++ p :: q :: r) -> fst p < t < fst q ->
  pwl (rroll (l1 ++ p :: q :: r)) t v ->
  sg * snd p < sg * vb q r /\ sg * vb q r < sg * snd q ->
  forall t' v', t <= t' -> pwl (l1 ++ p :: q :: r) t' v' -> sg * v < sg * v'.
Proof.
  intros I Ht H C t' v' Htt H'. apply roll_mid in H; auto. subst v.
  pose proof I as I0. apply rincr_app in I0 as (_ & I0 & _). pose proof I0 as I1. apply rincr_cons2 in I1 as [L I1].
  assert (E : vb p (q :: r) = snd p) by (cbn [vb]; cbn zeta; case Rle_bool_spec; intros; [reflexivity|lra]).
  rewrite E. destruct (line_weight p q t) as (k & K & K0 & K1 & W & Ek); try lra. rewrite W.
  specialize (K0 (proj1 Ht)). specialize (K1 (proj2 Ht)).
  destruct (later_values _ _ _ _ t _ _ I (Rlt_le _ _ (proj1 Ht)) Htt H') as [[D ->]|[D Q]].
  - destruct (line_weight p q t') as (k' & K' & K2 & _ & W' & Ek'); try lra. rewrite line_eta, W'.
    assert (k <= k') by (subst k k'; apply Rmult_le_compat_r; [apply Rlt_le, Rinv_0_lt_compat; lra|lra]).
    set (a := sg * snd p) in *. set (b := sg * snd q) in *. set (m := sg * vb q r) in *.
    replace (sg * ((1 - k) * snd p + k * vb q r)) with ((1 - k) * a + k * m) by (unfold a, m; ring).
    replace (sg * ((1 - k') * snd p + k' * snd q)) with ((1 - k') * a + k' * b) by (unfold a, b; ring).
    clearbody a b m. assert ((1 - k) * a + k * m <= (1 - k') * a + k' * m) by nra. nra.
  - apply vb_bound in Q; [|exact I1].
    replace (sg * ((1 - k) * snd p + k * vb q r)) with ((1 - k) * (sg * snd p) + k * (sg * vb q r)) by ring. nra.
Qed.
End Roll.
