(** Error of the values synchronize interpolates, in doubles. *)
From Coq Require Import Reals Lra Lia Sorted.
From Flocq Require Import Core.Core IEEE754.BinarySingleNaN.
From Verif Require Import Base Num NumB64.
From Verif.Model Require Import Signal MinMax.
From Verif.Spec Require Import SignalSpec Pwl Accuracy.
From Verif.Proofs Require Import NumFacts SignalFacts B64Facts Reshape Sync SyncProps MinMaxProps MinMaxCases InterpError.
Local Open Scope R_scope.

Section From.
Context {F : Type} `{NF : Num F} {NL : NumLaws F}.

(** [c] is a sample of [x], or interpolated strictly between two consecutive ones. *)
Definition from (x : signal F) (t v : F) : Prop :=
  (exists a, In a x /\ s_time a = t /\ s_value a = v) \/
  (exists x1 a b x2, x = x1 ++ a :: b :: x2 /\ nltb (s_time a) t = true /\ nltb t (s_time b) = true /\ v = interpolate a t).

Lemma later (x1 : signal F) a x2 b : increasing (times (x1 ++ a :: x2)) -> In b x2 -> nltb (s_time a) (s_time b) = true.
Proof.
  intros I Hb. unfold times in I. rewrite map_app in I. apply increasing_app in I as (_ & I & _). cbn [map] in I.
  inversion I as [|? ? _ K]; subst. rewrite Forall_map, Forall_forall in K. apply K, Hb.
Qed.

Lemma merged_from x y p xs q ys l : merged p xs q ys l -> increasing (times x) -> increasing (times y) ->
  forall x1 y1, x = x1 ++ p :: xs -> y = y1 ++ q :: ys ->
  (forall b, In b ys -> nltb (s_time p) (s_time b) = true) -> (forall a, In a xs -> nltb (s_time q) (s_time a) = true) ->
  Forall (fun ab => (from x (s_time (fst ab)) (s_value (fst ab)) /\ from y (s_time (snd ab)) (s_value (snd ab))) /\
    ((exists a, In a x /\ s_time a = s_time (fst ab)) \/ (exists b, In b y /\ s_time b = s_time (fst ab))) /\
    ((exists a, In a x /\ s_time a = s_time (snd ab)) \/ (exists b, In b y /\ s_time b = s_time (snd ab)))) l.
Proof.
  intros H Ix Iy. induction H as [| |p i xs q j ys l E H IH|p i xs q j ys l E H IH|p i xs q j ys l E H IH];
    intros x1 y1 Ex Ey Hp Hq; constructor.
  - cbn [fst snd]. assert (In i x) by (rewrite Ex; apply in_or_app; right; right; left; reflexivity).
    assert (In j y) by (rewrite Ey; apply in_or_app; right; right; left; reflexivity).
    split; [split; left; eexists; eauto|]. split; [left|right]; eexists; eauto.
  - apply (IH (x1 ++ [p]) (y1 ++ [q])); [rewrite <- app_assoc; exact Ex|rewrite <- app_assoc; exact Ey| |].
    + intros b Hb. assert (nltb (s_time j) (s_time b) = true).
      { rewrite Ey in Iy. change (q :: j :: ys) with ([q] ++ j :: ys) in Iy. rewrite app_assoc in Iy. eapply later; [exact Iy|exact Hb]. }
      num_hyps. num.
    + intros b Hb. assert (nltb (s_time i) (s_time b) = true).
      { rewrite Ex in Ix. change (p :: i :: xs) with ([p] ++ i :: xs) in Ix. rewrite app_assoc in Ix. eapply later; [exact Ix|exact Hb]. }
      num_hyps. num.
  - cbn [fst snd interp_at s_time s_value]. assert (In i x) by (rewrite Ex; apply in_or_app; right; right; left; reflexivity).
    split; [split|split; left; eexists; eauto].
    + left; eexists; eauto.
    + right. exists y1, q, j, ys. repeat split; [exact Ey|apply Hq; left; reflexivity|exact E].
  - apply (IH (x1 ++ [p]) y1); [rewrite <- app_assoc; exact Ex|exact Ey| |].
    + intros b [<-|Hb]; [exact E|]. assert (nltb (s_time j) (s_time b) = true).
      { rewrite Ey in Iy. change (q :: j :: ys) with ([q] ++ j :: ys) in Iy. rewrite app_assoc in Iy. eapply later; [exact Iy|exact Hb]. }
      num_hyps. num.
    + intros b Hb. apply Hq. right. exact Hb.
  - cbn [fst snd interp_at s_time s_value]. assert (In j y) by (rewrite Ey; apply in_or_app; right; right; left; reflexivity).
    split; [split|split; right; eexists; eauto].
    + right. exists x1, p, i, xs. repeat split; [exact Ex|apply Hp; left; reflexivity|exact E].
    + left; eexists; eauto.
  - apply (IH x1 (y1 ++ [q])); [exact Ex|rewrite <- app_assoc; exact Ey| |].
    + intros b Hb. apply Hp. right. exact Hb.
    + intros b [<-|Hb]; [exact E|]. assert (nltb (s_time i) (s_time b) = true).
      { rewrite Ex in Ix. change (p :: i :: xs) with ([p] ++ i :: xs) in Ix. rewrite app_assoc in Ix. eapply later; [exact Ix|exact Hb]. }
      num_hyps. num.
Qed.

Lemma sig_of_mem (pts : list (F * F)) c : In c (sig_of pts) -> In (s_time c, s_value c) pts.
Proof. induction pts as [|q pts IH]; [intros []|]. cbn [sig_of]. intros [<-|H]; [left; destruct q; reflexivity|right; apply IH, H]. Qed.

Lemma sync_from x y x' y' : wf x -> wf y -> synchronize x y = Ok (x', y') ->
  Forall (fun c => from x (s_time c) (s_value c) /\
    ((exists a, In a x /\ s_time a = s_time c) \/ (exists b, In b y /\ s_time b = s_time c))) x' /\
  Forall (fun c => from y (s_time c) (s_value c) /\
    ((exists a, In a x /\ s_time a = s_time c) \/ (exists b, In b y /\ s_time b = s_time c))) y'.
Proof.
  intros Wx Wy H. destruct (sync_inv _ _ _ _ (wf_fine _ Wx) (wf_fine _ Wy) H) as (x1 & i & xs & y1 & j & ys & l & -> & -> & E & Hb & M & -> & ->).
  destruct Wx as (Nx & Ix & _). destruct Wy as (Ny & Iy & _).
  assert (K := merged_from (x1 ++ i :: xs) (y1 ++ j :: ys) i xs j ys l M Ix Iy x1 y1 eq_refl eq_refl).
  assert (Hi : forall a, In a xs -> nltb (s_time i) (s_time a) = true).
  { intros a Ha. eapply later; [exact Ix|exact Ha]. }
  assert (Hj : forall a, In a ys -> nltb (s_time j) (s_time a) = true).
  { intros a Ha. eapply later; [exact Iy|exact Ha]. }
  specialize (K ltac:(intros b Hb'; specialize (Hj _ Hb'); num_hyps; num) ltac:(intros b Hb'; specialize (Hi _ Hb'); num_hyps; num)).
  rewrite Forall_forall in K. split; apply Forall_forall; intros c Hc; apply sig_of_mem in Hc; cbn [points map] in Hc; destruct Hc as [Hc|Hc].
  - injection Hc as E1 E2. split; [left|left]; exists i; (split; [apply in_or_app; right; left; reflexivity|auto]).
  - unfold points in Hc. rewrite map_map in Hc. apply in_map_iff in Hc as (ab & E1 & Hab). injection E1 as <- <-.
    specialize (K _ Hab). tauto.
  - injection Hc as E1 E2. split; [left|right]; exists j; (split; [apply in_or_app; right; left; reflexivity|auto]).
  - unfold points in Hc. rewrite map_map in Hc. apply in_map_iff in Hc as (ab & E1 & Hab). injection E1 as <- <-.
    specialize (K _ Hab). tauto.
Qed.
End From.

Lemma lt_B2R (a b : B64) : finite a = true -> finite b = true -> nltb a b = true -> B2R a < B2R b.
Proof. intros Fa Fb H. num_hyps. rewrite <- !finite_rk by assumption. assumption. Qed.
Lemma le_B2R (a b : B64) : finite a = true -> finite b = true -> nleb a b = true -> B2R a <= B2R b.
Proof. intros Fa Fb H. num_hyps. rewrite <- !finite_rk by assumption. assumption. Qed.
Lemma eq_B2R (a b : B64) : finite a = true -> finite b = true -> neqb a b = true -> B2R a = B2R b.
Proof. intros Fa Fb H. num_hyps. rewrite <- !finite_rk by assumption. assumption. Qed.

Lemma tolerance_uu V T : tolerance V T = 16 * uu * V + 4 * eta * (T + 1).
Proof.
  unfold tolerance, uu, eta. change (-49)%Z with (4 + -53)%Z. change (-1073)%Z with (2 + -1075)%Z. rewrite !bpow_plus. simpl (bpow radix2 4). simpl (bpow radix2 2). lra.
Qed.
Lemma tolerance_nonneg V T x : mild V T x -> x <> [] -> 0 <= tolerance V T.
Proof.
  intros (M1 & _ & HT & HV) Hx. destruct x as [|a x]; [congruence|]. destruct (M1 a (or_introl eq_refl)) as (_ & _ & _ & B).
  rewrite tolerance_uu. pose proof uu_small. pose proof eta_pos. pose proof (Rabs_pos (B2R (s_value a))).
  apply Rplus_le_le_0_compat; apply Rmult_le_pos; lra.
Qed.

Lemma between_close V T (x x1 : signal B64) a b x2 t : wf x -> mild V T x -> x = x1 ++ a :: b :: x2 -> finite t = true ->
  nleb (s_time a) t = true -> nleb t (s_time b) = true -> close V T x t (interpolate a t).
Proof.
  intros (Nx & Ix & Sx) (M1 & M2 & HT & HV) Ex Ft H1 H2.
  assert (Ha : In a x) by (rewrite Ex; apply in_or_app; right; left; reflexivity).
  assert (Hb : In b x) by (rewrite Ex; apply in_or_app; right; right; left; reflexivity).
  destruct (M1 _ Ha) as (A1 & A2 & A3 & A4). destruct (M1 _ Hb) as (B1 & B2 & B3 & B4). destruct (M2 _ _ _ _ Ex) as (G1 & G2).
  assert (Hab : nltb (s_time a) (s_time b) = true).
  { rewrite Ex in Ix. eapply later; [exact Ix|left; reflexivity]. }
  assert (D : s_deriv a = ndiv (nsub (s_value b) (s_value a)) (nsub (s_time b) (s_time a))).
  { rewrite Ex in Sx. clear - Sx. induction x1 as [|c x1 IH]; [apply Sx|]. apply IH. destruct Sx as [_ Sx]. exact Sx. }
  apply lt_B2R in Hab; [|assumption..]. apply le_B2R in H1; [|assumption..]. apply le_B2R in H2; [|assumption..].
  destruct (interp_error a b t V A1 A2 B1 B2 Ft D Hab (conj H1 H2) A3 B3 A4 B4 HV G2) as (F1 & E1).
  split; [exact F1|]. eexists. split.
  2: { eapply Rle_trans; [exact E1|]. rewrite tolerance_uu. apply Rplus_le_compat_l. apply Rmult_le_compat_l; [pose proof eta_pos; lra|lra]. }
  destruct (Req_dec (B2R t) (B2R (s_time a))) as [Ea|Na].
  { left. exists (B2R (s_time a), B2R (s_value a)). split; [apply in_map_iff; exists a; auto|]. cbn [fst snd]. split; [auto|]. rewrite Ea. field. lra. }
  destruct (Req_dec (B2R t) (B2R (s_time b))) as [Eb|Nb].
  { left. exists (B2R (s_time b), B2R (s_value b)). split; [apply in_map_iff; exists b; auto|]. cbn [fst snd]. split; [auto|]. rewrite Eb. field. lra. }
  right. exists (reals x1), (B2R (s_time a), B2R (s_value a)), (B2R (s_time b), B2R (s_value b)), (reals x2).
  split; [rewrite Ex; unfold reals; rewrite map_app; reflexivity|]. cbn [fst snd]. split; [lra|]. field. lra.
Qed.

Lemma from_close V T (x : signal B64) t v : wf x -> mild V T x -> finite t = true -> from x t v -> close V T x t v.
Proof.
  intros W M Ft [(a & Ha & Et & Ev)|(x1 & a & b & x2 & Ex & H1 & H2 & ->)].
  - subst. destruct (proj1 M _ Ha) as (A1 & A2 & _ & _). split; [exact A2|]. exists (B2R (s_value a)). split.
    + left. exists (B2R (s_time a), B2R (s_value a)). split; [apply in_map_iff; exists a; auto|auto].
    + unfold Rminus. rewrite Rplus_opp_r, Rabs_R0. eapply tolerance_nonneg; [exact M|]. intros ->. destruct Ha.
  - eapply between_close; eauto; num_hyps; num.
Qed.

Lemma C92_sync_lemma V T x y x' y' : wf x -> wf y -> mild V T x -> mild V T y -> synchronize x y = Ok (x', y') ->
  (forall c, In c x' -> close V T x (s_time c) (s_value c)) /\ (forall c, In c y' -> close V T y (s_time c) (s_value c)).
Proof.
  intros Wx Wy Mx My H. destruct (sync_from _ _ _ _ Wx Wy H) as (H1 & H2). rewrite Forall_forall in H1, H2.
  split; intros c Hc; [specialize (H1 c Hc) as (H1 & K)|specialize (H2 c Hc) as (H1' & K)]; apply from_close; auto;
    destruct K as [(a & Ha & <-)|(a & Ha & <-)]; [apply (proj1 Mx _ Ha)|apply (proj1 My _ Ha)|apply (proj1 Mx _ Ha)|apply (proj1 My _ Ha)].
Qed.

Lemma min_close r s r' s' e : Rabs (r - r') <= e -> Rabs (s - s') <= e -> Rabs (Rmin r s - Rmin r' s') <= e.
Proof.
  intros H1 H2. apply Rabs_le_inv in H1. apply Rabs_le_inv in H2. apply Rabs_le.
  unfold Rmin. destruct (Rle_dec r s), (Rle_dec r' s'); lra.
Qed.
Lemma max_close r s r' s' e : Rabs (r - r') <= e -> Rabs (s - s') <= e -> Rabs (Rmax r s - Rmax r' s') <= e.
Proof.
  intros H1 H2. apply Rabs_le_inv in H1. apply Rabs_le_inv in H2. apply Rabs_le.
  unfold Rmax. destruct (Rle_dec r s), (Rle_dec r' s'); lra.
Qed.

Lemma C92_minmax_lemma V T dbg x y x' y' z : wf x -> wf y -> mild V T x -> mild V T y -> synchronize x y = Ok (x', y') ->
  (elementwise_min dbg false x y = Ok z -> forall k a, nth_error x' k = Some a ->
     exists c, In c z /\ neqb (s_time c) (s_time a) = true /\ finite (s_value c) = true /\
       exists r s, pwl (reals x) (B2R (s_time a)) r /\ pwl (reals y) (B2R (s_time a)) s /\
         Rabs (B2R (s_value c) - Rmin r s) <= tolerance V T) /\
  (elementwise_max dbg false x y = Ok z -> forall k a, nth_error x' k = Some a ->
     exists c, In c z /\ neqb (s_time c) (s_time a) = true /\ finite (s_value c) = true /\
       exists r s, pwl (reals x) (B2R (s_time a)) r /\ pwl (reals y) (B2R (s_time a)) s /\
         Rabs (B2R (s_value c) - Rmax r s) <= tolerance V T).
Proof.
  intros Wx Wy Mx My S. destruct (C92_sync_lemma _ _ _ _ _ _ Wx Wy Mx My S) as (H1 & H2).
  destruct (sync_out _ _ _ _ Wx Wy S) as (W1 & W2 & N1 & N2 & Tm).
  destruct (sync_from _ _ _ _ Wx Wy S) as (K1 & K2). rewrite Forall_forall in K1, K2.
  assert (A1 : all_num (values x')).
  { apply Forall_map, Forall_forall. intros c Hc. apply finite_num, (H1 c Hc). }
  assert (A2 : all_num (values y')).
  { apply Forall_map, Forall_forall. intros c Hc. apply finite_num, (H2 c Hc). }
  assert (Ft : forall c, In c x' \/ In c y' -> finite (s_time c) = true).
  { intros c [Hc|Hc]; [destruct (K1 c Hc) as (_ & [(a & Ha & <-)|(a & Ha & <-)])|destruct (K2 c Hc) as (_ & [(a & Ha & <-)|(a & Ha & <-)])];
      [apply (proj1 Mx _ Ha)|apply (proj1 My _ Ha)|apply (proj1 Mx _ Ha)|apply (proj1 My _ Ha)]. }
  assert (P : forall k a, nth_error x' k = Some a -> exists b, nth_error y' k = Some b /\ In a x' /\ In b y' /\
    finite (s_value a) = true /\ finite (s_value b) = true /\
    exists r s, pwl (reals x) (B2R (s_time a)) r /\ pwl (reals y) (B2R (s_time a)) s /\
      Rabs (B2R (s_value a) - r) <= tolerance V T /\ Rabs (B2R (s_value b) - s) <= tolerance V T).
  { intros k a Hk. assert (exists b, nth_error y' k = Some b /\ neqb (s_time a) (s_time b) = true) as (b & Hb & Eb).
    { clear - Tm Hk. revert k Hk. induction Tm as [|u w xs ys E _ IH]; intros [|k] Hk; try discriminate.
      - injection Hk as <-. exists w. auto.
      - apply IH, Hk. }
    exists b. pose proof (nth_error_In _ _ Hk) as Ha. pose proof (nth_error_In _ _ Hb) as Hb'.
    destruct (H1 a Ha) as (F1 & r & P1 & E1). destruct (H2 b Hb') as (F2 & s & P2 & E2).
    apply eq_B2R in Eb; [|apply Ft; auto..]. rewrite <- Eb in P2. repeat split; auto. exists r, s. auto. }
  split; intros M k a Hk; destruct (P k a Hk) as (b & Hb & Ha & Hb' & F1 & F2 & r & s & P1 & P2 & E1 & E2).
  - destruct (C25_min_lemma dbg x y x' y' z Wx Wy S A1 A2 M) as (_ & Q). destruct (Q k a b Hk Hb) as (c & Hc & T1 & _ & V1 & L1 & L2).
    exists c. split; [exact Hc|]. split; [exact T1|].
    assert (Fc : finite (s_value c) = true) by (destruct V1 as [->| ->]; assumption). split; [exact Fc|].
    exists r, s. split; [exact P1|]. split; [exact P2|].
    apply le_B2R in L1; [|assumption..]. apply le_B2R in L2; [|assumption..].
    replace (B2R (s_value c)) with (Rmin (B2R (s_value a)) (B2R (s_value b))).
    + apply min_close; assumption.
    + unfold Rmin. destruct V1 as [Ev|Ev]; rewrite Ev in *; destruct (Rle_dec (B2R (s_value a)) (B2R (s_value b))); lra.
  - destruct (C25_max_lemma dbg x y x' y' z Wx Wy S A1 A2 M) as (_ & Q). destruct (Q k a b Hk Hb) as (c & Hc & T1 & _ & V1 & L1 & L2).
    exists c. split; [exact Hc|]. split; [exact T1|].
    assert (Fc : finite (s_value c) = true) by (destruct V1 as [->| ->]; assumption). split; [exact Fc|].
    exists r, s. split; [exact P1|]. split; [exact P2|].
    apply le_B2R in L1; [|assumption..]. apply le_B2R in L2; [|assumption..].
    replace (B2R (s_value c)) with (Rmax (B2R (s_value a)) (B2R (s_value b))).
    + apply max_close; assumption.
    + unfold Rmax. destruct V1 as [Ev|Ev]; rewrite Ev in *; destruct (Rle_dec (B2R (s_value a)) (B2R (s_value b))); lra.
Qed.
