(** C129: until where the right operand is not reached. *)
From Coq Require Import Reals Lra Lia.
From Verif Require Import Base Num NumB64.
From Verif.Model Require Import Signal Ast Robustness.
From Verif.Spec Require Import SignalSpec Formula UntilSpec UntilSampled.
From Verif.Proofs Require Import NumFacts B64Facts SignalFacts SyncProps RobFacts RobWf UntilFacts RobExamples UntilSign UntilSampledFacts.
Local Open Scope nat_scope.

Lemma C129_values_lemma dbg fuel (tr : trace B64) s a b i x y x' y' :
  Forall (fun e => wf (snd e) /\ snd e <> []) tr -> made_interval i ->
  compute_robustness dbg fuel a tr s = Ok x -> compute_robustness dbg fuel b tr s = Ok y ->
  synchronize x y = Ok (x', y') -> all_num (values x') -> all_num (values y') ->
  exists z, compute_robustness dbg fuel (EUntil a b i) tr s = Ok z /\ times z = times x' /\
    forall k v, nth_error (values z) k = Some v ->
      ((forall l q, k <= l -> nth_error (values y') l = Some q -> nltb q nzero = true) -> nltb nzero v = true) /\
      ((forall l q, k <= l -> nth_error (values y') l = Some q -> nleb q nzero = true) -> nleb nzero v = true) /\
      (S k = length (values z) -> nleb nzero v = true).
Proof.
  intros G M Ea Eb S0 Nx Ny. destruct (C37_lemma dbg fuel tr s a b i x y x' y' G M Ea Eb S0 Nx Ny) as (z & E & T & K).
  destruct (C43_lemma _ _ _ _ _ _ G Ea) as [Wx _]. destruct (C43_lemma _ _ _ _ _ _ G Eb) as [Wy _].
  destruct (sync_out _ _ _ _ Wx Wy S0) as (_ & _ & _ & _ & TT).
  assert (L : length x' = length y') by (clear -TT; induction TT; cbn; congruence).
  assert (LZ : length (values z) = length (values y')).
  { assert (length (times z) = length (times x')) by congruence. unfold times, values in *. rewrite !map_length in *. lia. }
  exists z. split; [exact E|]. split; [exact T|]. intros k v Hv. specialize (K k v Hv).
  assert (Lk : k < length (values y')) by (rewrite <- LZ; apply nth_error_Some; congruence).
  assert (NU : forall c : B64, In c (values y') -> isnum c = true) by (apply Forall_forall; exact Ny).
  split; [|split].
  - intros A. destruct (positive_min (F := B64) (nopp (nth k (values y') nzero)) (map nopp (skipn k (values y')))) as (c & P1 & P2 & P3).
    + assert (Ek : nth_error (values y') k = Some (nth k (values y') nzero)) by (apply nth_error_nth'; exact Lk). pose proof (A k _ (le_n k) Ek) as Q.
      apply nltb_true in Q as (Q1 & Q2 & Q3). apply nltb_true. rewrite isnum_opp, rk_opp. rewrite rk_zero in *. repeat split; try assumption. lra.
    + apply Forall_forall. intros p Hp. apply in_map_iff in Hp as (q & <- & Hq). apply In_nth_error in Hq as (l & Hl).
      assert (El : nth_error (values y') (k + l) = Some q).
      { rewrite <- Hl. clear. generalize (values y') as ps. intros ps. revert k. induction ps as [|p ps IH]; intros [|k]; try reflexivity; [destruct l; reflexivity|]. cbn. apply IH. }
      pose proof (A (k + l) q ltac:(lia) El) as Q. apply nltb_true in Q as (Q1 & Q2 & Q3). apply nltb_true. rewrite isnum_opp, rk_opp. rewrite rk_zero in *. repeat split; try assumption. lra.
    + assert (Nc : isnum c = true) by (apply nltb_true in P1; apply P1).
      assert (Q : nleb c v = true). { apply (K c Nc). right. left. exists k. split; [lia|]. split; [|intros l p Hl; lia].
        intros l q Hl El. rewrite Forall_forall in P3. apply P3, in_map. apply (nth_error_In _ (l - k)).
        rewrite <- El. replace l with (k + (l - k)) at 2 by lia. generalize (l - k) as j. clear. generalize (values y') as ps. intros ps j. revert k. induction ps as [|p ps IH]; intros [|k]; try reflexivity; [destruct j; reflexivity|]. cbn. apply IH. }
      apply nltb_true in P1 as (Q1 & Q2 & Q3). apply nleb_true in Q as (R1 & R2 & R3). apply nltb_true. repeat split; try assumption. lra.
  - intros A. apply (K nzero isnum_zero). right. left. exists k. split; [lia|]. split; [|intros l p Hl; lia].
    intros l q Hl El. pose proof (A l q Hl El) as Q. apply nleb_true in Q as (Q1 & Q2 & Q3). apply nleb_true. rewrite isnum_opp, rk_opp. rewrite rk_zero in *. repeat split; try assumption. lra.
  - intros Last. assert (exists q, nth_error (values y') k = Some q) as (q & Eq) by (destruct (nth_error (values y') k) as [q|] eqn:Q; [eauto|apply nth_error_None in Q; lia]).
    pose proof (NU q (nth_error_In _ _ Eq)) as Nq. apply (K nzero isnum_zero). destruct (nleb nzero q) eqn:Q.
    + left. exists k, q. split; [lia|]. split; [exact Eq|]. split; [exact Q|]. intros l p Hl; lia.
    + right. left. exists k. split; [lia|]. split; [|intros l p Hl; lia]. intros l q' Hl El. assert (l < length (values y')) by (apply nth_error_Some; congruence). assert (l = k) by lia. subst l.
      assert (q' = q) by congruence. subst q'. apply (nleb_false nzero q isnum_zero Nq) in Q. apply nleb_true. rewrite isnum_opp, rk_opp. rewrite rk_zero in *. repeat split; try assumption; lra.
Qed.

Lemma C129_sampled_lemma dbg fuel (tr : trace B64) s : keys_unique tr ->
  Forall (fun e => wf (snd e) /\ snd e <> [] /\ Forall (fun a => finite (s_time a) = true /\ finite (s_value a) = true) (snd e)) tr ->
  forall a b i, sampled_operand tr a -> sampled_operand tr b -> made_interval i ->
  (forall n m x y, In n (names a) -> In m (names b) -> has_signal tr n x -> has_signal tr m y -> Forall2 (fun p q => neqb (s_time p) (s_time q) = true) x y) ->
  exists m y z, names b = [m] /\ has_signal tr m y /\ compute_robustness dbg fuel (EUntil a b i) tr s = Ok z /\ length z = length y /\
    forall k v, nth_error (values z) k = Some v -> (forall l, k <= l < length y -> ~ sampled_sat b (skipn l y)) -> nleb nzero v = true.
Proof.
  intros U G a b i Ha Hb M ST. destruct (operand dbg fuel tr s U G a Ha) as (n & x & u & Na & Hx & Hu & Tu & Nu & Lu & Ku). destruct (operand dbg fuel tr s U G b Hb) as (m & y & w & Nb & Hy & Hw & Tw & Nw & Lw & Kw).
  assert (G' : Forall (fun e => wf (snd e) /\ snd e <> []) tr) by (eapply Forall_impl; [|exact G]; intros e (A & B & _); auto).
  destruct (C43_lemma _ _ _ _ _ _ G' Hu) as (Wu & Zu). destruct (C43_lemma _ _ _ _ _ _ G' Hw) as (Ww & Zw).
  assert (TT : Forall2 (fun p q => neqb (s_time p) (s_time q) = true) u w).
  { apply (times_F2 x y); [exact Tu|exact Tw|]. apply (ST n m); [rewrite Na; left; reflexivity|rewrite Nb; left; reflexivity|exact Hx|exact Hy]. }
  pose proof (sync_fixed u w Wu Ww Zu TT) as Sy. destruct (C129_values_lemma dbg fuel tr s a b i u w u w G' M Hu Hw Sy Nu Nw) as (z & Hz & Tz & K).
  exists m, y, z. repeat (split; [assumption|]). split.
  { assert (length u = length w) by (clear -TT; induction TT; cbn; congruence). assert (length (times z) = length (times u)) by congruence. unfold times in *. rewrite !map_length in *. lia. }
  intros k v Hv No. apply (proj1 (proj2 (K k v Hv))). intros l q Hl El.
  assert (l < length (values w)) as Ll by (apply nth_error_Some; congruence). unfold values in Ll. rewrite map_length in Ll.
  assert (Nq : isnum q = true) by (unfold all_num in Nw; rewrite Forall_forall in Nw; apply Nw; eapply nth_error_In, El).
  destruct (nltb nzero q) eqn:Q; [exfalso; exact (No l ltac:(lia) (proj1 (Kw l q El) Q))|].
  apply (nltb_false nzero q isnum_zero Nq) in Q. apply nleb_true. split; [exact Nq|]. split; [apply isnum_zero|exact Q].
Qed.
