(** C128: until over samples, in double arithmetic. *)
From Coq Require Import Reals Lia.
From Verif Require Import Base Num NumB64.
From Verif.Model Require Import Signal Ast Robustness.
From Verif.Spec Require Import SignalSpec Formula UntilSpec UntilSampled.
From Verif.Proofs Require Import NumFacts B64Facts SignalFacts SyncProps RobFacts RobWf UntilFacts RobExamples UntilSign.
Local Open Scope nat_scope.

Lemma nth_split_skip {A} (l : list A) k c : nth_error l k = Some c -> l = firstn k l ++ c :: skipn (S k) l /\ length (firstn k l) = k /\ skipn k l = c :: skipn (S k) l.
Proof.
  revert k. induction l as [|a l IH]; intros [|k] E; try discriminate E.
  - cbn in E. apply (f_equal (fun o => match o with Some d => d | None => c end)) in E. subst a. auto.
  - destruct (IH k E) as (A1 & A2 & A3). split; [|split].
    + cbn [firstn skipn app]. f_equal. exact A1.
    + cbn [firstn length]. f_equal. exact A2.
    + exact A3.
Qed.
Lemma times_F2 (x y x' y' : signal B64) : times x' = times x -> times y' = times y -> Forall2 (fun a b => neqb (s_time a) (s_time b) = true) x y -> Forall2 (fun a b => neqb (s_time a) (s_time b) = true) x' y'.
Proof.
  intros Ex Ey F. revert x' y' Ex Ey. induction F as [|a b x y E F IH]; intros x' y' Ex Ey; destruct x' as [|a' x'], y' as [|b' y']; try discriminate; constructor.
  - apply (f_equal (hd nzero)) in Ex, Ey. cbn in Ex, Ey. rewrite Ex, Ey. exact E.
  - apply (f_equal (@tl _)) in Ex, Ey. apply IH; assumption.
Qed.

Section Facts.
Variables (dbg : bool) (fuel : nat) (tr : trace B64) (s : bool).
Hypothesis U : keys_unique tr.
Hypothesis G : Forall (fun e => wf (snd e) /\ snd e <> [] /\ Forall (fun a => finite (s_time a) = true /\ finite (s_value a) = true) (snd e)) tr.

(** C48 by the number of the sample. *)
Lemma operand e : sampled_operand tr e -> exists n x z, names e = [n] /\ has_signal tr n x /\ compute_robustness dbg fuel e tr s = Ok z /\ times z = times x /\ all_num (values z) /\ length x = length z /\
  forall k v, nth_error (values z) k = Some v -> (nltb nzero v = true -> sampled_sat e (skipn k x)) /\ (nltb v nzero = true -> ~ sampled_sat e (skipn k x)).
Proof.
  intros (C1 & C2 & C3 & C4 & C5 & C6). destruct (C48_lemma dbg fuel tr s e U C1 C2 C3 C4 C5 C6 G) as (n & x & z & En & Hx & Hz & T & N & K).
  assert (L : length x = length z) by (apply (f_equal (@length _)) in T; unfold times in T; rewrite !map_length in T; congruence).
  exists n, x, z. repeat (split; [assumption|]). intros k v Hv. unfold values in Hv. rewrite nth_error_map in Hv. destruct (nth_error z k) as [c|] eqn:Ec; [|discriminate Hv].
  apply (f_equal (fun o => match o with Some d => d | None => v end)) in Hv. cbn in Hv. subst v.
  destruct (nth_error x k) as [d|] eqn:Ed. 2:{ apply nth_error_None in Ed. assert (k < length z) by (apply nth_error_Some; congruence). lia. }
  destruct (nth_split_skip z k c Ec) as (Z1 & Z2 & _). destruct (nth_split_skip x k d Ed) as (X1 & X2 & X3). rewrite X3. apply (K (firstn k x) d (skipn (S k) x) (firstn k z) c (skipn (S k) z)); [exact X1|exact Z1|congruence].
Qed.

Lemma until_facts a b i : sampled_operand tr a -> sampled_operand tr b -> made_interval i ->
  (forall n m x y, In n (names a) -> In m (names b) -> has_signal tr n x -> has_signal tr m y -> Forall2 (fun p q => neqb (s_time p) (s_time q) = true) x y) ->
  exists n m x y w z, names a = [n] /\ names b = [m] /\ has_signal tr n x /\ has_signal tr m y /\ compute_robustness dbg fuel b tr s = Ok w /\
    compute_robustness dbg fuel (EUntil a b i) tr s = Ok z /\ times z = times x /\ forall k v, nth_error (values z) k = Some v ->
      (nltb v nzero = true -> ~ until_sampled a b x y k) /\
      (forall q, last_opt (values w) = Some q -> nltb nzero q = true -> nltb nzero v = true -> until_sampled a b x y k).
Proof.
  intros Ha Hb M ST. destruct (operand a Ha) as (n & x & u & Na & Hx & Hu & Tu & Nu & Lu & Ku). destruct (operand b Hb) as (m & y & w & Nb & Hy & Hw & Tw & Nw & Lw & Kw).
  assert (G' : Forall (fun e => wf (snd e) /\ snd e <> []) tr) by (eapply Forall_impl; [|exact G]; intros e (A & B & _); auto).
  destruct (C43_lemma _ _ _ _ _ _ G' Hu) as (Wu & Zu). destruct (C43_lemma _ _ _ _ _ _ G' Hw) as (Ww & Zw).
  assert (TT : Forall2 (fun p q => neqb (s_time p) (s_time q) = true) u w).
  { apply (times_F2 x y); [exact Tu|exact Tw|]. apply (ST n m); [rewrite Na; left; reflexivity|rewrite Nb; left; reflexivity|exact Hx|exact Hy]. }
  pose proof (sync_fixed u w Wu Ww Zu TT) as Sy. destruct (C79_lemma dbg fuel tr s a b i u w u w G' M Hu Hw Sy Nu Nw) as (z & Hz & Tz & K).
  exists n, m, x, y, w, z. repeat (split; [assumption|]). split; [congruence|]. intros k v Hv. destruct (K k v Hv) as (_ & K2 & K3).
  assert (AT : forall (l : signal B64) j, j < length l -> exists c, nth_error (values l) j = Some c /\ In c (values l)).
  { intros l j Lj. destruct (nth_error (values l) j) as [c|] eqn:E; [exists c; split; [reflexivity|eapply nth_error_In, E]|]. apply nth_error_None in E. unfold values in E. rewrite map_length in E. lia. }
  assert (LT : length u = length w) by (clear -TT; induction TT; cbn; congruence).
  split.
  - intros Neg (j & Lj & Sb & Sa). apply (K2 Neg). destruct (AT w j ltac:(lia)) as (q & Eq & Iq). exists j, q. split; [lia|]. split; [exact Eq|].
    assert (NN : forall (l : signal B64) c, all_num (values l) -> In c (values l) -> nltb c nzero = false -> nleb nzero c = true).
    { intros l c A I Q. unfold all_num in A. rewrite Forall_forall in A. specialize (A c I). apply (nltb_false c nzero A isnum_zero) in Q. apply nleb_true. split; [apply isnum_zero|]. split; [exact A|exact Q]. }
    split; [apply (NN w q Nw Iq)|intros l p Ll Ep; apply (NN u p Nu (nth_error_In _ _ Ep))].
    + destruct (nltb q nzero) eqn:Q; [|reflexivity]. exfalso. exact (proj2 (Kw j q Eq) Q Sb).
    + destruct (nltb p nzero) eqn:Q; [|reflexivity]. exfalso. exact (proj2 (Ku l p Ep) Q (Sa l Ll)).
  - intros q Lq Pq Pv. destruct (proj1 (K3 q Lq Pq) Pv) as (j & c & Lj & Ec & Pc & Q). exists j.
    assert (j < length (values w)) as Lj2 by (apply nth_error_Some; congruence). unfold values in Lj2. rewrite map_length in Lj2. split; [lia|]. split; [exact (proj1 (Kw j c Ec) Pc)|].
    intros l Ll. destruct (AT u l ltac:(lia)) as (p & Ep & _). exact (proj1 (Ku l p Ep) (Q l p Ll Ep)).
Qed.
End Facts.
