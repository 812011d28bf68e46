(** Concrete cases and counterexamples for Props/Accuracy.v. *)
From Coq Require Import Reals Lra Lia Sorted.
From Flocq Require Import Core.Core IEEE754.BinarySingleNaN.
From Verif Require Import Base Num NumXR NumB64.
From Verif.Model Require Import Signal MinMax Ast Robustness.
From Verif.Spec Require Import SignalSpec Pwl Formula Semantics Quantitative Accuracy.
From Verif.Proofs Require Import NumFacts SignalFacts SignalProps SyncCases MinMaxExamples UntilFacts RobExamples B64Facts InterpError SyncError.
Local Open Scope R_scope.

Lemma B2R_dbl m e : (Z.abs m < 2 ^ 53)%Z -> (-1074 <= e <= 900)%Z -> B2R (dbl m e) = IZR m * bpow radix2 e /\ finite (dbl m e) = true.
Proof.
  intros Hm He. pose proof (binary_normalize_correct 53 1024 b64_prec_gt_0 b64_prec_lt_emax mode_NE m e false) as H.
  assert (G : round radix2 (SpecFloat.fexp 53 1024) (round_mode mode_NE) (F2R (Float radix2 m e)) = IZR m * bpow radix2 e).
  { rewrite round_generic; [reflexivity|apply valid_rnd_round_mode|].
    change (SpecFloat.fexp 53 1024) with (FLT_exp (-1074) 53). apply generic_format_FLT. exists (Float radix2 m e); [reflexivity|exact Hm|apply He]. }
  cbv zeta in H. rewrite G in H. rewrite Rlt_bool_true in H.
  - destruct H as (H1 & H2 & _). split; [exact H1|exact H2].
  - rewrite Rabs_mult, (Rabs_pos_eq (bpow _ _)) by apply bpow_ge_0. apply Rlt_le_trans with (bpow radix2 53 * bpow radix2 e).
    + apply Rmult_lt_compat_r; [apply bpow_gt_0|]. rewrite <- abs_IZR. apply IZR_lt. exact Hm.
    + rewrite <- bpow_plus. apply bpow_le. lia.
Qed.
Lemma B2R_int m : (Z.abs m < 2 ^ 53)%Z -> B2R (dbl m 0) = IZR m.
Proof. intro H. destruct (B2R_dbl m 0 H) as [-> _]; [lia|]. simpl. lra. Qed.
Lemma fin_int m : (Z.abs m < 2 ^ 53)%Z -> finite (dbl m 0) = true.
Proof. intro H. apply (B2R_dbl m 0 H). lia. Qed.

Lemma mild_cons V T a b x : 
  (finite (s_time a) = true /\ finite (s_value a) = true /\ Rabs (B2R (s_time a)) <= bpow radix2 1000 /\ Rabs (B2R (s_value a)) <= V) ->
  B2R (s_time b) - B2R (s_time a) <= T ->
  Rabs (B2R (s_value b) - B2R (s_value a)) <= bpow radix2 1000 * (B2R (s_time b) - B2R (s_time a)) ->
  mild V T (b :: x) -> mild V T (a :: b :: x).
Proof.
  intros H1 H2 H3 (M1 & M2 & M3 & M4). split; [intros c [<-|Hc]; [exact H1|apply M1, Hc]|]. split; [|auto].
  intros [|c x1] u v x2 E.
  - injection E as <- <- <-. auto.
  - injection E as <- E. apply (M2 _ _ _ _ E).
Qed.
Lemma mild_one V T a :
  (finite (s_time a) = true /\ finite (s_value a) = true /\ Rabs (B2R (s_time a)) <= bpow radix2 1000 /\ Rabs (B2R (s_value a)) <= V) ->
  0 <= T -> V <= bpow radix2 1000 -> mild V T [a].
Proof.
  intros H1 H2 H3. split; [intros c [<-|[]]; exact H1|]. split; [|auto].
  intros [|c [|d x1]] u v x2 E; discriminate.
Qed.

Lemma million : 1000000 <= bpow radix2 1000.
Proof. apply Rle_trans with (bpow radix2 20); [simpl; lra|apply bpow_le; lia]. Qed.
Ltac ints := rewrite ?B2R_int by (vm_compute; reflexivity).
Ltac small := cbn [s_time s_value fst snd]; repeat split; try (apply fin_int; vm_compute; reflexivity); ints;
  try (apply Rabs_le); pose proof million; try lra; try nra.

Lemma ex_x_mild : mild 7 2 ex_x.
Proof.
  unfold ex_x. cbn [sig_of]. repeat (apply mild_cons; [small|small|small|]). apply mild_one; small.
Qed.
Lemma ex_y_mild : mild 7 2 ex_y.
Proof.
  unfold ex_y. cbn [sig_of]. repeat (apply mild_cons; [small|small|small|]). apply mild_one; small.
Qed.
Lemma c25_y_mild : mild 7 2 c25_y.
Proof.
  unfold c25_y. cbn [sig_of]. repeat (apply mild_cons; [small|small|small|]). apply mild_one; small.
Qed.

(** Two signals sampled at times of the order of microseconds since 1970. *)
Definition c93_x : signal B64 := sig_of [(dbl 1500000000000000 0, dbl (-3) 0); (dbl 1500000000000001 0, dbl 4 0)].
Definition c93_y : signal B64 := sig_of [(dbl 1500000000000000 0, dbl 0 0); (dbl 1500000000000001 0, dbl (-1) 0)].
Definition c93_tr : trace B64 := [(sx, c93_x); (sy, c93_y)].
Definition c93_phi : expr B64 := EEventually (EAnd [EPred sx GT nzero; EPred sy GT nzero]) interval_default.

Lemma pwl2 T a b t v : pwl [(T, a); (T + 1, b)] t v <-> T <= t <= T + 1 /\ v = a + (b - a) * (t - T).
Proof.
  split.
  - intros [(p & [<-|[<-|[]]] & <- & <-)|(l1 & p & q & l2 & E & H & ->)]; cbn [fst snd]; [split; [lra|ring]|split; [lra|ring]|].
    destruct l1 as [|c [|d l1]]; [injection E as <- <- <-|discriminate|destruct l1; discriminate]. cbn [fst snd] in *. split; [lra|]. field. lra.
  - intros (H & ->). destruct (Req_dec t T) as [->|N1]; [left; exists (T, a); cbn; repeat split; [auto|ring]|].
    destruct (Req_dec t (T + 1)) as [->|N2]; [left; exists (T + 1, b); cbn; repeat split; [auto|ring]|].
    right. exists [], (T, a), (T + 1, b), []. cbn [fst snd app]. repeat split; [lra|lra|]. field. lra.
Qed.

Definition t93 : R := 1500000000000000.
Lemma c93_reals_x : reals c93_x = [(t93, -3); (t93 + 1, 4)].
Proof. unfold c93_x, reals. cbn [sig_of map s_time s_value fst snd]. ints. unfold t93. repeat f_equal; lra. Qed.
Lemma c93_reals_y : reals c93_y = [(t93, 0); (t93 + 1, -1)].
Proof. unfold c93_y, reals. cbn [sig_of map s_time s_value fst snd]. ints. unfold t93. repeat f_equal; lra. Qed.
Lemma c93_at_x t v : value_at (real_trace c93_tr) sx t v <-> t93 <= t <= t93 + 1 /\ v = -3 + 7 * (t - t93).
Proof.
  unfold value_at, real_trace, c93_tr. cbn [map fst snd]. rewrite c93_reals_x. split.
  - intros (l & [E|[E|[]]] & P); [injection E as <-|discriminate]. apply pwl2 in P as [P ->]. split; [exact P|lra].
  - intros (H & ->). eexists. split; [left; reflexivity|]. apply pwl2. split; [exact H|lra].
Qed.
Lemma c93_at_y t v : value_at (real_trace c93_tr) sy t v <-> t93 <= t <= t93 + 1 /\ v = - (t - t93).
Proof.
  unfold value_at, real_trace, c93_tr. cbn [map fst snd]. rewrite c93_reals_y. split.
  - intros (l & [E|[E|[]]] & P); [discriminate|injection E as <-]. apply pwl2 in P as [P ->]. split; [exact P|lra].
  - intros (H & ->). eexists. split; [right; left; reflexivity|]. apply pwl2. split; [exact H|lra].
Qed.

Lemma zero_real : B2R (nzero : B64) = 0. Proof. reflexivity. Qed.
Lemma c93_true : rob (real_trace c93_tr) (real_formula c93_phi) t93 (-3 / 8).
Proof.
  cbn [c93_phi real_formula map rob]. rewrite zero_real. split; [|split].
  - intros n Hn. cbn in Hn. destruct Hn as [<-|[<-|[]]]; [exists (-3); apply c93_at_x|exists 0; apply c93_at_y]; split; try lra; unfold t93; lra.
  - exists (t93 + 3 / 8). split; [unfold t93; lra|]. split.
    + left. exists (-3 / 8), 0. split; [apply c93_at_x; split; [unfold t93; lra|lra]|]. split; [reflexivity|lra].
    + constructor; [|constructor; [|constructor]].
      * exists (-3 / 8). split; [|lra]. exists (-3 / 8), 0. split; [apply c93_at_x; split; [unfold t93; lra|lra]|]. split; [reflexivity|lra].
      * exists (-3 / 8). split; [|lra]. exists (-3 / 8), 0. split; [apply c93_at_y; split; [unfold t93; lra|lra]|]. split; [reflexivity|lra].
  - intros t' w Ht (_ & Hall). inversion Hall as [|? ? K1 H2]; subst. destruct K1 as (w1 & (x & r & Hx & Er & ->) & H1). inversion H2 as [|? ? K2 _]; subst. destruct K2 as (w2 & (y & r' & Hy & Er' & ->) & H3).
    injection Er as <-. injection Er' as <-. apply c93_at_x in Hx as [D ->]. apply c93_at_y in Hy as [_ ->]. lra.
Qed.

Lemma c93_x_mild : mild 4 1 c93_x.
Proof.
  unfold c93_x. cbn [sig_of]. assert (K : IZR 1500000000000001 <= bpow radix2 1000) by (apply Rle_trans with (bpow radix2 60); [simpl; lra|apply bpow_le; lia]).
  repeat (apply mild_cons; [small|small|small|]). apply mild_one; small.
Qed.
Lemma c93_y_mild : mild 4 1 c93_y.
Proof.
  unfold c93_y. cbn [sig_of]. assert (K : IZR 1500000000000001 <= bpow radix2 1000) by (apply Rle_trans with (bpow radix2 60); [simpl; lra|apply bpow_le; lia]).
  repeat (apply mild_cons; [small|small|small|]). apply mild_one; small.
Qed.

Lemma C93_witness : exists (tr : trace B64) phi z c, keys_unique tr /\ Forall (fun e => wf (snd e) /\ snd e <> [] /\ mild 4 1 (snd e)) tr /\
  first_exact (real_formula phi) = true /\ compute_robustness true 0 phi tr false = Ok z /\ hd_error z = Some c /\
  nltb nzero (s_value c) = true /\
  exists r, r < 0 /\ rob (real_trace tr) (real_formula phi) (B2R (s_time c)) r /\ ~ sat (real_trace tr) (real_formula phi) (B2R (s_time c)).
Proof.
  destruct (one_ok (compute_robustness true 0 c93_phi c93_tr false)
    (fun z => match z with c :: _ => nltb nzero (s_value c) && neqb (s_time c) (dbl 1500000000000000 0) && finite (s_time c) | [] => false end)) as (z & E & H).
  { vm_compute; reflexivity. }
  destruct z as [|c z]; [discriminate|]. apply andb_prop in H as [H H3]. apply andb_prop in H as [H1 H2].
  apply eq_B2R in H2; [|exact H3|apply fin_int; vm_compute; reflexivity]. rewrite B2R_int in H2 by (vm_compute; reflexivity). fold t93 in H2.
  exists c93_tr, c93_phi, (c :: z), c. split.
  { repeat constructor; cbn; intuition discriminate. }
  split.
  { constructor; [|constructor; [|constructor]]; cbn [snd]; (split; [apply b64_wf; vm_compute; reflexivity|]); (split; [discriminate|]); [exact c93_x_mild|exact c93_y_mild]. }
  split; [reflexivity|]. split; [exact E|]. split; [reflexivity|]. split; [exact H1|].
  exists (-3 / 8). split; [lra|]. rewrite H2. split; [exact c93_true|].
  cbn [c93_phi real_formula map sat]. intros (t' & Ht & _ & Hs). inversion Hs as [|? ? _ Hs2]; subst. inversion Hs2 as [|? ? K _]; subst. destruct K as (y & r & Hy & Er & Hgt).
  injection Er as <-. apply c93_at_y in Hy as [D ->]. cbn in Hgt. lra.
Qed.

Lemma C92_case_lemma : wf ex_x /\ wf c25_y /\ mild 7 2 ex_x /\ mild 7 2 c25_y /\
  exists x' y' z, synchronize ex_x c25_y = Ok (x', y') /\ elementwise_min true false ex_x c25_y = Ok z /\ (4 <= length z)%nat.
Proof.
  destruct C25_case_lemma as (H1 & H2 & x' & y' & z & H3 & _ & _ & H4 & H5).
  split; [exact H1|]. split; [exact H2|]. split; [exact ex_x_mild|]. split; [exact c25_y_mild|]. exists x', y', z. auto.
Qed.
