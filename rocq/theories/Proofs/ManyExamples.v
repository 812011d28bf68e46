(** Instances for C119 and C120. *)
From Coq Require Import Reals Lra Lia.
From Flocq Require Import Core.Core IEEE754.BinarySingleNaN.
From Verif Require Import Base Num NumXR NumB64.
From Verif.Model Require Import Signal MinMax Ast Robustness.
From Verif.Spec Require Import SignalSpec Pwl Formula Semantics Quantitative Accuracy Uniform Whole Apart Spaced Many.
From Verif.Proofs Require Import NumFacts SignalFacts SignalProps MinMaxExamples UntilFacts RobExamples AccuracyExamples SyncError UniformFacts JoinFormula SpacedExamples ManyFormula.
Local Open Scope R_scope.

(** 0.5, 0.1, 0.9 at times 0, 0.5, 0.875: other times and another end than [s_x]. *)
Definition m_y : signal B64 := sig_of [(dbl 0 0, dbl 1 (-1)); (dbl 1 (-1), dbl 3602879701896397 (-55)); (dbl 7 (-3), dbl 8106479329266893 (-53))].
Definition m_tr : trace B64 := [(sx, s_x); (sy, m_y)].
(** 0.3, 0.3, 0.4 at the times of [s_x]. *)
Definition m_w : signal B64 := sig_of [(dbl 0 0, dbl 5404319552844595 (-54)); (dbl 5404319552844595 (-54), dbl 5404319552844595 (-54)); (dbl 1 0, dbl 3602879701896397 (-53))].
(** x < 0.6, and four predicates under Not, And and Or. *)
Definition s_d : expr B64 := EPred sx LT (dbl 5404319552844595 (-53)).
Definition s_f : expr B64 := EOr [EAnd [s_a; s_b; s_d]; ENot s_d; s_b].

Lemma in_unit (x : signal B64) : forallb (fun c => finite (s_time c) && finite (s_value c) && nleb (dbl (-1) 0) (s_time c) && nleb (s_time c) (dbl 1 0) &&
        nleb (dbl (-1) 0) (s_value c) && nleb (s_value c) (dbl 1 0)) x = true -> spaced (1 / 4) x -> sized 1 1 x.
Proof.
  intros K P. split.
  - intros c Hc. rewrite forallb_forall in K. specialize (K _ Hc). repeat (apply andb_prop in K as [K ?]). repeat (split; [assumption || (apply small_dbl; assumption)|]). apply small_dbl; assumption.
  - intros x1 a b x2 E. eapply Rle_trans; [|apply (P x1 a b x2 E)]. apply Rle_trans with (bpow radix2 (-2)); [apply bpow_le; lia|simpl; lra].
Qed.
Lemma spaced_quarter (a b c : sample B64) : finite (s_time a) && finite (s_time b) && finite (s_time c) && neqb (s_time a) (dbl 0 0) && nleb (dbl 7 (-3)) (s_time c) &&
   nleb (dbl 1 (-2)) (s_time b) && nleb (s_time b) (dbl 5 (-3)) = true -> spaced (1 / 4) [a; b; c].
Proof.
  intros T. repeat (apply andb_prop in T as [T ?]).
  assert (L1 : B2R (dbl 1 (-2)) <= B2R (s_time b)) by (apply le_B2R; [reflexivity|assumption|assumption]).
  assert (L2 : B2R (s_time b) <= B2R (dbl 5 (-3))) by (apply le_B2R; [assumption|reflexivity|assumption]).
  assert (Ea : B2R (s_time a) = B2R (dbl 0 0)) by (apply eq_B2R; [assumption|reflexivity|assumption]).
  assert (L3 : B2R (dbl 7 (-3)) <= B2R (s_time c)) by (apply le_B2R; [reflexivity|assumption|assumption]).
  assert (B2R (dbl 1 (-2)) = 1 / 4) by (rewrite (proj1 (B2R_dbl 1 (-2) ltac:(lia) ltac:(lia))); simpl; lra).
  assert (B2R (dbl 5 (-3)) = 5 / 8) by (rewrite (proj1 (B2R_dbl 5 (-3) ltac:(lia) ltac:(lia))); simpl; lra).
  assert (B2R (dbl 7 (-3)) = 7 / 8) by (rewrite (proj1 (B2R_dbl 7 (-3) ltac:(lia) ltac:(lia))); simpl; lra).
  assert (B2R (s_time a) = 0) by (rewrite Ea; small).
  intros [|w [|w' x1]] u v x2 E.
  + injection E as <- <- _. lra.
  + injection E as _ <- <- _. lra.
  + apply (f_equal (@length _)) in E. cbn in E. rewrite app_length in E. cbn in E. lia.
Qed.
Lemma m_sized x : x = m_y \/ x = m_w -> sized 1 1 x /\ spaced (1 / 4) x.
Proof.
  intros Hx. assert (P : spaced (1 / 4) x) by (destruct Hx as [-> | ->]; apply spaced_quarter; vm_compute; reflexivity).
  split; [|exact P]. apply in_unit; [|exact P]. destruct Hx as [-> | ->]; vm_compute; reflexivity.
Qed.
Lemma m_moderate : moderate 1 1 (1 / 4).
Proof.
  assert (bpow radix2 (-300) <= bpow radix2 0) by (apply bpow_le; lia). assert (bpow radix2 (-200) <= bpow radix2 (-2)) by (apply bpow_le; lia). assert (bpow radix2 0 <= bpow radix2 296) by (apply bpow_le; lia). assert (bpow radix2 0 <= bpow radix2 300) by (apply bpow_le; lia).
  replace (bpow radix2 (-2)) with (1 / 4) in * by (simpl; lra). replace (bpow radix2 0) with 1 in * by (simpl; lra). unfold moderate. lra.
Qed.
Lemma m_cases n x : has_signal m_tr n x -> x = s_x \/ x = m_y.
Proof. intros [E|[E|[]]]; injection E as _ <-; auto. Qed.
Lemma m_trace : spread_trace 1 1 (1 / 4) m_tr /\ same_begin m_tr.
Proof.
  split; [split; [repeat constructor; cbn; intuition discriminate|]; split; [repeat constructor; try discriminate; apply b64_wf; vm_compute; reflexivity|]|].
  - intros n x H. destruct (m_cases n x H) as [-> | ->]; [apply s_sized|apply m_sized]; auto.
  - intros n m x y Hx Hy. destruct (m_cases n x Hx) as [-> | ->]; destruct (m_cases m y Hy) as [-> | ->]; vm_compute; reflexivity.
Qed.
Lemma m_formulas : in_trace 1 m_tr s_a /\ in_trace 1 m_tr s_b /\ in_trace 1 m_tr s_c.
Proof.
  split; [|split]; (split; [|intros n [<-|[]]; eexists; first [left; reflexivity|right; left; reflexivity]]).
  - intros e [<-|[]]. split; [reflexivity|]. apply small_dbl; vm_compute; reflexivity.
  - intros e [<-|[<-|[]]]; [exact I|]. split; [reflexivity|]. apply small_dbl; vm_compute; reflexivity.
  - intros e [<-|[<-|[]]]; [exact I|]. split; [reflexivity|]. apply small_dbl; vm_compute; reflexivity.
Qed.
Lemma s_d_in : in_trace 1 s_tr s_d.
Proof.
  split; [|intros n [<-|[]]; eexists; left; reflexivity]. intros e [<-|[]]. split; [reflexivity|]. apply small_dbl; vm_compute; reflexivity.
Qed.
Lemma s_f_in : in_trace 1 s_tr s_f.
Proof.
  destruct s_formulas as ((A1 & A2) & (B1 & B2) & _). destruct s_d_in as (D1 & D2). split.
  - intros e [<-|He]; [exact I|]. cbn [flat_map] in He. rewrite app_nil_r in He. apply in_app_or in He as [He|He].
    + destruct He as [<-|He]; [exact I|]. cbn [flat_map] in He. rewrite app_nil_r in He. apply in_app_or in He as [He|He]; [apply A1, He|]. apply in_app_or in He as [He|He]; [apply B1, He|apply D1, He].
    + apply in_app_or in He as [He|He]; [destruct He as [<-|He]; [exact I|apply D1, He]|apply B1, He].
  - intros n Hn. change (names s_f) with [sx; sy; sx; sx; sy] in Hn. destruct Hn as [<-|[<-|[<-|[<-|[<-|[]]]]]]; eexists; first [left; reflexivity|right; left; reflexivity].
Qed.
Lemma m_error n : (n <= 5)%nat -> error_of n 1 1 (1 / 4) <= 1.
Proof.
  intros L. unfold error_of. assert (P : 10 ^ (n - 1) <= 10 ^ 4) by (apply Rle_pow; [lra|lia]). assert (bpow radix2 (-42) <= bpow radix2 (-20)) by (apply bpow_le; lia).
  assert (E : bpow radix2 (-20) = / 1048576) by (simpl; lra). rewrite E in H. pose proof (bpow_gt_0 radix2 (-42)). assert (1 <= 10 ^ (n - 1)) by (apply pow_R1_Rle; lra).
  assert (bpow radix2 (-42) * 10 ^ (n - 1) <= / 1048576 * 10 ^ 4) by (apply Rmult_le_compat; lra). simpl in *. lra.
Qed.

Ltac runs_to := match goal with |- exists z, ?o = Ok z /\ length z = ?n => destruct (one_ok o (fun z => Nat.eqb (length z) n)) as (z & E & L); [vm_compute; reflexivity|exists z; split; [exact E|apply Nat.eqb_eq, L]] end.

Lemma C119_pair_case_lemma : wf s_x /\ wf m_y /\ s_x <> [] /\ m_y <> [] /\ moderate 1 1 (1 / 4) /\ sized 1 1 s_x /\ sized 1 1 m_y /\ spaced (1 / 4) s_x /\ spaced (1 / 4) m_y /\
  exists z, elementwise_min true false s_x m_y = Ok z /\ length z = 6%nat.
Proof.
  split; [apply b64_wf; vm_compute; reflexivity|]. split; [apply b64_wf; vm_compute; reflexivity|]. split; [discriminate|]. split; [discriminate|]. split; [exact m_moderate|].
  split; [apply s_sized; auto|]. split; [apply m_sized; auto|]. split; [apply s_sized; auto|]. split; [apply m_sized; auto|]. runs_to.
Qed.
Lemma C119_chains_case_lemma : spread_trace 1 1 (1 / 4) m_tr /\ moderate 1 1 (1 / 4) /\ chain s_b = true /\ chain s_c = true /\ intervals_made s_b /\ intervals_made s_c /\
  in_trace 1 m_tr s_b /\ in_trace 1 m_tr s_c /\ exists z, compute_robustness true 0 (EOr [s_c; s_b]) m_tr false = Ok z /\ length z = 6%nat.
Proof.
  split; [apply m_trace|]. split; [exact m_moderate|]. split; [reflexivity|]. split; [reflexivity|]. split; [intros e [<-|[<-|[]]]; exact I|].
  split; [intros e [<-|[<-|[]]]; [left; reflexivity|exact I]|]. split; [apply m_formulas|]. split; [apply m_formulas|]. runs_to.
Qed.
Lemma C119_boolean_case_lemma : literal s_a = true /\ literal s_b = true /\ in_trace 1 m_tr s_a /\ in_trace 1 m_tr s_b /\
  exists z, compute_robustness true 0 (EAnd [s_a; s_b]) m_tr false = Ok z /\ length z = 7%nat.
Proof. split; [reflexivity|]. split; [reflexivity|]. split; [apply m_formulas|]. split; [apply m_formulas|]. runs_to. Qed.
Lemma C119_temporal_case_lemma : same_begin m_tr /\ made_interval (F := B64) interval_default /\
  exists z, compute_robustness true 0 (EEventually (EAnd [s_a; s_b]) interval_default) m_tr false = Ok z /\ exists c, In c z /\ nltb nzero (s_value c) = true.
Proof.
  split; [apply m_trace|]. split; [left; reflexivity|].
  destruct (one_ok (compute_robustness true 0 (EEventually (EAnd [s_a; s_b]) interval_default) m_tr false) (existsb (fun c => nltb nzero (s_value c)))) as (z & E & K); [vm_compute; reflexivity|].
  exists z. split; [exact E|]. apply existsb_exists in K. exact K.
Qed.

Lemma C120_list_case_lemma : Forall (fun x => wf x /\ x <> [] /\ sized 1 1 x /\ spaced (1 / 4) x) [s_x; s_y; m_w] /\
  (forall x y, In x [s_x; s_y; m_w] -> In y [s_x; s_y; m_w] -> Forall2 (fun a b => neqb (s_time a) (s_time b) = true) x y) /\ moderate 1 1 (1 / 4) /\ error_of 3 1 1 (1 / 4) <= 1 /\
  exists z, elementwise_min_list true false [s_x; s_y; m_w] = Ok z /\ length z = 9%nat.
Proof.
  split. { constructor; [|constructor; [|constructor; [|constructor]]]; (split; [apply b64_wf; vm_compute; reflexivity|]); (split; [discriminate|]); first [apply s_sized; solve [auto]|apply m_sized; solve [auto]]. }
  split. { intros x y [<-|[<-|[<-|[]]]] [<-|[<-|[<-|[]]]]; repeat (constructor; [vm_compute; reflexivity|]); constructor. }
  split; [exact m_moderate|]. split; [apply m_error; lia|]. runs_to.
Qed.
Lemma C120_chains_case_lemma : spaced_trace 1 1 (1 / 4) s_tr /\ Forall (fun a => chain a = true /\ intervals_made a /\ in_trace 1 s_tr a) [s_c; s_b; s_d] /\
  error_of 3 1 1 (1 / 4) <= 1 /\ exists z, compute_robustness true 0 (EAnd [s_c; s_b; s_d]) s_tr false = Ok z /\ length z = 6%nat.
Proof.
  split; [exact s_trace|]. split; [|split; [apply m_error; lia|runs_to]].
  constructor; [|constructor; [|constructor; [|constructor]]]; (split; [reflexivity|]); split.
  - intros e [<-|[<-|[]]]; [left; reflexivity|exact I].
  - apply s_formulas.
  - intros e [<-|[<-|[]]]; exact I.
  - apply s_formulas.
  - intros e [<-|[]]. exact I.
  - exact s_d_in.
Qed.
Lemma C120_boolean_case_lemma : ladder s_f = true /\ in_trace 1 s_tr s_f /\ length (names s_f) = 5%nat /\ error_of 5 1 1 (1 / 4) <= 1 /\
  exists z, compute_robustness true 0 s_f s_tr false = Ok z /\ length z = 8%nat.
Proof. split; [reflexivity|]. split; [exact s_f_in|]. split; [reflexivity|]. split; [apply m_error; lia|]. runs_to. Qed.
Lemma C120_temporal_case_lemma : made_interval (F := B64) interval_default /\
  exists z, compute_robustness true 0 (EEventually s_f interval_default) s_tr false = Ok z /\ exists c, In c z /\ nltb nzero (s_value c) = true.
Proof.
  split; [left; reflexivity|]. destruct (one_ok (compute_robustness true 0 (EEventually s_f interval_default) s_tr false) (existsb (fun c => nltb nzero (s_value c)))) as (z & E & K); [vm_compute; reflexivity|].
  exists z. split; [exact E|]. apply existsb_exists in K. exact K.
Qed.
