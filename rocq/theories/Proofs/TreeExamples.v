(** Instances for C122. *)
From Coq Require Import Reals Lra Lia.
From Flocq Require Import Core.Core IEEE754.BinarySingleNaN.
From Verif Require Import Base Num NumXR NumB64.
From Verif.Model Require Import Signal MinMax Ast Robustness.
From Verif.Spec Require Import SignalSpec Pwl Formula Semantics Quantitative Accuracy Uniform Whole Apart Spaced Many Tree.
From Verif.Proofs Require Import NumFacts SignalFacts SignalProps MinMaxExamples UntilFacts RobExamples AccuracyExamples SyncError UniformFacts JoinFormula SpacedExamples ManyFormula ManyExamples TreeError TreeFormula.
Local Open Scope R_scope.

(** Five predicates, two composed operands below one And. *)
Definition t_f : expr B64 := EAnd [EOr [s_a; s_b]; EOr [ENot s_d; s_b]; s_d].
(** Two signals at different times, none of them 0. *)
Definition t_x : signal B64 := sig_of [(dbl 1 (-3), dbl 1 0); (dbl 5404319552844595 (-53), dbl 0 0); (dbl 1 0, dbl 5404319552844595 (-54))].
Definition t_y : signal B64 := sig_of [(dbl 1 (-3), dbl 1 (-1)); (dbl 1 (-1), dbl 3602879701896397 (-55)); (dbl 7 (-3), dbl 8106479329266893 (-53))].
Definition t_tr : trace B64 := [(sx, t_x); (sy, t_y)].

Fixpoint steps_ok (x : signal B64) : bool :=
  match x with
  | a :: (b :: _) as x' => finite (s_time a) && finite (s_time b) && nltb (s_time a) (s_time b) && (nleb (dbl 1 (-200)) (s_time a) || neqb (s_time a) (dbl 0 0) && nleb (dbl 1 (-200)) (s_time b)) && steps_ok x'
  | _ => true
  end.
Lemma dbl_tau : B2R (dbl 1 (-200)) = tau.
Proof. rewrite (proj1 (B2R_dbl 1 (-200) ltac:(lia) ltac:(lia))). unfold tau. ring. Qed.
Lemma steps_spaced x : steps_ok x = true -> spaced (bpow radix2 (-252)) x.
Proof.
  assert (GT : gap <= tau) by (apply bpow_le; lia).
  induction x as [|c x IH]; intros K x1 a b x2 E; [destruct x1; discriminate|]. destruct x1 as [|d x1]; cbn [app] in E.
  - rewrite E in K. cbn [steps_ok] in K. apply andb_prop in K as (K & _). apply andb_prop in K as (K & K2). repeat (apply andb_prop in K as [K ?]). apply orb_prop in K2 as [K2|K2].
    + apply double_gap; [rewrite <- dbl_tau; apply le_B2R; [reflexivity|assumption|exact K2]|apply lt_B2R; assumption].
    + apply andb_prop in K2 as (K2 & K3). assert (E0 : B2R (s_time a) = B2R (dbl 0 0)) by (apply eq_B2R; [assumption|reflexivity|exact K2]). assert (E1 : B2R (dbl 0 0) = 0) by small.
      assert (L : B2R (dbl 1 (-200)) <= B2R (s_time b)) by (apply le_B2R; [reflexivity|assumption|exact K3]). rewrite dbl_tau in L. fold gap. rewrite E0, E1. rewrite Rminus_0_r. eapply Rle_trans; [exact GT|exact L].
  - injection E as <- ->. assert (K' : steps_ok (x1 ++ a :: b :: x2) = true). { destruct (x1 ++ a :: b :: x2) as [|e l] eqn:El; [destruct x1; discriminate|]. cbn [steps_ok] in K. apply andb_prop in K as (_ & K). exact K. }
    exact (IH K' _ _ _ _ eq_refl).
Qed.
Definition stage_ok (e : expr B64) : bool := match compute_robustness true 0 e m_tr false with Ok y => steps_ok y | _ => false end.
Lemma t_stages : separated true 0 m_tr t_f.
Proof.
  intros e y s He Hy. assert (K : forallb stage_ok (stages t_f) = true) by (vm_compute; reflexivity). rewrite forallb_forall in K. specialize (K e He). unfold stage_ok in K.
  change (compute_robustness true 0 e m_tr false) with (compute_robustness true 0 e m_tr s) in K. rewrite Hy in K. apply steps_spaced, K.
Qed.
Lemma t_f_in tr : (forall e, In e [s_a; s_b; s_d] -> in_trace 1 tr e) -> in_trace 1 tr t_f.
Proof.
  intros K. destruct (K s_a) as (A1 & A2); [cbn; auto|]. destruct (K s_b) as (B1 & B2); [cbn; auto|]. destruct (K s_d) as (D1 & D2); [cbn; auto|]. split.
  - intros e [<-|He]; [exact I|]. cbn [flat_map] in He. rewrite app_nil_r in He. apply in_app_or in He as [He|He]; [|apply in_app_or in He as [He|He]; [|apply D1, He]].
    + destruct He as [<-|He]; [exact I|]. cbn [flat_map] in He. rewrite app_nil_r in He. apply in_app_or in He as [He|He]; [apply A1, He|apply B1, He].
    + destruct He as [<-|He]; [exact I|]. cbn [flat_map] in He. rewrite app_nil_r in He. apply in_app_or in He as [He|He]; [destruct He as [<-|He]; [exact I|apply D1, He]|apply B1, He].
  - intros n Hn. change (names t_f) with [sx; sy; sx; sy; sx] in Hn. destruct Hn as [<-|[<-|[<-|[<-|[<-|[]]]]]]; first [apply A2; left; reflexivity|apply B2; left; reflexivity].
Qed.
Lemma t_in (tr : trace B64) x y : tr = [(sx, x); (sy, y)] -> in_trace 1 tr t_f.
Proof.
  intros ->. apply t_f_in. intros e He. split; [|intros n Hn; assert (n = sx \/ n = sy) as [-> | ->] by (destruct He as [<-|[<-|[<-|[]]]]; destruct Hn as [<-|[]]; auto); eexists; first [left; reflexivity|right; left; reflexivity]].
  destruct He as [<-|[<-|[<-|[]]]].
  - intros e [<-|[]]. split; [reflexivity|]. apply small_dbl; vm_compute; reflexivity.
  - intros e [<-|[<-|[]]]; [exact I|]. split; [reflexivity|]. apply small_dbl; vm_compute; reflexivity.
  - intros e [<-|[]]. split; [reflexivity|]. apply small_dbl; vm_compute; reflexivity.
Qed.

Lemma C122_boolean_case_lemma : spread_trace 1 1 (1 / 4) m_tr /\ moderate 1 1 (1 / 4) /\ boolean t_f = true /\ ladder t_f = false /\ in_trace 1 m_tr t_f /\ length (names t_f) = 5%nat /\ error_of 5 1 1 (1 / 4) <= 1 /\
  separated true 0 m_tr t_f /\ exists z, compute_robustness true 0 t_f m_tr false = Ok z /\ length z = 10%nat.
Proof.
  split; [apply m_trace|]. split; [exact m_moderate|]. split; [reflexivity|]. split; [reflexivity|]. split; [eapply t_in; reflexivity|]. split; [reflexivity|]. split; [apply m_error; lia|]. split; [exact t_stages|]. runs_to.
Qed.

Lemma spaced_quarter' (a b c : sample B64) : finite (s_time a) && finite (s_time b) && finite (s_time c) && neqb (s_time a) (dbl 1 (-3)) && nleb (dbl 7 (-3)) (s_time c) &&
   nleb (dbl 3 (-3)) (s_time b) && nleb (s_time b) (dbl 5 (-3)) = true -> spaced (1 / 4) [a; b; c].
Proof.
  intros T. repeat (apply andb_prop in T as [T ?]).
  assert (L1 : B2R (dbl 3 (-3)) <= B2R (s_time b)) by (apply le_B2R; [reflexivity|assumption|assumption]).
  assert (L2 : B2R (s_time b) <= B2R (dbl 5 (-3))) by (apply le_B2R; [assumption|reflexivity|assumption]).
  assert (Ea : B2R (s_time a) = B2R (dbl 1 (-3))) by (apply eq_B2R; [assumption|reflexivity|assumption]).
  assert (L3 : B2R (dbl 7 (-3)) <= B2R (s_time c)) by (apply le_B2R; [reflexivity|assumption|assumption]).
  assert (B2R (dbl 3 (-3)) = 3 / 8) by (rewrite (proj1 (B2R_dbl 3 (-3) ltac:(lia) ltac:(lia))); simpl; lra).
  assert (B2R (dbl 5 (-3)) = 5 / 8) by (rewrite (proj1 (B2R_dbl 5 (-3) ltac:(lia) ltac:(lia))); simpl; lra).
  assert (B2R (dbl 7 (-3)) = 7 / 8) by (rewrite (proj1 (B2R_dbl 7 (-3) ltac:(lia) ltac:(lia))); simpl; lra).
  assert (E1 : B2R (dbl 1 (-3)) = 1 / 8) by (rewrite (proj1 (B2R_dbl 1 (-3) ltac:(lia) ltac:(lia))); simpl; lra).
  intros [|w [|w' x1]] u v x2 E.
  + injection E as <- <- _. lra.
  + injection E as _ <- <- _. lra.
  + apply (f_equal (@length _)) in E. cbn in E. rewrite app_length in E. cbn in E. lia.
Qed.
Lemma t_cases n x : has_signal t_tr n x -> x = t_x \/ x = t_y.
Proof. intros [E|[E|[]]]; injection E as _ <-; auto. Qed.
Lemma t_trace : spread_trace 1 1 (1 / 4) t_tr /\ same_begin t_tr /\ late_trace t_tr.
Proof.
  split; [|split].
  - split; [repeat constructor; cbn; intuition discriminate|]. split; [repeat constructor; try discriminate; apply b64_wf; vm_compute; reflexivity|].
    intros n x H. assert (P : spaced (1 / 4) x) by (destruct (t_cases n x H) as [-> | ->]; apply spaced_quarter'; vm_compute; reflexivity). split; [|exact P].
    apply in_unit; [|exact P]. destruct (t_cases n x H) as [-> | ->]; vm_compute; reflexivity.
  - intros n m x y Hx Hy. destruct (t_cases n x Hx) as [-> | ->]; destruct (t_cases m y Hy) as [-> | ->]; vm_compute; reflexivity.
  - intros n x a Hx Ha. assert (K : forallb (fun c => finite (s_time c) && nleb (dbl 1 (-200)) (s_time c)) x = true) by (destruct (t_cases n x Hx) as [-> | ->]; vm_compute; reflexivity).
    rewrite forallb_forall in K. specialize (K a Ha). apply andb_prop in K as (K1 & K2). fold tau. rewrite <- dbl_tau. apply le_B2R; [reflexivity|exact K1|exact K2].
Qed.
Lemma C122_separated_case_lemma : spread_trace 1 1 (1 / 4) t_tr /\ late_trace t_tr /\ boolean t_f = true /\ in_trace 1 t_tr t_f /\ exists z, compute_robustness true 0 t_f t_tr false = Ok z /\ length z = 8%nat.
Proof. split; [apply t_trace|]. split; [apply t_trace|]. split; [reflexivity|]. split; [eapply t_in; reflexivity|]. runs_to. Qed.
Lemma C122_temporal_case_lemma : spread_trace 1 1 (1 / 4) t_tr /\ same_begin t_tr /\ separated true 0 t_tr t_f /\ made_interval (F := B64) interval_default /\
  exists z, compute_robustness true 0 (EEventually t_f interval_default) t_tr false = Ok z /\ exists c, In c z /\ nltb nzero (s_value c) = true.
Proof.
  split; [apply t_trace|]. split; [apply t_trace|]. split; [apply (C122_separated_lemma true 0 t_tr t_f 1 1 (1 / 4)); [apply t_trace|apply t_trace|reflexivity|eapply t_in; reflexivity]|]. split; [left; reflexivity|].
  destruct (one_ok (compute_robustness true 0 (EEventually t_f interval_default) t_tr false) (existsb (fun c => nltb nzero (s_value c)))) as (z & E & K); [vm_compute; reflexivity|].
  exists z. split; [exact E|]. apply existsb_exists in K. exact K.
Qed.
