(** Instances for C123. *)
From Coq Require Import Reals Lra Lia.
From Flocq Require Import Core.Core IEEE754.BinarySingleNaN.
From Verif Require Import Base Num NumXR NumB64.
From Verif.Model Require Import Signal MinMax Ast Robustness.
From Verif.Spec Require Import SignalSpec Pwl Formula Semantics Quantitative Accuracy Uniform Whole Apart Spaced Many General Tree.
From Verif.Proofs Require Import NumFacts SignalFacts SignalProps MinMaxExamples UntilFacts RobExamples AccuracyExamples SyncError LayerFacts UniformFacts JoinFormula SpacedExamples ManyFormula ManyExamples GeneralExamples TreeError TreeFormula TreeExamples.
Local Open Scope R_scope.

(** The lines of C121; the second one is also sampled at 1/4. *)
Definition p_y : signal B64 := sig_of [(dbl 0 0, dbl 3 0); (dbl 1 (-2), dbl 5 (-1)); (dbl 1 0, dbl 1 0)].
Definition p_tr : trace B64 := [(sx, g_x); (sy, p_y); (sw, g_w)].
(** x > 1 or not (y < 1 or not (w >= 1)). *)
Definition p_f : expr B64 := EOr [g_a; ENot (EOr [EPred sy LT (dbl 1 0); ENot g_c])].

Lemma p_dbls : B2R (dbl 1 (-2)) = 1 / 4 /\ finite (dbl 1 (-2)) = true /\ B2R (dbl 5 (-1)) = 5 / 2 /\ finite (dbl 5 (-1)) = true.
Proof.
  destruct (B2R_dbl 1 (-2) ltac:(lia) ltac:(lia)) as (E1 & F1). destruct (B2R_dbl 5 (-1) ltac:(lia) ltac:(lia)) as (E2 & F2). rewrite E1, E2. repeat split; try assumption; simpl; lra.
Qed.
Lemma p_reals : reals p_y = [(0, 3); (1 / 4, 5 / 2); (1, 1)].
Proof.
  destruct p_dbls as (D1 & _ & D2 & _). unfold p_y, reals. cbn [sig_of map fst snd s_time s_value].
  rewrite (proj1 (int_dbl 0 ltac:(lia))), (proj1 (int_dbl 1 ltac:(lia))), (proj1 (int_dbl 3 ltac:(lia))), D1, D2. reflexivity.
Qed.
Lemma p_pwl t v : pwl (reals p_y) t v -> 0 <= t <= 1 /\ v = 3 - 2 * t.
Proof.
  rewrite p_reals. intros [(p & [<-|[<-|[<-|[]]]] & E1 & E2)|(l1 & p & q & l2 & E & T & ->)]; cbn [fst snd] in *; try (subst; split; lra).
  destruct l1 as [|c [|d l1]]; [| |apply (f_equal (@length _)) in E; cbn in E; rewrite app_length in E; cbn in E; lia].
  - injection E as <- <- _. cbn [fst snd] in *. split; [lra|]. field.
  - injection E as _ <- <- _. cbn [fst snd] in *. split; [lra|]. field.
Qed.
Lemma p_sized : wf p_y /\ p_y <> [] /\ sized 4 1 p_y /\ spaced (1 / 4) p_y.
Proof.
  split; [apply b64_wf; vm_compute; reflexivity|]. split; [discriminate|].
  destruct (int_dbl 0 ltac:(lia)) as (Z1 & Z2). destruct (int_dbl 1 ltac:(lia)) as (O1 & O2). destruct (int_dbl 3 ltac:(lia)) as (A1 & A2). destruct p_dbls as (B1 & B2 & C1 & C2).
  assert (P : forall x1 (u v : sample B64) x2, p_y = x1 ++ u :: v :: x2 -> 1 / 4 <= B2R (s_time v) - B2R (s_time u)).
  { intros [|c [|d [|e x1]]] u v x2 E; [| |apply (f_equal (@length _)) in E; cbn in E; lia|apply (f_equal (@length _)) in E; cbn in E; rewrite app_length in E; cbn in E; lia].
    all: unfold p_y in E; cbn [sig_of app fst snd] in E; set (s0 := slope _ _) in E; clearbody s0; set (s1 := slope _ _) in E; clearbody s1.
    - apply (f_equal (fun l => match l with p :: q :: _ => (s_time p, s_time q) | _ => (nzero, nzero) end)) in E. cbn [s_time] in E. apply pair_equal_spec in E as (<- & <-). rewrite Z1, B1. lra.
    - apply (f_equal (fun l => match l with _ :: p :: q :: _ => (s_time p, s_time q) | _ => (nzero, nzero) end)) in E. cbn [s_time] in E. apply pair_equal_spec in E as (<- & <-). rewrite O1, B1. lra. }
  split; [split|].
  - intros c [<-|[<-|[<-|[]]]]; cbn [s_time s_value fst snd]; (split; [assumption|]); (split; [assumption|]); rewrite ?Z1, ?O1, ?A1, ?B1, ?C1; split; apply Rabs_le; lra.
  - intros x1 u v x2 E. eapply Rle_trans; [|exact (P x1 u v x2 E)]. replace (1 / 4) with (bpow radix2 (-2)) by (simpl; lra). apply bpow_le. lia.
  - exact P.
Qed.
Lemma p_cases n x : has_signal p_tr n x -> x = g_x \/ x = p_y \/ x = g_w.
Proof. intros [E|[E|[E|[]]]]; apply pair_equal_spec in E as (_ & <-); auto. Qed.
Lemma p_unique : keys_unique p_tr.
Proof. repeat constructor; cbn; intuition discriminate. Qed.
Lemma p_all n x : has_signal p_tr n x -> wf x /\ x <> [] /\ sized 4 1 x /\ spaced (1 / 4) x.
Proof.
  intros Hx. assert (K : x = p_y \/ x = g_x \/ x = g_y \/ x = g_w) by (destruct (p_cases n x Hx) as [K|[K|K]]; auto). destruct K as [-> |K]; [exact p_sized|].
  destruct (g_sized x K) as (A & B & C & D). repeat (split; [assumption|]). intros x1 u v x2 E. specialize (D x1 u v x2 E). lra.
Qed.
Lemma p_trace : spread_trace 4 1 (1 / 4) p_tr /\ same_begin p_tr.
Proof.
  split; [split; [exact p_unique|split]|].
  - apply Forall_forall. intros (n, x) Hx. destruct (p_all n x Hx) as (A & B & _). auto.
  - intros n x Hx. apply (p_all n x Hx).
  - intros n m x y Hx Hy. destruct (p_cases n x Hx) as [-> |[-> | ->]]; destruct (p_cases m y Hy) as [-> |[-> | ->]]; vm_compute; reflexivity.
Qed.
Lemma p_moderate : moderate 4 1 (1 / 4).
Proof.
  assert (bpow radix2 (-300) <= bpow radix2 2) by (apply bpow_le; lia). assert (bpow radix2 (-200) <= bpow radix2 (-2)) by (apply bpow_le; lia). assert (bpow radix2 2 <= bpow radix2 296) by (apply bpow_le; lia). assert (bpow radix2 0 <= bpow radix2 300) by (apply bpow_le; lia).
  replace (bpow radix2 2) with 4 in * by (simpl; lra). replace (bpow radix2 0) with 1 in * by (simpl; lra). replace (bpow radix2 (-2)) with (1 / 4) in * by (simpl; lra). unfold moderate. lra.
Qed.
Lemma p_error : error_of 3 4 1 (1 / 4) <= 1 / 1000.
Proof.
  unfold error_of. assert (bpow radix2 (-42) <= bpow radix2 (-21)) by (apply bpow_le; lia). assert (E : bpow radix2 (-21) = / 2097152) by (simpl; lra). rewrite E in H.
  pose proof (bpow_gt_0 radix2 (-42)). replace (bpow radix2 (-42) * 10 ^ (3 - 1) * 4 * 1 / (1 / 4)) with (1600 * bpow radix2 (-42)) by (change (3 - 1)%nat with 2%nat; generalize (bpow radix2 (-42)); intros q; field). lra.
Qed.
Lemma p_value n x t u : has_signal p_tr n x -> value_at (real_trace p_tr) n t u -> pwl (reals x) t u.
Proof. intros Hx. apply (values_of p_tr p_unique n x Hx). Qed.
Lemma p_rob t v : (rob (real_trace p_tr) (real_formula g_a) t v -> 0 <= t <= 1 /\ v = 4 * t - 1) /\ (rob (real_trace p_tr) (real_formula g_b) t v -> 0 <= t <= 1 /\ v = 2 - 2 * t) /\
  (rob (real_trace p_tr) (real_formula g_c) t v -> 0 <= t <= 1 /\ v = t).
Proof.
  destruct (int_dbl 1 ltac:(lia)) as (O1 & _).
  split; [|split]; unfold g_a, g_b, g_c; cbn [real_formula rob]; intros (u & r & Hu & Er & Ev); apply (f_equal (fun q => match q with Fin a => a | _ => 0 end)) in Er; rewrite O1 in Er; subst r.
  - apply (p_value _ g_x) in Hu; [|left; reflexivity]. apply g_pwl in Hu. lra.
  - apply (p_value _ p_y) in Hu; [|right; left; reflexivity]. apply p_pwl in Hu. lra.
  - apply (p_value _ g_w) in Hu; [|right; right; left; reflexivity]. apply g_pwl in Hu. lra.
Qed.
Lemma p_times n x a : has_signal p_tr n x -> In a x -> B2R (s_time a) = 0 \/ B2R (s_time a) = 1 / 4 \/ B2R (s_time a) = 1.
Proof.
  intros Hx Ha. destruct (int_dbl 0 ltac:(lia)) as (Z1 & _). destruct (int_dbl 1 ltac:(lia)) as (O1 & _). destruct p_dbls as (D1 & _).
  destruct (p_cases n x Hx) as [-> |[-> | ->]]; [destruct Ha as [<-|[<-|[]]]|destruct Ha as [<-|[<-|[<-|[]]]]|destruct Ha as [<-|[<-|[]]]]; cbn [s_time fst]; auto.
Qed.
(** The sample times are 0, 1/4 and 1; the differences are small only near 1/2, 1/3 and 2/3. *)
Lemma p_general d : d <= 1 / 100 -> general_formulas d p_tr [g_a; g_b; g_c].
Proof.
  intros Hd. assert (K : forall i j t, (i < j)%nat -> close_formulas d p_tr [g_a; g_b; g_c] i j t -> (j < 3)%nat /\ 0 <= t <= 1 /\ Rabs (g_gap i j t) < 1 / 100).
  { intros i j t L (x & y & u & v & Hx & Hy & Pu & Pv & Q). assert (J : (j < 3)%nat) by (apply (nth_error_Some [g_a; g_b; g_c] j); congruence). split; [exact J|].
    destruct (p_rob t u) as (U1 & U2 & U3). destruct (p_rob t v) as (V1 & V2 & V3).
    destruct i as [|[|i]], j as [|[|[|j]]]; try lia; cbn [nth_error] in Hx, Hy; apply (f_equal (fun o => match o with Some s => s | None => EConst true end)) in Hx, Hy; subst x y; cbn [g_gap].
    - destruct (U1 Pu) as (D & Eu). destruct (V2 Pv) as (_ & Ev). split; [exact D|]. replace (6 * t - 3) with (u - v) by lra. lra.
    - destruct (U1 Pu) as (D & Eu). destruct (V3 Pv) as (_ & Ev). split; [exact D|]. replace (3 * t - 1) with (u - v) by lra. lra.
    - destruct (U2 Pu) as (D & Eu). destruct (V3 Pv) as (_ & Ev). split; [exact D|]. replace (2 - 3 * t) with (u - v) by lra. lra. }
  split; [|apply (g_apart _ K)]. intros i j n x a L Hx Ha Q.
  pose proof (p_times n x a Hx Ha) as T.
  destruct (K i j _ L Q) as (J & _ & A). apply Rabs_def2 in A. destruct i as [|[|i]], j as [|[|[|j]]]; try lia; cbn [g_gap] in A; destruct T as [T|[T|T]]; rewrite T in A; lra.
Qed.
Lemma p_in : in_trace 4 p_tr p_f.
Proof.
  destruct (int_dbl 1 ltac:(lia)) as (O1 & O2). split.
  - intros e He. cbn [p_f g_a g_c subs flat_map app] in He. destruct He as [<-|[<-|[<-|[<-|[<-|[<-|[<-|[]]]]]]]]; try exact I; (split; [exact O2|rewrite O1; apply Rabs_le; lra]).
  - intros n Hn. change (names p_f) with [sx; sy; sw] in Hn. destruct Hn as [<-|[<-|[<-|[]]]]; eexists; [left|right; left|right; right; left]; reflexivity.
Qed.
Definition p_stage (e : expr B64) : bool := match compute_robustness true 0 e p_tr false with Ok y => steps_ok y | _ => false end.
Lemma p_stages : separated true 0 p_tr p_f.
Proof.
  intros e y s He Hy. assert (K : forallb p_stage (stages p_f) = true) by (vm_compute; reflexivity). rewrite forallb_forall in K. specialize (K e He). unfold p_stage in K.
  change (compute_robustness true 0 e p_tr false) with (compute_robustness true 0 e p_tr s) in K. rewrite Hy in K. apply steps_spaced, K.
Qed.

Lemma C123_boolean_case_lemma : spread_trace 4 1 (1 / 4) p_tr /\ same_begin p_tr /\ moderate 4 1 (1 / 4) /\ boolean p_f = true /\ in_trace 4 p_tr p_f /\ length (names p_f) = 3%nat /\ error_of 3 4 1 (1 / 4) <= 4 /\
  separated true 0 p_tr p_f /\ signed_predicates false p_f = [g_a; g_b; g_c] /\ general_formulas (8 * error_of 3 4 1 (1 / 4)) p_tr [g_a; g_b; g_c] /\
  exists z, compute_robustness true 0 p_f p_tr false = Ok z /\ length z = 5%nat.
Proof.
  pose proof p_error. split; [apply p_trace|]. split; [apply p_trace|]. split; [exact p_moderate|]. split; [reflexivity|]. split; [exact p_in|]. split; [reflexivity|]. split; [lra|]. split; [exact p_stages|]. split; [reflexivity|].
  split; [apply p_general; lra|]. runs_to.
Qed.
Lemma C123_temporal_case_lemma : made_interval (F := B64) interval_default /\
  exists z, compute_robustness true 0 (EAlways p_f interval_default) p_tr false = Ok z /\ exists c, In c z /\ nltb nzero (s_value c) = true.
Proof.
  split; [left; reflexivity|]. destruct (one_ok (compute_robustness true 0 (EAlways p_f interval_default) p_tr false) (existsb (fun c => nltb nzero (s_value c)))) as (z & E & K); [vm_compute; reflexivity|].
  exists z. split; [exact E|]. apply existsb_exists in K. exact K.
Qed.

Lemma p_apart : times_apart p_tr.
Proof.
  intros n m x y a b Hx Hy Ha Hb Lab. assert (Q : bpow radix2 (-252) <= bpow radix2 (-2)) by (apply bpow_le; lia). replace (bpow radix2 (-2)) with (1 / 4) in Q by (simpl; lra).
  destruct (p_times n x a Hx Ha) as [E|[E|E]]; destruct (p_times m y b Hy Hb) as [E'|[E'|E']]; rewrite E, E' in *; lra.
Qed.
Lemma C124_case_lemma : spread_trace 4 1 (1 / 4) p_tr /\ same_begin p_tr /\ times_apart p_tr /\ moderate 4 1 (1 / 4) /\ boolean p_f = true /\ in_trace 4 p_tr p_f /\ length (names p_f) = 3%nat /\ error_of 3 4 1 (1 / 4) <= 4 /\
  signed_predicates false p_f = [g_a; g_b; g_c] /\ general_formulas (8 * error_of 3 4 1 (1 / 4)) p_tr [g_a; g_b; g_c].
Proof.
  pose proof p_error. split; [apply p_trace|]. split; [apply p_trace|]. split; [exact p_apart|]. split; [exact p_moderate|]. split; [reflexivity|]. split; [exact p_in|]. split; [reflexivity|]. split; [lra|]. split; [reflexivity|].
  apply p_general; lra.
Qed.
