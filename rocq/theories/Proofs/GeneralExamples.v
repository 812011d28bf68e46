(** Instances for C121. *)
From Coq Require Import Reals Lra Lia.
From Flocq Require Import Core.Core IEEE754.BinarySingleNaN.
From Verif Require Import Base Num NumXR NumB64.
From Verif.Model Require Import Signal MinMax Ast Robustness.
From Verif.Spec Require Import SignalSpec Pwl Formula Semantics Quantitative Accuracy Uniform Whole Apart Spaced Many General.
From Verif.Proofs Require Import NumFacts SignalFacts SignalProps MinMaxExamples UntilFacts RobExamples AccuracyExamples SyncError LayerFacts UniformFacts JoinFormula SpacedExamples ManyFormula ManyExamples.
Local Open Scope R_scope.

(** 0 and 4, 3 and 1, 1 and 2 at times 0 and 1: they cross at 1/2, 1/3 and 2/3. *)
Definition g_line (a b : Z) : signal B64 := sig_of [(dbl 0 0, dbl a 0); (dbl 1 0, dbl b 0)].
Definition g_x : signal B64 := g_line 0 4.
Definition g_y : signal B64 := g_line 3 1.
Definition g_w : signal B64 := g_line 1 2.
Definition sw : string := "w".
Definition g_tr : trace B64 := [(sx, g_x); (sy, g_y); (sw, g_w)].
(** x > 1, not (y < 1), w >= 1, Always (x > 0), not (y < 0), w > 0. *)
Definition g_a : expr B64 := EPred sx GT (dbl 1 0).
Definition g_b : expr B64 := ENot (EPred sy LT (dbl 1 0)).
Definition g_c : expr B64 := EPred sw GE (dbl 1 0).
Definition g_d : expr B64 := EAlways (EPred sx GT (dbl 0 0)) interval_default.
Definition g_e : expr B64 := ENot (EPred sy LT (dbl 0 0)).
Definition g_f : expr B64 := EPred sw GT (dbl 0 0).

Lemma int_dbl k : (Z.abs k < 2 ^ 53)%Z -> B2R (dbl k 0) = IZR k /\ finite (dbl k 0) = true.
Proof. intros L. destruct (B2R_dbl k 0 L ltac:(lia)) as (E & F). split; [|exact F]. rewrite E. simpl. lra. Qed.
Lemma reals_line a b : (Z.abs a < 2 ^ 53)%Z -> (Z.abs b < 2 ^ 53)%Z -> reals (g_line a b) = [(0, IZR a); (1, IZR b)].
Proof.
  intros A B. unfold g_line, reals. cbn [sig_of map fst snd s_time s_value].
  rewrite (proj1 (int_dbl 0 ltac:(lia))), (proj1 (int_dbl 1 ltac:(lia))), (proj1 (int_dbl a A)), (proj1 (int_dbl b B)). reflexivity.
Qed.
Lemma pwl_line (a b t v : R) : pwl [(0, a); (1, b)] t v -> 0 <= t <= 1 /\ v = a + (b - a) * t.
Proof.
  intros [(p & [<-|[<-|[]]] & E1 & E2)|(l1 & p & q & l2 & E & T & ->)]; cbn [fst snd] in *; try (subst; split; lra).
  destruct l1 as [|c [|d l1]]; [|apply (f_equal (@length _)) in E; cbn in E; lia|apply (f_equal (@length _)) in E; cbn in E; rewrite app_length in E; cbn in E; lia].
  injection E as <- <- _. cbn [fst snd] in *. split; [lra|]. field.
Qed.
Lemma g_pwl t v : (pwl (reals g_x) t v -> 0 <= t <= 1 /\ v = 4 * t) /\ (pwl (reals g_y) t v -> 0 <= t <= 1 /\ v = 3 - 2 * t) /\ (pwl (reals g_w) t v -> 0 <= t <= 1 /\ v = 1 + t).
Proof.
  split; [|split]; intros K; [unfold g_x in K|unfold g_y in K|unfold g_w in K]; (rewrite reals_line in K by (cbn; lia)); apply pwl_line in K; lra.
Qed.
Lemma g_sized x : x = g_x \/ x = g_y \/ x = g_w -> wf x /\ x <> [] /\ sized 4 1 x /\ spaced 1 x.
Proof.
  intros Hx. split; [destruct Hx as [-> |[-> | ->]]; apply b64_wf; vm_compute; reflexivity|]. split; [destruct Hx as [-> |[-> | ->]]; discriminate|].
  assert (exists a b, x = g_line a b /\ (0 <= a <= 4)%Z /\ (0 <= b <= 4)%Z) as (a & b & E & La & Lb).
  { destruct Hx as [-> |[-> | ->]]; [exists 0%Z, 4%Z|exists 3%Z, 1%Z|exists 1%Z, 2%Z]; (split; [reflexivity|lia]). }
  subst x. clear Hx. destruct (int_dbl 0 ltac:(lia)) as (Z1 & Z2). destruct (int_dbl 1 ltac:(lia)) as (O1 & O2).
  destruct (int_dbl a ltac:(lia)) as (A1 & A2). destruct (int_dbl b ltac:(lia)) as (B1 & B2).
  assert (0 <= IZR a <= 4) by (split; apply IZR_le; lia). assert (0 <= IZR b <= 4) by (split; apply IZR_le; lia).
  assert (P : forall x1 (u v : sample B64) x2, g_line a b = x1 ++ u :: v :: x2 -> B2R (s_time v) - B2R (s_time u) = 1).
  { intros [|c [|d x1]] u v x2 E; [|apply (f_equal (@length _)) in E; cbn in E; lia|apply (f_equal (@length _)) in E; cbn in E; rewrite app_length in E; cbn in E; lia].
    unfold g_line in E. cbn [sig_of app fst snd] in E. set (s0 := slope _ _) in E. clearbody s0. apply (f_equal (fun l => match l with p :: q :: _ => (s_time p, s_time q) | _ => (nzero, nzero) end)) in E. cbn [s_time] in E.
    apply pair_equal_spec in E as (<- & <-). rewrite Z1, O1. lra. }
  split; [split|].
  - intros c [<-|[<-|[]]]; cbn [s_time s_value fst snd]; (split; [assumption|]); (split; [assumption|]); rewrite ?Z1, ?O1, ?A1, ?B1; split; apply Rabs_le; lra.
  - intros x1 u v x2 E. rewrite (P x1 u v x2 E). change 1 with (bpow radix2 0). apply bpow_le. lia.
  - intros x1 u v x2 E. rewrite (P x1 u v x2 E). lra.
Qed.
Lemma g_same x y : x = g_x \/ x = g_y \/ x = g_w -> y = g_x \/ y = g_y \/ y = g_w -> Forall2 (fun a b => neqb (s_time a) (s_time b) = true) x y.
Proof. intros [-> |[-> | ->]] [-> |[-> | ->]]; repeat (constructor; [vm_compute; reflexivity|]); constructor. Qed.
Lemma g_moderate : moderate 4 1 1.
Proof.
  assert (bpow radix2 (-300) <= bpow radix2 2) by (apply bpow_le; lia). assert (bpow radix2 (-200) <= bpow radix2 0) by (apply bpow_le; lia). assert (bpow radix2 2 <= bpow radix2 296) by (apply bpow_le; lia). assert (bpow radix2 0 <= bpow radix2 300) by (apply bpow_le; lia).
  replace (bpow radix2 2) with 4 in * by (simpl; lra). replace (bpow radix2 0) with 1 in * by (simpl; lra). unfold moderate. lra.
Qed.
Lemma g_error : error_of 3 4 1 1 <= 1 / 1000.
Proof.
  unfold error_of. assert (bpow radix2 (-42) <= bpow radix2 (-20)) by (apply bpow_le; lia). assert (E : bpow radix2 (-20) = / 1048576) by (simpl; lra). rewrite E in H.
  pose proof (bpow_gt_0 radix2 (-42)). replace (bpow radix2 (-42) * 10 ^ (3 - 1) * 4 * 1 / 1) with (400 * bpow radix2 (-42)) by (change (3 - 1)%nat with 2%nat; generalize (bpow radix2 (-42)); intros q; field). lra.
Qed.

(** The three differences are 6 t - 3, 3 t - 1 and 2 - 3 t: below 1/100 only near 1/2, 1/3 and 2/3. *)
Definition g_gap (i j : nat) (t : R) : R := match i, j with O, S O => 6 * t - 3 | O, S (S O) => 3 * t - 1 | S O, S (S O) => 2 - 3 * t | _, _ => 1 end.
Lemma g_apart (P : nat -> nat -> R -> Prop) : (forall i j t, (i < j)%nat -> P i j t -> (j < 3)%nat /\ 0 <= t <= 1 /\ Rabs (g_gap i j t) < 1 / 100) ->
  (forall i j t, (i < j)%nat -> t = 0 \/ t = 1 -> ~ P i j t) /\ (forall i j k l t, (i < j)%nat -> (k < l)%nat -> (i, j) <> (k, l) -> P i j t -> ~ P k l t).
Proof.
  intros K. assert (K' : forall i j t, (i < j)%nat -> P i j t -> (i = 0%nat /\ j = 1%nat /\ 49 / 100 < t < 51 / 100) \/ (i = 0%nat /\ j = 2%nat /\ 32 / 100 < t < 35 / 100) \/ (i = 1%nat /\ j = 2%nat /\ 66 / 100 < t < 68 / 100)).
  { intros i j t L Q. destruct (K i j t L Q) as (J & D & A). apply Rabs_def2 in A. destruct i as [|[|i]], j as [|[|[|j]]]; try lia; cbn [g_gap] in A; [left|right; left|right; right]; repeat split; lra. }
  split.
  - intros i j t L T Q. apply K' in Q; [|exact L]. destruct T as [-> | ->]; lra.
  - intros i j k l t L1 L2 N Q1 Q2. apply K' in Q1; [|exact L1]. apply K' in Q2; [|exact L2].
    destruct Q1 as [(-> & -> & A)|[(-> & -> & A)|(-> & -> & A)]], Q2 as [(-> & -> & B)|[(-> & -> & B)|(-> & -> & B)]]; try lra; apply N; reflexivity.
Qed.
Lemma g_times x a : x = g_x \/ x = g_y \/ x = g_w -> In a x -> B2R (s_time a) = 0 \/ B2R (s_time a) = 1.
Proof.
  intros Hx Ha. destruct (int_dbl 0 ltac:(lia)) as (Z1 & _). destruct (int_dbl 1 ltac:(lia)) as (O1 & _).
  destruct Hx as [-> |[-> | ->]]; destruct Ha as [<-|[<-|[]]]; cbn [s_time fst]; auto.
Qed.
Lemma g_general d : d <= 1 / 100 -> general d [g_x; g_y; g_w].
Proof.
  intros Hd. destruct (g_apart (close_at d [g_x; g_y; g_w])) as (A & B).
  { intros i j t L (x & y & u & v & Hx & Hy & Pu & Pv & Q). assert (J : (j < 3)%nat) by (apply (nth_error_Some [g_x; g_y; g_w] j); congruence). split; [exact J|].
    destruct (g_pwl t u) as (U1 & U2 & U3). destruct (g_pwl t v) as (V1 & V2 & V3).
    destruct i as [|[|i]], j as [|[|[|j]]]; try lia; cbn [nth_error] in Hx, Hy; apply (f_equal (fun o => match o with Some s => s | None => [] end)) in Hx, Hy; subst x y; cbn [g_gap].
    - destruct (U1 Pu) as (D & Eu). destruct (V2 Pv) as (_ & Ev). split; [exact D|]. replace (6 * t - 3) with (u - v) by lra. lra.
    - destruct (U1 Pu) as (D & Eu). destruct (V3 Pv) as (_ & Ev). split; [exact D|]. replace (3 * t - 1) with (u - v) by lra. lra.
    - destruct (U2 Pu) as (D & Eu). destruct (V3 Pv) as (_ & Ev). split; [exact D|]. replace (2 - 3 * t) with (u - v) by lra. lra. }
  split; [|exact B]. intros i j x a L Hx Ha. apply A; [exact L|]. apply (g_times x); [|exact Ha]. destruct Hx as [<-|[<-|[<-|[]]]]; auto.
Qed.

Lemma g_cases n x : has_signal g_tr n x -> x = g_x \/ x = g_y \/ x = g_w.
Proof. intros [E|[E|[E|[]]]]; apply pair_equal_spec in E as (_ & <-); auto. Qed.
Lemma g_unique : keys_unique g_tr.
Proof. repeat constructor; cbn; intuition discriminate. Qed.
Lemma g_trace : spaced_trace 4 1 1 g_tr.
Proof.
  split; [exact g_unique|]. split; [|split].
  - apply Forall_forall. intros (n, x) Hx. destruct (g_sized x (g_cases n x Hx)) as (A & B & _). auto.
  - intros n x Hx. destruct (g_sized x (g_cases n x Hx)) as (_ & _ & A). exact A.
  - intros n m x y Hx Hy. apply g_same; eapply g_cases; eassumption.
Qed.
Lemma g_value n x t u : has_signal g_tr n x -> value_at (real_trace g_tr) n t u -> pwl (reals x) t u.
Proof. intros Hx. apply (values_of g_tr g_unique n x Hx). Qed.
Lemma g_rob t v : (rob (real_trace g_tr) (real_formula g_a) t v -> 0 <= t <= 1 /\ v = 4 * t - 1) /\ (rob (real_trace g_tr) (real_formula g_b) t v -> 0 <= t <= 1 /\ v = 2 - 2 * t) /\
  (rob (real_trace g_tr) (real_formula g_c) t v -> 0 <= t <= 1 /\ v = t).
Proof.
  destruct (int_dbl 1 ltac:(lia)) as (O1 & _).
  split; [|split]; unfold g_a, g_b, g_c; cbn [real_formula rob]; intros (u & r & Hu & Er & Ev); apply (f_equal (fun q => match q with Fin a => a | _ => 0 end)) in Er; rewrite O1 in Er; subst r.
  - apply (g_value _ g_x) in Hu; [|left; reflexivity]. apply g_pwl in Hu. lra.
  - apply (g_value _ g_y) in Hu; [|right; left; reflexivity]. apply g_pwl in Hu. lra.
  - apply (g_value _ g_w) in Hu; [|right; right; left; reflexivity]. apply g_pwl in Hu. lra.
Qed.
Lemma g_general_formulas d : d <= 1 / 100 -> general_formulas d g_tr [g_a; g_b; g_c].
Proof.
  intros Hd. destruct (g_apart (close_formulas d g_tr [g_a; g_b; g_c])) as (A & B).
  { intros i j t L (x & y & u & v & Hx & Hy & Pu & Pv & Q). assert (J : (j < 3)%nat) by (apply (nth_error_Some [g_a; g_b; g_c] j); congruence). split; [exact J|].
    destruct (g_rob t u) as (U1 & U2 & U3). destruct (g_rob t v) as (V1 & V2 & V3).
    destruct i as [|[|i]], j as [|[|[|j]]]; try lia; cbn [nth_error] in Hx, Hy; apply (f_equal (fun o => match o with Some s => s | None => EConst true end)) in Hx, Hy; subst x y; cbn [g_gap].
    - destruct (U1 Pu) as (D & Eu). destruct (V2 Pv) as (_ & Ev). split; [exact D|]. replace (6 * t - 3) with (u - v) by lra. lra.
    - destruct (U1 Pu) as (D & Eu). destruct (V3 Pv) as (_ & Ev). split; [exact D|]. replace (3 * t - 1) with (u - v) by lra. lra.
    - destruct (U2 Pu) as (D & Eu). destruct (V3 Pv) as (_ & Ev). split; [exact D|]. replace (2 - 3 * t) with (u - v) by lra. lra. }
  split; [|exact B]. intros i j n x a L Hx Ha. apply A; [exact L|]. apply (g_times x); [|exact Ha]. eapply g_cases, Hx.
Qed.
Lemma g_pred n op k : n = sx \/ n = sy \/ n = sw -> (0 <= k <= 4)%Z -> in_trace 4 g_tr (EPred n op (dbl k 0)).
Proof.
  intros Hn Hk. destruct (int_dbl k ltac:(lia)) as (A1 & A2). assert (0 <= IZR k <= 4) by (split; apply IZR_le; lia). split.
  - intros e [<-|[]]. split; [exact A2|]. rewrite A1. apply Rabs_le. lra.
  - intros m [<-|[]]. destruct Hn as [-> |[-> | ->]]; eexists; [left|right; left|right; right; left]; reflexivity.
Qed.
Lemma in_trace_sub V tr e (f : expr B64 -> expr B64) : (forall e, f e = ENot e) \/ (forall e, f e = EAlways e interval_default) -> in_trace V tr e -> in_trace V tr (f e).
Proof.
  intros [E|E] (A & B); rewrite E; (split; [|exact B]); intros u [<-|Hu]; try exact I; apply A, Hu.
Qed.

Lemma C121_list_case_lemma : Forall (fun x => wf x /\ x <> [] /\ sized 4 1 x /\ spaced 1 x) [g_x; g_y; g_w] /\
  (forall x y, In x [g_x; g_y; g_w] -> In y [g_x; g_y; g_w] -> Forall2 (fun a b => neqb (s_time a) (s_time b) = true) x y) /\ moderate 4 1 1 /\ error_of 3 4 1 1 <= 4 /\
  general (error_of 3 4 1 1) [g_x; g_y; g_w] /\ exists z, elementwise_min_list true false [g_x; g_y; g_w] = Ok z /\ length z = 5%nat.
Proof.
  pose proof g_error. split; [repeat (constructor; [apply g_sized; auto|]); constructor|].
  split; [intros x y [<-|[<-|[<-|[]]]] [<-|[<-|[<-|[]]]]; apply g_same; auto|]. split; [exact g_moderate|]. split; [lra|]. split; [apply g_general; lra|]. runs_to.
Qed.
(** General position is a matter of the points only. *)
Lemma general_reals d (xs ys : list (signal B64)) : map reals xs = map reals ys -> general d ys -> general d xs.
Proof.
  intros E (G1 & G2). assert (N : forall i x, nth_error xs i = Some x -> exists y, nth_error ys i = Some y /\ reals y = reals x).
  { intros i x Hx. apply (map_nth_error reals) in Hx. rewrite E, nth_error_map in Hx. destruct (nth_error ys i) as [y|]; [|discriminate]. exists y. split; [reflexivity|].
    cbn [option_map] in Hx. apply (f_equal (fun o => match o with Some l => l | None => [] end)) in Hx. exact Hx. }
  assert (C : forall i j t, close_at d xs i j t -> close_at d ys i j t).
  { intros i j t (x & y & u & v & Hx & Hy & Pu & Pv & Q). destruct (N i x Hx) as (x' & Hx' & Ex). destruct (N j y Hy) as (y' & Hy' & Ey).
    exists x', y', u, v. rewrite Ex, Ey. auto. }
  split; [|intros i j k l t A1 A2 A3 A4 A5; exact (G2 i j k l t A1 A2 A3 (C _ _ _ A4) (C _ _ _ A5))].
  intros i j x a L Hx Ha K. apply C in K. apply In_nth_error in Hx as (m & Hm). destruct (N m x Hm) as (y & Hy & Ey).
  assert (In (B2R (s_time a), B2R (s_value a)) (reals y)) as Hb by (rewrite Ey; apply (in_map (fun a => (B2R (s_time a), B2R (s_value a)))), Ha).
  apply in_map_iff in Hb as (b & Eb & Hb). apply pair_equal_spec in Eb as (Et & _). rewrite <- Et in K. exact (G1 i j y b L (nth_error_In _ _ Hy) Hb K).
Qed.
Definition alike (x y : signal B64) : bool :=
  match x, y with
  | [a; a'], [b; b'] => finite (s_time a) && finite (s_value a) && finite (s_time a') && finite (s_value a') && finite (s_time b) && finite (s_value b) && finite (s_time b') && finite (s_value b') &&
      neqb (s_time a) (s_time b) && neqb (s_value a) (s_value b) && neqb (s_time a') (s_time b') && neqb (s_value a') (s_value b')
  | _, _ => false
  end.
Lemma alike_reals x y : alike x y = true -> reals x = reals y.
Proof.
  unfold alike. destruct x as [|a [|a' [|]]], y as [|b [|b' [|]]]; try discriminate. intros K. repeat (apply andb_prop in K as [K ?]). unfold reals. cbn [map].
  apply (f_equal2 cons); [apply (f_equal2 pair); apply eq_B2R; assumption|]. apply (f_equal2 cons); [apply (f_equal2 pair); apply eq_B2R; assumption|reflexivity].
Qed.
Lemma C121_chains_case_lemma : spaced_trace 4 1 1 g_tr /\ moderate 4 1 1 /\ Forall (fun a => chain a = true /\ intervals_made a /\ in_trace 4 g_tr a) [g_d; g_e; g_f] /\ error_of 3 4 1 1 <= 4 /\
  (exists xs, Forall2 (fun a x => compute_robustness true 0 a g_tr false = Ok x) [g_d; g_e; g_f] xs /\ general (4 * error_of 3 4 1 1) xs) /\
  exists z, compute_robustness true 0 (EAnd [g_d; g_e; g_f]) g_tr false = Ok z /\ length z = 5%nat.
Proof.
  pose proof g_error. split; [exact g_trace|]. split; [exact g_moderate|]. split; [|split; [lra|split; [|runs_to]]].
  - constructor; [|constructor; [|constructor; [|constructor]]]; (split; [reflexivity|]); split.
    + intros e [<-|[<-|[]]]; [left; reflexivity|exact I].
    + apply (in_trace_sub 4 g_tr _ (fun e => EAlways e interval_default)); [auto|]. apply g_pred; [auto|lia].
    + intros e [<-|[<-|[]]]; exact I.
    + apply (in_trace_sub 4 g_tr _ ENot); [auto|]. apply g_pred; [auto|lia].
    + intros e [<-|[]]; exact I.
    + apply g_pred; [auto|lia].
  - destruct (one_ok (compute_robustness true 0 g_d g_tr false) (fun z => alike z g_x)) as (x & Ex & Kx); [vm_compute; reflexivity|].
    destruct (one_ok (compute_robustness true 0 g_e g_tr false) (fun z => alike z g_y)) as (y & Ey & Ky); [vm_compute; reflexivity|].
    destruct (one_ok (compute_robustness true 0 g_f g_tr false) (fun z => alike z g_w)) as (w & Ew & Kw); [vm_compute; reflexivity|].
    exists [x; y; w]. split; [constructor; [exact Ex|constructor; [exact Ey|constructor; [exact Ew|constructor]]]|].
    apply (general_reals _ [x; y; w] [g_x; g_y; g_w]); [|apply g_general; lra]. cbn [map]. rewrite (alike_reals _ _ Kx), (alike_reals _ _ Ky), (alike_reals _ _ Kw). reflexivity.
Qed.
Lemma g_literals : Forall (fun a => literal a = true /\ in_trace 4 g_tr a) [g_a; g_b; g_c].
Proof.
  constructor; [|constructor; [|constructor; [|constructor]]]; (split; [reflexivity|]).
  - apply g_pred; [auto|lia].
  - apply (in_trace_sub 4 g_tr _ ENot); [auto|]. apply g_pred; [auto|lia].
  - apply g_pred; [auto|lia].
Qed.
Lemma C121_boolean_case_lemma : Forall (fun a => literal a = true /\ in_trace 4 g_tr a) [g_a; g_b; g_c] /\ error_of 3 4 1 1 <= 4 /\ general_formulas (8 * error_of 3 4 1 1) g_tr [g_a; g_b; g_c] /\
  exists z, compute_robustness true 0 (EOr [g_a; g_b; g_c]) g_tr false = Ok z /\ length z = 3%nat.
Proof. pose proof g_error. split; [exact g_literals|]. split; [lra|]. split; [apply g_general_formulas; lra|]. runs_to. Qed.
Lemma C121_temporal_case_lemma : made_interval (F := B64) interval_default /\
  exists z, compute_robustness true 0 (EEventually (EAnd [g_a; g_b; g_c]) interval_default) g_tr false = Ok z /\ exists c, In c z /\ nltb nzero (s_value c) = true.
Proof.
  split; [left; reflexivity|]. destruct (one_ok (compute_robustness true 0 (EEventually (EAnd [g_a; g_b; g_c]) interval_default) g_tr false) (existsb (fun c => nltb nzero (s_value c)))) as (z & E & K); [vm_compute; reflexivity|].
  exists z. split; [exact E|]. apply existsb_exists in K. exact K.
Qed.
