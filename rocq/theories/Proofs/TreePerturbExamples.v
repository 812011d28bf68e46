(** Instances for C126. *)
From Coq Require Import Reals Lra Lia.
From Flocq Require Import Core.Core IEEE754.BinarySingleNaN.
From Verif Require Import Base Num NumXR NumB64.
From Verif.Model Require Import Signal Ast Robustness.
From Verif.Spec Require Import SignalSpec Pwl Formula Semantics Quantitative Accuracy Uniform Whole Apart Spaced Many General Tree Perturb.
From Verif.Proofs Require Import NumFacts PwlFacts UntilFacts MinMaxExamples AccuracyExamples GeneralExamples TreeError TreePositionExamples.
Local Open Scope R_scope.

(** [p_tr] with y raised by 1/8; y has no sample at 1/4. *)
Definition p_lt : ptrace := [(sx, [(0, 0); (1, 4)]); (sy, [(0, 25 / 8); (1, 9 / 8)]); (sw, [(0, 1); (1, 2)])].

Lemma line_pwl (a b t : R) : 0 <= t <= 1 -> pwl [(0, a); (1, b)] t (a + (b - a) * t).
Proof.
  intros T. destruct (Req_dec t 0) as [-> |N0]; [left; exists (0, a); cbn; repeat split; auto; lra|]. destruct (Req_dec t 1) as [-> |N1]; [left; exists (1, b); cbn; repeat split; auto; lra|].
  right. exists [], (0, a), (1, b), []. split; [reflexivity|]. cbn [fst snd]. split; [lra|]. field.
Qed.
Lemma line_iff (a b t : R) : (exists v, pwl [(0, a); (1, b)] t v) <-> 0 <= t <= 1.
Proof. split; [intros (v & K); apply (pwl_line a b t v K)|intros T; eexists; apply (line_pwl a b t T)]. Qed.
Lemma p_y_iff t : (exists v, pwl (reals p_y) t v) <-> 0 <= t <= 1.
Proof.
  split; [intros (v & K); apply (p_pwl t v K)|]. rewrite p_reals. intros T.
  destruct (Req_dec t 0) as [-> |N0]; [exists 3; left; exists (0, 3); cbn; auto|]. destruct (Req_dec t 1) as [-> |N1]; [exists 1; left; exists (1, 1); cbn; auto|].
  destruct (Req_dec t (1 / 4)) as [-> |N2]; [exists (5 / 2); left; exists (1 / 4, 5 / 2); cbn; auto|].
  destruct (Rlt_le_dec t (1 / 4)) as [L|L]; eexists; right; [exists [], (0, 3), (1 / 4, 5 / 2), [(1, 1)]|exists [(0, 3)], (1 / 4, 5 / 2), (1, 1), []]; (split; [reflexivity|]); cbn [fst snd]; (split; [lra|reflexivity]).
Qed.
Lemma p_close : Perturb.close (1 / 8) (real_trace p_tr) p_lt.
Proof.
  unfold real_trace, p_tr, p_lt. cbn [map fst snd]. assert (Ex : reals g_x = [(0, 0); (1, 4)]) by (unfold g_x; apply (reals_line 0 4); cbn; lia). assert (Ew : reals g_w = [(0, 1); (1, 2)]) by (unfold g_w; apply (reals_line 1 2); cbn; lia).
  rewrite Ex, Ew. constructor; [|constructor; [|constructor; [|constructor]]]; cbn [fst snd]; (split; [reflexivity|]).
  - split; [reflexivity|]. intros t x y Kx Ky. apply pwl_line in Kx as (_ & ->), Ky as (_ & ->). apply Rabs_le. lra.
  - split; [intros t; rewrite p_y_iff, line_iff; reflexivity|]. intros t x y Kx Ky. apply p_pwl in Kx as (_ & ->). apply pwl_line in Ky as (_ & ->). apply Rabs_le. lra.
  - split; [reflexivity|]. intros t x y Kx Ky. apply pwl_line in Kx as (_ & ->), Ky as (_ & ->). apply Rabs_le. lra.
Qed.
Lemma C126_case_lemma : Perturb.close (1 / 8) (real_trace p_tr) p_lt /\ 8 * error_of 3 4 1 (1 / 4) + 1 / 8 < 1 / 4 /\
  exists z, compute_robustness true 0 (EAlways p_f interval_default) p_tr false = Ok z /\ exists c, In c z /\ nltb (dbl 1 (-2)) (s_value c) = true.
Proof.
  split; [exact p_close|]. split; [pose proof p_error; lra|].
  destruct (one_ok (compute_robustness true 0 (EAlways p_f interval_default) p_tr false) (existsb (fun c => nltb (dbl 1 (-2)) (s_value c)))) as (z & E & K); [vm_compute; reflexivity|].
  exists z. split; [exact E|]. apply existsb_exists in K. exact K.
Qed.
Lemma C126_results_case_lemma : Perturb.close 0 (real_trace p_tr) (real_trace g_tr) /\ p_tr <> g_tr /\ spread_trace 4 1 (1 / 4) g_tr /\ same_begin g_tr /\ times_apart g_tr /\
  signed_predicates false p_f = [g_a; g_b; g_c] /\ general_formulas (8 * error_of 3 4 1 (1 / 4)) g_tr [g_a; g_b; g_c].
Proof.
  split; [|split; [|split; [|split; [|split; [|split]]]]].
  - unfold real_trace, p_tr, g_tr. cbn [map fst snd]. assert (Ex : reals g_x = [(0, 0); (1, 4)]) by (unfold g_x; apply (reals_line 0 4); cbn; lia). assert (Ey : reals g_y = [(0, 3); (1, 1)]) by (unfold g_y; apply (reals_line 3 1); cbn; lia).
    assert (Ew : reals g_w = [(0, 1); (1, 2)]) by (unfold g_w; apply (reals_line 1 2); cbn; lia). rewrite Ex, Ey, Ew.
    constructor; [|constructor; [|constructor; [|constructor]]]; cbn [fst snd]; (split; [reflexivity|]).
    + split; [reflexivity|]. intros t x y Kx Ky. apply pwl_line in Kx as (_ & ->), Ky as (_ & ->). apply Rabs_le. lra.
    + split; [intros t; rewrite p_y_iff, line_iff; reflexivity|]. intros t x y Kx Ky. apply p_pwl in Kx as (_ & ->). apply pwl_line in Ky as (_ & ->). apply Rabs_le. lra.
    + split; [reflexivity|]. intros t x y Kx Ky. apply pwl_line in Kx as (_ & ->), Ky as (_ & ->). apply Rabs_le. lra.
  - intros E. apply (f_equal (map (fun e => length (snd e)))) in E. discriminate E.
  - destruct g_trace as (U & G & SZ & _). split; [exact U|]. split; [exact G|]. intros n x Hx. destruct (SZ n x Hx) as (A & B). split; [exact A|]. intros x1 u v x2 E. specialize (B x1 u v x2 E). lra.
  - intros n m x y Hx Hy. destruct (g_cases n x Hx) as [-> |[-> | ->]]; destruct (g_cases m y Hy) as [-> |[-> | ->]]; vm_compute; reflexivity.
  - intros n m x y a b Hx Hy Ha Hb L. assert (Q : bpow radix2 (-252) <= bpow radix2 0) by (apply bpow_le; lia). replace (bpow radix2 0) with 1 in Q by (simpl; lra).
    destruct (g_times x a (g_cases n x Hx) Ha) as [E|E]; destruct (g_times y b (g_cases m y Hy) Hb) as [E'|E']; rewrite E, E' in *; lra.
  - reflexivity.
  - apply g_general_formulas. pose proof p_error. lra.
Qed.
