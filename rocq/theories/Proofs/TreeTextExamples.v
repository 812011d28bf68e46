(** Instance for C125. *)
From Coq Require Import Ascii Reals Lra Lia.
From Flocq Require Import Core.Core IEEE754.BinarySingleNaN.
From Verif Require Import Base Num NumXR NumB64.
From Verif.Model Require Import Signal Ast Robustness Peg Parser.
From Verif.Proofs Require Import TokenEval AstFacts SpecFacts InlineFacts WriteOut ParserExamples GeneralExamples UntilFacts MinMaxExamples UniformFacts TreePositionExamples.
From Verif.Spec Require Import SignalSpec Pwl Formula Semantics Quantitative Accuracy Uniform Whole Apart Spaced Many General Tree AstSpec Text Syntax Monitor.
Local Open Scope string_scope.

Definition c125_text : string := "(define-formula b (or (< y 1) (not (>= w 1)))) (define-formula f (or (> x 1) (not b))) (assert m f) (assert n (always f)) (assert o (eventually f))".
Definition c125_cs : list command :=
  [Def "b" (TOr [TPred LT "y" (chars "1"); TNot (TPred GE "w" (chars "1"))]); Def "f" (TOr [TPred GT "x" (chars "1"); TNot (TRef "b")]);
   Assert "m" (TRef "f"); Assert "n" (TAlways (TRef "f")); Assert "o" (TEventually (TRef "f"))].
Definition c125_u : term := TOr [TPred GT "x" (chars "1"); TNot (TOr [TPred LT "y" (chars "1"); TNot (TPred GE "w" (chars "1"))])].
Lemma C125_case_lemma : (forall w v, no_double w = Some v -> finite v = true) /\ all_leaves ref_ok c125_cs = true /\ spec_text c125_cs c125_text /\
  In ("m", c125_u) (asserted [] c125_cs) /\ In ("n", TAlways c125_u) (asserted [] c125_cs) /\ In ("o", TEventually c125_u) (asserted [] c125_cs) /\
  leaves is_pred c125_u = true /\ timeless c125_u = true /\ (forall n, In n (signals c125_u) -> exists y, has_signal p_tr n y) /\
  exists g, from_string true no_double c125_text = Ok g /\ lookup (assertions g) "m" = Some p_f /\ lookup (assertions g) "n" = Some (EAlways p_f interval_default) /\
    lookup (assertions g) "o" = Some (EEventually p_f interval_default) /\ constants_within 4 p_f.
Proof.
  assert (T : spec_text c125_cs c125_text).
  { apply (render_text "" [(LPar, ""); (Define, " "); (Word "b", " "); (LPar, ""); (Word "or", " "); (LPar, ""); (Cmp LT, " "); (Word "y", " "); (Number (chars "1"), ""); (RPar, " ");
      (LPar, ""); (Word "not", " "); (LPar, ""); (Cmp GE, " "); (Word "w", " "); (Number (chars "1"), ""); (RPar, ""); (RPar, ""); (RPar, ""); (RPar, " ");
      (LPar, ""); (Define, " "); (Word "f", " "); (LPar, ""); (Word "or", " "); (LPar, ""); (Cmp GT, " "); (Word "x", " "); (Number (chars "1"), ""); (RPar, " ");
      (LPar, ""); (Word "not", " "); (Word "b", ""); (RPar, ""); (RPar, ""); (RPar, " ");
      (LPar, ""); (Word "assert", " "); (Word "m", " "); (Word "f", ""); (RPar, " ");
      (LPar, ""); (Word "assert", " "); (Word "n", " "); (LPar, ""); (Word "always", " "); (Word "f", ""); (RPar, ""); (RPar, " ");
      (LPar, ""); (Word "assert", " "); (Word "o", " "); (LPar, ""); (Word "eventually", " "); (Word "f", ""); (RPar, ""); (RPar, "")]); reflexivity. }
  split; [intros w v E; discriminate E|]. split; [reflexivity|]. split; [exact T|]. split; [left; reflexivity|]. split; [right; left; reflexivity|]. split; [right; right; left; reflexivity|].
  split; [reflexivity|]. split; [reflexivity|].
  split. { intros n Hn. cbn in Hn. destruct Hn as [<-|[<-|[<-|[]]]]; eexists; [left|right; left|right; right; left]; reflexivity. }
  rewrite (code_spec true no_double c125_cs _ eq_refl T).
  set (b := EOr [EPred "y" LT (dbl 1 0); ENot (EPred "w" GE (dbl 1 0))]).
  exists (mkSpec [("b", b); ("f", p_f)] [("m", p_f); ("n", EAlways p_f interval_default); ("o", EEventually p_f interval_default)]). repeat (split; [reflexivity|]). apply p_in.
Qed.

(** iff and xor of y > 2 and w < 4 on the trace of C121.  The values are 1 - 2 t, 3 - t and their negations: only
    y > 2 and its negation are ever close, near t = 1/2. *)
Local Open Scope R_scope.
Definition iff_text : string := "(assert k (iff (> y 2) (< w 4))) (assert l (xor (> y 2) (< w 4)))".
Definition iff_a : expr B64 := EPred sy GT (dbl 2 0).
Definition iff_b : expr B64 := EPred sw LT (dbl 4 0).
Definition iff_t : term := TPred GT "y" (chars "2").
Definition iff_u : term := TPred LT "w" (chars "4").
Definition iff_cs : list command := [Assert "k" (TIff iff_t iff_u); Assert "l" (TXor iff_t iff_u)].
Definition iff_f : expr B64 := EOr [EAnd [iff_a; iff_b]; EAnd [ENot iff_a; ENot iff_b]].
Definition xor_f : expr B64 := EAnd [EOr [iff_a; iff_b]; EOr [ENot iff_a; ENot iff_b]].
Definition iff_l : list (expr B64) := [iff_a; iff_b; ENot iff_a; ENot iff_b].
Lemma iff_rob t v : (rob (real_trace g_tr) (real_formula iff_a) t v -> 0 <= t <= 1 /\ v = 1 - 2 * t) /\ (rob (real_trace g_tr) (real_formula iff_b) t v -> 0 <= t <= 1 /\ v = 3 - t).
Proof.
  destruct (int_dbl 2 ltac:(lia)) as (O2 & _). destruct (int_dbl 4 ltac:(lia)) as (O4 & _).
  split; unfold iff_a, iff_b; cbn [real_formula rob]; intros (u & r & Hu & Er & Ev); apply (f_equal (fun q => match q with Fin a => a | _ => 0 end)) in Er; rewrite ?O2, ?O4 in Er; subst r.
  - apply (g_value _ g_y) in Hu; [|right; left; reflexivity]. apply g_pwl in Hu. lra.
  - apply (g_value _ g_w) in Hu; [|right; right; left; reflexivity]. apply g_pwl in Hu. lra.
Qed.
Lemma iff_rob_not t v : (rob (real_trace g_tr) (real_formula (ENot iff_a)) t v -> 0 <= t <= 1 /\ v = 2 * t - 1) /\ (rob (real_trace g_tr) (real_formula (ENot iff_b)) t v -> 0 <= t <= 1 /\ v = t - 3).
Proof.
  split; intros Hu; cbn [real_formula rob] in Hu; [apply (proj1 (iff_rob t (- v))) in Hu|apply (proj2 (iff_rob t (- v))) in Hu]; lra.
Qed.
Lemma iff_general d : d <= 1 / 100 -> general_formulas d g_tr iff_l.
Proof.
  intros Hd. assert (K : forall i j t, (i < j)%nat -> close_formulas d g_tr iff_l i j t -> i = 0%nat /\ j = 2%nat /\ 1 / 4 < t < 3 / 4).
  { intros i j t L (x & y & u & v & Hx & Hy & Pu & Pv & Q). assert (J : (j < 4)%nat) by (apply (nth_error_Some iff_l j); congruence).
    assert (Q' : - (1 / 100) < u - v < 1 / 100) by (apply Rabs_def2 in Q; lra). clear Q.
    destruct (iff_rob t u) as (U1 & U2). destruct (iff_rob t v) as (_ & V2). destruct (iff_rob_not t u) as (U3 & U4). destruct (iff_rob_not t v) as (V3 & V4).
    destruct i as [|[|[|i]]], j as [|[|[|[|j]]]]; try lia; cbn [nth_error iff_l] in Hx, Hy; apply (f_equal (fun o => match o with Some s => s | None => EConst true end)) in Hx, Hy; subst x y.
    - apply U1 in Pu. apply V2 in Pv. exfalso. lra.
    - apply U1 in Pu. apply V3 in Pv. repeat split; lra.
    - apply U1 in Pu. apply V4 in Pv. exfalso. lra.
    - apply U2 in Pu. apply V3 in Pv. exfalso. lra.
    - apply U2 in Pu. apply V4 in Pv. exfalso. lra.
    - apply U3 in Pu. apply V4 in Pv. exfalso. lra. }
  split.
  - intros i j n x a L Hx Ha Q. apply K in Q as (_ & _ & Q); [|exact L]. destruct (g_times x a (g_cases n x Hx) Ha) as [T|T]; rewrite T in Q; lra.
  - intros i j k m t L1 L2 N Q1 Q2. apply K in Q1 as (-> & -> & _); [|exact L1]. apply K in Q2 as (-> & -> & _); [|exact L2]. apply N. reflexivity.
Qed.
Lemma iff_error : error_of 4 4 1 1 <= 1 / 1000.
Proof.
  unfold error_of. assert (bpow radix2 (-42) <= bpow radix2 (-23)) by (apply bpow_le; lia). assert (E : bpow radix2 (-23) = / 8388608) by (simpl; lra). rewrite E in H.
  pose proof (bpow_gt_0 radix2 (-42)). replace (bpow radix2 (-42) * 10 ^ (4 - 1) * 4 * 1 / 1) with (4000 * bpow radix2 (-42)) by (change (4 - 1)%nat with 3%nat; generalize (bpow radix2 (-42)); intros q; field). lra.
Qed.
Lemma iff_apart : times_apart g_tr.
Proof.
  intros n m x y a b Hx Hy Ha Hb L. assert (Q : bpow radix2 (-252) <= bpow radix2 0) by (apply bpow_le; lia). replace (bpow radix2 0) with 1 in Q by (simpl; lra).
  destruct (g_times x a (g_cases n x Hx) Ha) as [E|E]; destruct (g_times y b (g_cases m y Hy) Hb) as [E'|E']; rewrite E, E' in *; lra.
Qed.
Lemma iff_trace : spread_trace 4 1 1 g_tr /\ same_begin g_tr.
Proof.
  destruct g_trace as (A & B & C & _). split; [split; [exact A|split; [exact B|exact C]]|].
  intros n m x y Hx Hy. destruct (g_cases n x Hx) as [-> |[-> | ->]]; destruct (g_cases m y Hy) as [-> |[-> | ->]]; vm_compute; reflexivity.
Qed.
Lemma iff_constants : constants_within 4 iff_f /\ constants_within 4 xor_f.
Proof.
  destruct (int_dbl 2 ltac:(lia)) as (A1 & A2). destruct (int_dbl 4 ltac:(lia)) as (B1 & B2).
  split; intros e He; cbn [iff_f xor_f iff_a iff_b subs flat_map app] in He;
    repeat (destruct He as [<-|He]; [first [exact I|split; [assumption|rewrite ?A1, ?B1; apply Rabs_le; lra]]|]); destruct He.
Qed.
Lemma C125_iff_case_lemma : all_leaves ref_ok iff_cs = true /\ spec_text iff_cs iff_text /\
  asserted [] iff_cs = [("k"%string, TIff iff_t iff_u); ("l"%string, TXor iff_t iff_u)] /\ leaves is_pred (TIff iff_t iff_u) = true /\ timeless (TIff iff_t iff_u) = true /\
  leaves is_pred (TXor iff_t iff_u) = true /\ timeless (TXor iff_t iff_u) = true /\ (forall n, In n (signals (TIff iff_t iff_u)) -> exists y, has_signal g_tr n y) /\
  spread_trace 4 1 1 g_tr /\ same_begin g_tr /\ times_apart g_tr /\ moderate 4 1 1 /\
  (exists g, from_string true no_double iff_text = Ok g /\ lookup (assertions g) "k"%string = Some iff_f /\ lookup (assertions g) "l"%string = Some xor_f) /\
  constants_within 4 iff_f /\ constants_within 4 xor_f /\ length (names iff_f) = 4%nat /\ length (names xor_f) = 4%nat /\ error_of 4 4 1 1 <= 4 /\
  signed_predicates false iff_f = iff_l /\ signed_predicates false xor_f = iff_l /\ general_formulas (8 * error_of 4 4 1 1) g_tr iff_l.
Proof.
  assert (T : spec_text iff_cs iff_text).
  { apply (render_text "" [(LPar, ""); (Word "assert", " "); (Word "k", " "); (LPar, ""); (Word "iff", " "); (LPar, ""); (Cmp GT, " "); (Word "y", " "); (Number (chars "2"), ""); (RPar, " ");
      (LPar, ""); (Cmp LT, " "); (Word "w", " "); (Number (chars "4"), ""); (RPar, ""); (RPar, ""); (RPar, " ");
      (LPar, ""); (Word "assert", " "); (Word "l", " "); (LPar, ""); (Word "xor", " "); (LPar, ""); (Cmp GT, " "); (Word "y", " "); (Number (chars "2"), ""); (RPar, " ");
      (LPar, ""); (Cmp LT, " "); (Word "w", " "); (Number (chars "4"), ""); (RPar, ""); (RPar, ""); (RPar, "")]%string); reflexivity. }
  pose proof iff_error. split; [reflexivity|]. split; [exact T|]. split; [reflexivity|]. split; [reflexivity|]. split; [reflexivity|]. split; [reflexivity|]. split; [reflexivity|].
  split. { intros n Hn. cbn in Hn. destruct Hn as [<-|[<-|[]]]; eexists; [right; left|right; right; left]; reflexivity. }
  split; [apply iff_trace|]. split; [apply iff_trace|]. split; [exact iff_apart|]. split; [exact g_moderate|].
  split. { rewrite (code_spec true no_double iff_cs _ eq_refl T). exists (mkSpec [] [("k"%string, iff_f); ("l"%string, xor_f)]). repeat (split; [reflexivity|]). reflexivity. }
  split; [apply iff_constants|]. split; [apply iff_constants|]. split; [reflexivity|]. split; [reflexivity|]. split; [lra|]. split; [reflexivity|]. split; [reflexivity|]. apply iff_general. lra.
Qed.
