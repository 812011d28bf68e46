(** Properties C54, C64, C74, C94 and C113: formatting.  [fdbl]: the conversion of doubles.  Vocabulary:
    Spec/FmtSpec.v, Spec/Reading.v, Spec/Printed.v. *)
From Flocq Require Import IEEE754.BinarySingleNaN.
From Verif Require Import Base Num NumB64.
From Verif.Model Require Import Signal Ast Fmt.
From Verif.Spec Require Import SignalSpec Formula AstSpec FmtSpec Discrete Reading Printed.
From Verif.Proofs Require Import AstFacts FmtFacts FmtInj ReadingFacts PrintedFacts.

(** ** C54.  Only whether the interval is unbounded is shown, anywhere in a formula. *)
Theorem C54_unbounded_partial : forall (fdbl : B64 -> string) i j e e',
  ctor_interval i -> ctor_interval j -> unbounded i <> unbounded j ->
  differ i j e e' -> fmt_expr fdbl e <> fmt_expr fdbl e'.
Proof. exact C54_lemma. Qed.
Print Assumptions C54_unbounded_partial.

Theorem C54_bounded_refuted : forall (fdbl : B64 -> string) i j e e',
  ctor_interval i -> ctor_interval j -> unbounded i = false -> unbounded j = false ->
  differ i j e e' -> fmt_expr fdbl e = fmt_expr fdbl e'.
Proof. exact C54_bounded. Qed.
Print Assumptions C54_bounded_refuted.

Example C54_case : ctor_interval i01 /\ ctor_interval i29 /\ ctor_interval (interval_default : interval B64) /\
  unbounded i01 = false /\ unbounded i29 = false /\ unbounded (interval_default : interval B64) = true /\
  differ i01 i29 (ENot (EAlways ea i01)) (ENot (EAlways ea i29)) /\
  differ i01 interval_default (EAnd [eb; EUntil ea eb i01]) (EAnd [eb; EUntil ea eb interval_default]).
Proof. exact C54_case_lemma. Qed.

(** ** C64 *)
Theorem C64_precedence_refuted : exists e e' : expr B64, constructed e /\ constructed e' /\ e <> e' /\
  forall fdbl, fmt_expr fdbl e = fmt_expr fdbl e'.
Proof. exact C64_witness. Qed.
Print Assumptions C64_precedence_refuted.

(** Without Until, up to the bounds of bounded intervals (C54), given the printing of doubles. *)
Theorem C64_no_until_partial : forall (fdbl : B64 -> string) e e', printer fdbl ->
  free_of is_until e = true -> free_of is_until e' = true -> free_of (short 2) e = true -> free_of (short 2) e' = true ->
  (forall n, In n (names e ++ names e')%list -> plain_name n) ->
  (forall x, In x (subs e ++ subs e')%list -> match x with EAlways _ i | EEventually _ i | EUntil _ _ i => ctor_interval i | _ => True end) ->
  fmt_expr fdbl e = fmt_expr fdbl e' -> alike e e'.
Proof. exact C64_lemma. Qed.
Print Assumptions C64_no_until_partial.

Example C64_case : printer bits_text /\
  (free_of is_until (c64_e i01) = true /\ free_of is_until (c64_e i29) = true /\ free_of (short 2) (c64_e i01) = true /\ free_of (short 2) (c64_e i29) = true /\
  (forall n, In n (names (c64_e i01) ++ names (c64_e i29))%list -> plain_name n) /\
  (forall x, In x (subs (c64_e i01) ++ subs (c64_e i29))%list -> match x with EAlways _ i | EEventually _ i | EUntil _ _ i => ctor_interval i | _ => True end)) /\
  fmt_expr bits_text (c64_e i01) = fmt_expr bits_text (c64_e i29).
Proof. exact C64_case_lemma. Qed.

(** ** C74 *)
Theorem C74_signal_text : forall (fdbl : B64 -> string) x y, printer fdbl -> (fmt_signal fdbl x = fmt_signal fdbl y <-> points x = points y).
Proof. exact C74_lemma. Qed.
Print Assumptions C74_signal_text.

Example C74_case : printer bits_text.
Proof. exact bits_printer. Qed.

(** ** C94 *)
Theorem C94_reading : forall (fdbl : B64 -> string) (e : expr B64), printer fdbl -> free_of is_temporal_op e = true -> free_of (short 2) e = true ->
  (forall n, In n (names e) -> plain_name n) ->
  (exists P, means fdbl (fmt_expr fdbl e) P) /\ (forall P, means fdbl (fmt_expr fdbl e) P -> forall env, P env <-> holds env e).
Proof. exact C94_lemma. Qed.
Print Assumptions C94_reading.

Example C94_case : printer bits_text /\ free_of is_temporal_op c94_e = true /\ free_of (short 2) c94_e = true /\
  (forall n, In n (names c94_e) -> plain_name n).
Proof. exact C94_case_lemma. Qed.

(** ** C113.  Everything but the intervals is printed as it should be. *)
Theorem C113_formulas_partial : forall (fdbl : B64 -> string) e,
  (forall x, In x (subs e) -> match x with EAlways _ i | EEventually _ i | EUntil _ _ i => ctor_interval i | _ => True end) ->
  printed fdbl (as_coded fdbl) e (fmt_expr fdbl e).
Proof. exact C113_lemma. Qed.
Print Assumptions C113_formulas_partial.

Theorem C113_signals_partial : forall (fdbl : B64 -> string) (x : signal B64), fmt_signal fdbl x =
  ("[" ++ separated ", " (map (fun s => "(" ++ fdbl (s_time s) ++ ", " ++ fdbl (s_value s) ++ ")") x) ++ "]")%string.
Proof. exact C113_signal_lemma. Qed.
Print Assumptions C113_signals_partial.

(** No Always and no Eventually is printed with its interval. *)
Theorem C113_intervals_refuted : forall (fdbl : B64 -> string) e i, ctor_interval i ->
  ~ printed fdbl (textbook fdbl) (EAlways e i) (fmt_expr fdbl (EAlways e i)) /\ ~ printed fdbl (textbook fdbl) (EEventually e i) (fmt_expr fdbl (EEventually e i)).
Proof. exact C113_refuted_lemma. Qed.
Print Assumptions C113_intervals_refuted.

Example C113_case : (forall x, In x (subs c113_e) -> match x with EAlways _ i | EEventually _ i | EUntil _ _ i => ctor_interval i | _ => True end) /\
  fmt_expr (fun _ => "0"%string) c113_e = "(~(x <= 0) & true) U G[0, int) (y > 0)"%string /\ ctor_interval (interval_ull 1 2 : interval B64).
Proof. exact C113_case_lemma. Qed.
