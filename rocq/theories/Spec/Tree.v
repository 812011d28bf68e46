(** Formulas of predicates under Not, And and Or, nested in any way (for C122). *)
From Coq Require Import Reals.
From Flocq Require Import Core.Core IEEE754.BinarySingleNaN.
From Verif Require Import Base Num NumB64.
From Verif.Model Require Import Signal Ast Robustness.
From Verif.Spec Require Import SignalSpec Formula Whole Spaced.
Local Open Scope R_scope.

Fixpoint boolean (e : expr B64) : bool :=
  match e with
  | EPred _ _ _ => true
  | ENot e => boolean e
  | EAnd (a :: l) | EOr (a :: l) => boolean a && forallb boolean l
  | EAnd [] | EOr [] | EConst _ | EAlways _ _ | EEventually _ _ | EUntil _ _ _ => false
  end.

(** The non-empty beginnings of a list. *)
Definition prefixes {A} (l : list A) : list (list A) := map (fun k => firstn k l) (seq 1 (length l)).

(** The subformulas, and the And and Or of the first operands of each And and Or: their values are the
    intermediate results of an evaluation. *)
Fixpoint stages (e : expr B64) : list (expr B64) :=
  match e with
  | ENot a => e :: stages a
  | EAnd l => map EAnd (prefixes l) ++ flat_map stages l
  | EOr l => map EOr (prefixes l) ++ flat_map stages l
  | _ => [e]
  end.

(** No two samples of an intermediate result closer than 2^-252. *)
Definition separated (dbg : bool) (fuel : nat) (tr : trace B64) (phi : expr B64) : Prop :=
  forall e y s, In e (stages phi) -> compute_robustness dbg fuel e tr s = Ok y -> spaced (bpow radix2 (-252)) y.

(** All sample times at least 2^-200. *)
Definition late_trace (tr : trace B64) : Prop := forall n x a, has_signal tr n x -> In a x -> bpow radix2 (-200) <= B2R (s_time a).

(** The predicates of a formula in order, negated if below an odd number of Not (for C123). *)
Fixpoint signed_predicates (negated : bool) (e : expr B64) : list (expr B64) :=
  match e with
  | EPred _ _ _ => [if negated then ENot e else e]
  | ENot a => signed_predicates (negb negated) a
  | EAnd l | EOr l => flat_map (signed_predicates negated) l
  | EConst _ | EAlways _ _ | EEventually _ _ | EUntil _ _ _ => []
  end.

(** Any two sample times of the trace are equal or at least 2^-252 apart (for C124). *)
Definition times_apart (tr : trace B64) : Prop := forall n m x y a b, has_signal tr n x -> has_signal tr m y -> In a x -> In b y ->
  B2R (s_time a) < B2R (s_time b) -> bpow radix2 (-252) <= B2R (s_time b) - B2R (s_time a).
