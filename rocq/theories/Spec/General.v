(** Signals in general position (for C121). *)
From Coq Require Import Reals.
From Flocq Require Import Core.Core IEEE754.BinarySingleNaN.
From Verif Require Import Base Num NumXR NumB64.
From Verif.Model Require Import Signal Ast Robustness.
From Verif.Spec Require Import SignalSpec Pwl Formula Semantics Quantitative Accuracy Uniform Apart.
Local Open Scope R_scope.

(** At time [t], signals [i] and [j] of the list differ by less than [d]. *)
Definition close_at (d : R) (xs : list (signal B64)) (i j : nat) (t : R) : Prop :=
  exists x y u v, nth_error xs i = Some x /\ nth_error xs j = Some y /\ pwl (reals x) t u /\ pwl (reals y) t v /\ Rabs (u - v) < d.

(** No two signals of the list are close at a sample time, and no two different pairs of signals are close at
    the same time. *)
Definition general (d : R) (xs : list (signal B64)) : Prop :=
  (forall i j x a, (i < j)%nat -> In x xs -> In a x -> ~ close_at d xs i j (B2R (s_time a))) /\
  (forall i j k l t, (i < j)%nat -> (k < l)%nat -> (i, j) <> (k, l) -> close_at d xs i j t -> ~ close_at d xs k l t).

(** The same of the exact robustness of formulas. *)
Definition close_formulas (d : R) (tr : trace B64) (l : list (expr B64)) (i j : nat) (t : R) : Prop :=
  exists a b u v, nth_error l i = Some a /\ nth_error l j = Some b /\ rob (real_trace tr) (real_formula a) t u /\ rob (real_trace tr) (real_formula b) t v /\ Rabs (u - v) < d.

Definition general_formulas (d : R) (tr : trace B64) (l : list (expr B64)) : Prop :=
  (forall i j n x a, (i < j)%nat -> has_signal tr n x -> In a x -> ~ close_formulas d tr l i j (B2R (s_time a))) /\
  (forall i j k m t, (i < j)%nat -> (k < m)%nat -> (i, j) <> (k, m) -> close_formulas d tr l i j t -> ~ close_formulas d tr l k m t).
