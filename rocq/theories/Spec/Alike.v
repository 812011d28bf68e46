(** Equality of doubles and of signals up to the sign of zeros, and equality of outcomes up to a rejected time. *)
From Verif Require Import Base Num NumB64.
From Verif.Model Require Import Signal.

(** Identical (NaN included), or equal under [==]. *)
Definition alike (x y : B64) : Prop := x = y \/ neqb x y = true.

(** Sample by sample. *)
Definition alike_signals (x y : signal B64) : Prop :=
  Forall2 (fun a b => alike (s_time a) (s_time b) /\ alike (s_value a) (s_value b) /\ alike (s_deriv a) (s_deriv b)) x y.

(** Signals alike, or the same failure. *)
Definition alike_outcomes (o o' : outcome (signal B64)) : Prop :=
  match o, o' with
  | Ok x, Ok y => alike_signals x y
  | Ok _, _ | _, Ok _ => False
  | _, _ => o = o'
  end.
