(** Until over the samples of two signals sampled at the same times (for C128). *)
From Verif Require Import Base Num NumB64.
From Verif.Model Require Import Signal Ast Robustness.
From Verif.Spec Require Import SignalSpec Formula.

(** [a] until [b] at sample [k]: [b] holds at some sample [m] from [k] on, and [a] at those from [k] up to it.
    [x] and [y] are the signals [a] and [b] refer to. *)
Definition until_sampled (a b : expr B64) (x y : signal B64) (k : nat) : Prop :=
  exists m, k <= m < length y /\ sampled_sat b (skipn m y) /\ forall l, k <= l < m -> sampled_sat a (skipn l x).

(** The conditions on an operand: predicates, Not, Always and Eventually, with finite constants and a signal. *)
Definition sampled_operand (tr : trace B64) (e : expr B64) : Prop :=
  free_of is_const e = true /\ free_of is_andor e = true /\ free_of is_until e = true /\
  (forall f, In f (subs e) -> match f with EPred _ _ c => finite c = true | _ => True end) /\ intervals_made e /\
  (forall n, In n (names e) -> exists x, has_signal tr n x).
