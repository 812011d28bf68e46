(** Traces sampled at the same times, no two of them closer than [H] (for C118). *)
From Coq Require Import Reals.
From Flocq Require Import Core.Core IEEE754.BinarySingleNaN.
From Verif Require Import Base Num NumB64.
From Verif.Model Require Import Signal Ast Robustness.
From Verif.Spec Require Import SignalSpec Formula Apart Uniform.
Local Open Scope R_scope.

Definition spaced (H : R) (x : signal B64) : Prop := forall x1 a b x2, x = x1 ++ a :: b :: x2 -> H <= B2R (s_time b) - B2R (s_time a).

(** Magnitudes far from overflow and underflow. *)
Definition ordinary (V S H : R) : Prop := bpow radix2 (-300) <= V <= bpow radix2 298 /\ bpow radix2 (-300) <= H <= S /\ S <= bpow radix2 300.

Definition spaced_trace (V S H : R) (tr : trace B64) : Prop :=
  keys_unique tr /\ Forall (fun e => wf (snd e) /\ snd e <> []) tr /\
  (forall n x, has_signal tr n x -> sized V S x /\ spaced H x) /\
  (forall n m x y, has_signal tr n x -> has_signal tr m y -> Forall2 (fun a b => neqb (s_time a) (s_time b) = true) x y).

(** The constants of the formula are of magnitude at most [V], and its signals are in the trace. *)
Definition in_trace (V : R) (tr : trace B64) (phi : expr B64) : Prop :=
  constants_within V phi /\ forall n, In n (names phi) -> exists x, has_signal tr n x.
