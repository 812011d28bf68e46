(** Traces sampled at times that differ from signal to signal (for C119), and formulas with any number of predicates (for C120). *)
From Coq Require Import Reals.
From Flocq Require Import Core.Core IEEE754.BinarySingleNaN.
From Verif Require Import Base Num NumB64.
From Verif.Model Require Import Signal Ast Robustness.
From Verif.Spec Require Import SignalSpec Pwl Formula Accuracy Apart Uniform Whole Spaced.
Local Open Scope R_scope.

(** Magnitudes far from overflow and underflow. *)
Definition moderate (V S H : R) : Prop := bpow radix2 (-300) <= V <= bpow radix2 296 /\ bpow radix2 (-200) <= H <= S /\ S <= bpow radix2 300.

(** Within each signal, no two sample times closer than [H]. *)
Definition spread_trace (V S H : R) (tr : trace B64) : Prop :=
  keys_unique tr /\ Forall (fun e => wf (snd e) /\ snd e <> []) tr /\
  (forall n x, has_signal tr n x -> sized V S x /\ spaced H x).

Definition same_begin (tr : trace B64) : Prop := forall n m x y, has_signal tr n x -> has_signal tr m y -> neqb (begin_time x) (begin_time y) = true.

(** Predicates under Not, And and Or, where all operands of And and Or but the first are predicates
    or negated predicates. *)
Fixpoint ladder (e : expr B64) : bool :=
  match e with
  | EPred _ _ _ => true
  | ENot e => ladder e
  | EAnd (a :: l) | EOr (a :: l) => ladder a && forallb literal l
  | EAnd [] | EOr [] | EConst _ | EAlways _ _ | EEventually _ _ | EUntil _ _ _ => false
  end.

(** The error of [n] operands. *)
Definition error_of (n : nat) (V S H : R) : R := bpow radix2 (-42) * 10 ^ (n - 1) * V * S / H.
