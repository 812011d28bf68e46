(** Signals whose values are clearly apart where they change places (for C116). *)
From Coq Require Import Reals.
From Flocq Require Import Core.Core IEEE754.BinarySingleNaN.
From Verif Require Import Base Num NumB64.
From Verif.Model Require Import Signal.
Local Open Scope R_scope.

(** Finite samples at times of magnitude at most [S], with values of magnitude at most [V]; samples
    not absurdly close together. *)
Definition sized (V S : R) (x : signal B64) : Prop :=
  (forall a, In a x -> finite (s_time a) = true /\ finite (s_value a) = true /\ Rabs (B2R (s_time a)) <= S /\ Rabs (B2R (s_value a)) <= V) /\
  (forall x1 a b x2, x = x1 ++ a :: b :: x2 -> bpow radix2 (-300) <= B2R (s_time b) - B2R (s_time a)).

(** First [v] is not above [w], then [v'] is above [w'], or first below and then not below. *)
Definition overtakes (v w v' w' : R) : Prop := (v <= w /\ w' < v') \/ (v < w /\ w' <= v').

(** If one signal overtakes the other between two samples, the values at the later sample differ by at
    least 2^-46 V S / h, where h is the time between the samples. *)
Definition apart (V S : R) (x y : signal B64) : Prop :=
  forall x1 i i' x2 y1 j j' y2, x = x1 ++ i :: i' :: x2 -> y = y1 ++ j :: j' :: y2 -> length x1 = length y1 ->
    let v := B2R (s_value i) in let w := B2R (s_value j) in let v' := B2R (s_value i') in let w' := B2R (s_value j') in
    overtakes v w v' w' \/ overtakes w v w' v' ->
    bpow radix2 (-46) * V * S <= Rabs (v' - w') * (B2R (s_time i') - B2R (s_time i)).
