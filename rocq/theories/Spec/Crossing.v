(** Where elementwise min/max places a crossing (for C26). *)
From Verif Require Import Base Num.
From Verif.Model Require Import Signal.

Section Crossing.
Context {F : Type} `{NF : Num F}.

(** Somewhere the preferred signal changes from one sample to the next and the crossing time
    computed from the earlier samples is later than the next sample.
    [worse v w]: the value [w] of the second signal is preferred to [v]. *)
Definition late_crossing (worse : F -> F -> bool) (x y : signal F) : Prop :=
  exists x1 i i' x2 y1 j j' y2, x = x1 ++ i :: i' :: x2 /\ y = y1 ++ j :: j' :: y2 /\ length x1 = length y1 /\
    ((worse (s_value i) (s_value j) = false /\ worse (s_value i') (s_value j') = true /\
        nltb (s_time j') (time_intersect i j) = true) \/
     (worse (s_value i) (s_value j) = true /\ worse (s_value i') (s_value j') = false /\
        nltb (s_time i') (time_intersect j i) = true)).
End Crossing.
