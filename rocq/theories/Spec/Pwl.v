(** Piecewise-linear functions given by points, and signals holding real numbers. *)
From Coq Require Import Sorted Reals Lra.
From Verif Require Import Base Num NumXR.
From Verif.Model Require Import Signal.
Open Scope R_scope.

(** [pwl l t v]: the piecewise-linear interpolation of the points [l] is defined at [t] and
    has value [v] there. *)
Definition pwl (l : list (R * R)) (t v : R) : Prop :=
  (exists p, In p l /\ fst p = t /\ snd p = v) \/
  (exists l1 p q l2, l = l1 ++ p :: q :: l2 /\ fst p < t < fst q /\
     v = snd p + (snd q - snd p) / (fst q - fst p) * (t - fst p)).

(** [built l s]: [s] is what the constructor Signal(points, times) returns (in exact arithmetic)
    for the points [l] (time, value). *)
Definition built (l : list (R * R)) (s : signal XR) : Prop :=
  from_vectors (map (fun p => Fin (snd p)) l) (map (fun p => Fin (fst p)) l) = Ok s.

(** First and last time of a list of points. *)
Definition first_time (l : list (R * R)) : R := match l with [] => 0 | p :: _ => fst p end.
Definition final_time (l : list (R * R)) : R := match last_opt l with None => 0 | Some p => fst p end.
