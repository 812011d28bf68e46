(** Vocabulary for stating properties of signals, independent of the model's helper functions. *)
From Coq Require Import Sorted.
From Verif Require Import Base Num.
From Verif.Model Require Import Signal.

Section Spec.
Context {F : Type} `{NF : Num F}.

(** Every earlier timestamp is smaller ([<] of doubles) than every later one. *)
Definition increasing (ts : list F) : Prop :=
  StronglySorted (fun a b => nltb a b = true) ts.

Definition times (s : list (sample F)) : list F := map s_time s.
Definition values (s : list (sample F)) : list F := map s_value s.
(** The observable content: (time, value) pairs. *)
Definition points (s : list (sample F)) : list (F * F) := map (fun a => (s_time a, s_value a)) s.

Definition all_num (xs : list F) : Prop := Forall (fun x => isnum x = true) xs.

(** Derivatives are the slopes to the next sample, 0 at the end. *)
Fixpoint slopes_ok (s : list (sample F)) : Prop :=
  match s with
  | [] => True
  | a :: s' =>
      match s' with
      | [] => s_deriv a = nzero
      | b :: _ => s_deriv a = ndiv (nsub (s_value b) (s_value a)) (nsub (s_time b) (s_time a))
      end /\ slopes_ok s'
  end.

(** What the public constructors produce: slopes consistent, times increasing numbers. *)
Definition wf (s : signal F) : Prop :=
  all_num (times s) /\ increasing (times s) /\ slopes_ok s.

(** One of the signals begins at a sample time of the other. *)
Definition meets (x y : signal F) : Prop :=
  exists a b, In a x /\ In b y /\ neqb (s_time a) (s_time b) = true /\
    (hd_error x = Some a \/ hd_error y = Some b).

(** The time ranges do not overlap. *)
Definition disjoint (x y : signal F) : Prop :=
  nltb (end_time x) (begin_time y) = true \/ nltb (end_time y) (begin_time x) = true.

End Spec.
