(** Two traces of the same shape whose values are related at every time. *)
From Coq Require Import Reals Lra.
From Verif Require Import Base Num NumXR.
From Verif.Model Require Import Signal Ast Robustness.
From Verif.Spec Require Import Pwl Formula Semantics.
Open Scope R_scope.

(** Same names in the same order, signals defined at the same times, values related by [P]. *)
Definition related (P : R -> R -> Prop) (lt lt' : ptrace) : Prop :=
  Forall2 (fun a b => fst a = fst b /\ (forall t, (exists x, pwl (snd a) t x) <-> (exists y, pwl (snd b) t y)) /\
                      forall t x y, pwl (snd a) t x -> pwl (snd b) t y -> P x y) lt lt'.

(** Values differ by at most [d]; values of the first are at most those of the second. *)
Definition close (d : R) : ptrace -> ptrace -> Prop := related (fun x y => Rabs (x - y) <= d).
Definition below : ptrace -> ptrace -> Prop := related Rle.

(** Larger signal values can only help ([p = true]) or only harm: every signal is compared with
    > or >= under an even, with < or <= under an odd number of negations (or the converse). *)
Fixpoint rising (p : bool) (e : expr XR) : bool :=
  match e with
  | EConst _ => true
  | EPred _ (GT | GE) _ => p
  | EPred _ (LT | LE) _ => negb p
  | ENot e => rising (negb p) e
  | EAnd l | EOr l => forallb (rising p) l
  | EAlways e _ | EEventually e _ => rising p e
  | EUntil a b _ => rising p a && rising p b
  end.
