(** How many samples a robustness signal may have. *)
From Verif Require Import Base Num.
From Verif.Model Require Import Ast.

Section Size.
Context {F : Type}.
(** [len n]: an upper bound for the number of samples of the signal named [n]. *)
Variable len : string -> nat.

(** The samples of two signals over their common range, where the first sample is a common one and
    at least one of the signals has its last sample outside of the range or in common with the
    other; and one crossing between each two of them. *)
Definition merge_size (a b : nat) : nat := Nat.max 1 (a + b - 2).
Definition cross_size (a b : nat) : nat := 2 * merge_size a b - 1.

(** An And or Or without operands gives one sample. *)
Definition list_size (l : list nat) : nat :=
  match l with
  | [] => 1
  | a :: l => fold_left cross_size l a
  end.

Fixpoint size (e : expr F) : nat :=
  match e with
  | EConst _ => 2
  | EPred n _ _ => len n
  | ENot e => size e
  | EAnd l | EOr l => list_size (map size l)
  | EAlways e _ | EEventually e _ => size e
  | EUntil a b _ => merge_size (size a) (size b)
  end.
End Size.
