(** Signals of whole numbers, sampled at consecutive whole numbers (for C117). *)
From Coq Require Import Reals.
From Flocq Require Import Core.Core IEEE754.BinarySingleNaN.
From Verif Require Import Base Num NumB64.
From Verif.Model Require Import Signal Ast Robustness.
From Verif.Spec Require Import SignalSpec Formula.
Local Open Scope R_scope.

(** Values are of magnitude at most [V], times of magnitude at most [S] and one apart. *)
Definition whole (V S : R) (x : signal B64) : Prop :=
  (forall a, In a x -> finite (s_time a) = true /\ finite (s_value a) = true /\
     exists k v : Z, B2R (s_time a) = IZR k /\ B2R (s_value a) = IZR v /\ Rabs (IZR k) <= S /\ Rabs (IZR v) <= V) /\
  (forall x1 a b x2, x = x1 ++ a :: b :: x2 -> B2R (s_time b) = B2R (s_time a) + 1).

(** All signals of the trace are such, and sampled at the same times. *)
Definition whole_trace (V S : R) (tr : trace B64) : Prop :=
  keys_unique tr /\ Forall (fun e => wf (snd e) /\ snd e <> []) tr /\
  (forall n x, has_signal tr n x -> whole V S x) /\
  (forall n m x y, has_signal tr n x -> has_signal tr m y -> Forall2 (fun a b => neqb (s_time a) (s_time b) = true) x y).

(** A predicate or its negation. *)
Fixpoint literal (e : expr B64) : bool :=
  match e with
  | EPred _ _ _ => true
  | ENot e => literal e
  | EConst _ | EAnd _ | EOr _ | EAlways _ _ | EEventually _ _ | EUntil _ _ _ => false
  end.

(** The constants of the formula are whole numbers of magnitude at most [V], and its signals are in the trace. *)
Definition whole_formula (V : R) (tr : trace B64) (phi : expr B64) : Prop :=
  (forall e, In e (subs phi) -> match e with EPred _ _ c => finite c = true /\ exists k : Z, B2R c = IZR k /\ Rabs (IZR k) <= V | _ => True end) /\
  (forall n, In n (names phi) -> exists x, has_signal tr n x).
