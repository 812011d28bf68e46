(** Signals of doubles read as functions on the real numbers. *)
From Coq Require Import Reals.
From Flocq Require Import Core.Core IEEE754.BinarySingleNaN.
From Verif Require Import Base Num NumXR NumB64.
From Verif.Model Require Import Signal Ast.
From Verif.Spec Require Import Pwl Formula Semantics.
Local Open Scope R_scope.

(** The samples as points of the plane. *)
Definition reals (x : signal B64) : list (R * R) := map (fun a => (B2R (s_time a), B2R (s_value a))) x.

(** Samples are finite with values of magnitude at most [V]; times are at most [T] apart and slopes are
    nowhere near the overflow threshold (2^1024). *)
Definition mild (V T : R) (x : signal B64) : Prop :=
  (forall a, In a x -> finite (s_time a) = true /\ finite (s_value a) = true /\
     Rabs (B2R (s_time a)) <= bpow radix2 1000 /\ Rabs (B2R (s_value a)) <= V) /\
  (forall x1 a b x2, x = x1 ++ a :: b :: x2 ->
     B2R (s_time b) - B2R (s_time a) <= T /\
     Rabs (B2R (s_value b) - B2R (s_value a)) <= bpow radix2 1000 * (B2R (s_time b) - B2R (s_time a))) /\
  0 <= T /\ V <= bpow radix2 1000.

(** Eight units in the last place of the largest value; the second term is negligible unless the
    values are near the least positive double (2^-1074). *)
Definition tolerance (V T : R) : R := bpow radix2 (-49) * V + bpow radix2 (-1073) * (T + 1).

(** The function defined by [x] is within the tolerance of [v] at time [t]. *)
Definition close (V T : R) (x : signal B64) (t v : B64) : Prop :=
  finite v = true /\ exists r, pwl (reals x) (B2R t) r /\ Rabs (B2R v - r) <= tolerance V T.

Definition real_trace (tr : list (string * signal B64)) : ptrace := map (fun e => (fst e, reals (snd e))) tr.

(** The same formula over the real numbers.  Intervals are dropped: the reference semantics does not
    read them, as the code does not (C38). *)
Fixpoint real_formula (phi : expr B64) : expr XR :=
  match phi with
  | EConst b => EConst b
  | EPred n op c => EPred n op (Fin (B2R c))
  | ENot e => ENot (real_formula e)
  | EAnd l => EAnd (map real_formula l)
  | EOr l => EOr (map real_formula l)
  | EAlways e _ => EAlways (real_formula e) interval_default
  | EEventually e _ => EEventually (real_formula e) interval_default
  | EUntil a b _ => EUntil (real_formula a) (real_formula b) interval_default
  end.

(** No And, Or, Until or constant inside a temporal operator; Boolean operators with at least one
    operand on the outside. *)
Fixpoint layered (phi : expr B64) : bool :=
  match phi with
  | EPred _ _ _ => true
  | ENot e => layered e
  | EAnd l | EOr l => negb (Nat.eqb (length l) 0) && forallb layered l
  | EAlways e _ | EEventually e _ => free_of is_const e && free_of is_andor e && free_of is_until e
  | EConst _ | EUntil _ _ _ => false
  end.
