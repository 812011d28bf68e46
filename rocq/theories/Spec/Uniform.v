(** Traces whose signals share their sample times, and formulas whose temporal operators see And and Or
    only where a badly placed crossing does no harm. *)
From Coq Require Import Reals.
From Flocq Require Import Core.Core IEEE754.BinarySingleNaN.
From Verif Require Import Base Num NumB64.
From Verif.Model Require Import Signal Ast Robustness.
From Verif.Spec Require Import SignalSpec Formula Accuracy.
Local Open Scope R_scope.

(** Every sample time of a signal is a sample time of every other signal. *)
Definition uniform (tr : trace B64) : Prop := forall n m x y a, has_signal tr n x -> has_signal tr m y -> In a x ->
  exists b, In b y /\ neqb (s_time b) (s_time a) = true.

(** Finite samples of magnitude at most [V] within a time span of [T]; samples not absurdly close together. *)
Definition moderate (V T : R) (tr : trace B64) : Prop := forall n x, has_signal tr n x ->
  (forall a, In a x -> finite (s_time a) = true /\ finite (s_value a) = true /\
     Rabs (B2R (s_time a)) <= bpow radix2 1000 /\ Rabs (B2R (s_value a)) <= V) /\
  (forall a b, In a x -> In b x -> B2R (s_time b) - B2R (s_time a) <= T) /\
  (forall x1 a b x2, x = x1 ++ a :: b :: x2 -> 6 * V <= bpow radix2 1000 * (B2R (s_time b) - B2R (s_time a))).

(** Predicates below Not, Always and Eventually. *)
Definition chain (e : expr B64) : bool := free_of is_const e && free_of is_andor e && free_of is_until e.
Definition some_operand (l : list (expr B64)) : bool := negb (Nat.eqb (length l) 0).

(** A chain, or an And ([p = true]) resp. Or ([p = false]) of chains; Not exchanges the two. *)
Fixpoint one_level (p : bool) (e : expr B64) : bool :=
  match e with
  | EAnd l => p && some_operand l && forallb chain l
  | EOr l => negb p && some_operand l && forallb chain l
  | ENot e => one_level (negb p) e
  | EConst _ | EPred _ _ _ | EAlways _ _ | EEventually _ _ | EUntil _ _ _ => chain e
  end.
(** Boolean combinations of predicates, Always over And, and Eventually over Or. *)
Fixpoint guarded (phi : expr B64) : bool :=
  match phi with
  | EPred _ _ _ => true
  | ENot e => guarded e
  | EAnd l | EOr l => some_operand l && forallb guarded l
  | EAlways e _ => one_level true e
  | EEventually e _ => one_level false e
  | EConst _ | EUntil _ _ _ => false
  end.

(** Constants are finite and at most [V] in magnitude. *)
Definition constants_within (V : R) (phi : expr B64) : Prop :=
  forall e, In e (subs phi) -> match e with EPred _ _ c => finite c = true /\ Rabs (B2R c) <= V | _ => True end.

(** [names] lists the signal of every predicate: its length is the number of predicates. *)
Definition margin (V T : R) (phi : expr B64) : R := (2 * INR (length (names phi)) + 1) * tolerance (4 * V) T.

(** The hypotheses of C115. *)
Definition setting (tr : trace B64) (V T : R) (phi : expr B64) : Prop :=
  keys_unique tr /\ Forall (fun e => wf (snd e) /\ snd e <> []) tr /\ uniform tr /\ moderate V T tr /\ 0 <= V /\ 0 <= T /\ 4 * V <= bpow radix2 1000 /\
  constants_within V phi /\ intervals_made phi /\ (forall n, In n (names phi) -> exists x, has_signal tr n x) /\ margin V T phi <= V.
