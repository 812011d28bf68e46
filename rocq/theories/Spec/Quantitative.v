(** Quantitative semantics with unbounded Always and Eventually, over piecewise-linear traces. *)
From Coq Require Import Reals Lra.
From Verif Require Import Base Num NumXR.
From Verif.Model Require Import Signal Ast Robustness.
From Verif.Spec Require Import Pwl Formula Semantics.
Open Scope R_scope.

(** [rob lt e t v]: [e] has robustness [v] at [t].  Always (Eventually) is the least (greatest)
    value of its operand at [t] and later, wherever the operand is defined.  None for constants
    and Until. *)
Fixpoint rob (lt : ptrace) (e : expr XR) : R -> R -> Prop :=
  match e with
  | EPred n op c => fun t v => exists x r, value_at lt n t x /\ c = Fin r /\
      v = match op with GT | GE => x - r | LT | LE => r - x end
  | ENot e => fun t v => rob lt e t (- v)
  | EAnd l => fun t v => Exists (fun P => P t v) (map (rob lt) l) /\
                         Forall (fun P : R -> R -> Prop => exists w, P t w /\ v <= w) (map (rob lt) l)
  | EOr l => fun t v => Exists (fun P => P t v) (map (rob lt) l) /\
                        Forall (fun P : R -> R -> Prop => exists w, P t w /\ w <= v) (map (rob lt) l)
  | EAlways e _ => fun t v => inside lt e t /\ (exists t', t <= t' /\ rob lt e t' v) /\
                              (forall t' w, t <= t' -> rob lt e t' w -> v <= w)
  | EEventually e _ => fun t v => inside lt e t /\ (exists t', t <= t' /\ rob lt e t' v) /\
                                  (forall t' w, t <= t' -> rob lt e t' w -> w <= v)
  | EConst _ | EUntil _ _ _ => fun _ _ => False
  end.

(** For which operands the least ([p = true]) resp. greatest value from the first time on is
    right: without temporal operators, Always and And for the least, Eventually and Or for the
    greatest, Not exchanges the two. *)
Fixpoint extreme_exact (p : bool) (e : expr XR) : bool :=
  free_of is_temporal e ||
  match e with
  | ENot e => extreme_exact (negb p) e
  | EAnd l => p && forallb (extreme_exact p) l
  | EOr l => negb p && forallb (extreme_exact p) l
  | EAlways e _ => p && extreme_exact p e
  | EEventually e _ => negb p && extreme_exact p e
  | EConst _ | EPred _ _ _ | EUntil _ _ _ => false
  end.

(** For which formulas the value at the first time is right. *)
Fixpoint first_exact (e : expr XR) : bool :=
  match e with
  | EPred _ _ _ => true
  | ENot e => first_exact e
  | EAnd l | EOr l => forallb first_exact l
  | EAlways e _ => extreme_exact true e
  | EEventually e _ => extreme_exact false e
  | EConst _ | EUntil _ _ _ => false
  end.
