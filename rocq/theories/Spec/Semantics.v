(** Continuous-time semantics of formulas over piecewise-linear traces. *)
From Coq Require Import Reals Lra.
From Verif Require Import Base Num NumXR.
From Verif.Model Require Import Signal Ast Robustness.
From Verif.Spec Require Import Pwl Formula.
Open Scope R_scope.

(** A trace given by points; [trace_of lt tr]: [tr] holds the signals constructed from them. *)
Definition ptrace : Type := list (string * list (R * R)).
Definition trace_of (lt : ptrace) (tr : trace XR) : Prop :=
  Forall2 (fun a b => fst a = fst b /\ built (snd a) (snd b)) lt tr.

(** Every signal of the trace has points and starts at [t0]. *)
Definition all_start (lt : ptrace) (t0 : R) : Prop :=
  Forall (fun a => snd a <> [] /\ first_time (snd a) = t0) lt.

Section Sem.
Variable lt : ptrace.

Definition value_at (n : string) (t v : R) : Prop := exists l, In (n, l) lt /\ pwl l t v.

(** All signals the formula refers to are defined at [t]. *)
Definition inside (e : expr XR) (t : R) : Prop := forall n, In n (names e) -> exists v, value_at n t v.

Definition real_cmp (op : cmp_op) (v c : R) : Prop :=
  match op with GT => v > c | GE => v >= c | LT => v < c | LE => v <= c end.

(** Boolean satisfaction at time [t].  The unbounded operators look at every later time at
    which the operands are defined. *)
Fixpoint sat (e : expr XR) : R -> Prop :=
  match e with
  | EConst b => fun t => b = true
  | EPred n op c => fun t => exists v r, value_at n t v /\ c = Fin r /\ real_cmp op v r
  | ENot e => fun t => ~ sat e t
  | EAnd l => fun t => Forall (fun P => P t) (map sat l)
  | EOr l => fun t => Exists (fun P => P t) (map sat l)
  | EAlways e _ => fun t => forall t', t <= t' -> inside e t' -> sat e t'
  | EEventually e _ => fun t => exists t', t <= t' /\ inside e t' /\ sat e t'
  | EUntil a b _ => fun t => exists t', t <= t' /\ inside a t' /\ inside b t' /\ sat b t' /\
                               forall u, t <= u < t' -> sat a u
  end.

(** Quantitative semantics of the Boolean fragment, as a relation: [rho e t v] iff [e] has
    robustness [v] at [t]. *)
Fixpoint rho (e : expr XR) : R -> R -> Prop :=
  match e with
  | EPred n op c => fun t v => exists x r, value_at n t x /\ c = Fin r /\
      v = match op with GT | GE => x - r | LT | LE => r - x end
  | ENot e => fun t v => rho e t (- v)
  | EAnd l => fun t v => Exists (fun P => P t v) (map rho l) /\
                         Forall (fun P : R -> R -> Prop => exists w, P t w /\ v <= w) (map rho l)
  | EOr l => fun t v => Exists (fun P => P t v) (map rho l) /\
                        Forall (fun P : R -> R -> Prop => exists w, P t w /\ w <= v) (map rho l)
  | EConst _ | EAlways _ _ | EEventually _ _ | EUntil _ _ _ => fun _ _ => False
  end.
End Sem.

(** The formula can be evaluated on the trace: no constants, And/Or have operands, comparisons
    are with real numbers, intervals come from the constructors, all names are in the trace. *)
Definition evaluable (lt : ptrace) (phi : expr XR) : Prop :=
  free_of is_const phi = true /\ free_of (short 1) phi = true /\ intervals_made phi /\
  (forall e, In e (subs phi) -> match e with EPred _ _ c => exists r, c = Fin r | _ => True end) /\
  (forall n, In n (names phi) -> exists l, In (n, l) lt).

Definition is_temporal (e : expr XR) : bool :=
  match e with EAlways _ _ | EEventually _ _ | EUntil _ _ _ => true | _ => false end.

(** For which formulas a positive ([p = true]) or negative ([p = false]) value can be trusted
    at every time: Always only under positive, Eventually only under negative polarity. *)
Fixpoint sound_for (p : bool) (e : expr XR) : bool :=
  match e with
  | EPred _ _ _ => true
  | ENot e => sound_for (negb p) e
  | EAnd l | EOr l => forallb (sound_for p) l
  | EAlways e _ => p && sound_for p e
  | EEventually e _ => negb p && sound_for p e
  | EConst _ | EUntil _ _ _ => false
  end.

(** For which formulas it can be trusted at the first time of the trace: the outermost
    temporal operators may have any polarity, Until only the negative one. *)
Fixpoint sound_first (p : bool) (e : expr XR) : bool :=
  match e with
  | EPred _ _ _ => true
  | ENot e => sound_first (negb p) e
  | EAnd l | EOr l => forallb (sound_first p) l
  | EAlways e _ | EEventually e _ => sound_for p e
  | EUntil a b _ => negb p && sound_for p a && sound_for p b
  | EConst _ => false
  end.
