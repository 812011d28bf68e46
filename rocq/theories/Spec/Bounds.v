(** Bounds on the robustness of a formula, over piecewise-linear traces. *)
From Coq Require Import Reals Lra.
From Verif Require Import Base Num NumXR.
From Verif.Model Require Import Signal Ast Robustness.
From Verif.Spec Require Import Pwl Formula Semantics.
Open Scope R_scope.

(** [bound lt e true t c]: the robustness of [e] at [t] is at least [c]; [bound lt e false t c]:
    it is at most [c].  The operators look at every later time at which the operands are defined. *)
Fixpoint bound (lt : ptrace) (e : expr XR) (p : bool) (t c : R) : Prop :=
  match e with
  | EConst b => p = b
  | EPred n op k => exists x r, value_at lt n t x /\ k = Fin r /\
      let v := match op with GT | GE => x - r | LT | LE => r - x end in if p then c <= v else v <= c
  | ENot e => bound lt e (negb p) t (- c)
  | EAnd l => if p then Forall (fun P => P p t c) (map (bound lt) l) else Exists (fun P => P p t c) (map (bound lt) l)
  | EOr l => if p then Exists (fun P => P p t c) (map (bound lt) l) else Forall (fun P => P p t c) (map (bound lt) l)
  | EAlways e _ => if p then forall t', t <= t' -> inside lt e t' -> bound lt e p t' c
                   else exists t', t <= t' /\ inside lt e t' /\ bound lt e p t' c
  | EEventually e _ => if p then exists t', t <= t' /\ inside lt e t' /\ bound lt e p t' c
                       else forall t', t <= t' -> inside lt e t' -> bound lt e p t' c
  | EUntil a b _ =>
      if p then exists t', t <= t' /\ inside lt a t' /\ inside lt b t' /\ bound lt b p t' c /\
                           forall u, t <= u < t' -> bound lt a p u c
      else forall t', t <= t' -> inside lt a t' -> inside lt b t' ->
             bound lt b p t' c \/ exists u, t <= u < t' /\ bound lt a p u c
  end.
