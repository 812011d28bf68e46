(** Meaning of a Boolean formula at one sample time, from the values of the signals there. *)
From Verif Require Import Base Num.
From Verif.Model Require Import Signal Ast Robustness.
From Verif.Spec Require Import Formula.

Section Spec.
Context {F : Type} `{NF : Num F}.

Definition lesser (v w : F) : F := if nltb w v then w else v.
Definition greater (v w : F) : F := if nltb v w then w else v.
Definition least_of (l : list F) : F := match l with [] => nzero | v :: l' => fold_left lesser l' v end.
Definition greatest_of (l : list F) : F := match l with [] => nzero | v :: l' => fold_left greater l' v end.

(** Robustness of a formula without constants and temporal operators, where signal [n] has the
    value [env n]; the other formulas get an arbitrary value. *)
Fixpoint value_now (env : string -> F) (phi : expr F) : F :=
  match phi with
  | EPred n (GT | GE) c => nsub (env n) c
  | EPred n (LT | LE) c => nsub c (env n)
  | ENot e => nopp (value_now env e)
  | EAnd l => least_of (map (value_now env) l)
  | EOr l => greatest_of (map (value_now env) l)
  | EConst _ | EAlways _ _ | EEventually _ _ | EUntil _ _ _ => nzero
  end.
Fixpoint holds_now (env : string -> F) (phi : expr F) : bool :=
  match phi with
  | EPred n op c => cmp_holds op (env n) c
  | ENot e => negb (holds_now env e)
  | EAnd l => forallb (holds_now env) l
  | EOr l => existsb (holds_now env) l
  | EConst _ | EAlways _ _ | EEventually _ _ | EUntil _ _ _ => false
  end.

Definition is_temporal_op (e : expr F) : bool :=
  match e with EAlways _ _ | EEventually _ _ | EUntil _ _ _ => true | _ => false end.
(** Predicates, Not, And and Or with at least one operand. *)
Definition propositional (phi : expr F) : Prop :=
  free_of is_const phi = true /\ free_of is_temporal_op phi = true /\ free_of (short 1) phi = true.

(** Every signal the formula names has a sample at [t], with the value [env] gives. *)
Definition sampled_at (tr : trace F) (env : string -> F) (t : F) (phi : expr F) : Prop :=
  forall n, In n (names phi) -> exists x a, has_signal tr n x /\ In a x /\ neqb (s_time a) t = true /\ s_value a = env n.
End Spec.
