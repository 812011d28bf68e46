(** Robustness at samples in the real numbers, and correct rounding to a double. *)
From Coq Require Import Reals.
From Flocq Require Import Core.Core IEEE754.BinarySingleNaN.
From Verif Require Import Base Num NumB64.
From Verif.Model Require Import Ast.
Local Open Scope R_scope.

(** The nearest real with a 53-bit significand and exponents from -1074, ties to even. *)
Definition b64_round (r : R) : R := round radix2 (FLT_exp (-1074) 53) ZnearestE r.
(** [v] is the double nearest to [r]: infinite if the rounded value is out of range. *)
Definition rounds_to (r : R) (v : B64) : Prop :=
  if Rlt_bool (Rabs (b64_round r)) (bpow radix2 1024) then finite v = true /\ B2R v = b64_round r
  else v = B754_infinity (Rlt_bool r 0).

Definition Rleast (l : list R) : R := match l with [] => 0 | v :: l' => fold_left Rmin l' v end.
Definition Rgreatest (l : list R) : R := match l with [] => 0 | v :: l' => fold_left Rmax l' v end.

Definition exact_pred (op : cmp_op) (v c : R) : R := match op with GT | GE => v - c | LT | LE => c - v end.

(** Formulas without constants and temporal operators, signal [n] having the value [env n]. *)
Fixpoint exact_now (env : string -> R) (phi : expr B64) : R :=
  match phi with
  | EPred n op c => exact_pred op (env n) (B2R c)
  | ENot e => - exact_now env e
  | EAnd l => Rleast (map (exact_now env) l)
  | EOr l => Rgreatest (map (exact_now env) l)
  | EConst _ | EAlways _ _ | EEventually _ _ | EUntil _ _ _ => 0
  end.

(** Formulas over one signal with Not, Always and Eventually; [w]: the values of the signal from
    the current sample on. *)
Fixpoint tails {A} (w : list A) : list (list A) := match w with [] => [] | _ :: w' => w :: tails w' end.
Fixpoint exact_samples (phi : expr B64) (w : list R) : R :=
  match phi with
  | EPred _ op c => match w with [] => 0 | v :: _ => exact_pred op v (B2R c) end
  | ENot e => - exact_samples e w
  | EAlways e _ => Rleast (map (exact_samples e) (tails w))
  | EEventually e _ => Rgreatest (map (exact_samples e) (tails w))
  | EConst _ | EAnd _ | EOr _ | EUntil _ _ _ => 0
  end.
