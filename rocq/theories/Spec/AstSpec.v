(** Vocabulary for C49-C53. *)
From Verif Require Import Base Num.
From Verif.Model Require Import Ast.
From Verif.Spec Require Import Formula.

Section Spec.
Context {F : Type} `{NF : Num F}.

(** Propositional reading of a formula; predicates and temporal subformulas are atoms. *)
Fixpoint meaning (atom : expr F -> bool) (e : expr F) : bool :=
  match e with
  | EConst b => b
  | ENot e => negb (meaning atom e)
  | EAnd l => forallb (meaning atom) l
  | EOr l => existsb (meaning atom) l
  | EPred _ _ _ | EAlways _ _ | EEventually _ _ | EUntil _ _ _ => atom e
  end.

(** Formulas that some sequence of calls to the construction API returns. *)
Inductive constructed : expr F -> Prop :=
| C_const b : constructed (Const_ b)
| C_pred n : constructed (Predicate_ n)
| C_gt n c : constructed (pred_gt n c)
| C_ge n c : constructed (pred_ge n c)
| C_lt n c : constructed (pred_lt n c)
| C_le n c : constructed (pred_le n c)
| C_not_node e : constructed e -> constructed (ENot e)
| C_not e : constructed e -> constructed (op_not e)
| C_Not e : constructed e -> constructed (Not_ e)
| C_And l e : (forall x, In x l -> constructed x) -> And_ l = Ok e -> constructed e
| C_Or l e : (forall x, In x l -> constructed x) -> Or_ l = Ok e -> constructed e
| C_and x y e : constructed x -> constructed y -> op_and x y = Ok e -> constructed e
| C_or x y e : constructed x -> constructed y -> op_or x y = Ok e -> constructed e
| C_implies x y e : constructed x -> constructed y -> Implies_ x y = Ok e -> constructed e
| C_xor x y e : constructed x -> constructed y -> Xor_ x y = Ok e -> constructed e
| C_iff x y e : constructed x -> constructed y -> Iff_ x y = Ok e -> constructed e
| C_always e : constructed e -> constructed (Always_ e)
| C_always_i e i : constructed e -> constructed (Always_i e i)
| C_eventually e : constructed e -> constructed (Eventually_ e)
| C_eventually_i e i : constructed e -> constructed (Eventually_i e i)
| C_until x y : constructed x -> constructed y -> constructed (Until_ x y)
| C_until_i x y i : constructed x -> constructed y -> constructed (Until_i x y i).

(** Top-level shape of a formula. *)
Definition is_and (e : expr F) : bool := match e with EAnd _ => true | _ => false end.
Definition is_or (e : expr F) : bool := match e with EOr _ => true | _ => false end.
Definition is_true (e : expr F) : bool := match e with EConst b => b | _ => false end.
Definition is_false (e : expr F) : bool := match e with EConst b => negb b | _ => false end.

(** Values of unsigned long long. *)
Definition ull (n : N) : Prop := (n < 2 ^ 64)%N.
(** Intervals from the constructors, with the range of the integers enforced. *)
Definition ctor_interval (i : interval F) : Prop :=
  i = interval_default \/ (exists a b, ull a /\ ull b /\ i = interval_ull a b) \/ (exists a b, interval_dbl a b = Ok i).
End Spec.
