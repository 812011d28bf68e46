(** Laws of propositional logic as pairs of formulas. *)
From Coq Require Import Reals Lra Permutation.
From Verif Require Import Base Num NumXR.
From Verif.Model Require Import Signal Ast Robustness.
From Verif.Spec Require Import Pwl Formula Semantics.

(** On the trace, the signal returned for [phi] has the value [v] at [t]. *)
Definition gives (dbg : bool) (fuel : nat) (tr : trace XR) (s : bool) (phi : expr XR) (t v : R) : Prop :=
  exists l z, compute_robustness dbg fuel phi tr s = Ok z /\ built l z /\ pwl l t v.

(** The call [o] returns a formula that can be evaluated, and its signal has the value [v] at [t]. *)
Definition builds (dbg : bool) (fuel : nat) (lt : ptrace) (tr : trace XR) (s : bool) (o : outcome (expr XR)) (t v : R) : Prop :=
  exists e, o = Ok e /\ evaluable lt e /\ gives dbg fuel tr s e t v.

(** [law a b]: [a] and [b] are the two sides of an instance of a law. *)
Inductive law {F} : expr F -> expr F -> Prop :=
  | law_not_not a : law (ENot (ENot a)) a
  | law_and_one a : law (EAnd [a]) a
  | law_or_one a : law (EOr [a]) a
  | law_and_comm l m : Permutation l m -> law (EAnd l) (EAnd m)
  | law_or_comm l m : Permutation l m -> law (EOr l) (EOr m)
  | law_and_assoc l m : law (EAnd (EAnd m :: l)) (EAnd (m ++ l))
  | law_or_assoc l m : law (EOr (EOr m :: l)) (EOr (m ++ l))
  | law_and_same a l : law (EAnd (a :: a :: l)) (EAnd (a :: l))
  | law_or_same a l : law (EOr (a :: a :: l)) (EOr (a :: l))
  | law_not_and l : law (ENot (EAnd l)) (EOr (map ENot l))
  | law_not_or l : law (ENot (EOr l)) (EAnd (map ENot l))
  | law_and_or l m : law (EAnd (EOr m :: l)) (EOr (map (fun a => EAnd (a :: l)) m))
  | law_or_and l m : law (EOr (EAnd m :: l)) (EAnd (map (fun a => EOr (a :: l)) m)).

(** The two laws whose sides need not mention the same signals. *)
Inductive absorption {F} : expr F -> expr F -> Prop :=
  | absorb_and a l : absorption (EAnd [a; EOr (a :: l)]) a
  | absorb_or a l : absorption (EOr [a; EAnd (a :: l)]) a.

(** One use of a law, in either direction, anywhere inside a formula. *)
Inductive rewrite1 {F} : expr F -> expr F -> Prop :=
  | rw_law a b : law a b -> rewrite1 a b
  | rw_back a b : law b a -> rewrite1 a b
  | rw_not a b : rewrite1 a b -> rewrite1 (ENot a) (ENot b)
  | rw_and l a b m : rewrite1 a b -> rewrite1 (EAnd (l ++ a :: m)) (EAnd (l ++ b :: m))
  | rw_or l a b m : rewrite1 a b -> rewrite1 (EOr (l ++ a :: m)) (EOr (l ++ b :: m))
  | rw_always a b i : rewrite1 a b -> rewrite1 (EAlways a i) (EAlways b i)
  | rw_eventually a b i : rewrite1 a b -> rewrite1 (EEventually a i) (EEventually b i)
  | rw_until_l a b c i : rewrite1 a b -> rewrite1 (EUntil a c i) (EUntil b c i)
  | rw_until_r a b c i : rewrite1 a b -> rewrite1 (EUntil c a i) (EUntil c b i).

(** The two traces describe the same functions by possibly different points. *)
Definition same_functions (lt lt' : ptrace) : Prop :=
  Forall2 (fun a b => fst a = fst b /\ forall t v, pwl (snd a) t v <-> pwl (snd b) t v) lt lt'.
