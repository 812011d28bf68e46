(** Model of src/include/signal_tl/ast.hpp and src/core/ast.cc.
    Nodes are values: shared_ptr identity is not modelled (nothing mutates a node). *)
From Verif Require Import Base Num.

(** [enum class ComparisonOp], ast.hpp:63. *)
Inductive cmp_op : Type := GT | GE | LT | LE.

Section Ast.
Context {F : Type} `{NF : Num F}.

(** [Interval::Num], ast.hpp:153: unsigned long long (range not enforced here) or double. *)
Inductive inum : Type := IInt (n : N) | IDbl (d : F).

(** [struct Interval], ast.hpp:152-156. *)
Record interval : Type := mkInterval { low : inum; high : inum }.

(** [Interval()], ast.hpp:158. *)
Definition interval_default : interval := mkInterval (IDbl nzero) (IDbl ninf).
(** [Interval(ull, ull)], ast.hpp:159: no check. *)
Definition interval_ull (a b : N) : interval := mkInterval (IInt a) (IInt b).
(** [Interval(double, double)], ast.hpp:160-166. *)
Definition interval_dbl (a b : F) : outcome interval :=
  if nltb a nzero || nltb b nzero then Throw InvalidArgument
  else if nleb b a then Throw InvalidArgument
  else Ok (mkInterval (IDbl a) (IDbl b)).

(** [static_cast<double>] of an alternative, ast.hpp:171-181. *)
Definition inum_double (n : inum) : F :=
  match n with IInt k => nofZ (Z.of_N k) | IDbl d => d end.
(** [as_double], ast.hpp:169-183. *)
Definition as_double (i : interval) : F * F := (inum_double (low i), inum_double (high i)).

(** [is_zero_to_inf], ast.hpp:186-191. *)
Definition is_zero_to_inf (i : interval) : bool :=
  (match low i with IInt k => N.eqb k 0 | IDbl d => neqb d nzero end) &&
  nisinf (inum_double (high i)).
(** [has_value], ast.hpp:198-200. *)
Definition has_value (i : interval) : bool := is_zero_to_inf i.

(** [Expr] and its alternatives, ast.hpp:42-136,203-232.  The default arguments of
    [Predicate] (ast.hpp:75-79) are in [mk_predicate]. *)
Inductive expr : Type :=
| EConst (b : bool)
| EPred (name : string) (op : cmp_op) (rhs : F)
| ENot (e : expr)
| EAnd (args : list expr)
| EOr (args : list expr)
| EAlways (e : expr) (i : interval)
| EEventually (e : expr) (i : interval)
| EUntil (e1 e2 : expr) (i : interval).

(** [And(vector)], ast.hpp:118-123, and the helper ast.cc:117-119. *)
Definition And_ (args : list expr) : outcome expr :=
  if Nat.ltb (length args) 2 then Throw InvalidArgument else Ok (EAnd args).
(** [Or(vector)], ast.hpp:130-135, and the helper ast.cc:121-123. *)
Definition Or_ (args : list expr) : outcome expr :=
  if Nat.ltb (length args) 2 then Throw InvalidArgument else Ok (EOr args).

(** [Const(bool)], ast.cc:102-104; [Predicate(name)], ast.cc:106-108 with the defaults of
    ast.hpp:75-79. *)
Definition Const_ (b : bool) : expr := EConst b.
Definition Predicate_ (name : string) : expr := EPred name GE nzero.

(** [operator==] and [operator!=] of [Const], ast.hpp:49-55, and of [Predicate],
    ast.hpp:81-87; a predicate is given by its three fields. *)
Definition const_eqb (a b : bool) : bool := Bool.eqb a b.
Definition const_neqb (a b : bool) : bool := negb (const_eqb a b).
Definition cmp_eqb (a b : cmp_op) : bool :=
  match a, b with GT, GT | GE, GE | LT, LT | LE, LE => true | _, _ => false end.
Definition pred_eqb (n : string) (o : cmp_op) (c : F) (n' : string) (o' : cmp_op) (c' : F) : bool :=
  String.eqb n n' && cmp_eqb o o' && neqb c c'.
Definition pred_neqb (n : string) (o : cmp_op) (c : F) (n' : string) (o' : cmp_op) (c' : F) : bool :=
  negb (pred_eqb n o c n' o' c').

(** [operator>], [>=], [<], [<=] of a predicate and a bound, ast.cc:11-25.  Only the name of the
    predicate is read. *)
Definition pred_gt (name : string) (bound : F) : expr := EPred name GT bound.
Definition pred_ge (name : string) (bound : F) : expr := EPred name GE bound.
Definition pred_lt (name : string) (bound : F) : expr := EPred name LT bound.
Definition pred_le (name : string) (bound : F) : expr := EPred name LE bound.

(** [AndHelper], ast.cc:31-50. *)
Definition and_helper (args : list expr) (rhs : expr) : outcome expr :=
  And_ (match rhs with
        | EConst b => if negb b then [EConst b] else args
        | EAnd args' => args ++ args'
        | e => args ++ [e]
        end).
(** [OrHelper], ast.cc:52-71. *)
Definition or_helper (args : list expr) (rhs : expr) : outcome expr :=
  Or_ (match rhs with
       | EConst b => if b then [EConst b] else args
       | EOr args' => args ++ args'
       | e => args ++ [e]
       end).

(** [operator&], ast.cc:75-82. *)
Definition op_and (l r : expr) : outcome expr :=
  match l with
  | EConst b => Ok (if b then r else EConst b)
  | EAnd args => and_helper args r
  | _ => And_ [l; r]
  end.
(** [operator|], ast.cc:84-91. *)
Definition op_or (l r : expr) : outcome expr :=
  match l with
  | EConst b => Ok (if negb b then r else EConst b)
  | EOr args => or_helper args r
  | _ => Or_ [l; r]
  end.
(** [operator~], ast.cc:93-98. *)
Definition op_not (e : expr) : expr :=
  match e with EConst b => EConst (negb b) | _ => ENot e end.
(** [Not], ast.cc:110-115. *)
Definition Not_ (e : expr) : expr :=
  match e with EConst b => EConst (negb b) | _ => ENot e end.

(** [Implies], ast.cc:125-127. *)
Definition Implies_ (x y : expr) : outcome expr := op_or (op_not x) y.
(** [Xor], ast.cc:129-131.  The operand order of evaluation in C++ is unspecified, which only
    matters for which of two identical exceptions is thrown first. *)
Definition Xor_ (x y : expr) : outcome expr :=
  a <- op_or x y ;; b <- op_or (op_not x) (op_not y) ;; op_and a b.
(** [Iff], ast.cc:133-135. *)
Definition Iff_ (x y : expr) : outcome expr :=
  a <- op_and x y ;; b <- op_and (op_not x) (op_not y) ;; op_or a b.

(** [Always], [Eventually], [Until], ast.cc:137-159. *)
Definition Always_ (e : expr) : expr := EAlways e interval_default.
Definition Always_i (e : expr) (i : interval) : expr := EAlways e i.
Definition Eventually_ (e : expr) : expr := EEventually e interval_default.
Definition Eventually_i (e : expr) (i : interval) : expr := EEventually e i.
Definition Until_ (e1 e2 : expr) : expr := EUntil e1 e2 interval_default.
Definition Until_i (e1 e2 : expr) (i : interval) : expr := EUntil e1 e2 i.

End Ast.
Arguments inum : clear implicits.
Arguments interval : clear implicits.
Arguments expr : clear implicits.
