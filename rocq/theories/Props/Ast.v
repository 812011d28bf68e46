(** Properties C49-C53, C67 and C68: construction of formulas and intervals.  Vocabulary: Spec/AstSpec.v,
    Spec/Formula.v. *)
From Flocq Require Import IEEE754.BinarySingleNaN.
From Verif Require Import Base Num NumB64.
From Verif.Model Require Import Ast.
From Verif.Spec Require Import Formula AstSpec.
From Verif.Proofs Require Import AstFacts AccessFacts.
Local Open Scope nat_scope.

(** ** C49 *)
Theorem C49_operators : forall (atom : expr B64 -> bool) x y,
  meaning atom (op_not x) = negb (meaning atom x) /\ meaning atom (Not_ x) = negb (meaning atom x) /\
  (forall e, op_and x y = Ok e -> meaning atom e = meaning atom x && meaning atom y) /\
  (forall e, op_or x y = Ok e -> meaning atom e = meaning atom x || meaning atom y) /\
  (forall e, Implies_ x y = Ok e -> meaning atom e = implb (meaning atom x) (meaning atom y)) /\
  (forall e, Xor_ x y = Ok e -> meaning atom e = xorb (meaning atom x) (meaning atom y)) /\
  (forall e, Iff_ x y = Ok e -> meaning atom e = Bool.eqb (meaning atom x) (meaning atom y)).
Proof. exact C49_lemma. Qed.
Print Assumptions C49_operators.

Theorem C49_lists : forall (atom : expr B64 -> bool) l,
  (forall e, And_ l = Ok e -> meaning atom e = forallb (meaning atom) l) /\
  (forall e, Or_ l = Ok e -> meaning atom e = existsb (meaning atom) l).
Proof. exact C49_nary. Qed.
Print Assumptions C49_lists.

Example C49_case : exists e1 e2, Xor_ ea eb = Ok e1 /\ Iff_ (EAnd [ea; eb]) (EConst true) = Ok e2 /\
  meaning (fun e => match e with EPred n _ _ => String.eqb n "x"%string | _ => false end) e1 = true.
Proof. exact C49_case_lemma. Qed.

(** ** C50.  Exactly when building throws; the hypotheses hold of every formula that can be
    built (C51). *)
Theorem C50_throws_partial : forall x y : expr B64, free_of (short 2) x = true -> free_of (short 2) y = true ->
  (if is_and x && is_false y then op_and x y = Throw InvalidArgument else exists e, op_and x y = Ok e) /\
  (if is_or x && is_true y then op_or x y = Throw InvalidArgument else exists e, op_or x y = Ok e) /\
  (exists e, Implies_ x y = Ok e) /\
  (if is_or x && is_true y then Xor_ x y = Throw InvalidArgument else exists e, Xor_ x y = Ok e) /\
  (if is_and x && is_false y then Iff_ x y = Throw InvalidArgument else exists e, Iff_ x y = Ok e).
Proof. exact C50_lemma. Qed.
Print Assumptions C50_throws_partial.

Theorem C50_and_refuted : exists x y : expr B64, constructed x /\ constructed y /\
  op_and x y = Throw InvalidArgument /\ Iff_ x y = Throw InvalidArgument.
Proof. exact C50_witness. Qed.
Print Assumptions C50_and_refuted.

Theorem C50_or_refuted : exists x y : expr B64, constructed x /\ constructed y /\
  op_or x y = Throw InvalidArgument /\ Xor_ x y = Throw InvalidArgument.
Proof. exact C50_or_witness. Qed.
Print Assumptions C50_or_refuted.

Example C50_case : free_of (short 2) (EOr [ea; eb]) = true /\ free_of (short 2) (EAnd [ea; EConst true]) = true.
Proof. exact C50_case_lemma. Qed.

(** ** C51 *)
Theorem C51_two_operands : forall e : expr B64, constructed e -> free_of (short 2) e = true.
Proof. exact C51_lemma. Qed.
Print Assumptions C51_two_operands.

Theorem C51_fewer_throw : forall l : list (expr B64), length l < 2 -> And_ l = Throw InvalidArgument /\ Or_ l = Throw InvalidArgument.
Proof. exact C51_throw_lemma. Qed.
Print Assumptions C51_fewer_throw.

Example C51_case : exists e : expr B64, constructed e /\ is_and e = true.
Proof. exact C51_case_lemma. Qed.

(** ** C52.  For doubles that are not NaN; refuted for NaN and for integers. *)
Theorem C52_interval_partial : forall a b : B64, isnum a = true -> isnum b = true ->
  (nleb nzero a = true /\ nltb a b = true /\ interval_dbl a b = Ok (mkInterval (IDbl a) (IDbl b))) \/
  ((nleb nzero a = false \/ nltb a b = false) /\ interval_dbl a b = Throw InvalidArgument).
Proof. exact C52_lemma. Qed.
Print Assumptions C52_interval_partial.

Theorem C52_nan_refuted : exists (i : interval B64) a b, isnum a = false /\ interval_dbl a b = Ok i.
Proof. exact C52_witness. Qed.
Print Assumptions C52_nan_refuted.

Theorem C52_integers_refuted : exists a b : N, (b < a)%N /\ (as_double (interval_ull a b) : B64 * B64) = (dbl 5 0, dbl 3 0).
Proof. exact C52_ull_witness. Qed.
Print Assumptions C52_integers_refuted.

Example C52_case : isnum (dbl 1 0) = true /\ isnum (ninf : B64) = true.
Proof. split; reflexivity. Qed.

(** ** C53.  is_zero_to_inf is right; has_value is the same function. *)
Theorem C53_zero_to_inf_partial : forall i : interval B64, ctor_interval i ->
  is_zero_to_inf i = neqb (fst (as_double i)) nzero && neqb (snd (as_double i)) ninf /\ has_value i = is_zero_to_inf i.
Proof. exact C53_lemma. Qed.
Print Assumptions C53_zero_to_inf_partial.

Theorem C53_has_value_refuted : exists i j : interval B64, interval_dbl nzero (dbl 1 0) = Ok i /\ has_value i = false /\
  j = interval_default /\ has_value j = true.
Proof. exact C53_witness. Qed.
Print Assumptions C53_has_value_refuted.

Example C53_case : ctor_interval (interval_ull 0 5 : interval B64) /\ ctor_interval (mkInterval (IDbl nzero) (IDbl ninf) : interval B64).
Proof. exact C53_case_lemma. Qed.

(** ** C67.  [==] of doubles on the bounds: a predicate with a NaN bound differs from itself. *)
Theorem C67_const_equality : forall a b : bool, (const_eqb a b = true <-> a = b) /\ const_neqb a b = negb (const_eqb a b).
Proof. exact C67_const_lemma. Qed.
Print Assumptions C67_const_equality.

Theorem C67_predicate_equality : forall n o (c : B64) n' o' c',
  (pred_eqb n o c n' o' c' = true <-> n = n' /\ o = o' /\ neqb c c' = true) /\
  pred_neqb n o c n' o' c' = negb (pred_eqb n o c n' o' c') /\
  pred_eqb n o c n' o' c' = pred_eqb n' o' c' n o c /\
  pred_eqb n o c n o c = isnum c.
Proof. exact (C67_pred_lemma (F := B64)). Qed.
Print Assumptions C67_predicate_equality.

Example C67_case : pred_eqb "x"%string GT (dbl 1 0) "x"%string GT (dbl 1 0) = true /\ pred_eqb "x"%string GT (dbl 1 0) "x"%string GE (dbl 1 0) = false /\
  pred_eqb "x"%string GT (nzero : B64) "x"%string GT (nopp nzero) = true.
Proof. repeat split; reflexivity. Qed.

(** ** C68 *)
Theorem C68_comparisons : forall n (c : B64),
  pred_gt n c = EPred n GT c /\ pred_ge n c = EPred n GE c /\ pred_lt n c = EPred n LT c /\ pred_le n c = EPred n LE c /\
  Predicate_ n = (EPred n GE nzero : expr B64).
Proof. exact C68_cmp_lemma. Qed.
Print Assumptions C68_comparisons.

Theorem C68_nodes : forall (e f : expr B64) i b (l : list (expr B64)), 2 <= length l ->
  Const_ b = (EConst b : expr B64) /\ op_not e = Not_ e /\
  Not_ e = (match e with EConst c => EConst (negb c) | _ => ENot e end) /\ And_ l = Ok (EAnd l) /\ Or_ l = Ok (EOr l) /\
  Always_ e = EAlways e (mkInterval (IDbl nzero) (IDbl ninf)) /\ Always_i e i = EAlways e i /\
  Eventually_ e = EEventually e (mkInterval (IDbl nzero) (IDbl ninf)) /\ Eventually_i e i = EEventually e i /\
  Until_ e f = EUntil e f (mkInterval (IDbl nzero) (IDbl ninf)) /\ Until_i e f i = EUntil e f i.
Proof. exact C68_nodes_lemma. Qed.
Print Assumptions C68_nodes.

Example C68_case : (2 <= length [ea; eb]).
Proof. apply le_n. Qed.
