(** Outcomes of C++ calls, and list helpers shared by model and proofs. *)
From Coq Require Export String List Bool Arith ZArith Lia.
Export ListNotations.
Open Scope nat_scope.

(** Which [std::logic_error] of the code base is meant (they carry different messages). *)
Inductive logic_err : Type :=
| LE_Interval        (* classic_robustness.cc:171,189 "b < a in interval [a,b]" *)
| LE_PredicateNoId   (* actions.hpp:195 *)
| LE_TermEmpty       (* actions.hpp:444 "Should be unreachable..." *)
| LE_LocalError.     (* parser.cc:38 "Local error thrown during parsing..." *)

(** Exceptions thrown by the code base or by the standard library calls it makes. *)
Inductive exn : Type :=
| InvalidArgument
| OutOfRange
| LogicError (e : logic_err)
| NotImplemented
| BadOptionalAccess
| BadVariantAccess
| ParseError (message : string).

(** Result of running a C++ function.
    [UB]: undefined behaviour was executed (e.g. end() dereferenced).
    [Hang]: the loop fuel of the model ran out.
    [AssertFail]: an [assert] failed (aborts in builds without NDEBUG). *)
Inductive outcome (A : Type) : Type :=
| Ok (a : A)
| Throw (e : exn)
| UB
| Hang
| AssertFail.
Arguments Ok {A} a. Arguments Throw {A} e. Arguments UB {A}. Arguments Hang {A}.
Arguments AssertFail {A}.

Definition bind {A B} (m : outcome A) (f : A -> outcome B) : outcome B :=
  match m with
  | Ok a => f a
  | Throw e => Throw e
  | UB => UB
  | Hang => Hang
  | AssertFail => AssertFail
  end.

Definition omap {A B} (f : A -> B) (m : outcome A) : outcome B := bind m (fun a => Ok (f a)).

Declare Scope outcome_scope.
Delimit Scope outcome_scope with outcome.
Notation "x <- m ;; k" := (bind m (fun x => k))
  (at level 61, m at next level, right associativity) : outcome_scope.
Notation "' p <- m ;; k" := (bind m (fun x => let p := x in k))
  (at level 61, p pattern, m at next level, right associativity) : outcome_scope.
Open Scope outcome_scope.

Definition is_ok {A} (m : outcome A) : bool := match m with Ok _ => true | _ => false end.

Lemma bind_ok_inv {A B} (m : outcome A) (f : A -> outcome B) b :
  bind m f = Ok b -> exists a, m = Ok a /\ f a = Ok b.
Proof. destruct m; cbn; intros H; try discriminate. eauto. Qed.

(** Last element of a list, if any ([container.back()]). *)
Fixpoint last_opt {A} (l : list A) : option A :=
  match l with
  | [] => None
  | [a] => Some a
  | _ :: l' => last_opt l'
  end.

(** Longest prefix whose elements satisfy [p]. *)
Fixpoint take_while {A} (p : A -> bool) (l : list A) : list A :=
  match l with
  | [] => []
  | a :: l' => if p a then a :: take_while p l' else []
  end.

Lemma last_opt_snoc {A} (l : list A) a : last_opt (l ++ [a]) = Some a.
Proof. induction l as [|b l IH]; cbn; [reflexivity|]. rewrite IH. destruct (l ++ [a]) eqn:E; [|reflexivity].
  destruct l; discriminate. Qed.

Lemma last_opt_none {A} (l : list A) : last_opt l = None -> l = [].
Proof. destruct l as [|a l] using rev_ind; [reflexivity|]. rewrite last_opt_snoc. discriminate. Qed.

Lemma last_opt_some {A} (l : list A) a : last_opt l = Some a -> exists l', l = l' ++ [a].
Proof.
  destruct l as [|b l _] using rev_ind; [discriminate|]. rewrite last_opt_snoc. intros [= ->]. eauto.
Qed.

Lemma last_opt_In {A} (l : list A) a : last_opt l = Some a -> In a l.
Proof. intros H. apply last_opt_some in H as [l' ->]. apply in_or_app. right. left. reflexivity. Qed.

Lemma last_opt_app {A} (l l' : list A) : l' <> [] -> last_opt (l ++ l') = last_opt l'.
Proof.
  destruct l' as [|a l' _] using rev_ind; [congruence|]. intros _.
  rewrite app_assoc, !last_opt_snoc. reflexivity.
Qed.

Lemma last_opt_map {A B} (f : A -> B) l : last_opt (map f l) = option_map f (last_opt l).
Proof. induction l as [|a [|b l] IH]; cbn in *; auto. Qed.
