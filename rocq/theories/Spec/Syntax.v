(** Vocabulary for C56-C60: specifications as S-expressions, their tokens and their meaning. *)
From Coq Require Import Ascii.
From Verif Require Import Base Num.
From Verif.Model Require Import Ast.
From Verif.Spec Require Import Text Messages.
Local Open Scope nat_scope.

Inductive term : Type :=
| TBool (b : bool)
| TRef (x : string)                                  (* x *)
| TPred (op : cmp_op) (x : string) (w : list ascii)  (* (op x w) *)
| TPred2 (op : cmp_op) (w : list ascii) (x : string) (* (op w x) *)
| TEmpty                                             (* () *)
| TNot (t : term)
| TAnd (ts : list term)
| TOr (ts : list term)
| TImplies (t u : term)
| TIff (t u : term)
| TXor (t u : term)
| TAlways (t : term)
| TEventually (t : term)
| TUntil (t u : term).
Inductive command : Type := Def (x : string) (t : term) | Assert (x : string) (t : term).

(** ** Text *)
Definition app_op (w : string) (args : list token) : list token := LPar :: Word w :: args ++ [RPar].
Fixpoint tokens (t : term) : list token :=
  match t with
  | TBool b => [Word (if b then "true" else "false")]
  | TRef x => [Word x]
  | TPred op x w => [LPar; Cmp op; Word x; Number w; RPar]
  | TPred2 op w x => [LPar; Cmp op; Number w; Word x; RPar]
  | TEmpty => [LPar; RPar]
  | TNot t => app_op "not" (tokens t)
  | TAnd ts => app_op "and" (flat_map tokens ts)
  | TOr ts => app_op "or" (flat_map tokens ts)
  | TImplies t u => app_op "implies" (tokens t ++ tokens u)
  | TIff t u => app_op "iff" (tokens t ++ tokens u)
  | TXor t u => app_op "xor" (tokens t ++ tokens u)
  | TAlways t => app_op "always" (tokens t)
  | TEventually t => app_op "eventually" (tokens t)
  | TUntil t u => app_op "until" (tokens t ++ tokens u)
  end.
Definition command_tokens (c : command) : list token :=
  match c with
  | Def x t => LPar :: Define :: Word x :: tokens t ++ [RPar]
  | Assert x t => LPar :: Word "assert" :: Word x :: tokens t ++ [RPar]
  end.
Definition spec_tokens (cs : list command) : list token := flat_map command_tokens cs.
(** [t] is a text of the specification [cs]. *)
Definition spec_text (cs : list command) (t : string) : Prop := text_of (spec_tokens cs) (chars t).

(** All subterms that are not operators satisfy [f]. *)
Fixpoint leaves (f : term -> bool) (t : term) : bool :=
  match t with
  | TBool _ | TRef _ | TPred _ _ _ | TPred2 _ _ _ | TEmpty => f t
  | TNot t | TAlways t | TEventually t => leaves f t
  | TAnd ts | TOr ts => forallb (leaves f) ts
  | TImplies t u | TIff t u | TXor t u | TUntil t u => leaves f t && leaves f u
  end.
(** The words true and false are not references. *)
Definition ref_ok (t : term) : bool :=
  match t with TRef x => negb (String.eqb x "true") && negb (String.eqb x "false") | _ => true end.
(** Not a predicate of the second form, nor an empty term. *)
Definition supported (t : term) : bool := match t with TPred2 _ _ _ | TEmpty => false | _ => true end.
Definition body (c : command) : term := match c with Def _ t | Assert _ t => t end.
Definition all_leaves (f : term -> bool) (cs : list command) : bool := forallb (fun c => leaves f (body c)) cs.
Definition name (c : command) : string := match c with Def x _ | Assert x _ => x end.
Definition is_def (c : command) : bool := match c with Def _ _ => true | _ => false end.
Definition def_names (cs : list command) : list string := map name (filter is_def cs).
Definition assert_names (cs : list command) : list string := map name (filter (fun c => negb (is_def c)) cs).

(** References that occur in a term. *)
Fixpoint refs (t : term) : list string :=
  match t with
  | TBool _ | TPred _ _ _ | TPred2 _ _ _ | TEmpty => []
  | TRef x => [x]
  | TNot t | TAlways t | TEventually t => refs t
  | TAnd ts | TOr ts => flat_map refs ts
  | TImplies t u | TIff t u | TXor t u | TUntil t u => refs t ++ refs u
  end.

(** The term with [u] written in place of every reference to [d]. *)
Fixpoint inline (d : string) (u t : term) : term :=
  match t with
  | TBool _ | TPred _ _ _ | TPred2 _ _ _ | TEmpty => t
  | TRef x => if string_dec x d then u else t
  | TNot t => TNot (inline d u t)
  | TAnd ts => TAnd (map (inline d u) ts)
  | TOr ts => TOr (map (inline d u) ts)
  | TImplies t t' => TImplies (inline d u t) (inline d u t')
  | TIff t t' => TIff (inline d u t) (inline d u t')
  | TXor t t' => TXor (inline d u t) (inline d u t')
  | TAlways t => TAlways (inline d u t)
  | TEventually t => TEventually (inline d u t)
  | TUntil t t' => TUntil (inline d u t) (inline d u t')
  end.
Definition inline_command (d : string) (u : term) (c : command) : command :=
  match c with Def x t => Def x (inline d u t) | Assert x t => Assert x (inline d u t) end.

(** ** Meaning *)
(** What is reported for And and Or with one or no operand, and for a repeated name. *)
Definition few (n : nat) : exn :=
  ParseError (if n =? 0 then "expected a list of at least 2 Terms" else "expected at least 2 terms, got 1").
Definition repeated (kind x : string) : exn := ParseError (redefinition kind x).

Section Meaning.
Context {F : Type} `{NF : Num F}.
(** Value of a decimal literal, if in range. *)
Variable stod : list ascii -> option F.
(** The meaning of (op w x), for the value of [w], and of (); see [swapped] and [no_empty]. *)
Variable two : cmp_op -> string -> F -> outcome (expr F).
Variable empty : outcome (expr F).

Definition literal_value (w : list ascii) : outcome F :=
  if forallb digit w
  then (if (digits_value 0 w <=? 2 ^ 63 - 1)%Z then Ok (nofZ (digits_value 0 w)) else Throw OutOfRange)
  else match stod w with Some v => Ok v | None => Throw OutOfRange end.

(** Values of the operands from left to right. *)
Definition list_values (f : term -> outcome (expr F)) : list term -> outcome (list (expr F)) :=
  fix go ts := match ts with [] => Ok [] | t :: ts' => e <- f t ;; es <- go ts' ;; Ok (e :: es) end.
(** [env]: the formulas defined so far.  The operators are those of the construction API (C49,
    C50); And and Or need two operands. *)
Fixpoint term_value (env : string -> option (expr F)) (t : term) : outcome (expr F) :=
  let pair u v f := (x <- term_value env u ;; y <- term_value env v ;; f x y) in
  match t with
  | TBool b => Ok (EConst b)
  | TRef x => match env x with Some e => Ok e | None => Throw OutOfRange end
  | TPred op x w => v <- literal_value w ;; Ok (EPred x op v)
  | TPred2 op w x => v <- literal_value w ;; two op x v
  | TEmpty => empty
  | TNot t => e <- term_value env t ;; Ok (Not_ e)
  | TAnd ts => es <- list_values (term_value env) ts ;;
               if length es <? 2 then Throw (few (length es)) else Ok (EAnd es)
  | TOr ts => es <- list_values (term_value env) ts ;;
              if length es <? 2 then Throw (few (length es)) else Ok (EOr es)
  | TImplies t u => pair t u Implies_
  | TIff t u => pair t u Iff_
  | TXor t u => pair t u Xor_
  | TAlways t => e <- term_value env t ;; Ok (EAlways e interval_default)
  | TEventually t => e <- term_value env t ;; Ok (EEventually e interval_default)
  | TUntil t u => pair t u (fun x y => Ok (EUntil x y interval_default))
  end.

(** Definitions and assertions, in the order of their commands. *)
Definition entries : Type := list (string * expr F).
Fixpoint lookup (m : entries) (x : string) : option (expr F) :=
  match m with [] => None | (y, e) :: m' => if string_dec x y then Some e else lookup m' x end.
Definition add (kind : string) (m : entries) (x : string) (e : expr F) : outcome entries :=
  match lookup m x with Some _ => Throw (repeated kind x) | None => Ok (m ++ [(x, e)]) end.
(** The meaning of a specification: all definitions and all assertions. *)
Fixpoint spec_value (defs asserts : entries) (cs : list command) : outcome (entries * entries) :=
  match cs with
  | [] => Ok (defs, asserts)
  | Def x t :: cs' => e <- term_value (lookup defs) t ;; defs' <- add "Formula" defs x e ;; spec_value defs' asserts cs'
  | Assert x t :: cs' => e <- term_value (lookup defs) t ;; asserts' <- add "Assertion" asserts x e ;; spec_value defs asserts' cs'
  end.
End Meaning.

(** (op w x) means x op' w; an empty term is an error. *)
Definition swap (op : cmp_op) : cmp_op := match op with LT => GT | GT => LT | LE => GE | GE => LE end.
Definition swapped {F} (op : cmp_op) (x : string) (v : F) : outcome (expr F) := Ok (EPred x (swap op) v).
Definition no_empty {F} : outcome (expr F) := Throw (ParseError "expected an expression followed by a closing parenthesis ')'").

(** ** Writing formulas *)
(** [t] writes the formula [e] without references. *)
Section Writes.
Context {F : Type} `{NF : Num F}.
Variable stod : list ascii -> option F.
Inductive writes : term -> expr F -> Prop :=
| W_const b : writes (TBool b) (EConst b)
| W_pred op x w v : literal_value stod w = Ok v -> writes (TPred op x w) (EPred x op v)
| W_not t e : writes t e -> (forall b, e <> EConst b) -> writes (TNot t) (ENot e)
| W_and ts es : writes_all ts es -> 2 <= length es -> writes (TAnd ts) (EAnd es)
| W_or ts es : writes_all ts es -> 2 <= length es -> writes (TOr ts) (EOr es)
| W_always t e : writes t e -> writes (TAlways t) (EAlways e interval_default)
| W_eventually t e : writes t e -> writes (TEventually t) (EEventually e interval_default)
| W_until t u e f : writes t e -> writes u f -> writes (TUntil t u) (EUntil e f interval_default)
with writes_all : list term -> list (expr F) -> Prop :=
| W_nil : writes_all [] []
| W_cons t ts e es : writes t e -> writes_all ts es -> writes_all (t :: ts) (e :: es).
(** Commands that write definitions and assertions. *)
Definition writes_command (c : command) (d : bool * (string * expr F)) : Prop :=
  is_def c = fst d /\ name c = fst (snd d) /\ writes (body c) (snd (snd d)).
End Writes.

(** Every name a command refers to is defined by a command before it. *)
Definition ordered (cs : list command) : Prop := forall pre c post, cs = pre ++ c :: post -> incl (refs (body c)) (def_names pre).
