(** Model of src/parser/grammar.hpp, src/parser/actions.hpp, src/parser/error_messages.hpp and
    src/parser/parser.cc.
    Actions under [disable] are off; the rules it is applied to have no actions anyway.
    [peg::parse_error] is [ParseError] with its message; the source name, line and column that PEGTL
    puts in front of the message are not modelled. *)
From Coq Require Import DecimalString.
From Verif Require Import Base Num.
From Verif.Model Require Import Ast Peg.

(** ** Messages of the rules that are under a [must], error_messages.hpp:22-63 *)
Definition msg_Identifier : string := "expected an identifier".
Definition msg_exponent : string := "expected some (signed) number after exponent".
Definition msg_PredicateForm : string := "expected an identifier followed by a numeral or vice-versa".
Definition msg_NaryTail : string := "expected a list of at least 2 Terms".
Definition msg_BinaryTail : string := "expected a list of at exactly 2 Terms".
Definition msg_TermTail : string := "expected an expression followed by a closing parenthesis ')'".
Definition msg_Term : string := "expected a Term".
Definition msg_AllowedCommands : string := "top-level command does not match list of known commands".
Definition msg_AnyCommandTail : string := "expected (<command> ...). Maybe you have an unclosed S-expression command.".
Definition msg_StatementList : string := "invalid top-level item".
(** Messages of actions: actions.hpp:254-256,273-275 ([std::to_string] of a size), 470 and 497. *)
Definition msg_few_terms (n : nat) : string := "expected at least 2 terms, got " ++ NilEmpty.string_of_uint (Nat.to_uint n).
Definition msg_redefinition (kind id : string) : string :=
  "possible redefinition of " ++ kind ++ " with id: """ ++ id ++ """".

Section Parser.
Context {F : Type} `{NF : Num F}.
(** [dbg]: whether assert is active (actions.hpp:12-13 leaves that to the build type). *)
Variable dbg : bool.
(** [std::stod] on the text of a DoubleLiteral; [None]: throws out_of_range.  The conversion itself
    is modelled in Model/Stod.v, and any other may be put here. *)
Variable stod : input -> option F.

(** ** States *)

(** [PrimitiveState], actions.hpp:28. *)
Inductive primitive : Type := PBool (b : bool) | PInt (z : Z) | PDouble (d : F).
(** [PredicateType], actions.hpp:30. *)
Inductive predicate_form : Type := FormOne | FormTwo.
(** [ParserState], actions.hpp:38-74, without [level] (written, never read except for an
    assertion that the outermost one is still 0). *)
Record local_state : Type := mkLocal {
  l_result : option (expr F);
  l_primitive : option primitive;
  l_identifiers : list string;
  l_form : option predicate_form;
  l_comparison : option cmp_op;
  l_terms : list (expr F)
}.
Definition empty_local : local_state := mkLocal None None [] None None [].
(** [std::map<std::string, ast::Expr>] as an association list in insertion order. *)
Definition fmap : Type := list (string * expr F).
Fixpoint fmap_find (m : fmap) (k : string) : option (expr F) :=
  match m with
  | [] => None
  | (k', e) :: m' => if String.eqb k k' then Some e else fmap_find m' k
  end.
(** [GlobalParserState], actions.hpp:78-81, and [Specification], parser.hpp:24-32. *)
Record spec : Type := mkSpec { formulas : fmap; assertions : fmap }.
Definition state : Type := (spec * local_state)%type.

Definition with_result (r : option (expr F)) (l : local_state) :=
  mkLocal r (l_primitive l) (l_identifiers l) (l_form l) (l_comparison l) (l_terms l).
Definition with_primitive (p : option primitive) (l : local_state) :=
  mkLocal (l_result l) p (l_identifiers l) (l_form l) (l_comparison l) (l_terms l).
Definition with_identifiers (ids : list string) (l : local_state) :=
  mkLocal (l_result l) (l_primitive l) ids (l_form l) (l_comparison l) (l_terms l).
Definition with_form (f : option predicate_form) (l : local_state) :=
  mkLocal (l_result l) (l_primitive l) (l_identifiers l) f (l_comparison l) (l_terms l).
Definition with_comparison (c : option cmp_op) (l : local_state) :=
  mkLocal (l_result l) (l_primitive l) (l_identifiers l) (l_form l) c (l_terms l).
Definition with_terms (ts : list (expr F)) (l : local_state) :=
  mkLocal (l_result l) (l_primitive l) (l_identifiers l) (l_form l) (l_comparison l) ts.

(** [vector::back] and [pop_back]: undefined behaviour on an empty vector. *)
Definition back {A} (l : list A) : outcome A :=
  match last_opt l with Some a => Ok a | None => UB end.
Definition pop_back {A} (l : list A) : outcome (list A) :=
  match l with [] => UB | _ => Ok (removelast l) end.
(** [optional::value]. *)
Definition value {A} (o : option A) : outcome A :=
  match o with Some a => Ok a | None => Throw BadOptionalAccess end.
Definition assert_ (b : bool) : outcome unit := if dbg && negb b then AssertFail else Ok tt.
Definition is_empty {A} (l : list A) : bool := match l with [] => true | _ => false end.

(** An action that only uses the local state. *)
Definition local (f : local_state -> outcome local_state) (st : state) : outcome state :=
  l <- f (snd st) ;; Ok (fst st, l).

(** ** Lexical rules *)

Definition in_range (a b c : ascii) : bool :=
  Nat.leb (nat_of_ascii a) (nat_of_ascii c) && Nat.leb (nat_of_ascii c) (nat_of_ascii b).
Definition is_digit (c : ascii) : bool := in_range "0" "9" c.
Definition is_id_first (c : ascii) : bool := in_range "a" "z" c || in_range "A" "Z" c || Ascii.eqb c "_".
Definition is_id_other (c : ascii) : bool := is_id_first c || is_digit c.
(** [ascii::space]: blank, \n, \r, \t, \v, \f. *)
Definition is_space (c : ascii) : bool := Ascii.eqb c " " || in_range (ascii_of_nat 9) (ascii_of_nat 13) c.
Definition among (w : string) (c : ascii) : bool := existsb (Ascii.eqb c) (list_ascii_of_string w).

(** grammar.hpp:14-20. *)
Definition LineComment : rule ascii state := seq (one (Ascii.eqb ";")) (until_any eolf).
Definition Sep : rule ascii state := sor (one is_space) LineComment.
Definition Skip : rule ascii state := star Sep.
Definition EndOfWord : rule ascii state := seq (not_at (one is_id_other)) Skip.

(** [peg::identifier] with its action, actions.hpp:90-97; grammar.hpp:22. *)
Definition identifier : rule ascii state :=
  act (fun w => local (fun l => Ok (with_identifiers (l_identifiers l ++ [string_of_list_ascii w]) l)))
      (seq (one is_id_first) (star (one is_id_other))).
Definition Identifier : rule ascii state := seq identifier EndOfWord.

(** grammar.hpp:25-32; actions of the comparison symbols, actions.hpp:144-170. *)
Definition Symbol_ (s : rule ascii state) : rule ascii state := seq s Skip.
Definition LParen : rule ascii state := Symbol_ (one (Ascii.eqb "(")).
Definition RParen : rule ascii state := Symbol_ (one (Ascii.eqb ")")).
Definition set_comparison (c : cmp_op) : rule ascii state -> rule ascii state :=
  act0 (local (fun l => Ok (with_comparison (Some c) l))).
Definition LtSymbol : rule ascii state := set_comparison LT (Symbol_ (seq (one (Ascii.eqb "<")) (not_at (one (among "<="))))).
Definition LeSymbol : rule ascii state := set_comparison LE (Symbol_ (str "<=")).
Definition GtSymbol : rule ascii state := set_comparison GT (Symbol_ (seq (one (Ascii.eqb ">")) (not_at (one (among ">="))))).
Definition GeSymbol : rule ascii state := set_comparison GE (Symbol_ (str ">=")).

(** grammar.hpp:35-52. *)
Definition Keyword (w : string) : rule ascii state := seq (str w) EndOfWord.
(** Actions of KwTrue and KwFalse, actions.hpp:99-111. *)
Definition set_bool (b : bool) : rule ascii state -> rule ascii state :=
  act0 (local (fun l => Ok (with_primitive (Some (PBool b)) l))).
Definition KwTrue : rule ascii state := set_bool true (Keyword "true").
Definition KwFalse : rule ascii state := set_bool false (Keyword "false").

(** grammar.hpp:55-72.  [apply] gets the text including what Skip matched, and std::stol and
    std::stod stop at the end of the literal; here the action runs on the literal alone, before
    Skip, which cannot fail. *)
Definition decimal_seq : rule ascii state := plus (one is_digit).
Definition exponent : rule ascii state := if_must msg_exponent (one (among "eE")) (seq (opt (one (among "+-"))) (plus (one is_digit))).
(** [std::stol] on decimal digits: out_of_range above LONG_MAX = 2^63 - 1. *)
Definition digit_value (c : ascii) : Z := Z.of_nat (nat_of_ascii c - nat_of_ascii "0").
Definition decimal_value (w : input) : Z := fold_left (fun z c => (10 * z + digit_value c)%Z) w 0%Z.
Definition stol (w : input) : outcome Z :=
  let z := decimal_value w in if Z.leb z (2 ^ 63 - 1) then Ok z else Throw OutOfRange.
(** actions.hpp:126-142. *)
Definition DoubleLiteral : rule ascii state :=
  seq (act (fun w => local (fun l =>
              match stod w with Some d => Ok (with_primitive (Some (PDouble d)) l) | None => Throw OutOfRange end))
           (sor (seq decimal_seq (seq (one (Ascii.eqb ".")) (seq decimal_seq (opt exponent))))
                (seq decimal_seq (seq (opt (one (Ascii.eqb "."))) exponent))))
      Skip.
Definition IntegerLiteral : rule ascii state :=
  seq (act (fun w => local (fun l => z <- stol w ;; Ok (with_primitive (Some (PInt z)) l))) decimal_seq) Skip.

(** grammar.hpp:74 and actions.hpp:113-124. *)
Definition BooleanLiteral : rule ascii state :=
  act0 (local (fun l =>
          match l_primitive l with
          | None => Ok l
          | Some (PBool b) => Ok (with_primitive None (with_result (Some (Const_ b)) l))
          | Some _ => Throw BadVariantAccess
          end))
       (sor KwTrue KwFalse).
(** grammar.hpp:82. *)
Definition Numeral : rule ascii state := sor DoubleLiteral IntegerLiteral.

(** ** Predicates, grammar.hpp:94-99 *)

(** actions.hpp:172-184. *)
Definition set_form (f : predicate_form) : rule ascii state -> rule ascii state :=
  act0 (local (fun l => Ok (with_form (Some f) l))).
Definition PredicateForm : rule ascii state :=
  sor (set_form FormOne (seq Identifier Numeral)) (set_form FormTwo (seq Numeral Identifier)).
Definition flip (c : cmp_op) : cmp_op :=
  match c with LT => GT | LE => GE | GT => LT | GE => LE end.
(** actions.hpp:186-231: comparison_type is reset (200) before it is read again (212). *)
Definition predicate_action (l : local_state) : outcome local_state :=
  if is_empty (l_identifiers l) then Throw (LogicError LE_PredicateNoId) else
  id <- back (l_identifiers l) ;;
  ids <- pop_back (l_identifiers l) ;;
  let l := with_identifiers ids l in
  c <- value (l_comparison l) ;;
  let l := with_comparison None l in
  p <- value (l_primitive l) ;;
  v <- match p with
       | PInt z => Ok (nofZ z)
       | PDouble d => Ok d
       | PBool _ => Throw BadVariantAccess
       end ;;
  let l := with_primitive None l in
  c' <- match l_form l with
        | Some FormTwo => c2 <- value (l_comparison l) ;; Ok (flip c2)
        | _ => Ok c
        end ;;
  let l := with_form None l in
  Ok (with_result (Some (EPred id c' v)) l).
Definition PredicateTerm : rule ascii state :=
  act0 (local predicate_action)
       (if_must msg_PredicateForm (sor LtSymbol (sor GtSymbol (sor LeSymbol GeSymbol))) PredicateForm).

(** ** Operators: actions.hpp:233-380 *)

Definition not_action (l : local_state) : outcome local_state :=
  _ <- assert_ (negb (is_empty (l_terms l))) ;;
  e <- back (l_terms l) ;;
  ts <- pop_back (l_terms l) ;;
  _ <- assert_ (is_empty ts) ;;
  Ok (with_terms ts (with_result (Some (Not_ e)) l)).
(** AndTerm and OrTerm; the vector is moved from, which empties it. *)
Definition nary_action (mk : list (expr F) -> outcome (expr F)) (l : local_state) : outcome local_state :=
  if Nat.ltb (length (l_terms l)) 2 then Throw (ParseError (msg_few_terms (length (l_terms l)))) else
  e <- mk (l_terms l) ;;
  Ok (with_terms [] (with_result (Some e) l)).
(** ImpliesTerm, IffTerm, XorTerm and UntilTerm. *)
Definition binary_action (mk : expr F -> expr F -> outcome (expr F)) (l : local_state) : outcome local_state :=
  _ <- assert_ (Nat.eqb (length (l_terms l)) 2) ;;
  rhs <- back (l_terms l) ;;
  ts <- pop_back (l_terms l) ;;
  lhs <- back ts ;;
  ts <- pop_back ts ;;
  e <- mk lhs rhs ;;
  _ <- assert_ (is_empty ts) ;;
  Ok (with_terms ts (with_result (Some e) l)).
(** AlwaysTerm and EventuallyTerm: no interval can be given (340, 357). *)
Definition unary_action (mk : expr F -> expr F) (l : local_state) : outcome local_state :=
  _ <- assert_ (Nat.eqb (length (l_terms l)) 1) ;;
  e <- back (l_terms l) ;;
  ts <- pop_back (l_terms l) ;;
  _ <- assert_ (is_empty ts) ;;
  Ok (with_terms ts (with_result (Some (mk e)) l)).

(** grammar.hpp:130-158; [n]: bound on the number of operands (and, below, on the depth).
    [if_must<C, R, S>] is [seq<C, must<R>, must<S>>]; an outer [must], which cannot fail then, is left
    in place here and in the commands below. *)
Definition op_rule (m w : string) (tail : rule ascii state) (f : local_state -> outcome local_state) : rule ascii state :=
  act0 (local f) (if_must m (Keyword w) tail).
Definition Expression (n : nat) (Term : rule ascii state) : rule ascii state :=
  sor PredicateTerm
 (sor (op_rule msg_Term "not" Term not_action)
 (sor (op_rule msg_NaryTail "and" (plus_n n Term) (nary_action And_))
 (sor (op_rule msg_NaryTail "or" (plus_n n Term) (nary_action Or_))
 (sor (op_rule msg_BinaryTail "implies" (seq Term Term) (binary_action Implies_))
 (sor (op_rule msg_BinaryTail "iff" (seq Term Term) (binary_action Iff_))
 (sor (op_rule msg_BinaryTail "xor" (seq Term Term) (binary_action Xor_))
 (sor (op_rule msg_Term "always" Term (unary_action Always_))
 (sor (op_rule msg_Term "eventually" Term (unary_action Eventually_))
 (sor (op_rule msg_Term "until" (seq (must msg_Term Term) (must msg_Term Term)) (binary_action (fun a b => Ok (Until_ a b))))
      Term))))))))).

(** ** Terms *)

(** [action<Term>::apply0], actions.hpp:418-448. *)
Definition term_action (st : state) : outcome state :=
  let (g, l) := st in
  match l_result l with
  | Some e => Ok (g, with_result None (with_terms (l_terms l ++ [e]) l))
  | None =>
      match last_opt (l_identifiers l) with
      | Some id =>
          match fmap_find (formulas g) id with
          | Some e => Ok (g, with_identifiers (removelast (l_identifiers l)) (with_terms (l_terms l ++ [e]) l))
          | None => Throw OutOfRange
          end
      | None => Throw (LogicError LE_TermEmpty)
      end
  end.
(** [action<Term>::match], actions.hpp:383-416: a fresh local state, whose terms are appended to
    the terms of the surrounding one. *)
Definition term_match (p : rule ascii state) : rule ascii state := fun i st =>
  '(r, (g, l)) <- p i (fst st, empty_local) ;;
  Ok (r, (g, with_terms (l_terms (snd st) ++ l_terms l) (snd st))).
(** grammar.hpp:160-161. *)
Fixpoint Term (n : nat) : rule ascii state :=
  match n with
  | 0 => fun _ _ => Hang
  | S n' =>
      term_match (act0 term_action
        (sor (if_must msg_TermTail LParen (until_n n RParen (Expression n (Term n')))) (sor BooleanLiteral Identifier)))
  end.

(** ** Commands *)

(** actions.hpp:451-503; [std::map::insert] keeps an existing entry. *)
Definition command_action (kind : string) (get : spec -> fmap) (set : fmap -> spec -> spec) (st : state) : outcome state :=
  let (g, l) := st in
  _ <- assert_ (Nat.eqb (length (l_terms l)) 1) ;;
  _ <- assert_ (negb (is_empty (l_identifiers l))) ;;
  id <- back (l_identifiers l) ;;
  ids <- pop_back (l_identifiers l) ;;
  e <- back (l_terms l) ;;
  ts <- pop_back (l_terms l) ;;
  match fmap_find (get g) id with
  | Some _ => Throw (ParseError (msg_redefinition kind id))
  | None =>
      _ <- assert_ (is_empty ts) ;;
      Ok (set (get g ++ [(id, e)]) g, with_terms ts (with_identifiers ids l))
  end.
(** grammar.hpp:163-164,181-200. *)
Definition Assertion (n : nat) : rule ascii state :=
  act0 (command_action "Assertion" assertions (fun m g => mkSpec (formulas g) m))
       (if_must msg_Term (Keyword "assert") (seq (must msg_Identifier Identifier) (must msg_Term (Term n)))).
Definition DefineFormula (n : nat) : rule ascii state :=
  act0 (command_action "Formula" formulas (fun m g => mkSpec m (assertions g)))
       (if_must msg_Term (Keyword "define-formula") (seq (must msg_Identifier Identifier) (must msg_Term (Term n)))).
Definition Command (n : nat) : rule ascii state := must msg_AllowedCommands (sor (Assertion n) (DefineFormula n)).
Definition AnyCommand (n : nat) : rule ascii state := if_must msg_AnyCommandTail LParen (until_n n RParen (Command n)).
Definition StatementList (n : nat) : rule ascii state := seq Skip (until_n n eof (seq (AnyCommand n) Skip)).
Definition SpecificationFile (n : nat) : rule ascii state := must msg_StatementList (StatementList n).

(** [_parse], parser.cc:21-42, with bound [n] on loops and nesting depth. *)
Definition parse (n : nat) (i : input) : outcome spec :=
  '(r, (g, _)) <- SpecificationFile n i (mkSpec [] [], empty_local) ;;
  match r with Some _ => Ok g | None => Throw (LogicError LE_LocalError) end.
(** [from_string], parser.cc:47-50.  The bound is never reached (C55). *)
Definition from_string (s : string) : outcome spec :=
  let i := list_ascii_of_string s in parse (1 + length i) i.
End Parser.
Arguments primitive : clear implicits.
Arguments local_state : clear implicits.
Arguments fmap : clear implicits.
Arguments spec : clear implicits.
Arguments state : clear implicits.
