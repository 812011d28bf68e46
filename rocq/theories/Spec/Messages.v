(** Vocabulary for C55 and C100-C103: the messages of parse errors, and what they are about. *)
From Coq Require Import Ascii.
From Verif Require Import Base.
From Verif.Spec Require Import Text.
Local Open Scope string_scope.

(** Messages of the rules of the grammar. *)
Definition rule_messages : list string :=
  [ "expected an identifier";
    "expected some (signed) number after exponent";
    "expected an identifier followed by a numeral or vice-versa";
    "expected a list of at least 2 Terms";
    "expected a list of at exactly 2 Terms";
    "expected an expression followed by a closing parenthesis ')'";
    "expected a Term";
    "top-level command does not match list of known commands";
    "invalid top-level item" ].
(** The message meant for a command that is not closed. *)
Definition unclosed : string := "expected (<command> ...). Maybe you have an unclosed S-expression command.".
(** The messages with which the parser rejects a text. *)
Definition redefinition (kind x : string) : string := "possible redefinition of " ++ kind ++ " with id: """ ++ x ++ """".
Definition reported (m : string) : Prop :=
  In m rule_messages \/ m = "expected at least 2 terms, got 1" \/
  exists x, is_word x /\ (m = redefinition "Formula" x \/ m = redefinition "Assertion" x).

(** Tokens at the place of a command that no command starts with, and the message for them. *)
Definition command_word (t : token) : Prop := t = Define \/ t = Word "assert".
(** No closing parenthesis and no command; no text has the word of the last condition. *)
Definition no_command (ts : list token) : Prop :=
  match ts with t :: _ => t <> RPar /\ ~ command_word t /\ t <> Word "define-formula" | [] => True end.
Inductive broken : list token -> string -> Prop :=
| B_item t ts : t <> LPar -> broken (t :: ts) "invalid top-level item"
| B_command ts : no_command ts ->
    broken (LPar :: ts) "top-level command does not match list of known commands"
| B_name k ts : command_word k -> match ts with Word _ :: _ | Define :: _ => False | _ => True end ->
    broken (LPar :: k :: ts) "expected an identifier"
| B_term k x ts : command_word k -> match ts with LPar :: _ | Word _ :: _ | Define :: _ => False | _ => True end ->
    broken (LPar :: k :: Word x :: ts) "expected a Term".
