(** Vocabulary for C104: tokens at the place of a term that no term starts with, and the message
    for them. *)
From Coq Require Import Ascii.
From Verif Require Import Base Num.
From Verif.Model Require Import Ast.
From Verif.Spec Require Import Text Syntax.
Local Open Scope string_scope.
Local Open Scope list_scope.

(** No term starts here; neither a term, nor a comparison, nor a closing parenthesis. *)
Definition no_term (ts : list token) : Prop :=
  match ts with LPar :: _ | Word _ :: _ | Define :: _ => False | _ => True end.
Definition no_part (ts : list token) : Prop :=
  no_term ts /\ match ts with Cmp _ :: _ | RPar :: _ => False | _ => True end.
(** Operators by the number of their operands. *)
Definition one_operand : list string := ["not"; "always"; "eventually"].
Definition two_operands : list string := ["implies"; "iff"; "xor"; "until"].
Definition many_operands : list string := ["and"; "or"].
Definition operator (w : string) : Prop := In w (one_operand ++ two_operands ++ many_operands).
(** The message of an operator without an operand. *)
Definition missing (w : string) : string :=
  if existsb (String.eqb w) many_operands then "expected a list of at least 2 Terms"
  else if existsb (String.eqb w) ["implies"; "iff"; "xor"] then "expected a list of at exactly 2 Terms"
  else "expected a Term".
(** Terms in parentheses. *)
Definition compound (t : term) : Prop := match t with TBool _ | TRef _ => False | _ => True end.

Section Fails.
Context {F : Type} `{NF : Num F}.
Variable stod : list ascii -> option F.
Variable env : string -> option (expr F).

Definition operand (t : term) : Prop :=
  leaves ref_ok t = true /\ leaves supported t = true /\ exists e, term_value stod swapped no_empty env t = Ok e.
(** Not an identifier and a number, in either order; the number, if one is first, is in range. *)
Definition no_form (ts : list token) : Prop :=
  match ts with
  | Word _ :: Number _ :: _ | Define :: _ | Number _ :: Word _ :: _ | Number _ :: Define :: _ => False
  | Number w :: _ => exists v, literal_value stod w = Ok v
  | _ => True
  end.

(** [fails ts m]: tokens [ts] at the place of a term, of which the first that does not fit is
    reported with [m]. *)
Inductive fails : list token -> string -> Prop :=
| F_start ts : no_part ts -> fails (LPar :: ts) "expected an expression followed by a closing parenthesis ')'"
| F_form op ts : no_form ts -> fails (LPar :: Cmp op :: ts) "expected an identifier followed by a numeral or vice-versa"
| F_first w ts : operator w -> no_term ts -> fails (LPar :: Word w :: ts) (missing w)
| F_in_first w ts m : operator w -> fails ts m -> fails (LPar :: Word w :: ts) m
| F_second w t ts : In w two_operands -> operand t -> no_term ts -> fails (LPar :: Word w :: tokens t ++ ts) (missing w)
| F_in_second w t ts m : In w two_operands -> operand t -> fails ts m -> fails (LPar :: Word w :: tokens t ++ ts) m
| F_few w t ts : In w many_operands -> operand t -> no_term ts ->
    fails (LPar :: Word w :: tokens t ++ ts) "expected at least 2 terms, got 1"
| F_in_later w us ts m : In w many_operands -> Forall operand us -> fails ts m ->
    fails (LPar :: Word w :: flat_map tokens us ++ ts) m
| F_end t ts : compound t -> operand t -> no_part ts ->
    fails (removelast (tokens t) ++ ts) "expected an expression followed by a closing parenthesis ')'".
End Fails.
