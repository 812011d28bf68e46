(** The grammar of specification files (grammar.hpp:94-200), on tokens, and texts read as
    tokens.  More liberal than Spec/Syntax.v: several operators may share a pair of parentheses. *)
From Coq Require Import Ascii.
From Verif Require Import Base.
From Verif.Model Require Import Ast.
From Verif.Spec Require Import Text.
Local Open Scope nat_scope.

Section Terms.
(** Names of the formulas defined so far. *)
Variable defs : list string.
Inductive g_term : list token -> Prop :=
| G_word w : w = "true"%string \/ w = "false"%string \/ In w defs -> g_term [Word w]
| G_list e es : g_expr e -> g_exprs es -> g_term (LPar :: (e ++ es) ++ [RPar])
with g_exprs : list token -> Prop :=
| G_none : g_exprs []
| G_more e es : g_expr e -> g_exprs es -> g_exprs (e ++ es)
with g_expr : list token -> Prop :=
| G_pred op x w : g_expr [Cmp op; Word x; Number w]
| G_one w t : In w ["not"; "always"; "eventually"]%string -> g_term t -> g_expr (Word w :: t)
| G_two w t u : In w ["implies"; "iff"; "xor"; "until"]%string -> g_term t -> g_term u -> g_expr (Word w :: t ++ u)
| G_many w t ts : In w ["and"; "or"]%string -> g_term t -> g_terms ts -> g_expr (Word w :: t ++ ts)
| G_bare t : g_term t -> g_expr t
with g_terms : list token -> Prop :=
| G_nil : g_terms []
| G_cons t ts : g_term t -> g_terms ts -> g_terms (t ++ ts).
End Terms.

(** [g_commands d a ts d' a']: commands after which the names [d] of definitions and [a] of
    assertions have become [d'] and [a'].  No name is used twice; references are to earlier
    definitions. *)
Inductive g_commands : list string -> list string -> list token -> list string -> list string -> Prop :=
| G_end d a : g_commands d a [] d a
| G_define d a x t ts d' a' : g_term d t -> ~ In x d -> g_commands (d ++ [x]) a ts d' a' ->
    g_commands d a (Define :: Word x :: t ++ ts) d' a'
| G_assert d a x t ts d' a' : g_term d t -> ~ In x a -> g_commands d (a ++ [x]) ts d' a' ->
    g_commands d a (Word "assert" :: Word x :: t ++ ts) d' a'.
(** Any number of pairs of parentheses with any number of commands each. *)
Inductive g_file : list string -> list string -> list token -> list string -> list string -> Prop :=
| G_empty d a : g_file d a [] d a
| G_group d a cs ts d1 a1 d' a' : g_commands d a cs d1 a1 -> g_file d1 a1 ts d' a' ->
    g_file d a (LPar :: cs ++ RPar :: ts) d' a'.

(** ** Texts *)
(** [g] is skipped before [i]. *)
Definition skipped (g i : list ascii) : Prop := gap g \/ (last_gap g /\ i = []).
Definition alnum_first (i : list ascii) : bool := match i with c :: _ => letter c || digit c | [] => false end.
(** [lay ts i j]: [i] is the tokens [ts], each followed by white space and comments, and then [j].
    No letter or digit follows a word immediately. *)
Inductive lay : list token -> list ascii -> list ascii -> Prop :=
| lay_nil j : lay [] j j
| lay_cons t ts g i j : token_ok t -> t <> Bad -> skipped g i ->
    match t with Word _ | Define => alnum_first (g ++ i) = false | _ => True end ->
    lay ts i j -> lay (t :: ts) (token_text t ++ g ++ i) j.
