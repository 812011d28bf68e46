(** Properties C100-C104 and C57_message: what the parser reports for a text it rejects.  [dbg]:
    whether assert is active; [stod]: the conversion of decimal literals.  Vocabulary:
    Spec/Messages.v, Spec/TermErrors.v, Spec/Text.v, Spec/Syntax.v. *)
From Coq Require Import Ascii.
From Flocq Require Import IEEE754.BinarySingleNaN.
From Verif Require Import Base Num NumB64.
From Verif.Spec Require Import Text Syntax Messages TermErrors.
From Verif.Model Require Import Parser.
From Verif.Proofs Require Import ParserExamples ErrorFacts TermErrorFacts.
Local Open Scope nat_scope.

(** ** C57.  [rest]: whatever follows the command that repeats a name. *)
Theorem C57_message : forall dbg (stod : list ascii -> option B64) cs c rest t d a e,
  all_leaves ref_ok (cs ++ [c]) = true -> all_leaves supported (cs ++ [c]) = true ->
  text_of (spec_tokens (cs ++ [c]) ++ rest) (chars t) ->
  spec_value stod swapped no_empty [] [] cs = Ok (d, a) -> term_value stod swapped no_empty (lookup d) (body c) = Ok e ->
  In (name c) (if is_def c then def_names cs else assert_names cs) ->
  from_string dbg stod t = Throw (ParseError (redefinition (if is_def c then "Formula" else "Assertion") (name c))).
Proof. exact C57_again. Qed.
Print Assumptions C57_message.

Example C57_message_ok : forall stod : list ascii -> option B64, exists c txt d a e,
  all_leaves ref_ok (err_cs ++ [c]) = true /\ all_leaves supported (err_cs ++ [c]) = true /\
  text_of (spec_tokens (err_cs ++ [c]) ++ [Word "x"]) (chars txt) /\
  spec_value stod swapped no_empty [] [] err_cs = Ok (d, a) /\ term_value stod swapped no_empty (lookup d) (body c) = Ok e /\
  In (name c) (if is_def c then def_names err_cs else assert_names err_cs).
Proof. exact C57_message_case. Qed.

(** ** C100.  The messages are those of [reported], and all of them occur. *)
Theorem C100_messages : forall dbg (stod : list ascii -> option B64) m,
  (exists t, from_string dbg stod t = Throw (ParseError m)) <-> reported m.
Proof. exact C100_iff. Qed.
Print Assumptions C100_messages.

Example C100_case : from_string false no_double "(assert a_1 true)(assert a_1 false)"%string =
  Throw (ParseError "possible redefinition of Assertion with id: ""a_1""").
Proof. reflexivity. Qed.

(** ** C101.  The message for a command that is not closed is never reported ... *)
Theorem C101_unclosed_refuted : forall dbg (stod : list ascii -> option B64) t,
  from_string dbg stod t <> Throw (ParseError unclosed).
Proof. exact C101_lemma. Qed.
Print Assumptions C101_unclosed_refuted.

(** ... but this one, whatever follows, if not a closing parenthesis or command. *)
Theorem C101_reported : forall dbg (stod : list ascii -> option B64) cs c rest t r,
  all_leaves ref_ok (cs ++ [c]) = true -> all_leaves supported (cs ++ [c]) = true ->
  text_of (spec_tokens cs ++ removelast (command_tokens c) ++ rest) (chars t) -> no_command rest ->
  spec_value stod swapped no_empty [] [] (cs ++ [c]) = Ok r ->
  from_string dbg stod t = Throw (ParseError "top-level command does not match list of known commands").
Proof. exact C101_open. Qed.
Print Assumptions C101_reported.

Example C101_case : forall stod : list ascii -> option B64, exists c txt r,
  all_leaves ref_ok (err_cs ++ [c]) = true /\ all_leaves supported (err_cs ++ [c]) = true /\
  text_of (spec_tokens err_cs ++ removelast (command_tokens c) ++ []) (chars txt) /\ no_command [] /\
  spec_value stod swapped no_empty [] [] (err_cs ++ [c]) = Ok r.
Proof. exact C101_case_lemma. Qed.

(** ** C102.  [rest]: tokens that are not a command. *)
Theorem C102_not_a_command : forall dbg (stod : list ascii -> option B64) cs rest m t r,
  all_leaves ref_ok cs = true -> all_leaves supported cs = true ->
  text_of (spec_tokens cs ++ rest) (chars t) -> broken rest m ->
  spec_value stod swapped no_empty [] [] cs = Ok r -> from_string dbg stod t = Throw (ParseError m).
Proof. exact C102_rest. Qed.
Print Assumptions C102_not_a_command.

Example C102_case : all_leaves ref_ok err_cs = true /\ all_leaves supported err_cs = true /\
  (exists r, spec_value no_double swapped no_empty [] [] err_cs = Ok r) /\
  forall m, In m ["invalid top-level item"; "top-level command does not match list of known commands"; "expected an identifier"; "expected a Term"]%string ->
  exists rest txt, broken rest m /\ text_of (spec_tokens err_cs ++ rest) (chars txt).
Proof. exact (conj eq_refl (conj eq_refl (conj (err_value no_double) C102_case_lemma))). Qed.

(** ** C103.  [rest]: any tokens. *)
Theorem C103_first_error : forall dbg (stod : list ascii -> option B64) cs rest t e,
  all_leaves ref_ok cs = true -> all_leaves supported cs = true ->
  text_of (spec_tokens cs ++ rest) (chars t) ->
  spec_value stod swapped no_empty [] [] cs = Throw e -> from_string dbg stod t = Throw e.
Proof. exact C103_first. Qed.
Print Assumptions C103_first_error.

Example C103_case : forall stod : list ascii -> option B64, exists c txt,
  all_leaves ref_ok (err_cs ++ [c]) = true /\ all_leaves supported (err_cs ++ [c]) = true /\
  text_of (spec_tokens (err_cs ++ [c]) ++ [RPar; LPar]) (chars txt) /\
  spec_value stod swapped no_empty [] [] (err_cs ++ [c]) = Throw OutOfRange.
Proof. exact C103_case_lemma. Qed.

(** ** C104.  [ts]: the tokens from the term of a command on. *)
Theorem C104_in_term : forall dbg (stod : list ascii -> option B64) cs k x ts m t d a,
  all_leaves ref_ok cs = true -> all_leaves supported cs = true ->
  text_of (spec_tokens cs ++ LPar :: k :: Word x :: ts) (chars t) -> command_word k ->
  spec_value stod swapped no_empty [] [] cs = Ok (d, a) -> fails stod (lookup d) ts m ->
  from_string dbg stod t = Throw (ParseError m).
Proof. exact C104_lemma. Qed.
Print Assumptions C104_in_term.

Example C104_case : forall stod : list ascii -> option B64, all_leaves ref_ok err_cs = true /\ all_leaves supported err_cs = true /\ command_word (Word "assert") /\
  exists d a, spec_value stod swapped no_empty [] [] err_cs = Ok (d, a) /\
  forall m, In m ["expected an expression followed by a closing parenthesis ')'"; "expected an identifier followed by a numeral or vice-versa";
                  "expected a Term"; "expected a list of at exactly 2 Terms"; "expected a list of at least 2 Terms"; "expected at least 2 terms, got 1"]%string ->
  exists ts txt, fails stod (lookup d) ts m /\ text_of (spec_tokens err_cs ++ LPar :: Word "assert" :: Word "m" :: ts) (chars txt).
Proof. exact (fun stod => conj eq_refl (conj eq_refl (conj (or_intror eq_refl) (C104_case_lemma stod)))). Qed.
