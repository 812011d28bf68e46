(** Properties C110-C112: the numbers that the texts of specifications write.  [dbg]: whether assert
    is active; [stod]: the conversion of decimal literals.  Vocabulary: Spec/Numerals.v, Spec/Text.v,
    Spec/Syntax.v. *)
From Coq Require Import Ascii Reals.
From Flocq Require Import Core.Core IEEE754.BinarySingleNaN.
From Verif Require Import Base Num NumB64.
From Verif.Model Require Import Ast Parser Stod.
From Verif.Proofs Require Import NumeralFacts.
From Verif.Spec Require Import Formula Text Syntax Rounding Numerals.
Local Open Scope R_scope.

(** ** C110 *)
Theorem C110_nearest : forall dbg stod x op y w r t, correct_stod stod -> numeral w r -> spec_text [Assert x (TPred op y w)] t ->
  ((~ tiny r /\ ~ huge r /\ (integer w -> r < IZR (2 ^ 63))) ->
    exists v, nearest r v /\ from_string dbg stod t = Ok (mkSpec [] [(x, EPred y op v)])) /\
  (huge r \/ (integer w /\ IZR (2 ^ 63) <= r) -> from_string dbg stod t = Throw OutOfRange).
Proof. exact C110_lemma. Qed.
Print Assumptions C110_nearest.

Theorem C110_constants : forall dbg stod t g x e, correct_stod stod -> from_string dbg stod t = Ok g -> In (x, e) (formulas g ++ assertions g) ->
  forall y op v, In (EPred y op v) (subs e) -> exists w r, numeral w r /\ nearest r v.
Proof. exact C110_constants_lemma. Qed.
Print Assumptions C110_constants.

(** The modelled library function is such a conversion. *)
Theorem C110_stod : correct_stod stod64.
Proof. exact stod64_correct. Qed.
Print Assumptions C110_stod.

Example C110_case : correct_stod stod64 /\ numeral (chars "1.5e3") 1500 /\ spec_text [Assert "m" (TPred GT "x" (chars "1.5e3"))] (one_text "1.5e3") /\
  (~ tiny 1500 /\ ~ huge 1500 /\ (integer (chars "1.5e3") -> 1500 < IZR (2 ^ 63))) /\
  numeral (chars two63) (IZR (2 ^ 63)) /\ spec_text [Assert "m" (TPred GT "x" (chars two63))] (one_text two63) /\ integer (chars two63).
Proof. exact C110_case_lemma. Qed.

(** ** C111 *)
Theorem C111_spelling_partial : forall dbg stod cs cs' t t', correct_stod stod -> all_leaves ref_ok cs = true -> Forall2 alike_command cs cs' ->
  spec_text cs t -> spec_text cs' t' ->
  (from_string dbg stod t = from_string dbg stod t' \/ from_string dbg stod t = Throw OutOfRange \/ from_string dbg stod t' = Throw OutOfRange) /\
  (Forall ordinary (flat_map (fun c => numerals (body c)) (cs ++ cs')) -> from_string dbg stod t = from_string dbg stod t').
Proof. exact C111_lemma. Qed.
Print Assumptions C111_spelling_partial.

Theorem C111_refuted : exists cs cs' t t', Forall2 alike_command cs cs' /\ all_leaves ref_ok cs = true /\ spec_text cs t /\ spec_text cs' t' /\
  forall dbg stod, correct_stod stod -> from_string dbg stod t = Throw OutOfRange /\ exists g, from_string dbg stod t' = Ok g.
Proof. exact C111_refuted_lemma. Qed.
Print Assumptions C111_refuted.

Example C111_case : correct_stod stod64 /\ exists cs cs' t t', cs <> cs' /\ Forall2 alike_command cs cs' /\ all_leaves ref_ok cs = true /\
  spec_text cs t /\ spec_text cs' t' /\ Forall ordinary (flat_map (fun c => numerals (body c)) (cs ++ cs')).
Proof. exact C111_case_lemma. Qed.

(** ** C112.  No text of a specification gives a negative constant. *)
Theorem C112_refuted : forall dbg stod t g x e, correct_stod stod -> from_string dbg stod t = Ok g -> In (x, e) (formulas g ++ assertions g) ->
  forall y op v, In (EPred y op v) (subs e) -> finite v = true /\ Bsign v = false /\ 0 <= B2R v.
Proof. exact C112_lemma. Qed.
Print Assumptions C112_refuted.

Theorem C112_minus_refuted : forall dbg (stod : list ascii -> option B64),
  from_string dbg stod "(assert m (> x -1))" = Throw (ParseError "expected an identifier followed by a numeral or vice-versa").
Proof. exact C112_case_lemma. Qed.
Print Assumptions C112_minus_refuted.

Example C112_case : correct_stod stod64 /\ exists v g, from_string true stod64 (one_text "1500") = Ok g /\ assertions g = [("m"%string, EPred "x" GT v)].
Proof. exact C112_parsed_case. Qed.
