(** Properties C51 (the parser part), C55-C62, C78, C96 and C106: the specification parser.  [dbg]: whether
    assert is active; [stod]: the conversion of decimal literals.  Vocabulary: Spec/Text.v (tokens
    and layouts), Spec/Syntax.v (terms and their meaning). *)
From Coq Require Import Ascii.
From Flocq Require Import IEEE754.BinarySingleNaN.
From Verif Require Import Base Num NumB64.
From Verif.Spec Require Import Formula AstSpec Text Syntax Grammar.
From Verif.Model Require Import Ast Peg Parser.
From Verif.Proofs Require Import SpecFacts ParserExamples Accept InlineFacts OrderFacts.
Local Open Scope nat_scope.

(** ** C51.  [constructed] is what C51_two_operands is about. *)
Theorem C51_parsed : forall dbg (stod : list ascii -> option B64) t g x e,
  from_string dbg stod t = Ok g -> In (x, e) (formulas g ++ assertions g) -> constructed e /\ free_of (short 2) e = true.
Proof. exact C51_parser_lemma. Qed.
Print Assumptions C51_parsed.

Example C51_parsed_case : forall dbg, exists g, from_string dbg no_double ex_text = Ok g.
Proof. exact ex_parses. Qed.

(** ** C55.  In builds without assertions; with assertions the process may also abort. *)
Theorem C55_release : forall (stod : list ascii -> option B64) t,
  (exists g, from_string false stod t = Ok g) \/
  (exists e, from_string false stod t = Throw e /\
     ((exists m, e = ParseError m) \/ In e [OutOfRange; LogicError LE_TermEmpty; BadOptionalAccess; InvalidArgument])).
Proof. exact C55_release_lemma. Qed.
Print Assumptions C55_release.

Theorem C55_debug_partial : forall (stod : list ascii -> option B64) t,
  (exists g, from_string true stod t = Ok g) \/
  (exists e, from_string true stod t = Throw e /\
     ((exists m, e = ParseError m) \/ In e [OutOfRange; LogicError LE_TermEmpty; BadOptionalAccess; InvalidArgument])) \/
  from_string true stod t = AssertFail.
Proof. exact C55_debug_lemma. Qed.
Print Assumptions C55_debug_partial.

Theorem C55_assert_refuted : forall stod : list ascii -> option B64,
  from_string true stod "(assert m (not true false))"%string = AssertFail.
Proof. exact C55_witness. Qed.
Print Assumptions C55_assert_refuted.

Example C55_case : from_string false no_double "(assert m (and true ; open"%string = Throw (ParseError "expected at least 2 terms, got 1"%string) /\ exists g, from_string false no_double ex_text = Ok g.
Proof. split; [reflexivity|apply ex_parses]. Qed.

(** ** C56.  Every text of a specification gives its meaning ... *)
Theorem C56_meaning : forall dbg (stod : list ascii -> option B64) cs t,
  all_leaves ref_ok cs = true -> all_leaves supported cs = true -> spec_text cs t ->
  omap (fun g => (formulas g, assertions g)) (from_string dbg stod t) = spec_value stod swapped no_empty [] [] cs.
Proof. exact C56_lemma. Qed.
Print Assumptions C56_meaning.

(** ... in particular written out formulas [ds] are read back. *)
Theorem C56_roundtrip : forall dbg (stod : list ascii -> option B64) cs ds t,
  Forall2 (writes_command stod) cs ds ->
  NoDup (map fst (named true ds)) -> NoDup (map fst (named false ds)) -> spec_text cs t ->
  from_string dbg stod t = Ok (mkSpec (named true ds) (named false ds)).
Proof. exact C56_written. Qed.
Print Assumptions C56_roundtrip.

Example C56_case : all_leaves ref_ok ex_cs = true /\ all_leaves supported ex_cs = true /\ spec_text ex_cs ex_text /\
  exists g, from_string false no_double ex_text = Ok g.
Proof. exact C56_case_lemma. Qed.
Example C56_roundtrip_case : exists cs ds txt, Forall2 (writes_command no_double) cs ds /\
  NoDup (map fst (named true ds)) /\ NoDup (map fst (named false ds)) /\ spec_text cs txt /\
  ds = [(false, ("m"%string, EUntil (EOr [EConst true; ENot ex_pred]) ex_pred interval_default))].
Proof. exact C56_written_case. Qed.

(** ** C57 *)
Theorem C57_redefinition : forall dbg (stod : list ascii -> option B64) cs t,
  all_leaves ref_ok cs = true -> spec_text cs t ->
  ~ NoDup (def_names cs) \/ ~ NoDup (assert_names cs) -> exists e, from_string dbg stod t = Throw e.
Proof. exact C57_redefined. Qed.
Print Assumptions C57_redefinition.

Theorem C57_single : forall dbg (stod : list ascii -> option B64) t g, from_string dbg stod t = Ok g ->
  NoDup (map fst (formulas g)) /\ NoDup (map fst (assertions g)).
Proof. exact C57_unique. Qed.
Print Assumptions C57_single.

Theorem C57_all_names : forall dbg (stod : list ascii -> option B64) cs t g,
  all_leaves ref_ok cs = true -> spec_text cs t -> from_string dbg stod t = Ok g ->
  map fst (formulas g) = def_names cs /\ map fst (assertions g) = assert_names cs.
Proof. exact C57_names. Qed.
Print Assumptions C57_all_names.

Example C57_case : exists txt, spec_text [Assert "m" (TBool true); Assert "m" (TBool false)] txt /\
  ~ NoDup (assert_names [Assert "m" (TBool true); Assert "m" (TBool false)]).
Proof. exact C57_case_lemma. Qed.

(** ** C58 *)
Theorem C58_undefined_throws : forall dbg (stod : list ascii -> option B64) pre c post t y,
  all_leaves ref_ok (pre ++ c :: post) = true -> spec_text (pre ++ c :: post) t ->
  In y (refs (body c)) -> ~ In y (def_names pre) -> exists e, from_string dbg stod t = Throw e.
Proof. exact C58_undefined. Qed.
Print Assumptions C58_undefined_throws.

Theorem C58_resolves : forall dbg (stod : list ascii -> option B64) pre c post t g,
  all_leaves ref_ok (pre ++ c :: post) = true -> all_leaves supported (pre ++ c :: post) = true ->
  spec_text (pre ++ c :: post) t -> from_string dbg stod t = Ok g ->
  exists e, term_value stod swapped no_empty (lookup (formulas g)) (body c) = Ok e /\
            lookup (if is_def c then formulas g else assertions g) (name c) = Some e.
Proof. exact C58_resolved. Qed.
Print Assumptions C58_resolves.

Example C58_case : exists txt, spec_text ([Def "a" (TBool true)] ++ [Assert "m" (TNot (TRef "b"))]) txt /\
  In "b"%string (refs (body (Assert "m" (TNot (TRef "b"))))) /\ ~ In "b"%string (def_names [Def "a" (TBool true)]).
Proof. exact C58_case_lemma. Qed.

(** ** C59.  The first form is read correctly, the second form never. *)
Theorem C59_first_partial : forall dbg (stod : list ascii -> option B64) x op y w t,
  spec_text [Assert x (TPred op y w)] t ->
  omap (fun g => (formulas g, assertions g)) (from_string dbg stod t) =
  (v <- literal_value stod w ;; Ok ([], [(x, EPred y op v)])).
Proof. exact C59_one. Qed.
Print Assumptions C59_first_partial.

Theorem C59_second_refuted : forall dbg (stod : list ascii -> option B64) x op y w t v,
  spec_text [Assert x (TPred2 op w y)] t -> literal_value stod w = Ok v -> from_string dbg stod t = Throw BadOptionalAccess.
Proof. exact C59_two. Qed.
Print Assumptions C59_second_refuted.

Example C59_case : exists txt, spec_text [Assert "m" (TPred LE "x" (chars "12"))] txt /\ literal_value no_double (chars "12") = Ok (nofZ 12).
Proof. exact C59_case_lemma. Qed.
Example C59_second_case : exists txt, spec_text [Assert "m" (TPred2 LE (chars "12") "x")] txt.
Proof. exact C59_two_case. Qed.

(** ** C60.  An empty term anywhere is rejected, by a logic_error instead of a parse_error when it
    is the whole assertion; so is a predicate of the second form. *)
Theorem C60_empty_partial : forall dbg (stod : list ascii -> option B64) cs t,
  all_leaves ref_ok cs = true -> spec_text cs t -> all_leaves supported cs = false -> exists e, from_string dbg stod t = Throw e.
Proof. exact unsupported_throws. Qed.
Print Assumptions C60_empty_partial.

Theorem C60_empty_refuted : forall dbg (stod : list ascii -> option B64) x t,
  spec_text [Assert x TEmpty] t -> from_string dbg stod t = Throw (LogicError LE_TermEmpty).
Proof. exact C60_empty. Qed.
Print Assumptions C60_empty_refuted.

(** (not t u) is not t, or aborts in builds with assertions; [u] is not a bare reference. *)
Theorem C60_two_operands_refuted : forall dbg (stod : list ascii -> option B64) x t u txt e f,
  leaves ref_ok t = true -> leaves ref_ok u = true -> bare u = false ->
  term_value stod swapped no_empty (fun _ => None) t = Ok e -> leaves supported t = true ->
  term_value stod swapped no_empty (fun _ => None) u = Ok f -> leaves supported u = true ->
  text_of (not_two x t u) (chars txt) ->
  from_string dbg stod txt = if dbg then AssertFail else Ok (mkSpec [] [(x, Not_ e)]).
Proof. exact C60_two_lemma. Qed.
Print Assumptions C60_two_operands_refuted.

(** Several operators in one pair of parentheses. *)
Theorem C60_several_refuted : forall (stod : list ascii -> option B64) dbg,
  from_string dbg stod "(assert m (not true always false))" = Ok (mkSpec [] [("m"%string, EAlways (EConst false) interval_default)]).
Proof. exact C60_several_lemma. Qed.
Print Assumptions C60_several_refuted.
Theorem C60_dropped_refuted : forall (stod : list ascii -> option B64) dbg,
  from_string dbg stod "(assert m (and true false < x 1))" = Ok (mkSpec [] [("m"%string, EPred "x" LT (nofZ 1))]).
Proof. exact C60_dropped_lemma. Qed.
Print Assumptions C60_dropped_refuted.
Theorem C60_nested_refuted : forall (stod : list ascii -> option B64) dbg,
  from_string dbg stod "(assert m (and (not true false)))" = Ok (mkSpec [] [("m"%string, EAnd [EConst false; EConst false])]).
Proof. exact C60_nested_lemma. Qed.
Print Assumptions C60_nested_refuted.

Example C60_case : exists txt, spec_text [Assert "m" (TAnd [TBool true; TEmpty])] txt /\ all_leaves supported [Assert "m" (TAnd [TBool true; TEmpty])] = false.
Proof. exact C60_empty_case. Qed.
Example C60_two_operands_case : exists txt, text_of (not_two "m" (TBool true) (TBool false)) (chars txt).
Proof. exact C60_two_case. Qed.

(** ** C61 *)
Theorem C61_unbounded : forall dbg (stod : list ascii -> option B64) t g x e,
  from_string dbg stod t = Ok g -> In (x, e) (formulas g ++ assertions g) -> forall s, In s (subs e) ->
  match s with EAlways _ i | EEventually _ i | EUntil _ _ i => i = mkInterval (IDbl nzero) (IDbl ninf) | _ => True end.
Proof. exact C61_lemma. Qed.
Print Assumptions C61_unbounded.

Example C61_case : exists g x e, from_string true no_double ex_text = Ok g /\ In (x, e) (formulas g ++ assertions g) /\
  exists p, In (EAlways p interval_default) (subs e).
Proof. exact C61_case_lemma. Qed.

(** ** C62.  [ts] may be any tokens, of a specification or not. *)
Theorem C62_layout : forall dbg (stod : list ascii -> option B64) ts t1 t2,
  text_of ts (chars t1) -> text_of ts (chars t2) -> from_string dbg stod t1 = from_string dbg stod t2.
Proof. exact TokenParser.C62_lemma. Qed.
Print Assumptions C62_layout.

Example C62_case : text_of (spec_tokens ex_cs) (chars ex_text) /\ text_of (spec_tokens ex_cs) (chars ex_text2) /\ ex_text <> ex_text2.
Proof. split; [exact ex_text_ok|]. split; [exact ex_text2_ok|]. discriminate. Qed.

(** ** C78.  [toks] derives from the grammar: nesting is balanced, every reference is to an earlier
    definition, no name is defined or asserted twice; these names are those of the result. *)
Theorem C78_grammar : forall dbg (stod : list ascii -> option B64) t g, from_string dbg stod t = Ok g ->
  exists gp i toks, chars t = gp ++ i /\ skipped gp i /\ lay toks i [] /\
  g_file [] [] toks (map fst (formulas g)) (map fst (assertions g)).
Proof. exact accepted. Qed.
Print Assumptions C78_grammar.
Theorem C78_rejected : forall (stod : list ascii -> option B64) t,
  ~ (exists gp i toks d a, chars t = gp ++ i /\ skipped gp i /\ lay toks i [] /\ g_file [] [] toks d a) ->
  exists e, from_string false stod t = Throw e.
Proof. exact rejected. Qed.
Print Assumptions C78_rejected.

Example C78_case : exists g, from_string true no_double ex_text = Ok g.
Proof. exact (ex_parses true). Qed.
(** An unclosed parenthesis. *)
Example C78_rejected_case :
  ~ (exists gp i toks d a, chars "(" = gp ++ i /\ skipped gp i /\ lay toks i [] /\ g_file [] [] toks d a).
Proof. exact C78_open_case. Qed.

(** ** C96.  Also the same exception, if there is one. *)
Theorem C96_inline : forall dbg (stod : list ascii -> option B64) pre d u post t t', all_leaves ref_ok (pre ++ Def d u :: post) = true ->
  spec_text (pre ++ Def d u :: post) t -> spec_text (pre ++ Def d u :: map (inline_command d u) post) t' ->
  from_string dbg stod t' = from_string dbg stod t.
Proof. exact (fun dbg stod => C96_lemma stod dbg). Qed.
Print Assumptions C96_inline.

Example C96_case : all_leaves ref_ok ([] ++ Def "a"%string c96_u :: c96_post) = true /\ spec_text ([] ++ Def "a"%string c96_u :: c96_post) ex_text /\
  spec_text ([] ++ Def "a"%string c96_u :: map (inline_command "a"%string c96_u) c96_post) c96_text /\ exists g, from_string false no_double ex_text = Ok g.
Proof. exact C96_case_lemma. Qed.

(** ** C106.  [cs']: some of the commands of [cs], in any order that defines before use. *)
Theorem C106_order : forall dbg (stod : list ascii -> option B64) cs t g cs' t',
  all_leaves ref_ok cs = true -> spec_text cs t -> from_string dbg stod t = Ok g ->
  spec_text cs' t' -> incl cs' cs -> NoDup (def_names cs') -> NoDup (assert_names cs') -> ordered cs' ->
  exists g', from_string dbg stod t' = Ok g' /\
    (forall x, In x (def_names cs') -> lookup (formulas g') x = lookup (formulas g) x /\ lookup (formulas g) x <> None) /\
    (forall x, ~ In x (def_names cs') -> lookup (formulas g') x = None) /\
    (forall x, In x (assert_names cs') -> lookup (assertions g') x = lookup (assertions g) x /\ lookup (assertions g) x <> None) /\
    (forall x, ~ In x (assert_names cs') -> lookup (assertions g') x = None).
Proof. exact (fun dbg stod => C106_lemma stod dbg). Qed.
Print Assumptions C106_order.

Example C106_case : all_leaves ref_ok c106_cs = true /\ spec_text c106_cs c106_text /\ (exists g, from_string false no_double c106_text = Ok g) /\
  spec_text c106_cs' c106_text' /\ incl c106_cs' c106_cs /\ NoDup (def_names c106_cs') /\ NoDup (assert_names c106_cs') /\ ordered c106_cs'.
Proof. exact C106_case_lemma. Qed.
