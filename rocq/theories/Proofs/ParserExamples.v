(** Terms the grammar should reject (C60), concrete texts and witnesses for C51, C55-C62. *)
From Coq Require Import Ascii.
From Flocq Require Import IEEE754.BinarySingleNaN.
From Verif Require Import Base Num NumB64.
From Verif.Spec Require Import Formula AstSpec Text Syntax.
From Verif.Model Require Import Ast Peg Parser.
From Verif.Proofs Require Import PegFacts ParserSafe TokenSim TokenParser TokenEval SpecFacts.
Local Open Scope nat_scope.

(** ** Two operands of not *)
Section Two.
Context {F : Type} `{NF : Num F}.
Variable dbg : bool.
Variable stod : input -> option F.
Notation st := (state F).
Notation fresh := (@empty_local F).
Notation value_of := (term_value stod code_two code_empty).

Definition bare (t : term) : bool := match t with TRef _ => true | _ => false end.
Lemma expr_paren n T ts (s : st) : tExpression dbg stod n T (LPar :: ts) s = T (LPar :: ts) s.
Proof. unfold tExpression. reflexivity. Qed.
Lemma expr_term n T u rest (s : st) : bare u = false -> tExpression dbg stod n T (tokens u ++ rest) s = T (tokens u ++ rest) s.
Proof. intros B. destruct u; try discriminate; try apply expr_paren. cbn [tokens app]. rewrite expr_word. destruct b; reflexivity. Qed.
Lemma tokens_head u : exists a ts, tokens u = a :: ts /\ a <> RPar.
Proof. destruct u; cbn; try destruct b; unfold app_op; eexists _, _; (split; [reflexivity|discriminate]). Qed.

Definition not_two (x : string) (t u : term) : list token :=
  LPar :: Word "assert" :: Word x :: LPar :: Word "not" :: tokens t ++ tokens u ++ [RPar; RPar].
Lemma not_two_parses x t u txt e f : leaves ref_ok t = true -> leaves ref_ok u = true -> bare u = false ->
  value_of (fun _ => None) t = Ok e -> value_of (fun _ => None) u = Ok f ->
  text_of (not_two x t u) (chars txt) ->
  from_string dbg stod txt = if dbg then AssertFail else Ok (mkSpec [] [(x, Not_ e)]).
Proof.
  intros Rt Ru B Et Eu H.
  set (n := length (chars txt) + length (not_two x t u)).
  rewrite (from_string_tokens dbg stod _ txt (S (S (S n))) H) by (unfold n; lia).
  assert (Lt : length (tokens t) <= S (S n)) by (unfold n, not_two; cbn; rewrite !app_length; lia).
  assert (Lu : length (tokens u) <= S (S n)) by (unfold n, not_two; cbn; rewrite !app_length; lia).
  pose proof (term_parses dbg stod t Rt (S (S n)) Lt) as Pt. pose proof (term_parses dbg stod u Ru (S (S n)) Lu) as Pu.
  set (s0 := (mkSpec [] [] : spec F)).
  assert (T : forall l : local_state F, tTerm dbg stod (S (S (S n))) (LPar :: Word "not" :: tokens t ++ tokens u ++ [RPar; RPar]) (s0, l) =
     Ok (Some [RPar], (s0, with_terms (l_terms l ++ [f; Not_ e]) l))).
  { intros l. remember (S (S n)) as k. cbn [tTerm]. unfold tterm_match, act0, act, sor at 1, if_must, seq, tok at 1, one at 1. cbn [bind]. unfold must at 1.
    assert (X1 : forall ts (s : st), tExpression dbg stod (S k) (tTerm dbg stod k) (Word "not" :: ts) s =
        ('(i, s1) <- must msg_Term (tTerm dbg stod k) ts s ;; l <- not_action dbg (snd s1) ;; Ok (i, (fst s1, l)))) by (intros; rewrite expr_word; reflexivity).
    assert (X2 : forall s : st, tExpression dbg stod (S k) (tTerm dbg stod k) (tokens u ++ [RPar; RPar]) s = tTerm dbg stod k (tokens u ++ [RPar; RPar]) s)
      by (intros; apply expr_term, B).
    generalize dependent (tExpression dbg stod (S k) (tTerm dbg stod k)). intros EX X1 X2.
    assert (U : until_n (S k) (tok RPar) EX (Word "not" :: tokens t ++ tokens u ++ [RPar; RPar]) (s0, fresh) =
        Ok (Some [RPar], (s0, mkLocal (Some (Not_ e)) None [] None None [f]))).
    { rewrite Heqk at 1. cbn [until_n]. unfold tok at 1, one at 1. cbn [bind]. rewrite X1.
      unfold must at 1. rewrite Pt. cbn [fst formulas s0]. change (value_of (lookup []) t) with (value_of (fun _ => None) t). rewrite Et. cbn [bind snd].
      unfold not_action, assert_. cbn [l_terms with_terms empty_local app is_empty negb back last_opt pop_back removelast bind]. rewrite !andb_false_r. cbn [bind fst].
      destruct (tokens_head u) as (a & ts & Ea & Na).
      assert (R : tok RPar (tokens u ++ [RPar; RPar]) (s0, with_terms [] (with_result (Some (Not_ e)) (with_terms [e] fresh))) =
         Ok (None, (s0, with_terms [] (with_result (Some (Not_ e)) (with_terms [e] fresh))))) by (rewrite Ea; destruct a; try reflexivity; congruence).
      rewrite R. cbn [bind]. rewrite X2, Pu. cbn [fst formulas s0].
      change (value_of (lookup []) u) with (value_of (fun _ => None) u). rewrite Eu. cbn [bind]. destruct n; reflexivity. }
    cbn [fst]. rewrite U. cbn. reflexivity. }
  clearbody n. unfold tparse, tFile, must at 1. fold s0. remember (S (S n)) as k. cbn [until_n]. unfold not_two. unfold eof at 1. cbn [bind].
  unfold seq at 1. unfold tAnyCommand, if_must at 1, seq at 1, tok at 1, one at 1. cbn [bind]. unfold must at 1. cbn [until_n]. unfold tok at 1, one at 1. cbn [bind].
  unfold must at 1, sor at 1, tAssertion, act0, act, if_must at 1, seq at 1, tkw at 1, one at 1. cbn [bind String.eqb Ascii.eqb Bool.eqb].
  unfold must at 1, seq at 1, must at 1. cbn [bind tident]. unfold must at 1. rewrite T. cbn [bind fst snd].
  unfold command_action, assert_. destruct dbg; [reflexivity|]. cbn. subst k. reflexivity.
Qed.
End Two.

(** ** Concrete texts *)
(** Tokens, each with the gap after it. *)
Definition tok_okb (t : token) : bool :=
  match t with
  | Word (String a w) => letter a && forallb (fun c => letter c || digit c) (chars w)
  | Word EmptyString => false
  | Number w => negb (is_empty w) && forallb digit w || match w with a :: b :: c :: ds => digit a && Ascii.eqb b "." && forallb digit (c :: ds) | _ => false end
  | Bad => false
  | _ => true
  end.
Fixpoint gapb (comment : bool) (g : list ascii) : bool :=
  match g with
  | [] => negb comment
  | c :: g' => if comment then gapb (negb (Ascii.eqb c newline)) g'
               else if Ascii.eqb c ";" then gapb true g' else white c && gapb false g'
  end.
Fixpoint renderb (l : list (token * string)) : bool :=
  match l with
  | [] => true
  | (t, g) :: l' => tok_okb t && gapb false (chars g) &&
      match l' with [] => true | (u, _) :: _ => negb (apart t u && is_empty (chars g)) end && renderb l'
  end.
Definition render (l : list (token * string)) : list ascii := flat_map (fun x => token_text (fst x) ++ chars (snd x)) l.
Lemma tok_okb_ok t : tok_okb t = true -> token_ok t /\ t <> Bad.
Proof.
  destruct t as [| |op|[|a w]| |w|]; cbn; intros H; try discriminate; (split; [|discriminate]); auto.
  - apply andb_true_iff in H as [H1 H2]. split; [exact H1|]. apply Forall_forall, forallb_forall, H2.
  - apply orb_true_iff in H as [H|H]; [apply andb_true_iff in H as [H1 H2]; left; split; [intros ->; discriminate H1|]; apply Forall_forall, forallb_forall, H2|].
    destruct w as [|a [|b [|c ds]]]; try discriminate. apply andb_true_iff in H as [H H2]. apply andb_true_iff in H as [H1 H3]. apply Ascii.eqb_eq in H3 as ->.
    right. exists [a], ("."%char :: c :: ds), []. rewrite app_nil_r. split; [reflexivity|]. split; [split; [discriminate|repeat constructor; exact H1]|].
    left. exists (c :: ds). split; [reflexivity|]. split; [|left; reflexivity]. split; [discriminate|]. apply Forall_forall, forallb_forall, H2.
Qed.
Lemma gapb_ok g : (gapb false g = true -> gap g) /\
  (gapb true g = true -> exists w g', g = w ++ newline :: g' /\ one_line w /\ gap g').
Proof.
  induction g as [|c g [IH1 IH2]]; cbn [gapb]; [split; [constructor|discriminate]|]. split.
  - destruct (Ascii.eqb_spec c ";") as [->|_].
    + intros H. destruct (IH2 H) as (w & g' & -> & O & G). apply (gap_comment w g' O G).
    + intros H. apply andb_true_iff in H as [H1 H2]. constructor; auto.
  - destruct (Ascii.eqb_spec c newline) as [->|N]; cbn [negb]; intros H.
    + exists [], g. split; [reflexivity|]. split; [intros []|auto].
    + destruct (IH2 H) as (w & g' & -> & O & G). exists (c :: w), g'. split; [reflexivity|]. split; [intros [K|K]; [exact (N K)|exact (O K)]|exact G].
Qed.
Lemma render_layout l : renderb l = true -> layout (map fst l) (render l).
Proof.
  induction l as [|[t g] l IH]; [constructor|]. cbn [renderb]. intros H. apply andb_true_iff in H as [H H4]. apply andb_true_iff in H as [H H3]. apply andb_true_iff in H as [H1 H2].
  specialize (IH H4). apply tok_okb_ok in H1 as [H1 NB]. apply gapb_ok in H2. unfold render. cbn [flat_map map fst snd]. fold (render l). rewrite <- app_assoc.
  destruct l as [|[u g'] l].
  - cbn. rewrite app_nil_r. apply layout_last; [exact H1|exact NB|apply last_closed, H2].
  - cbn [map fst] in *. apply layout_cons; auto. intros A E. rewrite A, E in H3. discriminate.
Qed.
(** [lead]: the gap before the first token. *)
Lemma render_text lead l ts txt : gapb false (chars lead) = true -> renderb l = true -> map fst l = ts -> chars lead ++ render l = chars txt ->
  text_of ts (chars txt).
Proof. intros G R <- <-. right. exists (chars lead), (render l). split; [reflexivity|]. split; [apply gapb_ok, G|apply render_layout, R]. Qed.

Local Open Scope string_scope.
Definition nl : string := String newline "".
Definition no_double : list ascii -> option B64 := fun _ => None.
Definition ex_cs : list command :=
  [Def "a" (TPred LE "x" (chars "12")); Assert "m" (TAlways (TAnd [TRef "a"; TNot (TRef "a"); TPred GT "y" (chars "3")]))].
Definition ex_text : string :=
  "; limits" ++ nl ++ "(define-formula a (<= x 12)) (assert m(always ;G" ++ nl ++ "(and a (not a) (> y 3))))".
Definition ex_text2 : string := "(define-formula a(<= x 12))" ++ nl ++ "(assert m (always (and a(not a)(>y 3))))".
Lemma ex_text_ok : spec_text ex_cs ex_text.
Proof.
  apply (render_text ("; limits" ++ nl) [(LPar, ""); (Define, " "); (Word "a", " "); (LPar, ""); (Cmp LE, " "); (Word "x", " "); (Number (chars "12"), ""); (RPar, ""); (RPar, " ");
    (LPar, ""); (Word "assert", " "); (Word "m", ""); (LPar, ""); (Word "always", " ;G" ++ nl); (LPar, ""); (Word "and", " "); (Word "a", " "); (LPar, ""); (Word "not", " "); (Word "a", ""); (RPar, " ");
    (LPar, ""); (Cmp GT, " "); (Word "y", " "); (Number (chars "3"), ""); (RPar, ""); (RPar, ""); (RPar, ""); (RPar, "")]); reflexivity.
Qed.
Lemma ex_text2_ok : spec_text ex_cs ex_text2.
Proof.
  apply (render_text "" [(LPar, ""); (Define, " "); (Word "a", ""); (LPar, ""); (Cmp LE, " "); (Word "x", " "); (Number (chars "12"), ""); (RPar, ""); (RPar, nl);
    (LPar, ""); (Word "assert", " "); (Word "m", " "); (LPar, ""); (Word "always", " "); (LPar, ""); (Word "and", " "); (Word "a", ""); (LPar, ""); (Word "not", " "); (Word "a", ""); (RPar, "");
    (LPar, ""); (Cmp GT, ""); (Word "y", " "); (Number (chars "3"), ""); (RPar, ""); (RPar, ""); (RPar, ""); (RPar, "")]); reflexivity.
Qed.
Lemma ok_both {A} (m : bool -> outcome A) : match m true with Ok _ => true | _ => false end && match m false with Ok _ => true | _ => false end = true ->
  forall dbg, exists g, m dbg = Ok g.
Proof. intros H dbg. apply andb_true_iff in H as [H1 H2]. destruct dbg; [destruct (m true)|destruct (m false)]; try discriminate; eauto. Qed.
Lemma ex_parses dbg : exists g, from_string dbg no_double ex_text = Ok g.
Proof. revert dbg. apply ok_both. vm_compute. reflexivity. Qed.
Lemma C56_case_lemma : all_leaves ref_ok ex_cs = true /\ all_leaves supported ex_cs = true /\ spec_text ex_cs ex_text /\
  exists g, from_string false no_double ex_text = Ok g.
Proof. split; [reflexivity|]. split; [reflexivity|]. split; [exact ex_text_ok|apply ex_parses]. Qed.
Definition ex_pred : expr B64 := EPred "x" LE (nofZ 12).
Lemma C56_written_case : exists cs ds txt, Forall2 (writes_command no_double) cs ds /\ NoDup (map fst (named true ds)) /\ NoDup (map fst (named false ds)) /\
  spec_text cs txt /\ ds = [(false, ("m", EUntil (EOr [EConst true; ENot ex_pred]) ex_pred interval_default))].
Proof.
  exists [Assert "m" (TUntil (TOr [TBool true; TNot (TPred LE "x" (chars "12"))]) (TPred LE "x" (chars "12")))], [(false, ("m", EUntil (EOr [EConst true; ENot ex_pred]) ex_pred interval_default))],
    "(assert m (until (or true (not (<= x 12))) (<= x 12)))".
  assert (W : writes no_double (TPred LE "x" (chars "12")) ex_pred) by (constructor; reflexivity).
  split; [|split; [|split; [|split; [|reflexivity]]]].
  - constructor; [|constructor]. split; [reflexivity|]. split; [reflexivity|]. cbn [body snd]. apply W_until; [|exact W].
    apply W_or; [|cbn; lia]. constructor; [constructor|]. constructor; [|constructor]. apply W_not; [exact W|discriminate].
  - constructor.
  - repeat constructor. intros [].
  - apply (render_text "" [(LPar, ""); (Word "assert", " "); (Word "m", " "); (LPar, ""); (Word "until", " "); (LPar, ""); (Word "or", " "); (Word "true", " "); (LPar, ""); (Word "not", " ");
      (LPar, ""); (Cmp LE, " "); (Word "x", " "); (Number (chars "12"), ""); (RPar, ""); (RPar, ""); (RPar, " "); (LPar, ""); (Cmp LE, " "); (Word "x", " "); (Number (chars "12"), ""); (RPar, ""); (RPar, ""); (RPar, "")]); reflexivity.
Qed.
Lemma C57_case_lemma : exists txt, spec_text [Assert "m" (TBool true); Assert "m" (TBool false)] txt /\
  ~ NoDup (assert_names [Assert "m" (TBool true); Assert "m" (TBool false)]).
Proof.
  exists "(assert m true)(assert m false)". split.
  - apply (render_text "" [(LPar, ""); (Word "assert", " "); (Word "m", " "); (Word "true", ""); (RPar, ""); (LPar, ""); (Word "assert", " "); (Word "m", " "); (Word "false", ""); (RPar, "")]); reflexivity.
  - intros N. inversion N as [|? ? K _]. apply K. left. reflexivity.
Qed.
Lemma C58_case_lemma : exists txt, spec_text ([Def "a" (TBool true)] ++ [Assert "m" (TNot (TRef "b"))]) txt /\
  In "b" (refs (body (Assert "m" (TNot (TRef "b"))))) /\ ~ In "b" (def_names [Def "a" (TBool true)]).
Proof.
  exists "(define-formula a true)(assert m (not b))". split; [|split].
  - apply (render_text "" [(LPar, ""); (Define, " "); (Word "a", " "); (Word "true", ""); (RPar, ""); (LPar, ""); (Word "assert", " "); (Word "m", " "); (LPar, ""); (Word "not", " "); (Word "b", ""); (RPar, ""); (RPar, "")]); reflexivity.
  - left. reflexivity.
  - intros [K|[]]. discriminate K.
Qed.
Lemma C59_case_lemma : exists txt, spec_text [Assert "m" (TPred LE "x" (chars "12"))] txt /\ literal_value no_double (chars "12") = Ok (nofZ 12).
Proof.
  exists "(assert m (<=x 12))". split; [|reflexivity].
  apply (render_text "" [(LPar, ""); (Word "assert", " "); (Word "m", " "); (LPar, ""); (Cmp LE, ""); (Word "x", " "); (Number (chars "12"), ""); (RPar, ""); (RPar, "")]); reflexivity.
Qed.
Lemma C59_two_case : exists txt, spec_text [Assert "m" (TPred2 LE (chars "12") "x")] txt.
Proof.
  exists "(assert m (<= 12 x))".
  apply (render_text "" [(LPar, ""); (Word "assert", " "); (Word "m", " "); (LPar, ""); (Cmp LE, " "); (Number (chars "12"), " "); (Word "x", ""); (RPar, ""); (RPar, "")]); reflexivity.
Qed.
Lemma C60_empty_case : exists txt, spec_text [Assert "m" (TAnd [TBool true; TEmpty])] txt /\ all_leaves supported [Assert "m" (TAnd [TBool true; TEmpty])] = false.
Proof.
  exists "(assert m (and true ()))". split; [|reflexivity].
  apply (render_text "" [(LPar, ""); (Word "assert", " "); (Word "m", " "); (LPar, ""); (Word "and", " "); (Word "true", " "); (LPar, ""); (RPar, ""); (RPar, ""); (RPar, "")]); reflexivity.
Qed.
Lemma C60_two_case : exists txt, text_of (not_two "m" (TBool true) (TBool false)) (chars txt).
Proof.
  exists "(assert m (not true false))".
  apply (render_text "" [(LPar, ""); (Word "assert", " "); (Word "m", " "); (LPar, ""); (Word "not", " "); (Word "true", " "); (Word "false", ""); (RPar, ""); (RPar, "")]); reflexivity.
Qed.
(** Several operators in one pair of parentheses. *)
Lemma C60_several_lemma (stod : input -> option B64) dbg :
  from_string dbg stod "(assert m (not true always false))" = Ok (mkSpec [] [("m", EAlways (EConst false) interval_default)]).
Proof. destruct dbg; reflexivity. Qed.
Lemma C60_dropped_lemma (stod : input -> option B64) dbg :
  from_string dbg stod "(assert m (and true false < x 1))" = Ok (mkSpec [] [("m", EPred "x" LT (nofZ 1))]).
Proof. destruct dbg; reflexivity. Qed.
Lemma C60_nested_lemma (stod : input -> option B64) dbg :
  from_string dbg stod "(assert m (and (not true false)))" = Ok (mkSpec [] [("m", EAnd [EConst false; EConst false])]).
Proof. destruct dbg; reflexivity. Qed.
Lemma C55_witness (stod : input -> option B64) : from_string true stod "(assert m (not true false))" = AssertFail.
Proof. reflexivity. Qed.
Lemma C61_case_lemma : exists g x e, from_string true no_double ex_text = Ok g /\ In (x, e) (entries_of g) /\ exists p, In (EAlways p interval_default) (subs e).
Proof.
  rewrite (code_spec true no_double ex_cs ex_text eq_refl ex_text_ok).
  eexists _, "m", _. split; [reflexivity|]. split; [right; left; reflexivity|]. eexists. left. reflexivity.
Qed.

(** ** Statements in the form used by Props/Parser.v *)
Lemma C51_parser_lemma dbg (stod : input -> option B64) t g x e :
  from_string dbg stod t = Ok g -> In (x, e) (formulas g ++ assertions g) -> constructed e /\ free_of (short 2) e = true.
Proof. intros H K. pose proof (parsed_constructed dbg stod t g x e H K) as C. split; [exact C|exact (AstFacts.C51_lemma e C)]. Qed.
Lemma thrown_in e : thrown e -> (exists m, e = ParseError m) \/ In e [OutOfRange; LogicError LE_TermEmpty; BadOptionalAccess; InvalidArgument].
Proof. destruct e as [| |[]| | | |]; cbn; intros H; try contradiction; eauto 7. Qed.
Lemma C55_release_lemma (stod : input -> option B64) t : (exists g, from_string false stod t = Ok g) \/
  (exists e, from_string false stod t = Throw e /\ ((exists m, e = ParseError m) \/ In e [OutOfRange; LogicError LE_TermEmpty; BadOptionalAccess; InvalidArgument])).
Proof.
  pose proof (C55_lemma false stod t) as H. destruct (from_string false stod t) as [g|e| | |]; try contradiction; try discriminate; [eauto|].
  right. exists e. split; [reflexivity|apply thrown_in, H].
Qed.
Lemma C55_debug_lemma (stod : input -> option B64) t : (exists g, from_string true stod t = Ok g) \/
  (exists e, from_string true stod t = Throw e /\ ((exists m, e = ParseError m) \/ In e [OutOfRange; LogicError LE_TermEmpty; BadOptionalAccess; InvalidArgument])) \/
  from_string true stod t = AssertFail.
Proof.
  pose proof (C55_lemma true stod t) as H. destruct (from_string true stod t) as [g|e| | |]; try contradiction; [eauto| |auto].
  right; left. exists e. split; [reflexivity|apply thrown_in, H].
Qed.
Lemma C60_two_lemma dbg (stod : input -> option B64) x t u txt e f :
  leaves ref_ok t = true -> leaves ref_ok u = true -> bare u = false ->
  term_value stod swapped no_empty (fun _ => None) t = Ok e -> leaves supported t = true ->
  term_value stod swapped no_empty (fun _ => None) u = Ok f -> leaves supported u = true ->
  text_of (not_two x t u) (chars txt) ->
  from_string dbg stod txt = if dbg then AssertFail else Ok (mkSpec [] [(x, Not_ e)]).
Proof.
  intros Rt Ru B Et St Eu Su H. rewrite (value_supported stod swapped code_two no_empty code_empty _ _ St) in Et.
  rewrite (value_supported stod swapped code_two no_empty code_empty _ _ Su) in Eu. exact (not_two_parses dbg stod x t u txt e f Rt Ru B Et Eu H).
Qed.
