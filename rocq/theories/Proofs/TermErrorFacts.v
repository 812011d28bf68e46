(** C104: what is reported inside a term. *)
From Coq Require Import Ascii.
From Flocq Require Import IEEE754.BinarySingleNaN.
From Verif Require Import Base Num NumB64.
From Verif.Spec Require Import Formula AstSpec Text Syntax Messages TermErrors.
From Verif.Model Require Import Ast Peg Parser.
From Verif.Proofs Require Import PegFacts ParserSafe TokenSim TokenParser TokenEval SpecFacts ParserExamples ErrorFacts.
Local Open Scope nat_scope.

Section TermErrors.
Context {F : Type} `{NF : Num F}.
Variable dbg : bool.
Variable stod : input -> option F.
Notation st := (state F).
Notation fresh := (@empty_local F).
Notation T n := (tTerm dbg stod n).
Notation E n := (tExpression dbg stod (S n) (tTerm dbg stod n)).

Lemma no_term_stop ts : no_term ts -> stop ts.
Proof. destruct ts as [|[] ts]; cbn; auto. Qed.

(** ** Terms in parentheses *)
Lemma paren_throws n X e (s : st) : match X with RPar :: _ => False | _ => True end ->
  E n X (fst s, fresh) = Throw e -> T (S n) (LPar :: X) s = Throw e.
Proof.
  intros HX H. cbn [tTerm]. unfold tterm_match, act0, act, sor at 1, if_must, seq, tok at 1, one at 1. cbn [bind].
  unfold must. remember (E n) as EX.
  assert (U : until_n (S n) (tok RPar) EX X (fst s, fresh) = Throw e).
  { cbn [until_n]. assert (R : tok RPar X (fst s, fresh) = Ok (None, (fst s, fresh))) by (destruct X as [|[] X]; try reflexivity; destruct HX).
    rewrite R. cbn [bind]. rewrite H. reflexivity. }
  rewrite U. reflexivity.
Qed.
Lemma part_fails n m ts (s : st) : no_part ts -> tExpression dbg stod m (T (S n)) ts s = Ok (None, s).
Proof.
  intros [H1 H2]. pose proof (term_fails dbg stod n ts s (no_term_stop _ H1)) as TF.
  destruct ts as [|[] ts]; try contradiction;
    (unfold tExpression; rewrite sor_none by reflexivity; repeat (rewrite sor_none by reflexivity); exact TF).
Qed.
Lemma part_not_closed ts (s : st) : no_part ts -> tok RPar ts s = Ok (None, s).
Proof. intros [H1 H2]. destruct ts as [|[] ts]; try contradiction; reflexivity. Qed.
(** Nothing that belongs to a term. *)
Lemma paren_nothing n ts (s : st) : no_part ts -> T (S (S n)) (LPar :: ts) s = Throw (ParseError msg_TermTail).
Proof.
  intros H. change (T (S (S n)) (LPar :: ts) s) with
    (tterm_match (act0 (@term_action F) (sor (if_must msg_TermTail (tok LPar) (until_n (S (S n)) (tok RPar) (E (S n)))) (sor tbool tident))) (LPar :: ts) s).
  pose proof (part_fails n (S (S n)) ts (fst s, fresh) H) as PF.
  unfold tterm_match, act0, act, sor at 1, if_must, seq, tok at 1, one at 1. cbn [bind].
  unfold must. remember (E (S n)) as EX. cbn [until_n]. rewrite part_not_closed by exact H. cbn [bind]. rewrite PF. reflexivity.
Qed.
(** Nothing that belongs to a term after an expression. *)
Lemma paren_more n X ts (s : st) s1 : match X with RPar :: _ => False | _ => True end -> no_part ts ->
  E (S n) X (fst s, fresh) = Ok (Some ts, s1) -> T (S (S n)) (LPar :: X) s = Throw (ParseError msg_TermTail).
Proof.
  intros HX HP H. change (T (S (S n)) (LPar :: X) s) with
    (tterm_match (act0 (@term_action F) (sor (if_must msg_TermTail (tok LPar) (until_n (S (S n)) (tok RPar) (E (S n)))) (sor tbool tident))) (LPar :: X) s).
  pose proof (part_fails n (S (S n)) ts s1 HP) as PF.
  unfold tterm_match, act0, act, sor at 1, if_must, seq, tok at 1, one at 1. cbn [bind].
  unfold must. remember (E (S n)) as EX.
  assert (U : until_n (S (S n)) (tok RPar) EX X (fst s, fresh) = Ok (None, s1)).
  { cbn [until_n]. assert (R : tok RPar X (fst s, fresh) = Ok (None, (fst s, fresh))) by (destruct X as [|[] X]; try reflexivity; destruct HX).
    rewrite R. cbn [bind]. rewrite H. cbn [bind]. rewrite part_not_closed by exact HP. cbn [bind]. rewrite PF. reflexivity. }
  rewrite U. reflexivity.
Qed.

(** ** Operators *)
Lemma operator_cases w : operator w -> In w one_operand \/ In w two_operands \/ In w many_operands.
Proof. unfold operator. rewrite !in_app_iff. tauto. Qed.
Ltac each H := cbn in H; repeat (destruct H as [<-|H]); [..|contradiction].
(** The first operand. *)
Lemma first_missing n w ts (s : st) : operator w -> no_term ts -> E (S n) (Word w :: ts) s = Throw (ParseError (missing w)).
Proof.
  intros H N. rewrite expr_word. apply no_term_stop in N. pose proof (term_fails dbg stod n ts s N) as TF.
  unfold operator in H. each H; cbn [tail_of String.eqb Ascii.eqb Bool.eqb]; unfold must, plus_n, seq, must; rewrite TF; reflexivity.
Qed.
Lemma first_throws n w ts e (s : st) : operator w -> T n ts s = Throw e -> E n (Word w :: ts) s = Throw e.
Proof.
  intros H TF. rewrite expr_word.
  unfold operator in H. each H; cbn [tail_of String.eqb Ascii.eqb Bool.eqb]; unfold must, plus_n, seq, must; rewrite TF; reflexivity.
Qed.
(** What follows the first operand. *)
Lemma second_missing n w ts ts' (s s' : st) : In w two_operands -> T (S n) ts s = Ok (Some ts', s') -> no_term ts' ->
  E (S n) (Word w :: ts) s = Throw (ParseError (missing w)).
Proof.
  intros H T1 N. rewrite expr_word. apply no_term_stop in N. pose proof (term_fails dbg stod n ts' s' N) as TF.
  each H; cbn [tail_of String.eqb Ascii.eqb Bool.eqb]; unfold must, plus_n, seq, must; rewrite T1; cbn [bind]; rewrite TF; reflexivity.
Qed.
Lemma second_throws n w ts ts' e (s s' : st) : In w two_operands -> T n ts s = Ok (Some ts', s') -> T n ts' s' = Throw e ->
  E n (Word w :: ts) s = Throw e.
Proof.
  intros H T1 TF. rewrite expr_word.
  each H; cbn [tail_of String.eqb Ascii.eqb Bool.eqb]; unfold must, plus_n, seq, must; rewrite T1; cbn [bind]; rewrite TF; reflexivity.
Qed.
Lemma few_throws n w ts ts' (s s' : st) : In w many_operands -> T (S n) ts s = Ok (Some ts', s') -> no_term ts' -> length (l_terms (snd s')) = 1 ->
  E (S n) (Word w :: ts) s = Throw (ParseError "expected at least 2 terms, got 1").
Proof.
  intros H T1 N L. rewrite expr_word. apply no_term_stop in N. pose proof (term_fails dbg stod n ts' s' N) as TF.
  remember (S n) as n1.
  each H; cbn [tail_of String.eqb Ascii.eqb Bool.eqb]; unfold must, plus_n, seq; rewrite T1; cbn [bind star_n]; rewrite TF; cbn [bind];
    unfold nary_action; rewrite L; reflexivity.
Qed.
Lemma star_throws n us ts e (s : st) : Forall (fun t => parses dbg stod n t /\ exists v, term_value stod code_two code_empty (lookup (formulas (fst s))) t = Ok v) us ->
  (forall l, T n ts (fst s, l) = Throw e) -> forall k, length us < k -> star_n k (T n) (flat_map tokens us ++ ts) s = Throw e.
Proof.
  intros H TF. revert s TF H. induction us as [|u us IH]; intros s TF H k L; (destruct k as [|k]; [cbn in L; lia|]); cbn [star_n flat_map app].
  - destruct s as [g l]. rewrite TF. reflexivity.
  - inversion H as [|? ? [P [v V]] Hs]; subst. rewrite <- app_assoc, P, V. cbn [bind]. apply IH; [exact TF|exact Hs|cbn in L; lia].
Qed.
Lemma later_throws n w us ts e (s : st) : In w many_operands ->
  Forall (fun t => parses dbg stod n t /\ exists v, term_value stod code_two code_empty (lookup (formulas (fst s))) t = Ok v) us ->
  (forall l, T n ts (fst s, l) = Throw e) -> length us <= n -> E n (Word w :: flat_map tokens us ++ ts) s = Throw e.
Proof.
  intros H HU TF L. destruct us as [|u us].
  - cbn [flat_map app]. apply first_throws; [unfold operator; rewrite !in_app_iff; auto|]. destruct s as [g l]. apply TF.
  - rewrite expr_word. inversion HU as [|? ? [P [v V]] Hs]; subst. cbn [flat_map]. rewrite <- app_assoc.
    assert (X : plus_n (S n) (T n) (tokens u ++ flat_map tokens us ++ ts) s = Throw e).
    { unfold plus_n, seq. rewrite P, V. cbn [bind]. rewrite star_throws with (e := e); [reflexivity|exact Hs|exact TF|cbn in L; lia]. }
    each H; cbn [tail_of String.eqb Ascii.eqb Bool.eqb]; unfold must; rewrite X; reflexivity.
Qed.

(** ** Predicates *)
Lemma form_throws op ts (s : st) : no_form stod ts -> tpred stod (Cmp op :: ts) s = Throw (ParseError msg_PredicateForm).
Proof.
  intros H.
  assert (X : forall s' : st, must msg_PredicateForm (tform stod) ts s' = Throw (ParseError msg_PredicateForm)).
  { intros s'. unfold must, tform, sor, act0, act, seq.
    assert (NU : forall w, (exists v, literal_value stod w = Ok v) -> exists p, forall ts', tnum stod (Number w :: ts') s' = Ok (Some ts', (fst s', with_primitive (Some p) (snd s')))).
    { intros w [v V]. rewrite <- number_literal in V. apply bind_ok_inv in V as (p & V & _). exists p. intros ts'. rewrite tnum_eq, V. reflexivity. }
    destruct ts as [|[] ts]; try reflexivity; try contradiction.
    - destruct ts as [|[] ts]; try contradiction; reflexivity.
    - destruct ts as [|[] ts]; try contradiction; cbn [no_form] in H; destruct (NU _ H) as [p NP]; cbn [tident bind]; rewrite NP; reflexivity. }
  unfold tpred, act0, act, if_must, seq. destruct op; cbn; rewrite X; reflexivity.
Qed.

(** ** Expressions *)
Definition inner (t : term) : list token := tl (removelast (tokens t)).
Lemma inner_op w args : tl (removelast (app_op w args)) = Word w :: args.
Proof. unfold app_op. change (LPar :: Word w :: args ++ [RPar]) with ((LPar :: Word w :: args) ++ [RPar]). rewrite removelast_last. reflexivity. Qed.
Lemma inner_tokens t : compound t -> tokens t = (LPar :: inner t) ++ [RPar].
Proof. unfold inner. destruct t; cbn [compound tokens]; intros []; rewrite ?inner_op; reflexivity. Qed.
Lemma inner_open t : compound t -> leaves supported t = true -> forall ts, match inner t ++ ts with RPar :: _ => False | _ => True end.
Proof. unfold inner. destruct t; cbn [compound tokens]; intros [] S rest; rewrite ?inner_op; cbn; try exact I. discriminate. Qed.

Lemma expr_parses t : compound t -> leaves ref_ok t = true -> leaves supported t = true -> forall n ts (g : spec F) e, length (tokens t) <= S n -> stop ts ->
  term_value stod code_two code_empty (lookup (formulas g)) t = Ok e -> E n (inner t ++ ts) (g, fresh) = Ok (Some ts, (g, done e fresh)).
Proof.
  intros C R S n ts g e L ST V.
  assert (TP : forall u, leaves ref_ok u = true -> length (tokens u) <= n -> parses dbg stod n u) by (intros u Ru Lu; apply term_parses; assumption).
  assert (LO : forall w args, length (app_op w args) <= Datatypes.S n -> length args + 2 <= n) by (intros w args Lw; unfold app_op in Lw; cbn in Lw; rewrite app_length in Lw; cbn in Lw; lia).
  unfold inner. destruct t; cbn [compound tokens] in *; try contradiction; try discriminate; rewrite ?inner_op; try (apply LO in L); cbn [app]; rewrite <- ?app_assoc.
  - cbn [removelast tl app]. unfold tExpression. rewrite sor_left; rewrite tpred_one; cbn [term_value] in V; apply bind_ok_inv in V as (v & V & X); rewrite V; [injection X as <-; reflexivity|discriminate].
  - rewrite unary_expr with (mk := Not_) (f := not_action dbg).
    + cbn [term_value] in V. rewrite V. reflexivity.
    + apply TP; [exact R|lia].
    + reflexivity.
    + intros x. unfold not_action, assert_. cbn. rewrite andb_false_r. reflexivity.
  - destruct n as [|n]; [lia|]. rewrite nary_expr with (mk := And_) (node := EAnd).
    + cbn [term_value] in V. rewrite V. reflexivity.
    + pose proof (flat_count ts0). lia.
    + apply Forall_forall. intros u I. apply TP; [cbn in R; rewrite forallb_forall in R; apply R, I|pose proof (flat_length ts0 u I); lia].
    + exact ST.
    + reflexivity.
    + intros es Le. unfold And_. destruct (Nat.ltb_spec (length es) 2); [lia|reflexivity].
  - destruct n as [|n]; [lia|]. rewrite nary_expr with (mk := Or_) (node := EOr).
    + cbn [term_value] in V. rewrite V. reflexivity.
    + pose proof (flat_count ts0). lia.
    + apply Forall_forall. intros u I. apply TP; [cbn in R; rewrite forallb_forall in R; apply R, I|pose proof (flat_length ts0 u I); lia].
    + exact ST.
    + reflexivity.
    + intros es Le. unfold Or_. destruct (Nat.ltb_spec (length es) 2); [lia|reflexivity].
  - cbn in R. apply andb_true_iff in R as [R1 R2]. rewrite app_length in L. rewrite binary_expr with (mk := Implies_); [|apply TP; [assumption|lia]..|left; reflexivity].
    cbn [term_value] in V. rewrite V. reflexivity.
  - cbn in R. apply andb_true_iff in R as [R1 R2]. rewrite app_length in L. rewrite binary_expr with (mk := Iff_); [|apply TP; [assumption|lia]..|left; reflexivity].
    cbn [term_value] in V. rewrite V. reflexivity.
  - cbn in R. apply andb_true_iff in R as [R1 R2]. rewrite app_length in L. rewrite binary_expr with (mk := Xor_); [|apply TP; [assumption|lia]..|left; reflexivity].
    cbn [term_value] in V. rewrite V. reflexivity.
  - rewrite unary_expr with (mk := fun x => EAlways x interval_default) (f := unary_action dbg Always_).
    + cbn [term_value] in V. rewrite V. reflexivity.
    + apply TP; [exact R|lia].
    + reflexivity.
    + intros x. unfold unary_action, assert_. cbn. rewrite andb_false_r. reflexivity.
  - rewrite unary_expr with (mk := fun x => EEventually x interval_default) (f := unary_action dbg Eventually_).
    + cbn [term_value] in V. rewrite V. reflexivity.
    + apply TP; [exact R|lia].
    + reflexivity.
    + intros x. unfold unary_action, assert_. cbn. rewrite andb_false_r. reflexivity.
  - cbn in R. apply andb_true_iff in R as [R1 R2]. rewrite app_length in L. rewrite binary_expr with (mk := fun x y => Ok (EUntil x y interval_default)); [|apply TP; [assumption|lia]..|right; reflexivity].
    cbn [term_value] in V. rewrite V. reflexivity.
Qed.

(** ** The messages *)
Lemma operand_code env t : operand stod env t -> leaves ref_ok t = true /\ leaves supported t = true /\ exists e, term_value stod code_two code_empty env t = Ok e.
Proof. intros (R & S & e & V). rewrite (value_supported stod swapped code_two no_empty code_empty _ _ S) in V. eauto. Qed.
Lemma fails_throws (g : spec F) ts m : fails stod (lookup (formulas g)) ts m -> forall n l, length ts < n -> T n ts (g, l) = Throw (ParseError m).
Proof.
  induction 1 as [ts P|op ts P|w ts O P|w ts m O P IH|w t ts O A P|w t ts m O A P IH|w t ts O A P|w us ts m O A P IH|t ts C A P]; intros n l L;
    (destruct n as [|n]; [lia|]); cbn [length] in L; rewrite ?app_length in L.
  - destruct n as [|n]; [lia|]. apply paren_nothing, P.
  - apply paren_throws; [exact I|]. unfold tExpression. rewrite sor_left; rewrite form_throws by exact P; [reflexivity|discriminate].
  - destruct n as [|n]; [lia|]. apply paren_throws; [exact I|]. apply first_missing; assumption.
  - apply paren_throws; [exact I|]. apply first_throws; [exact O|]. apply IH. lia.
  - destruct (operand_code _ _ A) as (R & SU & e & V). destruct n as [|n]; [lia|]. apply paren_throws; [exact I|].
    apply second_missing with (ts' := ts) (s' := (g, with_terms [e] fresh)); [exact O| |exact P].
    rewrite term_parses by (exact R || lia). cbn [fst]. rewrite V. reflexivity.
  - destruct (operand_code _ _ A) as (R & SU & e & V). apply paren_throws; [exact I|].
    apply second_throws with (ts' := ts) (s' := (g, with_terms [e] fresh)); [exact O| |apply IH; lia].
    rewrite term_parses by (exact R || lia). cbn [fst]. rewrite V. reflexivity.
  - destruct (operand_code _ _ A) as (R & SU & e & V). destruct n as [|n]; [lia|]. apply paren_throws; [exact I|].
    apply few_throws with (ts' := ts) (s' := (g, with_terms [e] fresh)); [exact O| |exact P|reflexivity].
    rewrite term_parses by (exact R || lia). cbn [fst]. rewrite V. reflexivity.
  - apply paren_throws; [exact I|]. apply later_throws; [exact O| |intros l'; apply IH; lia|pose proof (flat_count us); lia].
    rewrite Forall_forall in *. intros u Iu. destruct (operand_code _ _ (A u Iu)) as (R & SU & e & V). split; [|eauto].
    apply term_parses; [exact R|]. pose proof (flat_length us u Iu). lia.
  - destruct (operand_code _ _ A) as (R & SU & e & V).
    pose proof (inner_tokens t C) as IT.
    assert (RL : removelast (tokens t) = LPar :: inner t) by (rewrite IT, removelast_last; reflexivity).
    rewrite RL in *. cbn [app length] in *.
    assert (LT : length (tokens t) <= S n) by (rewrite IT; cbn; rewrite app_length; cbn; lia).
    destruct n as [|n]; [lia|].
    eapply paren_more; [apply inner_open; assumption|exact P|]. apply expr_parses; try eassumption. apply no_term_stop, P.
Qed.

(** ** In a specification *)
Lemma C104_code cs k x ts m t d a : all_leaves ref_ok cs = true -> text_of (spec_tokens cs ++ LPar :: k :: Word x :: ts) (chars t) -> command_word k ->
  fails stod (lookup d) ts m -> spec_value stod (@code_two F) code_empty [] [] cs = Ok (d, a) -> from_string dbg stod t = Throw (ParseError m).
Proof.
  intros R H K FA V. destruct (text_then dbg stod cs _ t R H) as (n & j & Ln & Lj & ->). rewrite V. cbn [bind].
  cbn in Ln, Lj. destruct j as [|j]; [lia|]. destruct n as [|n]; [lia|].
  pose proof (fails_throws (mkSpec d a) ts m FA (S n)) as FT. remember (T (S n)) as TT.
  unfold must at 1. cbn [until_n]. unfold eof at 1. cbn [bind]. unfold seq at 1, tAnyCommand, if_must at 1, seq at 1, tok at 1, one at 1. cbn [bind].
  unfold must at 1. cbn [until_n].
  destruct K as [-> | ->].
  - unfold tok at 1, one at 1. cbn [bind]. unfold must at 1, sor at 1. unfold tAssertion, act0, act, if_must at 1, seq at 1, tkw at 1, one at 1. cbn [bind].
    unfold tDefine, act0, act, if_must, seq, tkw at 1, one at 1. cbn [bind String.eqb Ascii.eqb Bool.eqb]. unfold must at 1, must at 1. cbn [bind tident]. unfold must at 1.
    rewrite <- HeqTT. rewrite FT by lia. reflexivity.
  - unfold tok at 1, one at 1. cbn [bind]. unfold must at 1, sor at 1. unfold tAssertion, act0, act, if_must at 1, seq at 1, tkw at 1, one at 1. cbn [bind String.eqb Ascii.eqb Bool.eqb].
    unfold must at 1, seq, must at 1. cbn [bind tident]. unfold must at 1.
    rewrite <- HeqTT. rewrite FT by lia. reflexivity.
Qed.
Lemma C104_lemma cs k x ts m t d a : all_leaves ref_ok cs = true -> all_leaves supported cs = true ->
  text_of (spec_tokens cs ++ LPar :: k :: Word x :: ts) (chars t) -> command_word k ->
  spec_value stod swapped no_empty [] [] cs = Ok (d, a) -> fails stod (lookup d) ts m -> from_string dbg stod t = Throw (ParseError m).
Proof. intros R S H K V FA. rewrite (to_code stod _ S) in V. exact (C104_code cs k x ts m t d a R H K FA V). Qed.
End TermErrors.

(** ** Cases *)
Local Open Scope string_scope.
Local Open Scope list_scope.
Lemma C104_case_lemma (stod : input -> option B64) : exists d a, spec_value stod swapped no_empty [] [] err_cs = Ok (d, a) /\
  forall m, In m ["expected an expression followed by a closing parenthesis ')'"; "expected an identifier followed by a numeral or vice-versa";
                  "expected a Term"; "expected a list of at exactly 2 Terms"; "expected a list of at least 2 Terms"; "expected at least 2 terms, got 1"] ->
  exists ts txt, fails stod (lookup d) ts m /\ text_of (spec_tokens err_cs ++ LPar :: Word "assert" :: Word "m" :: ts) (chars txt).
Proof.
  do 2 eexists. split; [cbn; reflexivity|].
  match goal with |- context [lookup ?d] => assert (A : operand stod (lookup d) (TRef "a")) by (split; [reflexivity|]; split; [reflexivity|]; eexists; reflexivity);
    assert (B : operand stod (lookup d) (TBool true)) by (split; [reflexivity|]; split; [reflexivity|]; eexists; reflexivity) end.
  pose (l0 := [(LPar, ""); (Word "assert", " "); (Word "m", " "); (LPar, ""); (Word "or", " "); (Word "a", " "); (Word "a", " ")]).
  intros m H. cbn in H. repeat (destruct H as [<-|H]); [..|contradiction].
  - exists ([LPar; Word "or"; Word "a"; Word "a"] ++ [LPar; Word "not"; Word "a"] ++ [Number (chars "1"); RPar; RPar; RPar]), (err_start ++ "(assert m (or a a (not a 1)))")%string. split.
    + apply (F_in_later _ _ "or" [TRef "a"; TRef "a"]); [right; left; reflexivity|repeat constructor; apply A|].
      apply (F_end _ _ (TNot (TRef "a"))); [exact I| |split; exact I]. destruct A as (_ & _ & e & V). split; [reflexivity|]. split; [reflexivity|]. eexists. cbn [term_value] in *. rewrite V. reflexivity.
    + apply (err_text (l0 ++ [(LPar, ""); (Word "not", " "); (Word "a", " "); (Number (chars "1"), ""); (RPar, ""); (RPar, ""); (RPar, "")])); reflexivity.
  - exists ([LPar; Word "or"; Word "a"; Word "a"] ++ [LPar; Cmp LT; Number (chars "1"); Number (chars "2"); RPar; RPar; RPar]), (err_start ++ "(assert m (or a a (< 1 2)))")%string. split.
    + apply (F_in_later _ _ "or" [TRef "a"; TRef "a"]); [right; left; reflexivity|repeat constructor; apply A|].
      apply F_form. eexists. reflexivity.
    + apply (err_text (l0 ++ [(LPar, ""); (Cmp LT, " "); (Number (chars "1"), " "); (Number (chars "2"), ""); (RPar, ""); (RPar, ""); (RPar, "")])); reflexivity.
  - exists ([LPar; Word "or"; Word "a"; Word "a"] ++ [LPar; Word "until"; Word "a"; RPar; RPar; RPar]), (err_start ++ "(assert m (or a a (until a)))")%string. split.
    + apply (F_in_later _ _ "or" [TRef "a"; TRef "a"]); [right; left; reflexivity|repeat constructor; apply A|].
      apply (F_second _ _ "until" (TRef "a")); [cbn; tauto|exact A|exact I].
    + apply (err_text (l0 ++ [(LPar, ""); (Word "until", " "); (Word "a", ""); (RPar, ""); (RPar, ""); (RPar, "")])); reflexivity.
  - exists ([LPar; Word "or"; Word "a"; Word "a"] ++ [LPar; Word "until"; Word "true"; LPar; Word "implies"; Word "a"; RPar; RPar; RPar; RPar]), (err_start ++ "(assert m (or a a (until true (implies a))))")%string. split.
    + apply (F_in_later _ _ "or" [TRef "a"; TRef "a"]); [right; left; reflexivity|repeat constructor; apply A|].
      apply (F_in_second _ _ "until" (TBool true)); [cbn; tauto|exact B|].
      apply (F_second _ _ "implies" (TRef "a")); [cbn; tauto|exact A|exact I].
    + apply (err_text (l0 ++ [(LPar, ""); (Word "until", " "); (Word "true", " "); (LPar, ""); (Word "implies", " "); (Word "a", ""); (RPar, ""); (RPar, ""); (RPar, ""); (RPar, "")])); reflexivity.
  - exists ([LPar; Word "or"; Word "a"; Word "a"] ++ [LPar; Word "always"; LPar; Word "and"; RPar; RPar; RPar; RPar]), (err_start ++ "(assert m (or a a (always (and))))")%string. split.
    + apply (F_in_later _ _ "or" [TRef "a"; TRef "a"]); [right; left; reflexivity|repeat constructor; apply A|].
      apply F_in_first; [cbn; tauto|]. apply (F_first _ _ "and"); [cbn; tauto|exact I].
    + apply (err_text (l0 ++ [(LPar, ""); (Word "always", " "); (LPar, ""); (Word "and", ""); (RPar, ""); (RPar, ""); (RPar, ""); (RPar, "")])); reflexivity.
  - exists ([LPar; Word "or"; Word "a"; Word "a"] ++ [LPar; Word "and"; Word "a"; RPar; RPar; RPar]), (err_start ++ "(assert m (or a a (and a)))")%string. split.
    + apply (F_in_later _ _ "or" [TRef "a"; TRef "a"]); [right; left; reflexivity|repeat constructor; apply A|].
      apply (F_few _ _ "and" (TRef "a")); [cbn; tauto|exact A|exact I].
    + apply (err_text (l0 ++ [(LPar, ""); (Word "and", " "); (Word "a", ""); (RPar, ""); (RPar, ""); (RPar, "")])); reflexivity.
Qed.
