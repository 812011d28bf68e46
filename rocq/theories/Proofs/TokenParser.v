(** The grammar on tokens, its agreement with the grammar on characters, and independence of the
    loop bounds. *)
From Coq Require Import Ascii.
From Verif Require Import Base Num.
From Verif.Spec Require Import Text.
From Verif.Model Require Import Ast Peg Parser.
From Verif.Proofs Require Import PegFacts ParserSafe TokenSim.
Local Open Scope nat_scope.

(** ** Loop bounds *)
Section Fuel.
Context {A St : Type}.
Definition below (p q : rule A St) : Prop := forall i s, p i s <> Hang -> q i s = p i s.
Lemma below_refl p : below p p. Proof. intros i s _. reflexivity. Qed.
Lemma below_seq p1 p2 q1 q2 : below p1 q1 -> below p2 q2 -> below (seq p1 p2) (seq q1 q2).
Proof.
  intros H1 H2 i s NH. unfold seq in *. destruct (p1 i s) as [[[i1|] s1]| | | |] eqn:E; cbn in NH; try congruence;
    (rewrite H1; rewrite E; [|discriminate]); cbn; auto.
Qed.
Lemma below_sor p1 p2 q1 q2 : below p1 q1 -> below p2 q2 -> below (sor p1 p2) (sor q1 q2).
Proof.
  intros H1 H2 i s NH. unfold sor in *. destruct (p1 i s) as [[[i1|] s1]| | | |] eqn:E; cbn in NH; try congruence;
    (rewrite H1; rewrite E; [|discriminate]); cbn; auto.
Qed.
Lemma below_must m p q : below p q -> below (must m p) (must m q).
Proof.
  intros H i s NH. unfold must in *. destruct (p i s) as [[[i1|] s1]| | | |] eqn:E; cbn in NH; try congruence;
    (rewrite H; rewrite E; [|discriminate]); cbn; auto.
Qed.
Lemma below_if_must m p1 p2 q1 q2 : below p1 q1 -> below p2 q2 -> below (if_must m p1 p2) (if_must m q1 q2).
Proof. intros H1 H2. apply below_seq; [exact H1|apply below_must, H2]. Qed.
Lemma below_act0 f p q : below p q -> below (act0 f p) (act0 f q).
Proof.
  intros H i s NH. unfold act0, act in *. destruct (p i s) as [[[i1|] s1]| | | |] eqn:E; cbn in NH; try congruence;
    (rewrite H; rewrite E; [|discriminate]); cbn; auto.
Qed.
Lemma below_star m n p q : m <= n -> below p q -> below (star_n m p) (star_n n q).
Proof.
  intros L H. revert n L. induction m as [|m IH]; intros [|n] L i s NH; cbn in NH; try congruence; [lia|].
  cbn [star_n]. destruct (p i s) as [[[i1|] s1]| | | |] eqn:E; cbn in NH; try congruence;
    (rewrite H; rewrite E; [|discriminate]); cbn; auto. apply IH; [lia|exact NH].
Qed.
Lemma below_until m n p1 p2 q1 q2 : m <= n -> below p1 q1 -> below p2 q2 -> below (until_n m p1 p2) (until_n n q1 q2).
Proof.
  intros L H1 H2. revert n L. induction m as [|m IH]; intros [|n] L i s NH; cbn in NH; try congruence; [lia|].
  cbn [until_n]. destruct (p1 i s) as [[[i1|] s1]| | | |] eqn:E; cbn in NH; try congruence;
    (rewrite H1; rewrite E; [|discriminate]); cbn; auto.
  destruct (p2 i s1) as [[[i1|] s2]| | | |] eqn:E2; cbn in NH; try congruence;
    (rewrite H2; rewrite E2; [|discriminate]); cbn; auto. apply IH; [lia|exact NH].
Qed.
End Fuel.

Section Grammar.
Context {F : Type} `{NF : Num F}.
Variable dbg : bool.
Variable stod : input -> option F.
Notation st := (state F).

Lemma below_term_match p q : below p q -> below (@term_match F p) (term_match q).
Proof.
  intros H i s NH. unfold term_match in *. rewrite H; [reflexivity|]. intros E. apply NH. rewrite E. reflexivity.
Qed.
Lemma below_Expression m n T T' : m <= n -> below T T' -> below (Expression dbg stod m T) (Expression dbg stod n T').
Proof.
  intros L H. unfold Expression, op_rule, plus_n.
  repeat (apply below_sor || apply below_act0 || apply below_if_must || apply below_seq || apply below_must
          || (apply below_star; [exact L|]) || exact H || apply below_refl).
Qed.
Lemma below_Term m n : m <= n -> below (Term dbg stod m) (Term dbg stod n).
Proof.
  revert n. induction m as [|m IH]; intros [|n] L; try (intros i s NH; cbn in NH; congruence); [lia|].
  cbn [Term]. apply below_term_match, below_act0, below_sor, below_refl.
  apply below_if_must; [apply below_refl|]. apply below_until; [exact L|apply below_refl|].
  apply below_Expression; [exact L|]. apply IH. lia.
Qed.
Lemma below_file m n : m <= n -> below (SpecificationFile dbg stod m) (SpecificationFile dbg stod n).
Proof.
  intros L. unfold SpecificationFile, StatementList, AnyCommand, Command, Assertion, DefineFormula.
  repeat (apply below_sor || apply below_act0 || apply below_if_must || apply below_seq || apply below_must
          || (apply below_until; [exact L| |]) || (apply below_Term; exact L) || apply below_refl).
Qed.
(** The bound does not matter once it exceeds the length of the text. *)
Lemma parse_fuel m n i : length i < m -> m <= n -> parse dbg stod n i = parse dbg stod m i.
Proof.
  intros Li L. assert (NH : SpecificationFile dbg stod m i (mkSpec [] [], empty_local) <> Hang).
  { intros E. pose proof (parse_safe dbg stod (fun _ => True)) as S. specialize (S ltac:(split; auto) m i Li).
    unfold parse in S. rewrite E in S. exact S. }
  unfold parse. rewrite (below_file m n L _ _ NH). reflexivity.
Qed.

(** ** The grammar on tokens *)
Definition tcmp : rule token st :=
  sor (act0 (local (fun l => Ok (with_comparison (Some LT) l))) (tok (Cmp LT)))
 (sor (act0 (local (fun l => Ok (with_comparison (Some GT) l))) (tok (Cmp GT)))
 (sor (act0 (local (fun l => Ok (with_comparison (Some LE) l))) (tok (Cmp LE)))
      (act0 (local (fun l => Ok (with_comparison (Some GE) l))) (tok (Cmp GE))))).
Definition tform : rule token st :=
  sor (act0 (local (fun l => Ok (with_form (Some FormOne) l))) (seq tident (tnum stod)))
      (act0 (local (fun l => Ok (with_form (Some FormTwo) l))) (seq (tnum stod) tident)).
Definition tpred : rule token st := act0 (local predicate_action) (if_must msg_PredicateForm tcmp tform).
Definition bool_action : local_state F -> outcome (local_state F) := fun l =>
  match l_primitive l with
  | None => Ok l
  | Some (PBool b) => Ok (with_primitive None (with_result (Some (Const_ b)) l))
  | Some _ => Throw BadVariantAccess
  end.
Definition tbool : rule token st :=
  act0 (local bool_action)
    (sor (act0 (local (fun l => Ok (with_primitive (Some (PBool true)) l))) (tkw "true"))
         (act0 (local (fun l => Ok (with_primitive (Some (PBool false)) l))) (tkw "false"))).
Definition top (m w : string) (tail : rule token st) (f : local_state F -> outcome (local_state F)) : rule token st :=
  act0 (local f) (if_must m (tkw w) tail).
Definition tExpression (n : nat) (T : rule token st) : rule token st :=
  sor tpred
 (sor (top msg_Term "not" T (not_action dbg))
 (sor (top msg_NaryTail "and" (plus_n n T) (nary_action And_))
 (sor (top msg_NaryTail "or" (plus_n n T) (nary_action Or_))
 (sor (top msg_BinaryTail "implies" (seq T T) (binary_action dbg Implies_))
 (sor (top msg_BinaryTail "iff" (seq T T) (binary_action dbg Iff_))
 (sor (top msg_BinaryTail "xor" (seq T T) (binary_action dbg Xor_))
 (sor (top msg_Term "always" T (unary_action dbg Always_))
 (sor (top msg_Term "eventually" T (unary_action dbg Eventually_))
 (sor (top msg_Term "until" (seq (must msg_Term T) (must msg_Term T)) (binary_action dbg (fun a b => Ok (Until_ a b))))
      T))))))))).
Definition tterm_match (p : rule token st) : rule token st := fun i s =>
  '(r, (g, l)) <- p i (fst s, empty_local) ;;
  Ok (r, (g, with_terms (l_terms (snd s) ++ l_terms l) (snd s))).
Fixpoint tTerm (n : nat) : rule token st :=
  match n with
  | 0 => fun _ _ => Hang
  | S n' => tterm_match (act0 term_action
              (sor (if_must msg_TermTail (tok LPar) (until_n n (tok RPar) (tExpression n (tTerm n')))) (sor tbool tident)))
  end.
Definition tAssertion (n : nat) : rule token st :=
  act0 (command_action dbg "Assertion" assertions (fun m g => mkSpec (formulas g) m))
       (if_must msg_Term (tkw "assert") (seq (must msg_Identifier tident) (must msg_Term (tTerm n)))).
Definition tDefine (n : nat) : rule token st :=
  act0 (command_action dbg "Formula" formulas (fun m g => mkSpec m (assertions g)))
       (if_must msg_Term (tkw "define-formula") (seq (must msg_Identifier tident) (must msg_Term (tTerm n)))).
Definition tAnyCommand (n : nat) : rule token st :=
  if_must msg_AnyCommandTail (tok LPar) (until_n n (tok RPar) (must msg_AllowedCommands (sor (tAssertion n) (tDefine n)))).
Definition tFile (n : nat) : rule token st := must msg_StatementList (until_n n eof (seq (tAnyCommand n) succeed)).
Definition tparse (n : nat) (ts : list token) : outcome (spec F) :=
  '(r, (g, _)) <- tFile n ts (mkSpec [] [], empty_local) ;;
  match r with Some _ => Ok g | None => Throw (LogicError LE_LocalError) end.

(** ** Agreement *)
Lemma sim_tcmp : sim tcmp (sor LtSymbol (sor GtSymbol (sor LeSymbol GeSymbol))).
Proof.
  repeat apply sim_sor; unfold LtSymbol, GtSymbol, LeSymbol, GeSymbol, set_comparison; apply sim_act0.
  - exact (sim_cmp LT).
  - exact (sim_cmp GT).
  - exact (sim_cmp LE).
  - exact (sim_cmp GE).
Qed.
Ltac kw := apply sim_keyword; right; split; [repeat constructor|reflexivity].
Lemma sim_tpred : sim tpred (PredicateTerm stod).
Proof.
  apply sim_act0, sim_if_must; [apply sim_tcmp|]. unfold PredicateForm, set_form, tform.
  apply sim_sor; apply sim_act0; apply sim_seq; (apply sim_ident || apply sim_num).
Qed.
Lemma sim_tbool : sim tbool BooleanLiteral.
Proof. apply sim_act0, sim_sor; unfold KwTrue, KwFalse, set_bool; apply sim_act0; kw. Qed.
Lemma sim_top m w tail tail' f : keyword_ok w -> sim tail tail' -> sim (top m w tail f) (op_rule m w tail' f).
Proof. intros K H. apply sim_act0, sim_if_must; [apply sim_keyword, K|exact H]. Qed.
Lemma sim_Expression n T T' : sim T T' -> sim (tExpression n T) (Expression dbg stod n T').
Proof.
  intros H. unfold tExpression, Expression.
  repeat (apply sim_sor; [first [apply sim_tpred|apply sim_top; [right; split; [repeat constructor|reflexivity]|]]|]);
    unfold plus_n; repeat (exact H || apply sim_star || apply sim_seq || apply sim_must).
Qed.
Lemma sim_term_match q p : sim q p -> sim (tterm_match q) (term_match p).
Proof.
  intros H ts i s L. specialize (H ts i (fst s, empty_local) L). unfold tterm_match, term_match.
  destruct (q ts (fst s, empty_local)) as [[[ts1|] [g l]]|e| | |], (p i (fst s, empty_local)) as [[[i1|] [g' l']]|e'| | |];
    cbn in *; try contradiction; auto.
  - destruct H as [A B]. injection B as -> ->. auto.
  - injection H as -> ->. reflexivity.
Qed.
Lemma sim_Term n : sim (tTerm n) (Term dbg stod n).
Proof.
  induction n as [|n IH]; [intros ts i s L; exact I|]. cbn [tTerm Term].
  apply sim_term_match, sim_act0, sim_sor; [|apply sim_sor; [apply sim_tbool|apply sim_ident]].
  apply sim_if_must; [apply sim_paren; auto|]. apply sim_until; [apply sim_paren; auto|]. apply sim_Expression, IH.
Qed.
Lemma sim_AnyCommand n : sim (tAnyCommand n) (AnyCommand dbg stod n).
Proof.
  apply sim_if_must; [apply sim_paren; auto|]. apply sim_until; [apply sim_paren; auto|]. apply sim_must, sim_sor.
  - apply sim_act0, sim_if_must; [kw|]. apply sim_seq; apply sim_must; [apply sim_ident|apply sim_Term].
  - apply sim_act0, sim_if_must; [apply sim_keyword; left; reflexivity|]. apply sim_seq; apply sim_must; [apply sim_ident|apply sim_Term].
Qed.

Lemma parse_text n ts i : text_of ts i -> parse dbg stod n i = tparse n ts.
Proof.
  intros H. assert (L : layout ts (skip false i)).
  { destruct H as [[-> G]|(g & j & -> & G & L)].
    - rewrite skip_last by exact G. constructor.
    - rewrite skip_gap by exact G. rewrite (skip_layout _ _ L). exact L. }
  set (s0 := (mkSpec [] [], empty_local) : st).
  assert (R : rel (tFile n ts s0) (SpecificationFile dbg stod n i s0)).
  { unfold SpecificationFile, StatementList, tFile.
    assert (E : must msg_StatementList (seq Skip (until_n n eof (seq (AnyCommand dbg stod n) Skip))) i s0 = must msg_StatementList (until_n n eof (seq (AnyCommand dbg stod n) Skip)) (skip false i) s0).
    { unfold must, seq at 1. rewrite Skip_eq. reflexivity. }
    rewrite E. apply sim_must; [|exact L]. apply sim_until; [apply sim_eof|]. apply sim_seq; [apply sim_AnyCommand|apply sim_skip]. }
  unfold parse, tparse. fold s0.
  destruct (tFile n ts s0) as [[[ts1|] [g l]]|e| | |], (SpecificationFile dbg stod n i s0) as [[[i1|] [g' l']]|e'| | |];
    cbn in *; try contradiction; try reflexivity; try congruence.
  destruct R as [_ R]. congruence.
Qed.
(** A text is parsed as its tokens are, with any large enough bound. *)
Lemma from_string_tokens ts t n : text_of ts (chars t) -> length (chars t) < n -> from_string dbg stod t = tparse n ts.
Proof.
  intros H L. rewrite <- (parse_text n ts _ H). unfold from_string. symmetry. apply parse_fuel; [apply Nat.lt_succ_diag_r|exact L].
Qed.
Lemma C62_lemma ts t1 t2 : text_of ts (chars t1) -> text_of ts (chars t2) -> from_string dbg stod t1 = from_string dbg stod t2.
Proof.
  intros H1 H2. set (n := S (length (chars t1) + length (chars t2))).
  rewrite (from_string_tokens ts t1 n H1), (from_string_tokens ts t2 n H2); unfold n; try lia. reflexivity.
Qed.
End Grammar.
