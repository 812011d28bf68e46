(** Parsing the tokens of a specification gives its meaning: C56-C59. *)
From Coq Require Import Ascii.
From Verif Require Import Base Num.
From Verif.Spec Require Import Text Syntax.
From Verif.Model Require Import Ast Peg Parser.
From Verif.Proofs Require Import PegFacts ParserSafe TokenSim TokenParser.
Local Open Scope nat_scope.

Lemma bind_assoc {A B C} (m : outcome A) (f : A -> outcome B) (g : B -> outcome C) :
  bind (bind m f) g = bind m (fun a => bind (f a) g).
Proof. destruct m; reflexivity. Qed.
Lemma bind_ext {A B} (m : outcome A) (f g : A -> outcome B) : (forall a, f a = g a) -> bind m f = bind m g.
Proof. intros H. destruct m; cbn; auto. Qed.

(** Induction over terms. *)
Section Ind.
Variable P : term -> Prop.
Hypothesis Hb : forall b, P (TBool b).
Hypothesis Hr : forall x, P (TRef x).
Hypothesis Hp : forall op x w, P (TPred op x w).
Hypothesis Hp2 : forall op w x, P (TPred2 op w x).
Hypothesis Hm : P TEmpty.
Hypothesis Hn : forall t, P t -> P (TNot t).
Hypothesis Ha : forall ts, Forall P ts -> P (TAnd ts).
Hypothesis Ho : forall ts, Forall P ts -> P (TOr ts).
Hypothesis Hi : forall t u, P t -> P u -> P (TImplies t u).
Hypothesis Hf : forall t u, P t -> P u -> P (TIff t u).
Hypothesis Hx : forall t u, P t -> P u -> P (TXor t u).
Hypothesis Hg : forall t, P t -> P (TAlways t).
Hypothesis He : forall t, P t -> P (TEventually t).
Hypothesis Hu : forall t u, P t -> P u -> P (TUntil t u).
Fixpoint term_induction (t : term) : P t :=
  let all := fix all ts : Forall P ts := match ts with [] => Forall_nil P | t :: ts' => Forall_cons t (term_induction t) (all ts') end in
  match t with
  | TBool b => Hb b
  | TRef x => Hr x
  | TPred op x w => Hp op x w
  | TPred2 op w x => Hp2 op w x
  | TEmpty => Hm
  | TNot t => Hn t (term_induction t)
  | TAnd ts => Ha ts (all ts)
  | TOr ts => Ho ts (all ts)
  | TImplies t u => Hi t u (term_induction t) (term_induction u)
  | TIff t u => Hf t u (term_induction t) (term_induction u)
  | TXor t u => Hx t u (term_induction t) (term_induction u)
  | TAlways t => Hg t (term_induction t)
  | TEventually t => He t (term_induction t)
  | TUntil t u => Hu t u (term_induction t) (term_induction u)
  end.
End Ind.

Lemma tokens_nonempty t : 1 <= length (tokens t).
Proof. destruct t; cbn; lia. Qed.

Section Eval.
Context {F : Type} `{NF : Num F}.
Variable dbg : bool.
Variable stod : input -> option F.
Notation st := (state F).
(** What the code does with predicates of the second form and with empty terms. *)
Definition code_two (op : cmp_op) (x : string) (v : F) : outcome (expr F) := Throw BadOptionalAccess.
Definition code_empty : outcome (expr F) := Throw (LogicError LE_TermEmpty).

Lemma decimal_digits w acc : fold_left (fun z c => (10 * z + digit_value c)%Z) w acc = digits_value acc w \/ forallb digit w = false.
Proof.
  revert acc. induction w as [|c w IH]; intros acc; [left; reflexivity|]. cbn [fold_left digits_value forallb].
  destruct (digit c) eqn:D; [|right; reflexivity]. cbn [andb].
  replace (digit_value c) with (Z.of_nat (nat_of_ascii c) - 48)%Z; [apply IH|].
  unfold digit_value. apply andb_true_iff in D as [D _]. apply Nat.leb_le in D. change (nat_of_ascii "0") with 48. lia.
Qed.
Definition number (w : input) : outcome (primitive F) :=
  if is_integer w then z <- stol w ;; Ok (PInt z) else match stod w with Some d => Ok (PDouble d) | None => Throw OutOfRange end.
Lemma number_literal w : (p <- number w ;; match pvalue p with Some v => Ok v | None => Throw BadVariantAccess end) = literal_value stod w.
Proof.
  unfold number, literal_value, is_integer, stol. destruct (forallb digit w) eqn:D.
  - unfold decimal_value. destruct (decimal_digits w 0) as [->|K]; [|congruence]. destruct (_ <=? _)%Z; reflexivity.
  - destruct (stod w); reflexivity.
Qed.
Lemma number_numeric w p : number w = Ok p -> exists v, pvalue p = Some v.
Proof.
  unfold number. destruct (is_integer w).
  - unfold stol. destruct (Z.leb _ _); cbn; [|discriminate]. intros [= <-]. eexists. reflexivity.
  - destruct (stod w); [|discriminate]. intros [= <-]. eexists. reflexivity.
Qed.
Lemma tnum_eq w ts (s : st) : tnum stod (Number w :: ts) s = (p <- number w ;; Ok (Some ts, (fst s, with_primitive (Some p) (snd s)))).
Proof. unfold number. cbn [tnum]. destruct (is_integer w); [destruct (stol w); reflexivity|destruct (stod w); reflexivity]. Qed.

Lemma lookup_find (m : fmap F) x : fmap_find m x = lookup m x.
Proof. induction m as [|[y e] m IH]; cbn; [reflexivity|]. destruct (String.eqb_spec x y), (string_dec x y); congruence. Qed.

Definition done (e : expr F) (l : local_state F) : local_state F := mkLocal (Some e) None [] None None [].
Notation fresh := (@empty_local F).

(** Terms in parentheses. *)
Lemma paren_term n X rest (s : st) m : match X with RPar :: _ => False | _ => True end -> 1 <= n ->
  tExpression dbg stod (S n) (tTerm dbg stod n) X (fst s, fresh) = (e <- m ;; Ok (Some (RPar :: rest), (fst s, done e fresh))) ->
  tTerm dbg stod (S n) (LPar :: X) s = (e <- m ;; Ok (Some rest, (fst s, with_terms (l_terms (snd s) ++ [e]) (snd s)))).
Proof.
  intros HX Ln E. cbn [tTerm]. unfold tterm_match, act0, act, sor at 1, if_must, seq, tok at 1, one at 1. cbn [bind].
  unfold must. remember (tExpression dbg stod (S n) (tTerm dbg stod n)) as EX.
  assert (U : until_n (S n) (tok RPar) EX X (fst s, fresh) = (e <- m ;; Ok (Some rest, (fst s, done e fresh)))).
  { destruct n as [|n]; [lia|]. cbn [until_n]. unfold tok at 1, one at 1.
    assert (R : (match X with c :: i' => if match c with RPar => true | _ => false end then Some i' else None | [] => None end) = None).
    { destruct X as [|[] X]; try reflexivity. destruct HX. }
    rewrite R. cbn [bind]. rewrite E. rewrite bind_assoc. apply bind_ext. intros e. reflexivity. }
  rewrite U. rewrite !bind_assoc. apply bind_ext. intros e. reflexivity.
Qed.

(** Operators. *)
Lemma tpred_word w ts (s : st) : tpred stod (Word w :: ts) s = Ok (None, s).
Proof. reflexivity. Qed.
Lemma top_miss m w w' tail f ts (s : st) : String.eqb w w' = false -> top m w' tail f (Word w :: ts) s = Ok (None, s).
Proof. intros H. unfold top, act0, act, if_must, seq, tkw, one. rewrite H. reflexivity. Qed.
Lemma top_hit m w tail f ts (s : st) r : must m tail ts s = r -> (forall s1, r <> Ok (None, s1)) ->
  top m w tail f (Word w :: ts) s = ('(i, s1) <- r ;; l <- f (snd s1) ;; Ok (i, (fst s1, l))).
Proof.
  intros H NN. unfold top, act0, act, if_must, seq, tkw, one at 1. rewrite String.eqb_refl. cbn [bind]. rewrite H.
  destruct r as [[[i|] s1]|e| | |]; cbn; try reflexivity; [|destruct (NN s1); reflexivity].
  unfold local. rewrite bind_assoc. reflexivity.
Qed.
Lemma sor_none p q ts (s : st) : p ts s = Ok (None, s) -> @sor token st p q ts s = q ts s.
Proof. intros H. unfold sor. rewrite H. reflexivity. Qed.
Lemma sor_left p q ts (s : st) : (forall s1, p ts s <> Ok (None, s1)) -> @sor token st p q ts s = p ts s.
Proof. intros H. unfold sor. destruct (p ts s) as [[[i|] s1]|e| | |]; cbn; try reflexivity. destruct (H s1); reflexivity. Qed.
Lemma must_not_none m (p : rule token st) ts s s1 : must m p ts s <> Ok (None, s1).
Proof. unfold must. destruct (p ts s) as [[[i|] ?]|e| | |]; cbn; discriminate. Qed.
Lemma must_some {X} w (p : rule token st) ts s (m : outcome X) f : p ts s = (x <- m ;; Ok (Some (fst (f x)), snd (f x))) ->
  must w p ts s = (x <- m ;; Ok (Some (fst (f x)), snd (f x))).
Proof. intros H. unfold must. rewrite H. destruct m; reflexivity. Qed.
Lemma top_not_none m w tail f ts (s s1 : st) : top m w tail f (Word w :: ts) s <> Ok (None, s1).
Proof.
  rewrite (top_hit m w tail f ts s _ eq_refl); [|apply must_not_none].
  pose proof (must_not_none m tail ts s) as M. destruct (must m tail ts s) as [[[i|] s2]|e| | |]; cbn; try discriminate.
  - destruct (f (snd s2)); cbn; discriminate.
  - destruct (M s2 eq_refl).
Qed.

(** The alternative of an operator. *)
Definition tail_of (w : string) (n : nat) (T : rule token st) : option (rule token st * (local_state F -> outcome (local_state F))) :=
  if String.eqb w "not" then Some (must msg_Term T, not_action dbg)
  else if String.eqb w "and" then Some (must msg_NaryTail (plus_n n T), nary_action And_)
  else if String.eqb w "or" then Some (must msg_NaryTail (plus_n n T), nary_action Or_)
  else if String.eqb w "implies" then Some (must msg_BinaryTail (seq T T), binary_action dbg Implies_)
  else if String.eqb w "iff" then Some (must msg_BinaryTail (seq T T), binary_action dbg Iff_)
  else if String.eqb w "xor" then Some (must msg_BinaryTail (seq T T), binary_action dbg Xor_)
  else if String.eqb w "always" then Some (must msg_Term T, unary_action dbg Always_)
  else if String.eqb w "eventually" then Some (must msg_Term T, unary_action dbg Eventually_)
  else if String.eqb w "until" then Some (must msg_Term (seq (must msg_Term T) (must msg_Term T)), binary_action dbg (fun a b => Ok (Until_ a b)))
  else None.
Lemma expr_word w n T ts (s : st) : tExpression dbg stod n T (Word w :: ts) s =
  match tail_of w n T with
  | Some (tail, f) => '(i, s1) <- tail ts s ;; l <- f (snd s1) ;; Ok (i, (fst s1, l))
  | None => T (Word w :: ts) s
  end.
Proof.
  unfold tExpression. rewrite sor_none by apply tpred_word. unfold tail_of.
  repeat match goal with |- context [sor (top ?m ?k ?tl ?f) ?q] =>
    let NE := fresh "NE" in destruct (String.eqb_spec w k) as [->|NE];
    [rewrite sor_left by (intros; apply top_not_none); apply top_hit; [reflexivity|apply must_not_none]|
     rewrite (sor_none (top m k tl f) q) by (apply top_miss, String.eqb_neq, NE)] end.
  reflexivity.
Qed.

(** What a parsed term does. *)
Definition parses (n : nat) (t : term) : Prop := forall rest (s : st),
  tTerm dbg stod n (tokens t ++ rest) s =
  (e <- term_value stod code_two code_empty (lookup (formulas (fst s))) t ;; Ok (Some rest, (fst s, with_terms (l_terms (snd s) ++ [e]) (snd s)))).

Definition stop (ts : list token) : Prop := match ts with RPar :: _ | Bad :: _ | Number _ :: _ | Cmp _ :: _ | [] => True | _ => False end.
Lemma term_fails n ts (s : st) : stop ts ->
  tTerm dbg stod (S n) ts s = Ok (None, s).
Proof.
  intros H. cbn [tTerm]. unfold tterm_match, act0, act, sor at 1, if_must, seq, tok at 1, one at 1.
  destruct ts as [|[] ts]; try contradiction; cbn; rewrite with_same; destruct s; reflexivity.
Qed.

Lemma binary_expr n w t u mk ts (g : spec F) : parses n t -> parses n u ->
  (tail_of w (S n) (tTerm dbg stod n) = Some (must msg_BinaryTail (seq (tTerm dbg stod n) (tTerm dbg stod n)), binary_action dbg mk) \/
   tail_of w (S n) (tTerm dbg stod n) = Some (must msg_Term (seq (must msg_Term (tTerm dbg stod n)) (must msg_Term (tTerm dbg stod n))), binary_action dbg mk)) ->
  tExpression dbg stod (S n) (tTerm dbg stod n) (Word w :: tokens t ++ tokens u ++ ts) (g, fresh) =
  (e <- (x <- term_value stod code_two code_empty (lookup (formulas g)) t ;; y <- term_value stod code_two code_empty (lookup (formulas g)) u ;; mk x y) ;;
   Ok (Some ts, (g, done e fresh))).
Proof.
  intros Ht Hu TL. rewrite expr_word.
  assert (E : forall m T1 T2, (T1 = tTerm dbg stod n /\ T2 = tTerm dbg stod n) \/ (T1 = must msg_Term (tTerm dbg stod n) /\ T2 = must msg_Term (tTerm dbg stod n)) ->
      must m (seq T1 T2) (tokens t ++ tokens u ++ ts) (g, fresh) =
      (x <- term_value stod code_two code_empty (lookup (formulas g)) t ;; y <- term_value stod code_two code_empty (lookup (formulas g)) u ;;
       Ok (Some ts, (g, with_terms [x; y] fresh)))).
  { intros m T1 T2 HT. unfold must at 1, seq.
    destruct HT as [[-> ->]|[-> ->]].
    - rewrite Ht. rewrite !bind_assoc. apply bind_ext. intros x. cbn [bind]. rewrite Hu. rewrite !bind_assoc. apply bind_ext. intros y. reflexivity.
    - unfold must at 1. rewrite Ht. rewrite !bind_assoc. apply bind_ext. intros x. cbn [bind]. unfold must at 1. rewrite Hu. rewrite !bind_assoc. apply bind_ext. intros y. reflexivity. }
  assert (G : ('(i, s1) <- (x <- term_value stod code_two code_empty (lookup (formulas g)) t ;; y <- term_value stod code_two code_empty (lookup (formulas g)) u ;;
                  Ok (Some ts, (g, with_terms [x; y] fresh))) ;;
               l <- binary_action dbg mk (snd s1) ;; Ok (i, (fst s1, l))) =
              (e <- (x <- term_value stod code_two code_empty (lookup (formulas g)) t ;; y <- term_value stod code_two code_empty (lookup (formulas g)) u ;; mk x y) ;;
               Ok (Some ts, (g, done e fresh)))).
  { rewrite !bind_assoc. apply bind_ext. intros x. rewrite !bind_assoc. apply bind_ext. intros y. cbn.
    unfold binary_action, assert_. cbn. rewrite !andb_false_r. cbn. rewrite bind_assoc. apply bind_ext. intros e. reflexivity. }
  destruct TL as [-> | ->]; rewrite E by auto; exact G.
Qed.
Lemma binary_parses n w t u mk rest (s : st) : 1 <= n -> parses n t -> parses n u ->
  (tail_of w (S n) (tTerm dbg stod n) = Some (must msg_BinaryTail (seq (tTerm dbg stod n) (tTerm dbg stod n)), binary_action dbg mk) \/
   tail_of w (S n) (tTerm dbg stod n) = Some (must msg_Term (seq (must msg_Term (tTerm dbg stod n)) (must msg_Term (tTerm dbg stod n))), binary_action dbg mk)) ->
  tTerm dbg stod (S n) (app_op w (tokens t ++ tokens u) ++ rest) s =
  (e <- (x <- term_value stod code_two code_empty (lookup (formulas (fst s))) t ;; y <- term_value stod code_two code_empty (lookup (formulas (fst s))) u ;; mk x y) ;;
   Ok (Some rest, (fst s, with_terms (l_terms (snd s) ++ [e]) (snd s)))).
Proof.
  intros Ln Ht Hu TL. unfold app_op. cbn [app]. rewrite <- !app_assoc. cbn [app].
  apply paren_term; [exact I|exact Ln|]. apply binary_expr; assumption.
Qed.
Lemma unary_expr n w t f mk ts (g : spec F) : parses n t ->
  tail_of w (S n) (tTerm dbg stod n) = Some (must msg_Term (tTerm dbg stod n), f) ->
  (forall e, f (with_terms [e] fresh) = Ok (done (mk e) fresh)) ->
  tExpression dbg stod (S n) (tTerm dbg stod n) (Word w :: tokens t ++ ts) (g, fresh) =
  (e <- (x <- term_value stod code_two code_empty (lookup (formulas g)) t ;; Ok (mk x)) ;; Ok (Some ts, (g, done e fresh))).
Proof.
  intros Ht TL HF. rewrite expr_word, TL. unfold must. rewrite Ht. rewrite !bind_assoc. apply bind_ext. intros x.
  cbn. cbn in HF. rewrite HF. reflexivity.
Qed.
Lemma unary_parses n w t f mk rest (s : st) : 1 <= n -> parses n t ->
  tail_of w (S n) (tTerm dbg stod n) = Some (must msg_Term (tTerm dbg stod n), f) ->
  (forall e, f (with_terms [e] fresh) = Ok (done (mk e) fresh)) ->
  tTerm dbg stod (S n) (app_op w (tokens t) ++ rest) s =
  (e <- (x <- term_value stod code_two code_empty (lookup (formulas (fst s))) t ;; Ok (mk x)) ;;
   Ok (Some rest, (fst s, with_terms (l_terms (snd s) ++ [e]) (snd s)))).
Proof.
  intros Ln Ht TL HF. unfold app_op. cbn [app]. rewrite <- !app_assoc. cbn [app].
  apply paren_term; [exact I|exact Ln|]. eapply unary_expr; eassumption.
Qed.

(** [mk es]: And or Or of the operands. *)
Lemma star_parses n us ts (g : spec F) es0 : Forall (parses (S n)) us -> stop ts -> forall k, length us < k ->
  star_n k (tTerm dbg stod (S n)) (flat_map tokens us ++ ts) (g, with_terms es0 fresh) =
  (es <- list_values (term_value stod code_two code_empty (lookup (formulas g))) us ;; Ok (Some ts, (g, with_terms (es0 ++ es) fresh))).
Proof.
  intros H ST. revert es0. induction H as [|t us Ht Hts IH]; intros es0 k L; (destruct k as [|k]; [cbn in L; lia|]); cbn [star_n flat_map list_values].
  - cbn [app]. rewrite term_fails by exact ST. cbn. rewrite app_nil_r. reflexivity.
  - rewrite <- app_assoc. rewrite Ht. cbn [fst snd]. rewrite !bind_assoc. apply bind_ext. intros e. cbn [bind]. change (l_terms (with_terms es0 fresh)) with es0.
    change (with_terms (es0 ++ [e]) (with_terms es0 fresh)) with (with_terms (es0 ++ [e]) fresh).
    rewrite IH by (cbn in L; lia). rewrite !bind_assoc. apply bind_ext. intros es. cbn. rewrite <- app_assoc. reflexivity.
Qed.
Lemma nary_expr n w us mk node ts (g : spec F) : length us <= n -> Forall (parses (S n)) us -> stop ts ->
  tail_of w (S (S n)) (tTerm dbg stod (S n)) = Some (must msg_NaryTail (plus_n (S (S n)) (tTerm dbg stod (S n))), nary_action mk) ->
  (forall es, 2 <= length es -> mk es = Ok (node es)) ->
  tExpression dbg stod (S (S n)) (tTerm dbg stod (S n)) (Word w :: flat_map tokens us ++ ts) (g, fresh) =
  (e <- (es <- list_values (term_value stod code_two code_empty (lookup (formulas g))) us ;; if length es <? 2 then Throw (few (length es)) else Ok (node es)) ;;
   Ok (Some ts, (g, done e fresh))).
Proof.
  intros Ln H ST TL MK. rewrite expr_word, TL.
  assert (FW : forall es : list (expr F), es <> [] -> length es < 2 -> msg_few_terms (length es) = "expected at least 2 terms, got 1"%string /\ few (length es) = ParseError (msg_few_terms (length es))) by (intros [|e [|e' es]] NE Le; [congruence|split; reflexivity|cbn in Le; lia]).
  assert (NA : forall es, es <> [] -> nary_action mk (with_terms es fresh) = (e <- (if length es <? 2 then Throw (few (length es)) else Ok (node es)) ;; Ok (done e fresh))).
  { intros es NE. unfold nary_action. cbn [l_terms with_terms]. destruct (Nat.ltb_spec (length es) 2) as [Le|]; [rewrite (proj2 (FW es NE Le)); reflexivity|]. rewrite MK by assumption. reflexivity. }
  destruct H as [|t us Ht Hts].
  - unfold must, plus_n, seq. cbn [flat_map app]. rewrite term_fails by exact ST. reflexivity.
  - unfold must, plus_n, seq. cbn [flat_map list_values]. rewrite <- app_assoc. rewrite Ht. cbn [fst snd]. rewrite !bind_assoc.
    apply bind_ext. intros e. cbn [bind].
    change (with_terms (l_terms fresh ++ [e]) fresh) with (with_terms [e] fresh).
    rewrite star_parses; [|exact Hts|exact ST|cbn in Ln; lia]. rewrite !bind_assoc. apply bind_ext. intros es. cbn [bind].
    cbn [snd fst]. rewrite NA by (destruct es; discriminate). rewrite !bind_assoc. apply bind_ext. intros x. reflexivity.
Qed.
Lemma nary_parses n w ts mk node rest (s : st) : length ts <= n -> Forall (parses (S n)) ts ->
  tail_of w (S (S n)) (tTerm dbg stod (S n)) = Some (must msg_NaryTail (plus_n (S (S n)) (tTerm dbg stod (S n))), nary_action mk) ->
  (forall es, 2 <= length es -> mk es = Ok (node es)) ->
  tTerm dbg stod (S (S n)) (app_op w (flat_map tokens ts) ++ rest) s =
  (e <- (es <- list_values (term_value stod code_two code_empty (lookup (formulas (fst s)))) ts ;; if length es <? 2 then Throw (few (length es)) else Ok (node es)) ;;
   Ok (Some rest, (fst s, with_terms (l_terms (snd s) ++ [e]) (snd s)))).
Proof.
  intros Ln H TL MK. unfold app_op. cbn [app]. rewrite <- !app_assoc. cbn [app].
  apply paren_term; [exact I|lia|]. eapply nary_expr; try eassumption. exact I.
Qed.

Lemma flat_length ts t : In t ts -> length (tokens t) <= length (flat_map tokens ts).
Proof. induction ts as [|u ts IH]; intros []; cbn; rewrite app_length; [subst; lia|]. specialize (IH H). lia. Qed.
Lemma flat_count ts : length ts <= length (flat_map tokens ts).
Proof. induction ts as [|u ts IH]; cbn; [lia|]. rewrite app_length. pose proof (tokens_nonempty u). lia. Qed.
Lemma tpred_one op x w ts (g : spec F) : tpred stod (Cmp op :: Word x :: Number w :: ts) (g, fresh) =
  (e <- (v <- literal_value stod w ;; Ok (EPred x op v)) ;; Ok (Some ts, (g, done e fresh))).
Proof.
  unfold tpred, act0, act, if_must, seq, must.
  assert (C : forall r, tcmp (Cmp op :: r) (g, fresh) = Ok (Some r, (g, with_comparison (Some op) fresh))) by (intros r; destruct op; reflexivity).
  rewrite C. cbn [bind]. unfold tform, sor, act0 at 1, act at 1, seq at 1. cbn [tident fst snd bind]. rewrite tnum_eq.
  rewrite <- number_literal. destruct (number w) as [p|e| | |] eqn:N; try reflexivity.
  destruct (number_numeric w p N) as [v V]. cbn [bind local fst snd]. rewrite V.
  pose proof (predicate_eq None p [] x FormOne op [] v V) as E. cbn [app] in E.
  cbv [bind local fst snd with_form push with_primitive with_comparison with_identifiers l_result l_primitive l_identifiers l_form l_comparison l_terms empty_local app].
  rewrite E. reflexivity.
Qed.
Lemma tpred_two op x w ts (g : spec F) : tpred stod (Cmp op :: Number w :: Word x :: ts) (g, fresh) =
  (e <- (v <- literal_value stod w ;; code_two op x v) ;; Ok (Some ts, (g, done e fresh))).
Proof.
  unfold tpred, act0, act, if_must, seq, must.
  assert (C : forall r, tcmp (Cmp op :: r) (g, fresh) = Ok (Some r, (g, with_comparison (Some op) fresh))) by (intros r; destruct op; reflexivity).
  rewrite C. cbn [bind]. unfold tform, sor, act0 at 1, act at 1, seq at 1. cbn [tident fst snd bind]. unfold act0, act, seq. rewrite tnum_eq.
  rewrite <- number_literal. destruct (number w) as [p|e| | |] eqn:N; try reflexivity.
  destruct (number_numeric w p N) as [v V]. cbn [bind local fst snd tident]. rewrite V.
  pose proof (predicate_eq None p [] x FormTwo op [] v V) as E. cbn [app] in E.
  cbv [bind local fst snd with_form push with_primitive with_comparison with_identifiers l_result l_primitive l_identifiers l_form l_comparison l_terms empty_local app].
  rewrite E. reflexivity.
Qed.

Lemma term_parses t : leaves ref_ok t = true -> forall n, length (tokens t) <= n -> parses n t.
Proof.
  induction t as [b|x|op x w|op w x| |t IH|ts IH|ts IH|t u IHt IHu|t u IHt IHu|t u IHt IHu|t IH|t IH|t u IHt IHu] using term_induction;
    intros R n L; cbn [tokens] in L; (destruct n as [|n]; [cbn in L; lia|]); intros rest s; cbn [tokens term_value].
  - destruct b; reflexivity.
  - cbn [app tTerm]. unfold tterm_match, act0, act, sor at 1, if_must, seq, tok at 1, one at 1. cbn [bind].
    unfold sor, tbool, act0, act, tkw, sor, one. cbn in R. apply andb_true_iff in R as [R1 R2].
    apply negb_true_iff in R1, R2. rewrite R1. cbn [bind]. rewrite R2. cbn. unfold push. cbn. rewrite lookup_find.
    destruct (lookup (formulas (fst s)) x); reflexivity.
  - apply paren_term; [exact I|cbn in L; lia|]. unfold tExpression. rewrite sor_left; rewrite tpred_one; [reflexivity|].
    intros s1. destruct (literal_value stod w); discriminate.
  - apply paren_term; [exact I|cbn in L; lia|]. unfold tExpression. rewrite sor_left; rewrite tpred_two; [reflexivity|].
    intros s1. destruct (literal_value stod w); discriminate.
  - reflexivity.
  - apply unary_parses with (mk := Not_) (f := not_action dbg); [unfold app_op in L; cbn in L; lia| |reflexivity|].
    + apply IH; [exact R|]. unfold app_op in L. cbn in L. rewrite app_length in L. lia.
    + intros e. unfold not_action, assert_. cbn. rewrite andb_false_r. cbn. reflexivity.
  - destruct n as [|n]; [unfold app_op in L; cbn in L; rewrite app_length in L; cbn in L; lia|].
    assert (L' : length (flat_map tokens ts) <= n) by (unfold app_op in L; cbn in L; rewrite app_length in L; cbn in L; lia).
    apply nary_parses with (mk := And_); [pose proof (flat_count ts); lia| |reflexivity|].
    + rewrite Forall_forall in *. intros t K. apply IH; [exact K|cbn in R; rewrite forallb_forall in R; apply R, K|]. pose proof (flat_length ts t K). lia.
    + intros es E. unfold And_. destruct (Nat.ltb_spec (length es) 2); [lia|reflexivity].
  - destruct n as [|n]; [unfold app_op in L; cbn in L; rewrite app_length in L; cbn in L; lia|].
    assert (L' : length (flat_map tokens ts) <= n) by (unfold app_op in L; cbn in L; rewrite app_length in L; cbn in L; lia).
    apply nary_parses with (mk := Or_); [pose proof (flat_count ts); lia| |reflexivity|].
    + rewrite Forall_forall in *. intros t K. apply IH; [exact K|cbn in R; rewrite forallb_forall in R; apply R, K|]. pose proof (flat_length ts t K). lia.
    + intros es E. unfold Or_. destruct (Nat.ltb_spec (length es) 2); [lia|reflexivity].
  - cbn in R; apply andb_true_iff in R as [Rt Ru]. unfold app_op in L. cbn in L. rewrite !app_length in L. cbn in L.
    apply binary_parses; [lia|apply IHt; [exact Rt|lia]|apply IHu; [exact Ru|lia]|left; reflexivity].
  - cbn in R; apply andb_true_iff in R as [Rt Ru]. unfold app_op in L. cbn in L. rewrite !app_length in L. cbn in L.
    apply binary_parses; [lia|apply IHt; [exact Rt|lia]|apply IHu; [exact Ru|lia]|left; reflexivity].
  - cbn in R; apply andb_true_iff in R as [Rt Ru]. unfold app_op in L. cbn in L. rewrite !app_length in L. cbn in L.
    apply binary_parses; [lia|apply IHt; [exact Rt|lia]|apply IHu; [exact Ru|lia]|left; reflexivity].
  - apply unary_parses with (mk := fun e => EAlways e interval_default) (f := unary_action dbg Always_); [unfold app_op in L; cbn in L; lia| |reflexivity|].
    + apply IH; [exact R|]. unfold app_op in L. cbn in L. rewrite app_length in L. lia.
    + intros e. unfold unary_action, assert_. cbn. rewrite andb_false_r. cbn. reflexivity.
  - apply unary_parses with (mk := fun e => EEventually e interval_default) (f := unary_action dbg Eventually_); [unfold app_op in L; cbn in L; lia| |reflexivity|].
    + apply IH; [exact R|]. unfold app_op in L. cbn in L. rewrite app_length in L. lia.
    + intros e. unfold unary_action, assert_. cbn. rewrite andb_false_r. cbn. reflexivity.
  - cbn in R; apply andb_true_iff in R as [Rt Ru]. unfold app_op in L. cbn in L. rewrite !app_length in L. cbn in L.
    apply binary_parses with (mk := fun x y => Ok (EUntil x y interval_default)); [lia|apply IHt; [exact Rt|lia]|apply IHu; [exact Ru|lia]|right; reflexivity].
Qed.
(** ** Commands *)
Notation value_of := (term_value stod code_two code_empty).
Lemma command_parses n c rest (g : spec F) : leaves ref_ok (body c) = true -> length (command_tokens c) <= n ->
  tAnyCommand dbg stod n (command_tokens c ++ rest) (g, fresh) =
  (e <- value_of (lookup (formulas g)) (body c) ;;
   m <- add (if is_def c then "Formula"%string else "Assertion"%string) (if is_def c then formulas g else assertions g) (name c) e ;;
   Ok (Some rest, (if is_def c then mkSpec m (assertions g) else mkSpec (formulas g) m, fresh))).
Proof.
  intros R L.
  assert (Lt : length (tokens (body c)) <= n) by (destruct c; cbn in L; rewrite app_length in L; cbn [body]; lia).
  pose proof (term_parses _ R n Lt) as T.
  destruct n as [|[|n]]; [destruct c; cbn in L; lia..|].
  remember (S n) as n1. unfold tAnyCommand, if_must at 1, seq at 1.
  assert (E : exists w, w = command_tokens c ++ rest) by eauto. destruct E as [w Ew].
  assert (X : until_n (S n1) (tok RPar) (must msg_AllowedCommands (sor (tAssertion dbg stod (S n1)) (tDefine dbg stod (S n1)))) (tl w) (g, fresh) =
     (e <- value_of (lookup (formulas g)) (body c) ;;
      m <- add (if is_def c then "Formula"%string else "Assertion"%string) (if is_def c then formulas g else assertions g) (name c) e ;;
      Ok (Some rest, (if is_def c then mkSpec m (assertions g) else mkSpec (formulas g) m, fresh)))).
  { subst w. rewrite Heqn1. cbn [until_n]. rewrite <- Heqn1. destruct c as [x t|x t]; cbn [command_tokens app tl is_def name body] in *.
    - unfold tok at 1, one at 1. cbn [bind]. unfold must at 1, sor at 1. unfold tAssertion, act0, act, if_must at 1, seq at 1, tkw at 1, one at 1. cbn [bind].
      unfold tDefine, act0, act, if_must, seq, tkw at 1, one at 1. cbn [bind String.eqb Ascii.eqb Bool.eqb]. unfold must at 1, must at 1. cbn [bind tident]. unfold must at 1.
      rewrite <- app_assoc. cbn [app]. rewrite T. rewrite !bind_assoc. apply bind_ext. intros e. cbn [bind fst snd].
      unfold command_action, assert_. cbn. rewrite lookup_find. unfold add. destruct (lookup (formulas g) x) as [e'|] eqn:LK.
      + rewrite !andb_false_r. reflexivity.
      + rewrite !andb_false_r. reflexivity.
    - unfold tok at 1, one at 1. cbn [bind]. unfold must at 1, sor at 1. unfold tAssertion, act0, act, if_must at 1, seq at 1, tkw at 1, one at 1. cbn [bind String.eqb Ascii.eqb Bool.eqb].
      unfold must at 1, seq, must at 1. cbn [bind tident]. unfold must at 1.
      rewrite <- app_assoc. cbn [app]. rewrite T. rewrite !bind_assoc. apply bind_ext. intros e. cbn [bind fst snd].
      unfold command_action, assert_. cbn. rewrite lookup_find. unfold add. destruct (lookup (assertions g) x) as [e'|] eqn:LK.
      + rewrite !andb_false_r. reflexivity.
      + rewrite !andb_false_r. reflexivity. }
  unfold must at 1. destruct c as [x t|x t]; cbn [command_tokens app] in *; unfold tok at 1, one at 1; cbn [bind]; subst w; cbn [tl] in X; rewrite X;
    (destruct (value_of _ _) as [e| | | |]; cbn; try reflexivity); (destruct (add _ _ _ _); reflexivity).
Qed.

Lemma commands_parse n cs (g : spec F) : all_leaves ref_ok cs = true -> length (spec_tokens cs) <= n -> forall k, length cs < k ->
  until_n k eof (seq (tAnyCommand dbg stod n) succeed) (spec_tokens cs) (g, fresh) =
  ('(d, a) <- spec_value stod code_two code_empty (formulas g) (assertions g) cs ;; Ok (Some [], (mkSpec d a, fresh))).
Proof.
  revert g. induction cs as [|c cs IH]; intros g R L k Lk; (destruct k as [|k]; [cbn in Lk; lia|]); cbn [until_n].
  - cbn. destruct g. reflexivity.
  - cbn [spec_tokens flat_map] in *. fold (spec_tokens cs) in *. rewrite app_length in L. cbn in R. apply andb_true_iff in R as [R1 R2].
    assert (EO : @eof token st (command_tokens c ++ spec_tokens cs) (g, fresh) = Ok (None, (g, fresh))) by (destruct c; reflexivity).
    rewrite EO. cbn [bind]. unfold seq at 1. rewrite command_parses by (assumption || lia).
    destruct c as [x t|x t]; cbn [spec_value is_def body name].
    + rewrite !bind_assoc. apply bind_ext. intros e. rewrite !bind_assoc. apply bind_ext. intros m. cbn [bind]. unfold succeed at 1. cbn [bind].
      rewrite IH; [reflexivity|exact R2|lia|cbn in Lk; lia].
    + rewrite !bind_assoc. apply bind_ext. intros e. rewrite !bind_assoc. apply bind_ext. intros m. cbn [bind]. unfold succeed at 1. cbn [bind].
      rewrite IH; [reflexivity|exact R2|lia|cbn in Lk; lia].
Qed.
Lemma count_commands cs : length cs <= length (spec_tokens cs).
Proof. unfold spec_tokens. induction cs as [|c cs IH]; cbn; [lia|]. rewrite app_length. destruct c; cbn; lia. Qed.

Lemma tparse_spec n cs : all_leaves ref_ok cs = true -> length (spec_tokens cs) < n ->
  tparse dbg stod n (spec_tokens cs) = ('(d, a) <- spec_value stod code_two code_empty [] [] cs ;; Ok (mkSpec d a)).
Proof.
  intros R L. unfold tparse, tFile, must at 1. rewrite commands_parse; [|exact R|lia|pose proof (count_commands cs); lia].
  cbn [formulas assertions]. destruct (spec_value stod code_two code_empty [] [] cs) as [[d a]| | | |]; reflexivity.
Qed.
(** What the code makes of any text of a specification. *)
Lemma code_spec cs t : all_leaves ref_ok cs = true -> spec_text cs t ->
  from_string dbg stod t = ('(d, a) <- spec_value stod code_two code_empty [] [] cs ;; Ok (mkSpec d a)).
Proof.
  intros R H. rewrite (from_string_tokens dbg stod _ t (S (length (chars t) + length (spec_tokens cs))) H) by lia.
  apply tparse_spec; [exact R|lia].
Qed.
End Eval.
