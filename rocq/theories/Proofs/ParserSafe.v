(** C55, C61 and the parser half of C51: the parser ends on every input with a specification or
    one of five exceptions, and every property closed under the construction of formulas holds
    of all parsed formulas. *)
From Coq Require Import Ascii.
From Verif Require Import Base Num.
From Verif.Spec Require Import Text Syntax.
From Verif.Model Require Import Ast Peg Parser.
From Verif.Proofs Require Import PegFacts.
Local Open Scope nat_scope.

(** The message is that of a rule. *)
Ltac listed := left; repeat (first [left; reflexivity|right]).

Section Safe.
Context {F : Type} `{NF : Num F}.
Variable dbg : bool.
Variable stod : input -> option F.
Variable P : expr F -> Prop.

(** The value of a numeral. *)
Definition of_numeral (v : F) : Prop := exists w, (integer w \/ decimal w) /\ literal_value stod w = Ok v.
(** [P] holds of what the actions build from formulas with [P]. *)
Record closed : Prop := {
  cl_const b : P (EConst b);
  cl_pred x c v : of_numeral v -> P (EPred x c v);
  cl_not e : P e -> P (Not_ e);
  cl_and l e : Forall P l -> And_ l = Ok e -> P e;
  cl_or l e : Forall P l -> Or_ l = Ok e -> P e;
  cl_implies x y e : P x -> P y -> Implies_ x y = Ok e -> P e;
  cl_iff x y e : P x -> P y -> Iff_ x y = Ok e -> P e;
  cl_xor x y e : P x -> P y -> Xor_ x y = Ok e -> P e;
  cl_always e : P e -> P (Always_ e);
  cl_eventually e : P e -> P (Eventually_ e);
  cl_until x y : P x -> P y -> P (Until_ x y)
}.
Hypothesis CL : closed.

Notation st := (state F).
Notation ends := (ends dbg).
Notation run := (run dbg).
Notation loc := (local_state F).

Definition okl (l : loc) : Prop := Forall P (l_terms l) /\ match l_result l with Some e => P e | None => True end.
Definition okm (m : fmap F) : Prop := Forall (fun x => P (snd x)) m /\ NoDup (map fst m).
Definition okg (g : spec F) : Prop := okm (formulas g) /\ okm (assertions g).

(** The state of a rule that changed only the local state, keeping [okl]. *)
Definition keeps (s s1 : st) : Prop := fst s1 = fst s /\ okl (snd s1).

(** ** Lexical rules *)
Definition Lt (i i1 : input) : Prop := length i1 < length i.
Definition Le (i i1 : input) : Prop := length i1 <= length i.

Lemma run_one (S : input -> st -> Prop) (N : st -> Prop) f i (s : st) :
  (forall a i1, i = a :: i1 -> f a = true -> S i1 s) -> N s -> run S N (one f i s).
Proof. intros H HN. unfold one. destruct i as [|a i1]; cbn; [exact HN|]. destruct (f a) eqn:E; cbn; eauto. Qed.
Lemma run_skip (S : input -> st -> Prop) (N : st -> Prop) i (s : st) : (forall i1, Le i i1 -> S i1 s) -> run S N (Skip i s).
Proof. intros H. rewrite Skip_eq. apply H. apply skip_length. Qed.
Lemma run_sym (S : input -> st -> Prop) (N : st -> Prop) f i (s : st) :
  (forall i1, Lt i i1 -> S i1 s) -> N s -> run S N (Symbol_ (one f) i s).
Proof.
  intros H HN. apply run_seq. apply run_one; [|exact HN]. intros a i1 -> _. apply run_skip.
  intros i2 L. apply H. unfold Lt, Le in *. cbn. lia.
Qed.
Lemma run_eow (S : input -> st -> Prop) (N : st -> Prop) i (s : st) : (forall i1, Le i i1 -> S i1 s) -> N s -> run S N (EndOfWord i s).
Proof.
  intros H HN. rewrite EndOfWord_eq. destruct i as [|a i]; [apply H; unfold Le; auto|].
  destruct (is_id_other a); [exact HN|]. apply H, skip_length.
Qed.
Lemma run_str (S : input -> st -> Prop) (N : st -> Prop) w i (s : st) : (forall i1, i = list_ascii_of_string w ++ i1 -> S i1 s) -> N s -> run S N (str w i s).
Proof.
  intros H HN. unfold str. destruct (strip (list_ascii_of_string w) i) as [r|] eqn:E; cbn; [|exact HN].
  apply H. apply strip_some, E.
Qed.
Lemma run_keyword (S : input -> st -> Prop) (N : st -> Prop) w i (s : st) : w <> EmptyString -> (forall i1, Lt i i1 -> S i1 s) -> N s -> run S N (Keyword w i s).
Proof.
  intros W H HN. apply run_seq. apply run_str; [|exact HN]. intros i1 ->. apply run_eow; [|exact HN].
  intros i2 L. apply H. unfold Lt, Le in *. rewrite app_length. destruct w; [congruence|]. cbn. lia.
Qed.

Lemma run_Identifier (S : input -> st -> Prop) (N : st -> Prop) i (s : st) :
  (forall w i1, Lt i i1 -> is_word w -> S i1 (fst s, push w (snd s))) -> N s -> run S N (Identifier i s).
Proof.
  intros H HN. rewrite Identifier_eq. destruct i as [|a i]; [exact HN|]. destruct (is_id_first a) eqn:A; [|exact HN].
  assert (L : length (drop_while is_id_other i) <= length i) by apply drop_length.
  apply H; [unfold Lt; pose proof (skip_length false (drop_while is_id_other i)); cbn [length] in *; lia|].
  split; [rewrite <- letter_eq; exact A|]. fold string_of_list_ascii. unfold chars. rewrite list_ascii_of_string_of_list_ascii. apply take_all. intros c. rewrite other_eq. auto.
Qed.

Definition pvalue (p : primitive F) : option F := match p with PInt z => Some (nofZ z) | PDouble d => Some d | PBool _ => None end.
Lemma run_digits_text (S : input -> st -> Prop) (N : st -> Prop) i (s : st) :
  (forall w j, i = w ++ j -> integer w -> S j s) -> N s -> run S N (plus (one is_digit) i s).
Proof.
  intros H HN. rewrite plus_one. destruct i as [|a i]; [exact HN|]. destruct (is_digit a) eqn:A; [|exact HN].
  apply (H (a :: take_while is_digit i)); [cbn; rewrite take_drop; reflexivity|]. split; [discriminate|]. constructor; [rewrite <- digit_eq; exact A|].
  apply take_all. intros c. rewrite digit_eq. auto.
Qed.
Lemma run_exponent_text (S : input -> st -> Prop) (N : st -> Prop) i (s : st) :
  (forall w j, i = w ++ j -> exponent_part w -> S j s) -> N s -> run S N (exponent i s).
Proof.
  intros H HN. apply run_if_must, run_one; [|exact HN]. intros e j -> E.
  assert (E' : In e (chars "eE")). { unfold among in E. apply existsb_exists in E as (x & Hx & E). apply Ascii.eqb_eq in E. subst. exact Hx. }
  apply run_seq, run_opt, run_one.
  - intros c k -> C. apply run_digits_text; [|listed]. intros w l -> W. apply (H (e :: [c] ++ w) l); [reflexivity|]. exists e, [c], w. split; [reflexivity|]. split; [exact E'|]. split; [|exact W].
    unfold among in C. apply existsb_exists in C as (x & [<-|[<-|[]]] & C); apply Ascii.eqb_eq in C; subst; auto.
  - apply run_digits_text; [|listed]. intros w l -> W. apply (H (e :: [] ++ w) l); [reflexivity|]. exists e, [], w. auto.
Qed.
Lemma integer_digits w : integer w -> forallb digit w = true.
Proof. intros [_ W]. apply forallb_forall. rewrite Forall_forall in W. exact W. Qed.
Lemma decimal_digits_false w : decimal w -> forallb digit w = false.
Proof.
  intros (a & b & x & -> & A & H).
  assert (X : exponent_part x -> forallb digit x = false).
  { intros (e & sg & ds & -> & I & _). destruct I as [<-|[<-|[]]]; reflexivity. }
  rewrite !forallb_app. destruct H as [(ds & -> & _)|[_ E]]; [|rewrite (X E)].
  - cbn [forallb]. change (digit ".") with false. cbn. apply andb_false_r.
  - rewrite !andb_false_r. reflexivity.
Qed.
Lemma stol_digits w : forallb digit w = true -> decimal_value w = digits_value 0 w.
Proof.
  unfold decimal_value. generalize 0%Z. induction w as [|c w IH]; intros acc D; [reflexivity|]. cbn [forallb] in D. apply andb_prop in D as [Dc D].
  cbn [fold_left digits_value]. rewrite (IH _ D). f_equal. unfold digit_value, digit, code_in in *. apply andb_prop in Dc as [Dc _]. apply Nat.leb_le in Dc.
  change (nat_of_ascii "0") with 48. rewrite Nat2Z.inj_sub by exact Dc. lia.
Qed.
Lemma firstn_matched (w j : input) : firstn (length (w ++ j) - length j) (w ++ j) = w.
Proof. rewrite app_length, Nat.add_sub, firstn_app, Nat.sub_diag, firstn_all, firstn_O, app_nil_r. reflexivity. Qed.

Lemma run_Numeral (S : input -> st -> Prop) (N : st -> Prop) i (s : st) :
  (forall p v i1, Lt i i1 -> pvalue p = Some v -> of_numeral v -> S i1 (fst s, with_primitive (Some p) (snd s))) -> N s ->
  run S N (Numeral stod i s).
Proof.
  intros H HN. apply run_sor. unfold DoubleLiteral. apply run_seq. apply run_act.
  assert (D : forall w j, i = w ++ j -> w <> [] -> decimal w -> forall N',
     ends (fun s1 => run S N' (Skip j s1)) (local (fun l => match stod (firstn (length i - length j) i) with
        | Some d => Ok (with_primitive (Some (PDouble d)) l) | None => Throw OutOfRange end) s)).
  { intros w j -> NE W N'. rewrite firstn_matched. apply run_local. destruct (stod w) as [d|] eqn:E; [|reflexivity]. apply run_skip.
    intros i2 L2. apply (H _ d); [unfold Lt, Le in *; rewrite app_length; destruct w; [congruence|cbn; lia]|reflexivity|].
    exists w. split; [right; exact W|]. unfold literal_value. rewrite (decimal_digits_false w W), E. reflexivity. }
  assert (IL : run S N (IntegerLiteral i s)).
  { unfold IntegerLiteral. apply run_seq, run_act, run_digits_text; [|exact HN]. intros w j -> W. cbv beta. rewrite firstn_matched. apply run_local.
    unfold stol. destruct (Z.leb _ _) eqn:E; [|reflexivity]. cbn [bind ends]. apply run_skip.
    intros i2 L2. eapply H; [|reflexivity|].
    - unfold Lt, Le in *. rewrite app_length. destruct w; [destruct W; congruence|cbn; lia].
    - exists w. split; [left; exact W|]. unfold literal_value. rewrite (integer_digits w W), <- (stol_digits w (integer_digits w W)), E. reflexivity. }
  apply run_sor.
  assert (NN : forall (a b : input), integer a -> a ++ b <> []) by (intros [|c a] b [A _]; [congruence|discriminate]).
  assert (B : run (fun i1 s1 => ends (fun s2 => run S (fun s3 => run S N (IntegerLiteral i s3)) (Skip i1 s2))
                (local (fun l => match stod (firstn (length i - length i1) i) with
                   | Some d => Ok (with_primitive (Some (PDouble d)) l) | None => Throw OutOfRange end) s1))
             (fun s1 => run S N (IntegerLiteral i s1))
             (seq decimal_seq (seq (opt (one (Ascii.eqb "."))) exponent) i s)).
  { apply run_seq, run_digits_text; [|exact IL]. intros a j Ei A. apply run_seq, run_opt, run_one.
    - intros c k -> C. apply Ascii.eqb_eq in C. subst c. apply run_exponent_text; [|exact IL]. intros x l -> X.
      apply (D (a ++ ["."%char] ++ x)); [rewrite Ei, <- !app_assoc; reflexivity|apply NN, A|]. exists a, ["."%char], x. split; [reflexivity|]. split; [exact A|]. right. auto.
    - apply run_exponent_text; [|exact IL]. intros x l -> X. apply (D (a ++ [] ++ x)); [rewrite Ei, <- app_assoc; reflexivity|apply NN, A|].
      exists a, [], x. split; [reflexivity|]. split; [exact A|]. right. auto. }
  apply run_seq, run_digits_text; [|exact B]. intros a j Ei A. apply run_seq, run_one; [|exact B].
  intros c k -> C. apply Ascii.eqb_eq in C. subst c. apply run_seq, run_digits_text; [|exact B]. intros ds l -> Ds. apply run_opt, run_exponent_text.
  - intros x m -> X. apply (D (a ++ ("."%char :: ds) ++ x)); [rewrite Ei, <- !app_assoc; reflexivity|apply NN, A|]. exists a, ("."%char :: ds), x. split; [reflexivity|]. split; [exact A|]. left. eauto.
  - apply (D (a ++ ("."%char :: ds) ++ [])); [rewrite Ei, app_nil_r, <- !app_assoc; reflexivity|apply NN, A|]. exists a, ("."%char :: ds), []. split; [reflexivity|]. split; [exact A|]. left. eauto.
Qed.

Lemma run_comparison (S : input -> st -> Prop) (N : st -> Prop) i (s : st) :
  (forall c i1, Lt i i1 -> S i1 (fst s, with_comparison (Some c) (snd s))) -> N s ->
  run S N (sor LtSymbol (sor GtSymbol (sor LeSymbol GeSymbol)) i s).
Proof.
  intros H HN.
  assert (K : forall c p (N' : st -> Prop), (forall (S0 : input -> st -> Prop) (N0 : st -> Prop), (forall i1, Lt i i1 -> S0 i1 s) -> N0 s -> run S0 N0 (p i s)) -> N' s ->
              run S N' (set_comparison c (Symbol_ p) i s)).
  { intros c p N' HP HN'. apply run_act0, run_seq, HP; [|exact HN']. intros i1 L. apply run_skip. intros i2 L2.
    apply H. unfold Lt, Le in *. lia. }
  assert (O1 : forall a b (S0 : input -> st -> Prop) (N0 : st -> Prop), (forall i1, Lt i i1 -> S0 i1 s) -> N0 s ->
             run S0 N0 (seq (one (Ascii.eqb a)) (not_at (one (among b))) i s)).
  { intros a b S0 N0 HS HN0. apply run_seq, run_one; [|exact HN0]. intros d i1 -> _.
    unfold not_at, one. cbn [bind]. destruct i1 as [|e i1]; [|destruct (among b e)]; cbn; [|exact HN0|]; apply HS; unfold Lt; cbn; lia. }
  assert (O2 : forall w (S0 : input -> st -> Prop) (N0 : st -> Prop), w <> EmptyString -> (forall i1, Lt i i1 -> S0 i1 s) -> N0 s -> run S0 N0 (str w i s)).
  { intros w S0 N0 W HS HN0. apply run_str; [|exact HN0]. intros i1 E. apply HS. subst i. unfold Lt. rewrite app_length.
    destruct w; [congruence|]. cbn. lia. }
  repeat (apply run_sor; apply K; [solve [apply O1|intros; apply O2; [discriminate|assumption..]]|]).
  apply K; [intros; apply O2; [discriminate|assumption..]|exact HN].
Qed.

Lemma back_snoc {A} (l : list A) a : back (l ++ [a]) = Ok a.
Proof. unfold back. rewrite last_opt_snoc. reflexivity. Qed.
Lemma pop_snoc {A} (l : list A) a : pop_back (l ++ [a]) = Ok l.
Proof. unfold pop_back. rewrite removelast_last. destruct (l ++ [a]) eqn:E; [destruct l; discriminate|reflexivity]. Qed.

Lemma predicate_eq r p ids w f c ts v : pvalue p = Some v ->
  predicate_action (mkLocal r (Some p) (ids ++ [w]) (Some f) (Some c) ts) =
  match f with FormOne => Ok (mkLocal (Some (EPred w c v)) None ids None None ts) | FormTwo => Throw BadOptionalAccess end.
Proof.
  intros V. unfold predicate_action. cbn [l_identifiers]. rewrite back_snoc, pop_snoc.
  destruct (ids ++ [w]) eqn:E; [destruct ids; discriminate|]. destruct p; cbn in V; inversion V; destruct f; reflexivity.
Qed.

Lemma run_Predicate (S : input -> st -> Prop) (N : st -> Prop) i (s : st) :
  (forall x c v i1, Lt i i1 -> of_numeral v -> forall l1, l_terms l1 = l_terms (snd s) -> l_result l1 = Some (EPred x c v) -> S i1 (fst s, l1)) -> N s ->
  run S N (PredicateTerm stod i s).
Proof.
  intros H HN. apply run_act0, run_if_must, run_comparison; [|exact HN]. intros c i1 L1.
  assert (TWO : forall ids, run (fun i2 s2 => ends (S i2) (local predicate_action s2)) (fun _ => reported msg_PredicateForm)
               (set_form FormTwo (seq (Numeral stod) Identifier) i1 (fst s, with_identifiers ids (with_comparison (Some c) (snd s))))).
  { intros ids. apply run_act0, run_seq, run_Numeral; [|listed]. intros p v i2 L2 V NU. apply run_Identifier; [|listed]. intros w i3 L3 _.
    cbv beta. apply run_local. cbn [bind local ends fst snd]. apply run_local. cbn [snd fst].
    unfold with_form, push, with_primitive, with_comparison, with_identifiers. cbn [l_result l_primitive l_identifiers l_form l_comparison l_terms].
    rewrite (predicate_eq _ _ _ _ _ _ _ _ V). reflexivity. }
  unfold PredicateForm. apply run_sor. apply run_act0, run_seq.
  apply run_Identifier; [|specialize (TWO (l_identifiers (snd s))); destruct s as [g l]; destruct l; exact TWO]. intros w i2 L2 _. apply run_Numeral.
  - intros p v i3 L3 V NU. cbv beta. apply run_local. cbn [bind local ends fst snd]. apply run_local. cbn [snd fst].
    unfold with_form, push, with_primitive, with_comparison, with_identifiers. cbn [l_result l_primitive l_identifiers l_form l_comparison l_terms].
    rewrite (predicate_eq _ _ _ _ _ _ _ _ V). cbn. eapply H; [|exact NU|reflexivity..]. unfold Lt in *. lia.
  - apply TWO.
Qed.

Lemma run_Boolean (S : input -> st -> Prop) (N : st -> Prop) i (s : st) :
  (forall b i1, Lt i i1 -> S i1 (fst s, with_primitive None (with_result (Some (EConst b)) (snd s)))) -> N s ->
  run S N (BooleanLiteral i s).
Proof.
  intros H HN. apply run_act0, run_sor.
  unfold KwTrue, KwFalse, set_bool.
  apply run_act0, run_keyword; [discriminate|intros i1 L; apply (H true), L|].
  apply run_act0, run_keyword; [discriminate|intros i1 L; apply (H false), L|exact HN].
Qed.

(** ** Actions of the operators *)
Lemma assert_ends (b : bool) (Q : unit -> Prop) : Q tt -> ends Q (assert_ dbg b).
Proof. unfold assert_. destruct (dbg && negb b) eqn:E; cbn; auto. intros _. apply andb_true_iff in E. apply E. Qed.

Lemma last_split (l : list (expr F)) : l <> [] -> Forall P l -> exists e ts, l = ts ++ [e] /\ P e /\ Forall P ts.
Proof.
  destruct l as [|e l _] using rev_ind; [congruence|]. intros _ H. apply Forall_app in H as [A B]. inversion B; subst. eauto.
Qed.
Lemma not_ends l : okl l -> l_terms l <> [] -> ends okl (not_action dbg l).
Proof.
  intros [A B] C. destruct (last_split _ C A) as (e & ts & E & Pe & Pts).
  unfold not_action. rewrite E, back_snoc, pop_snoc. cbn [bind].
  apply ends_bind, assert_ends, ends_bind, assert_ends. cbn. split; [exact Pts|]. apply (cl_not CL), Pe.
Qed.
Lemma unary_ends mk l : (forall e, P e -> P (mk e)) -> okl l -> l_terms l <> [] -> ends okl (unary_action dbg mk l).
Proof.
  intros M [A B] C. destruct (last_split _ C A) as (e & ts & E & Pe & Pts).
  unfold unary_action. rewrite E, back_snoc, pop_snoc. cbn [bind].
  apply ends_bind, assert_ends, ends_bind, assert_ends. cbn. split; [exact Pts|]. apply M, Pe.
Qed.
Lemma nary_ends mk l : (forall ts, ends (fun e => Forall P ts -> P e) (mk ts)) -> okl l -> l_terms l <> [] -> ends okl (nary_action mk l).
Proof.
  intros M [A B] C. unfold nary_action. destruct (Nat.ltb_spec (length (l_terms l)) 2) as [L|_].
  { destruct (l_terms l) as [|e [|f ts]]; cbn in L; [congruence| |lia]. right. left. reflexivity. } apply ends_bind.
  eapply ends_mono; [|apply M]. cbn. intros e H. split; [constructor|apply H, A].
Qed.
Lemma binary_ends mk l : (forall x y, P x -> P y -> ends P (mk x y)) -> okl l -> 2 <= length (l_terms l) -> ends okl (binary_action dbg mk l).
Proof.
  intros M [A B] C. destruct (last_split (l_terms l)) as (y & ts & E & Py & Pts); [destruct (l_terms l); cbn in *; [lia|congruence]|exact A|].
  rewrite E in *. rewrite app_length in C. cbn in C.
  destruct (last_split ts) as (x & us & -> & Px & Pus); [destruct ts; cbn in *; [lia|congruence]|exact Pts|].
  unfold binary_action. rewrite E, back_snoc, pop_snoc. cbn [bind]. rewrite back_snoc, pop_snoc. cbn [bind].
  apply ends_bind, assert_ends, ends_bind. eapply ends_mono; [|apply M; [exact Px|exact Py]]. intros e Pe.
  apply ends_bind, assert_ends. split; assumption.
Qed.
Lemma And_ends ts : ends (fun e => Forall P ts -> P e) (And_ ts).
Proof.
  unfold And_. destruct (Nat.ltb (length ts) 2) eqn:E; [exact I|]. intros H. apply (cl_and CL) with ts; [exact H|].
  unfold And_. rewrite E. reflexivity.
Qed.
Lemma Or_ends ts : ends (fun e => Forall P ts -> P e) (Or_ ts).
Proof.
  unfold Or_. destruct (Nat.ltb (length ts) 2) eqn:E; [exact I|]. intros H. apply (cl_or CL) with ts; [exact H|].
  unfold Or_. rewrite E. reflexivity.
Qed.
Lemma And_thrown (l : list (expr F)) : ends (fun _ => True) (And_ l).
Proof. unfold And_. destruct (Nat.ltb _ _); exact I. Qed.
Lemma Or_thrown (l : list (expr F)) : ends (fun _ => True) (Or_ l).
Proof. unfold Or_. destruct (Nat.ltb _ _); exact I. Qed.
Lemma op_and_thrown (x y : expr F) : ends (fun _ => True) (op_and x y).
Proof. destruct x; try apply And_thrown; exact I. Qed.
Lemma op_or_thrown (x y : expr F) : ends (fun _ => True) (op_or x y).
Proof. destruct x; try apply Or_thrown; exact I. Qed.
Lemma ends_ok {X} (Q : X -> Prop) m : ends (fun _ => True) m -> (forall x, m = Ok x -> Q x) -> ends Q m.
Proof. destruct m; cbn; auto. Qed.
Lemma Implies_ends x y : P x -> P y -> ends P (Implies_ x y).
Proof. intros A B. apply ends_ok; [apply op_or_thrown|]. intros e. apply (cl_implies CL); assumption. Qed.
Lemma Xor_ends x y : P x -> P y -> ends P (Xor_ x y).
Proof. intros A B. apply ends_ok; [|intros e; apply (cl_xor CL); assumption].
  apply ends_bind. eapply ends_mono; [|apply op_or_thrown]. intros a _. apply ends_bind. eapply ends_mono; [|apply op_or_thrown]. intros b _. apply op_and_thrown. Qed.
Lemma Iff_ends x y : P x -> P y -> ends P (Iff_ x y).
Proof. intros A B. apply ends_ok; [|intros e; apply (cl_iff CL); assumption].
  apply ends_bind. eapply ends_mono; [|apply op_and_thrown]. intros a _. apply ends_bind. eapply ends_mono; [|apply op_and_thrown]. intros b _. apply op_or_thrown. Qed.

(** ** Terms *)
Definition adds (s s1 : st) (ts : list (expr F)) : Prop :=
  fst s1 = fst s /\ snd s1 = with_terms (l_terms (snd s) ++ ts) (snd s) /\ Forall P ts.
(** What is shown of [Term n], on inputs shorter than [n]. *)
Definition term_spec (n : nat) (T : rule ascii st) : Prop := forall i s, length i < n -> okg (fst s) ->
  run (fun i1 s1 => Lt i i1 /\ exists ts, ts <> [] /\ adds s s1 ts) (fun s1 => s1 = s) (T i s).

Definition good (g : spec F) (s : st) : Prop := fst s = g /\ okl (snd s).
Lemma adds_good g s s1 ts : good g s -> adds s s1 ts -> good g s1.
Proof. intros [A [B C]] (D & E & G). split; [congruence|]. rewrite E. split; cbn; [apply Forall_app; auto|exact C]. Qed.
Lemma adds_len s s1 ts : adds s s1 ts -> length (l_terms (snd s1)) = length (l_terms (snd s)) + length ts.
Proof. intros (_ & E & _). rewrite E. apply app_length. Qed.

Lemma run_T g n T (S : input -> st -> Prop) (N : st -> Prop) i s : okg g -> term_spec n T -> length i < n -> good g s ->
  (forall i1 s1, Lt i i1 -> good g s1 -> 1 + length (l_terms (snd s)) <= length (l_terms (snd s1)) -> S i1 s1) -> N s -> run S N (T i s).
Proof.
  intros OG TS L G HS HN. destruct (G) as [Eg _]. eapply run_mono; [| |apply TS; [exact L|rewrite Eg; exact OG]].
  - intros i1 s1 (L1 & ts & Nts & A). apply HS; [exact L1|eapply adds_good; eassumption|].
    rewrite (adds_len _ _ _ A). destruct ts; cbn; [congruence|lia].
  - intros s1 ->. exact HN.
Qed.

Lemma run_op g (S : input -> st -> Prop) (N : st -> Prop) m w tail f (I : input -> st -> Prop) i s : w <> EmptyString ->
  good g s ->
  (forall i1, Lt i i1 -> run (fun i2 s2 => I i2 s2) (fun _ => reported m) (tail i1 s)) ->
  (forall i2 s2, I i2 s2 -> ends (fun l => S i2 (fst s2, l)) (f (snd s2))) ->
  N s -> run S N (op_rule m w tail f i s).
Proof.
  intros W G HT HF HN. apply run_act0, run_if_must, run_keyword; [exact W| |exact HN]. intros i1 L.
  eapply run_mono; [| |apply HT, L]; [|auto]. intros i2 s2 H. apply run_local, HF, H.
Qed.

Lemma run_Expression g m n T i s : okg g -> term_spec m T -> m <= n -> length i < m -> good g s ->
  run (fun i1 s1 => Lt i i1 /\ good g s1) (good g) (Expression dbg stod n T i s).
Proof.
  intros OG TS Lm L G. unfold Expression. apply run_sor. apply run_Predicate.
  { intros x c v i1 L1 NU l1 E1 E2. split; [exact L1|]. destruct G as [Eg [A B]]. split; [exact Eg|]. cbn.
    split; [rewrite E1; exact A|rewrite E2; apply (cl_pred CL), NU]. }
  pose (J := fun k i2 (s2 : st) => Lt i i2 /\ good g s2 /\ k <= length (l_terms (snd s2))).
  assert (T1 : forall i1, Lt i i1 -> run (J 1) (fun _ => reported msg_Term) (T i1 s)).
  { intros i1 L1. eapply run_T; try eassumption; [unfold Lt in *; lia| |listed]. intros i2 s2 L2 G2 K. unfold J, Lt in *. repeat split; try tauto; try apply G2; lia. }
  assert (TM : forall i1, Lt i i1 -> run (J 2) (fun _ => reported msg_Term) (seq (must msg_Term T) (must msg_Term T) i1 s)).
  { intros i1 L1. apply run_seq, run_must. eapply run_T; try eassumption; [unfold Lt in *; lia| |listed]. intros i2 s2 L2 G2 K.
    apply run_must. eapply run_T; try eassumption; [unfold Lt in *; lia| |listed]. intros i3 s3 L3 G3 K3. unfold J, Lt in *. split; [lia|]. split; [exact G3|lia]. }
  assert (T2 : forall i1, Lt i i1 -> run (J 2) (fun _ => reported msg_BinaryTail) (seq T T i1 s)).
  { intros i1 L1. apply run_seq. eapply run_T; try eassumption; [unfold Lt in *; lia| |listed]. intros i2 s2 L2 G2 K.
    eapply run_T; try eassumption; [unfold Lt in *; lia| |listed]. intros i3 s3 L3 G3 K3. unfold J, Lt in *. split; [lia|]. split; [exact G3|lia]. }
  assert (TS' : forall i1, Lt i i1 -> run (J 1) (fun _ => reported msg_NaryTail) (plus_n n T i1 s)).
  { intros i1 L1. apply run_seq. eapply run_T; try eassumption; [unfold Lt in *; lia| |listed]. intros i2 s2 L2 G2 K.
    apply run_star; [unfold Lt in *; lia| |].
    - unfold J, Lt in *. split; [lia|]. split; [exact G2|lia].
    - intros i3 s3 (L3 & G3 & K3). eapply run_T; try eassumption; [unfold Lt in *; lia| |].
      + intros i4 s4 L4 G4 K4. unfold J, Lt in *. split; [split; [lia|split; [exact G4|lia]]|lia].
      + unfold J. repeat split; try assumption; try apply G3. }
  assert (F1 : forall f, (forall l, okl l -> l_terms l <> [] -> ends okl (f l)) ->
     forall i2 s2, J 1 i2 s2 -> ends (fun l => Lt i i2 /\ good g (fst s2, l)) (f (snd s2))).
  { intros f H i2 s2 (L2 & [Eg OK] & K). eapply ends_mono; [|apply H; [exact OK|destruct (l_terms (snd s2)); cbn in K; [lia|discriminate]]].
    intros l OL. split; [exact L2|]. split; assumption. }
  assert (F2 : forall f, (forall l, okl l -> 2 <= length (l_terms l) -> ends okl (f l)) ->
     forall i2 s2, J 2 i2 s2 -> ends (fun l => Lt i i2 /\ good g (fst s2, l)) (f (snd s2))).
  { intros f H i2 s2 (L2 & [Eg OK] & K). eapply ends_mono; [|apply H; [exact OK|exact K]].
    intros l OL. split; [exact L2|]. split; assumption. }
  apply run_sor. eapply (run_op g) with (I := J 1); [discriminate|exact G|exact T1|apply F1; intros; apply not_ends; assumption|].
  apply run_sor. eapply (run_op g) with (I := J 1); [discriminate|exact G|exact TS'|apply F1; intros; apply nary_ends; [apply And_ends|assumption..]|].
  apply run_sor. eapply (run_op g) with (I := J 1); [discriminate|exact G|exact TS'|apply F1; intros; apply nary_ends; [apply Or_ends|assumption..]|].
  apply run_sor. eapply (run_op g) with (I := J 2); [discriminate|exact G|exact T2|apply F2; intros; apply binary_ends; [apply Implies_ends|assumption..]|].
  apply run_sor. eapply (run_op g) with (I := J 2); [discriminate|exact G|exact T2|apply F2; intros; apply binary_ends; [apply Iff_ends|assumption..]|].
  apply run_sor. eapply (run_op g) with (I := J 2); [discriminate|exact G|exact T2|apply F2; intros; apply binary_ends; [apply Xor_ends|assumption..]|].
  apply run_sor. eapply (run_op g) with (I := J 1); [discriminate|exact G|exact T1|apply F1; intros; apply unary_ends; [apply (cl_always CL)|assumption..]|].
  apply run_sor. eapply (run_op g) with (I := J 1); [discriminate|exact G|exact T1|apply F1; intros; apply unary_ends; [apply (cl_eventually CL)|assumption..]|].
  apply run_sor. eapply (run_op g) with (I := J 2); [discriminate|exact G|exact TM|apply F2; intros; apply binary_ends; [intros x y ? ?; apply (cl_until CL); assumption|assumption..]|].
  eapply run_T; try eassumption. intros i1 s1 L1 G1 _. split; assumption.
Qed.

Lemma find_ok m k e : okm m -> fmap_find m k = Some e -> P e.
Proof.
  intros [H _]. induction H as [|[k' e'] m H _ IH]; cbn; [discriminate|]. destruct (String.eqb k k'); [|exact IH]. intros [= <-]. exact H.
Qed.

Lemma term_ends g s : okg g -> good g s -> ends (fun s1 => fst s1 = g /\ Forall P (l_terms (snd s1)) /\ l_terms (snd s1) <> []) (term_action s).
Proof.
  destruct s as [g' l]. intros OG [E [A B]]. cbn in E, A, B. subst g'. cbn [term_action].
  assert (X : forall e, P e -> Forall P (l_terms l ++ [e]) /\ l_terms l ++ [e] <> []).
  { intros e Pe. split; [apply Forall_app; auto|destruct (l_terms l); discriminate]. }
  destruct (l_result l) as [e|]; [cbn; split; [reflexivity|apply X, B]|].
  destruct (last_opt (l_identifiers l)) as [id|]; [|exact I].
  destruct (fmap_find (formulas g) id) as [e|] eqn:E; [|exact I]. cbn. split; [reflexivity|]. apply X. eapply find_ok; [exact (proj1 OG)|exact E].
Qed.

Lemma run_term_match (S : input -> st -> Prop) (N : st -> Prop) p i s :
  run (fun i1 s1 => S i1 (fst s1, with_terms (l_terms (snd s) ++ l_terms (snd s1)) (snd s)))
      (fun s1 => N (fst s1, with_terms (l_terms (snd s) ++ l_terms (snd s1)) (snd s))) (p i (fst s, empty_local)) ->
  run S N (term_match p i s).
Proof. intros H. apply ends_bind. revert H. apply ends_mono. intros [[i1|] [g l]]; cbn; auto. Qed.

Lemma with_same (l : loc) : with_terms (l_terms l ++ []) l = l.
Proof. rewrite app_nil_r. destruct l; reflexivity. Qed.

Lemma Term_safe n : term_spec n (Term dbg stod n).
Proof.
  induction n as [|n IH]; intros i s L OG; [lia|]. cbn [Term]. apply run_term_match. cbn [fst snd].
  assert (G0 : good (fst s) (fst s, empty_local)) by (split; [reflexivity|split; [constructor|exact I]]).
  assert (FIN : forall i1 s1, Lt i i1 -> good (fst s) s1 ->
     ends (fun s2 => Lt i i1 /\ exists ts, ts <> [] /\ adds s (fst s2, with_terms (l_terms (snd s) ++ l_terms (snd s2)) (snd s)) ts) (term_action s1)).
  { intros i1 s1 L1 G1. eapply ends_mono; [|apply term_ends; [exact OG|exact G1]]. intros s2 (E & A & B). split; [exact L1|].
    exists (l_terms (snd s2)). split; [exact B|]. split; [exact E|]. split; [reflexivity|exact A]. }
  apply run_act0, run_sor, run_if_must, run_sym.
  - intros i1 L1. apply run_until with (I := fun i2 s2 => Lt i i2 /\ good (fst s) s2); [unfold Lt in *; lia|split; assumption|].
    intros i2 s2 [L2 G2]. apply run_sym.
    + intros i3 L3. apply FIN; [unfold Lt in *; lia|exact G2].
    + eapply run_mono; [| |apply (run_Expression (fst s) n); [exact OG|exact IH|lia|unfold Lt in *; lia|exact G2]].
      * intros i3 s3 [L3 G3]. unfold Lt in *. repeat split; try apply G3; lia.
      * intros; listed.
  - apply run_sor, run_Boolean; [|apply run_Identifier].
    + intros b i1 L1. apply FIN; [exact L1|]. split; [reflexivity|]. split; [constructor|apply (cl_const CL)].
    + intros w i1 L1 _. apply FIN; [exact L1|]. split; [reflexivity|]. split; [constructor|exact I].
    + cbn. rewrite with_same. destruct s; reflexivity.
Qed.

(** ** Commands *)
Definition okst (s : st) : Prop := okg (fst s) /\ okl (snd s).

Lemma command_ends kind get set s : kind = "Assertion"%string \/ kind = "Formula"%string -> okst s -> l_terms (snd s) <> [] -> (exists ids id, l_identifiers (snd s) = ids ++ [id] /\ is_word id) ->
  (forall g k e, okg g -> P e -> fmap_find (get g) k = None -> okg (set (get g ++ [(k, e)]) g)) -> ends okst (command_action dbg kind get set s).
Proof.
  intros KD. destruct s as [g l]. intros [OG [A B]] T0 (ids & id & I0 & WD) HS. cbn in T0, I0, A, B, OG. unfold command_action.
  apply ends_bind, assert_ends, ends_bind, assert_ends.
  destruct (last_split _ T0 A) as (e & ts & E & Pe & Pts). rewrite E, I0, !back_snoc, !pop_snoc. cbn [bind].
  destruct (fmap_find (get g) id) eqn:FD; [right; right; exists id; split; [exact WD|]; destruct KD as [-> | ->]; [right|left]; reflexivity|]. apply ends_bind, assert_ends. cbn.
  split; [apply HS; assumption|]. split; [exact Pts|exact B].
Qed.

Lemma run_command kind n w get set i s : kind = "Assertion"%string \/ kind = "Formula"%string -> w <> EmptyString -> length i < n -> okst s ->
  (forall g k e, okg g -> P e -> fmap_find (get g) k = None -> okg (set (get g ++ [(k, e)]) g)) ->
  run (fun i1 s1 => Lt i i1 /\ okst s1) okst
    (act0 (command_action dbg kind get set) (if_must msg_Term (Keyword w) (seq (must msg_Identifier Identifier) (must msg_Term (Term dbg stod n)))) i s).
Proof.
  intros KD W L OS HS. apply run_act0, run_if_must, run_keyword; [exact W| |exact OS]. intros i1 L1.
  apply run_seq, run_must, run_Identifier; [|listed]. intros x i2 L2 WX. apply run_must.
  pose (s2 := (fst s, push x (snd s))). change (run (fun i3 s3 => ends (fun s4 => Lt i i3 /\ okst s4) (command_action dbg kind get set s3)) (fun _ => reported msg_Term) (Term dbg stod n i2 s2)).
  assert (O2 : okst s2) by (destruct OS as [OG [A B]]; split; [exact OG|split; [exact A|exact B]]).
  eapply run_mono; [| |apply (Term_safe n i2 s2); [unfold Lt in *; lia|apply O2]]; [|intros; listed].
  intros i3 s3 (L3 & ts & Nts & AD). destruct O2 as [OG OL].
  assert (G3 : good (fst s2) s3) by (eapply adds_good; [split; [reflexivity|exact OL]|exact AD]).
  destruct G3 as [Eg OL3]. destruct AD as (_ & El & _).
  eapply ends_mono; [|apply command_ends; [exact KD|split; [rewrite Eg; exact OG|exact OL3]| | |exact HS]].
  - intros s4 O4. split; [unfold Lt in *; lia|exact O4].
  - rewrite El. cbn. destruct (l_terms (snd s)); [exact Nts|discriminate].
  - rewrite El. exists (l_identifiers (snd s)), x. split; [reflexivity|exact WX].
Qed.

Lemma find_none m k : @fmap_find F m k = None -> ~ In k (map fst m).
Proof.
  induction m as [|[k' e'] m IH]; cbn; [auto|]. destruct (String.eqb_spec k k'); [discriminate|]. intros H [E|K]; [congruence|]. exact (IH H K).
Qed.
Lemma okm_snoc m k e : okm m -> P e -> fmap_find m k = None -> okm (m ++ [(k, e)]).
Proof.
  intros [A N] B H. split.
  - apply Forall_app. split; [exact A|]. constructor; [exact B|constructor].
  - rewrite map_app. cbn. apply NoDup_rev in N. rewrite <- (rev_involutive (map fst m ++ [k])). apply NoDup_rev.
    rewrite rev_app_distr. cbn. constructor; [|exact N]. rewrite <- in_rev. apply find_none, H.
Qed.

Lemma run_AnyCommand n i s : length i < n -> okst s ->
  run (fun i1 s1 => Lt i i1 /\ okst s1) okst (AnyCommand dbg stod n i s).
Proof.
  intros L OS. apply run_if_must, run_sym; [|exact OS]. intros i1 L1.
  apply run_until with (I := fun i2 s2 => Lt i i2 /\ okst s2); [unfold Lt in *; lia|split; assumption|].
  intros i2 s2 [L2 O2]. apply run_sym; [intros i3 L3; split; [unfold Lt in *; lia|exact O2]|].
  apply run_must, run_sor. eapply run_mono; [| |apply run_command; [auto|discriminate|unfold Lt in *; lia|exact O2|]].
  - intros i3 s3 [L3 O3]. unfold Lt in *. repeat split; try lia; apply O3.
  - intros s3 O3. eapply run_mono; [| |apply run_command; [auto|discriminate|unfold Lt in *; lia|exact O3|]]; [|intros; listed|].
    + intros i4 s4 [L4 O4]. unfold Lt in *. repeat split; try lia; apply O4.
    + intros g k e [A B] Pe FN. split; cbn; [apply okm_snoc; assumption|exact B].
  - intros g k e [A B] Pe FN. split; cbn; [exact A|apply okm_snoc; assumption].
Qed.

Lemma parse_safe n i : length i < n -> ends okg (parse dbg stod n i).
Proof.
  intros L. unfold parse. apply ends_bind.
  assert (H : run (fun _ s1 => okst s1) (fun _ => False) (SpecificationFile dbg stod n i (mkSpec [] [], empty_local))).
  { apply run_must, run_seq, run_skip. intros i1 L1.
    apply run_until with (I := fun i2 s2 => Le i i2 /\ okst s2); [unfold Le in *; lia|split; [exact L1|]|].
    { split; [split; split; constructor|split; [constructor|exact I]]. }
    intros i2 s2 [L2 O2]. apply run_pure with (f := match i2 with [] => Some i2 | _ => None end); [reflexivity|].
    destruct i2 as [|a i2]; [exact O2|]. apply run_seq. eapply run_mono; [| |apply run_AnyCommand; [unfold Le in *; lia|exact O2]]; [|intros; listed].
    intros i3 s3 [L3 O3]. apply run_skip. intros i4 L4. unfold Lt, Le in *. repeat split; try lia; apply O3. }
  revert H. apply ends_mono. intros [[j|] [g l]]; cbn; [|intros []]. intros [A _]. exact A.
Qed.

(** Entries of a parsed specification. *)
Lemma from_string_safe t : ends okg (from_string dbg stod t).
Proof. apply parse_safe. lia. Qed.
End Safe.
