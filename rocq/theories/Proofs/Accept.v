(** C60: every accepted text derives from the grammar. *)
From Coq Require Import Ascii.
From Verif Require Import Base Num.
From Verif.Spec Require Import Text Grammar.
From Verif.Model Require Import Ast Peg Parser.
From Verif.Proofs Require Import PegFacts ParserSafe TokenSim.
Local Open Scope nat_scope.

(** ** Gaps *)
Lemma last_white c g : white c = true -> last_gap g -> last_gap (c :: g).
Proof. intros W [g' G|g' w G O]; [apply last_closed, gap_white; assumption|apply (last_open (c :: g')); [apply gap_white; assumption|exact O]]. Qed.
Lemma last_comment w g : one_line w -> last_gap g -> last_gap (";"%char :: w ++ newline :: g).
Proof.
  intros W [g' G|g' v G O]; [apply last_closed, gap_comment; assumption|].
  assert (E : ";"%char :: w ++ newline :: g' ++ ";"%char :: v = (";"%char :: w ++ newline :: g') ++ ";"%char :: v) by (cbn [app]; rewrite <- app_assoc; reflexivity).
  rewrite E. apply last_open; [apply gap_comment; assumption|exact O].
Qed.
Lemma skip_split i :
  (exists g, i = g ++ skip false i /\ skipped g (skip false i)) /\
  ((exists w g, i = w ++ newline :: g ++ skip true i /\ one_line w /\ skipped g (skip true i)) \/ (one_line i /\ skip true i = [])).
Proof.
  induction i as [|a i [IH1 IH2]].
  - split; [exists []; split; [reflexivity|left; constructor]|]. right. split; [intros []|reflexivity].
  - cbn [skip]. split.
    + destruct (is_space a) eqn:W.
      * rewrite white_eq in W. destruct IH1 as (g & E & S). exists (a :: g). split; [cbn; rewrite <- E; reflexivity|].
        destruct S as [G|[G N]]; [left; apply gap_white; assumption|right; split; [apply last_white; assumption|exact N]].
      * destruct (Ascii.eqb ";" a) eqn:C; [|exists []; split; [reflexivity|left; constructor]]. apply Ascii.eqb_eq in C. subst a.
        destruct IH2 as [(w & g & E & O & S)|[O N]].
        -- exists (";"%char :: w ++ newline :: g). split; [rewrite E at 1; cbn [app]; rewrite <- app_assoc; reflexivity|].
           destruct S as [G|[G N]]; [left; apply gap_comment; assumption|right; split; [apply last_comment; assumption|exact N]].
        -- exists (";"%char :: i). rewrite N, app_nil_r. split; [reflexivity|]. right. split; [|reflexivity]. apply (last_open [] i); [constructor|exact O].
    + destruct (Ascii.eqb a lf) eqn:L.
      * apply Ascii.eqb_eq in L. subst a. left. destruct IH1 as (g & E & S). exists [], g. split; [cbn [app]; rewrite <- E; reflexivity|]. split; [intros []|exact S].
      * assert (NL : a <> newline) by (intros ->; discriminate L). destruct IH2 as [(w & g & E & O & S)|[O N]].
        -- left. exists (a :: w), g. split; [rewrite E at 1; reflexivity|]. split; [|exact S]. intros [H|H]; [congruence|exact (O H)].
        -- right. split; [|exact N]. intros [H|H]; [congruence|exact (O H)].
Qed.
Lemma skip_idem i : skip false (skip false i) = skip false i /\ skip false (skip true i) = skip true i.
Proof.
  induction i as [|a i [A B]]; [split; reflexivity|]. cbn [skip]. split.
  - destruct (is_space a) eqn:W; [exact A|]. destruct (Ascii.eqb ";" a) eqn:C; [exact B|]. cbn [skip]. rewrite W, C. reflexivity.
  - destruct (Ascii.eqb a lf); assumption.
Qed.

(** ** Layouts and derivations *)
Lemma lay_app a b i j k : lay a i j -> lay b j k -> lay (a ++ b) i k.
Proof. induction 1; intros H'; [exact H'|]. cbn [app]. constructor; auto. Qed.
Lemma lay_token t j : token_ok t -> t <> Bad -> match t with Word _ | Define => alnum_first j = false | _ => True end ->
  lay [t] (token_text t ++ j) (skip false j).
Proof.
  intros T B W. destruct (skip_split j) as [(g & E & S) _]. rewrite E at 1. constructor; auto; [|constructor].
  rewrite <- E. exact W.
Qed.

Lemma g_exprs_snoc d es e : g_exprs d es -> g_expr d e -> g_exprs d (es ++ e).
Proof.
  induction 1 as [|e0 es H _ IH]; intros He; [rewrite <- (app_nil_r e); cbn; rewrite <- (app_nil_r e); apply G_more; [rewrite app_nil_r; exact He|constructor]|].
  rewrite <- app_assoc. apply G_more; auto.
Qed.
Lemma g_terms_snoc d ts t : g_terms d ts -> g_term d t -> g_terms d (ts ++ t).
Proof.
  induction 1 as [|t0 ts H _ IH]; intros Ht; [cbn; rewrite <- (app_nil_r t); apply G_cons; [exact Ht|constructor]|].
  rewrite <- app_assoc. apply G_cons; auto.
Qed.
Lemma g_commands_app d a cs d1 a1 ds d2 a2 : g_commands d a cs d1 a1 -> g_commands d1 a1 ds d2 a2 -> g_commands d a (cs ++ ds) d2 a2.
Proof.
  induction 1; intros H'; [exact H'| |]; cbn [app]; rewrite <- app_assoc; [apply G_define|apply G_assert]; auto.
Qed.
Lemma g_file_snoc d a ts d1 a1 cs d2 a2 : g_file d a ts d1 a1 -> g_commands d1 a1 cs d2 a2 -> g_file d a (ts ++ LPar :: cs ++ [RPar]) d2 a2.
Proof.
  induction 1 as [|d a cs' ts d1 a1 d' a' H _ IH]; intros H'; [cbn [app]; eapply G_group; [exact H'|constructor]|].
  cbn [app]. rewrite <- app_assoc. cbn [app]. eapply G_group; [exact H|]. apply IH, H'.
Qed.

Section Accept.
Context {F : Type} `{NF : Num F}.
Variable dbg : bool.
Variable stod : input -> option F.
Notation st := (state F).

(** ** Calculus: what holds if a rule returns *)
Definition okp {X} (Q : X -> Prop) (m : outcome X) : Prop := match m with Ok x => Q x | _ => True end.
Lemma okp_bind {X Y} (Q : Y -> Prop) (m : outcome X) f : okp (fun x => okp Q (f x)) m -> okp Q (bind m f).
Proof. destruct m; cbn; auto. Qed.
Lemma okp_mono {X} (Q Q' : X -> Prop) m : (forall x, Q x -> Q' x) -> okp Q m -> okp Q' m.
Proof. destruct m; cbn; auto. Qed.
Lemma okp_true {X} (Q : X -> Prop) m : (forall x, Q x) -> okp Q m.
Proof. destruct m; cbn; auto. Qed.
Definition pr (S : input -> st -> Prop) (N : st -> Prop) (m : result ascii st) : Prop :=
  okp (fun x : option input * st => match fst x with Some i => S i (snd x) | None => N (snd x) end) m.
Lemma pr_mono (S S' : input -> st -> Prop) (N N' : st -> Prop) m : (forall i s, S i s -> S' i s) -> (forall s, N s -> N' s) -> pr S N m -> pr S' N' m.
Proof. intros A B. apply okp_mono. intros [[i|] s]; cbn; auto. Qed.
Lemma pr_seq (S : input -> st -> Prop) N p q i s : pr (fun i1 s1 => pr S N (q i1 s1)) N (p i s) -> pr S N (seq p q i s).
Proof. unfold seq. intros H. apply okp_bind. revert H. apply okp_mono. intros [[i1|] s1]; cbn; auto. Qed.
Lemma pr_sor S N p q i s : pr S (fun s1 => pr S N (q i s1)) (p i s) -> pr S N (sor p q i s).
Proof. unfold sor. intros H. apply okp_bind. revert H. apply okp_mono. intros [[i1|] s1]; cbn; auto. Qed.
Lemma pr_opt S N p i s : pr S (fun s1 => S i s1) (p i s) -> pr S N (opt p i s).
Proof. intros H. apply pr_sor. exact H. Qed.
Lemma pr_must (S : input -> st -> Prop) N m p i s : pr S (fun _ => True) (p i s) -> pr S N (must m p i s).
Proof. unfold must. intros H. apply okp_bind. revert H. apply okp_mono. intros [[i1|] s1]; cbn; auto. Qed.
Lemma pr_if_must S N m c p i s : pr (fun i1 s1 => pr S (fun _ => True) (p i1 s1)) N (c i s) -> pr S N (if_must m c p i s).
Proof. intros H. apply pr_seq. revert H. apply pr_mono; [|auto]. intros i1 s1. apply pr_must. Qed.
Lemma pr_act (S : input -> st -> Prop) N f p i s :
  pr (fun i1 s1 => okp (S i1) (f (firstn (length i - length i1) i) s1)) N (p i s) -> pr S N (act f p i s).
Proof.
  unfold act. intros H. apply okp_bind. revert H. apply okp_mono. intros [[i1|] s1]; cbn; [|auto]. intros H. apply okp_bind. exact H.
Qed.
Lemma pr_act0 (S : input -> st -> Prop) N f p i s : pr (fun i1 s1 => okp (S i1) (f s1)) N (p i s) -> pr S N (act0 f p i s).
Proof. exact (pr_act S N (fun _ => f) p i s). Qed.
Lemma okp_local (Q : st -> Prop) f s : okp (fun l => Q (fst s, l)) (f (snd s)) -> okp Q (local f s).
Proof. intros H. apply okp_bind. exact H. Qed.
Lemma pr_star (I : input -> st -> Prop) N p n i s : I i s -> (forall i s, I i s -> pr I (I i) (p i s)) -> pr I N (star_n n p i s).
Proof.
  intros H0 H. revert i s H0. induction n as [|n IH]; intros i s H0; [exact Logic.I|].
  cbn [star_n]. apply okp_bind. specialize (H i s H0). revert H. apply okp_mono. intros [[i1|] s1]; cbn; [|auto]. intros A. apply IH, A.
Qed.
Lemma pr_until (I S : input -> st -> Prop) (N : st -> Prop) c p n i s : I i s ->
  (forall i s, I i s -> pr S (fun s1 => pr I N (p i s1)) (c i s)) -> pr S N (until_n n c p i s).
Proof.
  intros H0 H. revert i s H0. induction n as [|n IH]; intros i s H0; [exact Logic.I|].
  cbn [until_n]. apply okp_bind. specialize (H i s H0). revert H. apply okp_mono. intros [[i1|] s1]; cbn; [auto|]. intros H. apply okp_bind. revert H. apply okp_mono.
  intros [[i2|] s2]; cbn; [|auto]. intros A. apply IH, A.
Qed.
Lemma pr_one (S : input -> st -> Prop) (N : st -> Prop) f i (s : st) : (forall a j, i = a :: j -> f a = true -> S j s) -> N s -> pr S N (one f i s).
Proof. intros H HN. unfold one. destruct i as [|a j]; cbn; [exact HN|]. destruct (f a) eqn:E; cbn; eauto. Qed.

(** ** Lexical rules *)
Lemma pr_sym (S : input -> st -> Prop) (N : st -> Prop) p i (s : st) : pr (fun j s1 => S (skip false j) s1) N (p i s) -> pr S N (Symbol_ p i s).
Proof. intros H. apply pr_seq. revert H. apply pr_mono; [|auto]. intros j s1 H. rewrite Skip_eq. exact H. Qed.
Lemma pr_paren (S : input -> st -> Prop) (N : st -> Prop) t c i (s : st) : t = LPar /\ c = "("%char \/ t = RPar /\ c = ")"%char ->
  (forall i1, lay [t] i i1 -> skip false i1 = i1 -> S i1 s) -> N s -> pr S N (Symbol_ (one (Ascii.eqb c)) i s).
Proof.
  intros T H HN. apply pr_sym, pr_one; [|exact HN]. intros a j -> E. apply Ascii.eqb_eq in E. subst a. apply H; [|apply skip_idem].
  destruct T as [[-> ->]|[-> ->]].
  - change ("("%char :: j) with (token_text LPar ++ j). apply lay_token; [exact I|discriminate|exact I].
  - change (")"%char :: j) with (token_text RPar ++ j). apply lay_token; [exact I|discriminate|exact I].
Qed.
Lemma pr_str (S : input -> st -> Prop) (N : st -> Prop) w i (s : st) : (forall j, i = chars w ++ j -> S j s) -> N s -> pr S N (str w i s).
Proof. intros H HN. unfold str. destruct (strip (list_ascii_of_string w) i) as [r|] eqn:E; cbn; [|exact HN]. apply H. apply strip_some, E. Qed.
Lemma pr_cmp (S : input -> st -> Prop) (N : st -> Prop) i (s : st) :
  (forall op i1, lay [Cmp op] i i1 -> S i1 (fst s, with_comparison (Some op) (snd s))) -> N s ->
  pr S N (sor LtSymbol (sor GtSymbol (sor LeSymbol GeSymbol)) i s).
Proof.
  intros H HN. assert (L : forall op j, lay [Cmp op] (token_text (Cmp op) ++ j) (skip false j)) by (intros; apply lay_token; [exact I|discriminate|exact I]).
  apply pr_sor. unfold LtSymbol, set_comparison. apply pr_act0, pr_sym, pr_seq, pr_one.
  { intros a j -> E. apply Ascii.eqb_eq in E. subst a. unfold not_at. apply okp_bind. unfold one. cbn [okp].
    destruct j as [|b j]; cbn [fst snd]; [apply (H LT), (L LT [])|]. destruct (among "<=" b); cbn [fst snd].
    - apply pr_sor. unfold GtSymbol, set_comparison. apply pr_act0, pr_sym, pr_seq, pr_one; [intros a' j' [= <- <-] E; discriminate E|].
      apply pr_sor. unfold LeSymbol, set_comparison. apply pr_act0, pr_sym, pr_str; [intros k E; apply (H LE); rewrite E; apply (L LE k)|].
      unfold GeSymbol, set_comparison. apply pr_act0, pr_sym, pr_str; [intros k E; discriminate E|exact HN].
    - apply (H LT), (L LT (b :: j)). }
  apply pr_sor. unfold GtSymbol, set_comparison. apply pr_act0, pr_sym, pr_seq, pr_one.
  { intros a j -> E. apply Ascii.eqb_eq in E. subst a. unfold not_at. apply okp_bind. unfold one. cbn [okp].
    destruct j as [|b j]; cbn [fst snd]; [apply (H GT), (L GT [])|]. destruct (among ">=" b); cbn [fst snd].
    - apply pr_sor. unfold LeSymbol, set_comparison. apply pr_act0, pr_sym, pr_str; [intros k E; discriminate E|].
      unfold GeSymbol, set_comparison. apply pr_act0, pr_sym, pr_str; [intros k E; apply (H GE); rewrite E; apply (L GE k)|exact HN].
    - apply (H GT), (L GT (b :: j)). }
  apply pr_sor. unfold LeSymbol, set_comparison. apply pr_act0, pr_sym, pr_str; [intros k ->; apply (H LE), (L LE k)|].
  unfold GeSymbol, set_comparison. apply pr_act0, pr_sym, pr_str; [intros k ->; apply (H GE), (L GE k)|exact HN].
Qed.
Lemma pr_eow (S : input -> st -> Prop) (N : st -> Prop) i (s : st) : (alnum_first i = false -> S (skip false i) s) -> N s -> pr S N (EndOfWord i s).
Proof.
  intros H HN. rewrite EndOfWord_eq. destruct i as [|a i]; [apply H; reflexivity|]. rewrite other_eq.
  destruct (letter a || digit a) eqn:E; [exact HN|]. apply H. exact E.
Qed.
Lemma pr_keyword (S : input -> st -> Prop) (N : st -> Prop) t w i (s : st) : t = Word w /\ is_word w \/ t = Define /\ w = "define-formula"%string ->
  (forall i1, lay [t] i i1 -> S i1 s) -> N s -> pr S N (Keyword w i s).
Proof.
  intros T H HN. apply pr_seq, pr_str; [|exact HN]. intros j ->. apply pr_eow; [|exact HN]. intros A. apply H.
  destruct T as [[-> W]|[-> ->]].
  - apply (lay_token (Word w)); [exact W|discriminate|exact A].
  - apply (lay_token Define); [exact I|discriminate|exact A].
Qed.
Lemma pr_ident (S : input -> st -> Prop) (N : st -> Prop) i (s : st) :
  (forall w i1, lay [Word w] i i1 -> S i1 (fst s, push w (snd s))) -> N s -> pr S N (Identifier i s).
Proof.
  intros H HN. rewrite Identifier_eq. destruct i as [|a i]; [exact HN|]. destruct (is_id_first a) eqn:A; [|exact HN].
  cbn [pr okp fst snd]. apply H. set (w := String a (string_of_list_ascii (take_while is_id_other i))).
  assert (E : a :: i = token_text (Word w) ++ drop_while is_id_other i).
  { unfold w. cbn [token_text chars list_ascii_of_string]. rewrite list_ascii_of_string_of_list_ascii. cbn [app]. rewrite take_drop. reflexivity. }
  rewrite E. apply lay_token; [|discriminate|].
  - split; [rewrite <- letter_eq; exact A|]. unfold chars. rewrite list_ascii_of_string_of_list_ascii. apply take_all. intros c. rewrite other_eq. auto.
  - destruct (drop_while is_id_other i) as [|b j] eqn:D; [reflexivity|]. cbn. rewrite <- other_eq. eapply drop_while_head, D.
Qed.

Lemma pr_digits (S : input -> st -> Prop) (N : st -> Prop) i (s : st) : (forall w j, i = w ++ j -> integer w -> S j s) -> N s -> pr S N (plus (one is_digit) i s).
Proof.
  intros H HN. rewrite plus_one. destruct i as [|a i]; [exact HN|]. destruct (is_digit a) eqn:A; [|exact HN].
  apply (H (a :: take_while is_digit i)); [cbn; rewrite take_drop; reflexivity|]. split; [discriminate|]. constructor; [rewrite <- digit_eq; exact A|].
  apply take_all. intros c. rewrite digit_eq. auto.
Qed.
Lemma pr_exponent (S : input -> st -> Prop) (N : st -> Prop) i (s : st) : (forall w j, i = w ++ j -> exponent_part w -> S j s) -> N s -> pr S N (exponent i s).
Proof.
  intros H HN. apply pr_if_must, pr_one; [|exact HN]. intros e j -> E.
  assert (E' : In e (chars "eE")). { unfold among in E. apply existsb_exists in E as (x & Hx & E). apply Ascii.eqb_eq in E. subst. exact Hx. }
  apply pr_seq, pr_opt, pr_one.
  - intros c k -> C. apply pr_digits; [|exact I]. intros w l -> W. apply (H (e :: [c] ++ w) l); [reflexivity|]. exists e, [c], w. split; [reflexivity|]. split; [exact E'|]. split; [|exact W].
    unfold among in C. apply existsb_exists in C as (x & [<-|[<-|[]]] & C); apply Ascii.eqb_eq in C; subst; auto.
  - apply pr_digits; [|exact I]. intros w l -> W. apply (H (e :: [] ++ w) l); [reflexivity|]. exists e, [], w. auto.
Qed.
Lemma pr_double (S : input -> st -> Prop) (N : st -> Prop) i (s : st) : (forall w j, i = w ++ j -> decimal w -> S j s) -> N s -> pr S N (double_rule i s).
Proof.
  intros H HN. unfold double_rule.
  assert (SECOND : forall s', s' = s -> pr S N (seq decimal_seq (seq (opt (one (Ascii.eqb "."))) exponent) i s')).
  { intros s' ->. apply pr_seq, pr_digits; [|exact HN]. intros a j -> A. apply pr_seq, pr_opt, pr_one.
    - intros c k -> C. apply Ascii.eqb_eq in C. subst c. apply pr_exponent; [|exact HN]. intros x l -> X.
      apply (H (a ++ ["."%char] ++ x)); [rewrite <- !app_assoc; reflexivity|]. exists a, ["."%char], x. split; [reflexivity|]. split; [exact A|]. right. auto.
    - apply pr_exponent; [|exact HN]. intros x l -> X. apply (H (a ++ [] ++ x)); [rewrite <- app_assoc; reflexivity|]. exists a, [], x. split; [reflexivity|]. split; [exact A|]. right. auto. }
  apply pr_sor, pr_seq, pr_digits; [|apply SECOND; reflexivity]. intros a j -> A.
  apply pr_seq, pr_one; [|apply SECOND; reflexivity]. intros c k -> C. apply Ascii.eqb_eq in C. subst c.
  apply pr_seq, pr_digits; [|apply SECOND; reflexivity]. intros ds l -> D. apply pr_opt, pr_exponent.
  - intros x m -> X. apply (H (a ++ ("."%char :: ds) ++ x)); [rewrite <- !app_assoc; reflexivity|]. exists a, ("."%char :: ds), x. split; [reflexivity|]. split; [exact A|]. left. eauto.
  - apply (H (a ++ ("."%char :: ds) ++ [])); [rewrite app_nil_r, <- !app_assoc; reflexivity|]. exists a, ("."%char :: ds), []. split; [reflexivity|]. split; [exact A|]. left. eauto.
Qed.
Lemma pr_num (S : input -> st -> Prop) (N : st -> Prop) i (s : st) :
  (forall w p i1, lay [Number w] i i1 -> S i1 (fst s, with_primitive p (snd s))) -> N s -> pr S N (Numeral stod i s).
Proof.
  intros H HN. unfold Numeral, DoubleLiteral, IntegerLiteral. apply pr_sor, pr_sym, pr_act.
  assert (L : forall w j, token_ok (Number w) -> lay [Number w] (w ++ j) (skip false j)) by (intros w j W; apply (lay_token (Number w)); [exact W|discriminate|exact I]).
  apply pr_double.
  - intros w j -> W. cbv beta. apply okp_local. destruct (stod _); [|exact I]. cbn [okp]. apply (H w), L. right. exact W.
  - apply pr_sym, pr_act, pr_digits; [|exact HN]. intros w j -> W. cbv beta. apply okp_local. apply okp_bind, okp_true. intros z. apply (H w), L. left. exact W.
Qed.

(** ** Predicates *)
Lemma predicate_two l : l_form l = Some FormTwo -> okp (fun _ => False) (predicate_action l).
Proof.
  intros E. unfold predicate_action. destruct (is_empty (l_identifiers l)); [exact I|]. apply okp_bind, okp_true. intros id. apply okp_bind, okp_true. intros ids.
  apply okp_bind, okp_true. intros c. apply okp_bind, okp_true. intros p. apply okp_bind, okp_true. intros v.
  cbn [with_primitive with_comparison with_identifiers l_form l_comparison]. rewrite E. exact I.
Qed.
Lemma pr_pred (S : input -> st -> Prop) (N : st -> Prop) i (s : st) :
  (forall op x w i1 l, lay [Cmp op; Word x; Number w] i i1 -> S i1 (fst s, l)) -> N s -> pr S N (PredicateTerm stod i s).
Proof.
  intros H HN. apply pr_act0, pr_if_must, pr_cmp; [|exact HN]. intros op i1 L1.
  assert (TWO : forall ids, pr (fun i2 s2 => okp (S i2) (local predicate_action s2)) (fun _ => True)
     (set_form FormTwo (seq (Numeral stod) Identifier) i1 (fst s, with_identifiers ids (with_comparison (Some op) (snd s))))).
  { intros ids. apply pr_act0, pr_seq, pr_num; [|exact I]. intros w p i2 _. apply pr_ident; [|exact I]. intros x i3 _. cbn [fst snd]. cbv beta.
    apply okp_local. cbn [okp]. apply okp_local. eapply okp_mono; [|apply predicate_two; reflexivity]. intros l []. }
  unfold PredicateForm. apply pr_sor, pr_act0, pr_seq, pr_ident; [|specialize (TWO (l_identifiers (snd s))); destruct s as [g l]; destruct l; exact TWO].
  intros x i2 L2. apply pr_num; [|apply TWO]. intros w p i3 L3. cbn [fst snd]. cbv beta. apply okp_local. cbn [okp]. apply okp_local. apply okp_true. intros l. cbn [fst].
  apply (H op x w). apply (lay_app [Cmp op] [Word x; Number w] i i1 i3 L1). apply (lay_app [Word x] [Number w] i1 i2 i3 L2 L3).
Qed.

(** ** Terms *)
Definition defs (s : st) : list string := map fst (formulas (fst s)).
Definition terms_only (s s1 : st) : Prop := exists us, s1 = (fst s, with_terms us (snd s)).
Definition term_lang (T : rule ascii st) : Prop := forall i s,
  pr (fun i1 s1 => terms_only s s1 /\ exists ts, lay ts i i1 /\ g_term (defs s) ts) (terms_only s) (T i s).

Lemma pr_op (S : input -> st -> Prop) (N : st -> Prop) m w tail f i (s : st) : is_word w ->
  (forall i1, lay [Word w] i i1 -> pr (fun i2 s2 => forall l, S i2 (fst s2, l)) (fun _ => True) (tail i1 s)) -> N s -> pr S N (op_rule m w tail f i s).
Proof.
  intros W H HN. apply pr_act0, pr_if_must. apply (pr_keyword _ _ (Word w)); [left; auto| |exact HN]. intros i1 L1.
  eapply pr_mono; [| |apply H, L1]; [|auto]. intros i2 s2 K. apply okp_local, okp_true, K.
Qed.

Lemma expression_lang n T : term_lang T -> forall i s,
  pr (fun i1 s1 => fst s1 = fst s /\ exists ts, lay ts i i1 /\ g_expr (defs s) ts) (fun s1 => fst s1 = fst s) (Expression dbg stod n T i s).
Proof.
  intros HT i s. set (S := fun i1 (s1 : st) => fst s1 = fst s /\ exists ts, lay ts i i1 /\ g_expr (defs s) ts).
  assert (T1 : forall m w f, is_word w -> In w ["not"; "always"; "eventually"]%string -> forall N : st -> Prop, N s -> pr S N (op_rule m w T f i s)).
  { intros m w f W Hw N HN. apply pr_op; [exact W| |exact HN]. intros i1 L1. eapply pr_mono; [| |apply HT]; [|auto].
    intros i2 s2 ((us & ->) & ts & L2 & G) l. split; [reflexivity|]. exists (Word w :: ts). split; [apply (lay_app [Word w] ts i i1 i2 L1 L2)|apply G_one; assumption]. }
  assert (T2 : forall m w f, is_word w -> In w ["implies"; "iff"; "xor"; "until"]%string -> forall N : st -> Prop, N s -> pr S N (op_rule m w (seq T T) f i s) /\ pr S N (op_rule m w (seq (must msg_Term T) (must msg_Term T)) f i s)).
  { intros m w f W Hw N HN.
    assert (END : forall i1 i2 i3 s2 s3, lay [Word w] i i1 -> (terms_only s s2 /\ exists ts, lay ts i1 i2 /\ g_term (defs s) ts) ->
      (terms_only s2 s3 /\ exists ts, lay ts i2 i3 /\ g_term (defs s2) ts) -> forall l, S i3 (fst s3, l)).
    { intros i1 i2 i3 s2 s3 L1 ((us & ->) & ts & L2 & G) ((us' & ->) & ts' & L3 & G') l. split; [reflexivity|]. exists (Word w :: ts ++ ts').
      split; [apply (lay_app [Word w] (ts ++ ts') i i1 i3 L1), (lay_app _ _ _ _ _ L2 L3)|apply G_two; assumption]. }
    split; (apply pr_op; [exact W| |exact HN]); intros i1 L1; apply pr_seq; try apply pr_must; (eapply pr_mono; [| |apply HT]; [|auto]); intros i2 s2 H2; try apply pr_must;
      (eapply pr_mono; [| |apply HT]; [|auto]); intros i3 s3 H3; exact (END _ _ _ _ _ L1 H2 H3). }
  assert (TM : forall m w f, is_word w -> In w ["and"; "or"]%string -> forall N : st -> Prop, N s -> pr S N (op_rule m w (plus_n n T) f i s)).
  { intros m w f W Hw N HN. apply pr_op; [exact W| |exact HN]. intros i1 L1. apply pr_seq. eapply pr_mono; [| |apply HT]; [|auto].
    intros i2 s2 ((us & ->) & ts & L2 & G).
    pose (J := fun i3 (s3 : st) => fst s3 = fst s /\ exists us, lay us i2 i3 /\ g_terms (defs s) us).
    eapply pr_mono; [| |apply (pr_star J (fun _ => True))]; [| auto| |].
    - intros i3 s3 (E & us' & L3 & G3) l. split; [exact E|]. exists (Word w :: ts ++ us').
      split; [apply (lay_app [Word w] (ts ++ us') i i1 i3 L1), (lay_app _ _ _ _ _ L2 L3)|apply G_many; assumption].
    - split; [reflexivity|]. exists []. split; constructor.
    - intros i3 s3 (E & us' & L3 & G3). eapply pr_mono; [| |apply HT].
      + intros i4 s4 ((us4 & ->) & ts4 & L4 & G4). split; [exact E|]. exists (us' ++ ts4). split; [exact (lay_app _ _ _ _ _ L3 L4)|].
        apply g_terms_snoc; [exact G3|]. unfold defs in *. rewrite E in G4. exact G4.
      + intros s4 (us4 & ->). split; [exact E|eauto]. }
  unfold Expression.
  assert (W : is_word "not" /\ is_word "and" /\ is_word "or" /\ is_word "implies" /\ is_word "iff" /\ is_word "xor" /\ is_word "always" /\ is_word "eventually" /\ is_word "until") by (repeat split; repeat constructor).
  destruct W as (W1 & W2 & W3 & W4 & W5 & W6 & W7 & W8 & W9).
  apply pr_sor, pr_pred; [intros op x w i1 l L; split; [reflexivity|]; exists [Cmp op; Word x; Number w]; split; [exact L|constructor]|].
  apply pr_sor, T1; [exact W1|cbn; tauto|].
  apply pr_sor, TM; [exact W2|cbn; tauto|].
  apply pr_sor, TM; [exact W3|cbn; tauto|].
  apply pr_sor. apply T2; [exact W4|cbn; tauto|].
  apply pr_sor. apply T2; [exact W5|cbn; tauto|].
  apply pr_sor. apply T2; [exact W6|cbn; tauto|].
  apply pr_sor, T1; [exact W7|cbn; tauto|].
  apply pr_sor, T1; [exact W8|cbn; tauto|].
  apply pr_sor. apply T2; [exact W9|cbn; tauto|].
  eapply pr_mono; [| |apply HT].
  - intros i1 s1 ((us & ->) & ts & L & G). split; [reflexivity|]. exists ts. split; [exact L|apply G_bare, G].
  - intros s1 (us & ->). reflexivity.
Qed.

Lemma pr_term_match (S : input -> st -> Prop) (N : st -> Prop) p i s :
  pr (fun i1 s1 => forall us, S i1 (fst s1, with_terms us (snd s))) (fun s1 => forall us, N (fst s1, with_terms us (snd s))) (p i (fst s, empty_local)) ->
  pr S N (term_match p i s).
Proof. intros H. apply okp_bind. revert H. apply okp_mono. intros [[i1|] [g l]]; cbn; auto. Qed.
Lemma find_name (m : fmap F) k e : fmap_find m k = Some e -> In k (map fst m).
Proof. induction m as [|[k' e'] m IH]; cbn; [discriminate|]. destruct (String.eqb k k') eqn:E; [apply String.eqb_eq in E; auto|auto]. Qed.
Lemma find_none (m : fmap F) k : fmap_find m k = None -> ~ In k (map fst m).
Proof. induction m as [|[k' e'] m IH]; cbn; [auto|]. destruct (String.eqb k k') eqn:E; [discriminate|]. apply String.eqb_neq in E. intros H [K|K]; [congruence|exact (IH H K)]. Qed.

Lemma term_action_global (s : st) : okp (fun s1 => fst s1 = fst s) (term_action s).
Proof. destruct s as [g l]. unfold term_action. destruct (l_result l); [reflexivity|]. destruct (last_opt _); [|exact I]. destruct (fmap_find _ _); [reflexivity|exact I]. Qed.

Lemma Term_lang n : term_lang (Term dbg stod n).
Proof.
  induction n as [|n IH]; [intros i s; exact I|]. intros i s. cbn [Term]. apply pr_term_match, pr_act0.
  set (s0 := (fst s, empty_local) : st).
  pose (S := fun i1 (s1 : st) => okp (fun s2 => forall us, terms_only s (fst s2, with_terms us (snd s)) /\ exists ts, lay ts i i1 /\ g_term (defs s) ts) (term_action s1)).
  change (pr S (fun s1 => forall us, terms_only s (fst s1, with_terms us (snd s)))
    (sor (if_must msg_TermTail LParen (until_n (Datatypes.S n) RParen (Expression dbg stod (Datatypes.S n) (Term dbg stod n)))) (sor BooleanLiteral Identifier) i s0)).
  apply pr_sor, pr_if_must. unfold LParen at 1. apply (pr_paren _ _ LPar); [auto| |].
  - intros i1 L1 _.
    pose (J := fun i2 (s2 : st) => fst s2 = fst s /\ exists ts, lay ts i1 i2 /\
      ((ts = [] /\ s2 = s0) \/ exists e es, ts = e ++ es /\ g_expr (defs s) e /\ g_exprs (defs s) es)).
    apply (pr_until J).
    { split; [reflexivity|]. exists []. split; [constructor|auto]. }
    intros i2 s2 (E & ts & L2 & C). unfold RParen. apply (pr_paren _ _ RPar); [auto| |].
    + intros i3 L3 _. unfold S. destruct C as [[-> ->]|(e & es & -> & G1 & G2)]; [exact I|].
      eapply okp_mono; [|apply term_action_global]. intros s3 E3 us. split; [exists us; rewrite E3, E; reflexivity|].
      exists (LPar :: (e ++ es) ++ [RPar]). split; [|constructor; assumption].
      apply (lay_app [LPar] ((e ++ es) ++ [RPar]) i i1 i3 L1). exact (lay_app _ _ _ _ _ L2 L3).
    + eapply pr_mono; [| |apply (expression_lang (Datatypes.S n) _ IH i2 s2)]; [|auto].
      intros i3 s3 (E3 & us & L3 & G). split; [congruence|]. exists (ts ++ us). split; [exact (lay_app _ _ _ _ _ L2 L3)|]. right.
      assert (G' : g_expr (defs s) us) by (unfold defs in *; rewrite E in G; exact G).
      destruct C as [[-> ->]|(e & es & -> & G1 & G2)].
      * exists us, []. cbn. rewrite app_nil_r. split; [reflexivity|]. split; [exact G'|constructor].
      * exists e, (es ++ us). rewrite app_assoc. split; [reflexivity|]. split; [exact G1|]. apply g_exprs_snoc; assumption.
  - apply pr_sor. unfold BooleanLiteral, KwTrue, KwFalse, set_bool.
    assert (W : is_word "true" /\ is_word "false") by (split; repeat constructor). destruct W as [WT WF].
    assert (B : forall w i1 l, w = "true"%string \/ w = "false"%string -> lay [Word w] i i1 -> S i1 (fst s, l)).
    { intros w i1 l Hw L. unfold S. eapply okp_mono; [|apply term_action_global]. intros s3 E3 us. split; [exists us; rewrite E3; reflexivity|].
      exists [Word w]. split; [exact L|]. constructor. tauto. }
    apply pr_act0, pr_sor, pr_act0. apply (pr_keyword _ _ (Word "true")); [auto| |].
    { intros i1 L. cbv beta. apply okp_local. cbn [okp]. apply okp_local. exact (B "true"%string i1 _ (or_introl eq_refl) L). }
    apply pr_act0. apply (pr_keyword _ _ (Word "false")); [auto| |].
    { intros i1 L. cbv beta. apply okp_local. cbn [okp]. apply okp_local. exact (B "false"%string i1 _ (or_intror eq_refl) L). }
    apply pr_ident.
    + intros w i1 L. unfold S, s0. cbn [fst snd]. unfold push, term_action. cbn [empty_local l_result l_identifiers with_identifiers app last_opt].
      destruct (fmap_find (formulas (fst s)) w) eqn:Ef; [|exact I]. cbn [okp fst]. intros us. split; [exists us; reflexivity|].
      exists [Word w]. split; [exact L|]. constructor. right. right. eapply find_name, Ef.
    + intros us. exists us. reflexivity.
Qed.

(** ** Commands *)
Definition asserted (s : st) : list string := map fst (assertions (fst s)).
Lemma command_lang n i s :
  pr (fun i1 s1 => exists ts, lay ts i i1 /\ g_commands (defs s) (asserted s) ts (defs s1) (asserted s1)) (fun _ => True) (Command dbg stod n i s).
Proof.
  unfold Command. apply pr_must, pr_sor. unfold Assertion. apply pr_act0, pr_if_must.
  assert (WA : is_word "assert") by (repeat constructor).
  apply (pr_keyword _ _ (Word "assert")); [auto| |].
  - intros i1 L1. apply pr_seq, pr_must, pr_ident; [|exact I]. intros x i2 L2. apply pr_must.
    eapply pr_mono; [| |apply Term_lang]; [|auto]. intros i3 s3 ((us & ->) & ts & L3 & G). cbn [fst snd] in *.
    unfold command_action. apply okp_bind, okp_true. intros _. apply okp_bind, okp_true. intros _.
    cbn [push with_terms with_identifiers l_identifiers l_terms]. rewrite back_snoc, pop_snoc. cbn [bind].
    apply okp_bind, okp_true. intros e. apply okp_bind, okp_true. intros tl. destruct (fmap_find _ x) eqn:Ef; [exact I|].
    apply okp_bind, okp_true. intros _. cbn [okp]. exists (Word "assert" :: Word x :: ts ++ []). split.
    + rewrite app_nil_r. apply (lay_app [Word "assert"] (Word x :: ts) i i1 i3 L1). exact (lay_app [Word x] ts i1 i2 i3 L2 L3).
    + apply G_assert; [exact G|apply find_none, Ef|]. unfold asserted, defs. cbn [fst assertions formulas]. rewrite map_app. constructor.
  - unfold DefineFormula. apply pr_act0, pr_if_must. apply (pr_keyword _ _ Define); [auto| |exact I].
    intros i1 L1. apply pr_seq, pr_must, pr_ident; [|exact I]. intros x i2 L2. apply pr_must.
    eapply pr_mono; [| |apply Term_lang]; [|auto]. intros i3 s3 ((us & ->) & ts & L3 & G). cbn [fst snd] in *.
    unfold command_action. apply okp_bind, okp_true. intros _. apply okp_bind, okp_true. intros _.
    cbn [push with_terms with_identifiers l_identifiers l_terms]. rewrite back_snoc, pop_snoc. cbn [bind].
    apply okp_bind, okp_true. intros e. apply okp_bind, okp_true. intros tl. destruct (fmap_find _ x) eqn:Ef; [exact I|].
    apply okp_bind, okp_true. intros _. cbn [okp]. exists (Define :: Word x :: ts ++ []). split.
    + rewrite app_nil_r. apply (lay_app [Define] (Word x :: ts) i i1 i3 L1). exact (lay_app [Word x] ts i1 i2 i3 L2 L3).
    + apply G_define; [exact G|apply find_none, Ef|]. unfold asserted, defs. cbn [fst assertions formulas]. rewrite map_app. constructor.
Qed.

Lemma file_lang n i : pr (fun _ s1 => exists g ts, skipped g (skip false i) /\ i = g ++ skip false i /\ lay ts (skip false i) [] /\ g_file [] [] ts (defs s1) (asserted s1))
  (fun _ => True) (SpecificationFile dbg stod n i (mkSpec [] [], empty_local)).
Proof.
  unfold SpecificationFile, StatementList. apply pr_must, pr_seq. rewrite Skip_eq. cbn [pr okp fst snd].
  destruct (skip_split i) as [(g & E & SK) _]. set (i0 := skip false i) in *.
  pose (J := fun i1 (s1 : st) => exists ts, lay ts i0 i1 /\ g_file [] [] ts (defs s1) (asserted s1)).
  apply (pr_until J).
  { exists []. split; constructor. }
  intros i1 s1 (ts & L1 & G1). unfold eof. destruct i1 as [|c i1].
  - cbn. exists g, ts. auto.
  - cbn [pr okp fst snd]. apply pr_seq. unfold AnyCommand. apply pr_if_must. unfold LParen. apply (pr_paren _ _ LPar); [auto| |exact I].
    intros i2 L2 _. pose (K := fun i3 (s3 : st) => exists cs, lay cs i2 i3 /\ g_commands (defs s1) (asserted s1) cs (defs s3) (asserted s3)).
    apply (pr_until K).
    { exists []. split; constructor. }
    intros i3 s3 (cs & L3 & G3). unfold RParen. apply (pr_paren _ _ RPar); [auto| |].
    + intros i4 L4 ID. rewrite Skip_eq, ID. cbn [pr okp fst snd]. exists (ts ++ LPar :: cs ++ [RPar]). split.
      * apply (lay_app _ _ _ _ _ L1). apply (lay_app [LPar] (cs ++ [RPar]) _ _ _ L2). exact (lay_app _ _ _ _ _ L3 L4).
      * eapply g_file_snoc; eassumption.
    + eapply pr_mono; [| |apply command_lang]; [|auto]. intros i4 s4 (ds & L4 & G4). exists (cs ++ ds). split; [exact (lay_app _ _ _ _ _ L3 L4)|].
      eapply g_commands_app; eassumption.
Qed.

Lemma accepted t g : from_string dbg stod t = Ok g ->
  exists gp i ts, chars t = gp ++ i /\ skipped gp i /\ lay ts i [] /\ g_file [] [] ts (map fst (formulas g)) (map fst (assertions g)).
Proof.
  unfold from_string, parse. set (i := list_ascii_of_string t). pose proof (file_lang (1 + length i) i) as H.
  destruct (SpecificationFile dbg stod (1 + length i) i (mkSpec [] [], empty_local)) as [[[j|] [g' l]]|e| | |] eqn:E; cbn [bind]; try discriminate.
  intros [= <-]. cbn [pr okp fst snd] in H. destruct H as (gp & ts & SK & E' & L & G). exists gp, (skip false i), ts. auto.
Qed.
End Accept.

From Verif Require Import NumB64.
From Verif.Proofs Require Import ParserExamples.
Lemma rejected (stod : list ascii -> option B64) t :
  ~ (exists gp i toks d a, chars t = gp ++ i /\ skipped gp i /\ lay toks i [] /\ g_file [] [] toks d a) ->
  exists e, from_string false stod t = Throw e.
Proof.
  intros H. destruct (C55_release_lemma stod t) as [[g E]|(e & E & _)]; [|eauto].
  destruct (accepted _ _ _ _ E) as (gp & i & ts & E' & S & L & G). exfalso. apply H. exists gp, i, ts. eauto 10.
Qed.

(** ** Nesting is balanced *)
Scheme g_term_ind' := Minimality for g_term Sort Prop
with g_exprs_ind' := Minimality for g_exprs Sort Prop
with g_expr_ind' := Minimality for g_expr Sort Prop
with g_terms_ind' := Minimality for g_terms Sort Prop.
Definition opens (ts : list token) : nat := length (filter (fun t => match t with LPar => true | _ => false end) ts).
Definition closes (ts : list token) : nat := length (filter (fun t => match t with RPar => true | _ => false end) ts).
Lemma opens_app a b : opens (a ++ b) = opens a + opens b.
Proof. unfold opens. rewrite filter_app, app_length. reflexivity. Qed.
Lemma closes_app a b : closes (a ++ b) = closes a + closes b.
Proof. unfold closes. rewrite filter_app, app_length. reflexivity. Qed.
Lemma opens_cons t a : opens (t :: a) = (match t with LPar => 1 | _ => 0 end) + opens a.
Proof. destruct t; reflexivity. Qed.
Lemma closes_cons t a : closes (t :: a) = (match t with RPar => 1 | _ => 0 end) + closes a.
Proof. destruct t; reflexivity. Qed.
Ltac count := repeat (rewrite opens_app || rewrite opens_cons || rewrite closes_app || rewrite closes_cons); cbn [opens closes filter length]; try lia.
Lemma term_balanced d ts : g_term d ts -> opens ts = closes ts.
Proof.
  apply (g_term_ind' d (fun ts => opens ts = closes ts) (fun ts => opens ts = closes ts) (fun ts => opens ts = closes ts) (fun ts => opens ts = closes ts)); intros; count; reflexivity.
Qed.
Lemma commands_balanced d a ts d' a' : g_commands d a ts d' a' -> opens ts = closes ts.
Proof.
  induction 1 as [|d a x t ts d' a' T _ _ IH|d a x t ts d' a' T _ _ IH]; [reflexivity| |]; pose proof (term_balanced _ _ T); count.
Qed.
Lemma file_balanced d a ts d' a' : g_file d a ts d' a' -> opens ts = closes ts.
Proof. induction 1 as [|d a cs ts d1 a1 d' a' C _ IH]; [reflexivity|]. pose proof (commands_balanced _ _ _ _ _ C). count. Qed.

Lemma C78_open_case :
  ~ (exists gp i toks d a, chars "(" = gp ++ i /\ skipped gp i /\ lay toks i [] /\ g_file [] [] toks d a).
Proof.
  intros (gp & i & ts & d & a & E & S & L & G).
  assert (E0 : gp = []).
  { destruct gp as [|c gp]; [reflexivity|]. injection E as <- _. exfalso. assert (LG : last_gap ("("%char :: gp)) by (destruct S as [S|[S _]]; [apply last_closed, S|exact S]).
    inversion LG as [g0 GG|g0 w GG O EE]; [inversion GG; discriminate|]. destruct g0 as [|c g0]; [discriminate|]. injection EE as -> _. inversion GG; discriminate. }
  subst gp. cbn [app] in E. subst i. inversion L as [|t ts' g i j T B _ _ L' E1 E2 E3]; subst.
  apply file_balanced in G. revert G. assert (t = LPar /\ g ++ i = []) as [-> E0].
  { destruct t as [| |op|w| |w|]; try discriminate E2.
    - injection E2 as ->. auto.
    - destruct op; discriminate E2.
    - exfalso. cbn in E2. destruct w as [|c w]; [destruct T|]. injection E2 as -> _. destruct T as [T _]. discriminate T.
    - exfalso. cbn in E2. destruct w as [|c w]; [|injection E2 as -> _]; (destruct T as [[T1 T2]|(da & f & x & T & [T1 T2] & _)]; [|destruct da as [|c' da]; [congruence|]]); try congruence.
      + discriminate T. 
      + inversion T2; subst. discriminate.
      + injection T as <- _. inversion T2; subst. discriminate.
    - congruence. }
  apply app_eq_nil in E0 as [-> ->]. inversion L' as [|t ts g i j' T' B' _ _ _ E1 E3 E4]; subst; [discriminate|].
  exfalso. apply app_eq_nil in E3 as [E3 _]. destruct t as [| |op|w| |w|]; try discriminate E3; try congruence.
  - destruct op; discriminate E3.
  - destruct w; [destruct T'|discriminate E3].
  - cbn in E3. subst w. destruct T' as [[T1 _]|(da & f & x & T0 & [T1 _] & _)]; [congruence|]. destruct da; [congruence|discriminate T0].
Qed.
