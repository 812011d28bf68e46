(** C96: definitions may be written out. *)
From Coq Require Import Ascii.
From Verif Require Import Base Num NumB64.
From Verif.Spec Require Import Formula AstSpec Text Syntax.
From Verif.Model Require Import Ast Peg Parser.
From Verif.Proofs Require Import AstFacts PegFacts ParserSafe TokenSim TokenParser TokenEval SpecFacts ParserExamples.
Local Open Scope nat_scope.

Section Facts.
Context {F : Type} `{NF : Num F}.
Variable stod : input -> option F.

Lemma inline_leaves f d u t : leaves f u = true -> leaves f t = true -> leaves f (inline d u t) = true.
Proof.
  intros U. induction t as [b|x|op x w|op w x| |t IH|ts IH|ts IH|t v IHt IHu|t v IHt IHu|t v IHt IHu|t IH|t IH|t v IHt IHu] using term_induction; cbn [inline leaves]; auto;
    try (intros H; apply andb_prop in H as [H1 H2]; rewrite IHt, IHu by assumption; reflexivity).
  - destruct (string_dec x d); auto.
  - intros H. induction IH as [|t ts Ht _ IH']; [reflexivity|]. cbn in *. apply andb_prop in H as [H1 H2]. rewrite Ht, IH' by assumption. reflexivity.
  - intros H. induction IH as [|t ts Ht _ IH']; [reflexivity|]. cbn in *. apply andb_prop in H as [H1 H2]. rewrite Ht, IH' by assumption. reflexivity.
Qed.
Lemma inline_value two em env d u t e : env d = Some e -> term_value stod two em env u = Ok e ->
  term_value stod two em env (inline d u t) = term_value stod two em env t.
Proof.
  intros D U. induction t as [b|x|op x w|op w x| |t IH|ts IH|ts IH|t v IHt IHu|t v IHt IHu|t v IHt IHu|t IH|t IH|t v IHt IHu] using term_induction; cbn [inline term_value]; auto;
    try (rewrite IH; reflexivity); try (rewrite IHt, IHu; reflexivity).
  - destruct (string_dec x d) as [->|]; [rewrite U, D; reflexivity|reflexivity].
  - assert (E : list_values (term_value stod two em env) (map (inline d u) ts) = list_values (term_value stod two em env) ts); [|rewrite E; reflexivity].
    induction IH as [|t ts Ht _ IH']; [reflexivity|]. cbn [map list_values]. rewrite Ht, IH'. reflexivity.
  - assert (E : list_values (term_value stod two em env) (map (inline d u) ts) = list_values (term_value stod two em env) ts); [|rewrite E; reflexivity].
    induction IH as [|t ts Ht _ IH']; [reflexivity|]. cbn [map list_values]. rewrite Ht, IH'. reflexivity.
Qed.
Lemma extended two em (m m' : entries) u e : term_value stod two em (lookup m) u = Ok e -> term_value stod two em (lookup (m ++ m')) u = Ok e.
Proof.
  intros H. rewrite <- H. apply value_env. intros y K. pose proof (value_refs _ _ _ _ _ _ H y K) as N.
  destruct (lookup m y) as [e'|] eqn:L; [apply lookup_app, L|congruence].
Qed.
Lemma add_app k (m m' : entries) x (e : expr F) : add k m x e = Ok m' -> m' = m ++ [(x, e)] /\ lookup m' x = Some e.
Proof.
  intros A. unfold add in A. destruct (lookup m x) eqn:L; [discriminate|]. injection A as <-. split; [reflexivity|].
  clear - L. induction m as [|[y e'] m IH]; cbn in *; [destruct (string_dec x x); congruence|]. destruct (string_dec x y); [discriminate|auto].
Qed.
Lemma bind_same {A B} (m : outcome A) (f g : A -> outcome B) : (forall a, m = Ok a -> f a = g a) -> bind m f = bind m g.
Proof. intros H. destruct m; cbn; auto. Qed.
Lemma inline_post two em d u e post : forall m a, lookup m d = Some e -> term_value stod two em (lookup m) u = Ok e ->
  spec_value stod two em m a (map (inline_command d u) post) = spec_value stod two em m a post.
Proof.
  induction post as [|[x t|x t] post IH]; intros m a D U; [reflexivity|..]; cbn [map inline_command spec_value];
    rewrite (inline_value two em _ d u t e D U); apply bind_same; intros f Hf; apply bind_same; intros m' Hm; apply IH; auto.
  - apply add_app in Hm as [-> _]. apply lookup_app, D.
  - apply add_app in Hm as [-> _]. apply extended, U.
Qed.
Lemma inline_spec two em pre d u post m a : spec_value stod two em m a (pre ++ Def d u :: map (inline_command d u) post) =
  spec_value stod two em m a (pre ++ Def d u :: post).
Proof.
  rewrite !spec_value_app. apply bind_same. intros [m1 a1] _. cbn [spec_value]. apply bind_same. intros e He. apply bind_same. intros m2 Hm.
  apply add_app in Hm as [-> L]. apply (inline_post two em d u e); [exact L|apply extended, He].
Qed.
Lemma C96_lemma dbg pre d u post t t' : all_leaves ref_ok (pre ++ Def d u :: post) = true ->
  spec_text (pre ++ Def d u :: post) t -> spec_text (pre ++ Def d u :: map (inline_command d u) post) t' ->
  from_string dbg stod t' = from_string dbg stod t.
Proof.
  intros R H H'. assert (R' : all_leaves ref_ok (pre ++ Def d u :: map (inline_command d u) post) = true).
  { unfold all_leaves in *. rewrite forallb_app in *. cbn [forallb body] in *. apply andb_prop in R as [R1 R]. apply andb_prop in R as [R2 R].
    rewrite R1, R2. cbn [andb]. clear - R R2. induction post as [|c post IH]; [reflexivity|]. cbn [map forallb] in *. apply andb_prop in R as [A B].
    rewrite (IH B), andb_true_r. destruct c; cbn [inline_command body] in *; apply inline_leaves; assumption. }
  rewrite (code_spec dbg stod _ t R H), (code_spec dbg stod _ t' R' H'), inline_spec. reflexivity.
Qed.
End Facts.

Local Open Scope string_scope.
Definition c96_u : term := TPred LE "x" (chars "12").
Definition c96_post : list command := [Assert "m" (TAlways (TAnd [TRef "a"; TNot (TRef "a"); TPred GT "y" (chars "3")]))].
Definition c96_text : string := "(define-formula a(<= x 12))(assert m (always (and (<= x 12)(not (<= x 12))(>y 3))))".
Lemma C96_case_lemma : all_leaves ref_ok ([] ++ Def "a" c96_u :: c96_post) = true /\ spec_text ([] ++ Def "a" c96_u :: c96_post) ex_text /\
  spec_text ([] ++ Def "a" c96_u :: map (inline_command "a" c96_u) c96_post) c96_text /\ exists g, from_string false no_double ex_text = Ok g.
Proof.
  split; [reflexivity|]. split; [exact ex_text_ok|]. split; [|apply ex_parses].
  apply (render_text "" [(LPar, ""); (Define, " "); (Word "a", ""); (LPar, ""); (Cmp LE, " "); (Word "x", " "); (Number (chars "12"), ""); (RPar, ""); (RPar, "");
    (LPar, ""); (Word "assert", " "); (Word "m", " "); (LPar, ""); (Word "always", " "); (LPar, ""); (Word "and", " ");
    (LPar, ""); (Cmp LE, " "); (Word "x", " "); (Number (chars "12"), ""); (RPar, ""); (LPar, ""); (Word "not", " ");
    (LPar, ""); (Cmp LE, " "); (Word "x", " "); (Number (chars "12"), ""); (RPar, ""); (RPar, "");
    (LPar, ""); (Cmp GT, ""); (Word "y", " "); (Number (chars "3"), ""); (RPar, ""); (RPar, ""); (RPar, ""); (RPar, "")]); reflexivity.
Qed.
