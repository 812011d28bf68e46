(** C106: the commands of a specification in another order, or fewer of them. *)
From Coq Require Import Ascii.
From Verif Require Import Base Num NumB64.
From Verif.Spec Require Import Formula AstSpec Text Syntax.
From Verif.Model Require Import Ast Peg Parser.
From Verif.Proofs Require Import AstFacts PegFacts ParserSafe TokenSim TokenParser TokenEval SpecFacts ParserExamples InlineFacts.
Local Open Scope nat_scope.

Section Facts.
Context {F : Type} `{NF : Num F}.
Variable stod : input -> option F.

(** [m] defines exactly the names [xs], as [d] does. *)
Definition restricts (d : @entries F) (xs : list string) (m : @entries F) : Prop :=
  (forall x, In x xs -> lookup m x = lookup d x /\ lookup d x <> None) /\ forall x, ~ In x xs -> lookup m x = None.
Lemma restricts_add d xs m k x e : restricts d xs m -> ~ In x xs -> lookup d x = Some e ->
  exists m', add k m x e = Ok m' /\ restricts d (xs ++ [x]) m'.
Proof.
  intros [H1 H2] N L. unfold add. rewrite (H2 x N). eexists. split; [reflexivity|].
  assert (S : forall y, lookup (m ++ [(x, e)]) y = match lookup m y with Some f => Some f | None => if string_dec y x then Some e else None end).
  { intros y. clear. induction m as [|[z f] m IH]; cbn; [reflexivity|]. destruct (string_dec y z); auto. }
  split; intros y K; rewrite S.
  - apply in_app_or in K as [K|[<-|[]]].
    + destruct (H1 y K) as [E Q]. rewrite E. destruct (lookup d y); [split; [reflexivity|discriminate]|congruence].
    + rewrite (H2 x N), L. destruct (string_dec x x); [split; [reflexivity|discriminate]|congruence].
  - rewrite (H2 y) by (intros K'; apply K, in_or_app; auto). destruct (string_dec y x) as [->|]; [|reflexivity]. exfalso. apply K, in_or_app. right. left. reflexivity.
Qed.
Lemma names_snoc (pre : list command) c : def_names (pre ++ [c]) = def_names pre ++ (if is_def c then [name c] else []) /\
  assert_names (pre ++ [c]) = assert_names pre ++ (if is_def c then [] else [name c]).
Proof. unfold def_names, assert_names. rewrite !filter_app, !map_app. cbn. destruct (is_def c); cbn; auto. Qed.
Lemma nodup_middle (l : list string) x l' : NoDup ((l ++ [x]) ++ l') -> ~ In x l.
Proof. rewrite <- app_assoc. cbn. intros H K. apply NoDup_remove_2 in H. apply H, in_or_app. auto. Qed.

Lemma subset_value two em cs d a : spec_value stod two em [] [] cs = Ok (d, a) ->
  forall post pre m b, incl (pre ++ post) cs -> NoDup (def_names (pre ++ post)) -> NoDup (assert_names (pre ++ post)) -> ordered (pre ++ post) ->
  restricts d (def_names pre) m -> restricts a (assert_names pre) b ->
  exists m' b', spec_value stod two em m b post = Ok (m', b') /\ restricts d (def_names (pre ++ post)) m' /\ restricts a (assert_names (pre ++ post)) b'.
Proof.
  intros V. induction post as [|c post IH]; intros pre m b I ND NA O Rm Rb.
  - rewrite app_nil_r. exists m, b. auto.
  - assert (Hc : In c cs) by (apply I, in_or_app; right; left; reflexivity).
    apply in_split in Hc as (p & q & E). pose proof V as V'. rewrite E in V'. apply spec_at in V' as (_ & e & Ve & Le).
    assert (Te : term_value stod two em (lookup m) (body c) = Ok e).
    { rewrite <- Ve. apply value_env. intros y Hy. apply Rm. apply (O pre c post eq_refl), Hy. }
    replace (pre ++ c :: post) with ((pre ++ [c]) ++ post) in * by (rewrite <- app_assoc; reflexivity).
    pose proof (names_snoc pre c) as [Nd Na].
    assert (ND' : NoDup (def_names (pre ++ [c]) ++ def_names post)) by (unfold def_names in *; rewrite filter_app, map_app in ND; exact ND).
    assert (NA' : NoDup (assert_names (pre ++ [c]) ++ assert_names post)) by (unfold assert_names in *; rewrite filter_app, map_app in NA; exact NA).
    destruct c as [x t|x t]; cbn [is_def name body app spec_value] in *; rewrite Te; cbn [bind].
    + rewrite Nd in ND'. destruct (restricts_add d _ m "Formula" x e Rm (nodup_middle _ _ _ ND') Le) as (m1 & -> & R1). cbn [bind].
      apply IH; auto; [rewrite Nd; exact R1|rewrite Na, app_nil_r; exact Rb].
    + rewrite Na in NA'. destruct (restricts_add a _ b "Assertion" x e Rb (nodup_middle _ _ _ NA') Le) as (b1 & -> & R1). cbn [bind].
      apply IH; auto; [rewrite Nd, app_nil_r; exact Rm|rewrite Na; exact R1].
Qed.

Lemma C106_lemma dbg cs t g cs' t' : all_leaves ref_ok cs = true -> spec_text cs t -> from_string dbg stod t = Ok g ->
  spec_text cs' t' -> incl cs' cs -> NoDup (def_names cs') -> NoDup (assert_names cs') -> ordered cs' ->
  exists g', from_string dbg stod t' = Ok g' /\
    (forall x, In x (def_names cs') -> lookup (formulas g') x = lookup (formulas g) x /\ lookup (formulas g) x <> None) /\
    (forall x, ~ In x (def_names cs') -> lookup (formulas g') x = None) /\
    (forall x, In x (assert_names cs') -> lookup (assertions g') x = lookup (assertions g) x /\ lookup (assertions g) x <> None) /\
    (forall x, ~ In x (assert_names cs') -> lookup (assertions g') x = None).
Proof.
  intros R H G H' I ND NA O.
  assert (R' : all_leaves ref_ok cs' = true).
  { unfold all_leaves in *. rewrite forallb_forall in *. intros c Hc. apply R, I, Hc. }
  rewrite (code_spec dbg stod cs t R H) in G. rewrite (code_spec dbg stod cs' t' R' H'). apply bind_ok_inv in G as ([d a] & V & G). injection G as <-.
  destruct (subset_value _ _ cs d a V cs' [] [] []) as (m & b & -> & [M1 M2] & B1 & B2); auto; try (split; [intros x []|intros; reflexivity]).
  cbn [bind]. eexists. split; [reflexivity|]. cbn [formulas assertions]. auto.
Qed.
End Facts.

Local Open Scope string_scope.
Definition c106_cs : list command :=
  [Def "a" (TPred LE "x" (chars "12")); Assert "m" (TNot (TRef "a")); Def "b" (TPred GT "y" (chars "3")); Assert "n" (TAnd [TRef "a"; TRef "b"])].
Definition c106_text : string := "(define-formula a (<= x 12))(assert m (not a))(define-formula b (> y 3))(assert n (and a b))".
Definition c106_cs' : list command :=
  [Def "b" (TPred GT "y" (chars "3")); Def "a" (TPred LE "x" (chars "12")); Assert "n" (TAnd [TRef "a"; TRef "b"])].
Definition c106_text' : string := "(define-formula b (> y 3))(define-formula a (<= x 12))(assert n (and a b))".
Lemma C106_case_lemma : all_leaves ref_ok c106_cs = true /\ spec_text c106_cs c106_text /\ (exists g, from_string false no_double c106_text = Ok g) /\
  spec_text c106_cs' c106_text' /\ incl c106_cs' c106_cs /\ NoDup (def_names c106_cs') /\ NoDup (assert_names c106_cs') /\ ordered c106_cs'.
Proof.
  assert (T : spec_text c106_cs c106_text).
  { apply (render_text "" [(LPar, ""); (Define, " "); (Word "a", " "); (LPar, ""); (Cmp LE, " "); (Word "x", " "); (Number (chars "12"), ""); (RPar, ""); (RPar, "");
      (LPar, ""); (Word "assert", " "); (Word "m", " "); (LPar, ""); (Word "not", " "); (Word "a", ""); (RPar, ""); (RPar, "");
      (LPar, ""); (Define, " "); (Word "b", " "); (LPar, ""); (Cmp GT, " "); (Word "y", " "); (Number (chars "3"), ""); (RPar, ""); (RPar, "");
      (LPar, ""); (Word "assert", " "); (Word "n", " "); (LPar, ""); (Word "and", " "); (Word "a", " "); (Word "b", ""); (RPar, ""); (RPar, "")]); reflexivity. }
  split; [reflexivity|]. split; [exact T|]. split; [rewrite (code_spec false no_double c106_cs _ eq_refl T); eexists; reflexivity|]. split.
  { apply (render_text "" [(LPar, ""); (Define, " "); (Word "b", " "); (LPar, ""); (Cmp GT, " "); (Word "y", " "); (Number (chars "3"), ""); (RPar, ""); (RPar, "");
      (LPar, ""); (Define, " "); (Word "a", " "); (LPar, ""); (Cmp LE, " "); (Word "x", " "); (Number (chars "12"), ""); (RPar, ""); (RPar, "");
      (LPar, ""); (Word "assert", " "); (Word "n", " "); (LPar, ""); (Word "and", " "); (Word "a", " "); (Word "b", ""); (RPar, ""); (RPar, "")]); reflexivity. }
  split; [intros c Hc; cbn in *; tauto|].
  split; [repeat constructor; cbn; intuition discriminate|]. split; [repeat constructor; cbn; intuition discriminate|].
  intros pre c post E. destruct pre as [|c1 pre]; [injection E as <- _; intros y []|]. destruct pre as [|c2 pre]; [injection E as _ <- _; intros y []|].
  destruct pre as [|c3 pre]; [injection E as <- <- <- _; intros y Hy; cbn in *; tauto|]. injection E as _ _ _ E. destruct pre; discriminate E.
Qed.
