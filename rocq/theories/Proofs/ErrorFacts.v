(** C100-C103: what is reported for a text that is rejected. *)
From Coq Require Import Ascii.
From Flocq Require Import IEEE754.BinarySingleNaN.
From Verif Require Import Base Num NumB64.
From Verif.Spec Require Import Formula AstSpec Text Syntax Messages.
From Verif.Model Require Import Ast Peg Parser.
From Verif.Proofs Require Import PegFacts ParserSafe TokenSim TokenParser TokenEval SpecFacts ParserExamples.
Local Open Scope nat_scope.

Section Errors.
Context {F : Type} `{NF : Num F}.
Variable dbg : bool.
Variable stod : input -> option F.
Notation st := (state F).
Notation fresh := (@empty_local F).
Notation from := (from_string dbg stod).
Notation code_value := (spec_value stod (@code_two F) code_empty).

(** ** C100, C101 *)
Lemma C100_lemma t m : from t = Throw (ParseError m) -> reported m.
Proof. intros E. pose proof (C55_lemma dbg stod t) as H. rewrite E in H. exact H. Qed.

Lemma unclosed_unreported : ~ reported unclosed.
Proof.
  intros [H|[H|(x & _ & [H|H])]]; try discriminate. cbn in H. unfold unclosed in H. intuition discriminate.
Qed.
Lemma C101_lemma t : from t <> Throw (ParseError unclosed).
Proof. intros E. exact (unclosed_unreported (C100_lemma _ _ E)). Qed.

(** ** A specification followed by other tokens *)
Lemma commands_then n cs rest (g : spec F) : all_leaves ref_ok cs = true -> length (spec_tokens cs) <= n -> forall k,
  until_n (length cs + k) eof (seq (tAnyCommand dbg stod n) succeed) (spec_tokens cs ++ rest) (g, fresh) =
  ('(d, a) <- code_value (formulas g) (assertions g) cs ;;
   until_n k eof (seq (tAnyCommand dbg stod n) succeed) rest (mkSpec d a, fresh)).
Proof.
  revert g. induction cs as [|c cs IH]; intros g R L k.
  - cbn [length Nat.add spec_tokens flat_map app spec_value bind]. destruct g. reflexivity.
  - cbn [length Nat.add until_n]. cbn [spec_tokens flat_map] in *. fold (spec_tokens cs) in *. rewrite app_length in L. cbn in R. apply andb_true_iff in R as [R1 R2].
    rewrite <- app_assoc.
    assert (EO : @eof token st (command_tokens c ++ spec_tokens cs ++ rest) (g, fresh) = Ok (None, (g, fresh))) by (destruct c; reflexivity).
    rewrite EO. cbn [bind]. unfold seq at 1. rewrite command_parses by (assumption || lia).
    destruct c as [x t|x t]; cbn [spec_value is_def body name].
    + rewrite !bind_assoc. apply bind_ext. intros e. rewrite !bind_assoc. apply bind_ext. intros m. cbn [bind]. unfold succeed at 1. cbn [bind].
      rewrite IH; [reflexivity|exact R2|lia].
    + rewrite !bind_assoc. apply bind_ext. intros e. rewrite !bind_assoc. apply bind_ext. intros m. cbn [bind]. unfold succeed at 1. cbn [bind].
      rewrite IH; [reflexivity|exact R2|lia].
Qed.

(** What the rest gives decides, if the specification in front of it is fine. *)
Lemma text_then cs rest t : all_leaves ref_ok cs = true -> text_of (spec_tokens cs ++ rest) (chars t) ->
  exists n k, length rest < n /\ length rest < k /\ from t =
  ('(d, a) <- code_value [] [] cs ;;
   '(r, (g, _)) <- must msg_StatementList (until_n k eof (seq (tAnyCommand dbg stod n) succeed)) rest (mkSpec d a, fresh) ;;
   match r with Some _ => Ok g | None => Throw (LogicError LE_LocalError) end).
Proof.
  intros R H. set (k := length (chars t) + length (spec_tokens cs) + length rest + 1). set (n := length cs + k).
  exists n, k. split; [unfold n, k; lia|]. split; [unfold k; lia|].
  rewrite (from_string_tokens dbg stod _ t n H) by (unfold n, k; lia).
  unfold tparse, tFile, must. unfold n at 1. rewrite commands_then; [|exact R|unfold n, k; lia]. cbn [formulas assertions].
  rewrite !bind_assoc. apply bind_ext. intros [d a]. rewrite !bind_assoc. apply bind_ext. intros [[r|] [g l]]; reflexivity.
Qed.
Lemma C103_code cs rest t e : all_leaves ref_ok cs = true -> text_of (spec_tokens cs ++ rest) (chars t) ->
  code_value [] [] cs = Throw e -> from t = Throw e.
Proof. intros R H E. destruct (text_then cs rest t R H) as (n & k & _ & _ & ->). rewrite E. reflexivity. Qed.

(** ** C101, C102 *)
Lemma no_command_fails n ts (s : st) : no_command ts -> tok RPar ts s = Ok (None, s) /\
  must msg_AllowedCommands (sor (tAssertion dbg stod n) (tDefine dbg stod n)) ts s = Throw (ParseError msg_AllowedCommands).
Proof.
  intros H. destruct ts as [|t ts]; [split; reflexivity|]. destruct H as (H1 & H2 & H3).
  destruct t; try (split; reflexivity); [congruence| |exfalso; apply H2; left; reflexivity]. split; [reflexivity|].
  unfold must at 1, sor at 1, tAssertion, act0, act, if_must at 1, seq at 1, tkw at 1, one at 1.
  assert (N : (w =? "assert")%string = false) by (apply String.eqb_neq; intros ->; apply H2; right; reflexivity). rewrite N.
  cbn [bind]. unfold tDefine, act0, act, if_must, seq, tkw at 1, one at 1.
  assert (N' : (w =? "define-formula")%string = false) by (apply String.eqb_neq; intros ->; apply H3; reflexivity).
  rewrite N'. reflexivity.
Qed.
Lemma broken_fails n k rest m (g : spec F) : broken rest m -> 1 <= k -> 1 <= n ->
  must msg_StatementList (until_n k eof (seq (tAnyCommand dbg stod n) succeed)) rest (g, fresh) = Throw (ParseError m).
Proof.
  intros B Lk Ln. destruct k as [|k]; [lia|]. destruct n as [|n]; [lia|]. unfold must at 1. cbn [until_n].
  destruct B as [t ts H|ts H|c ts C H|c x ts C H].
  - unfold eof at 1. cbn [bind]. unfold seq at 1, tAnyCommand, if_must, seq at 1, tok at 1, one at 1. destruct t; try reflexivity. congruence.
  - unfold eof at 1. cbn [bind]. unfold seq at 1, tAnyCommand, if_must at 1, seq at 1, tok at 1, one at 1. cbn [bind]. unfold must at 1. cbn [until_n].
    destruct (no_command_fails (S n) ts (g, fresh) H) as [E1 E2]. rewrite E1. cbn [bind]. rewrite E2. reflexivity.
  - unfold eof at 1. cbn [bind]. unfold seq at 1, tAnyCommand, if_must at 1, seq at 1, tok at 1, one at 1. cbn [bind]. unfold must at 1. cbn [until_n].
    destruct C as [-> | ->]; destruct ts as [|[] ts]; try reflexivity; contradiction.
  - unfold eof at 1. cbn [bind]. unfold seq at 1, tAnyCommand, if_must at 1, seq at 1, tok at 1, one at 1. cbn [bind]. unfold must at 1. cbn [until_n].
    destruct C as [-> | ->]; destruct ts as [|[] ts]; try reflexivity; contradiction.
Qed.
Lemma broken_nonempty rest m : broken rest m -> 1 <= length rest.
Proof. destruct 1; cbn; lia. Qed.
Lemma C102_code cs rest m t r : all_leaves ref_ok cs = true -> text_of (spec_tokens cs ++ rest) (chars t) ->
  broken rest m -> code_value [] [] cs = Ok r -> from t = Throw (ParseError m).
Proof.
  intros R H B E. destruct (text_then cs rest t R H) as (n & k & Ln & Lk & ->). pose proof (broken_nonempty _ _ B). rewrite E. destruct r as [d a]. cbn [bind].
  rewrite (broken_fails n k rest m _ B) by lia. reflexivity.
Qed.

(** A command without its closing parenthesis. *)
Lemma open_command n c rest (g : spec F) e m : leaves ref_ok (body c) = true -> length (command_tokens c) <= n -> no_command rest ->
  term_value stod (@code_two F) code_empty (lookup (formulas g)) (body c) = Ok e ->
  add (if is_def c then "Formula"%string else "Assertion"%string) (if is_def c then formulas g else assertions g) (name c) e = Ok m ->
  tAnyCommand dbg stod n (removelast (command_tokens c) ++ rest) (g, fresh) = Throw (ParseError msg_AllowedCommands).
Proof.
  intros R L NC V A.
  assert (Lt : length (tokens (body c)) <= n) by (destruct c; cbn in L; rewrite app_length in L; cbn [body]; lia).
  pose proof (term_parses dbg stod _ R n Lt) as T.
  destruct n as [|[|n]]; [destruct c; cbn in L; lia..|].
  assert (RL : removelast (command_tokens c) = LPar :: (if is_def c then Define else Word "assert") :: Word (name c) :: tokens (body c)).
  { destruct c as [x t|x t]; cbn [command_tokens is_def name body]; change (LPar :: ?k :: Word x :: tokens t ++ [RPar]) with ((LPar :: k :: Word x :: tokens t) ++ [RPar]); apply removelast_last. }
  rewrite RL. remember (S n) as n1. unfold tAnyCommand, if_must at 1, seq at 1. cbn [app]. unfold tok at 1, one at 1. cbn [bind].
  unfold must at 1. cbn [until_n].
  assert (X : must msg_AllowedCommands (sor (tAssertion dbg stod (S n1)) (tDefine dbg stod (S n1)))
     ((if is_def c then Define else Word "assert") :: Word (name c) :: tokens (body c) ++ rest) (g, fresh) =
     Ok (Some rest, (if is_def c then mkSpec m (assertions g) else mkSpec (formulas g) m, fresh))).
  { destruct c as [x t|x t]; cbn [is_def name body] in *.
    - unfold must at 1, sor at 1. unfold tAssertion, act0, act, if_must at 1, seq at 1, tkw at 1, one at 1. cbn [bind].
      unfold tDefine, act0, act, if_must, seq, tkw at 1, one at 1. cbn [bind String.eqb Ascii.eqb Bool.eqb]. unfold must at 1, must at 1. cbn [bind tident]. unfold must at 1.
      rewrite T. cbn [fst]. rewrite V. cbn [bind fst snd]. unfold command_action, assert_. cbn. rewrite lookup_find. unfold add in A.
      destruct (lookup (formulas g) x) as [e'|] eqn:LK; [discriminate|]. injection A as <-. rewrite !andb_false_r. reflexivity.
    - unfold must at 1, sor at 1. unfold tAssertion, act0, act, if_must at 1, seq at 1, tkw at 1, one at 1. cbn [bind String.eqb Ascii.eqb Bool.eqb].
      unfold must at 1, seq, must at 1. cbn [bind tident]. unfold must at 1.
      rewrite T. cbn [fst]. rewrite V. cbn [bind fst snd]. unfold command_action, assert_. cbn. rewrite lookup_find. unfold add in A.
      destruct (lookup (assertions g) x) as [e'|] eqn:LK; [discriminate|]. injection A as <-. rewrite !andb_false_r. reflexivity. }
  assert (N1 : tok RPar ((if is_def c then Define else Word "assert") :: Word (name c) :: tokens (body c) ++ rest) (g, fresh) = Ok (None, (g, fresh))) by (destruct c; reflexivity).
  rewrite N1. cbn [bind]. rewrite X. cbn [bind].
  assert (U : forall s : st, until_n n1 (tok RPar) (must msg_AllowedCommands (sor (tAssertion dbg stod (S n1)) (tDefine dbg stod (S n1)))) rest s = Throw (ParseError msg_AllowedCommands)).
  { intros s. destruct (no_command_fails (S n1) rest s NC) as [E1 E2]. generalize dependent (must msg_AllowedCommands (sor (tAssertion dbg stod (S n1)) (tDefine dbg stod (S n1)))).
    intros q _ E2. rewrite Heqn1. cbn [until_n]. rewrite E1. cbn [bind]. rewrite E2. reflexivity. }
  rewrite U. reflexivity.
Qed.
Lemma spec_snoc cs c d a r : code_value d a (cs ++ [c]) = Ok r -> exists d' a' e m, code_value d a cs = Ok (d', a') /\
  term_value stod (@code_two F) code_empty (lookup d') (body c) = Ok e /\
  add (if is_def c then "Formula"%string else "Assertion"%string) (if is_def c then d' else a') (name c) e = Ok m.
Proof.
  revert d a. induction cs as [|c' cs IH]; intros d a.
  - cbn [app]. intros H. exists d, a. destruct c as [x t|x t]; cbn [spec_value] in H; apply bind_ok_inv in H as (e & V & H); apply bind_ok_inv in H as (m & A & _); exists e, m; auto.
  - intros H. destruct c' as [x t|x t]; cbn [app spec_value] in *; apply bind_ok_inv in H as (e & -> & H); apply bind_ok_inv in H as (m & A & H); cbn [bind]; rewrite A; cbn [bind]; apply IH, H.
Qed.
Lemma C101_code cs c rest t r : all_leaves ref_ok (cs ++ [c]) = true -> text_of (spec_tokens cs ++ removelast (command_tokens c) ++ rest) (chars t) ->
  no_command rest -> code_value [] [] (cs ++ [c]) = Ok r -> from t = Throw (ParseError msg_AllowedCommands).
Proof.
  intros R H NC E. unfold all_leaves in R. rewrite forallb_app in R. apply andb_true_iff in R as [R1 R2]. cbn in R2. rewrite andb_true_r in R2.
  destruct (spec_snoc cs c [] [] r E) as (d & a & e & m & E1 & E2 & E3).
  destruct (text_then cs _ t R1 H) as (n & k & Ln & Lk & ->). rewrite E1. cbn [bind].
  assert (LC : length (command_tokens c) <= S (length (removelast (command_tokens c)))).
  { destruct c as [x u|x u]; cbn [command_tokens]; change (LPar :: ?j :: Word x :: tokens u ++ [RPar]) with ((LPar :: j :: Word x :: tokens u) ++ [RPar]); rewrite removelast_last, app_length; cbn; lia. }
  rewrite app_length in Ln, Lk.
  assert (LN : length (command_tokens c) <= n).
  { lia. }
  destruct k as [|k]; [lia|]. unfold must at 1. cbn [until_n].
  assert (EO : @eof token st (removelast (command_tokens c) ++ rest) (mkSpec d a, fresh) = Ok (None, (mkSpec d a, fresh))).
  { destruct c as [x u|x u]; cbn [command_tokens]; change (LPar :: ?j :: Word x :: tokens u ++ [RPar]) with ((LPar :: j :: Word x :: tokens u) ++ [RPar]); rewrite removelast_last; reflexivity. }
  rewrite EO. cbn [bind]. unfold seq at 1. rewrite (open_command n c rest (mkSpec d a) e m R2 LN NC E2 E3). reflexivity.
Qed.

(** ** Repeated names *)
Definition kind_of (c : command) : string := if is_def c then "Formula" else "Assertion".
Lemma spec_app cs cs' d a : code_value d a (cs ++ cs') = ('(d', a') <- code_value d a cs ;; code_value d' a' cs').
Proof.
  revert d a. induction cs as [|c cs IH]; intros d a; [reflexivity|].
  destruct c as [x t|x t]; cbn [app spec_value]; rewrite bind_assoc; apply bind_ext; intros e; rewrite bind_assoc; apply bind_ext; intros m; apply IH.
Qed.
Lemma lookup_in (m : @entries F) x : In x (map fst m) -> exists e, lookup m x = Some e.
Proof.
  induction m as [|[y e] m IH]; cbn; [intros []|]. destruct (string_dec x y); [eauto|]. intros [H|H]; [congruence|auto].
Qed.
Lemma C57_code cs c rest t d a e : all_leaves ref_ok (cs ++ [c]) = true -> text_of (spec_tokens (cs ++ [c]) ++ rest) (chars t) ->
  code_value [] [] cs = Ok (d, a) -> term_value stod (@code_two F) code_empty (lookup d) (body c) = Ok e ->
  In (name c) (if is_def c then def_names cs else assert_names cs) -> from t = Throw (ParseError (redefinition (kind_of c) (name c))).
Proof.
  intros R H E B I. apply (C103_code (cs ++ [c]) rest t _ R H). rewrite spec_app, E. cbn [bind].
  pose proof (spec_names stod _ _ _ _ _ _ _ E) as [N1 N2]. cbn in N1, N2.
  destruct c as [x u|x u]; cbn [is_def name body kind_of spec_value] in *; rewrite B; cbn [bind]; unfold add.
  - rewrite <- N1 in I. destruct (lookup_in _ _ I) as [e' ->]. reflexivity.
  - rewrite <- N2 in I. destruct (lookup_in _ _ I) as [e' ->]. reflexivity.
Qed.

(** ** Every message of the list occurs *)
Lemma word_okb x : is_word x -> tok_okb (Word x) = true.
Proof.
  destruct x as [|a x]; cbn; [intros []|]. intros [A B]. rewrite A. cbn. apply forallb_forall. intros c Ic. rewrite Forall_forall in B. exact (B c Ic).
Qed.
Lemma twice_text (k : token) x : k = Define \/ k = Word "assert" -> is_word x ->
  exists t, text_of (let l := [LPar; k; Word x; Word "true"; RPar] in l ++ l) (chars t).
Proof.
  intros K W. set (l := [(LPar, ""%string); (k, " "%string); (Word x, " "%string); (Word "true", ""%string); (RPar, ""%string)]).
  exists (string_of_list_ascii (render (l ++ l))).
  apply (render_text "" (l ++ l)); [reflexivity| |reflexivity|cbn [app chars list_ascii_of_string]; symmetry; apply list_ascii_of_string_of_list_ascii].
  unfold l. cbn [app renderb]. rewrite (word_okb x W). destruct K as [-> | ->]; reflexivity.
Qed.
Lemma C100_used m : reported m -> exists t, from t = Throw (ParseError m).
Proof.
  intros [H|[H|(x & W & H)]].
  - cbn in H. repeat (destruct H as [<-|H]); [..|contradiction].
    + exists "(assert 1 true)"%string. vm_compute. reflexivity.
    + exists "(assert m (< x 1e))"%string. vm_compute. reflexivity.
    + exists "(assert m (< x))"%string. vm_compute. reflexivity.
    + exists "(assert m (and))"%string. vm_compute. reflexivity.
    + exists "(assert m (implies true))"%string. vm_compute. reflexivity.
    + exists "(assert m (and true false 1))"%string. vm_compute. reflexivity.
    + exists "(assert m)"%string. vm_compute. reflexivity.
    + exists "(foo)"%string. vm_compute. reflexivity.
    + exists "x"%string. vm_compute. reflexivity.
  - subst m. exists "(assert m (and true))"%string. vm_compute. reflexivity.
  - destruct H as [-> | ->].
    + destruct (twice_text Define x (or_introl eq_refl) W) as [t H]. exists t.
      apply (C57_code [Def x (TBool true)] (Def x (TBool true)) [] t [(x, EConst true)] [] (EConst true)); try reflexivity; [exact H|]. left. reflexivity.
    + destruct (twice_text (Word "assert") x (or_intror eq_refl) W) as [t H]. exists t.
      apply (C57_code [Assert x (TBool true)] (Assert x (TBool true)) [] t [] [(x, EConst true)] (EConst true)); try reflexivity; [exact H|]. left. reflexivity.
Qed.

(** ** In terms of the intended meaning *)
Notation value := (spec_value stod swapped no_empty).
Lemma to_code cs : all_leaves supported cs = true -> value [] [] cs = code_value [] [] cs.
Proof. intros S. apply spec_supported, S. Qed.
Lemma C100_iff m : (exists t, from t = Throw (ParseError m)) <-> reported m.
Proof. split; [intros [t H]; exact (C100_lemma t m H)|apply C100_used]. Qed.
Lemma C101_open cs c rest t r : all_leaves ref_ok (cs ++ [c]) = true -> all_leaves supported (cs ++ [c]) = true ->
  text_of (spec_tokens cs ++ removelast (command_tokens c) ++ rest) (chars t) -> no_command rest ->
  value [] [] (cs ++ [c]) = Ok r -> from t = Throw (ParseError "top-level command does not match list of known commands").
Proof. intros R S. rewrite (to_code _ S). apply C101_code, R. Qed.
Lemma C102_rest cs rest m t r : all_leaves ref_ok cs = true -> all_leaves supported cs = true ->
  text_of (spec_tokens cs ++ rest) (chars t) -> broken rest m -> value [] [] cs = Ok r -> from t = Throw (ParseError m).
Proof. intros R S. rewrite (to_code _ S). apply C102_code, R. Qed.
Lemma C103_first cs rest t e : all_leaves ref_ok cs = true -> all_leaves supported cs = true ->
  text_of (spec_tokens cs ++ rest) (chars t) -> value [] [] cs = Throw e -> from t = Throw e.
Proof. intros R S. rewrite (to_code _ S). apply C103_code, R. Qed.
Lemma C57_again cs c rest t d a e : all_leaves ref_ok (cs ++ [c]) = true -> all_leaves supported (cs ++ [c]) = true ->
  text_of (spec_tokens (cs ++ [c]) ++ rest) (chars t) ->
  value [] [] cs = Ok (d, a) -> term_value stod swapped no_empty (lookup d) (body c) = Ok e ->
  In (name c) (if is_def c then def_names cs else assert_names cs) ->
  from t = Throw (ParseError (redefinition (if is_def c then "Formula" else "Assertion") (name c))).
Proof.
  intros R S H E B. pose proof S as S'. unfold all_leaves in S'. rewrite forallb_app in S'. apply andb_true_iff in S' as [S1 S2]. cbn in S2. rewrite andb_true_r in S2.
  rewrite (to_code _ S1) in E. rewrite (value_supported stod swapped code_two no_empty code_empty _ _ S2) in B. exact (C57_code cs c rest t d a e R H E B).
Qed.
End Errors.

(** ** Cases *)
Local Open Scope string_scope.
Local Open Scope list_scope.
Definition err_cs : list command := [Def "a" (TPred LE "x" (chars "12"))].
Definition err_render : list (token * string) := [(LPar, ""); (Define, " "); (Word "a", " "); (LPar, ""); (Cmp LE, " "); (Word "x", " "); (Number (chars "12"), ""); (RPar, ""); (RPar, " ")].
Definition err_start : string := "(define-formula a (<= x 12)) ".
Lemma err_text l rest txt : renderb (err_render ++ l) = true -> map fst l = rest -> (chars err_start ++ render l)%list = chars txt ->
  text_of (spec_tokens err_cs ++ rest) (chars txt).
Proof.
  intros R <- <-. right. exists [], (render (err_render ++ l)). split; [unfold render; rewrite flat_map_app; reflexivity|]. split; [constructor|].
  pose proof (render_layout _ R) as L. rewrite map_app in L. exact L.
Qed.
Lemma err_value (stod : input -> option B64) : exists r, spec_value stod swapped no_empty [] [] err_cs = Ok r.
Proof. eexists. cbn. reflexivity. Qed.
Lemma C101_case_lemma (stod : input -> option B64) : exists c txt r,
  all_leaves ref_ok (err_cs ++ [c]) = true /\ all_leaves supported (err_cs ++ [c]) = true /\
  text_of (spec_tokens err_cs ++ removelast (command_tokens c) ++ []) (chars txt) /\ no_command [] /\
  spec_value stod swapped no_empty [] [] (err_cs ++ [c]) = Ok r.
Proof.
  exists (Assert "m" (TNot (TRef "a"))), (err_start ++ "(assert m (not a)")%string. eexists. split; [reflexivity|]. split; [reflexivity|]. split; [|split; [exact I|cbn; reflexivity]].
  apply (err_text [(LPar, ""); (Word "assert", " "); (Word "m", " "); (LPar, ""); (Word "not", " "); (Word "a", ""); (RPar, "")]); reflexivity.
Qed.
Lemma C102_case_lemma : forall m, In m ["invalid top-level item"; "top-level command does not match list of known commands"; "expected an identifier"; "expected a Term"] ->
  exists rest txt, broken rest m /\ text_of (spec_tokens err_cs ++ rest) (chars txt).
Proof.
  intros m H. cbn in H. repeat (destruct H as [<-|H]); [..|contradiction].
  - exists [Word "a"], (err_start ++ "a")%string. split; [apply B_item; discriminate|]. apply (err_text [(Word "a", "")]); reflexivity.
  - exists [LPar; Word "asert"; Word "m"; Word "a"; RPar], (err_start ++ "(asert m a)")%string. split.
    + apply B_command. split; [discriminate|]. split; [intros [H|H]; discriminate|discriminate].
    + apply (err_text [(LPar, ""); (Word "asert", " "); (Word "m", " "); (Word "a", ""); (RPar, "")]); reflexivity.
  - exists [LPar; Word "assert"; LPar; Word "not"; Word "a"; RPar; RPar], (err_start ++ "(assert (not a))")%string. split.
    + apply B_name; [right; reflexivity|exact I].
    + apply (err_text [(LPar, ""); (Word "assert", " "); (LPar, ""); (Word "not", " "); (Word "a", ""); (RPar, ""); (RPar, "")]); reflexivity.
  - exists [LPar; Word "assert"; Word "m"; RPar], (err_start ++ "(assert m)")%string. split.
    + apply B_term; [right; reflexivity|exact I].
    + apply (err_text [(LPar, ""); (Word "assert", " "); (Word "m", ""); (RPar, "")]); reflexivity.
Qed.
Lemma C103_case_lemma (stod : input -> option B64) : exists c txt,
  all_leaves ref_ok (err_cs ++ [c]) = true /\ all_leaves supported (err_cs ++ [c]) = true /\
  text_of (spec_tokens (err_cs ++ [c]) ++ [RPar; LPar]) (chars txt) /\ spec_value stod swapped no_empty [] [] (err_cs ++ [c]) = Throw OutOfRange.
Proof.
  exists (Assert "m" (TRef "b")), (err_start ++ "(assert m b) )(")%string. split; [reflexivity|]. split; [reflexivity|]. split; [|reflexivity].
  apply (err_text [(LPar, ""); (Word "assert", " "); (Word "m", " "); (Word "b", ""); (RPar, " "); (RPar, ""); (LPar, "")]); reflexivity.
Qed.
Lemma C57_message_case (stod : input -> option B64) : exists c txt d a e,
  all_leaves ref_ok (err_cs ++ [c]) = true /\ all_leaves supported (err_cs ++ [c]) = true /\
  text_of (spec_tokens (err_cs ++ [c]) ++ [Word "x"]) (chars txt) /\
  spec_value stod swapped no_empty [] [] err_cs = Ok (d, a) /\ term_value stod swapped no_empty (lookup d) (body c) = Ok e /\
  In (name c) (if is_def c then def_names err_cs else assert_names err_cs).
Proof.
  exists (Def "a" (TNot (TRef "a"))), (err_start ++ "(define-formula a (not a))x")%string. do 3 eexists. split; [reflexivity|]. split; [reflexivity|]. split; [|split; [cbn; reflexivity|split; [cbn; reflexivity|left; reflexivity]]].
  apply (err_text [(LPar, ""); (Define, " "); (Word "a", " "); (LPar, ""); (Word "not", " "); (Word "a", ""); (RPar, ""); (RPar, ""); (Word "x", "")]); reflexivity.
Qed.
