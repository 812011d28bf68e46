(** C107: parsing any text and evaluating what it defines. *)
From Coq Require Import Ascii.
From Verif Require Import Base Num NumB64.
From Verif.Model Require Import Signal Ast Robustness Peg Parser.
From Verif.Proofs Require Import B64Facts RobFacts SpecFacts ParserExamples RobExamples SafeFacts SafeExamples.
From Verif.Spec Require Import SignalSpec Formula AstSpec Text Syntax.
Local Open Scope nat_scope.

Lemma shorter (e : expr B64) : free_of (short 2) e = true -> free_of (short 1) e = true.
Proof.
  induction e using expr_rec; cbn [free_of short negb andb]; auto;
    try (intros K; apply andb_prop in K as [K1 K2]; rewrite IHe1, IHe2 by assumption; reflexivity);
    (intros K; apply andb_prop in K as [K1 K2]; apply andb_true_intro; split;
     [apply negb_true_iff in K1; apply negb_true_iff; apply Nat.ltb_ge in K1; apply Nat.ltb_ge; lia
     |apply forallb_forall; intros e He; rewrite forallb_forall in K2; rewrite Forall_forall in H; auto]).
Qed.
Lemma C107_lemma dbg (stod : list ascii -> option B64) txt g x e fuel (tr : trace B64) s b :
  from_string dbg stod txt = Ok g -> In (x, e) (formulas g ++ assertions g) -> tr <> [] ->
  Forall (fun a => wf (snd a) /\ snd a <> [] /\ neqb (begin_time (snd a)) b = true /\ Forall (fun a => finite (s_time a) = true) (snd a)) tr ->
  (exists z, compute_robustness dbg fuel e tr s = Ok z /\ wf z /\ neqb (begin_time z) b = true) \/
  compute_robustness dbg fuel e tr s = Throw InvalidArgument \/
  (compute_robustness dbg fuel e tr s = Throw OutOfRange /\ exists n, In n (names e) /\ ~ In n (map fst tr)).
Proof.
  intros G K Tne HT. destruct (C51_parser_lemma dbg stod txt g x e G K) as [_ SH]. apply shorter in SH.
  assert (IM : intervals_made e).
  { intros a Ha. pose proof (C61_lemma dbg stod txt g x e G K a Ha) as Q. destruct a; try exact I; left; exact Q. }
  assert (D : (forall n, In n (names e) -> In n (map fst tr)) \/ exists n, In n (names e) /\ ~ In n (map fst tr)).
  { induction (names e) as [|n l IH]; [left; intros n []|]. destruct (in_dec string_dec n (map fst tr)) as [Y|N].
    - destruct IH as [IH|(m & Hm & Nm)]; [left; intros m [<-|Hm]; auto|right; exists m; split; [right; exact Hm|exact Nm]].
    - right. exists n. split; [left; reflexivity|exact N]. }
  destruct D as [D|(n & Hn & N)].
  - destruct (C70_lemma dbg fuel tr s e b Tne HT D SH IM) as [H|H]; auto.
  - destruct (C42_missing_lemma dbg fuel tr s e b n Tne HT SH IM Hn N) as [H|H]; [right; right; eauto|auto].
Qed.
Lemma C107_case_lemma : (exists g, from_string true no_double ex_text = Ok g /\ formulas g ++ assertions g <> []) /\ btr <> [] /\
  Forall (fun a => wf (snd a) /\ snd a <> [] /\ neqb (begin_time (snd a)) nzero = true /\ Forall (fun a => finite (s_time a) = true) (snd a)) btr.
Proof.
  split; [|split; [discriminate|apply C70_case_lemma]].
  destruct C61_case_lemma as (g & x & e & G & K & _). exists g. split; [exact G|]. unfold entries_of in K. intros E. rewrite E in K. destruct K.
Qed.
Lemma C42_throws_case : btr <> [] /\
  Forall (fun e => wf (snd e) /\ snd e <> [] /\ neqb (begin_time (snd e)) nzero = true /\ Forall (fun a => finite (s_time a) = true) (snd e)) btr /\
  free_of (short 1) (EAnd [bphi; EPred "w"%string GT nzero]) = true /\ intervals_made (EAnd [bphi; EPred "w"%string GT nzero]) /\
  In "w"%string (names (EAnd [bphi; EPred "w"%string GT nzero])) /\ ~ In "w"%string (map fst btr).
Proof.
  split; [discriminate|]. split; [apply C70_case_lemma|]. split; [reflexivity|]. split; [|split].
  - intros e He. cbn in He. repeat (destruct He as [<-|He]; [first [exact I|left; reflexivity|right; left; do 2 eexists; reflexivity|right; right; do 2 eexists; reflexivity]|]). destruct He.
  - cbn. tauto.
  - cbn. intuition discriminate.
Qed.
