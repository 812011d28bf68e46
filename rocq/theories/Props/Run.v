(** C107: evaluating what any text defines; C42: the exception for a missing signal. *)
From Coq Require Import Ascii.
From Verif Require Import Base Num NumB64.
From Verif.Model Require Import Signal Ast Robustness Parser.
From Verif.Spec Require Import SignalSpec Formula AstSpec Text Syntax.
From Verif.Proofs Require Import B64Facts RobFacts ParserExamples RobExamples SafeFacts RunFacts.

(** ** C42.  [InvalidArgument]: an operand before the missing signal already failed. *)
Theorem C42_missing_signal_throws : forall dbg fuel (tr : trace B64) s phi b n, tr <> [] ->
  Forall (fun e => wf (snd e) /\ snd e <> [] /\ neqb (begin_time (snd e)) b = true /\
    Forall (fun a => finite (s_time a) = true) (snd e)) tr ->
  free_of (short 1) phi = true -> intervals_made phi -> In n (names phi) -> ~ In n (map fst tr) ->
  compute_robustness dbg fuel phi tr s = Throw OutOfRange \/ compute_robustness dbg fuel phi tr s = Throw InvalidArgument.
Proof. exact C42_missing_lemma. Qed.
Print Assumptions C42_missing_signal_throws.

Example C42_throws_case : btr <> [] /\
  Forall (fun e => wf (snd e) /\ snd e <> [] /\ neqb (begin_time (snd e)) nzero = true /\
    Forall (fun a => finite (s_time a) = true) (snd e)) btr /\
  free_of (short 1) (EAnd [bphi; EPred "w"%string GT nzero]) = true /\ intervals_made (EAnd [bphi; EPred "w"%string GT nzero]) /\
  In "w"%string (names (EAnd [bphi; EPred "w"%string GT nzero])) /\ ~ In "w"%string (map fst btr).
Proof. exact C42_throws_case. Qed.

(** ** C107.  Never [UB], [Hang], [AssertFail] or another exception.  [stod]: the values of decimal literals. *)
Theorem C107_parsed_evaluates : forall dbg (stod : list ascii -> option B64) txt g x e fuel (tr : trace B64) s b,
  from_string dbg stod txt = Ok g -> In (x, e) (formulas g ++ assertions g) -> tr <> [] ->
  Forall (fun a => wf (snd a) /\ snd a <> [] /\ neqb (begin_time (snd a)) b = true /\
    Forall (fun a => finite (s_time a) = true) (snd a)) tr ->
  (exists z, compute_robustness dbg fuel e tr s = Ok z /\ wf z /\ neqb (begin_time z) b = true) \/
  compute_robustness dbg fuel e tr s = Throw InvalidArgument \/
  (compute_robustness dbg fuel e tr s = Throw OutOfRange /\ exists n, In n (names e) /\ ~ In n (map fst tr)).
Proof. exact C107_lemma. Qed.
Print Assumptions C107_parsed_evaluates.

Example C107_case : (exists g, from_string true no_double ex_text = Ok g /\ formulas g ++ assertions g <> []) /\ btr <> [] /\
  Forall (fun a => wf (snd a) /\ snd a <> [] /\ neqb (begin_time (snd a)) nzero = true /\
    Forall (fun a => finite (s_time a) = true) (snd a)) btr.
Proof. exact C107_case_lemma. Qed.
