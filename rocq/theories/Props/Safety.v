(** Evaluation without undefined behaviour (C70), values at common samples (C71), empty signals (C99).  [dbg]:
    assertions enabled; [fuel]: bound on the windowed loop; both arbitrary. *)
From Coq Require Import Reals.
From Flocq Require Import IEEE754.BinarySingleNaN.
From Verif Require Import Base Num NumXR NumB64.
From Verif.Model Require Import Signal MonoWedge MinMax Ast Robustness.
From Verif.Spec Require Import SignalSpec Pwl Formula Semantics UntilSpec Discrete.
From Verif.Proofs Require Import B64Facts RobFacts RobWf SafeFacts DiscreteFacts RobExamples SafeExamples EmptyFacts UntilFacts.
Local Open Scope nat_scope.

(** ** C70.  Never [UB], [Hang], [AssertFail] or another exception. *)
Theorem C70_evaluates_or_throws : forall dbg fuel (tr : trace B64) s phi b, tr <> [] ->
  Forall (fun e => wf (snd e) /\ snd e <> [] /\ neqb (begin_time (snd e)) b = true /\
    Forall (fun a => finite (s_time a) = true) (snd e)) tr ->
  (forall n, In n (names phi) -> In n (map fst tr)) ->
  free_of (short 1) phi = true -> intervals_made phi ->
  (exists z, compute_robustness dbg fuel phi tr s = Ok z /\ wf z /\ neqb (begin_time z) b = true) \/
  compute_robustness dbg fuel phi tr s = Throw InvalidArgument.
Proof. exact C70_lemma. Qed.
Print Assumptions C70_evaluates_or_throws.

Example C70_case : btr <> [] /\
  Forall (fun e => wf (snd e) /\ snd e <> [] /\ neqb (begin_time (snd e)) nzero = true /\
    Forall (fun a => finite (s_time a) = true) (snd e)) btr /\
  (forall n, In n (names c70_phi) -> In n (map fst btr)) /\
  free_of (short 1) c70_phi = true /\ intervals_made c70_phi.
Proof. exact C70_case_lemma. Qed.

(** Both outcomes occur. *)
Example C70_case_ok : exists z, compute_robustness true 0 bphi btr false = Ok z.
Proof. exact C70_ok_lemma. Qed.
Example C70_case_throw : exists (phi : expr B64) tr, tr <> [] /\
  Forall (fun e => wf (snd e) /\ snd e <> [] /\ neqb (begin_time (snd e)) nzero = true /\
    Forall (fun a => finite (s_time a) = true) (snd e)) tr /\
  (forall n, In n (names phi) -> In n (map fst tr)) /\
  free_of (short 1) phi = true /\ intervals_made phi /\ compute_robustness true 0 phi tr false = Throw InvalidArgument.
Proof. exact C70_throw_lemma. Qed.

(** ** C71 *)
Theorem C71_value_at_samples : forall dbg fuel (tr : trace B64) s phi env t z, keys_unique tr ->
  Forall (fun e => wf (snd e) /\ snd e <> []) tr -> propositional phi -> sampled_at tr env t phi ->
  compute_robustness dbg fuel phi tr s = Ok z ->
  wf z /\ exists c, In c z /\ neqb (s_time c) t = true /\ s_value c = value_now env phi.
Proof. exact now_lemma. Qed.
Print Assumptions C71_value_at_samples.

Theorem C71_sign_at_samples : forall dbg fuel (tr : trace B64) s phi env t z, keys_unique tr ->
  Forall (fun e => wf (snd e) /\ snd e <> []) tr -> propositional phi -> sampled_at tr env t phi ->
  (forall n, In n (names phi) -> finite (env n) = true) ->
  (forall e, In e (subs phi) -> match e with EPred _ _ c => finite c = true | _ => True end) ->
  compute_robustness dbg fuel phi tr s = Ok z ->
  exists c, In c z /\ neqb (s_time c) t = true /\ isnum (s_value c) = true /\
    (nltb nzero (s_value c) = true -> holds_now env phi = true) /\ (nltb (s_value c) nzero = true -> holds_now env phi = false).
Proof. exact C71_sign_lemma. Qed.
Print Assumptions C71_sign_at_samples.

Example C71_case : keys_unique btr /\ Forall (fun e => wf (snd e) /\ snd e <> []) btr /\
  propositional c71_phi /\ sampled_at btr c71_env (dbl 4 0) c71_phi /\
  (forall n, In n (names c71_phi) -> finite (c71_env n) = true) /\
  (forall e, In e (subs c71_phi) -> match e with EPred _ _ c => finite c = true | _ => True end) /\
  exists z, compute_robustness true 0 c71_phi btr false = Ok z.
Proof. exact C71_case_lemma. Qed.

(** ** C99: false of the code, which reads outside the empty signal; predicates and negations are fine. *)
Theorem C99_empty_partial : forall dbg fuel (tr : trace B64) s, keys_unique tr ->
  let run e := compute_robustness dbg fuel e tr s in
  (forall n op c, has_signal tr n [] -> run (EPred n op c) = Ok []) /\
  (forall e, run e = Ok [] -> run (ENot e) = Ok []) /\
  (forall e i, run e = Ok [] -> made_interval i -> run (EAlways e i) = UB /\ run (EEventually e i) = UB) /\
  (forall a b i x y, run a = Ok x -> run b = Ok y -> x = [] \/ y = [] -> made_interval i -> run (EUntil a b i) = UB) /\
  (forall a b l x y, run a = Ok x -> run b = Ok y -> x = [] \/ y = [] -> (forall e, In e l -> exists z, run e = Ok z) ->
     run (EAnd (a :: b :: l)) = UB /\ run (EOr (a :: b :: l)) = UB).
Proof. exact C99_lemma. Qed.
Print Assumptions C99_empty_partial.

Example C99_case : let tr := [(sx, []); (sy, [mkSample nzero (dbl 1 0) (nzero : B64)])] in keys_unique tr /\ has_signal tr sx [] /\
  compute_robustness true 0 (EPred sx GT nzero) tr false = Ok [] /\
  exists a, compute_robustness true 0 (EPred sy GT nzero) tr false = Ok [a].
Proof. exact C99_case_lemma. Qed.

Theorem C99_empty_refuted : exists (tr : trace B64) phi, keys_unique tr /\ Forall (fun e => wf (snd e)) tr /\
  (forall n, In n (names phi) -> In n (map fst tr)) /\ forall dbg fuel s, compute_robustness dbg fuel phi tr s = UB.
Proof. exact C99_witness. Qed.
Print Assumptions C99_empty_refuted.
