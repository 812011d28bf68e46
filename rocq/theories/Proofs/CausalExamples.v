(** Cases for C85. *)
From Coq Require Import Reals Lra.
From Verif Require Import Base Num NumB64.
From Verif.Model Require Import Signal MonoWedge MinMax Ast Robustness.
From Verif.Spec Require Import SignalSpec Formula.
From Verif.Proofs Require Import SignalFacts SignalProps MinMaxExamples UntilFacts RobExamples.
Local Open Scope nat_scope.

Definition past_x := [(dbl 0 0, dbl 1 0); (dbl 1 0, dbl 3 0)].
Definition past_x' := [(dbl 1 (-1), dbl 7 0)].
Definition rest_x := [(dbl 2 0, dbl 0 0); (dbl 4 0, dbl 2 0)].
Definition past_y := [(dbl 0 0, dbl (-2) 0)].
Definition past_y' := [(dbl 1 (-1), dbl 5 0); (dbl 1 0, dbl (-5) 0)].
Definition rest_y := [(dbl 2 0, dbl 1 0); (dbl 3 0, dbl (-4) 0); (dbl 4 0, dbl 3 0)].
Definition ctr : trace B64 := [(sx, sig_of (past_x ++ rest_x)); (sy, sig_of (past_y ++ rest_y))].
Definition ctr' : trace B64 := [(sx, sig_of (past_x' ++ rest_x)); (sy, sig_of (past_y' ++ rest_y))].
Definition ct : B64 := dbl 2 0.

Lemma keys2 (a b : signal B64) : keys_unique [(sx, a); (sy, b)].
Proof. unfold keys_unique. cbn [map fst]. constructor; [intros [H|[]]; discriminate H|]. constructor; [intros []|constructor]. Qed.

Lemma at_ct (s : signal B64) : existsb (fun a => neqb (s_time a) ct) s = true -> sample_at ct s.
Proof. intros H. apply Exists_exists, existsb_exists, H. Qed.

Lemma since_rest (p r : signal B64) : forallb (fun a => negb (nleb ct (s_time a))) p = true -> forallb (fun a => nleb ct (s_time a)) r = true ->
  since ct (p ++ r) = r.
Proof.
  intros P Q. unfold since. rewrite filter_app.
  assert (E : filter (fun a => nleb ct (s_time a)) p = []).
  { clear Q. induction p as [|a p IH]; [reflexivity|]. cbn [forallb filter] in *. apply andb_prop in P as [A P]. apply negb_true_iff in A. rewrite A. auto. }
  rewrite E. cbn [app]. clear E P. induction r as [|a r IH]; [reflexivity|]. cbn [forallb filter] in *. apply andb_prop in Q as [A Q]. rewrite A, IH; auto.
Qed.

Lemma two_signals (a b x : signal B64) n : has_signal [(sx, a); (sy, b)] n x -> (n = sx /\ x = a) \/ (n = sy /\ x = b).
Proof. intros [H|[H|[]]]; injection H as <- <-; auto. Qed.

Lemma rest_x_eq : since ct (sig_of (past_x ++ rest_x)) = since ct (sig_of (past_x' ++ rest_x)).
Proof.
  transitivity (sig_of rest_x); [|symmetry].
  - change (sig_of (past_x ++ rest_x)) with (firstn 2 (sig_of (past_x ++ rest_x)) ++ sig_of rest_x). apply since_rest; vm_compute; reflexivity.
  - change (sig_of (past_x' ++ rest_x)) with (firstn 1 (sig_of (past_x' ++ rest_x)) ++ sig_of rest_x). apply since_rest; vm_compute; reflexivity.
Qed.
Lemma rest_y_eq : since ct (sig_of (past_y ++ rest_y)) = since ct (sig_of (past_y' ++ rest_y)).
Proof.
  transitivity (sig_of rest_y); [|symmetry].
  - change (sig_of (past_y ++ rest_y)) with (firstn 1 (sig_of (past_y ++ rest_y)) ++ sig_of rest_y). apply since_rest; vm_compute; reflexivity.
  - change (sig_of (past_y' ++ rest_y)) with (firstn 2 (sig_of (past_y' ++ rest_y)) ++ sig_of rest_y). apply since_rest; vm_compute; reflexivity.
Qed.

Lemma C85_case_lemma : keys_unique ctr /\ free_of is_const bphi = true /\ free_of (short 1) bphi = true /\ finite ct = true /\
  (forall n x, In n (names bphi) -> has_signal ctr n x -> wf x /\ sample_at ct x) /\
  exists z, compute_robustness true 0 bphi ctr false = Ok z /\ length (since ct z) < length z.
Proof.
  split; [apply keys2|]. do 2 (split; [reflexivity|]). split; [vm_compute; reflexivity|]. split.
  { intros n x _ H. apply two_signals in H as [[_ ->]|[_ ->]]; (split; [apply b64_wf|apply at_ct]); vm_compute; reflexivity. }
  destruct (one_ok (compute_robustness true 0 bphi ctr false) (fun z => length (since ct z) <? length z)) as (z & E & H).
  - vm_compute; reflexivity.
  - exists z. split; [exact E|]. apply Nat.ltb_lt, H.
Qed.

Lemma C85_past_case_lemma : keys_unique ctr /\ keys_unique ctr' /\ free_of is_const bphi = true /\ free_of (short 1) bphi = true /\ finite ct = true /\
  (forall n x x', In n (names bphi) -> has_signal ctr n x -> has_signal ctr' n x' ->
     wf x /\ sample_at ct x /\ wf x' /\ sample_at ct x' /\ since ct x = since ct x') /\
  exists z z', compute_robustness true 0 bphi ctr false = Ok z /\ compute_robustness true 0 bphi ctr' false = Ok z' /\
    neqb (begin_time z) (begin_time z') = false.
Proof.
  split; [apply keys2|]. split; [apply keys2|]. do 2 (split; [reflexivity|]). split; [vm_compute; reflexivity|]. split.
  { intros n x x' _ H H'. apply two_signals in H as [[-> ->]|[-> ->]]; apply two_signals in H' as [[E ->]|[E ->]]; try discriminate E;
    (split; [apply b64_wf; vm_compute; reflexivity|]; split; [apply at_ct; vm_compute; reflexivity|]; split; [apply b64_wf; vm_compute; reflexivity|];
     split; [apply at_ct; vm_compute; reflexivity|]).
    - exact rest_x_eq.
    - exact rest_y_eq. }
  destruct (two_ok (compute_robustness true 0 bphi ctr false) (compute_robustness true 0 bphi ctr' false)
    (fun z z' => negb (neqb (begin_time z) (begin_time z')))) as (z & z' & E & E' & H).
  - vm_compute; reflexivity.
  - exists z, z'. split; [exact E|]. split; [exact E'|]. apply negb_true_iff, H.
Qed.
