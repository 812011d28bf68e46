(** C99: evaluating formulas over empty signals. *)
From Flocq Require Import IEEE754.BinarySingleNaN.
From Verif Require Import Base Num NumB64.
From Verif.Model Require Import Signal MonoWedge MinMax Ast Robustness.
From Verif.Spec Require Import SignalSpec Formula.
From Verif.Proofs Require Import NumFacts SignalFacts Sync RobFacts RobWf UntilFacts RobExamples.

Lemma temporal_empty fuel comp (i : interval B64) : made_interval i -> rob_temporal fuel comp i [] = UB.
Proof.
  intros M. unfold rob_temporal. destruct (has_value i) eqn:V; cbn [negb]; [|reflexivity].
  pose proof (made_b64 i M V) as E. destruct (as_double i) as [a b]. cbn [fst snd] in E. rewrite E. reflexivity.
Qed.
Lemma pair_empty dbg comp (x y : signal B64) : x = [] \/ y = [] -> minmax_pair dbg comp false x y = UB.
Proof. intros [-> | ->]; unfold minmax_pair; rewrite ?sync_empty_l, ?sync_empty_r; reflexivity. Qed.
Lemma list_empty dbg comp (x y : signal B64) l : x = [] \/ y = [] -> minmax_list dbg comp false (x :: y :: l) = UB.
Proof.
  intros H. destruct l as [|z l]; [apply pair_empty, H|]. unfold minmax_list. cbn [minmax_fold].
  rewrite (pair_empty dbg comp x y H). reflexivity.
Qed.
Lemma until_empty dbg (i : interval B64) x y : made_interval i -> x = [] \/ y = [] -> rob_until dbg i x y = UB.
Proof. intros M H. rewrite rob_until_made by exact M. unfold compute_until. destruct H as [-> | ->]; rewrite ?sync_empty_l, ?sync_empty_r; reflexivity. Qed.
Lemma list_cons (f : expr B64 -> outcome (signal B64)) e l : compute_list f (e :: l) = (y <- f e ;; ys <- compute_list f l ;; Ok (y :: ys)).
Proof. reflexivity. Qed.
Lemma rest_ok dbg fuel (r : rob_op B64) l : (forall e, In e l -> exists z, compute dbg fuel r e = Ok z) ->
  exists ys, compute_list (compute dbg fuel r) l = Ok ys.
Proof.
  induction l as [|e l IH]; intros H; [eexists; reflexivity|]. rewrite list_cons. destruct (H e (or_introl eq_refl)) as [z ->].
  destruct IH as [ys E]; [intros e' He; apply H; right; exact He|]. cbn [bind].
  rewrite E. eexists. reflexivity.
Qed.

Lemma C99_lemma dbg fuel (tr : trace B64) s : keys_unique tr ->
  let run e := compute_robustness dbg fuel e tr s in
  (forall n op c, has_signal tr n [] -> run (EPred n op c) = Ok []) /\
  (forall e, run e = Ok [] -> run (ENot e) = Ok []) /\
  (forall e i, run e = Ok [] -> made_interval i -> run (EAlways e i) = UB /\ run (EEventually e i) = UB) /\
  (forall a b i x y, run a = Ok x -> run b = Ok y -> x = [] \/ y = [] -> made_interval i -> run (EUntil a b i) = UB) /\
  (forall a b l x y, run a = Ok x -> run b = Ok y -> x = [] \/ y = [] -> (forall e, In e l -> exists z, run e = Ok z) ->
     run (EAnd (a :: b :: l)) = UB /\ run (EOr (a :: b :: l)) = UB).
Proof.
  intros U run. unfold run, compute_robustness. set (r := mkRob _ _ _). repeat split; intros; cbn [compute].
  - unfold rob_pred, r. cbn [r_trace]. rewrite (proj2 (trace_find_iff tr n [] U) H). reflexivity.
  - rewrite H. reflexivity.
  - rewrite H. apply temporal_empty. assumption.
  - rewrite H. apply temporal_empty. assumption.
  - rewrite H, H0. cbn [bind]. apply until_empty; assumption.
  - destruct (rest_ok dbg fuel r l H2) as [ys E]. rewrite !list_cons, H, H0. cbn [bind].
    rewrite E. cbn [bind]. apply list_empty, H1.
  - destruct (rest_ok dbg fuel r l H2) as [ys E]. rewrite !list_cons, H, H0. cbn [bind].
    rewrite E. cbn [bind]. apply list_empty, H1.
Qed.

Lemma C99_witness : exists (tr : trace B64) phi, keys_unique tr /\ Forall (fun e => wf (snd e)) tr /\
  (forall n, In n (names phi) -> In n (map fst tr)) /\ forall dbg fuel s, compute_robustness dbg fuel phi tr s = UB.
Proof.
  exists [(sx, [])], (EAlways (EPred sx GT nzero) interval_default). split; [constructor; [intros []|constructor]|].
  split; [constructor; [|constructor]; repeat split; constructor|]. split; [intros n [<-|[]]; left; reflexivity|]. intros. reflexivity.
Qed.

Lemma C99_case_lemma : let tr := [(sx, []); (sy, [mkSample nzero (dbl 1 0) (nzero : B64)])] in keys_unique tr /\ has_signal tr sx [] /\
  compute_robustness true 0 (EPred sx GT nzero) tr false = Ok [] /\
  exists a, compute_robustness true 0 (EPred sy GT nzero) tr false = Ok [a].
Proof.
  split; [|split; [left; reflexivity|split; [reflexivity|eexists; reflexivity]]].
  constructor; [intros [H|[]]; discriminate H|]. constructor; [intros []|constructor].
Qed.
