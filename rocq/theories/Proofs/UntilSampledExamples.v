(** Instance for C128. *)
From Coq Require Import Reals Lia.
From Verif Require Import Base Num NumB64.
From Verif.Model Require Import Signal Ast Robustness.
From Verif.Spec Require Import SignalSpec Formula UntilSpec UntilSampled.
From Verif.Proofs Require Import NumFacts B64Facts SignalFacts SignalProps RobFacts MinMaxExamples UntilFacts RobExamples UntilSampledFacts.
Local Open Scope nat_scope.

Definition us_x : signal B64 := sig_of [(dbl 0 0, dbl 1 0); (dbl 2 0, dbl 3 0); (dbl 4 0, dbl (-1) 0)].
Definition us_y : signal B64 := sig_of [(dbl 0 0, dbl (-2) 0); (dbl 2 0, dbl (-1) 0); (dbl 4 0, dbl 5 0)].
Definition us_tr : trace B64 := [(sx, us_x); (sy, us_y)].
(** x > 1/2, and eventually not y <= 0. *)
Definition us_a : expr B64 := EPred sx GT (dbl 1 (-1)).
Definition us_b : expr B64 := EEventually (ENot (EPred sy LE nzero)) interval_default.
Definition us_finite (x : signal B64) : bool := forallb (fun a => finite (s_time a) && finite (s_value a)) x.
Lemma us_good x : us_finite x = true -> Forall (fun a => finite (s_time a) = true /\ finite (s_value a) = true) x.
Proof. intros K. apply Forall_forall. intros a Ha. unfold us_finite in K. rewrite forallb_forall in K. apply andb_prop, K, Ha. Qed.
Definition us_last (z : signal B64) : bool := match last_opt (values z) with Some q => nltb nzero q | None => false end.
Definition us_first (z : signal B64) : bool := match values z with v :: _ => nltb nzero v | [] => false end.

Lemma C128_case_lemma : keys_unique us_tr /\ Forall (fun e => wf (snd e) /\ snd e <> [] /\ Forall (fun a => finite (s_time a) = true /\ finite (s_value a) = true) (snd e)) us_tr /\
  sampled_operand us_tr us_a /\ sampled_operand us_tr us_b /\ made_interval (F := B64) interval_default /\
  (forall n m x y, In n (names us_a) -> In m (names us_b) -> has_signal us_tr n x -> has_signal us_tr m y -> Forall2 (fun p q => neqb (s_time p) (s_time q) = true) x y) /\
  (exists w q, compute_robustness true 0 us_b us_tr false = Ok w /\ last_opt (values w) = Some q /\ nltb nzero q = true) /\
  exists z v, compute_robustness true 0 (EUntil us_a us_b interval_default) us_tr false = Ok z /\ nth_error (values z) 0 = Some v /\ nltb nzero v = true.
Proof.
  assert (F1 : finite (dbl 1 (-1)) = true) by (vm_compute; reflexivity). assert (F0 : finite (nzero : B64) = true) by (vm_compute; reflexivity).
  split; [repeat constructor; cbn; intuition discriminate|]. split.
  { constructor; [|constructor; [|constructor]]; (split; [apply b64_wf; vm_compute; reflexivity|]); (split; [discriminate|]); apply us_good; vm_compute; reflexivity. }
  split. { split; [reflexivity|]. split; [reflexivity|]. split; [reflexivity|]. split; [intros f [<-|[]]; exact F1|]. split; [intros f [<-|[]]; exact I|]. intros n [<-|[]]. exists us_x. left. reflexivity. }
  split. { split; [reflexivity|]. split; [reflexivity|]. split; [reflexivity|]. split; [intros f [<-|[<-|[<-|[]]]]; try exact I; exact F0|]. split; [intros f [<-|[<-|[<-|[]]]]; try exact I; left; reflexivity|].
    intros n [<-|[]]. exists us_y. right. left. reflexivity. }
  split; [left; reflexivity|]. split.
  { intros n m x y [<-|[]] [<-|[]] [E|[E|[]]] [E'|[E'|[]]]; apply pair_equal_spec in E as (E0 & <-); apply pair_equal_spec in E' as (E1 & <-); try discriminate E0; try discriminate E1.
    repeat (constructor; [vm_compute; reflexivity|]). constructor. }
  split.
  - destruct (one_ok (compute_robustness true 0 us_b us_tr false) us_last) as (w & E & K); [vm_compute; reflexivity|]. unfold us_last in K. destruct (last_opt (values w)) as [q|] eqn:Q; [|discriminate K]. exists w, q. auto.
  - destruct (one_ok (compute_robustness true 0 (EUntil us_a us_b interval_default) us_tr false) us_first) as (z & E & K); [vm_compute; reflexivity|]. unfold us_first in K. destruct (values z) as [|v l] eqn:Q; [discriminate K|]. exists z, v. rewrite Q. auto.
Qed.
