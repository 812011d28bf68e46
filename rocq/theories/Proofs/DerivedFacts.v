(** C95: values of formulas built with the operators and derived connectives. *)
From Coq Require Import Reals Lra.
From Verif Require Import Base Num NumXR.
From Verif.Model Require Import Signal Ast Robustness.
From Verif.Spec Require Import Pwl Formula Semantics Laws AstSpec.
From Verif.Proofs Require Import QuantFacts RobExamples QuantExamples BoolLaws LawExamples.
Local Open Scope R_scope.

Definition best (p : bool) (a b : R) : R := if p then Rmin a b else Rmax a b.
Lemma best_l p a b : sgp p * best p a b <= sgp p * a.
Proof. destruct p; cbn; [pose proof (Rmin_l a b)|pose proof (Rmax_l a b)]; lra. Qed.
Lemma best_r p a b : sgp p * best p a b <= sgp p * b.
Proof. destruct p; cbn; [pose proof (Rmin_r a b)|pose proof (Rmax_r a b)]; lra. Qed.
Lemma best_or p a b : best p a b = a \/ best p a b = b.
Proof. destruct p; cbn; unfold Rmin, Rmax; destruct (Rle_dec a b); auto. Qed.

Section Code.
Variables (dbg : bool) (fuel : nat) (lt : ptrace) (tr : trace XR) (t0 : R) (s : bool).
Hypotheses (TO : trace_of lt tr) (KU : keys_unique tr) (AS : all_start lt t0).
Variable t : R.
Notation G := (given dbg fuel lt tr s t).
Let GN := given_node dbg fuel lt tr t0 s TO KU AS t.

Lemma join_node p l m a b : G (node p l) a -> G (node p m) b -> G (node p (l ++ m)) (best p a b).
Proof.
  intros H K. apply GN in H as ((e & He & H) & M), K as ((f & Hf & K) & N). apply GN. split.
  - destruct (best_or p a b) as [-> | ->]; [exists e|exists f]; (split; [apply in_or_app; auto|assumption]).
  - intros g Hg. pose proof (best_l p a b). pose proof (best_r p a b).
    apply in_app_or in Hg as [Hg|Hg]; [destruct (M g Hg) as (w & Hw & L)|destruct (N g Hg) as (w & Hw & L)]; exists w; (split; [exact Hw|lra]).
Qed.
Lemma one p x a : G (node p [x]) a <-> G x a.
Proof. apply (one_node (given dbg fuel lt tr s t) GN). Qed.
Lemma pair_node p x y a b : G x a -> G y b -> G (node p [x; y]) (best p a b).
Proof. intros H K. apply (join_node p [x] [y]); apply one; assumption. Qed.

Lemma no_const x a : G x a -> is_const x = false.
Proof. intros [(A & _) _]. destruct x; try reflexivity. discriminate A. Qed.
Lemma some_arg p l a : G (node p l) a -> (1 <= length l)%nat.
Proof. intros H. apply GN in H as ((e & He & _) & _). destruct l; [destruct He|]. cbn. apply le_n_S, Nat.le_0_l. Qed.
Lemma two l (m : list (expr XR)) : (1 <= length l)%nat -> (1 <= length m)%nat -> And_ (l ++ m) = Ok (EAnd (l ++ m)) /\ Or_ (l ++ m) = Ok (EOr (l ++ m)).
Proof. destruct l as [|a [|b l]]; [inversion 1| |split; reflexivity]. intros _. destruct m; [inversion 1|split; reflexivity]. Qed.

Lemma given_op_not x a : G x a -> G (op_not x) (- a).
Proof.
  intros H. replace (op_not x) with (ENot x) by (apply no_const in H; destruct x; try reflexivity; discriminate).
  apply (given_not dbg fuel lt tr t0 s TO KU AS). rewrite Ropp_involutive. exact H.
Qed.
Lemma given_op_and x y a b : G x a -> G y b -> exists e, op_and x y = Ok e /\ G e (Rmin a b).
Proof.
  intros H K. pose proof (no_const _ _ H) as Nx. pose proof (no_const _ _ K) as Ny.
  pose proof (pair_node true x y a b H K) as P.
  destruct x; try discriminate; try (eexists; split; [reflexivity|exact P]). pose proof (some_arg true _ _ H) as L.
  destruct y; try discriminate; cbn [op_and and_helper];
    try (eexists; split; [apply two; [exact L|apply le_n]|]; apply (join_node true args [_] a b H); apply (one true), K).
  pose proof (some_arg true _ _ K) as L'. eexists. split; [apply two; assumption|]. apply (join_node true _ _ a b H K).
Qed.
Lemma given_op_or x y a b : G x a -> G y b -> exists e, op_or x y = Ok e /\ G e (Rmax a b).
Proof.
  intros H K. pose proof (no_const _ _ H) as Nx. pose proof (no_const _ _ K) as Ny.
  pose proof (pair_node false x y a b H K) as P.
  destruct x; try discriminate; try (eexists; split; [reflexivity|exact P]). pose proof (some_arg false _ _ H) as L.
  destruct y; try discriminate; cbn [op_or or_helper];
    try (eexists; split; [apply two; [exact L|apply le_n]|]; apply (join_node false args [_] a b H); apply (one false), K).
  pose proof (some_arg false _ _ K) as L'. eexists. split; [apply two; assumption|]. apply (join_node false _ _ a b H K).
Qed.

Notation result o v := (exists e, o = Ok e /\ evaluable lt e /\ gives dbg fuel tr s e t v).
Lemma C95_lemma x y a b : evaluable lt x -> evaluable lt y -> gives dbg fuel tr s x t a -> gives dbg fuel tr s y t b ->
  gives dbg fuel tr s (op_not x) t (- a) /\ gives dbg fuel tr s (Not_ x) t (- a) /\ result (op_and x y) (Rmin a b) /\ result (op_or x y) (Rmax a b) /\
  result (Implies_ x y) (Rmax (- a) b) /\ result (Xor_ x y) (Rmin (Rmax a b) (Rmax (- a) (- b))) /\
  result (Iff_ x y) (Rmax (Rmin a b) (Rmin (- a) (- b))).
Proof.
  intros Ex Ey Hx Hy. assert (X : G x a) by (split; assumption). assert (Y : G y b) by (split; assumption).
  pose proof (given_op_not x a X) as X'. pose proof (given_op_not y b Y) as Y'.
  split; [apply X'|]. split; [replace (Not_ x) with (op_not x) by (destruct x; reflexivity); apply X'|]. split; [exact (given_op_and x y a b X Y)|]. split; [exact (given_op_or x y a b X Y)|].
  split; [exact (given_op_or _ _ _ _ X' Y)|]. split.
  - destruct (given_op_or _ _ _ _ X Y) as (e & E & P), (given_op_or _ _ _ _ X' Y') as (f & E' & Q). unfold Xor_. rewrite E. cbn [bind]. rewrite E'. cbn [bind].
    exact (given_op_and _ _ _ _ P Q).
  - destruct (given_op_and _ _ _ _ X Y) as (e & E & P), (given_op_and _ _ _ _ X' Y') as (f & E' & Q). unfold Iff_. rewrite E. cbn [bind]. rewrite E'. cbn [bind].
    exact (given_op_or _ _ _ _ P Q).
Qed.
End Code.

Ltac ev1 := split; [reflexivity|split; [reflexivity|split; [|split]]];
  [intros e He; cbn in He; repeat (destruct He as [<-|He]; [first [exact I|left; reflexivity]|]); destruct He
  |intros e He; cbn in He; repeat (destruct He as [<-|He]; [first [exact I|eexists; reflexivity]|]); destruct He
  |intros n Hn; apply lt1_names; cbn in Hn; repeat (destruct Hn as [<-|Hn]; [auto|]); destruct Hn].
Definition c95_x : expr XR := EAnd [gx; ENot ey].
Definition c95_y : expr XR := EOr [ENot gx; EAlways ey interval_default].
Lemma C95_case_lemma : trace_of lt1 tr1 /\ keys_unique tr1 /\ all_start lt1 0 /\ evaluable lt1 c95_x /\ evaluable lt1 c95_y /\
  (exists a, gives true 0 tr1 false c95_x (1/3) a) /\ (exists b, gives true 0 tr1 false c95_y (1/3) b) /\ is_and c95_x = true.
Proof.
  assert (Ex : evaluable lt1 c95_x) by ev1.
  assert (Ey : evaluable lt1 c95_y) by ev1.
  split; [exact tr1_of|]. split; [exact tr1_keys|]. split; [exact tr1_start|]. split; [exact Ex|]. split; [exact Ey|].
  split; [|split; [|reflexivity]]; (apply (gives_inside true 0 lt1 tr1 0 false tr1_of tr1_keys tr1_start); [assumption|]; apply lt1_inside; [lra|];
    intros n Hn; cbn in Hn; repeat (destruct Hn as [<-|Hn]; [auto|]); destruct Hn).
Qed.
