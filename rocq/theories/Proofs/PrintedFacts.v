(** C113: the printed form. *)
From Flocq Require Import IEEE754.BinarySingleNaN.
From Verif Require Import Base Num NumB64.
From Verif.Model Require Import Signal Ast Fmt.
From Verif.Spec Require Import SignalSpec Formula AstSpec FmtSpec Reading Printed.
From Verif.Proofs Require Import AstFacts FmtFacts RobFacts.
Local Open Scope string_scope.

Lemma join_separated sep l : join sep l = separated sep l.
Proof. induction l as [|a l IH]; [reflexivity|]. cbn. rewrite IH. reflexivity. Qed.

Section Printed.
Variable fdbl : B64 -> string.
Lemma interval_text close i : ctor_interval i -> fmt_interval fdbl close i = if unbounded i then "[" ++ fdbl (fst (as_double i)) ++ ", " ++ close ++ " " else " ".
Proof.
  intros C. unfold fmt_interval. rewrite (unbounded_has_value i C). destruct (unbounded i) eqn:U; [|reflexivity].
  unfold unbounded in U. destruct (as_double i) as [a b]. cbn [fst snd] in *. apply andb_prop in U as [_ U].
  replace (nisinf b) with true; [reflexivity|]. destruct b as [s|s| |s m e B]; try discriminate; reflexivity.
Qed.
Lemma shown_coded op close i : ctor_interval i -> In (op, close) [("G", "int)"); ("F", "inf]"); ("U", "inf)")] ->
  as_coded fdbl op i (fmt_interval fdbl close i).
Proof. intros C I. rewrite (interval_text close i C). unfold as_coded. destruct (unbounded i); [exists close; split; [reflexivity|exact I]|reflexivity]. Qed.
Lemma C113_lemma e : (forall x, In x (subs e) -> match x with EAlways _ i | EEventually _ i | EUntil _ _ i => ctor_interval i | _ => True end) ->
  printed fdbl (as_coded fdbl) e (fmt_expr fdbl e).
Proof.
  assert (LIST : forall l, Forall (fun e => (forall x, In x (subs e) -> match x with EAlways _ i | EEventually _ i | EUntil _ _ i => ctor_interval i | _ => True end) ->
    printed fdbl (as_coded fdbl) e (fmt_expr fdbl e)) l -> (forall x, In x (flat_map subs l) -> match x with EAlways _ i | EEventually _ i | EUntil _ _ i => ctor_interval i | _ => True end) ->
    Forall2 (printed fdbl (as_coded fdbl)) l (map (fmt_expr fdbl) l)).
  { induction 1 as [|a l Ha _ IH]; intros H; constructor.
    - apply Ha. intros x Hx. apply H, in_or_app. left. exact Hx.
    - apply IH. intros x Hx. apply H, in_or_app. right. exact Hx. }
  induction e as [b|n op c|e IH|l IH|l IH|e i IH|e i IH|e1 e2 i IH1 IH2] using expr_rec; intros H; cbn [fmt_expr].
  - destruct b; constructor.
  - change (fmt_cmp op) with (relation op). constructor.
  - constructor. apply IH. intros x Hx. apply H. right. exact Hx.
  - rewrite join_separated. constructor. apply (LIST l IH). intros x Hx. apply H. right. exact Hx.
  - rewrite join_separated. constructor. apply (LIST l IH). intros x Hx. apply H. right. exact Hx.
  - constructor; [apply shown_coded; [apply (H (EAlways e i)); left; reflexivity|cbn; tauto]|]. apply IH. intros x Hx. apply H. right. exact Hx.
  - constructor; [apply shown_coded; [apply (H (EEventually e i)); left; reflexivity|cbn; tauto]|]. apply IH. intros x Hx. apply H. right. exact Hx.
  - constructor; [apply shown_coded; [apply (H (EUntil e1 e2 i)); left; reflexivity|cbn; tauto]|apply IH1|apply IH2]; intros x Hx; apply H; right; apply in_or_app; auto.
Qed.
Lemma C113_signal_lemma (x : signal B64) : fmt_signal fdbl x = "[" ++ separated ", " (map (fun s => "(" ++ fdbl (s_time s) ++ ", " ++ fdbl (s_value s) ++ ")") x) ++ "]".
Proof. unfold fmt_signal. rewrite join_separated. reflexivity. Qed.
Lemma append_assoc a b c : (a ++ b) ++ c = a ++ b ++ c.
Proof. induction a as [|x a IH]; [reflexivity|]. cbn. f_equal. exact IH. Qed.
Lemma not_textbook op close i iv w w' : ctor_interval i -> In close ["int)"; "inf]"] -> textbook fdbl op i iv -> fmt_interval fdbl close i ++ w <> iv ++ w'.
Proof.
  intros C I T E. rewrite (interval_text close i C) in E. unfold textbook in T. destruct (unbounded i); [|subst iv; discriminate E].
  destruct T as [->| ->]; [discriminate E|]. rewrite !append_assoc in E. apply (append_inj_l "[") in E. apply append_inj_l in E.
  destruct I as [<-|[<-|[]]]; discriminate E.
Qed.
Lemma C113_refuted_lemma e i : ctor_interval i ->
  ~ printed fdbl (textbook fdbl) (EAlways e i) (fmt_expr fdbl (EAlways e i)) /\ ~ printed fdbl (textbook fdbl) (EEventually e i) (fmt_expr fdbl (EEventually e i)).
Proof.
  intros C. split; intros P; [remember (fmt_expr fdbl (EAlways e i)) as t eqn:T|remember (fmt_expr fdbl (EEventually e i)) as t eqn:T]; inversion P; subst; cbn [fmt_expr] in *;
    match goal with H : (?c ++ _ ++ _) = (?c ++ _ ++ _) |- _ => apply (append_inj_l c) in H; symmetry in H; revert H end; eapply not_textbook; eauto; cbn; tauto.
Qed.
End Printed.
Definition c113_e : expr B64 := EUntil (EAnd [ENot (EPred "x" LE (nofZ 3)); EConst true]) (EAlways (EPred "y" GT (nofZ 1)) interval_default) (interval_ull 1 2).
Lemma C113_case_lemma : (forall x, In x (subs c113_e) -> match x with EAlways _ i | EEventually _ i | EUntil _ _ i => ctor_interval i | _ => True end) /\ fmt_expr (fun _ => "0") c113_e = "(~(x <= 0) & true) U G[0, int) (y > 0)" /\ ctor_interval (interval_ull 1 2 : interval B64).
Proof.
  assert (C : ctor_interval (interval_ull 1 2 : interval B64)) by (right; left; exists 1%N, 2%N; repeat split; vm_compute; reflexivity).
  split; [|split; [vm_compute; reflexivity|exact C]].
  intros x H. cbn in H. decompose [or] H; subst; try exact I; try contradiction; [exact C|left; reflexivity].
Qed.
