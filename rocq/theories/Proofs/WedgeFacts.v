(** The monotonic wedge. *)
From Coq Require Import Sorted Reals Lra.
From Verif Require Import Base Num.
From Verif.Model Require Import Signal MonoWedge.
From Verif.Spec Require Import SignalSpec Subseq Wedge.
From Verif.Proofs Require Import NumFacts LowerBound SeqFacts.

Section Wedge.
Context {A : Type} (comp : A -> A -> bool) (P : A -> Prop).
Hypothesis refl : forall a, P a -> comp a a = true.
Hypothesis trans : forall a b c, P a -> P b -> P c -> comp a b = true -> comp b c = true -> comp a c = true.

Definition sorted (w : list A) : Prop := StronglySorted (fun a b => comp a b = true) w.

Lemma sorted_partition w v : Forall P w -> P v -> sorted w ->
  exists w1 w2, w = w1 ++ w2 /\ w1 = take_while (fun a => comp a v) w /\
    Forall (fun a => comp a v = true) w1 /\ Forall (fun a => comp a v = false) w2.
Proof.
  intros Hp Hv. induction w as [|a w IH]; intros S.
  - exists [], []. repeat split; constructor.
  - inversion S as [|? ? S1 S2]; subst. inversion Hp as [|? ? P1 P2]; subst.
    cbn [take_while]. destruct (comp a v) eqn:E.
    + destruct (IH P2 S1) as (w1 & w2 & E1 & E2 & F1 & F2). exists (a :: w1), w2.
      split; [cbn; rewrite <- E1; reflexivity|]. rewrite <- E2. repeat split; auto.
    + exists [], (a :: w). repeat split; try constructor; auto.
      rewrite Forall_forall in *. intros b Hb. destruct (comp b v) eqn:C; [|reflexivity].
      rewrite (trans a b v) in E; auto.
Qed.

Lemma nth_error_part (w1 w2 : list A) (p : A -> bool) k a : Forall (fun a => p a = true) w1 -> Forall (fun a => p a = false) w2 ->
  nth_error (w1 ++ w2) k = Some a -> p a = Nat.ltb k (length w1).
Proof.
  intros H1 H2 H. rewrite Forall_forall in *. destruct (Nat.ltb_spec k (length w1)) as [L|L].
  - rewrite nth_error_app1 in H by exact L. apply H1. eapply nth_error_In; eauto.
  - rewrite nth_error_app2 in H by exact L. apply H2. eapply nth_error_In; eauto.
Qed.

Lemma wedge_linear_part (w1 w2 : list A) v : Forall (fun a => comp a v = true) w1 -> Forall (fun a => comp a v = false) w2 ->
  forall fuel i pos, 1 <= i -> pos + i = length (w1 ++ w2) -> pos < fuel -> length w1 <= S pos ->
  wedge_linear comp fuel (w1 ++ w2) v i pos = Ok (inl (length w1)) \/
  exists p, wedge_linear comp fuel (w1 ++ w2) v i pos = Ok (inr p) /\ p < length (w1 ++ w2) /\ length w1 <= S p.
Proof.
  intros H1 H2. induction fuel as [|fuel IH]; intros i pos Hi Hp Hf Hl; [lia|]. cbn [wedge_linear].
  replace (length (w1 ++ w2) - i) with pos by lia.
  destruct (Nat.ltb_spec 0 (Nat.shiftr pos i)) as [L|L].
  - assert (Hpos : 2 <= pos).
    { rewrite Nat.shiftr_div_pow2 in L. destruct (Nat.lt_ge_cases pos 2) as [Q|Q]; [|exact Q]. exfalso.
      assert (2 <= 2 ^ i) by (destruct i as [|i]; [lia|]; cbn; pose proof (Nat.pow_nonzero 2 i); lia).
      rewrite Nat.div_small in L; lia. }
    destruct (nth_error (w1 ++ w2) pos) as [a|] eqn:E; [|apply nth_error_None in E; lia].
    rewrite (nth_error_part w1 w2 (fun a => comp a v) pos a) by assumption.
    destruct (Nat.ltb_spec pos (length w1)).
    + left. do 2 f_equal. lia.
    + destruct pos as [|pos]; [lia|]. apply IH; lia.
  - right. exists pos. repeat split; auto. lia.
Qed.

Lemma wedge_search_part (w1 w2 : list A) v : Forall (fun a => comp a v = true) w1 -> Forall (fun a => comp a v = false) w2 ->
  wedge_search comp (w1 ++ w2) v = Ok (length w1).
Proof.
  intros H1 H2. unfold wedge_search. destruct (w1 ++ w2) as [|b w] eqn:E.
  { apply app_eq_nil in E as [-> ->]. reflexivity. }
  rewrite <- E. assert (Hl : 0 < length (w1 ++ w2)) by (rewrite E; cbn; lia).
  destruct (wedge_linear_part w1 w2 v H1 H2 (S (length (w1 ++ w2))) 1 (length (w1 ++ w2) - 1)) as [-> |(p & -> & Hp & Hw)]; try lia.
  - rewrite app_length. destruct w2; [|cbn; lia]. cbn. lia.
  - cbn [bind]. reflexivity.
  - cbn [bind]. rewrite firstn_app, firstn_all2 by lia. apply lower_bound_partition; [exact H1|].
    rewrite Forall_forall in *. intros a Ha. apply H2. rewrite <- (firstn_skipn (S p - length w1) w2). apply in_or_app. left. exact Ha.
Qed.

Lemma wedge_update_ok w v : Forall P w -> P v -> sorted w ->
  wedge_update comp w v = Ok (take_while (fun a => comp a v) w ++ [v]).
Proof.
  intros Hp Hv S. destruct (sorted_partition w v Hp Hv S) as (w1 & w2 & E & E1 & F1 & F2).
  unfold wedge_update. rewrite E at 1. rewrite wedge_search_part by assumption. cbn [bind].
  rewrite E at 1. rewrite firstn_app, firstn_all, Nat.sub_diag. cbn [firstn]. rewrite app_nil_r, E1. reflexivity.
Qed.

(** Every element is an extreme of everything fed from it on. *)
Fixpoint winv (w fd : list A) : Prop :=
  match w with
  | [] => True
  | f :: w' => exists older newer, fd = older ++ f :: newer /\ Forall (fun v => comp f v = true) (f :: newer) /\ winv w' newer
  end.

Lemma winv_subseq w : forall fd, winv w fd -> subseq w fd.
Proof.
  induction w as [|f w IH]; intros fd H; [apply subseq_nil_l|]. destruct H as (o & n & -> & _ & H).
  change (f :: w) with ([] ++ f :: w). apply subseq_app; [apply subseq_nil_l|]. constructor. auto.
Qed.
Lemma winv_prefix w o fd : winv w fd -> winv w (o ++ fd).
Proof. destruct w as [|f w]; [auto|]. intros (o' & n & -> & H). exists (o ++ o'), n. rewrite app_assoc. auto. Qed.
Lemma winv_sorted w : forall fd, winv w fd -> sorted w.
Proof.
  induction w as [|f w IH]; intros fd H; [constructor|]. destruct H as (o & n & -> & F & H). constructor; [eapply IH, H|].
  inversion F as [|? ? _ Fn]; subst. rewrite Forall_forall in *. intros b Hb. apply Fn. eapply subseq_In; [apply winv_subseq, H|exact Hb].
Qed.
Lemma winv_feed w : forall fd v, P v -> winv w fd -> winv (take_while (fun a => comp a v) w ++ [v]) (fd ++ [v]).
Proof.
  induction w as [|f w IH]; intros fd v Pv H; cbn [take_while].
  - exists fd, []. repeat split. constructor; [apply refl, Pv|constructor].
  - destruct (comp f v) eqn:E.
    + destruct H as (o & n & -> & F & H). cbn [app]. exists o, (n ++ [v]). rewrite <- app_assoc. split; [reflexivity|].
      split; [|apply IH; auto]. change (f :: n ++ [v]) with ((f :: n) ++ [v]). apply Forall_app. split; [exact F|]. repeat constructor. exact E.
    + exists fd, []. repeat split. constructor; [apply refl, Pv|constructor].
Qed.

Definition popped_empty (h : list (wop A)) : Prop :=
  exists h1 h2, h = h1 ++ Pop :: h2 /\ wedge_run comp [] h1 = Ok [].

Lemma wedge_run_app w h1 h2 : wedge_run comp w (h1 ++ h2) = (w' <- wedge_run comp w h1 ;; wedge_run comp w' h2).
Proof.
  revert w. induction h1 as [|[v|] h1 IH]; intros w; cbn [app wedge_run bind].
  - reflexivity.
  - destruct (wedge_update comp w v); cbn [bind]; auto.
  - destruct w; auto.
Qed.

Lemma fed_app (h1 h2 : list (wop A)) : fed (h1 ++ h2) = fed h1 ++ fed h2.
Proof. induction h1 as [|[v|] h1 IH]; cbn; rewrite ?IH; reflexivity. Qed.

Lemma wedge_run_inv h : Forall P (fed h) ->
  (wedge_run comp [] h = UB /\ popped_empty h) \/
  (exists w, wedge_run comp [] h = Ok w /\ winv w (fed h) /\ (w = [] \/ last_opt w = last_opt (fed h))).
Proof.
  induction h as [|o h IH] using rev_ind; intros Hp.
  { right. exists []. split; [reflexivity|]. split; [exact I|]. left. reflexivity. }
  rewrite fed_app in Hp. apply Forall_app in Hp as [Hp Ho]. rewrite wedge_run_app, fed_app.
  destruct (IH Hp) as [[-> (h1 & h2 & -> & E)]|(w & E & Hw & Hl)].
  { left. split; [reflexivity|]. exists h1, (h2 ++ [o]). rewrite <- app_assoc. auto. }
  rewrite E. cbn [bind]. destruct o as [v|]; cbn [wedge_run fed].
  - inversion Ho; subst. right. rewrite wedge_update_ok; auto.
    + eexists. split; [reflexivity|]. split; [apply winv_feed; auto|]. right. rewrite !last_opt_snoc. reflexivity.
    + apply Forall_forall. intros a Ha. rewrite Forall_forall in Hp. apply Hp. eapply subseq_In; [apply winv_subseq, Hw|exact Ha].
    + eapply winv_sorted, Hw.
  - destruct w as [|f w].
    + left. split; [reflexivity|]. exists h, []. auto.
    + right. exists w. split; [reflexivity|]. rewrite app_nil_r. destruct Hw as (o & n & Ef & _ & Hw). split.
      * rewrite Ef. change (o ++ f :: n) with (o ++ [f] ++ n). rewrite app_assoc. apply winv_prefix, Hw.
      * destruct w as [|g w]; [left; reflexivity|]. right. destruct Hl as [Hl|Hl]; [discriminate|]. exact Hl.
Qed.
End Wedge.

Section Inst.
Context {F : Type} `{NF : Num F} {NL : NumLaws F}.
Definition nv (a : sample F) : Prop := isnum (s_value a) = true.

Lemma wedge_lemma comp (ordb : F -> F -> bool) (h : list (wop (sample F))) :
  (forall a b, isnum (s_value a) = true -> isnum (s_value b) = true -> comp a b = ordb (s_value a) (s_value b)) ->
  (forall v, isnum v = true -> ordb v v = true) ->
  (forall u v w, ordb u v = true -> ordb v w = true -> ordb u w = true) ->
  Forall nv (fed h) ->
  (wedge_run comp [] h = UB /\ exists h1 h2, h = h1 ++ Pop :: h2 /\ wedge_run comp [] h1 = Ok []) \/
  (exists w, wedge_run comp [] h = Ok w /\
     StronglySorted (fun a b => ordb (s_value a) (s_value b) = true) w /\ subseq w (fed h) /\
     (w <> [] -> last_opt w = last_opt (fed h)) /\
     (forall f w', w = f :: w' -> exists older newer, fed h = older ++ f :: newer /\ subseq w' newer /\
        forall v, In v (f :: newer) -> ordb (s_value f) (s_value v) = true)).
Proof.
  intros Hc Hr Ht Hn.
  destruct (wedge_run_inv comp nv) with (h := h) as [[E H]|(w & E & Hw & Hl)].
  - intros a Ha. rewrite Hc by exact Ha. auto.
  - intros a b c Pa Pb Pc. rewrite !Hc by assumption. apply Ht.
  - exact Hn.
  - left. split; [exact E|exact H].
  - right. exists w. pose proof (winv_subseq _ _ _ Hw) as Hs. split; [exact E|].
    assert (Nw : forall a, In a (fed h) -> nv a) by (rewrite Forall_forall in Hn; exact Hn).
    assert (Nw' : Forall nv w) by (apply Forall_forall; intros a Ha; apply Nw; eapply subseq_In; eauto).
    split; [|split; [exact Hs|split]].
    + pose proof (winv_sorted _ _ _ Hw) as S. clear -S Nw' Hc. induction w as [|a w IH]; [constructor|].
      inversion S as [|? ? S1 S2]; inversion Nw' as [|? ? N1 N2]; subst. constructor; [auto|].
      rewrite Forall_forall in *. intros b Hb. rewrite <- Hc; auto. apply N2, Hb.
    + intros Hne. destruct Hl; [contradiction|assumption].
    + intros f w' ->. destruct Hw as (o & n & Ef & Ff & Hw). exists o, n. split; [exact Ef|].
      split; [apply (winv_subseq comp), Hw|]. rewrite Forall_forall in Ff. intros v Hv. rewrite <- Hc; auto.
      * apply Nw. rewrite Ef. apply in_or_app. right. left. reflexivity.
      * apply Nw. rewrite Ef. apply in_or_app. right. exact Hv.
Qed.
Definition wedge_max_lemma h := wedge_lemma sample_ge (fun v w => nleb w v) h ge_comp nleb_refl nleb_trans'.
Definition wedge_min_lemma h := wedge_lemma sample_le nleb h le_comp nleb_refl nleb_trans.
End Inst.
