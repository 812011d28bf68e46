(** The monotonic wedge holds exactly the leaders of the values still of interest. *)
From Coq Require Import Sorted Reals Lra.
From Verif Require Import Base Num.
From Verif.Model Require Import Signal MonoWedge.
From Verif.Spec Require Import SignalSpec Subseq Wedge.
From Verif.Proofs Require Import NumFacts LowerBound SeqFacts WedgeFacts.

Section Exact.
Context {A : Type} (comp : A -> A -> bool) (P : A -> Prop).
Hypothesis trans : forall a b c, P a -> P b -> P c -> comp a b = true -> comp b c = true -> comp a c = true.

Lemma leaders_In r a : In a (leaders comp r) -> In a r.
Proof.
  induction r as [|b r IH]; cbn; [auto|]. destruct (forallb (comp b) r); [|auto].
  intros [->|H]; [left; reflexivity|right; auto].
Qed.
Lemma leaders_sorted r : sorted comp (leaders comp r).
Proof.
  induction r as [|a r IH]; cbn; [constructor|]. destruct (forallb (comp a) r) eqn:E; [|exact IH].
  constructor; [exact IH|]. rewrite forallb_forall in E. apply Forall_forall. intros b Hb. apply E, leaders_In, Hb.
Qed.
Lemma leaders_snoc r v : leaders comp (r ++ [v]) = filter (fun a => comp a v) (leaders comp r) ++ [v].
Proof.
  induction r as [|a r IH]; cbn [app leaders filter]; [reflexivity|].
  rewrite forallb_app, IH. cbn [forallb]. rewrite andb_true_r.
  destruct (forallb (comp a) r); cbn [andb filter app]; [|reflexivity]. destruct (comp a v); reflexivity.
Qed.
Lemma filter_all_true (p : A -> bool) l : Forall (fun a => p a = true) l -> filter p l = l.
Proof. induction 1 as [|a l H _ IH]; cbn; [reflexivity|]. rewrite H, IH. reflexivity. Qed.
Lemma filter_all_false (p : A -> bool) l : Forall (fun a => p a = false) l -> filter p l = [].
Proof. induction 1 as [|a l H _ IH]; cbn; [reflexivity|]. rewrite H, IH. reflexivity. Qed.
Lemma take_while_sorted w v : Forall P w -> P v -> sorted comp w ->
  take_while (fun a => comp a v) w = filter (fun a => comp a v) w.
Proof.
  intros Hp Hv S. destruct (sorted_partition comp P trans w v Hp Hv S) as (w1 & w2 & E & E1 & F1 & F2).
  rewrite <- E1. rewrite E. rewrite filter_app, filter_all_true, filter_all_false, app_nil_r; auto.
Qed.
Lemma leaders_P r : Forall P r -> Forall P (leaders comp r).
Proof. rewrite !Forall_forall. intros H a Ha. apply H, leaders_In, Ha. Qed.
Lemma leaders_feed r v : Forall P r -> P v -> wedge_update comp (leaders comp r) v = Ok (leaders comp (r ++ [v])).
Proof.
  intros Hr Hv. rewrite (wedge_update_ok comp P trans) by (auto using leaders_P, leaders_sorted).
  rewrite take_while_sorted by (auto using leaders_P, leaders_sorted). rewrite leaders_snoc. reflexivity.
Qed.
Lemma leaders_search r v : Forall P r -> P v -> exists w, leaders comp r = filter (fun a => comp a v) (leaders comp r) ++ w /\
  wedge_search comp (leaders comp r) v = Ok (length (filter (fun a => comp a v) (leaders comp r))).
Proof.
  intros Hr Hv. destruct (sorted_partition comp P trans _ v (leaders_P r Hr) Hv (leaders_sorted r)) as (w1 & w2 & E & E1 & F1 & F2).
  rewrite E. rewrite filter_app, filter_all_true, filter_all_false, app_nil_r by assumption.
  exists w2. split; [reflexivity|]. apply wedge_search_part; assumption.
Qed.
(** The front of the leaders is the first extreme. *)
Lemma leaders_pop r : r <> [] -> exists f o, leaders comp r = f :: leaders comp (after_extreme comp r) /\
  r = o ++ f :: after_extreme comp r /\ Forall (fun v => comp f v = true) (after_extreme comp r) /\
  (forall e o1 o2, o = o1 ++ e :: o2 -> exists v, In v (o2 ++ f :: after_extreme comp r) /\ comp e v = false).
Proof.
  induction r as [|a r IH]; [congruence|]. intros _. cbn [leaders after_extreme].
  destruct (forallb (comp a) r) eqn:E.
  - exists a, []. repeat split; auto. { rewrite forallb_forall in E. apply Forall_forall, E. }
    intros e [|? ?] o2 H; discriminate.
  - destruct r as [|b r]; [discriminate|]. destruct IH as (f & o & E1 & E2 & E3 & E4); [congruence|].
    exists f, (a :: o). split; [exact E1|]. split; [cbn [app]; rewrite <- E2; reflexivity|]. split; [exact E3|].
    intros e [|c o1] o2 H; cbn [app] in H; [injection H as <- <-|injection H as _ Ho].
    + rewrite <- E2. clear -E. induction (b :: r) as [|c l IH]; [discriminate|]. cbn in E.
      destruct (comp a c) eqn:C; [|exists c; split; [left; reflexivity|exact C]].
      destruct (IH E) as (v & V1 & V2). exists v. split; [right; exact V1|exact V2].
    + apply (E4 e o1 o2), Ho.
Qed.
Lemma after_P r : Forall P r -> Forall P (after_extreme comp r).
Proof.
  induction 1 as [|a r H R IH]; cbn; [constructor|]. destruct (forallb (comp a) r); assumption.
Qed.
Lemma leaders_nil r : leaders comp r = [] -> r = [].
Proof. destruct r as [|a r]; [auto|]. destruct (leaders_pop (a :: r)) as (f & o & E & _); [congruence|]. rewrite E. discriminate. Qed.

Lemma wedge_window r h : Forall P r -> Forall P (fed h) ->
  wedge_run comp (leaders comp r) h =
    match window comp r h with None => UB | Some r' => Ok (leaders comp r') end.
Proof.
  revert r. induction h as [|[v|] h IH]; intros r Hr Hf; cbn [wedge_run window fed] in *.
  - reflexivity.
  - inversion Hf; subst. rewrite leaders_feed by assumption. cbn [bind]. apply IH; [|assumption].
    apply Forall_app. auto.
  - destruct r as [|a r0]; [reflexivity|]. set (r := a :: r0) in *.
    destruct (leaders_pop r) as (f & o & E & _); [unfold r; congruence|]. rewrite E.
    apply IH; [apply after_P, Hr|exact Hf].
Qed.
Lemma window_P r h r' : Forall P r -> Forall P (fed h) -> window comp r h = Some r' -> Forall P r'.
Proof.
  revert r. induction h as [|[v|] h IH]; intros r Hr Hf E; cbn [window fed] in *.
  - injection E as <-. exact Hr.
  - inversion Hf; subst. eapply IH; [|eassumption|exact E]. apply Forall_app. auto.
  - destruct r as [|a r]; [discriminate|]. eapply IH; [|exact Hf|exact E]. apply after_P, Hr.
Qed.

Hypothesis ntrans : forall a b c, P a -> P b -> P c -> comp a b = false -> comp b c = false -> comp a c = false.

Lemma leaders_first r : Forall P r -> r <> [] -> exists o f n, r = o ++ f :: n /\ leaders comp r = f :: leaders comp n /\
  after_extreme comp r = n /\ Forall (fun v => comp f v = true) n /\ Forall (fun v => comp v f = false) o.
Proof.
  intros Hr Hne. destruct (leaders_pop r Hne) as (f & o & E1 & E2 & E3 & E4).
  exists o, f, (after_extreme comp r). repeat split; auto.
  assert (G : forall k o1 o2, length o2 = k -> o = o1 ++ o2 -> Forall (fun v => comp v f = false) o2).
  2: { apply (G (length o) [] o); reflexivity. }
  assert (Po : forall e, In e r -> P e) by (rewrite Forall_forall in Hr; exact Hr).
  assert (Pf : P f) by (apply Po; rewrite E2; apply in_or_app; right; left; reflexivity).
  induction k as [|k IH]; intros o1 [|e o2] L Eo; try discriminate; [constructor|].
  assert (I2 : Forall (fun v => comp v f = false) o2).
  { apply (IH (o1 ++ [e]) o2); [cbn in L; lia|]. rewrite <- app_assoc. exact Eo. }
  constructor; [|exact I2]. destruct (E4 e o1 o2 Eo) as (v & V1 & V2).
  assert (Pe : P e) by (apply Po; rewrite E2, Eo; apply in_or_app; left; apply in_or_app; right; left; reflexivity).
  apply in_app_or in V1 as [V1|[<-|V1]].
  - rewrite Forall_forall in I2. apply (ntrans e v f); auto. apply Po. rewrite E2, Eo. apply in_or_app. left. apply in_or_app. right. right. exact V1.
  - exact V2.
  - rewrite Forall_forall in E3. destruct (comp e f) eqn:C; [|reflexivity].
    rewrite <- V2. symmetry. apply (trans e f v); auto. apply Po. rewrite E2. apply in_or_app. right. right. exact V1.
Qed.
End Exact.

Section Congr.
Context {A : Type} (c1 c2 : A -> A -> bool) (P : A -> Prop).
Hypothesis same : forall a b, P a -> P b -> c1 a b = c2 a b.
Lemma forallb_same a r : P a -> Forall P r -> forallb (c1 a) r = forallb (c2 a) r.
Proof. intros Ha. induction 1 as [|b r Hb _ IH]; cbn; [reflexivity|]. rewrite same, IH by assumption. reflexivity. Qed.
Lemma leaders_same r : Forall P r -> leaders c1 r = leaders c2 r.
Proof. induction 1 as [|b r Hb Hr IH]; cbn; [reflexivity|]. rewrite forallb_same, IH by assumption. reflexivity. Qed.
Lemma after_same r : Forall P r -> after_extreme c1 r = after_extreme c2 r.
Proof. induction 1 as [|b r Hb Hr IH]; cbn; [reflexivity|]. rewrite forallb_same, IH by assumption. reflexivity. Qed.
Lemma window_same r h : Forall P r -> Forall P (fed h) -> window c1 r h = window c2 r h.
Proof.
  revert r. induction h as [|[v|] h IH]; intros r Hr Hf; cbn [window fed] in *; [reflexivity| |].
  - inversion Hf; subst. apply IH; [apply Forall_app; auto|assumption].
  - destruct r as [|a r]; [reflexivity|]. rewrite after_same by assumption. apply IH; [|exact Hf].
    rewrite <- after_same by assumption. apply (after_P c1 P), Hr.
Qed.
End Congr.

Lemma run_with_eq {A} (comp : A -> A -> bool) w h : wedge_run_with (wedge_update comp) w h = wedge_run comp w h.
Proof.
  revert w. induction h as [|[v|] h IH]; intros w; cbn; [reflexivity| |].
  - destruct (wedge_update comp w v); cbn; auto.
  - destruct w; auto.
Qed.

Section Inst.
Context {F : Type} `{NF : Num F} {NL : NumLaws F}.

Lemma contents_gen comp (ord : sample F -> sample F -> bool) (h : list (wop (sample F))) :
  (forall a b, nv a -> nv b -> comp a b = ord a b) ->
  (forall a b c, ord a b = true -> ord b c = true -> ord a c = true) ->
  Forall nv (fed h) ->
  wedge_run_with (wedge_update comp) [] h = match window ord [] h with None => UB | Some r => Ok (leaders ord r) end.
Proof.
  intros Hc Ht Hn. rewrite run_with_eq. change (@nil (sample F)) with (leaders comp []) at 1.
  rewrite (wedge_window comp nv) by
    first [constructor | assumption | intros a b c Pa Pb Pc; rewrite !Hc by assumption; apply Ht].
  rewrite (window_same comp ord nv Hc) by (auto; constructor).
  destruct (window ord [] h) as [r|] eqn:E; [|reflexivity].
  rewrite (leaders_same comp ord nv Hc); [reflexivity|].
  eapply (window_P ord nv); [constructor|exact Hn|exact E].
Qed.

Definition vge (a b : sample F) : bool := nleb (s_value b) (s_value a).
Definition vle (a b : sample F) : bool := nleb (s_value a) (s_value b).
Definition vgt (a b : sample F) : bool := nltb (s_value b) (s_value a).
Definition vlt (a b : sample F) : bool := nltb (s_value a) (s_value b).

Lemma C33_contents (h : list (wop (sample F))) : Forall nv (fed h) ->
  wedge_run_with (wedge_update sample_ge) [] h = match window vge [] h with None => UB | Some r => Ok (leaders vge r) end /\
  wedge_run_with (wedge_update sample_le) [] h = match window vle [] h with None => UB | Some r => Ok (leaders vle r) end /\
  wedge_run_with max_wedge_update [] h = match window vgt [] h with None => UB | Some r => Ok (leaders vgt r) end /\
  wedge_run_with min_wedge_update [] h = match window vlt [] h with None => UB | Some r => Ok (leaders vlt r) end.
Proof.
  intros Hn. split; [|split; [|split]].
  - apply contents_gen; [exact ge_comp| |exact Hn]. intros a b c. apply nleb_trans'.
  - apply contents_gen; [exact le_comp| |exact Hn]. intros a b c. apply nleb_trans.
  - apply contents_gen; [reflexivity| |exact Hn]. unfold vgt. intros a b c H1 H2. num.
  - apply contents_gen; [reflexivity| |exact Hn]. unfold vlt. intros a b c H1 H2. num.
Qed.

Lemma C33_first (r : list (sample F)) : Forall nv r -> r <> [] ->
  (exists o f n, r = o ++ f :: n /\ leaders vge r = f :: leaders vge n /\ after_extreme vge r = n /\
     Forall (fun v => nleb (s_value v) (s_value f) = true) n /\ Forall (fun v => nltb (s_value v) (s_value f) = true) o) /\
  (exists o f n, r = o ++ f :: n /\ leaders vle r = f :: leaders vle n /\ after_extreme vle r = n /\
     Forall (fun v => nleb (s_value f) (s_value v) = true) n /\ Forall (fun v => nltb (s_value f) (s_value v) = true) o) /\
  (exists o f n, r = o ++ f :: n /\ leaders vgt r = f :: leaders vgt n /\ after_extreme vgt r = n /\
     Forall (fun v => nltb (s_value v) (s_value f) = true) n /\ Forall (fun v => nleb (s_value v) (s_value f) = true) o) /\
  (exists o f n, r = o ++ f :: n /\ leaders vlt r = f :: leaders vlt n /\ after_extreme vlt r = n /\
     Forall (fun v => nltb (s_value f) (s_value v) = true) n /\ Forall (fun v => nleb (s_value f) (s_value v) = true) o).
Proof.
  intros Hr Hne.
  assert (G : forall (ord neg : sample F -> sample F -> bool),
    (forall a b c, nv a -> nv b -> nv c -> ord a b = true -> ord b c = true -> ord a c = true) ->
    (forall a b c, nv a -> nv b -> nv c -> ord a b = false -> ord b c = false -> ord a c = false) ->
    (forall a b, nv a -> nv b -> ord a b = false -> neg a b = true) ->
    exists o f n, r = o ++ f :: n /\ leaders ord r = f :: leaders ord n /\ after_extreme ord r = n /\
     Forall (fun v => ord f v = true) n /\ Forall (fun v => neg v f = true) o).
  { intros ord neg T NT N. destruct (leaders_first ord nv T NT r Hr Hne) as (o & f & n & E & E1 & E2 & F1 & F2).
    exists o, f, n. repeat split; auto. rewrite E in Hr. apply Forall_app in Hr as [Ro Rf]. inversion Rf; subst.
    rewrite Forall_forall in *. intros v Hv. apply N; auto. }
  unfold nv in *. split; [|split; [|split]]; (eapply (G _ (fun v f => _)); unfold vge, vle, vgt, vlt; intros; num).
Qed.

(** The searches on a sorted deque. *)
Lemma sorted_split (ord : sample F -> sample F -> bool) (lt : sample F -> bool) w :
  (forall a b, In a w -> In b w -> ord a b = true -> lt b = true -> lt a = true) -> StronglySorted (fun a b => ord a b = true) w ->
  exists w1 w2, w = w1 ++ w2 /\ Forall (fun a => lt a = true) w1 /\ Forall (fun a => lt a = false) w2.
Proof.
  intros T S. induction S as [|a w S IH Fa]; [exists [], []; auto|]. destruct (lt a) eqn:L.
  - destruct IH as (w1 & w2 & -> & F1 & F2); [intros x y Hx Hy; apply T; right; assumption|]. exists (a :: w1), w2. auto.
  - exists [], (a :: w). repeat split; auto. constructor; [exact L|]. rewrite Forall_forall in *. intros b Hb.
    destruct (lt b) eqn:Lb; [|reflexivity]. rewrite (T a b) in L; auto; [left; reflexivity|right; exact Hb].
Qed.
Lemma C33_search_lemma (w : list (sample F)) v : Forall nv w -> nv v ->
  (StronglySorted (fun a b => nleb (s_value a) (s_value b) = true) w -> exists w1 w2, w = w1 ++ w2 /\ min_wedge_search w v = Ok (length w1) /\
     Forall (fun a => nltb (s_value a) (s_value v) = true) w1 /\ Forall (fun a => nleb (s_value v) (s_value a) = true) w2) /\
  (StronglySorted (fun a b => nleb (s_value b) (s_value a) = true) w -> exists w1 w2, w = w1 ++ w2 /\ max_wedge_search w v = Ok (length w1) /\
     Forall (fun a => nltb (s_value v) (s_value a) = true) w1 /\ Forall (fun a => nleb (s_value a) (s_value v) = true) w2).
Proof.
  unfold nv. intros Hw Hv. rewrite Forall_forall in Hw. split; intros S.
  - destruct (sorted_split (fun a b => nleb (s_value a) (s_value b)) (fun a => nltb (s_value a) (s_value v)) w) as (w1 & w2 & -> & F1 & F2); [|exact S|].
    { intros a b _ _ H1 H2. num. }
    exists w1, w2. split; [reflexivity|]. split; [apply wedge_search_part; assumption|]. split; [exact F1|]. rewrite Forall_forall in *. intros a Ha.
    specialize (F2 a Ha). specialize (Hw a ltac:(apply in_or_app; auto)). num.
  - destruct (sorted_split (fun a b => nleb (s_value b) (s_value a)) (fun a => nltb (s_value v) (s_value a)) w) as (w1 & w2 & -> & F1 & F2); [|exact S|].
    { intros a b _ _ H1 H2. num. }
    exists w1, w2. split; [reflexivity|]. split; [apply wedge_search_part; assumption|]. split; [exact F1|]. rewrite Forall_forall in *. intros a Ha.
    specialize (F2 a Ha). specialize (Hw a ltac:(apply in_or_app; auto)). num.
Qed.
End Inst.
