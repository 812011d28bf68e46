(** Structural facts about the evaluator. *)
From Coq Require Import Sorted Reals Lra.
From Verif Require Import Base Num.
From Verif.Model Require Import Signal MonoWedge MinMax Ast Robustness.
From Verif.Spec Require Import SignalSpec Formula.
From Verif.Proofs Require Import NumFacts SignalFacts LowerBound Reshape Sync SyncProps MinMaxFacts SeqFacts MinMaxCases.
Local Open Scope nat_scope.

(** Induction over formulas with lists of operands. *)
Section Ind.
Context {F : Type}.
Variable P : expr F -> Prop.
Hypothesis Hc : forall b, P (EConst b).
Hypothesis Hp : forall n o c, P (EPred n o c).
Hypothesis Hn : forall e, P e -> P (ENot e).
Hypothesis Ha : forall l, Forall P l -> P (EAnd l).
Hypothesis Ho : forall l, Forall P l -> P (EOr l).
Hypothesis Hal : forall e i, P e -> P (EAlways e i).
Hypothesis Hev : forall e i, P e -> P (EEventually e i).
Hypothesis Hu : forall a b i, P a -> P b -> P (EUntil a b i).
Fixpoint expr_rec (e : expr F) : P e :=
  match e with
  | EConst b => Hc b
  | EPred n o c => Hp n o c
  | ENot e => Hn e (expr_rec e)
  | EAnd l => Ha l ((fix go l : Forall P l := match l with [] => Forall_nil _ | e :: l' => Forall_cons _ (expr_rec e) (go l') end) l)
  | EOr l => Ho l ((fix go l : Forall P l := match l with [] => Forall_nil _ | e :: l' => Forall_cons _ (expr_rec e) (go l') end) l)
  | EAlways e i => Hal e i (expr_rec e)
  | EEventually e i => Hev e i (expr_rec e)
  | EUntil a b i => Hu a b i (expr_rec a) (expr_rec b)
  end.
End Ind.

Section G.
Context {F : Type} `{NF : Num F}.

(** ** Every computed signal is what push_back makes of its points *)
Definition canon (s : signal F) : Prop := exists pts, steps_ok pts = true /\ s = sig_of pts.

Lemma canon_nil : canon [].
Proof. exists []. split; reflexivity. Qed.

Lemma canon_push s x s' : canon s -> push_back s x = Ok s' -> canon s'.
Proof.
  intros (pts & S & ->) H. rewrite push_back_canon in H by exact S. destruct (steps_ok (pts ++ _)) eqn:E; [|discriminate].
  injection H as <-. exists (pts ++ [(s_time x, s_value x)]). auto.
Qed.
Lemma canon_from l s : from_samples l = Ok s -> canon s.
Proof. rewrite from_samples_canon. destruct (steps_ok (points l)) eqn:E; [|discriminate]. intros [= <-]. exists (points l). auto. Qed.

Lemma canon_self s : canon s -> from_samples s = Ok s.
Proof. intros (pts & S & ->). rewrite from_samples_canon, points_sig_of, S. reflexivity. Qed.

Lemma canon_pair_step out sw a b w z : canon out -> pair_step out sw a b w = Ok z -> canon z.
Proof.
  intros C H. unfold pair_step in H. apply bind_ok_inv in H as (o & H1 & H2). apply (canon_push o w); [|exact H2].
  destruct sw; [|injection H1 as <-; exact C]. destruct b as [pl|]; [|discriminate]. destruct a as [pw|]; [|discriminate].
  destruct (_ && _); [|injection H1 as <-; exact C]. eapply canon_push; eauto.
Qed.
Lemma canon_pair_loop comp : forall xs ys pi pj last out z, canon out -> pair_loop comp pi pj xs ys last out = Ok z -> canon z.
Proof.
  induction xs as [|i xs IH]; intros [|j ys] pi pj last out z C H; cbn [pair_loop] in H; try (injection H as <-; exact C).
  destruct (comp i j); apply bind_ok_inv in H as (o & H1 & H2); apply canon_pair_step in H1; eauto.
Qed.
Lemma minmax_pair_inv dbg comp sync x y z : minmax_pair dbg comp sync x y = Ok z ->
  exists x' y', (if sync then Ok (x, y) else synchronize x y) = Ok (x', y') /\ pair_loop comp None None x' y' ChNone [] = Ok z.
Proof.
  intros H. unfold minmax_pair in H. apply bind_ok_inv in H as ([x' y'] & H1 & H2). exists x', y'. split; [exact H1|].
  unfold assert_ in H2. destruct (dbg && _); [discriminate|]. cbn [bind] in H2. destruct (dbg && _); [discriminate|]. cbn [bind] in H2.
  destruct (dbg && _); [discriminate|]. exact H2.
Qed.
Lemma canon_pair dbg comp sync x y z : minmax_pair dbg comp sync x y = Ok z -> canon z.
Proof. intros H. apply minmax_pair_inv in H as (x' & y' & _ & H). eapply canon_pair_loop; [|exact H]. apply canon_nil. Qed.
Lemma canon_fold dbg comp sync xs : forall acc z, canon acc -> minmax_fold dbg comp sync acc xs = Ok z -> canon z.
Proof.
  induction xs as [|x xs IH]; intros acc z C H; cbn [minmax_fold] in H; [injection H as <-; exact C|].
  apply bind_ok_inv in H as (acc' & H1 & H2). eapply IH; [|exact H2]. eapply canon_pair; eauto.
Qed.
Lemma canon_list dbg comp sync xs z : Forall canon xs -> minmax_list dbg comp sync xs = Ok z -> canon z.
Proof.
  intros C H. destruct xs as [|x [|y xs]]; cbn [minmax_list] in H.
  - eapply canon_push; [apply canon_nil|exact H].
  - injection H as <-. inversion C; assumption.
  - destruct xs as [|w xs]; [eapply canon_pair; eauto|]. eapply canon_fold; [|exact H]. inversion C; assumption.
Qed.
Lemma canon_seq comp x z : minmax_seq comp x = Ok z -> canon z.
Proof. unfold minmax_seq. destruct (rev x); [discriminate|]. apply canon_from. Qed.
Lemma canon_simplify_loop l : forall sig z, canon sig -> simplify_loop sig l = Ok z -> canon z.
Proof.
  induction l as [|a l IH]; intros sig z C H; cbn [simplify_loop] in H; [injection H as <-; exact C|].
  destruct (match last_opt sig with None => _ | Some _ => _ end).
  - apply bind_ok_inv in H as (s' & H1 & H2). eapply IH; [|exact H2]. eapply canon_push; eauto.
  - eapply IH; eauto.
Qed.
Lemma canon_simplify s z : simplify s = Ok z -> canon z.
Proof.
  unfold simplify. intros H. apply bind_ok_inv in H as (sig & H1 & H2). pose proof (canon_simplify_loop _ _ _ canon_nil H1) as C.
  destruct (negb _); [|injection H2 as <-; exact C]. apply bind_ok_inv in H2 as (b & _ & H2). eapply canon_push; eauto.
Qed.
Lemma canon_win comp fuel x a b z : minmax_seq_win comp fuel x a b = Ok z -> canon z.
Proof.
  unfold minmax_seq_win. intros H. apply bind_ok_inv in H as (x_ & _ & H). apply bind_ok_inv in H as ([[w p] l] & _ & H).
  apply bind_ok_inv in H as (z0 & _ & H). eapply canon_simplify; eauto.
Qed.
Lemma canon_temporal fuel comp i y z : canon y -> rob_temporal fuel comp i y = Ok z -> canon z.
Proof.
  intros C H. unfold rob_temporal in H. destruct (negb (has_value i)); [eapply canon_seq; eauto|]. destruct (as_double i) as [a b].
  cbn zeta in H. destruct (nltb _ _); [discriminate|]. destruct (neqb _ _); [injection H as <-; exact C|].
  destruct (nleb _ _); [eapply canon_seq; eauto|eapply canon_win; eauto].
Qed.
Lemma until_inv dbg x y z : compute_until dbg x y = Ok z ->
  exists x' y', synchronize x y = Ok (x', y') /\ from_samples (rev (until_loop (rev x') (rev y') ninf (nopp ninf) [])) = Ok z.
Proof.
  unfold compute_until. intros H. apply bind_ok_inv in H as ([x' y'] & H1 & H2). exists x', y'. split; [exact H1|].
  unfold assert_ in H2. destruct (dbg && _); [discriminate|]. cbn [bind] in H2. destruct (dbg && _); [discriminate|]. cbn [bind] in H2.
  destruct (dbg && _); [discriminate|]. exact H2.
Qed.
Lemma rob_until_inv dbg i x y z : rob_until dbg i x y = Ok z -> compute_until dbg x y = Ok z.
Proof.
  unfold rob_until. destruct (negb _); [auto|]. destruct (as_double i) as [a b]. destruct (_ && _); [auto|discriminate].
Qed.
Lemma pred_loop_push op rhs l : forall y, pred_loop op rhs y l =
  push_all y (map (fun s => mkSample (s_time s) (pred_value op rhs (s_value s)) nzero) l).
Proof. induction l as [|s l IH]; intros y; [reflexivity|]. cbn [pred_loop map push_all]. unfold push_back_tv. destruct (push_back _ _); cbn [bind]; auto. Qed.

Lemma compute_list_inv (f : expr F -> outcome (signal F)) l ys : compute_list f l = Ok ys -> Forall2 (fun e y => f e = Ok y) l ys.
Proof.
  revert ys. induction l as [|e l IH]; intros ys H; cbn in H; [injection H as <-; constructor|].
  apply bind_ok_inv in H as (y & H1 & H2). apply bind_ok_inv in H2 as (ys' & H2 & H3). injection H3 as <-. constructor; auto.
Qed.

Lemma canon_compute dbg fuel r phi : forall z, compute dbg fuel r phi = Ok z -> canon z.
Proof.
  induction phi using expr_rec; intros z H0; cbn [compute] in H0.
  - eapply canon_from; exact H0.
  - unfold rob_pred in H0. destruct (trace_find _ _); [|discriminate]. rewrite pred_loop_push in H0. eapply canon_from; exact H0.
  - apply bind_ok_inv in H0 as (x & _ & H0). eapply canon_from; exact H0.
  - apply bind_ok_inv in H0 as (ys & H1 & H0). eapply canon_list; [|exact H0]. apply compute_list_inv in H1.
    clear -H H1. induction H1; inversion H; subst; constructor; auto.
  - apply bind_ok_inv in H0 as (ys & H1 & H0). eapply canon_list; [|exact H0]. apply compute_list_inv in H1.
    clear -H H1. induction H1; inversion H; subst; constructor; auto.
  - apply bind_ok_inv in H0 as (x & H1 & H0). eapply canon_temporal; [|exact H0]. auto.
  - apply bind_ok_inv in H0 as (x & H1 & H0). eapply canon_temporal; [|exact H0]. auto.
  - apply bind_ok_inv in H0 as (x & _ & H0). apply bind_ok_inv in H0 as (y & _ & H0). apply rob_until_inv, until_inv in H0 as (x' & y' & _ & H0).
    eapply canon_from; exact H0.
Qed.

(** ** Not *)
Definition negp (p : F * F) : F * F := (fst p, nopp (snd p)).
Lemma points_neg (s : signal F) : points (map sample_neg s) = map negp (points s).
Proof. unfold points. rewrite !map_map. reflexivity. Qed.
Lemma steps_ok_fst pts : forall qs, map fst pts = map fst qs -> steps_ok pts = steps_ok qs.
Proof.
  induction pts as [|p [|p' pts] IH]; intros [|q [|q' qs]] E; try discriminate; auto.
  injection E as E1 E2 E3. change (negb (nleb (fst p') (fst p)) && steps_ok (p' :: pts) = negb (nleb (fst q') (fst q)) && steps_ok (q' :: qs)).
  rewrite (IH (q' :: qs)), E1, E2; [reflexivity|]. cbn. rewrite E2, E3. reflexivity.
Qed.
Lemma steps_ok_neg pts : steps_ok (map negp pts) = steps_ok pts.
Proof. apply steps_ok_fst. rewrite map_map. reflexivity. Qed.
Lemma rob_not_canon pts : steps_ok pts = true -> rob_not (sig_of pts) = Ok (sig_of (map negp pts)).
Proof. intros S. unfold rob_not. rewrite from_samples_canon, points_neg, points_sig_of, steps_ok_neg, S. reflexivity. Qed.

Lemma C40_lemma dbg fuel (NN : forall v : F, nopp (nopp v) = v) phi tr s :
  compute_robustness dbg fuel (ENot (ENot phi)) tr s = compute_robustness dbg fuel phi tr s.
Proof.
  unfold compute_robustness. cbn [compute]. destruct (compute dbg fuel _ phi) as [z| | | |] eqn:E; cbn [bind]; try reflexivity.
  destruct (canon_compute _ _ _ _ _ E) as (pts & S & ->). rewrite rob_not_canon by exact S. cbn [bind].
  rewrite rob_not_canon by (rewrite steps_ok_neg; exact S). f_equal. f_equal. rewrite map_map. rewrite <- (map_id pts) at 2.
  apply map_ext. intros [t v]. unfold negp. cbn. rewrite NN. reflexivity.
Qed.

(** ** Only the named signals matter *)
Lemma trace_find_In (tr : trace F) n s : trace_find tr n = Some s -> In (n, s) tr.
Proof.
  induction tr as [|[k x] tr IH]; cbn; [discriminate|]. destruct (String.eqb_spec k n) as [->|]; [intros [= ->]; auto|auto].
Qed.
Lemma trace_find_iff (tr : trace F) n s : keys_unique tr -> (trace_find tr n = Some s <-> In (n, s) tr).
Proof.
  intros U. split; [apply trace_find_In|]. induction tr as [|[k x] tr IH]; [intros []|]. inversion U as [|? ? U1 U2]; subst.
  cbn. intros [[= -> ->]|H]; [rewrite String.eqb_refl; reflexivity|]. destruct (String.eqb_spec k n) as [->|]; [|auto].
  exfalso. apply U1. change n with (fst (n, s)). apply in_map, H.
Qed.
Lemma trace_find_none (tr : trace F) n : ~ In n (map fst tr) -> trace_find tr n = None.
Proof. intros H. destruct (trace_find tr n) eqn:E; [|reflexivity]. apply trace_find_In in E. exfalso. apply H. change n with (fst (n, s)). apply in_map, E. Qed.

Lemma compute_list_ext (f g : expr F -> outcome (signal F)) l : Forall (fun e => f e = g e) l -> compute_list f l = compute_list g l.
Proof.
  induction 1 as [|e l E _ IH]; [reflexivity|].
  change (compute_list f (e :: l)) with (y <- f e ;; ys <- compute_list f l ;; Ok (y :: ys)). rewrite E, IH. reflexivity.
Qed.

Lemma compute_names dbg fuel (r r' : rob_op F) phi : free_of is_const phi = true ->
  (forall n, In n (names phi) -> trace_find (r_trace r) n = trace_find (r_trace r') n) ->
  compute dbg fuel r phi = compute dbg fuel r' phi.
Proof.
  induction phi using expr_rec; cbn [free_of is_const negb andb names]; intros FC A; cbn [compute].
  - discriminate.
  - unfold rob_pred. rewrite (A n) by (left; reflexivity). reflexivity.
  - rewrite IHphi by assumption. reflexivity.
  - rewrite (compute_list_ext _ (compute dbg fuel r')); [reflexivity|]. rewrite forallb_forall in FC. rewrite Forall_forall in *.
    intros e He. apply H; auto. intros n Hn. apply A, in_flat_map. eauto.
  - rewrite (compute_list_ext _ (compute dbg fuel r')); [reflexivity|]. rewrite forallb_forall in FC. rewrite Forall_forall in *.
    intros e He. apply H; auto. intros n Hn. apply A, in_flat_map. eauto.
  - rewrite IHphi by assumption. reflexivity.
  - rewrite IHphi by assumption. reflexivity.
  - apply andb_prop in FC as [F1 F2]. rewrite IHphi1, IHphi2; auto; intros n Hn; apply A, in_or_app; auto.
Qed.

Lemma C41_lemma dbg fuel phi (tr tr' : trace F) s : free_of is_const phi = true -> keys_unique tr -> keys_unique tr' ->
  (forall n x, In n (names phi) -> (has_signal tr n x <-> has_signal tr' n x)) ->
  compute_robustness dbg fuel phi tr s = compute_robustness dbg fuel phi tr' s.
Proof.
  intros FC U U' A. apply compute_names; auto. cbn [r_trace]. intros n Hn.
  destruct (trace_find tr n) as [x|] eqn:E.
  - symmetry. apply trace_find_iff; auto. apply A; auto. apply trace_find_In, E.
  - destruct (trace_find tr' n) as [x|] eqn:E'; [|reflexivity]. apply trace_find_In in E'. apply (A n x Hn) in E'.
    apply (trace_find_iff tr n x U) in E'. congruence.
Qed.

(** ** A missing signal *)
Lemma compute_missing dbg fuel (r : rob_op F) n phi : trace_find (r_trace r) n = None -> In n (names phi) ->
  forall z, compute dbg fuel r phi <> Ok z.
Proof.
  intros M. induction phi using expr_rec; cbn [names]; intros Hn z E; cbn [compute] in E.
  - exact Hn.
  - destruct Hn as [-> |[]]. unfold rob_pred in E. rewrite M in E. discriminate.
  - apply bind_ok_inv in E as (x & E & _). exact (IHphi Hn x E).
  - apply bind_ok_inv in E as (ys & E & _). apply compute_list_inv in E. apply in_flat_map in Hn as (e & He & Hn).
    rewrite Forall_forall in H. clear z. induction E as [|e' y l ys E1 E2 IH]; [exact He|]. destruct He as [->|He].
    + apply (H e (or_introl eq_refl) Hn y E1).
    + apply IH; auto. intros x Hx. apply H. right. exact Hx.
  - apply bind_ok_inv in E as (ys & E & _). apply compute_list_inv in E. apply in_flat_map in Hn as (e & He & Hn).
    rewrite Forall_forall in H. clear z. induction E as [|e' y l ys E1 E2 IH]; [exact He|]. destruct He as [->|He].
    + apply (H e (or_introl eq_refl) Hn y E1).
    + apply IH; auto. intros x Hx. apply H. right. exact Hx.
  - apply bind_ok_inv in E as (x & E & _). exact (IHphi Hn x E).
  - apply bind_ok_inv in E as (x & E & _). exact (IHphi Hn x E).
  - apply bind_ok_inv in E as (x & E1 & E). apply bind_ok_inv in E as (y & E2 & _). apply in_app_or in Hn as [Hn|Hn]; [exact (IHphi1 Hn x E1)|exact (IHphi2 Hn y E2)].
Qed.

Lemma C42_lemma dbg fuel phi (tr : trace F) s n : In n (names phi) -> ~ In n (map fst tr) ->
  forall z, compute_robustness dbg fuel phi tr s <> Ok z.
Proof. intros Hn M. apply (compute_missing dbg fuel _ n); auto. apply trace_find_none, M. Qed.
Lemma C42_pred_lemma dbg fuel n op (c : F) (tr : trace F) s : ~ In n (map fst tr) ->
  compute_robustness dbg fuel (EPred n op c) tr s = Throw OutOfRange.
Proof. intros M. unfold compute_robustness. cbn [compute]. unfold rob_pred. cbn [r_trace]. rewrite trace_find_none by exact M. reflexivity. Qed.
End G.
