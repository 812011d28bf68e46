(** C39: constants after the first operand of And and Or. *)
From Coq Require Import Sorted Reals Lra.
From Verif Require Import Base Num NumB64.
From Verif.Model Require Import Signal MonoWedge MinMax Ast Robustness.
From Verif.Spec Require Import SignalSpec Formula UntilSpec AstSpec.
From Verif.Proofs Require Import NumFacts SignalFacts Reshape MinMaxFacts MinMaxCases RobFacts RobWf UntilFacts B64Facts Size RobExamples.
Local Open Scope nat_scope.

Section T.
Variable dbg : bool.
Variable fuel : nat.
Variable tr : trace B64.
Variables b e : B64.
Hypothesis G : Forall (fun x => wf (snd x) /\ snd x <> []) tr.
Hypothesis SP : spans tr b e.
Let r := mkRob (trace_begin tr) (trace_end tr) tr.
Let gc phi z := good_compute b64_win b64_hv dbg fuel tr phi G z.

Lemma end_times (z x : signal B64) : times z = times x -> end_time z = end_time x.
Proof.
  intros E. assert (K : forall l l' : signal B64, map s_time l = map s_time l' -> option_map s_time (last_opt l) = option_map s_time (last_opt l')).
  { induction l as [|c l IH]; intros [|c' l'] H; cbn [map] in H; try discriminate; [reflexivity|]. injection H as H1 H2. apply IH in H2 as H3.
    destruct l, l'; cbn in *; try discriminate; [congruence|exact H3]. }
  apply K in E. unfold end_time. destruct (last_opt z), (last_opt x); cbn in E; congruence.
Qed.
Lemma ends_list comp l ys z : Nat.ltb (length l) 1 = false -> Forall (fun phi => forall z, compute dbg fuel r phi = Ok z -> nleb (end_time z) (trace_end tr) = true) l ->
  compute_list (compute dbg fuel r) l = Ok ys -> minmax_list dbg comp false ys = Ok z -> nleb (end_time z) (trace_end tr) = true.
Proof.
  intros N IH H1 H2. apply compute_list_inv in H1.
  assert (F2 : Forall2 (fun x m => good x /\ length x <= m) ys (map (@length _) ys)).
  { clear -H1 G gc. induction H1; constructor; auto. split; [eapply gc; eauto|lia]. }
  destruct (list_keeps comp dbg ys _ z F2 H2) as [_ K]. destruct H1 as [|phi y l ys E H1]; [discriminate|].
  destruct (K y (or_introl eq_refl)) as [[_ B] _]. inversion IH as [|? ? I1 _]; subst. specialize (I1 _ E). num.
Qed.
Lemma ends_inside phi : free_of (short 1) phi = true -> forall z, compute dbg fuel r phi = Ok z -> nleb (end_time z) (trace_end tr) = true.
Proof.
  destruct (trace_bounds tr b e G SP) as [T1 T2].
  induction phi using expr_rec; intros S z H0; cbn [compute] in H0.
  - destruct (trace_begin_num tr G) as [A B]. apply from_samples_wf in H0 as (_ & P & _); [|repeat constructor; assumption].
    rewrite (end_times z [mkSample (trace_begin tr) nzero nzero; mkSample (trace_end tr) nzero nzero]); [|rewrite times_points, P; reflexivity].
    change (nleb (trace_end tr) (trace_end tr) = true). apply nleb_true. split; [exact B|]. split; [exact B|]. lra.
  - unfold rob_pred in H0. cbn [r_trace r] in H0. destruct (trace_find tr _) as [x|] eqn:E; [|discriminate]. rewrite pred_loop_push in H0.
    apply trace_find_In in E. destruct SP as (A & _). destruct (A _ _ E) as [_ B]. pose proof (proj1 (Forall_forall _ _) G _ E) as E'. cbn in E'.
    rewrite (end_times z x); [num|]. apply from_samples_wf in H0 as (_ & P & _); [rewrite times_points, P, <- times_points; unfold times; rewrite map_map; reflexivity|].
    unfold times. rewrite map_map. apply E'.
  - apply bind_ok_inv in H0 as (x & H1 & H0). pose proof (gc _ _ H1) as Gx. apply IHphi in H1; [|exact S].
    rewrite (end_times z x); [exact H1|]. apply from_samples_wf in H0 as (_ & P & _); [rewrite times_points, P, <- times_points; unfold times; rewrite map_map; reflexivity|].
    unfold times. rewrite map_map. apply Gx.
  - apply bind_ok_inv in H0 as (ys & H1 & H0). cbn [free_of short] in S. apply andb_prop in S as [S1 S2]. apply negb_true_iff in S1.
    refine (ends_list sample_le _ ys z S1 _ H1 H0). rewrite forallb_forall in S2. rewrite Forall_forall in H |- *. intros x Hx. exact (H x Hx (S2 x Hx)).
  - apply bind_ok_inv in H0 as (ys & H1 & H0). cbn [free_of short] in S. apply andb_prop in S as [S1 S2]. apply negb_true_iff in S1.
    refine (ends_list sample_ge _ ys z S1 _ H1 H0). rewrite forallb_forall in S2. rewrite Forall_forall in H |- *. intros x Hx. exact (H x Hx (S2 x Hx)).
  - apply bind_ok_inv in H0 as (x & H1 & H0). pose proof (gc _ _ H1) as Gx. apply IHphi in H1; [|exact S].
    apply (temporal_times b64_win b64_hv) in H0; [|exact Gx]. rewrite (end_times _ _ H0). exact H1.
  - apply bind_ok_inv in H0 as (x & H1 & H0). pose proof (gc _ _ H1) as Gx. apply IHphi in H1; [|exact S].
    apply (temporal_times b64_win b64_hv) in H0; [|exact Gx]. rewrite (end_times _ _ H0). exact H1.
  - cbn [free_of short negb andb] in S. apply andb_prop in S as [S1 S2].
    apply bind_ok_inv in H0 as (x & H1 & H0). apply bind_ok_inv in H0 as (y & H2 & H0). apply rob_until_inv in H0.
    destruct (until_keeps dbg x y z (gc _ _ H1) (gc _ _ H2) H0) as (_ & [[_ B] _] & _). apply IHphi1 in H1; [|exact S1]. num.
Qed.
End T.

Lemma compute_list_app {F} `{Num F} (f : expr F -> outcome (signal F)) l1 l2 :
  compute_list f (l1 ++ l2) = (a <- compute_list f l1 ;; c <- compute_list f l2 ;; Ok (a ++ c)).
Proof.
  induction l1 as [|x l1 IH]; cbn [app compute_list bind].
  { change (compute_list f l2) with (compute_list f l2). destruct (compute_list f l2); reflexivity. }
  destruct (f x); cbn [bind]; try reflexivity. change ((fix go (l : list (expr F)) := match l with [] => Ok [] | e :: l' => y <- f e;; ys <- go l';; Ok (y :: ys) end)) with (compute_list f). rewrite IH.
  destruct (compute_list f l1); cbn [bind]; try reflexivity. destruct (compute_list f l2); reflexivity.
Qed.
Lemma minmax_list_fold {F} `{Num F} dbg comp (x : signal F) xs : minmax_list dbg comp false (x :: xs) = minmax_fold dbg comp false x xs.
Proof.
  destruct xs as [|y [|z xs]]; cbn [minmax_list minmax_fold]; try reflexivity. destruct (minmax_pair dbg comp false x y); reflexivity.
Qed.
Lemma minmax_fold_app {F} `{Num F} dbg comp (xs ys : list (signal F)) : forall x,
  minmax_fold dbg comp false x (xs ++ ys) = (a <- minmax_fold dbg comp false x xs ;; minmax_fold dbg comp false a ys).
Proof. induction xs as [|y xs IH]; intros x; cbn [app minmax_fold bind]; [reflexivity|]. destruct (minmax_pair dbg comp false x y); cbn [bind]; auto. Qed.

Lemma neutral_in dbg comp (c y : signal B64) ys1 ys2 : ys1 <> [] -> minmax_list dbg comp false ys1 = Ok y -> minmax_pair dbg comp false y c = Ok y ->
  minmax_list dbg comp false (ys1 ++ c :: ys2) = minmax_list dbg comp false (ys1 ++ ys2).
Proof.
  intros N E K. destruct ys1 as [|x xs]; [congruence|]. cbn [app]. rewrite minmax_list_fold in E. rewrite !minmax_list_fold, !minmax_fold_app, E. cbn [bind minmax_fold].
  rewrite K. reflexivity.
Qed.
Lemma C39_anywhere_lemma dbg fuel (tr : trace B64) s l l' y b e : Forall (fun x => wf (snd x) /\ snd x <> []) tr -> spans tr b e -> nltb b e = true ->
  (free_of (short 1) (EAnd l) = true -> compute_robustness dbg fuel (EAnd l) tr s = Ok y -> neqb (begin_time y) b = true ->
    compute_robustness dbg fuel (EAnd (l ++ EConst true :: l')) tr s = compute_robustness dbg fuel (EAnd (l ++ l')) tr s) /\
  (free_of (short 1) (EOr l) = true -> compute_robustness dbg fuel (EOr l) tr s = Ok y -> neqb (begin_time y) b = true ->
    compute_robustness dbg fuel (EOr (l ++ EConst false :: l')) tr s = compute_robustness dbg fuel (EOr (l ++ l')) tr s).
Proof.
  intros G SP L. destruct (trace_bounds tr b e G SP) as [T1 T2].
  assert (L' : nltb (trace_begin tr) (trace_end tr) = true) by num.
  unfold compute_robustness. split; intros S E B;
    (destruct (C43_lemma dbg fuel _ _ s _ G E) as [W N]); pose proof (ends_inside dbg fuel tr b e G SP _ S y E) as Q;
    assert (B' : neqb (begin_time y) (trace_begin tr) = true) by num;
    cbn [compute] in E |- *; rewrite !compute_list_app; apply bind_ok_inv in E as (ys & E1 & E2); rewrite E1; cbn [bind compute_list compute];
    unfold rob_const; cbn [min_time max_time].
  - destruct (const_value dbg y true _ _ W N L' B' Q) as (c & E3 & E4). cbn iota in *. rewrite E3. cbn [bind].
    change ((fix go (l0 : list (expr B64)) := match l0 with [] => Ok [] | e :: l' => y <- compute dbg fuel (mkRob (trace_begin tr) (trace_end tr) tr) e;; ys <- go l';; Ok (y :: ys) end)) with (compute_list (compute dbg fuel (mkRob (trace_begin tr) (trace_end tr) tr))).
    destruct (compute_list _ l') as [ys'| | | |]; cbn [bind]; try reflexivity.
    apply (neutral_in dbg sample_le c y); auto. intros ->. apply compute_list_inv in E1. inversion E1; subst. discriminate S.
  - destruct (const_value dbg y false _ _ W N L' B' Q) as (c & E3 & E4). cbn iota in *. rewrite E3. cbn [bind].
    change ((fix go (l0 : list (expr B64)) := match l0 with [] => Ok [] | e :: l' => y <- compute dbg fuel (mkRob (trace_begin tr) (trace_end tr) tr) e;; ys <- go l';; Ok (y :: ys) end)) with (compute_list (compute dbg fuel (mkRob (trace_begin tr) (trace_end tr) tr))).
    destruct (compute_list _ l') as [ys'| | | |]; cbn [bind]; try reflexivity.
    apply (neutral_in dbg sample_ge c y); auto. intros ->. apply compute_list_inv in E1. inversion E1; subst. discriminate S.
Qed.
Lemma C39_second_lemma dbg fuel (tr : trace B64) s phi y b e : Forall (fun x => wf (snd x) /\ snd x <> []) tr -> spans tr b e -> nltb b e = true ->
  free_of (short 1) phi = true -> compute_robustness dbg fuel phi tr s = Ok y -> neqb (begin_time y) b = true ->
  compute_robustness dbg fuel (EAnd [phi; EConst true]) tr s = Ok y /\
  compute_robustness dbg fuel (EOr [phi; EConst false]) tr s = Ok y.
Proof.
  intros G SP L S E B. eapply C39_lemma; eauto. destruct (trace_bounds tr b e G SP) as [T1 T2].
  pose proof (ends_inside dbg fuel tr b e G SP _ S y E). num.
Qed.

Lemma C39_second_case_lemma : Forall (fun e => wf (snd e) /\ snd e <> []) btr /\ spans btr (dbl 0 0) (dbl 4 0) /\ nltb (dbl 0 0) (dbl 4 0) = true /\ free_of (short 1) bphi = true /\
  exists y, compute_robustness true 0 bphi btr false = Ok y /\ neqb (begin_time y) (dbl 0 0) = true /\ 3 <= length y.
Proof.
  destruct C39_case_lemma as (A & B & C & y & D & E & _ & F). split; [exact A|]. split; [exact B|]. split; [exact C|]. split; [reflexivity|]. exists y. auto.
Qed.
Lemma C39_anywhere_case_lemma : free_of (short 1) (EAnd [bphi; EPred sx GT nzero]) = true /\ exists y,
  compute_robustness true 0 (EAnd [bphi; EPred sx GT nzero]) btr false = Ok y /\ neqb (begin_time y) (dbl 0 0) = true.
Proof.
  split; [reflexivity|].
  destruct (one_ok (compute_robustness true 0 (EAnd [bphi; EPred sx GT nzero]) btr false) (fun y => neqb (begin_time y) (dbl 0 0))) as (y & E & H); [vm_compute; reflexivity|].
  exists y. auto.
Qed.
