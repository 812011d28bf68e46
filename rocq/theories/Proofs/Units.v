(** C81-C84: other names, opposite signals, other zero points, another unit of time. *)
From Coq Require Import Sorted Reals Lra.
From Flocq Require Import Core.Raux IEEE754.BinarySingleNaN.
From Verif Require Import Base Num NumXR NumB64.
From Verif.Model Require Import Signal MonoWedge MinMax Ast Robustness.
From Verif.Spec Require Import SignalSpec Formula.
From Verif.Proofs Require Import NumFacts SignalFacts RobFacts RobWf Transport RobTransport.
Local Open Scope nat_scope.

Section G.
Context {F : Type} `{NF : Num F}.

Lemma compute_list_map (f g : expr F -> outcome (signal F)) (m : expr F -> expr F) l : Forall (fun e => g (m e) = f e) l ->
  compute_list g (map m l) = compute_list f l.
Proof.
  induction 1 as [|e l He _ IH]; [reflexivity|]. cbn [map].
  change (compute_list g (m e :: map m l)) with (y <- g (m e) ;; ys <- compute_list g (map m l) ;; Ok (y :: ys)).
  change (compute_list f (e :: l)) with (y <- f e ;; ys <- compute_list f l ;; Ok (y :: ys)). rewrite He, IH. reflexivity.
Qed.

(** Formulas are evaluated through their comparisons. *)
Lemma compute_map_pred dbg fuel (r r' : rob_op F) f phi :
  (forall b, In (EConst b) (subs phi) -> compute dbg fuel r' (EConst b) = compute dbg fuel r (EConst b)) ->
  (forall n op c, In (EPred n op c) (subs phi) -> compute dbg fuel r' (f n op c) = compute dbg fuel r (EPred n op c)) ->
  compute dbg fuel r' (map_pred f phi) = compute dbg fuel r phi.
Proof.
  induction phi using expr_rec; intros HC HP; cbn [map_pred subs] in *.
  - apply HC. left. reflexivity.
  - apply HP. left. reflexivity.
  - cbn [compute]. rewrite IHphi; [reflexivity|intros; apply HC; right; assumption|intros; apply HP; right; assumption].
  - cbn [compute]. rewrite (compute_list_map (compute dbg fuel r)); [reflexivity|]. rewrite Forall_forall in *. intros e He.
    apply H; [exact He|intros; apply HC; right; apply in_flat_map; eauto|intros; apply HP; right; apply in_flat_map; eauto].
  - cbn [compute]. rewrite (compute_list_map (compute dbg fuel r)); [reflexivity|]. rewrite Forall_forall in *. intros e He.
    apply H; [exact He|intros; apply HC; right; apply in_flat_map; eauto|intros; apply HP; right; apply in_flat_map; eauto].
  - cbn [compute]. rewrite IHphi; [reflexivity|intros; apply HC; right; assumption|intros; apply HP; right; assumption].
  - cbn [compute]. rewrite IHphi; [reflexivity|intros; apply HC; right; assumption|intros; apply HP; right; assumption].
  - cbn [compute]. rewrite IHphi1, IHphi2; [reflexivity|..]; intros; (apply HC || apply HP); right; apply in_or_app; auto.
Qed.

Lemma names_pred (phi : expr F) n op c : In (EPred n op c) (subs phi) -> In n (names phi).
Proof.
  induction phi using expr_rec; cbn [subs names]; intros [E|H0]; try discriminate; try contradiction; auto.
  - injection E as -> -> ->. left. reflexivity.
  - apply in_flat_map in H0 as (e & He & H0). apply in_flat_map. exists e. rewrite Forall_forall in H. auto.
  - apply in_flat_map in H0 as (e & He & H0). apply in_flat_map. exists e. rewrite Forall_forall in H. auto.
  - apply in_app_or in H0 as [H0|H0]; apply in_or_app; auto.
Qed.
Lemma const_free (phi : expr F) b : free_of is_const phi = true -> ~ In (EConst b) (subs phi).
Proof.
  induction phi using expr_rec; cbn [subs free_of is_const negb andb]; intros FC [E|H0]; try discriminate; try contradiction; auto.
  - exact (IHphi FC H0).
  - apply in_flat_map in H0 as (e & He & H0). rewrite forallb_forall in FC. rewrite Forall_forall in H. exact (H e He (FC e He) H0).
  - apply in_flat_map in H0 as (e & He & H0). rewrite forallb_forall in FC. rewrite Forall_forall in H. exact (H e He (FC e He) H0).
  - exact (IHphi FC H0).
  - exact (IHphi FC H0).
  - apply andb_prop in FC as [F1 F2]. apply in_app_or in H0 as [H0|H0]; [exact (IHphi1 F1 H0)|exact (IHphi2 F2 H0)].
Qed.

Lemma C81_lemma dbg fuel rho phi (tr tr' : trace F) s : free_of is_const phi = true -> keys_unique tr -> keys_unique tr' ->
  (forall n x, In n (names phi) -> (has_signal tr n x <-> has_signal tr' (rho n) x)) ->
  compute_robustness dbg fuel (renamed rho phi) tr' s = compute_robustness dbg fuel phi tr s.
Proof.
  intros FC U U' A. unfold compute_robustness. apply compute_map_pred.
  - intros b Hb. exfalso. eapply const_free; eauto.
  - intros n op c Hn. apply names_pred in Hn. cbn [compute]. unfold rob_pred. cbn [r_trace].
    assert (E : trace_find tr' (rho n) = trace_find tr n); [|rewrite E; reflexivity].
    destruct (trace_find tr n) as [x|] eqn:E.
    + apply trace_find_iff; [exact U'|]. apply A; [exact Hn|]. apply trace_find_iff in E; assumption.
    + destruct (trace_find tr' (rho n)) as [y|] eqn:E'; [|reflexivity]. apply trace_find_iff in E'; [|exact U']. apply A in E'; [|exact Hn].
      apply trace_find_iff in E'; [|exact U]. congruence.
Qed.

Lemma named_find g (tr : trace F) n : trace_find (map_named g tr) n = option_map (g n) (trace_find tr n).
Proof. induction tr as [|[k s] tr IH]; [reflexivity|]. cbn. destruct (String.eqb_spec k n) as [->|]; [reflexivity|exact IH]. Qed.

(** Same times, and predicates with the same values. *)
Lemma same_predicates dbg fuel g f phi (tr : trace F) s :
  (forall n x, times (g n x) = times x) ->
  (forall n op c, exists op' c', f n op c = EPred n op' c' /\
     forall x, map (fun a => pred_value op' c' (s_value a)) (g n x) = map (fun a => pred_value op c (s_value a)) x) ->
  compute_robustness dbg fuel (map_pred f phi) (map_named g tr) s = compute_robustness dbg fuel phi tr s.
Proof.
  intros T P. unfold compute_robustness.
  assert (Eb : trace_begin (map_named g tr) = trace_begin tr).
  { unfold trace_begin. generalize ninf. induction tr as [|[n x] tr IH]; intros u; [reflexivity|]. cbn [map_named map fold_left fst snd].
    fold (map_named g tr). rewrite IH. f_equal. f_equal. specialize (T n x). destruct (g n x), x; try discriminate; [reflexivity|]. injection T as E _. exact E. }
  assert (Ee : trace_end (map_named g tr) = trace_end tr).
  { unfold trace_end. generalize (nopp ninf). clear Eb. induction tr as [|[n x] tr IH]; intros u; [reflexivity|]. cbn [map_named map fold_left fst snd].
    fold (map_named g tr). rewrite IH. f_equal. f_equal. specialize (T n x). unfold end_time.
    assert (E : option_map s_time (last_opt (g n x)) = option_map s_time (last_opt x)).
    { rewrite <- !last_opt_map. unfold times in T. rewrite T. reflexivity. }
    destruct (last_opt (g n x)), (last_opt x); try discriminate; [injection E as E; exact E|reflexivity]. }
  rewrite Eb, Ee. apply compute_map_pred; [reflexivity|]. intros n op c _. destruct (P n op c) as (op' & c' & -> & E).
  cbn [compute]. unfold rob_pred. cbn [r_trace]. rewrite named_find. destruct (trace_find tr n) as [x|]; [|reflexivity]. cbn [option_map].
  rewrite !pred_loop_push. f_equal. specialize (E x). specialize (T n x). revert T E. generalize (g n x). intros y. revert x.
  induction y as [|b y IH]; intros [|a x] T E; try discriminate; [reflexivity|]. cbn [map times] in *.
  injection T as T1 T2. injection E as E1 E2. rewrite T1, E1. f_equal. apply IH; assumption.
Qed.
End G.

(** ** C82 *)
Lemma b64_mirror (x c : B64) : nsub (nopp c) (nopp x) = nsub x c.
Proof.
  unfold nsub, nopp, Num_B64.
  destruct c as [[]|[]| |[] mc ec Hc], x as [[]|[]| |[] mx ex Hx]; try reflexivity; cbn [Bopp Bminus negb];
    rewrite Z.min_comm; f_equal; unfold Operations.Fplus, Fplus_naive; apply Z.add_comm.
Qed.
Lemma C82_lemma dbg fuel m phi (tr : trace B64) s :
  compute_robustness dbg fuel (mirrored m phi) (map_named (fun n x => if m n then opposite x else x) tr) s = compute_robustness dbg fuel phi tr s.
Proof.
  unfold mirrored. apply same_predicates.
  - intros n x. destruct (m n); [|reflexivity]. unfold times, opposite. rewrite map_map. reflexivity.
  - intros n op c. destruct (m n); [|eexists _, _; split; reflexivity]. eexists _, _. split; [reflexivity|]. intros x.
    unfold opposite. rewrite map_map. apply map_ext. intros a. cbn [s_value]. destruct op; cbn [pred_value]; apply b64_mirror.
Qed.

(** ** C83 *)
Lemma C83_lemma dbg fuel (k : string -> R) phi (tr : trace XR) s :
  compute_robustness dbg fuel (rebased (fun n => Fin (k n)) phi) (map_named (fun n => raised (Fin (k n))) tr) s = compute_robustness dbg fuel phi tr s.
Proof.
  unfold rebased. apply same_predicates.
  - intros n x. unfold times, raised. rewrite map_map. reflexivity.
  - intros n op c. eexists _, _. split; [reflexivity|]. intros x. unfold raised. rewrite map_map. apply map_ext. intros a. cbn [s_value].
    destruct op; cbn [pred_value]; apply xadd_sub.
Qed.

(** ** C84 *)
Section Slow.
Variable c : R.
Hypothesis Hc : (0 < c)%R.
Local Notation S a := (xmul a (Fin c)).
Local Notation D a := (xdiv a (Fin c)).
Lemma slow_num a : xnum (S a) = xnum a.
Proof. destruct a; cbn; unfold xinf_sign; xcases; try reflexivity; exfalso; lra. Qed.
Lemma slow_mul d t : xmul (D d) (S t) = xmul d t.
Proof.
  pose proof (Rinv_0_lt_compat c Hc) as Hi.
  destruct d as [| |x|], t as [| |y|]; cbn; unfold xinf_sign; xcases; cbn; unfold xinf_sign; xcases; try reflexivity; try (exfalso; unfold Rdiv in *; nra);
    try (f_equal; field; lra).
Qed.
Lemma slow_div w u : xdiv w (S u) = D (xdiv w u).
Proof.
  destruct w as [| |x|], u as [| |y|]; cbn; unfold xinf_sign; xcases; cbn; unfold xinf_sign; xcases; try reflexivity; try (exfalso; nra);
    try (f_equal; field; lra).
Qed.
Lemma slow_dsub a b : xsub (D a) (D b) = D (xsub a b).
Proof.
  destruct a as [| |x|], b as [| |y|]; unfold xsub; cbn; unfold xinf_sign; xcases; cbn; unfold xinf_sign; xcases; try reflexivity; try (exfalso; nra);
    try (f_equal; field; lra).
Qed.
Lemma slow_ddiv w u : xdiv w (D u) = S (xdiv w u).
Proof.
  pose proof (Rinv_0_lt_compat c Hc) as Hi.
  destruct w as [| |x|], u as [| |y|]; cbn; unfold xinf_sign; xcases; cbn; unfold xinf_sign; xcases; try reflexivity; try (exfalso; unfold Rdiv in *; nra);
    try (f_equal; field; lra).
  all: try (f_equal; field; split; lra). all: f_equal; lra.
Qed.
End Slow.

Lemma C84_lemma dbg fuel phi (tr : trace XR) s c : Forall (fun e => wf (snd e) /\ snd e <> []) tr -> (0 < c)%R ->
  compute_robustness dbg fuel phi (map_trace (slower (Fin c)) tr) s = omap (slower (Fin c)) (compute_robustness dbg fuel phi tr s).
Proof.
  intros G Hc. unfold compute_robustness. rewrite <- (map_const_id phi) at 1.
  apply (T_compute (fun t => xmul t (Fin c)) (fun v => v) (fun d => xdiv d (Fin c))); auto.
  - intros. apply scale_lt, Hc.
  - apply slow_num, Hc.
  - cbn. rewrite Req_bool_false by lra. f_equal. field. lra.
  - intros a b. rewrite scale_sub by exact Hc. unfold xle. rewrite slow_num by exact Hc. destruct (xsub a b); cbn; unfold xinf_sign; xcases; reflexivity.
  - intros a b v w. rewrite scale_sub by exact Hc. apply slow_div, Hc.
  - intros p t. unfold interpolate, tr_sample. cbn [s_time s_value s_deriv]. change nmul with xmul. change nadd with xadd. change nsub with xsub.
    rewrite scale_sub, slow_mul by exact Hc. reflexivity.
  - apply scale_inf, Hc.
  - cbn. unfold xinf_sign. xcases; try reflexivity; exfalso; lra.
  - intros d. change (xopp d) with (xopp d). symmetry. apply opp_div.
  - intros a b. unfold tint_eq, time_intersect, tr_sample. cbn [s_time s_value s_deriv]. change ndiv with xdiv. change nsub with xsub. change nadd with xadd. change nmul with xmul.
    rewrite !slow_mul, slow_dsub, slow_ddiv by exact Hc. reflexivity.
  - left. cbn. f_equal. ring.
Qed.
