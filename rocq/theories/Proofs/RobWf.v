(** C34, C43, C47 (binary64 part) and C48. *)
From Coq Require Import Sorted Reals Lra.
From Flocq Require Import IEEE754.BinarySingleNaN.
From Verif Require Import Base Num NumXR NumB64.
From Verif.Model Require Import Signal MonoWedge MinMax Ast Robustness.
From Verif.Spec Require Import SignalSpec Formula.
From Verif.Proofs Require Import NumFacts SignalFacts LowerBound Reshape Sync SyncProps MinMaxFacts SeqFacts B64Facts WinFacts MinMaxCases RobFacts.
Local Open Scope nat_scope.

Section G.
Context {F : Type} `{NF : Num F} {NL : NumLaws F}.

Definition good (s : signal F) : Prop := wf s /\ s <> [].

Lemma wf_from l s : all_num (times l) -> l <> [] -> from_samples l = Ok s -> good s.
Proof.
  intros N Hne H. destruct (from_samples_wf l s N H) as (W & P & _). split; [exact W|]. intros ->.
  destruct l; [congruence|discriminate].
Qed.

Lemma good_seq comp x z : good x -> minmax_seq comp x = Ok z -> good z.
Proof.
  intros [W Hne] H. rewrite minmax_seq_roll in H by assumption. injection H as <-. split.
  - apply wf_canon. exists (rollp comp x). split; [apply rollp_wfp, W|reflexivity].
  - destruct x; [congruence|discriminate].
Qed.
Lemma seq_total comp x : good x -> exists z, minmax_seq comp x = Ok z /\ good z.
Proof. intros G. pose proof G as [W Hne]. pose proof (minmax_seq_roll comp x W Hne) as E. exists (sig_of (rollp comp x)). split; [exact E|]. eapply good_seq; eauto. Qed.

Lemma good_pair dbg comp x y z : good x -> good y -> minmax_pair dbg comp false x y = Ok z -> good z.
Proof.
  intros [Wx Nx] [Wy Ny] H. apply minmax_pair_inv in H as (x' & y' & S & H).
  destruct (sync_out _ _ _ _ Wx Wy S) as (W1 & W2 & N1 & N2 & T).
  destruct (pair_loop_inv comp x' y' None None ChNone [] z) as (pts & -> & W & P); auto.
  { split; constructor. } { apply W1. } { apply W2. }
  cbn [app] in *. split; [apply wf_canon; eauto|]. intros E.
  destruct T as [|a b x'' y'' _ _]; [congruence|]. specialize (P a b (or_introl eq_refl)).
  destruct pts; [destruct P|discriminate].
Qed.
Lemma good_fold dbg comp xs : Forall good xs -> forall acc z, good acc -> minmax_fold dbg comp false acc xs = Ok z -> good z.
Proof.
  induction 1 as [|x xs Gx _ IH]; intros acc z C H; cbn [minmax_fold] in H; [injection H as <-; exact C|].
  apply bind_ok_inv in H as (acc' & H1 & H2). eapply IH; [|exact H2]. eapply (good_pair dbg comp acc x); eauto.
Qed.
Lemma good_list dbg comp xs z : Forall good xs -> minmax_list dbg comp false xs = Ok z -> good z.
Proof.
  intros C H. destruct xs as [|x [|y xs]]; cbn [minmax_list] in H.
  - unfold push_back_tv in H. rewrite push_back_nil in H. injection H as <-. split; [|discriminate].
    apply wf_canon. exists [(nzero, nopp ninf)]. split; [|reflexivity]. split; cbn; [repeat constructor; apply isnum_zero|repeat constructor].
  - injection H as <-. inversion C; assumption.
  - inversion C as [|? ? G1 C']; subst. inversion C' as [|? ? G2 C'']; subst.
    destruct xs as [|w xs]; [eapply (good_pair dbg comp x y); eauto|]. eapply good_fold; [exact C'|exact G1|exact H].
Qed.

Lemma until_loop_times : forall xs ys p m st, length xs = length ys ->
  times (until_loop xs ys p m st) = times st ++ times xs.
Proof.
  induction xs as [|i xs IH]; intros [|j ys] p m st L; try discriminate; cbn [until_loop].
  - rewrite app_nil_r. reflexivity.
  - rewrite IH by (cbn in L; lia). unfold times. rewrite map_app, <- app_assoc. reflexivity.
Qed.
Lemma times_rev (x : list (sample F)) : times (rev x) = rev (times x).
Proof. apply map_rev. Qed.
Lemma good_until dbg x y z : good x -> good y -> compute_until dbg x y = Ok z -> good z.
Proof.
  intros [Wx Nx] [Wy Ny] H. apply until_inv in H as (x' & y' & S & H).
  destruct (sync_out _ _ _ _ Wx Wy S) as (W1 & W2 & N1 & N2 & T). pose proof (same_length _ _ T) as L.
  assert (E : times (rev (until_loop (rev x') (rev y') ninf (nopp ninf) [])) = times x').
  { rewrite times_rev, until_loop_times by (rewrite !rev_length; exact L). cbn [times map app]. rewrite times_rev. apply rev_involutive. }
  eapply wf_from; [| |exact H].
  - rewrite E. apply W1.
  - intros Q. rewrite Q in E. destruct x'; [congruence|discriminate].
Qed.

(** The window of [0,inf) is only entered for a NaN duration and then never returns. *)
Hypothesis WIN : forall comp fuel a b (y : signal F), neqb a nzero = true -> wf y -> forall z, minmax_seq_win comp fuel y a b <> Ok z.
Hypothesis HV : forall i : interval F, has_value i = true -> neqb (fst (as_double i)) nzero = true.

Lemma good_temporal fuel comp i y z : good y -> rob_temporal fuel comp i y = Ok z -> good z.
Proof.
  intros C H. unfold rob_temporal in H. destruct (has_value i) eqn:V; cbn [negb] in H; [|eapply good_seq; eauto].
  apply HV in V. destruct (as_double i) as [a b]. cbn [fst] in V.
  cbn zeta in H. destruct (nltb _ _); [discriminate|]. destruct (neqb (nsub b a) _); [injection H as <-; exact C|].
  destruct (nleb _ _); [eapply good_seq; eauto|]. exfalso. eapply WIN; [exact V|apply C|exact H].
Qed.

Lemma std_min_num (a b : F) : isnum a = true -> isnum b = true -> isnum (std_min a b) = true.
Proof. intros A B. unfold std_min. destruct (nltb b a); assumption. Qed.
Lemma std_max_num (a b : F) : isnum a = true -> isnum b = true -> isnum (std_max a b) = true.
Proof. intros A B. unfold std_max. destruct (nltb a b); assumption. Qed.
Lemma good_begin (s : signal F) : good s -> isnum (begin_time s) = true /\ isnum (end_time s) = true.
Proof.
  intros [(N & _) Hne]. split.
  - destruct s; [congruence|]. inversion N; assumption.
  - unfold end_time. destruct (last_opt s) eqn:E; [|apply last_opt_none in E; congruence]. apply last_opt_In in E.
    unfold all_num in N. rewrite Forall_forall in N. apply N, in_map, E.
Qed.
Lemma trace_begin_num (tr : trace F) : Forall (fun e => good (snd e)) tr -> isnum (trace_begin tr) = true /\ isnum (trace_end tr) = true.
Proof.
  intros G. unfold trace_begin, trace_end.
  assert (K : forall u v : F, isnum u = true -> isnum v = true ->
    isnum (fold_left (fun b e => std_min b (begin_time (snd e))) tr u) = true /\
    isnum (fold_left (fun b e => std_max b (end_time (snd e))) tr v) = true).
  { induction G as [|e tr Gs _ IH]; intros u v A B; cbn [fold_left]; [auto|].
    destruct (good_begin (snd e) Gs). apply IH; [apply std_min_num|apply std_max_num]; assumption. }
  apply K; [apply isnum_inf|rewrite isnum_opp; apply isnum_inf].
Qed.

Lemma good_compute dbg fuel (tr : trace F) phi : Forall (fun e => good (snd e)) tr ->
  forall z, compute dbg fuel (mkRob (trace_begin tr) (trace_end tr) tr) phi = Ok z -> good z.
Proof.
  intros G. induction phi using expr_rec; intros z H0; cbn [compute] in H0.
  - eapply wf_from; [| |exact H0]; [|discriminate]. destruct (trace_begin_num tr G) as [A B]. repeat constructor; assumption.
  - unfold rob_pred in H0. cbn [r_trace] in H0. destruct (trace_find tr _) as [x|] eqn:E; [|discriminate]. rewrite pred_loop_push in H0.
    apply trace_find_In in E. rewrite Forall_forall in G. apply G in E. cbn in E. eapply wf_from; [| |exact H0].
    + unfold times. rewrite map_map. apply E.
    + destruct E as [_ E]. destruct x; [congruence|discriminate].
  - apply bind_ok_inv in H0 as (x & H1 & H0). apply IHphi in H1. eapply wf_from; [| |exact H0].
    + unfold times. rewrite map_map. apply H1.
    + destruct H1 as [_ E]. destruct x; [congruence|discriminate].
  - apply bind_ok_inv in H0 as (ys & H1 & H0). eapply good_list; [|exact H0]. apply compute_list_inv in H1.
    clear -H H1. induction H1; inversion H; subst; constructor; auto.
  - apply bind_ok_inv in H0 as (ys & H1 & H0). eapply good_list; [|exact H0]. apply compute_list_inv in H1.
    clear -H H1. induction H1; inversion H; subst; constructor; auto.
  - apply bind_ok_inv in H0 as (x & H1 & H0). eapply good_temporal; [|exact H0]. auto.
  - apply bind_ok_inv in H0 as (x & H1 & H0). eapply good_temporal; [|exact H0]. auto.
  - apply bind_ok_inv in H0 as (x & H1 & H0). apply bind_ok_inv in H0 as (y & H2 & H0). apply rob_until_inv in H0.
    eapply good_until; [| |exact H0]; auto.
Qed.
End G.

(** ** The window never returns for a zero lower bound *)
Section Win.
Context {F : Type} `{NF : Num F} {NL : NumLaws F}.
Lemma win_stream_more comp a : forall fuel w p l z r k, win_stream comp fuel a w p l z = Ok r ->
  win_stream (F := F) comp (fuel + k) a w p l z = Ok r.
Proof.
  induction fuel as [|fuel IH]; intros w p l z r k H; [discriminate|]. cbn [Nat.add win_stream] in *.
  destruct l as [|i0 l0]; [exact H|]. destruct w as [|f w]; [discriminate|].
  destruct (if nltb (s_time f) (nsub (s_time i0) a) then _ else _) as [[i l1]| | | |]; try discriminate. cbn [bind] in *.
  destruct (wedge_update comp (f :: w) i) as [w1| | | |]; try discriminate. cbn [bind] in *.
  destruct (win_pop (nsub (s_time i) a) w1) as [w2| | | |]; try discriminate. cbn [bind] in *.
  destruct (push_back_tv z (s_time i) (s_value i)) as [z'| | | |]; try discriminate. cbn [bind] in *. apply IH, H.
Qed.
Lemma win_zero_never comp a b fuel (y : signal F) :
  (forall x, isnum x = true -> neqb (nadd x a) x = true) -> (forall x, isnum x = true -> neqb (nsub x a) x = true) ->
  neqb a nzero = true -> wf y -> forall z, minmax_seq_win comp fuel y a b <> Ok z.
Proof.
  intros A SB Z (N & I & _) z H.
  pose proof (win_zero_ub comp a A SB (fuel + S (length y)) y b Z N I ltac:(lia)) as U.
  unfold minmax_seq_win in H, U. rewrite Z in H, U. cbn [bind] in H, U.
  destruct (win_fill comp _ [] None y) as [[[w p] l]| | | |]; try discriminate. cbn [bind] in H, U.
  apply bind_ok_inv in H as (z0 & H1 & H2). rewrite (win_stream_more _ _ _ _ _ _ _ _ (S (length y)) H1) in U. cbn [bind] in U. congruence.
Qed.
End Win.

Lemma b64_win comp fuel (a b : B64) y : neqb a nzero = true -> wf y -> forall z, minmax_seq_win comp fuel y a b <> Ok z.
Proof.
  intros Z. destruct (b64_zero_inv _ Z) as (s & ->). apply win_zero_never; auto using b64_add_zero, b64_sub_zero.
Qed.
Lemma b64_hv (i : interval B64) : has_value i = true -> neqb (fst (as_double i)) nzero = true.
Proof.
  unfold has_value, is_zero_to_inf, as_double. intros H. apply andb_prop in H as [H _]. cbn [fst]. destruct (low i) as [k|d]; cbn [inum_double]; [|exact H].
  apply N.eqb_eq in H as ->. vm_compute. reflexivity.
Qed.

Lemma C43_lemma dbg fuel phi (tr : trace B64) s z : Forall (fun e => wf (snd e) /\ snd e <> []) tr ->
  compute_robustness dbg fuel phi tr s = Ok z -> wf z /\ z <> [].
Proof. intros G. apply (good_compute b64_win b64_hv dbg fuel tr phi G). Qed.

(** ** C34 *)
Lemma nth_error_sig_of {F} `{Num F} (pts : list (F * F)) k p : nth_error pts k = Some p ->
  exists c, nth_error (sig_of pts) k = Some c /\ s_time c = fst p /\ s_value c = snd p.
Proof.
  revert k. induction pts as [|q pts IH]; intros [|k] E; try discriminate; cbn [nth_error sig_of] in *.
  - injection E as <-. eexists. split; [reflexivity|]. split; reflexivity.
  - apply IH, E.
Qed.

Lemma pred_compute {F} `{NF : Num F} {NL : NumLaws F} dbg fuel (tr : trace F) s n op c (x : signal F) : keys_unique tr -> has_signal tr n x -> wf x ->
  compute_robustness dbg fuel (EPred n op c) tr s = Ok (sig_of (map (fun a => (s_time a, pred_value op c (s_value a))) x)).
Proof.
  intros U Hn W. unfold compute_robustness. cbn [compute]. unfold rob_pred. cbn [r_trace].
  apply (trace_find_iff tr n x U) in Hn. rewrite Hn. rewrite pred_loop_push.
  set (l := map _ x). assert (Ht : times l = times x) by (unfold l, times; rewrite map_map; reflexivity).
  change (push_all [] l) with (from_samples l). rewrite (from_samples_ok l) by (rewrite Ht; apply W). f_equal. f_equal. unfold points, l. rewrite map_map. reflexivity.
Qed.

Lemma pred_sign op (v c : B64) : finite v = true -> finite c = true ->
  isnum (pred_value op c v) = true /\
  nltb nzero (pred_value op c v) = match op with GT | GE => nltb c v | LT | LE => nltb v c end /\
  nltb (pred_value op c v) nzero = match op with GT | GE => nltb v c | LT | LE => nltb c v end.
Proof.
  intros Fv Fc. destruct (sub_sign v c Fv Fc) as (A & B & C). destruct (sub_sign c v Fc Fv) as (A' & B' & C').
  destruct op; cbn [pred_value]; auto.
Qed.

Lemma C34_lemma dbg fuel (tr : trace B64) s n op c x : keys_unique tr -> has_signal tr n x -> wf x ->
  Forall (fun a => finite (s_value a) = true) x -> finite c = true ->
  exists z, compute_robustness dbg fuel (EPred n op c) tr s = Ok z /\ times z = times x /\
    forall k a, nth_error x k = Some a -> exists b, nth_error z k = Some b /\
      nltb nzero (s_value b) = match op with GT | GE => nltb c (s_value a) | LT | LE => nltb (s_value a) c end /\
      nltb (s_value b) nzero = match op with GT | GE => nltb (s_value a) c | LT | LE => nltb c (s_value a) end.
Proof.
  intros U Hn W Fx Fc. eexists. split; [apply pred_compute; eassumption|]. split.
  - rewrite times_sig_of, map_map. reflexivity.
  - intros k a Ha. destruct (nth_error_sig_of (map (fun a => (s_time a, pred_value op c (s_value a))) x) k (s_time a, pred_value op c (s_value a))) as (b & Hb & _ & Hv).
    { erewrite map_nth_error; [reflexivity|exact Ha]. }
    exists b. split; [exact Hb|]. rewrite Hv. cbn [snd]. rewrite Forall_forall in Fx. apply pred_sign; auto. apply Fx. eapply nth_error_In; eauto.
Qed.

(** ** C47 (binary64) and C48 *)
Lemma made_b64 (i : interval B64) : made_interval i -> has_value i = true ->
  nsub (snd (as_double i)) (fst (as_double i)) = ninf.
Proof.
  intros M V. pose proof (b64_hv i V) as Z. unfold has_value, is_zero_to_inf in V. apply andb_prop in V as [_ V].
  destruct (as_double i) as [a b] eqn:E. cbn [fst snd] in *. assert (Eb : b = inum_double (high i)) by (injection E; auto). rewrite <- Eb in V.
  destruct b as [|sb| |]; try discriminate V. destruct (b64_zero_inv _ Z) as (sa & ->).
  destruct sb; [exfalso|destruct sa; reflexivity].
  destruct M as [-> |[(k & m & ->)|(x & y & H)]].
  - discriminate Eb.
  - cbn [high inum_double interval_ull] in Eb. change (nofZ (Z.of_N m)) with (dbl (Z.of_N m) 0) in Eb.
    pose proof (binary_normalize_correct 53 1024 b64_prec_gt_0 b64_prec_lt_emax mode_NE (Z.of_N m) 0 false) as K.
    assert (P : (0 <= Defs.F2R (Defs.Float Zaux.radix2 (Z.of_N m) 0))%R) by (apply Float_prop.F2R_ge_0; cbn; lia).
    cbv zeta in K. unfold dbl in Eb. rewrite <- Eb in K. revert K. case Raux.Rlt_bool.
    + intros (_ & K & _). discriminate.
    + cbn. intros K. injection K as K. symmetry in K. revert K.
      case Raux.Rlt_bool_spec; [intros Q _; cbn in P; lra|discriminate].
  - unfold interval_dbl in H. destruct (nltb x nzero || nltb y nzero) eqn:Q; [discriminate|]. apply orb_false_elim in Q as [_ Q].
    destruct (nleb y x); [discriminate|]. injection H as <-. cbn [high inum_double] in Eb. subst y. discriminate Q.
Qed.

Definition ftime (s : signal B64) : Prop := Forall (fun a => finite (s_time a) = true) s.

Lemma temporal_seq fuel comp i (y : signal B64) : good y -> ftime y -> made_interval i ->
  rob_temporal fuel comp i y = minmax_seq comp y.
Proof.
  intros [W Hne] FT M. unfold rob_temporal. destruct (has_value i) eqn:V; cbn [negb]; [|reflexivity].
  pose proof (made_b64 i M V) as E. destruct (as_double i) as [a b]. cbn [fst snd] in E. rewrite E. cbn zeta.
  assert (nltb (ninf : B64) nzero = false) as -> by reflexivity. assert (neqb (ninf : B64) nzero = false) as -> by reflexivity.
  assert (nleb (nsub (end_time y) (begin_time y)) ninf = true) as ->; [|reflexivity].
  assert (Fb : finite (begin_time y) = true /\ finite (end_time y) = true).
  { unfold ftime in FT. rewrite Forall_forall in FT. split.
    - destruct y; [congruence|]. apply FT. left. reflexivity.
    - unfold end_time. destruct (last_opt y) eqn:L; [|apply last_opt_none in L; congruence]. apply FT, last_opt_In, L. }
  destruct (sub_rk _ _ (proj2 Fb) (proj1 Fb)) as [N _]. apply nleb_true. split; [exact N|]. split; [apply isnum_inf|]. apply rk_inf, N.
Qed.

Definition unary (phi : expr B64) : Prop :=
  free_of is_const phi = true /\ free_of is_andor phi = true /\ free_of is_until phi = true.
Definition bad_const (e : expr B64) : bool := match e with EPred _ _ c => negb (finite c) | _ => false end.

Lemma split_eq {A} (x1 x1' : list A) a a' x2 x2' : x1 ++ a :: x2 = x1' ++ a' :: x2' -> length x1 = length x1' ->
  x1 = x1' /\ a = a' /\ x2 = x2'.
Proof.
  revert x1'. induction x1 as [|b x1 IH]; intros [|b' x1'] E L; try discriminate; cbn in *.
  - injection E as -> ->. auto.
  - injection E as -> E. destruct (IH x1' E ltac:(lia)) as (-> & -> & ->). auto.
Qed.

Lemma discrete dbg fuel (r : rob_op B64) phi : unary phi -> free_of bad_const phi = true -> intervals_made phi ->
  (forall n, In n (names phi) -> exists x, trace_find (r_trace r) n = Some x) ->
  (forall n x, trace_find (r_trace r) n = Some x -> good x /\ ftime x /\ Forall (fun a => finite (s_value a) = true) x) ->
  exists n x z, names phi = [n] /\ trace_find (r_trace r) n = Some x /\ compute dbg fuel r phi = Ok z /\
    good z /\ times z = times x /\ all_num (values z) /\
    forall x1 a x2 z1 c z2, x = x1 ++ a :: x2 -> z = z1 ++ c :: z2 -> length x1 = length z1 ->
      (nltb nzero (s_value c) = true -> sampled_sat phi (a :: x2)) /\
      (nltb (s_value c) nzero = true -> ~ sampled_sat phi (a :: x2)).
Proof.
  intros (U1 & U2 & U3) BC IM HN HT. induction phi using expr_rec; cbn [free_of is_const is_andor is_until bad_const negb andb] in U1, U2, U3, BC; try discriminate.
  - destruct (HN n (or_introl eq_refl)) as (x & E). destruct (HT n x E) as ([W Hne] & FT & FV). rewrite andb_true_r, negb_involutive in BC.
    exists n, x. set (pts := map (fun a => (s_time a, pred_value o c (s_value a))) x). exists (sig_of pts).
    assert (Et : times (sig_of pts) = times x) by (rewrite times_sig_of; unfold pts; rewrite map_map; reflexivity).
    assert (Wp : wf (sig_of pts)).
    { apply wf_canon. exists pts. split; [|reflexivity]. unfold wfp. rewrite <- times_sig_of, Et. destruct W as (? & ? & _). auto. }
    split; [reflexivity|]. split; [exact E|]. split.
    { cbn [compute]. unfold rob_pred. rewrite E, pred_loop_push. set (l := map _ x). assert (Ht : times l = times x) by (unfold l, times; rewrite map_map; reflexivity).
      change (push_all [] l) with (from_samples l). rewrite (from_samples_ok l) by (rewrite Ht; apply W). f_equal. f_equal. unfold points, l, pts. rewrite map_map. reflexivity. }
    split. { split; [exact Wp|]. destruct x; [congruence|discriminate]. } split; [exact Et|].
    rewrite Forall_forall in FV. split.
    { rewrite values_sig_of. unfold pts. rewrite map_map. cbn [snd]. apply Forall_forall. intros v Hv. apply in_map_iff in Hv as (a & <- & Ha). apply pred_sign; auto. }
    intros x1 a x2 z1 c0 z2 Ex Ez L.
    assert (K : nth_error (sig_of pts) (length x1) = Some c0) by (rewrite Ez, L, nth_error_app2, Nat.sub_diag by lia; reflexivity).
    assert (K' : nth_error pts (length x1) = Some (s_time a, pred_value o c (s_value a))).
    { unfold pts. rewrite Ex. erewrite map_nth_error; [reflexivity|]. rewrite nth_error_app2, Nat.sub_diag by lia. reflexivity. }
    destruct (nth_error_sig_of _ _ _ K') as (b & Hb & _ & Hv). rewrite K in Hb. injection Hb as <-. rewrite Hv. cbn [snd].
    assert (Ha : In a x) by (rewrite Ex; apply in_or_app; right; left; reflexivity).
    destruct (pred_sign o (s_value a) c (FV a Ha) BC) as (Nv & P & Q). rewrite P, Q. clear -Nv. cbn [sampled_sat].
    destruct o; cbn [cmp_holds]; split; intros H; try intros H'; num.
  - destruct IHphi as (n & x & z & E1 & E2 & E3 & G & Et & Nv & D); auto.
    { intros e He. apply (IM e). right. exact He. }
    exists n, x. destruct G as [Wz Nz]. pose proof (proj1 (wf_canon z) Wz) as (pts & Wp & ->).
    exists (sig_of (map negp pts)). split; [exact E1|]. split; [exact E2|].
    split. { cbn [compute]. rewrite E3. cbn [bind]. apply rob_not_canon, wfp_steps, Wp. }
    assert (Ef : map fst (map negp pts) = map fst pts) by (rewrite map_map; reflexivity).
    split. { split; [apply wf_canon; exists (map negp pts); split; [|reflexivity]; unfold wfp; rewrite Ef; exact Wp|]. destruct pts; [exact Nz|discriminate]. }
    rewrite times_sig_of in *. rewrite Ef. split; [exact Et|]. rewrite values_sig_of in *. split.
    { rewrite map_map. cbn [negp snd]. unfold all_num in *. rewrite Forall_forall in *. intros v Hv. apply in_map_iff in Hv as (p & <- & Hp).
      rewrite isnum_opp. apply Nv, in_map, Hp. }
    intros x1 a x2 z1 c z2 Ex Ez L.
    assert (K : nth_error (sig_of (map negp pts)) (length x1) = Some c) by (rewrite Ez, L, nth_error_app2, Nat.sub_diag by lia; reflexivity).
    destruct (nth_error pts (length x1)) as [p|] eqn:Ep.
    2: { apply nth_error_None in Ep. assert (nth_error (sig_of (map negp pts)) (length x1) = None) by (apply nth_error_None; rewrite length_sig_of, map_length; exact Ep). congruence. }
    destruct (nth_error_sig_of _ _ _ Ep) as (b & Hb & _ & Hv).
    destruct (nth_error_sig_of (map negp pts) (length x1) (negp p)) as (b' & Hb' & _ & Hv'); [erewrite map_nth_error; [reflexivity|exact Ep]|].
    rewrite K in Hb'. injection Hb' as <-. apply nth_error_split in Hb as (w1 & w2 & Ew & Lw).
    specialize (D x1 a x2 w1 b w2 Ex Ew ltac:(lia)) as [D1 D2]. rewrite Hv' in *. cbn [negp snd] in *. rewrite <- Hv in *. cbn [sampled_sat].
    pose proof (rk_zero (F := B64)) as RZ. split; intros H.
    + apply D2. apply nltb_true in H as (H1 & H2 & H3). apply nltb_true. rewrite isnum_opp in H2. rewrite rk_opp, RZ in H3. split; [exact H2|]. split; [apply isnum_zero|]. rewrite RZ. lra.
    + intros Q. apply Q, D1. apply nltb_true in H as (H1 & H2 & H3). apply nltb_true. rewrite isnum_opp in H1. rewrite rk_opp, RZ in H3. split; [apply isnum_zero|]. split; [exact H1|]. rewrite RZ. lra.
  - destruct IHphi as (n & x & z & E1 & E2 & E3 & G & Et & Nv & D); auto.
    { intros e He. apply (IM e). right. exact He. }
    assert (FT : ftime z).
    { destruct (HT n x E2) as (_ & FT & _). unfold ftime in *. rewrite Forall_forall in *. intros a Ha. apply (in_map s_time) in Ha.
      change (In (s_time a) (times z)) in Ha. rewrite Et in Ha. apply in_map_iff in Ha as (b & <- & Hb). apply FT, Hb. }
    pose proof (IM _ (or_introl eq_refl)) as MI. cbn in MI.
    destruct (C28_min z (proj1 G) (proj2 G) Nv) as (z' & H1 & H2 & H3 & H4).
    exists n, x, z'. split; [exact E1|]. split; [exact E2|]. split.
    { cbn [compute]. rewrite E3. cbn [bind]. rewrite temporal_seq by assumption. exact H1. }
    split. { split; [exact H2|]. intros ->. destruct G as [_ G]. destruct z; [congruence|discriminate]. }
    split; [congruence|]. split.
    { destruct G as [W Hne]. unfold min_seq in H1. rewrite minmax_seq_roll in H1 by assumption. injection H1 as <-. rewrite values_sig_of. apply rollp_num, Nv. }
    intros x1 a x2 z1 c z2 Ex Ez L.
    assert (Lz : length z = length x) by (apply (f_equal (@length _)) in Et; unfold times in Et; rewrite !map_length in Et; exact Et).
    assert (exists y1 b y2, z = y1 ++ b :: y2 /\ length y1 = length x1) as (y1 & b & y2 & Ey & Ly).
    { destruct (nth_error z (length x1)) as [b|] eqn:Q; [apply nth_error_split in Q as (y1 & y2 & -> & Q); exists y1, b, y2; auto|].
      apply nth_error_None in Q. rewrite Lz, Ex, app_length in Q. cbn in Q. lia. }
    destruct (H4 y1 b y2 Ey) as (z1' & c' & z2' & Ez' & Lz' & _ & (d & Hd & Vd) & Hle).
    rewrite Ez in Ez'. destruct (split_eq _ _ _ _ _ _ Ez' ltac:(lia)) as (-> & -> & ->).
    cbn [sampled_sat]. split.
    + intros Pc w1 w2 Ew Hw. destruct w2 as [|a' w2]; [congruence|].
      assert (exists v1 b' v2, b :: y2 = v1 ++ b' :: v2 /\ length v1 = length w1) as (v1 & b' & v2 & Ev & Lv).
      { destruct (nth_error (b :: y2) (length w1)) as [b'|] eqn:Q; [apply nth_error_split in Q as (v1 & v2 & Q1 & Q); exists v1, b', v2; auto|].
        apply nth_error_None in Q. exfalso. apply (f_equal (@length _)) in Ew. rewrite app_length in Ew. cbn in Ew, Q.
        assert (length x2 = length y2); [|lia]. apply (f_equal (@length _)) in Ex, Ey. rewrite app_length in Ex, Ey. cbn in Ex, Ey. lia. }
      destruct (D (x1 ++ w1) a' w2 (y1 ++ v1) b' v2) as [D1 _].
      * rewrite <- app_assoc, <- Ew. exact Ex.
      * rewrite <- app_assoc, <- Ev. exact Ey.
      * rewrite !app_length. lia.
      * apply D1. assert (In b' (b :: y2)) as Hb' by (rewrite Ev; apply in_or_app; right; left; reflexivity). specialize (Hle b' Hb'). num.
    + intros Pc Q. apply in_split in Hd as (v1 & v2 & Ev).
      assert (exists w1 a' w2, a :: x2 = w1 ++ a' :: w2 /\ length w1 = length v1) as (w1 & a' & w2 & Ew & Lw).
      { destruct (nth_error (a :: x2) (length v1)) as [a'|] eqn:K; [apply nth_error_split in K as (w1 & w2 & K1 & K); exists w1, a', w2; auto|].
        apply nth_error_None in K. exfalso. apply (f_equal (@length _)) in Ev. rewrite app_length in Ev. cbn in Ev, K.
        assert (length x2 = length y2); [|lia]. apply (f_equal (@length _)) in Ex, Ey. rewrite app_length in Ex, Ey. cbn in Ex, Ey. lia. }
      destruct (D (x1 ++ w1) a' w2 (y1 ++ v1) d v2) as [_ D2].
      * rewrite <- app_assoc, <- Ew. exact Ex.
      * rewrite <- app_assoc, <- Ev. exact Ey.
      * rewrite !app_length. lia.
      * apply D2; [rewrite <- Vd; exact Pc|]. apply (Q w1); [exact Ew|discriminate].
  - destruct IHphi as (n & x & z & E1 & E2 & E3 & G & Et & Nv & D); auto.
    { intros e He. apply (IM e). right. exact He. }
    assert (FT : ftime z).
    { destruct (HT n x E2) as (_ & FT & _). unfold ftime in *. rewrite Forall_forall in *. intros a Ha. apply (in_map s_time) in Ha.
      change (In (s_time a) (times z)) in Ha. rewrite Et in Ha. apply in_map_iff in Ha as (b & <- & Hb). apply FT, Hb. }
    pose proof (IM _ (or_introl eq_refl)) as MI. cbn in MI.
    destruct (C28_max z (proj1 G) (proj2 G) Nv) as (z' & H1 & H2 & H3 & H4).
    exists n, x, z'. split; [exact E1|]. split; [exact E2|]. split.
    { cbn [compute]. rewrite E3. cbn [bind]. rewrite temporal_seq by assumption. exact H1. }
    split. { split; [exact H2|]. intros ->. destruct G as [_ G]. destruct z; [congruence|discriminate]. }
    split; [congruence|]. split.
    { destruct G as [W Hne]. unfold max_seq in H1. rewrite minmax_seq_roll in H1 by assumption. injection H1 as <-. rewrite values_sig_of. apply rollp_num, Nv. }
    intros x1 a x2 z1 c z2 Ex Ez L.
    assert (Lz : length z = length x) by (apply (f_equal (@length _)) in Et; unfold times in Et; rewrite !map_length in Et; exact Et).
    assert (exists y1 b y2, z = y1 ++ b :: y2 /\ length y1 = length x1) as (y1 & b & y2 & Ey & Ly).
    { destruct (nth_error z (length x1)) as [b|] eqn:Q; [apply nth_error_split in Q as (y1 & y2 & -> & Q); exists y1, b, y2; auto|].
      apply nth_error_None in Q. rewrite Lz, Ex, app_length in Q. cbn in Q. lia. }
    destruct (H4 y1 b y2 Ey) as (z1' & c' & z2' & Ez' & Lz' & _ & (d & Hd & Vd) & Hle).
    rewrite Ez in Ez'. destruct (split_eq _ _ _ _ _ _ Ez' ltac:(lia)) as (-> & -> & ->).
    cbn [sampled_sat]. split.
    + intros Pc. apply in_split in Hd as (v1 & v2 & Ev).
      assert (exists w1 a' w2, a :: x2 = w1 ++ a' :: w2 /\ length w1 = length v1) as (w1 & a' & w2 & Ew & Lw).
      { destruct (nth_error (a :: x2) (length v1)) as [a'|] eqn:K; [apply nth_error_split in K as (w1 & w2 & K1 & K); exists w1, a', w2; auto|].
        apply nth_error_None in K. exfalso. apply (f_equal (@length _)) in Ev. rewrite app_length in Ev. cbn in Ev, K.
        assert (length x2 = length y2); [|lia]. apply (f_equal (@length _)) in Ex, Ey. rewrite app_length in Ex, Ey. cbn in Ex, Ey. lia. }
      destruct (D (x1 ++ w1) a' w2 (y1 ++ v1) d v2) as [D1 _].
      * rewrite <- app_assoc, <- Ew. exact Ex.
      * rewrite <- app_assoc, <- Ev. exact Ey.
      * rewrite !app_length. lia.
      * exists w1, (a' :: w2). split; [exact Ew|]. split; [discriminate|]. apply D1. rewrite <- Vd. exact Pc.
    + intros Pc (w1 & w2 & Ew & Hw & Q). destruct w2 as [|a' w2]; [congruence|].
      assert (exists v1 b' v2, b :: y2 = v1 ++ b' :: v2 /\ length v1 = length w1) as (v1 & b' & v2 & Ev & Lv).
      { destruct (nth_error (b :: y2) (length w1)) as [b'|] eqn:K; [apply nth_error_split in K as (v1 & v2 & Q1 & K); exists v1, b', v2; auto|].
        apply nth_error_None in K. exfalso. apply (f_equal (@length _)) in Ew. rewrite app_length in Ew. cbn in Ew, K.
        assert (length x2 = length y2); [|lia]. apply (f_equal (@length _)) in Ex, Ey. rewrite app_length in Ex, Ey. cbn in Ex, Ey. lia. }
      destruct (D (x1 ++ w1) a' w2 (y1 ++ v1) b' v2) as [_ D2].
      * rewrite <- app_assoc, <- Ew. exact Ex.
      * rewrite <- app_assoc, <- Ev. exact Ey.
      * rewrite !app_length. lia.
      * apply D2; [|exact Q]. assert (In b' (b :: y2)) as Hb' by (rewrite Ev; apply in_or_app; right; left; reflexivity). specialize (Hle b' Hb'). num.
Qed.
