(** C31, C45, C46: exact arithmetic. *)
From Coq Require Import Sorted Reals Lra.
From Flocq Require Import Core.Raux.
From Verif Require Import Base Num NumXR.
From Verif.Model Require Import Signal MonoWedge MinMax Ast Robustness.
From Verif.Spec Require Import SignalSpec Formula.
From Verif.Proofs Require Import NumFacts SignalFacts LowerBound Reshape Sync SyncProps SyncCases MinMaxFacts SeqFacts MinMaxCases PwlFacts RobFacts RobWf Transport.
Local Open Scope nat_scope.

(** ** Arithmetic *)
Ltac xcase := match goal with
  | |- context [Rlt_bool ?a ?b] => case (Rlt_bool_spec a b); intros
  | |- context [Req_bool ?a ?b] => case (Req_bool_spec a b); intros
  | |- context [Rcompare ?a ?b] => case (Rcompare_spec a b); intros end.
Ltac xcases := repeat (unfold xinf_sign; xcase; cbn).
Ltac xauto := cbn; unfold xsub, xle, xeq, xinf_sign in *; cbn; xcases; cbn; try reflexivity; try (exfalso; nra); try (f_equal; lra); try (f_equal; ring).

Lemma xadd_lt a b (d : R) : xlt (xadd a (Fin d)) (xadd b (Fin d)) = xlt a b.
Proof. destruct a, b; xauto. Qed.
Lemma xle_of_lt (f : XR -> XR) : (forall a, xnum (f a) = xnum a) -> (forall a b, xlt (f a) (f b) = xlt a b) -> forall a b, xle (f a) (f b) = xle a b.
Proof. intros N H a b. unfold xle. rewrite !N, H. reflexivity. Qed.
Lemma xeq_of_lt (f : XR -> XR) : (forall a, xnum (f a) = xnum a) -> (forall a b, xlt (f a) (f b) = xlt a b) -> forall a b, xeq (f a) (f b) = xeq a b.
Proof. intros N H a b. unfold xeq. rewrite !(xle_of_lt f N H). reflexivity. Qed.
Lemma xadd_num a (d : R) : xnum (xadd a (Fin d)) = xnum a.
Proof. destruct a; reflexivity. Qed.
Lemma xadd_sub a b (d : R) : xsub (xadd a (Fin d)) (xadd b (Fin d)) = xsub a b.
Proof. destruct a, b; xauto. Qed.

Lemma tint_nofin (s p : sample XR) : (forall x y, s_deriv s = Fin x -> s_deriv p <> Fin y) -> time_intersect s p = NaN.
Proof.
  intros H. unfold time_intersect. change ndiv with xdiv. change nsub with xsub. change nadd with xadd. change nmul with xmul.
  generalize (xsub (s_value s) (s_value p)). intros A. destruct s as [t1 v1 d1], p as [t2 v2 d2]. cbn [s_time s_value s_deriv] in *.
  destruct d1 as [| |x|], d2 as [| |y|]; try (exfalso; eapply H; reflexivity); destruct A, t1, t2; cbn; unfold xsub, xinf_sign; cbn; xcases; reflexivity.
Qed.
Lemma shift_tint dt (s p : sample XR) :
  time_intersect (mkSample (xadd (s_time s) (Fin dt)) (s_value s) (s_deriv s)) (mkSample (xadd (s_time p) (Fin dt)) (s_value p) (s_deriv p))
  = xadd (time_intersect s p) (Fin dt).
Proof.
  destruct (s_deriv s) as [| |x|] eqn:E1; try (rewrite !tint_nofin; [reflexivity| |]; cbn [s_deriv]; congruence).
  destruct (s_deriv p) as [| |y|] eqn:E2; try (rewrite !tint_nofin; [reflexivity| |]; cbn [s_deriv]; congruence).
  unfold time_intersect. change ndiv with xdiv. change nsub with xsub. change nadd with xadd. change nmul with xmul.
  cbn [s_time s_value s_deriv]. rewrite E1, E2. generalize (xsub (s_value s) (s_value p)). intros A.
  destruct A as [| |a|], (s_time s) as [| |t1|], (s_time p) as [| |t2|]; cbn; unfold xsub, xinf_sign; cbn; xcases; cbn; try reflexivity; try (exfalso; nra).
  f_equal. field. lra.
Qed.

Section Scale.
Variable c : R.
Hypothesis Hc : (0 < c)%R.
Local Notation S a := (xmul a (Fin c)).
Lemma scale_sub a b : xsub (S a) (S b) = S (xsub a b).
Proof. destruct a, b; xauto. Qed.
Lemma scale_add a b : xadd (S a) (S b) = S (xadd a b).
Proof. destruct a, b; xauto. Qed.
Lemma scale_mul a b : xmul (S a) b = S (xmul a b).
Proof. destruct a, b; xauto. Qed.
Lemma scale_div a b : xdiv (S a) b = S (xdiv a b).
Proof. destruct a, b; xauto. all: f_equal; field; lra. Qed.
Lemma scale_ratio a b : xdiv (S a) (S b) = xdiv a b.
Proof. destruct a as [| |x|], b as [| |y|]; xauto. all: f_equal; field; lra. Qed.
Lemma scale_lt a b : xlt (S a) (S b) = xlt a b.
Proof. destruct a, b; xauto. Qed.
Lemma scale_opp a : xopp (S a) = S (xopp a).
Proof. destruct a; xauto. Qed.
Lemma scale_zero : S (Fin 0) = Fin 0.
Proof. xauto. Qed.
Lemma scale_inf : S PInf = PInf.
Proof. xauto. Qed.
End Scale.

Lemma opp_sub a b : xsub (xopp a) (xopp b) = xopp (xsub a b).
Proof. destruct a, b; xauto. Qed.
Lemma opp_add a b : xadd (xopp a) (xopp b) = xopp (xadd a b).
Proof. destruct a, b; xauto. Qed.
Lemma opp_mul a b : xmul (xopp a) b = xopp (xmul a b).
Proof. destruct a, b; xauto. Qed.
Lemma opp_div a b : xdiv (xopp a) b = xopp (xdiv a b).
Proof. destruct a, b; xauto. all: f_equal; field; lra. Qed.
Lemma opp_ratio a b : b <> Fin 0 -> xdiv (xopp a) (xopp b) = xdiv a b.
Proof. intros H. assert (forall y, b = Fin y -> y <> 0%R) as K by congruence. destruct a as [| |x|], b as [| |y|]; try (specialize (K y eq_refl)); xauto. all: try (exfalso; lra). all: f_equal; field; lra. Qed.
Lemma opp_lt a b : xlt (xopp a) (xopp b) = xlt b a.
Proof. destruct a, b; xauto. Qed.

(** ** The window of [0,inf) *)
Lemma xr_zero (a : XR) : neqb a nzero = true -> a = Fin 0.
Proof. destruct a as [| |r|]; try discriminate. change (xeq (Fin r) (Fin 0) = true -> Fin r = Fin 0). rewrite fin_eq. case Req_bool_spec; [intros ->; reflexivity|discriminate]. Qed.
Lemma xr_self (x : XR) : isnum x = true -> neqb x x = true.
Proof. auto. Qed.
Lemma xr_win comp fuel (a b : XR) y : neqb a nzero = true -> wf y -> forall z, minmax_seq_win comp fuel y a b <> Ok z.
Proof.
  intros Z. pose proof (xr_zero _ Z) as ->. apply win_zero_never; auto.
  - intros x N. destruct x as [| |r|]; try discriminate; auto. change (nadd (Fin r) (Fin 0)) with (Fin (r + 0)). rewrite Rplus_0_r. exact N.
  - intros x N. destruct x as [| |r|]; try discriminate; auto. change (nsub (Fin r) (Fin 0)) with (Fin (r + - 0)). rewrite Ropp_0, Rplus_0_r. exact N.
Qed.
Lemma xr_hv (i : interval XR) : has_value i = true -> neqb (fst (as_double i)) nzero = true.
Proof.
  unfold has_value, is_zero_to_inf, as_double. intros H. apply andb_prop in H as [H _]. cbn [fst]. destruct (low i) as [k|d]; cbn [inum_double]; [|exact H].
  apply N.eqb_eq in H as ->. change (xeq (Fin 0) (Fin 0) = true). rewrite fin_eq. apply Req_bool_true. reflexivity.
Qed.
Lemma xr_hv_inf (i : interval XR) a b : has_value i = true -> as_double i = (a, b) -> a = Fin 0 /\ (b = PInf \/ b = NInf).
Proof.
  intros V E. pose proof (xr_hv i V) as Z. rewrite E in Z. split; [apply xr_zero, Z|].
  unfold has_value, is_zero_to_inf in V. apply andb_prop in V as [_ V]. unfold as_double in E. injection E as _ <-. destruct (inum_double (high i)); try discriminate; auto.
Qed.

Lemma dur_nan (y : signal XR) : good y -> xsub (end_time y) (begin_time y) = NaN ->
  exists s, y = [s] /\ (s_time s = PInf \/ s_time s = NInf).
Proof.
  intros [(N & I & _) Hne] D. destruct y as [|s y]; [congruence|]. destruct y as [|s' y].
  - exists s. split; [reflexivity|]. unfold end_time in D. cbn in D. unfold all_num in N. inversion N as [|? ? N1 _]; subst. rewrite xisnum in N1.
    destruct (s_time s); cbn in D; try discriminate; auto.
  - exfalso. assert (L : nltb (begin_time (s :: s' :: y)) (end_time (s :: s' :: y)) = true).
    { unfold end_time. destruct (last_opt (s :: s' :: y)) as [l|] eqn:E; [|apply last_opt_none in E; discriminate]. change (last_opt (s :: s' :: y)) with (last_opt (s' :: y)) in E.
      apply last_opt_In in E. cbn [begin_time]. cbn [times map] in I. inversion I as [|? ? _ I1]; subst. rewrite Forall_forall in I1. apply I1. apply (in_map s_time) in E. exact E. }
    change (xlt (begin_time (s :: s' :: y)) (end_time (s :: s' :: y)) = true) in L.
    revert L D. generalize (begin_time (s :: s' :: y)), (end_time (s :: s' :: y)). intros u v. destruct u, v; cbn; intros; discriminate.
Qed.

Section T.
Variables tau sig del : XR -> XR.
Notation T := (tr_sample tau sig del).
Hypothesis Hlt : forall a b, xlt (tau a) (tau b) = xlt a b.
Hypothesis Hnum : forall a, xnum (tau a) = xnum a.
Hypothesis Hd0 : del (Fin 0) = Fin 0.
Hypothesis Hdur : forall a b, xle (xsub (tau a) (tau b)) PInf = xle (xsub a b) PInf.
Hypothesis Hslope : forall a b v w, xdiv (xsub (sig w) (sig v)) (xsub (tau b) (tau a)) = del (xdiv (xsub w v) (xsub b a)).
Hypothesis Hinterp : forall s t, interpolate (T s) (tau t) = sig (interpolate s t).
Hypothesis Hpinf : tau PInf = PInf.
Hypothesis Hninf : tau NInf = NInf.

Lemma Hle a b : xle (tau a) (tau b) = xle a b. Proof. apply xle_of_lt; assumption. Qed.
Lemma Heq a b : xeq (tau a) (tau b) = xeq a b. Proof. apply xeq_of_lt; assumption. Qed.

Section Comp.
Variables comp comp' : sample XR -> sample XR -> bool.
Hypothesis Hcomp : forall a b, comp' (T a) (T b) = comp a b.

Lemma win_single comp0 fuel (s : sample XR) b : (b = PInf \/ b = NInf) -> (s_time s = PInf \/ s_time s = NInf) -> xle NaN b = false ->
  xlt b (Fin 0) = false ->
  minmax_seq_win comp0 fuel [s] (Fin 0) b = match fuel with O => Hang | _ => UB end.
Proof.
  intros Hb Hs _ Hp. unfold minmax_seq_win. change (neqb (Fin 0) nzero) with (xeq (Fin 0) (Fin 0)). rewrite fin_eq, Req_bool_true by reflexivity. cbn [bind].
  change (nsub b (Fin 0)) with (xsub b (Fin 0)). change (begin_time [s]) with (s_time s). cbn [win_fill].
  assert (nltb (s_time s) (nadd (s_time s) (xsub b (Fin 0))) = false) as ->.
  { destruct Hb as [-> | ->]; [|discriminate]. destruct Hs as [-> | ->]; reflexivity. }
  cbn [bind]. destruct fuel; reflexivity.
Qed.

Lemma T_temporal fuel i y : good y -> rob_temporal fuel comp' i (map T y) = omap (map T) (rob_temporal fuel comp i y).
Proof.
  intros G. assert (TS : minmax_seq comp' (map T y) = omap (map T) (minmax_seq comp y)).
  { apply T_seq; auto using Hle, Heq. }
  unfold rob_temporal. destruct (has_value i) eqn:V; cbn [negb]; [|exact TS].
  destruct (as_double i) as [a b] eqn:E. destruct (xr_hv_inf i a b V E) as [-> Hb]. cbn zeta.
  destruct (nltb _ _) eqn:Ln; [reflexivity|]. destruct (neqb _ _); [reflexivity|].
  rewrite (T_begin tau sig del), (T_end tau sig del) by apply G.
  assert (b = PInf) as -> by (destruct Hb as [-> | ->]; [reflexivity|discriminate]).
  change (nleb (nsub (tau (end_time y)) (tau (begin_time y))) (nsub PInf (Fin 0))) with (xle (xsub (tau (end_time y)) (tau (begin_time y))) PInf). rewrite Hdur.
  change (nleb (nsub (end_time y) (begin_time y)) (nsub PInf (Fin 0))) with (xle (xsub (end_time y) (begin_time y)) PInf).
  destruct (xle _ _) eqn:Ld; [exact TS|].
  assert (D : xsub (end_time y) (begin_time y) = NaN).
  { destruct (xsub _ _); try reflexivity; discriminate. }
  destruct (dur_nan y G D) as (s & -> & Hs). cbn [map]. rewrite !win_single; auto.
  - destruct fuel; reflexivity.
  - unfold tr_sample. cbn [s_time]. destruct Hs as [-> | ->]; auto.
Qed.
End Comp.

Hypothesis Hslt : forall a b, xlt (sig a) (sig b) = xlt a b.
Hypothesis Hsopp : forall a, xopp (sig a) = sig (xopp a).
Hypothesis Hdopp : forall a, xopp (del a) = del (xopp a).
Hypothesis Hsinf : sig PInf = PInf.
Hypothesis Hssub : forall a b, xsub (sig a) (sig b) = sig (xsub a b).
Hypothesis Htint : forall a b, tint_eq tau sig del a b.

Lemma Hcle a b : sample_le (T a) (T b) = sample_le a b.
Proof. unfold sample_le, sample_gt, sample_lt. cbn [s_value tr_sample]. change nltb with xlt. rewrite Hslt. reflexivity. Qed.
Lemma Hcge a b : sample_ge (T a) (T b) = sample_ge a b.
Proof. unfold sample_ge, sample_lt. cbn [s_value tr_sample]. change nltb with xlt. rewrite Hslt. reflexivity. Qed.

Lemma tint_always comp : forall xs ys pi pj last, tint_ok tau sig del comp pi pj xs ys last.
Proof.
  induction xs as [|i xs IH]; intros [|j ys] pi pj last; cbn [tint_ok]; auto. split; [|apply IH].
  destruct (comp i j); intros _; destruct pi, pj; auto.
Qed.

Definition trT : trace XR -> trace XR := map_trace (map T).
Lemma T_find (tr : trace XR) n : trace_find (trT tr) n = option_map (map T) (trace_find tr n).
Proof. induction tr as [|[k s] tr IH]; [reflexivity|]. cbn. destruct (String.eqb k n); [reflexivity|exact IH]. Qed.
Lemma T_trace_begin (tr : trace XR) : Forall (fun e => snd e <> []) tr -> trace_begin (trT tr) = tau (trace_begin tr).
Proof.
  unfold trace_begin. intros H. replace (fold_left (fun b e => std_min b (begin_time (snd e))) (trT tr) ninf)
    with (fold_left (fun b e => std_min b (begin_time (snd e))) (trT tr) (tau ninf)) by (change ninf with PInf; rewrite Hpinf; reflexivity).
  generalize (ninf : XR). induction H as [|e tr He _ IH]; intros u; [reflexivity|]. cbn [trT map_trace map fold_left snd fst]. rewrite <- IH. f_equal.
  rewrite (T_begin tau sig del) by exact He. apply (T_std_min (NF := Num_XR) tau Hlt).
Qed.
Lemma T_trace_end (tr : trace XR) : Forall (fun e => snd e <> []) tr -> trace_end (trT tr) = tau (trace_end tr).
Proof.
  unfold trace_end. intros H. replace (fold_left (fun b e => std_max b (end_time (snd e))) (trT tr) (nopp ninf))
    with (fold_left (fun b e => std_max b (end_time (snd e))) (trT tr) (tau (nopp ninf))) by (change (nopp ninf) with NInf; rewrite Hninf; reflexivity).
  generalize (nopp ninf : XR). induction H as [|e tr He _ IH]; intros u; [reflexivity|]. cbn [trT map_trace map fold_left snd fst]. rewrite <- IH. f_equal.
  rewrite (T_end tau sig del) by exact He. apply (T_std_max (NF := Num_XR) tau Hlt).
Qed.

Lemma T_from' l : from_samples (map T l) = omap (map T) (from_samples l).
Proof. apply T_from; auto using Hle. Qed.

Lemma T_compute_list (f g : expr XR -> outcome (signal XR)) (m : expr XR -> expr XR) l : Forall (fun e => g (m e) = omap (map T) (f e)) l ->
  compute_list g (map m l) = omap (map (map T)) (compute_list f l).
Proof.
  induction 1 as [|e l He _ IH]; [reflexivity|]. cbn [map].
  change (compute_list g (m e :: map m l)) with (y <- g (m e) ;; ys <- compute_list g (map m l) ;; Ok (y :: ys)).
  change (compute_list f (e :: l)) with (y <- f e ;; ys <- compute_list f l ;; Ok (y :: ys)).
  rewrite He, IH, bind_omap, omap_bind. apply bind_ext. intros y _. rewrite bind_omap, omap_bind. apply bind_ext. intros ys _. reflexivity.
Qed.

Lemma T_until' dbg i x y : good x -> good y -> rob_until dbg i (map T x) (map T y) = omap (map T) (rob_until dbg i x y).
Proof.
  intros Gx Gy. assert (E : compute_until dbg (map T x) (map T y) = omap (map T) (compute_until dbg x y)).
  { apply T_until; auto using Hle, Heq. }
  unfold rob_until. destruct (negb _); [exact E|]. destruct (as_double i) as [a b]. destruct (_ && _); [exact E|reflexivity].
Qed.
Lemma T_list' dbg comp xs : (forall a b, comp (T a) (T b) = comp a b) -> xs <> [] -> Forall good xs ->
  minmax_list dbg comp false (map (map T) xs) = omap (map T) (minmax_list dbg comp false xs).
Proof.
  intros Hc N G. apply (T_list (NF := Num_XR) tau sig del Hlt Hle Heq Hd0 Hslope Hinterp comp comp Hc good); auto.
  - intros x y _ _ x' y' _. apply tint_always.
  - intros d x y z Gx Gy H. apply (good_pair d comp x y z Gx Gy H).
Qed.

Lemma T_empty dbg comp : tau (Fin 0) = Fin 0 -> minmax_list dbg comp false (map (map T) []) = omap (map T) (minmax_list dbg comp false []).
Proof.
  intros Z. cbn. unfold tr_sample. cbn [s_time s_value s_deriv]. change (nzero : XR) with (Fin 0). rewrite Z, Hd0.
  assert (sig NInf = NInf) as ->; [|reflexivity]. change (sig (xopp PInf) = xopp PInf). rewrite <- Hsopp, Hsinf. reflexivity.
Qed.

Lemma T_compute dbg fuel (tr : trace XR) phi : Forall (fun e => good (snd e)) tr -> tau (Fin 0) = Fin 0 \/ free_of (short 1) phi = true ->
  compute dbg fuel (mkRob (trace_begin (trT tr)) (trace_end (trT tr)) (trT tr)) (map_const sig phi) =
  omap (map T) (compute dbg fuel (mkRob (trace_begin tr) (trace_end tr) tr) phi).
Proof.
  intros G. assert (NE : Forall (fun e => snd e <> []) tr) by (eapply Forall_impl; [|exact G]; intros e He; apply He).
  rewrite T_trace_begin, T_trace_end by exact NE.
  set (r := mkRob (trace_begin tr) (trace_end tr) tr). set (r' := mkRob (tau (trace_begin tr)) (tau (trace_end tr)) (trT tr)).
  assert (GC : forall e z, compute dbg fuel r e = Ok z -> good z) by (intros e; apply (good_compute xr_win xr_hv dbg fuel tr e G)).
  assert (GL : forall l ys, compute_list (compute dbg fuel r) l = Ok ys -> Forall good ys).
  { intros l ys H. apply compute_list_inv in H. induction H; constructor; eauto. }
  assert (LL : forall l ys, compute_list (compute dbg fuel r) l = Ok ys -> l <> [] -> ys <> []).
  { intros l ys H. apply compute_list_inv in H. inversion H; subst; [congruence|discriminate]. }
  induction phi using expr_rec; intros S; cbn [free_of short] in S.
  - cbn [map_const compute]. unfold rob_const. cbn [min_time max_time r r'].
    assert (E : sig (if b then ninf else nopp ninf) = (if b then ninf else nopp ninf)).
    { destruct b; [exact Hsinf|]. change (sig (xopp PInf) = xopp PInf). rewrite <- Hsopp, Hsinf. reflexivity. }
    rewrite <- T_from'. cbn [map]. unfold tr_sample. cbn [s_time s_value s_deriv]. rewrite E. change (del nzero) with (del (Fin 0)). rewrite Hd0. reflexivity.
  - cbn [map_const compute]. unfold rob_pred. cbn [r_trace r r']. rewrite T_find. destruct (trace_find tr n) as [x|]; [|reflexivity]. cbn [option_map].
    rewrite !pred_loop_push. change (push_all []) with (@from_samples XR _). rewrite <- T_from'. rewrite !map_map. f_equal. apply map_ext. intros s.
    unfold tr_sample. cbn [s_time s_value s_deriv]. change (del nzero) with (del (Fin 0)). rewrite Hd0. f_equal.
    destruct o; apply Hssub.
  - cbn [map_const compute]. rewrite IHphi, bind_omap, omap_bind by exact S. apply bind_ext. intros x Hx. unfold rob_not. rewrite <- T_from', !map_map. f_equal.
    apply map_ext. intros s. unfold tr_sample, sample_neg. cbn [s_time s_value s_deriv]. change nopp with xopp. rewrite Hsopp, Hdopp. reflexivity.
  - cbn [map_const compute]. rewrite (T_compute_list (compute dbg fuel r)), bind_omap, omap_bind.
    + apply bind_ext. intros ys Hy. destruct S as [S|S].
      * destruct ys as [|y0 ys]; [|apply T_list'; [apply Hcle|discriminate|eauto]]. apply T_empty, S.
      * apply andb_prop in S as [S1 S2]. apply T_list'; [apply Hcle| |eauto]. eapply LL; [exact Hy|]. intros ->. discriminate.
    + rewrite Forall_forall in *. intros e He. apply H; auto. destruct S as [S|S]; [auto|]. apply andb_prop in S as [S1 S2]. rewrite forallb_forall in S2. auto.
  - cbn [map_const compute]. rewrite (T_compute_list (compute dbg fuel r)), bind_omap, omap_bind.
    + apply bind_ext. intros ys Hy. destruct S as [S|S].
      * destruct ys as [|y0 ys]; [|apply T_list'; [apply Hcge|discriminate|eauto]]. apply T_empty, S.
      * apply andb_prop in S as [S1 S2]. apply T_list'; [apply Hcge| |eauto]. eapply LL; [exact Hy|]. intros ->. discriminate.
    + rewrite Forall_forall in *. intros e He. apply H; auto. destruct S as [S|S]; [auto|]. apply andb_prop in S as [S1 S2]. rewrite forallb_forall in S2. auto.
  - cbn [map_const compute]. rewrite IHphi, bind_omap, omap_bind by exact S. apply bind_ext. intros x Hx. apply T_temporal; [apply Hcle|eauto].
  - cbn [map_const compute]. rewrite IHphi, bind_omap, omap_bind by exact S. apply bind_ext. intros x Hx. apply T_temporal; [apply Hcge|eauto].
  - assert (S1 : tau (Fin 0) = Fin 0 \/ free_of (short 1) phi1 = true) by (destruct S as [S|S]; [auto|cbn [negb andb] in S; apply andb_prop in S as [S1 S2]; auto]).
    assert (S2 : tau (Fin 0) = Fin 0 \/ free_of (short 1) phi2 = true) by (destruct S as [S|S]; [auto|cbn [negb andb] in S; apply andb_prop in S as [S3 S2]; auto]).
    cbn [map_const compute]. rewrite IHphi1, IHphi2, bind_omap, omap_bind by assumption. apply bind_ext. intros x Hx.
    rewrite bind_omap, omap_bind. apply bind_ext. intros y Hy. apply T_until'; eauto.
Qed.
End T.

Lemma map_const_id {F} (phi : expr F) : map_const (fun c => c) phi = phi.
Proof.
  induction phi using expr_rec; cbn [map_const]; try congruence.
  - f_equal. induction H; cbn; congruence.
  - f_equal. induction H; cbn; congruence.
Qed.

Lemma C45_lemma dbg fuel phi (tr : trace XR) s dt : Forall (fun e => wf (snd e) /\ snd e <> []) tr -> free_of (short 1) phi = true ->
  compute_robustness dbg fuel phi (map_trace (later (Fin dt)) tr) s = omap (later (Fin dt)) (compute_robustness dbg fuel phi tr s).
Proof.
  intros G S. unfold compute_robustness.
  pose proof (T_compute (fun t => xadd t (Fin dt)) (fun v => v) (fun d => d)) as K.
  specialize (K (fun a b => xadd_lt a b dt) (fun a => xadd_num a dt) eq_refl).
  rewrite <- (map_const_id phi) at 1. apply K; auto.
  - intros a b. rewrite xadd_sub. reflexivity.
  - intros. rewrite xadd_sub. reflexivity.
  - intros p t. unfold interpolate, tr_sample. cbn [s_time s_value s_deriv]. change nsub with xsub. rewrite xadd_sub. reflexivity.
  - intros a b. unfold tint_eq. apply shift_tint.
Qed.

Lemma C46_lemma dbg fuel phi (tr : trace XR) s c : Forall (fun e => wf (snd e) /\ snd e <> []) tr -> (0 < c)%R ->
  compute_robustness dbg fuel (map_const (fun v => nmul v (Fin c)) phi) (map_trace (times_const (Fin c)) tr) s =
  omap (times_const (Fin c)) (compute_robustness dbg fuel phi tr s).
Proof.
  intros G Hc. unfold compute_robustness.
  apply (T_compute (fun t => t) (fun v => xmul v (Fin c)) (fun d => xmul d (Fin c))); auto.
  - apply scale_zero.
  - intros. rewrite scale_sub, scale_div by exact Hc. reflexivity.
  - intros p t. unfold interpolate, tr_sample. cbn [s_time s_value s_deriv]. change nmul with xmul. change nadd with xadd. rewrite scale_mul, scale_add by exact Hc. reflexivity.
  - intros. apply scale_lt, Hc.
  - intros. apply scale_opp, Hc.
  - intros. apply scale_opp, Hc.
  - apply scale_inf, Hc.
  - intros. apply scale_sub, Hc.
  - intros a b. unfold tint_eq, time_intersect, tr_sample. cbn [s_time s_value s_deriv]. change ndiv with xdiv. change nsub with xsub. change nadd with xadd. change nmul with xmul.
    rewrite !scale_sub, !scale_mul, !scale_add, !scale_sub, scale_ratio by exact Hc. reflexivity.
Qed.
