(** C70: with a common begin time, finite times and all names present, evaluation in binary64
    either returns or throws [invalid_argument]. *)
From Coq Require Import Sorted Reals Lra.
From Flocq Require Import IEEE754.BinarySingleNaN.
From Verif Require Import Base Num NumXR NumB64.
From Verif.Model Require Import Signal MonoWedge MinMax Ast Robustness.
From Verif.Spec Require Import SignalSpec Formula.
From Verif.Proofs Require Import NumFacts SignalFacts LowerBound Reshape Sync SyncProps MinMaxFacts SeqFacts B64Facts WinFacts MinMaxCases RobFacts RobWf.
Local Open Scope nat_scope.

Section G.
Context {F : Type} `{NF : Num F} {NL : NumLaws F}.

(** Well formed, beginning at [b] and ending at [hi] or before. *)
Definition within (b hi : F) (z : signal F) : Prop :=
  good z /\ neqb (begin_time z) b = true /\ nleb (end_time z) hi = true.
Definition ok_or_throw {A} (P : A -> Prop) (o : outcome A) : Prop :=
  (exists z, o = Ok z /\ P z) \/ o = Throw InvalidArgument.

Lemma oot_bind {A B} (P : A -> Prop) (Q : B -> Prop) o (f : A -> outcome B) :
  ok_or_throw P o -> (forall z, P z -> ok_or_throw Q (f z)) -> ok_or_throw Q (bind o f).
Proof. intros [(z & -> & Hz)| ->] H; [apply H, Hz|right; reflexivity]. Qed.

Lemma pair_loop_end comp (P : F -> Prop) : forall xs ys pi pj last pts z, wfp pts -> pts <> [] ->
  all_num (times xs) -> all_num (times ys) -> Forall P (times xs) -> Forall P (times ys) ->
  P (end_time (sig_of pts)) -> pair_loop comp pi pj xs ys last (sig_of pts) = Ok z -> P (end_time z).
Proof.
  induction xs as [|i xs IH]; intros ys pi pj last pts z W Hne Nx Ny Px Py Pe H.
  { injection H as <-. exact Pe. }
  destruct ys as [|j ys].
  { injection H as <-. exact Pe. }
  cbn [pair_loop] in H. inversion Nx as [|? ? N1 N2]; subst. inversion Ny as [|? ? N3 N4]; subst.
  inversion Px as [|? ? P1 P2]; subst. inversion Py as [|? ? P3 P4]; subst.
  destruct (comp i j); apply bind_ok_inv in H as (o & H1 & H2); apply pair_step_inv in H1; auto;
    destruct H1 as (e & -> & W'); (eapply IH; [exact W'| | | | | | |exact H2]); auto;
    try (apply wfp_nonempty_app); rewrite app_assoc, end_snoc; assumption.
Qed.

Lemma sync_begin x y x' y' : wf x -> wf y -> x <> [] -> y <> [] -> neqb (begin_time x) (begin_time y) = true ->
  synchronize x y = Ok (x', y') -> neqb (begin_time x') (begin_time x) = true.
Proof.
  intros Wx Wy Nx Ny E S. destruct (sync_out _ _ _ _ Wx Wy S) as (W1 & W2 & N1 & N2 & T).
  destruct x as [|a x]; [congruence|]. destruct y as [|c y]; [congruence|]. cbn [begin_time] in *.
  assert (Ea : nleb (s_time a) (end_time (c :: y)) = true).
  { pose proof (begin_le_end (c :: y) c (proj1 Wy) (proj1 (proj2 Wy)) (or_introl eq_refl)).
    pose proof (end_num (c :: y) (wf_fine _ Wy) ltac:(discriminate)). num. }
  assert (Eb : nleb (begin_time (c :: y)) (s_time a) = true) by (cbn [begin_time]; num).
  destruct (sync_complete (a :: x) (c :: y) x' y' a Wx Wy S (or_introl eq_refl) Eb Ea) as (a' & H1 & H2 & H3).
  destruct x' as [|u x']; [congruence|]. cbn [begin_time].
  destruct (sync_sound _ _ _ _ u Wx Wy S (or_introl eq_refl)) as (_ & Hb & _). cbn [begin_time] in Hb.
  pose proof (begin_le_end (u :: x') a' (proj1 W1) (proj1 (proj2 W1)) H1) as K. cbn [begin_time] in K. rewrite H2 in K. num.
Qed.

Lemma sync_within b hi x y : within b hi x -> within b hi y ->
  exists x' y', synchronize x y = Ok (x', y') /\ within b hi x' /\ within b hi y' /\
    Forall2 (fun a b => neqb (s_time a) (s_time b) = true) x' y'.
Proof.
  intros ([Wx Nx] & Bx & Ex) ([Wy Ny] & By & Ey).
  assert (B : neqb (begin_time x) (begin_time y) = true) by num.
  destruct (proj2 (sync_iff x y Wx Wy)) as ([x' y'] & S).
  { destruct x as [|a x]; [congruence|]. destruct y as [|c y]; [congruence|]. exists a, c.
    split; [left; reflexivity|]. split; [left; reflexivity|]. split; [exact B|left; reflexivity]. }
  exists x', y'. split; [exact S|]. destruct (sync_out _ _ _ _ Wx Wy S) as (W1 & W2 & N1 & N2 & T).
  pose proof (sync_sym _ _ _ _ Wx Wy S) as S'.
  assert (B' : neqb (begin_time y) (begin_time x) = true) by num.
  pose proof (sync_begin _ _ _ _ Wx Wy Nx Ny B S) as Q1. pose proof (sync_begin _ _ _ _ Wy Wx Ny Nx B' S') as Q2.
  assert (E1 : nleb (end_time x') (end_time x) = true).
  { unfold end_time at 1. destruct (last_opt x') as [u|] eqn:L; [|apply last_opt_none in L; congruence]. apply last_opt_In in L.
    apply (sync_sound _ _ _ _ u Wx Wy S L). }
  assert (E2 : nleb (end_time y') (end_time y) = true).
  { unfold end_time at 1. destruct (last_opt y') as [u|] eqn:L; [|apply last_opt_none in L; congruence]. apply last_opt_In in L.
    apply (sync_sound _ _ _ _ u Wy Wx S' L). }
  split; [|split; [|exact T]]; (split; [split; assumption|]); split; num.
Qed.

Lemma times_le (hi : F) (x : signal F) : good x -> nleb (end_time x) hi = true -> Forall (fun t => nleb t hi = true) (times x).
Proof.
  intros [W Hne] H. apply Forall_forall. intros t Ht. apply in_map_iff in Ht as (a & <- & Ha).
  pose proof (begin_le_end x a (proj1 W) (proj1 (proj2 W)) Ha). pose proof (all_num_In _ _ (proj1 W) Ha). num.
Qed.

Lemma within_pair dbg comp worse b hi x y : (forall a b, comp a b = negb (worse (s_value a) (s_value b))) ->
  within b hi x -> within b hi y -> ok_or_throw (within b hi) (minmax_pair dbg comp false x y).
Proof.
  intros HC Hx Hy. destruct (sync_within b hi x y Hx Hy) as (x' & y' & S & Hx' & Hy' & T).
  pose proof Hx' as ([W1 N1] & B1 & E1). pose proof Hy' as ([W2 N2] & B2 & E2).
  assert (Q : minmax_pair dbg comp false x y = minmax_pair dbg comp true x' y').
  { unfold minmax_pair. rewrite S. reflexivity. }
  rewrite Q. destruct (pair_throws dbg comp worse x' y' HC W1 W2 N1 T) as [(_ & z & _ & Z)|(_ & _ & Z)]; [|right; exact Z].
  left. exists z. split; [exact Z|].
  assert (G : good z) by (eapply (good_pair dbg comp x y); [apply Hx|apply Hy|rewrite Q; exact Z]).
  rewrite (minmax_true_same dbg comp x' y' N1 T) in Z.
  pose proof (times_le hi x' (conj W1 N1) E1) as L1. pose proof (times_le hi y' (conj W2 N2) E2) as L2.
  destruct T as [|i j xs ys E T]; [congruence|]. rewrite (pair_loop_start comp i j xs ys E) in Z.
  assert (Np : isnum (s_time (pick comp i j)) = true) by (unfold pick; destruct (comp i j); num; assumption).
  assert (Wp : wfp [pt (pick comp i j)]).
  { split; cbn; [constructor; [exact Np|constructor]|repeat constructor]. }
  destruct W1 as (M1 & _). destruct W2 as (M2 & _).
  inversion M1 as [|? ? _ M1']; subst. inversion M2 as [|? ? _ M2']; subst.
  inversion L1 as [|? ? L1a L1']; subst. inversion L2 as [|? ? L2a L2']; subst.
  split; [exact G|]. split.
  - destruct (pair_loop_inv comp xs ys _ _ _ _ _ Wp M1' M2' Z) as (pts & -> & _ & _). cbn [app sig_of begin_time s_time fst pt].
    unfold pick. cbn [begin_time] in *. destruct (comp i j); assumption.
  - refine (pair_loop_end comp (fun t => nleb t hi = true) xs ys _ _ _ _ z Wp _ M1' M2' L1' L2' _ Z); [discriminate|].
    cbn. unfold pick. destruct (comp i j); assumption.
Qed.

Lemma within_fold dbg comp worse b hi xs : (forall a b, comp a b = negb (worse (s_value a) (s_value b))) ->
  Forall (within b hi) xs -> forall acc, within b hi acc -> ok_or_throw (within b hi) (minmax_fold dbg comp false acc xs).
Proof.
  intros HC. induction 1 as [|x xs Hx _ IH]; intros acc Ha; cbn [minmax_fold]; [left; eauto|].
  eapply oot_bind; [eapply within_pair; eauto|]. intros z Hz. apply IH, Hz.
Qed.
Lemma within_list dbg comp worse b hi xs : (forall a b, comp a b = negb (worse (s_value a) (s_value b))) ->
  xs <> [] -> Forall (within b hi) xs -> ok_or_throw (within b hi) (minmax_list dbg comp false xs).
Proof.
  intros HC Hne H. destruct xs as [|x [|y xs]]; [congruence|left; exists x; split; [reflexivity|]; inversion H; assumption|].
  inversion H as [|? ? Hx H']; subst. destruct xs as [|w xs].
  - inversion H'; subst. cbn [minmax_list]. eapply within_pair; eauto.
  - change (ok_or_throw (within b hi) (minmax_fold dbg comp false x (y :: w :: xs))). eapply within_fold; eauto.
Qed.

Lemma within_times b hi (x z : signal F) : within b hi x -> wf z -> times z = times x -> within b hi z.
Proof.
  intros ([W Hne] & B & E) Wz T. assert (Nz : z <> []) by (intros ->; destruct x; [congruence|discriminate]).
  split; [split; assumption|]. split.
  - destruct x as [|a x]; [congruence|]. destruct z as [|c z]; [congruence|]. cbn in *. injection T as T _. rewrite T. exact B.
  - unfold end_time in *. clear B W Wz. revert z T Nz. induction x as [|a x IH]; intros [|c z] T Nz; try congruence; try discriminate.
    cbn in T. injection T as T1 T2. destruct x as [|a' x]; destruct z as [|c' z]; try discriminate.
    + cbn in *. rewrite T1. exact E.
    + change (last_opt (c :: c' :: z)) with (last_opt (c' :: z)). change (last_opt (a :: a' :: x)) with (last_opt (a' :: x)) in E.
      apply IH; auto; discriminate.
Qed.

Lemma within_from b hi x l : within b hi x -> times l = times x -> ok_or_throw (within b hi) (from_samples l).
Proof.
  intros H T. pose proof H as ([W Hne] & _). left.
  rewrite (from_samples_ok l) by (rewrite T; apply W). eexists. split; [reflexivity|].
  eapply within_times; [exact H| |].
  - apply wf_canon. exists (points l). split; [|reflexivity]. unfold wfp. rewrite <- times_points, T. split; apply W.
  - rewrite times_sig_of, <- times_points. exact T.
Qed.

Lemma within_until dbg b hi x y : within b hi x -> within b hi y -> ok_or_throw (within b hi) (compute_until dbg x y).
Proof.
  intros Hx Hy. destruct (sync_within b hi x y Hx Hy) as (x' & y' & S & Hx' & Hy' & T). pose proof (same_length _ _ T) as L.
  pose proof Hx' as ([W1 N1] & _). unfold compute_until. rewrite S. cbn [bind].
  rewrite L, Nat.eqb_refl, (same_begin _ _ N1 T), (same_end _ _ N1 T). unfold assert_. cbn [negb]. rewrite andb_false_r. cbn [bind].
  apply (within_from b hi x'); [exact Hx'|].
  rewrite times_rev, until_loop_times by (rewrite !rev_length; exact L). cbn [times map app]. rewrite times_rev. apply rev_involutive.
Qed.

Lemma within_seq comp b hi x : within b hi x -> ok_or_throw (within b hi) (minmax_seq comp x).
Proof.
  intros H. pose proof H as ([W Hne] & _). left. rewrite (minmax_seq_roll comp x W Hne). eexists. split; [reflexivity|].
  eapply within_times; [exact H| |].
  - apply wf_canon. exists (rollp comp x). split; [apply rollp_wfp, W|reflexivity].
  - rewrite times_sig_of. apply rollp_times.
Qed.
End G.

Lemma between_finite (b t hi : B64) : finite b = true -> finite hi = true -> nleb b t = true -> nleb t hi = true -> finite t = true.
Proof.
  intros Fb Fh H1 H2. destruct t as [s|s| |s m e K]; try reflexivity; exfalso.
  - destruct s; [destruct b as [sb|sb| |[|] mb eb Kb]|destruct hi as [sb|sb| |[|] mb eb Kb]]; try discriminate.
  - destruct b; discriminate.
Qed.
Lemma within_ftime (b hi : B64) z : finite b = true -> finite hi = true -> within b hi z -> ftime z.
Proof.
  intros Fb Fh ([W Hne] & B & E). apply Forall_forall. intros a Ha.
  pose proof (begin_le_end z a (proj1 W) (proj1 (proj2 W)) Ha) as K. pose proof (all_num_In _ _ (proj1 W) Ha) as N.
  apply (between_finite b _ hi); auto; num.
Qed.

Lemma within_compute dbg fuel (r : rob_op B64) b hi phi : finite b = true -> finite hi = true ->
  (forall v, ok_or_throw (within b hi) (rob_const r v)) ->
  (forall n, In n (names phi) -> exists x, trace_find (r_trace r) n = Some x /\ within b hi x) ->
  free_of (short 1) phi = true -> intervals_made phi -> ok_or_throw (within b hi) (compute dbg fuel r phi).
Proof.
  intros Fb Fh HC. induction phi using expr_rec; intros HN HS HI; cbn [compute].
  - apply HC.
  - destruct (HN n (or_introl eq_refl)) as (x & E & Wx). unfold rob_pred. rewrite E, pred_loop_push.
    apply (within_from b hi x _ Wx). unfold times. rewrite map_map. reflexivity.
  - cbn [free_of short negb andb] in HS. eapply oot_bind; [apply IHphi; auto|].
    { intros e He. apply (HI e). right. exact He. }
    intros x Wx. apply (within_from b hi x _ Wx). unfold times. rewrite map_map. reflexivity.
  - cbn [free_of short] in HS. apply andb_prop in HS as [HL HS]. eapply oot_bind with (P := fun ys => ys <> [] /\ Forall (within b hi) ys).
    2: { intros ys [Ny Wy]. eapply within_list with (worse := fun v w => nltb w v); [|exact Ny|exact Wy]. intros. reflexivity. }
    assert (L : l <> []) by (intros ->; discriminate HL). clear HL.
    assert (K : ok_or_throw (fun ys => length ys = length l /\ Forall (within b hi) ys) (compute_list (compute dbg fuel r) l)).
    { clear L. induction l as [|e l IHl]; cbn; [left; exists []; auto|]. inversion H as [|? ? He Hl]; subst. cbn [forallb] in HS.
      apply andb_prop in HS as [HS1 HS2].
      eapply oot_bind; [apply He; auto|].
      - intros n Hn. apply HN. cbn. apply in_or_app. left. exact Hn.
      - intros e' He'. apply (HI e'). right. cbn. apply in_or_app. left. exact He'.
      - intros z Wz. eapply oot_bind; [apply IHl; auto|].
        + intros n Hn. apply HN. cbn. apply in_or_app. right. exact Hn.
        + intros e' He'. destruct He' as [<-|He']; [exact I|]. apply (HI e'). right. cbn. apply in_or_app. right. exact He'.
        + intros zs [Ls Ws]. left. exists (z :: zs). split; [reflexivity|]. split; [cbn; congruence|constructor; assumption]. }
    destruct K as [(ys & E & K1 & K2)|K]; [left; exists ys; split; [exact E|]; split; [|exact K2]|right; exact K].
    intros ->. destruct l; [congruence|discriminate].
  - cbn [free_of short] in HS. apply andb_prop in HS as [HL HS]. eapply oot_bind with (P := fun ys => ys <> [] /\ Forall (within b hi) ys).
    2: { intros ys [Ny Wy]. eapply within_list with (worse := fun v w => nltb v w); [|exact Ny|exact Wy]. intros. reflexivity. }
    assert (L : l <> []) by (intros ->; discriminate HL). clear HL.
    assert (K : ok_or_throw (fun ys => length ys = length l /\ Forall (within b hi) ys) (compute_list (compute dbg fuel r) l)).
    { clear L. induction l as [|e l IHl]; cbn; [left; exists []; auto|]. inversion H as [|? ? He Hl]; subst. cbn [forallb] in HS.
      apply andb_prop in HS as [HS1 HS2].
      eapply oot_bind; [apply He; auto|].
      - intros n Hn. apply HN. cbn. apply in_or_app. left. exact Hn.
      - intros e' He'. apply (HI e'). right. cbn. apply in_or_app. left. exact He'.
      - intros z Wz. eapply oot_bind; [apply IHl; auto|].
        + intros n Hn. apply HN. cbn. apply in_or_app. right. exact Hn.
        + intros e' He'. destruct He' as [<-|He']; [exact I|]. apply (HI e'). right. cbn. apply in_or_app. right. exact He'.
        + intros zs [Ls Ws]. left. exists (z :: zs). split; [reflexivity|]. split; [cbn; congruence|constructor; assumption]. }
    destruct K as [(ys & E & K1 & K2)|K]; [left; exists ys; split; [exact E|]; split; [|exact K2]|right; exact K].
    intros ->. destruct l; [congruence|discriminate].
  - cbn [free_of short negb andb] in HS. eapply oot_bind; [apply IHphi; auto|].
    { intros e He. apply (HI e). right. exact He. }
    intros x Wx. rewrite temporal_seq; [apply within_seq, Wx|apply Wx|exact (within_ftime b hi x Fb Fh Wx)|].
    apply (HI _ (or_introl eq_refl)).
  - cbn [free_of short negb andb] in HS. eapply oot_bind; [apply IHphi; auto|].
    { intros e He. apply (HI e). right. exact He. }
    intros x Wx. rewrite temporal_seq; [apply within_seq, Wx|apply Wx|exact (within_ftime b hi x Fb Fh Wx)|].
    apply (HI _ (or_introl eq_refl)).
  - cbn [free_of short negb andb] in HS. apply andb_prop in HS as [HS1 HS2]. eapply oot_bind; [apply IHphi1; auto|].
    { intros n Hn. apply HN. cbn. apply in_or_app. left. exact Hn. }
    { intros e He. apply (HI e). right. apply in_or_app. left. exact He. }
    intros x Wx. eapply oot_bind; [apply IHphi2; auto|].
    { intros n Hn. apply HN. cbn. apply in_or_app. right. exact Hn. }
    { intros e He. apply (HI e). right. apply in_or_app. right. exact He. }
    intros y Wy. replace (rob_until dbg i x y) with (compute_until dbg x y); [apply within_until; assumption|].
    unfold rob_until. destruct (has_value i) eqn:V; cbn [negb]; [|reflexivity]. pose proof (b64_hv i V) as Z.
    unfold has_value, is_zero_to_inf in V. apply andb_prop in V as [_ V]. unfold as_double in *. cbn [fst] in Z. rewrite V, Z. reflexivity.
Qed.

Section Ends.
Local Open Scope R_scope.
Lemma max_spec (a b : B64) : isnum a = true -> isnum b = true ->
  (std_max a b = a \/ std_max a b = b) /\ rk a <= rk (std_max a b) /\ rk b <= rk (std_max a b).
Proof. intros A B. unfold std_max. destruct (nltb a b) eqn:E; num_hyps; repeat split; auto; lra. Qed.

Lemma fold_min_begin (b : B64) (tr : trace B64) : Forall (fun e => neqb (begin_time (snd e)) b = true) tr ->
  forall u, isnum u = true -> (tr <> [] /\ nleb b u = true) \/ neqb u b = true ->
  neqb (fold_left (fun b e => std_min b (begin_time (snd e))) tr u) b = true.
Proof.
  induction 1 as [|e tr He _ IH]; intros u Nu [[Hne L]|E]; cbn [fold_left]; try congruence.
  - apply IH; [apply std_min_num; [exact Nu|clear -He; num_hyps; assumption]|right]. unfold std_min. destruct (nltb (begin_time (snd e)) u) eqn:Q; [exact He|]. num_hyps. num_goal; lra.
  - apply IH; [apply std_min_num; [exact Nu|clear -He; num_hyps; assumption]|right]. unfold std_min. destruct (nltb (begin_time (snd e)) u) eqn:Q; [exact He|exact E].
Qed.

Lemma fold_max_end (tr : trace B64) : Forall (fun e => finite (end_time (snd e)) = true) tr ->
  forall u, isnum u = true ->
  let m := fold_left (fun b e => std_max b (end_time (snd e))) tr u in
  isnum m = true /\ nleb u m = true /\ Forall (fun e => nleb (end_time (snd e)) m = true) tr /\
  (finite u = true \/ (tr <> [] /\ u = nopp ninf) -> finite m = true).
Proof.
  induction 1 as [|e tr He _ IH]; intros u Nu; cbn [fold_left].
  - split; [exact Nu|]. split; [num|]. split; [constructor|]. intros [H|[H _]]; congruence.
  - pose proof (finite_num _ He) as Ne. destruct (max_spec u _ Nu Ne) as (O & L1 & L2).
    assert (Nm : isnum (std_max u (end_time (snd e))) = true) by (apply std_max_num; assumption).
    destruct (IH _ Nm) as (I1 & I2 & I3 & I4). cbn zeta. split; [exact I1|]. split; [num|]. split; [constructor; [num|exact I3]|].
    intros K. apply I4. left. destruct K as [K|[_ ->]]; [destruct O as [-> | ->]; assumption|].
    unfold std_max. destruct (end_time (snd e)) as [[|]|[|]| |[|] m x Hm]; try discriminate He; reflexivity.
Qed.
End Ends.

Lemma C70_setup (tr : trace B64) b : tr <> [] ->
  Forall (fun e => wf (snd e) /\ snd e <> [] /\ neqb (begin_time (snd e)) b = true /\
    Forall (fun a => finite (s_time a) = true) (snd e)) tr ->
  exists b' hi, finite b' = true /\ finite hi = true /\ neqb b' b = true /\
    (forall v, ok_or_throw (within b' hi) (rob_const (mkRob (trace_begin tr) (trace_end tr) tr) v)) /\
    forall n, In n (map fst tr) -> exists x, trace_find tr n = Some x /\ within b' hi x.
Proof.
  intros Tne HT.
  assert (Ends : Forall (fun e => finite (begin_time (snd e)) = true /\ finite (end_time (snd e)) = true) tr).
  { eapply Forall_impl; [|exact HT]. intros e (W & Hne & _ & FT). rewrite Forall_forall in FT. split.
    - destruct (snd e); [congruence|]. apply FT. left. reflexivity.
    - unfold end_time. destruct (last_opt (snd e)) eqn:L; [|apply last_opt_none in L; congruence]. apply FT, last_opt_In, L. }
  assert (exists e0, In e0 tr) as (e0 & H0) by (destruct tr as [|e0 tr']; [congruence|exists e0; left; reflexivity]).
    exists (begin_time (snd e0)), (trace_end tr).
    pose proof (proj1 (Forall_forall _ _) Ends e0 H0) as [Fb0 Fe0]. pose proof (proj1 (Forall_forall _ _) HT e0 H0) as (W0 & N0 & B0 & _).
    assert (Nn : isnum (nopp ninf : B64) = true) by reflexivity.
    destruct (fold_max_end tr) with (u := nopp (ninf : B64)) as (I1 & I2 & I3 & I4); [|exact Nn|].
    { eapply Forall_impl; [|exact Ends]. intros e [_ H]. exact H. }
    change (fold_left _ tr (nopp ninf)) with (trace_end tr) in *. specialize (I4 (or_intror (conj Tne eq_refl))).
    assert (Tb : neqb (trace_begin tr) (begin_time (snd e0)) = true).
    { apply fold_min_begin; [|reflexivity|left; split; [exact Tne|]].
      - eapply Forall_impl; [|exact HT]. cbv beta. intros e (_ & _ & H & _). clear -H B0. num.
      - apply nleb_true. pose proof (finite_num _ Fb0) as Q. split; [exact Q|]. split; [reflexivity|]. apply rk_inf, Q. }
    split; [exact Fb0|]. split; [exact I4|]. split; [exact B0|].
    assert (Hw : forall e, In e tr -> within (begin_time (snd e0)) (trace_end tr) (snd e)).
    { intros e He. pose proof (proj1 (Forall_forall _ _) HT e He) as (W & N & B & _). pose proof (proj1 (Forall_forall _ _) I3 e He) as L.
      split; [split; assumption|]. split; [clear -B B0; num|exact L]. }
    split.
    - intros v. unfold rob_const. cbn [min_time max_time]. rewrite from_samples_canon. cbn [points map s_time s_value].
      match goal with |- context [if ?c then _ else _] => destruct c eqn:Q end; [left|right; reflexivity].
      eexists. split; [reflexivity|]. split; [split; [|discriminate]|split].
      + apply wf_canon. eexists. split; [|reflexivity].
        assert (A : all_num (map fst [(trace_begin tr, if v then ninf else nopp ninf); (trace_end tr, if v then ninf else nopp ninf)])).
        { constructor; [clear -Tb; num; assumption|]. constructor; [exact I1|constructor]. }
        split; [exact A|]. apply increasing_steps; assumption.
      + exact Tb.
      + change (nleb (trace_end tr) (trace_end tr) = true). clear -I1. num.
    - intros n Hn. apply in_map_iff in Hn as (e & <- & He).
      destruct (trace_find tr (fst e)) as [x|] eqn:E.
      + exists x. split; [reflexivity|]. apply trace_find_In in E. apply (Hw _ E).
      + exfalso. clear -He E. induction tr as [|e' tr IH]; [destruct He|]. cbn in E. destruct e' as [n' x'].
        destruct (String.eqb _ _) eqn:Q; [discriminate|]. destruct He as [<-|He]; [cbn in Q; rewrite String.eqb_refl in Q; discriminate|]. auto.
Qed.
Lemma C70_lemma dbg fuel (tr : trace B64) s phi b : tr <> [] ->
  Forall (fun e => wf (snd e) /\ snd e <> [] /\ neqb (begin_time (snd e)) b = true /\
    Forall (fun a => finite (s_time a) = true) (snd e)) tr ->
  (forall n, In n (names phi) -> In n (map fst tr)) ->
  free_of (short 1) phi = true -> intervals_made phi ->
  (exists z, compute_robustness dbg fuel phi tr s = Ok z /\ wf z /\ neqb (begin_time z) b = true) \/
  compute_robustness dbg fuel phi tr s = Throw InvalidArgument.
Proof.
  intros Tne HT HN HS HI. unfold compute_robustness. destruct (C70_setup tr b Tne HT) as (b' & hi & Fb & Fh & Eb & HC & HF).
  destruct (within_compute dbg fuel (mkRob (trace_begin tr) (trace_end tr) tr) b' hi phi Fb Fh HC) as [(z & E & [W Hne] & B & _)|E]; auto.
  left. exists z. split; [exact E|]. split; [exact W|]. clear -B Eb. num.
Qed.

(** ** Missing signals *)
(** The same signals and others: the same outcome, unless a signal was missed. *)
Lemma compute_more dbg fuel (r r' : rob_op B64) : min_time r' = min_time r -> max_time r' = max_time r ->
  (forall n x, trace_find (r_trace r) n = Some x -> trace_find (r_trace r') n = Some x) ->
  forall phi, compute dbg fuel r phi = compute dbg fuel r' phi \/ compute dbg fuel r phi = Throw OutOfRange.
Proof.
  intros E1 E2 HT.
  assert (LISTS : forall l, Forall (fun phi => compute dbg fuel r phi = compute dbg fuel r' phi \/ compute dbg fuel r phi = Throw OutOfRange) l ->
    compute_list (compute dbg fuel r) l = compute_list (compute dbg fuel r') l \/ compute_list (compute dbg fuel r) l = Throw OutOfRange).
  { induction 1 as [|e l [He|He] _ IH]; cbn [compute_list]; [auto|rewrite He|rewrite He; right; reflexivity].
    destruct (compute dbg fuel r' e); cbn [bind]; auto. destruct IH as [-> | ->]; [left|right]; reflexivity. }
  induction phi using expr_rec; cbn [compute].
  - left. unfold rob_const. rewrite E1, E2. reflexivity.
  - unfold rob_pred. destruct (trace_find (r_trace r) n) as [x|] eqn:E; [rewrite (HT n x E); left; reflexivity|right; reflexivity].
  - destruct IHphi as [-> | ->]; [left|right]; reflexivity.
  - destruct (LISTS l H) as [-> | ->]; [left|right]; reflexivity.
  - destruct (LISTS l H) as [-> | ->]; [left|right]; reflexivity.
  - destruct IHphi as [-> | ->]; [left|right]; reflexivity.
  - destruct IHphi as [-> | ->]; [left|right]; reflexivity.
  - destruct IHphi1 as [-> | ->]; [|right; reflexivity]. destruct (compute dbg fuel r' phi1); cbn [bind]; auto. destruct IHphi2 as [-> | ->]; [left|right]; reflexivity.
Qed.
Lemma C42_missing_lemma dbg fuel (tr : trace B64) s phi b n : tr <> [] ->
  Forall (fun e => wf (snd e) /\ snd e <> [] /\ neqb (begin_time (snd e)) b = true /\
    Forall (fun a => finite (s_time a) = true) (snd e)) tr ->
  free_of (short 1) phi = true -> intervals_made phi -> In n (names phi) -> ~ In n (map fst tr) ->
  compute_robustness dbg fuel phi tr s = Throw OutOfRange \/ compute_robustness dbg fuel phi tr s = Throw InvalidArgument.
Proof.
  intros Tne HT HS HI Hn M. pose proof (C42_lemma dbg fuel phi tr s n Hn M) as NO. unfold compute_robustness in *.
  destruct (C70_setup tr b Tne HT) as (b' & hi & Fb & Fh & Eb & HC & HF).
  assert (exists e0, In e0 tr) as (e0 & H0) by (destruct tr as [|e0 tr']; [congruence|exists e0; left; reflexivity]).
  destruct (HF (fst e0) (in_map fst _ _ H0)) as (x0 & _ & W0).
  set (r := mkRob (trace_begin tr) (trace_end tr) tr) in *. set (r' := mkRob (trace_begin tr) (trace_end tr) (tr ++ map (fun n => (n, x0)) (names phi))).
  assert (FA : forall m, trace_find (r_trace r') m = match trace_find tr m with Some x => Some x | None => trace_find (map (fun n => (n, x0)) (names phi)) m end).
  { intros m. cbn [r_trace r']. clear. induction tr as [|[k x] tr IH]; cbn; [reflexivity|]. destruct (String.eqb _ _); auto. }
  destruct (compute_more dbg fuel r r') with (phi := phi) as [E|E]; try reflexivity.
  - intros m x F. rewrite FA. cbn [r_trace r] in F. rewrite F. reflexivity.
  - right. destruct (within_compute dbg fuel r' b' hi phi Fb Fh) as [(z & E' & _)|E']; auto.
    + intros m Hm. rewrite FA. destruct (trace_find tr m) as [x|] eqn:F.
      * pose proof F as F'. apply trace_find_In in F. apply (in_map fst) in F. destruct (HF m F) as (x' & Fx & Wx). exists x'. split; [|exact Wx]. congruence.
      * exists x0. split; [|exact W0]. clear -Hm. induction (names phi) as [|k l IH]; [destruct Hm|]. cbn. destruct (String.eqb k m) eqn:Q; [reflexivity|].
        destruct Hm as [->|Hm]; [rewrite String.eqb_refl in Q; discriminate|auto].
    + exfalso. apply (NO z). rewrite E. exact E'.
    + rewrite E. exact E'.
  - left. exact E.
Qed.
