(** C108 and C39: the values of And and Or with a constant. *)
From Coq Require Import Sorted Reals Lra.
From Flocq Require Import IEEE754.BinarySingleNaN.
From Verif Require Import Base Num NumB64.
From Verif.Model Require Import Signal MonoWedge MinMax Ast Robustness.
From Verif.Spec Require Import SignalSpec Formula UntilSpec AstSpec.
From Verif.Proofs Require Import NumFacts SignalFacts Reshape Sync SyncProps SyncCases SignalProps MinMaxFacts MinMaxCases MinMaxExamples RobFacts RobWf UntilFacts B64Facts Size RobExamples ConstFacts.
Local Open Scope nat_scope.

Definition nan : B64 := B754_nan.
Lemma sub_nan_l x : nsub nan x = nan. Proof. change (@Bminus 53 1024 b64_prec_gt_0 b64_prec_lt_emax mode_NE B754_nan x = B754_nan). destruct x; reflexivity. Qed.
Lemma sub_nan_r x : nsub x nan = nan. Proof. change (@Bminus 53 1024 b64_prec_gt_0 b64_prec_lt_emax mode_NE x B754_nan = B754_nan). destruct x; reflexivity. Qed.
Lemma div_nan_l x : ndiv nan x = nan. Proof. change (@Bdiv 53 1024 b64_prec_gt_0 b64_prec_lt_emax mode_NE B754_nan x = B754_nan). destruct x; reflexivity. Qed.
Lemma div_nan_r x : ndiv x nan = nan. Proof. change (@Bdiv 53 1024 b64_prec_gt_0 b64_prec_lt_emax mode_NE x B754_nan = B754_nan). destruct x; reflexivity. Qed.

Lemma intersect_nan (p q : sample B64) : s_deriv p = nan \/ s_deriv q = nan -> time_intersect p q = nan.
Proof. unfold time_intersect. intros [-> | ->]; [rewrite (sub_nan_r (s_deriv q))|rewrite (sub_nan_l (s_deriv p))]; apply div_nan_r. Qed.

Section P.
Variable comp : sample B64 -> sample B64 -> bool.
Fixpoint picked (xs ys : list (sample B64)) : list (sample B64) :=
  match xs, ys with x :: xs', y :: ys' => (if comp x y then x else y) :: picked xs' ys' | _, _ => [] end.
Definition flatpair (p q : sample B64) : Prop := s_deriv p = nan \/ s_deriv q = nan.
Fixpoint flat (xs ys : list (sample B64)) : Prop :=
  match xs, ys with x :: (_ :: _) as xs', y :: (_ :: _) as ys' => flatpair x y /\ flat xs' ys' | _, _ => True end.

Lemma step_nan out sw (pw pl : sample B64) w : flatpair pl pw -> pair_step out sw (Some pw) (Some pl) w = push_back out w.
Proof.
  intros H. unfold pair_step. destruct sw; cbn [bind]; [|reflexivity]. cbn zeta. rewrite (intersect_nan pl pw H).
  rewrite (nltb_nan_r _ nan) by reflexivity. reflexivity.
Qed.
Lemma pair_loop_picked : forall xs ys pi pj last out, length xs = length ys -> flat xs ys ->
  (last = ChNone \/ exists p q, pi = Some p /\ pj = Some q /\ (xs <> [] -> flatpair p q)) ->
  pair_loop comp pi pj xs ys last out = push_all out (picked xs ys).
Proof.
  induction xs as [|x xs IH]; intros [|y ys] pi pj last out L FL P; try discriminate; [reflexivity|].
  cbn [pair_loop picked push_all].
  assert (N : xs <> [] -> flatpair x y). { intros N. destruct xs, ys; try congruence; try discriminate L. apply FL. }
  assert (FL' : flat xs ys). { destruct xs, ys; cbn; auto; try discriminate L. apply FL. }
  assert (L' : length xs = length ys) by (cbn in L; lia).
  assert (Q : forall c, c = ChNone \/ exists p q, Some x = Some p /\ Some y = Some q /\ (xs <> [] -> flatpair p q)).
  { intros c. right. exists x, y. auto. }
  destruct (comp x y).
  - assert (E : pair_step out (chosen_eqb last ChY) pi pj x = push_back out x).
    { destruct P as [->|(p & q & -> & -> & P)]; [reflexivity|]. apply step_nan. unfold flatpair in *. destruct P; [discriminate|auto|auto]. }
    cbn [chosen_eqb]. rewrite E. destruct (push_back out x); cbn [bind]; try reflexivity. apply IH; auto.
  - assert (E : pair_step out (chosen_eqb last ChX) pj pi y = push_back out y).
    { destruct P as [->|(p & q & -> & -> & P)]; [reflexivity|]. apply step_nan, P. discriminate. }
    rewrite E. destruct (push_back out y); cbn [bind]; try reflexivity. apply IH; auto.
Qed.
End P.

Definition infinite (v : B64) : Prop := v = ninf \/ v = nopp ninf.
Lemma const_slope (v w p q : B64) : infinite v -> (p = v \/ p = nan) -> (q = v \/ q = nan) -> ndiv (nsub q p) w = nan.
Proof.
  intros I P Q. assert (E : nsub q p = nan).
  { destruct P as [-> | ->]; [|apply sub_nan_r]. destruct Q as [-> | ->]; [|apply sub_nan_l]. destruct I as [-> | ->]; reflexivity. }
  rewrite E. apply div_nan_l.
Qed.
Lemma const_flat v pts : infinite v -> Forall (fun p => snd p = v \/ snd p = nan) pts -> forall xs, flat xs (sig_of pts) /\ flat (sig_of pts) xs.
Proof.
  intros I. induction 1 as [|p pts P H IH]; intros xs; [destruct xs as [|x [|x' xs]]; split; exact Logic.I|].
  destruct pts as [|q pts]; [destruct xs as [|x [|x' xs]]; split; exact Logic.I|]. destruct xs as [|x [|x' xs]]; try (split; exact Logic.I).
  cbn [sig_of] in *. destruct (IH (x' :: xs)) as [A B]. cbn [flat]. inversion H as [|? ? Q _]; subst.
  unfold flatpair. cbn [s_deriv]. unfold slope. rewrite (const_slope v _ (snd p) (snd q) I P Q). auto.
Qed.

Lemma const_sync (y : signal B64) v tb te : wf y -> y <> [] -> infinite v -> nltb tb te = true ->
  neqb (begin_time y) tb = true -> nleb (end_time y) te = true ->
  exists c pts, from_samples [mkSample tb v nzero; mkSample te v nzero] = Ok c /\ wf c /\ synchronize y c = Ok (y, sig_of pts) /\
    Forall2 (fun a p => neqb (s_time a) (fst p) = true /\ snd p = if neqb (s_time a) tb || neqb (s_time a) te then v else nan) y pts.
Proof.
  intros W N I L B E. pose proof (proj1 (nltb_true _ _) L) as (Nb & Ne & Lt). set (c := sig_of [(tb, v); (te, v)]).
  assert (Wc : wf c). { apply wf_canon. exists [(tb, v); (te, v)]. split; [|reflexivity]. split; cbn [map fst]; repeat constructor; assumption. }
  exists c. destruct y as [|i xs]; [congruence|]. set (c0 := mkSample tb v (slope (tb, v) (te, v))). set (c1 := mkSample te v nzero).
  change c with ([] ++ c0 :: [c1]). change (i :: xs) with ([] ++ i :: xs). change c with [c0; c1] in Wc.
  destruct (sync_ok [] i xs [] c0 [c1] (wf_fine _ W) (wf_fine _ Wc) B (or_introl eq_refl)) as (l & M & S). cbn [app] in *.
  pose proof S as S0. pose proof W as (WN & WI & _). cbn [times map] in WI. pose proof WI as WI'. apply increasing_cons in WI' as [I' Fx].
  destruct (merged_const c0 c1 xs i l M I') as [E1 E2].
  { intros a Ha. assert (nleb (s_time a) (end_time (i :: xs)) = true) as Q by (apply end_max; [exact (wf_fine _ W)|right; exact Ha]).
    cbn [c1 s_time]. num. }
  rewrite E1 in *. rewrite <- (slopes_ok_canon (i :: xs)) in * by apply W.
  exists (points (c0 :: map snd l)). split.
  { rewrite from_samples_ok; cbn [times map s_time]; [reflexivity|repeat constructor; assumption|]. repeat constructor. exact L. }
  split; [exact Wc|]. split; [exact S|].
  destruct (sync_out _ _ _ _ W Wc S0) as (_ & _ & _ & _ & T). destruct (C16_lemma _ _ _ _ W Wc S0) as (_ & _ & _ & _ & _ & _ & _ & V).
  set (c' := sig_of (points (c0 :: map snd l))) in *. rewrite <- (points_sig_of (points (c0 :: map snd l))). fold c'.
  assert (K : forall d, In d c' -> s_time d = tb \/ s_time d = te \/ s_value d = nan).
  { intros d Hd. apply In_sig_of_points in Hd as (a & Ha & Ht & Hv). rewrite Ht, Hv. destruct Ha as [<-|Ha]; [auto|].
    apply in_map_iff in Ha as (ab & <- & Hab). destruct (E2 ab Hab) as [-> |(t & ->)]; [auto|]. right. right. unfold interp_at, interpolate, c0. cbn [s_value s_deriv s_time].
    apply nan_add. unfold slope. cbn [fst snd]. apply (const_slope v); auto. }
  clear -T V K Nb Ne. assert (V0 : forall d, In d c' -> neqb tb (s_time d) = true \/ neqb te (s_time d) = true -> s_value d = v).
  { intros d Hd [H|H]; [apply (V d c0 Hd (or_introl eq_refl) H)|apply (V d c1 Hd (or_intror (or_introl eq_refl)) H)]. }
  clear V. revert K V0. induction T as [|a d y c' H T IH]; intros K V; [constructor|]. constructor.
  - split; [exact H|]. cbn [snd fst].
    destruct (neqb (s_time a) tb || neqb (s_time a) te) eqn:Q.
    + apply (V d (or_introl eq_refl)). apply orb_prop in Q as [Q|Q]; [left|right]; num.
    + apply orb_false_iff in Q as [Q1 Q2]. destruct (K d (or_introl eq_refl)) as [D|[D|D]]; [rewrite D in H; congruence|rewrite D in H; congruence|exact D].
  - apply IH; intros; [apply K; right; assumption|apply V; [right; assumption|assumption]].
Qed.

Lemma retimed (y u : list (sample B64)) : Forall2 (fun a d => neqb (s_time d) (s_time a) = true) y u -> all_num (times y) -> increasing (times y) ->
  all_num (times u) /\ increasing (times u).
Proof.
  intros H. unfold all_num, times, increasing. induction H as [|a d y u E H IH]; intros N I; [split; constructor|].
  cbn [map] in *. inversion N as [|? ? Na N']; subst. inversion I as [|? ? I' Fa]; subst. destruct (IH N' I') as [A B]. split; constructor; auto; [apply neqb_true in E; apply E|].
  clear -E H Fa. rewrite Forall_map in *. induction H as [|a' d' y u E' H IH]; constructor; inversion Fa; subst; [num|auto].
Qed.
Lemma picked_from comp (xs ys y : list (sample B64)) : length xs = length ys -> all_num (times y) -> increasing (times y) ->
  Forall2 (fun a d => neqb (s_time d) (s_time a) = true) y (picked comp xs ys) ->
  exists z, push_all [] (picked comp xs ys) = Ok z /\ points z = points (picked comp xs ys).
Proof.
  intros L N I H. destruct (retimed _ _ H N I) as [A B]. exists (sig_of (points (picked comp xs ys))). split; [apply (from_samples_ok _ A B)|apply points_sig_of].
Qed.
Lemma F2_impl {A B} (P Q : A -> B -> Prop) l l' : (forall a b, P a b -> Q a b) -> Forall2 P l l' -> Forall2 Q l l'.
Proof. induction 2; constructor; auto. Qed.
Definition told (v tb te t : B64) : B64 := if neqb t tb || neqb t te then v else nan.

Lemma const_pair dbg comp (cv : B64 -> B64 -> bool) (y : signal B64) v tb te : (forall a d, comp a d = cv (s_value a) (s_value d)) ->
  wf y -> y <> [] -> infinite v -> nltb tb te = true -> neqb (begin_time y) tb = true -> nleb (end_time y) te = true ->
  exists c z1 z2, from_samples [mkSample tb v nzero; mkSample te v nzero] = Ok c /\
    minmax_pair dbg comp false y c = Ok z1 /\ minmax_pair dbg comp false c y = Ok z2 /\
    Forall2 (fun a d => neqb (s_time d) (s_time a) = true /\
      s_value d = if cv (s_value a) (told v tb te (s_time a)) then s_value a else told v tb te (s_time a)) y z1 /\
    Forall2 (fun a d => neqb (s_time d) (s_time a) = true /\
      s_value d = if cv (told v tb te (s_time a)) (s_value a) then told v tb te (s_time a) else s_value a) y z2.
Proof.
  intros CV W N I L B E. destruct (const_sync y v tb te W N I L B E) as (c & pts & F & Wc & S & K). fold (told v tb te) in K. exists c.
  pose proof (sync_sym _ _ _ _ W Wc S) as S'.
  assert (Hv : Forall (fun p => snd p = v \/ snd p = nan) pts).
  { clear -K. induction K as [|a p y pts [_ H] K IH]; constructor; auto. rewrite H. destruct (_ || _); auto. }
  destruct (const_flat v pts I Hv y) as [F1 F2]. pose proof W as (Ny & Iy & _).
  assert (Len : length y = length (sig_of pts)). { rewrite length_sig_of. clear -K. induction K; cbn; auto. }
  destruct (sync_out _ _ _ _ W Wc S) as (_ & _ & _ & N2 & T). pose proof (same_begin _ _ N T) as B1. pose proof (same_end _ _ N T) as B2.
  destruct (sync_out _ _ _ _ Wc W S') as (_ & _ & _ & _ & T'). pose proof (same_begin _ _ N2 T') as B3. pose proof (same_end _ _ N2 T') as B4.
  assert (P1 : Forall2 (fun a d => neqb (s_time d) (s_time a) = true /\ s_value d = if cv (s_value a) (told v tb te (s_time a)) then s_value a else told v tb te (s_time a)) y (picked comp y (sig_of pts))).
  { clear -K CV. induction K as [|a p y pts [Ht Hv] K IH]; [constructor|]. cbn [sig_of picked]. constructor; [|exact IH].
    rewrite CV. cbn [s_value]. rewrite Hv. fold (told v tb te (s_time a)). destruct (cv _ _); cbn [s_time s_value]; (split; [num|reflexivity]). }
  assert (P2 : Forall2 (fun a d => neqb (s_time d) (s_time a) = true /\ s_value d = if cv (told v tb te (s_time a)) (s_value a) then told v tb te (s_time a) else s_value a) y (picked comp (sig_of pts) y)).
  { clear -K CV. induction K as [|a p y pts [Ht Hv] K IH]; [constructor|]. cbn [sig_of picked]. constructor; [|exact IH].
    rewrite CV. cbn [s_value]. rewrite Hv. fold (told v tb te (s_time a)). destruct (cv _ _); cbn [s_time s_value]; (split; [num|reflexivity]). }
  assert (Q : forall P u z, Forall2 (fun a d => neqb (s_time d) (s_time a) = true /\ s_value d = P a) y u -> points z = points u ->
    Forall2 (fun a d => neqb (s_time d) (s_time a) = true /\ s_value d = P a) y z).
  { clear. intros P u z H. revert z. induction H as [|a d y u [A B] H IH]; intros [|e z] Ez; try discriminate; constructor.
    - unfold points in Ez. cbn [map] in Ez. injection Ez as E1 E2 _. rewrite E1, E2. auto.
    - apply IH. unfold points in *. cbn [map] in Ez. congruence. }
  destruct (picked_from comp y (sig_of pts) y Len Ny Iy) as (z1 & Z1 & G1). { eapply F2_impl; [|exact P1]. cbn. tauto. }
  destruct (picked_from comp (sig_of pts) y y (eq_sym Len) Ny Iy) as (z2 & Z2 & G2). { eapply F2_impl; [|exact P2]. cbn. tauto. }
  exists z1, z2. split; [exact F|]. split; [|split; [|split]].
  - unfold minmax_pair. rewrite S. cbn [bind]. rewrite Len, Nat.eqb_refl, B1, B2. unfold assert_. cbn [negb]. rewrite andb_false_r. cbn [bind].
    rewrite pair_loop_picked; auto.
  - unfold minmax_pair. rewrite S'. cbn [bind]. rewrite Len, Nat.eqb_refl, B3, B4. unfold assert_. cbn [negb]. rewrite andb_false_r. cbn [bind].
    rewrite pair_loop_picked; auto.
  - eapply Q; eauto.
  - eapply Q; eauto.
Qed.

Section F.
Variable dbg : bool.
Variable fuel : nat.
Variable tr : trace B64.
Variable s : bool.
Variable phi : expr B64.
Variable y : signal B64.
Variables b e : B64.
Hypothesis G : Forall (fun x => wf (snd x) /\ snd x <> []) tr.
Hypothesis SP : spans tr b e.
Hypothesis L : nltb b e = true.
Hypothesis S : free_of (short 1) phi = true.
Hypothesis E : compute_robustness dbg fuel phi tr s = Ok y.
Hypothesis B : neqb (begin_time y) b = true.

Lemma const_run comp (cv : B64 -> B64 -> bool) bo : (forall a d, comp a d = cv (s_value a) (s_value d)) -> let v : B64 := if (bo : bool) then ninf else nopp ninf in
  exists c z1 z2, compute dbg fuel (mkRob (trace_begin tr) (trace_end tr) tr) (EConst bo) = Ok c /\
    minmax_list dbg comp false [y; c] = Ok z1 /\ minmax_list dbg comp false [c; y] = Ok z2 /\
    Forall2 (fun a d => neqb (s_time d) (s_time a) = true /\
      s_value d = if cv (s_value a) (told v b e (s_time a)) then s_value a else told v b e (s_time a)) y z1 /\
    Forall2 (fun a d => neqb (s_time d) (s_time a) = true /\
      s_value d = if cv (told v b e (s_time a)) (s_value a) then told v b e (s_time a) else s_value a) y z2.
Proof.
  intros CV v. destruct (trace_bounds tr b e G SP) as [T1 T2]. destruct (C43_lemma dbg fuel _ _ s _ G E) as [W N].
  pose proof (ends_inside dbg fuel tr b e G SP _ S y E) as Q.
  assert (L' : nltb (trace_begin tr) (trace_end tr) = true) by num.
  assert (B' : neqb (begin_time y) (trace_begin tr) = true) by num.
  assert (I : infinite v) by (unfold v, infinite; destruct bo; auto).
  assert (K : forall t, told v (trace_begin tr) (trace_end tr) t = told v b e t).
  { intros t. unfold told. assert (A : forall u w : B64, neqb u w = true -> neqb t u = neqb t w).
    { intros u w H. destruct (neqb t u) eqn:Q1, (neqb t w) eqn:Q2; try reflexivity; exfalso.
      - assert (neqb t w = true) by num. congruence.
      - assert (neqb t u = true) by num. congruence. }
    rewrite (A _ _ T1), (A _ _ T2). reflexivity. }
  destruct (const_pair dbg comp cv y v _ _ CV W N I L' B' Q) as (c & z1 & z2 & F & Z1 & Z2 & P1 & P2). exists c, z1, z2.
  split; [exact F|]. split; [exact Z1|]. split; [exact Z2|]. split.
  - eapply F2_impl; [|exact P1]. cbn beta. intros a d. rewrite K. auto.
  - eapply F2_impl; [|exact P2]. cbn beta. intros a d. rewrite K. auto.
Qed.

Lemma told_inside v t : strictly_inside b e t -> told v b e t = nan.
Proof. intros [H1 H2]. unfold told. rewrite H1, H2. reflexivity. Qed.
Lemma told_end v t : neqb t b = true \/ neqb t e = true -> told v b e t = v.
Proof. unfold told. intros [-> | ->]; [reflexivity|]. rewrite orb_true_r. reflexivity. Qed.
Definition le_v (u w : B64) : bool := negb (nltb w u).
Definition ge_v (u w : B64) : bool := negb (nltb u w).
Lemma le_cv (a d : sample B64) : sample_le a d = le_v (s_value a) (s_value d).
Proof. unfold sample_le, sample_gt, sample_lt, le_v. reflexivity. Qed.
Lemma ge_cv (a d : sample B64) : sample_ge a d = ge_v (s_value a) (s_value d).
Proof. unfold sample_ge, sample_lt, ge_v. reflexivity. Qed.

Lemma C108_second_lemma : exists z1 z2,
  compute_robustness dbg fuel (EAnd [phi; EConst false]) tr s = Ok z1 /\ compute_robustness dbg fuel (EOr [phi; EConst true]) tr s = Ok z2 /\
  Forall2 (fun a c => neqb (s_time c) (s_time a) = true /\ (strictly_inside b e (s_time a) -> s_value c = s_value a) /\
    (neqb (s_time a) b = true \/ neqb (s_time a) e = true -> isnum (s_value a) = true -> s_value c = nopp ninf)) y z1 /\
  Forall2 (fun a c => neqb (s_time c) (s_time a) = true /\ (strictly_inside b e (s_time a) -> s_value c = s_value a) /\
    (neqb (s_time a) b = true \/ neqb (s_time a) e = true -> isnum (s_value a) = true -> s_value c = ninf)) y z2.
Proof.
  destruct (const_run sample_le le_v false le_cv) as (c & z1 & _ & F & Z1 & _ & P1 & _).
  destruct (const_run sample_ge ge_v true ge_cv) as (c' & z2 & _ & F' & Z2 & _ & P2 & _).
  exists z1, z2. unfold compute_robustness in *. cbn [compute compute_list] in *. rewrite E, F, F'. cbn [bind].
  split; [exact Z1|]. split; [exact Z2|]. split.
  - eapply F2_impl; [|exact P1]. intros a d [Ht Hv]. split; [exact Ht|]. split; [intros H; rewrite told_inside in Hv by exact H|intros H Nv; rewrite told_end in Hv by exact H].
    + rewrite Hv. unfold le_v. rewrite nltb_nan_l by reflexivity. reflexivity.
    + rewrite Hv. unfold le_v. cbn iota. destruct (nltb (nopp ninf) (s_value a)) eqn:Q; cbn [negb]; [reflexivity|]. clear -Q Nv.
      destruct (s_value a) as [z|[|]| |z m x H]; [| | | |]; try reflexivity; try discriminate Q; try discriminate Nv.
  - eapply F2_impl; [|exact P2]. intros a d [Ht Hv]. split; [exact Ht|]. split; [intros H; rewrite told_inside in Hv by exact H|intros H Nv; rewrite told_end in Hv by exact H].
    + rewrite Hv. unfold ge_v. rewrite nltb_nan_r by reflexivity. reflexivity.
    + rewrite Hv. unfold ge_v. cbn iota. destruct (nltb (s_value a) ninf) eqn:Q; cbn [negb]; [reflexivity|]. clear -Q Nv.
      destruct (s_value a) as [z|[|]| |z m x H]; [| | | |]; try reflexivity; try discriminate Q; try discriminate Nv.
Qed.
Lemma C39_first_lemma bo : exists z1 z2,
  compute_robustness dbg fuel (EAnd [EConst bo; phi]) tr s = Ok z1 /\ compute_robustness dbg fuel (EOr [EConst bo; phi]) tr s = Ok z2 /\
  Forall2 (fun a c => neqb (s_time c) (s_time a) = true /\ (strictly_inside b e (s_time a) -> isnum (s_value c) = false)) y z1 /\
  Forall2 (fun a c => neqb (s_time c) (s_time a) = true /\ (strictly_inside b e (s_time a) -> isnum (s_value c) = false)) y z2.
Proof.
  destruct (const_run sample_le le_v bo le_cv) as (c & _ & z1 & F & _ & Z1 & _ & P1).
  destruct (const_run sample_ge ge_v bo ge_cv) as (c' & _ & z2 & F' & _ & Z2 & _ & P2).
  rewrite F in F'. injection F' as <-.
  exists z1, z2. unfold compute_robustness in *. cbn [compute compute_list] in *. rewrite E, F. cbn [bind].
  split; [exact Z1|]. split; [exact Z2|]. split.
  - eapply F2_impl; [|exact P1]. intros a d [Ht Hv]. split; [exact Ht|]. intros H. rewrite told_inside in Hv by exact H.
    rewrite Hv. unfold le_v. rewrite nltb_nan_r by reflexivity. reflexivity.
  - eapply F2_impl; [|exact P2]. intros a d [Ht Hv]. split; [exact Ht|]. intros H. rewrite told_inside in Hv by exact H.
    rewrite Hv. unfold ge_v. rewrite nltb_nan_l by reflexivity. reflexivity.
Qed.
End F.

Lemma C108_witness : exists (x : signal B64) z z', wf x /\ Forall (fun c => finite (s_time c) = true /\ finite (s_value c) = true) x /\
  compute_robustness true 0 (EAnd [EPred sx GT nzero; EConst false]) [(sx, x)] false = Ok z /\ Exists (fun a => nltb nzero (s_value a) = true) z /\
  compute_robustness true 0 (EOr [EPred sx LT nzero; EConst true]) [(sx, x)] false = Ok z' /\ Exists (fun a => nltb (s_value a) nzero = true) z'.
Proof.
  exists c39_x. destruct (two_ok (compute_robustness true 0 (EAnd [EPred sx GT nzero; EConst false]) [(sx, c39_x)] false)
    (compute_robustness true 0 (EOr [EPred sx LT nzero; EConst true]) [(sx, c39_x)] false)
    (fun y z => existsb (fun a => nltb nzero (s_value a)) y && existsb (fun a => nltb (s_value a) nzero) z)) as (y & z & E1 & E2 & H).
  { vm_compute; reflexivity. }
  apply andb_prop in H as [H1 H2]. exists y, z.
  split; [apply b64_wf; vm_compute; reflexivity|]. split.
  { assert (K : forallb (fun c => finite (s_time c) && finite (s_value c)) c39_x = true) by (vm_compute; reflexivity). rewrite forallb_forall in K.
    apply Forall_forall. intros c Hc. apply andb_prop, K, Hc. }
  split; [exact E1|]. split; [apply Exists_exists, existsb_exists, H1|]. split; [exact E2|]. apply Exists_exists, existsb_exists, H2.
Qed.
Lemma C108_case_lemma : exists a y, compute_robustness true 0 bphi btr false = Ok y /\ In a y /\ strictly_inside (dbl 0 0) (dbl 4 0) (s_time a).
Proof.
  destruct (one_ok (compute_robustness true 0 bphi btr false) (fun y => existsb (fun a => negb (neqb (s_time a) (dbl 0 0)) && negb (neqb (s_time a) (dbl 4 0))) y)) as (y & E & H); [vm_compute; reflexivity|].
  apply existsb_exists in H as (a & Ha & H). apply andb_prop in H as [H1 H2]. apply negb_true_iff in H1, H2. exists a, y. unfold strictly_inside. auto.
Qed.
