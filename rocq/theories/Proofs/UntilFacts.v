(** C37, C38, C39. *)
From Coq Require Import Sorted Reals Lra.
From Flocq Require Import IEEE754.BinarySingleNaN.
From Verif Require Import Base Num NumXR NumB64.
From Verif.Model Require Import Signal MonoWedge MinMax Ast Robustness.
From Verif.Spec Require Import SignalSpec Formula UntilSpec.
From Verif.Proofs Require Import NumFacts SignalFacts LowerBound Reshape Sync SyncProps SignalProps MinMaxFacts SeqFacts B64Facts WinFacts MinMaxCases MinMaxExamples RobFacts RobWf.
Local Open Scope nat_scope.

Section G.
Context {F : Type} `{NF : Num F} {NL : NumLaws F}.

(** ** C37: the loop, read from the front *)
Fixpoint uval (xs ys : list (sample F)) : F * F * list (sample F) :=
  match xs, ys with
  | i :: xs', j :: ys' =>
      let '(prev, mx, out) := uval xs' ys' in
      let mx' := std_max mx (s_value j) in
      let prev' := std_max3 (s_value j) (std_min (s_value i) prev) (nopp mx') in
      (prev', mx', mkSample (s_time i) prev' nzero :: out)
  | _, _ => (ninf, nopp ninf, [])
  end.

Fixpoint ustate (xs ys : list (sample F)) (p m : F) : F * F :=
  match xs, ys with
  | i :: xs', j :: ys' =>
      let m' := std_max m (s_value j) in
      ustate xs' ys' (std_max3 (s_value j) (std_min (s_value i) p) (nopp m')) m'
  | _, _ => (p, m)
  end.

Lemma until_loop_snoc : forall xs ys i j p m st, length xs = length ys ->
  let '(p1, m1) := ustate xs ys p m in
  let m' := std_max m1 (s_value j) in
  let p' := std_max3 (s_value j) (std_min (s_value i) p1) (nopp m') in
  ustate (xs ++ [i]) (ys ++ [j]) p m = (p', m') /\
  until_loop (xs ++ [i]) (ys ++ [j]) p m st = until_loop xs ys p m st ++ [mkSample (s_time i) p' nzero].
Proof.
  induction xs as [|a xs IH]; intros [|b ys] i j p m st L; try discriminate; cbn [ustate app until_loop].
  - split; reflexivity.
  - apply IH. cbn in L. lia.
Qed.
Lemma until_loop_uval : forall xs ys, length xs = length ys ->
  ustate (rev xs) (rev ys) ninf (nopp ninf) = fst (uval xs ys) /\
  rev (until_loop (rev xs) (rev ys) ninf (nopp ninf) []) = snd (uval xs ys).
Proof.
  induction xs as [|i xs IH]; intros [|j ys] L; try discriminate; [split; reflexivity|]. cbn [rev uval].
  destruct (IH ys ltac:(cbn in L; lia)) as [E1 E2].
  pose proof (until_loop_snoc (rev xs) (rev ys) i j ninf (nopp ninf) [] ltac:(rewrite !rev_length; cbn in L; lia)) as K.
  destruct (uval xs ys) as [[p m] out]. cbn [fst snd] in *. rewrite E1 in K. cbn zeta in K. destruct K as [K1 K2].
  rewrite K1, K2, rev_app_distr. cbn [rev app fst snd]. split; [reflexivity|]. f_equal. exact E2.
Qed.

Definition nums (x : list (sample F)) : Prop := Forall (fun a => isnum (s_value a) = true) x.

Lemma std_max_le (c a b : F) : isnum c = true -> isnum a = true -> isnum b = true ->
  isnum (std_max a b) = true /\ (nleb c (std_max a b) = true <-> nleb c a = true \/ nleb c b = true).
Proof.
  intros C A B. unfold std_max. destruct (nltb a b) eqn:E; (split; [assumption|]).
  - split; [auto|]. intros [H|H]; num.
  - split; [auto|]. intros [H|H]; num.
Qed.
Lemma std_min_le (c a b : F) : isnum c = true -> isnum a = true -> isnum b = true ->
  isnum (std_min a b) = true /\ (nleb c (std_min a b) = true <-> nleb c a = true /\ nleb c b = true).
Proof.
  intros C A B. unfold std_min. destruct (nltb b a) eqn:E; (split; [assumption|]).
  - split; [|tauto]. intros H. split; num.
  - split; [|tauto]. intros H. split; num.
Qed.
Lemma opp_max_le (c a b : F) : isnum c = true -> isnum a = true -> isnum b = true ->
  (nleb c (nopp (std_max a b)) = true <-> nleb c (nopp a) = true /\ nleb c (nopp b) = true).
Proof.
  intros C A B. rewrite !nleb_true, !isnum_opp, !rk_opp. unfold std_max. destruct (nltb a b) eqn:E; num_hyps; intuition lra.
Qed.

Fixpoint uh (c : F) (xs ys : list (sample F)) : Prop :=
  match xs, ys with
  | i :: xs', j :: ys' =>
      nleb c (s_value j) = true \/ (nleb c (s_value i) = true /\ uh c xs' ys') \/
      Forall (fun b => nleb c (nopp (s_value b)) = true) (j :: ys')
  | _, _ => True
  end.

Lemma uval_spec c : isnum c = true -> forall xs ys, nums xs -> nums ys -> length xs = length ys ->
  let '(p, m, out) := uval xs ys in
  isnum p = true /\ isnum m = true /\ (nleb c p = true <-> uh c xs ys) /\
  (nleb c (nopp m) = true <-> Forall (fun b => nleb c (nopp (s_value b)) = true) ys).
Proof.
  intros C. assert (PI : nleb c ninf = true) by (apply nleb_true; split; [exact C|split; [apply isnum_inf|apply rk_inf, C]]).
  induction xs as [|i xs IH]; intros [|j ys] Nx Ny L; try discriminate; cbn [uval uh].
  { split; [apply isnum_inf|]. split; [rewrite isnum_opp; apply isnum_inf|]. rewrite nopp_opp. split; split; auto. }
  inversion Nx as [|? ? Ni Nx']; subst. inversion Ny as [|? ? Nj Ny']; subst. specialize (IH ys Nx' Ny' ltac:(cbn in L; lia)).
  destruct (uval xs ys) as [[p m] out]. destruct IH as (Np & Nm & Hp & Hm).
  destruct (std_max_le c m (s_value j) C Nm Nj) as [Nm' _].
  destruct (std_min_le c (s_value i) p C Ni Np) as [Nmin Hmin].
  destruct (std_max_le c (s_value j) (std_min (s_value i) p) C Nj Nmin) as [Nx1 Hx1].
  destruct (std_max_le c (std_max (s_value j) (std_min (s_value i) p)) (nopp (std_max m (s_value j))) C Nx1 ltac:(rewrite isnum_opp; exact Nm')) as [Nx2 Hx2].
  unfold std_max3. split; [exact Nx2|]. split; [exact Nm'|].
  assert (HM : nleb c (nopp (std_max m (s_value j))) = true <-> Forall (fun b => nleb c (nopp (s_value b)) = true) (j :: ys)).
  { rewrite (opp_max_le c m (s_value j) C Nm Nj), Hm, Forall_cons_iff. tauto. }
  split; [|exact HM]. rewrite Hx2, Hx1, Hmin, HM, Hp. tauto.
Qed.

Lemma uh_index c : forall xs ys, length xs = length ys ->
  (uh c xs ys <-> until_reached (values xs) (values ys) 0 c \/ until_given_up (values xs) (values ys) 0 c \/ until_stays (values xs) 0 c).
Proof.
  induction xs as [|i xs IH]; intros [|j ys] L; try discriminate; cbn [uh].
  { split; [|auto]. intros _. right. right. intros [|l] p _ E; discriminate. }
  rewrite (IH ys ltac:(cbn in L; lia)). clear IH. unfold until_reached, until_given_up, until_stays, values. cbn [map].
  split.
  - intros [H|[[H1 [H2|[H2|H2]]]|H]].
    + left. exists 0, (s_value j). repeat split; auto. intros l p Hl. lia.
    + left. destruct H2 as (m & q & Hm & E & Hq & Hp). exists (S m), q. split; [lia|]. split; [exact E|]. split; [exact Hq|].
      intros [|l] p Hl El; [injection El as <-; exact H1|]. apply (Hp l p); [lia|exact El].
    + right. left. destruct H2 as (m & Hm & Hq & Hp). exists (S m). split; [cbn; lia|]. split.
      * intros [|l] q Hl El; [lia|]. apply (Hq l q); [lia|exact El].
      * intros [|l] p Hl El; [injection El as <-; exact H1|]. apply (Hp l p); [lia|exact El].
    + right. right. intros [|l] p Hl El; [injection El as <-; exact H1|]. apply (H2 l p); [lia|exact El].
    + right. left. exists 0. split; [cbn; lia|]. split; [|intros; lia]. intros l q _ El. rewrite Forall_forall in H. apply nth_error_In in El.
      change (In q (map s_value (j :: ys))) in El. apply in_map_iff in El as (b & <- & Hb). apply H, Hb.
  - intros [H|[H|H]].
    + destruct H as ([|m] & q & Hm & E & Hq & Hp); [injection E as <-; auto|]. right. left. split; [apply (Hp 0); [lia|reflexivity]|].
      left. exists m, q. split; [lia|]. split; [exact E|]. split; [exact Hq|]. intros l p Hl El. apply (Hp (S l) p); [lia|exact El].
    + destruct H as ([|m] & Hm & Hq & Hp).
      * right. right. apply Forall_forall. intros b Hb. apply In_nth_error in Hb as (l & Hl). apply (Hq l); [lia|].
        change (nth_error (map s_value (j :: ys)) l = Some (s_value b)). apply map_nth_error, Hl.
      * right. left. split; [apply (Hp 0); [lia|reflexivity]|]. right. left. exists m. split; [cbn in Hm; lia|]. split.
        -- intros l q Hl El. apply (Hq (S l) q); [lia|exact El].
        -- intros l p Hl El. apply (Hp (S l) p); [lia|exact El].
    + right. left. split; [apply (H 0); [lia|reflexivity]|]. right. right. intros l p Hl El. apply (H (S l) p); [lia|exact El].
Qed.

Lemma nth_error_skipn {A} (l : list A) : forall k i, nth_error (skipn k l) i = nth_error l (k + i).
Proof. induction l as [|a l IH]; intros [|k] i; cbn; auto; destruct i; auto. Qed.

Lemma until_shift (ps qs : list F) k c : length ps = length qs ->
  (until_reached (skipn k ps) (skipn k qs) 0 c \/ until_given_up (skipn k ps) (skipn k qs) 0 c \/ until_stays (skipn k ps) 0 c) <->
  (until_reached ps qs k c \/ until_given_up ps qs k c \/ until_stays ps k c).
Proof.
  intros L. unfold until_reached, until_given_up, until_stays. split; (intros [H|[H|H]]; [left|right; left|right; right]).
  - destruct H as (m & q & _ & E & Hq & Hp). exists (k + m), q. split; [lia|]. rewrite <- nth_error_skipn. split; [exact E|]. split; [exact Hq|].
    intros l p Hl El. apply (Hp (l - k) p); [lia|]. rewrite nth_error_skipn. replace (k + (l - k)) with l by lia. exact El.
  - destruct H as (m & Hm & Hq & Hp). exists (k + m). rewrite skipn_length in Hm. split; [lia|]. split.
    + intros l q Hl El. apply (Hq (l - k) q); [lia|]. rewrite nth_error_skipn. replace (k + (l - k)) with l by lia. exact El.
    + intros l p Hl El. apply (Hp (l - k) p); [lia|]. rewrite nth_error_skipn. replace (k + (l - k)) with l by lia. exact El.
  - intros l p Hl El. apply (H (l - k) p); [lia|]. rewrite nth_error_skipn. replace (k + (l - k)) with l by lia. exact El.
  - destruct H as (m & q & Hm & E & Hq & Hp). exists (m - k), q. split; [lia|]. rewrite nth_error_skipn. replace (k + (m - k)) with m by lia. split; [exact E|]. split; [exact Hq|].
    intros l p Hl El. rewrite nth_error_skipn in El. apply (Hp (k + l) p); [lia|exact El].
  - destruct H as (m & Hm & Hq & Hp). exists (m - k). rewrite skipn_length. split; [lia|]. split.
    + intros l q Hl El. rewrite nth_error_skipn in El. apply (Hq (k + l) q); [lia|exact El].
    + intros l p Hl El. rewrite nth_error_skipn in El. apply (Hp (k + l) p); [lia|exact El].
  - intros l p Hl El. rewrite nth_error_skipn in El. apply (H (k + l) p); [lia|exact El].
Qed.

Lemma uval_nth : forall k xs ys a, length xs = length ys -> nth_error (snd (uval xs ys)) k = Some a ->
  s_value a = fst (fst (uval (skipn k xs) (skipn k ys))).
Proof.
  induction k as [|k IH]; intros [|i xs] [|j ys] a L E; try discriminate; cbn [uval skipn] in *.
  - destruct (uval xs ys) as [[p m] out]. cbn [snd nth_error] in E. injection E as <-. reflexivity.
  - specialize (IH xs ys a ltac:(cbn in L; lia)). destruct (uval xs ys) as [[p m] out]. apply IH, E.
Qed.
Lemma uval_times : forall xs ys, length xs = length ys -> times (snd (uval xs ys)) = times xs.
Proof.
  induction xs as [|i xs IH]; intros [|j ys] L; try discriminate; [reflexivity|]. cbn [uval]. specialize (IH ys ltac:(cbn in L; lia)).
  destruct (uval xs ys) as [[p m] out]. cbn [snd times map s_time] in *. f_equal. exact IH.
Qed.
Lemma uval_values_num : forall xs ys, nums xs -> nums ys -> length xs = length ys -> nums (snd (uval xs ys)).
Proof.
  induction xs as [|i xs IH]; intros [|j ys] Nx Ny L; try discriminate; [constructor|].
  pose proof (uval_spec nzero isnum_zero (i :: xs) (j :: ys) Nx Ny L) as K. cbn [uval] in *. specialize (IH ys).
  destruct (uval xs ys) as [[p m] out]. destruct K as [K _]. inversion Nx; inversion Ny; subst. constructor; [exact K|]. apply IH; auto.
Qed.
Lemma nums_skipn k x : nums x -> nums (skipn k x).
Proof. revert x. induction k as [|k IH]; intros [|a x] H; auto. cbn. apply IH. inversion H; assumption. Qed.
Lemma values_skipn k (x : list (sample F)) : values (skipn k x) = skipn k (values x).
Proof. revert x. induction k as [|k IH]; intros [|a x]; auto. apply IH. Qed.

Lemma until_main dbg (x y x' y' : signal F) : wf x -> wf y -> synchronize x y = Ok (x', y') ->
  all_num (values x') -> all_num (values y') ->
  exists z, compute_until dbg x y = Ok z /\ wf z /\ times z = times x' /\ all_num (values z) /\
    forall k v, nth_error (values z) k = Some v -> forall c, isnum c = true ->
      (nleb c v = true <-> until_reached (values x') (values y') k c \/ until_given_up (values x') (values y') k c \/ until_stays (values x') k c).
Proof.
  intros Wx Wy S Nx Ny. destruct (sync_out _ _ _ _ Wx Wy S) as (W1 & W2 & N1 & N2 & T). pose proof (same_length _ _ T) as L.
  unfold all_num, values in Nx, Ny. rewrite Forall_map in Nx, Ny. change (nums x') in Nx. change (nums y') in Ny.
  destruct (until_loop_uval x' y' L) as [_ E2]. pose proof (uval_times x' y' L) as Tw. set (w := snd (uval x' y')) in *.
  assert (EE : compute_until dbg x y = Ok (sig_of (points w))).
  { unfold compute_until. rewrite S. cbn [bind]. rewrite L, Nat.eqb_refl. rewrite E2.
    assert (B1 : neqb (begin_time x') (begin_time y') = true) by (inversion T; subst; [congruence|assumption]).
    assert (B2 : neqb (end_time x') (end_time y') = true).
    { unfold end_time. clear -T N1. induction T as [|a b x y E T IH]; [congruence|]. destruct T as [|a' b' x y E' T]; [exact E|]. apply IH. discriminate. }
    rewrite B1, B2. unfold assert_. cbn [negb]. rewrite andb_false_r. cbn [bind]. apply from_samples_ok; rewrite Tw; apply W1. }
  exists (sig_of (points w)). split; [exact EE|]. split; [apply wf_canon; exists (points w); split; [|reflexivity]; unfold wfp; rewrite <- times_points, Tw; destruct W1 as (? & ? & _); auto|].
  split; [rewrite times_sig_of, <- times_points; exact Tw|]. rewrite values_sig_of, <- values_points. split.
  { unfold all_num, values. rewrite Forall_map. apply uval_values_num; assumption. }
  intros k v Ev c C. unfold values in Ev. rewrite nth_error_map in Ev. destruct (nth_error w k) as [a|] eqn:Ea; [|discriminate]. injection Ev as <-.
  rewrite (uval_nth k x' y' a L Ea).
  pose proof (uval_spec c C (skipn k x') (skipn k y') (nums_skipn k _ Nx) (nums_skipn k _ Ny) ltac:(rewrite !skipn_length; lia)) as K.
  destruct (uval (skipn k x') (skipn k y')) as [[p m] out]. destruct K as (_ & _ & K & _). cbn [fst]. rewrite K.
  rewrite uh_index by (rewrite !skipn_length; lia). rewrite !values_skipn. apply until_shift. unfold values. rewrite !map_length. exact L.
Qed.

(** ** C39: the second operand never wins *)
Lemma merged_const (c0 c1 : sample F) : forall xs i l, merged i xs c0 [c1] l -> increasing (times xs) ->
  (forall a, In a xs -> nleb (s_time a) (s_time c1) = true) ->
  map fst l = xs /\ forall ab, In ab l -> snd ab = c1 \/ exists t, snd ab = interp_at c0 t.
Proof.
  induction xs as [|x xs IH]; intros i l M I Le.
  - inversion M; subst; split; auto; intros ? [].
  - cbn [times map] in I. apply increasing_cons in I as [I' Fx]. rewrite Forall_map in Fx. rewrite Forall_forall in Fx.
    inversion M as [| |? ? ? ? ? ? l' E M'|? ? ? ? ? ? l' E M'|? ? ? ? ? ? l' E M']; subst.
    + assert (xs = []) as ->. { destruct xs as [|x' xs]; [reflexivity|]. specialize (Le x' (or_intror (or_introl eq_refl))). specialize (Fx x' (or_introl eq_refl)). exfalso. num. }
      inversion M'; subst; (split; [reflexivity|]); intros ab [<-|[]]; left; reflexivity.
    + destruct (IH x l' M' I' (fun a Ha => Le a (or_intror Ha))) as [E1 E2]. cbn. rewrite E1. split; [reflexivity|].
      intros ab [<-|Hab]; [right; eexists; reflexivity|auto].
    + exfalso. specialize (Le x (or_introl eq_refl)). num.
Qed.
Lemma pair_loop_left comp : forall xs ys pi pj last out, last <> ChY ->
  Forall2 (fun a b => comp a b = true) xs ys -> pair_loop (F := F) comp pi pj xs ys last out = push_all out xs.
Proof.
  intros xs ys pi pj last out L H. revert pi pj last out L. induction H as [|a b xs ys E H IH]; intros pi pj last out L; [reflexivity|].
  cbn [pair_loop push_all]. rewrite E. destruct last; try congruence; cbn [chosen_eqb]; unfold pair_step; cbn [bind];
    (destruct (push_back out a); cbn [bind]; [apply IH; discriminate|reflexivity..]).
Qed.

Lemma end_max (x : list (sample F)) a : fine x -> In a x -> nleb (s_time a) (end_time x) = true.
Proof.
  intros Fx Ha. pose proof Fx as [N I]. unfold all_num, times in N. rewrite Forall_map, Forall_forall in N. unfold end_time.
  destruct (last_opt x) as [b|] eqn:E; [|apply last_opt_none in E; subst; destruct Ha].
  apply last_opt_some in E as (l & ->). assert (Nb := N b ltac:(apply in_or_app; right; left; reflexivity)). pose proof (N a Ha) as Na.
  apply in_app_or in Ha as [Ha|[<-|[]]]; [|num]. pose proof (increasing_app_cons_lt _ _ _ _ I Ha). num.
Qed.

Lemma const_neutral dbg comp (y : signal F) (c0 c1 : sample F) : wf y -> y <> [] -> wf [c0; c1] ->
  neqb (begin_time y) (s_time c0) = true -> nleb (end_time y) (s_time c1) = true ->
  (forall a b, (s_value b = s_value c0 \/ s_value b = s_value c1 \/ exists t, s_value b = interpolate c0 t) -> comp a b = true) ->
  minmax_pair dbg comp false y [c0; c1] = Ok y.
Proof.
  intros W N Fc B E K. unfold minmax_pair. destruct y as [|i xs]; [congruence|]. cbn in B.
  destruct (sync_ok [] i xs [] c0 [c1] (wf_fine _ W) (wf_fine _ Fc) B (or_introl eq_refl)) as (l & M & S).
  cbn [app] in S. pose proof S as S0. rewrite S. cbn [bind].
  pose proof W as (WN & WI & _). cbn [times map] in WI. pose proof WI as WI'. apply increasing_cons in WI' as [I' Fx].
  destruct (merged_const c0 c1 xs i l M I') as [E1 E2].
  { intros a Ha. assert (nleb (s_time a) (end_time (i :: xs)) = true) as Q.
    { apply end_max; [exact (wf_fine _ W)|right; exact Ha]. }
    num. }
  rewrite E1 in *. rewrite <- (slopes_ok_canon (i :: xs)) in * by apply W.
  assert (C : Forall2 (fun a b => comp a b = true) (i :: xs) (sig_of (points (c0 :: map snd l)))).
  { assert (L : length (i :: xs) = length (sig_of (points (c0 :: map snd l)))).
    { rewrite length_sig_of, length_points. cbn. rewrite map_length, <- E1, map_length. reflexivity. }
    assert (Q : Forall (fun b => forall a, comp a b = true) (sig_of (points (c0 :: map snd l)))).
    { apply Forall_forall. intros b Hb a. apply K. apply In_sig_of_points in Hb as (c & Hc & _ & Hv). rewrite Hv.
      destruct Hc as [<-|Hc]; [auto|]. apply in_map_iff in Hc as (ab & <- & Hab). destruct (E2 ab Hab) as [-> |(t & ->)]; [auto|]. right. right. exists t. reflexivity. }
    clear -L Q. revert L Q. generalize (i :: xs) as u. generalize (sig_of (points (c0 :: map snd l))) as v. intros v.
    induction v as [|b v IH]; intros [|a u] L Q; try discriminate; constructor.
    - inversion Q; auto.
    - apply IH; [cbn in L; lia|inversion Q; assumption]. }
  destruct (sync_out _ _ _ _ W Fc S0) as (_ & _ & N1 & _ & T). change (same_times (i :: xs) (sig_of (points (c0 :: map snd l)))) in T.
  set (cc := sig_of (points (c0 :: map snd l))) in *.
  rewrite (same_length _ _ T), Nat.eqb_refl, (same_begin _ _ N1 T), (same_end _ _ N1 T). unfold assert_. cbn [negb]. rewrite andb_false_r. cbn [bind].
  rewrite pair_loop_left; [|discriminate|exact C]. apply (from_samples_self (i :: xs) W).
Qed.

Lemma trace_bounds (tr : trace F) b e : Forall (fun x => good (snd x)) tr -> spans tr b e ->
  neqb (trace_begin tr) b = true /\ neqb (trace_end tr) e = true.
Proof.
  intros G (A & (n1 & x1 & H1 & B1) & (n2 & x2 & H2 & B2)).
  assert (K : forall (t : trace F) u v, Forall (fun x => good (snd x)) t -> isnum u = true -> isnum v = true ->
    let r := fold_left (fun b e => std_min b (begin_time (snd e))) t u in
    let r' := fold_left (fun b e => std_max b (end_time (snd e))) t v in
    isnum r = true /\ isnum r' = true /\ (rk r <= rk u)%R /\ (rk v <= rk r')%R /\
    (forall k x, In (k, x) t -> (rk r <= rk (begin_time x))%R /\ (rk (end_time x) <= rk r')%R) /\
    (r = u \/ exists k x, In (k, x) t /\ r = begin_time x) /\ (r' = v \/ exists k x, In (k, x) t /\ r' = end_time x)).
  { induction t as [|[k x] t IH]; intros u v Gt Nu Nv; cbn zeta; cbn [fold_left fst snd].
    - repeat split; auto; try lra; try (exfalso; assumption).
    - inversion Gt as [|? ? Gx Gt']; subst. cbn [snd] in Gx. destruct (good_begin x Gx) as [Nb Ne].
      destruct (IH (std_min u (begin_time x)) (std_max v (end_time x)) Gt' (std_min_num _ _ Nu Nb) (std_max_num _ _ Nv Ne)) as (R1 & R2 & R3 & R4 & R5 & R6 & R7).
      set (r := fold_left _ t _) in *. set (r' := fold_left (fun b e => std_max b (end_time (snd e))) t _) in *.
      assert (Q1 : (rk (std_min u (begin_time x)) <= rk u)%R /\ (rk (std_min u (begin_time x)) <= rk (begin_time x))%R).
      { unfold std_min. destruct (nltb _ _) eqn:Q; num_hyps; lra. }
      assert (Q2 : (rk v <= rk (std_max v (end_time x)))%R /\ (rk (end_time x) <= rk (std_max v (end_time x)))%R).
      { unfold std_max. destruct (nltb _ _) eqn:Q; num_hyps; lra. }
      split; [exact R1|]. split; [exact R2|]. split; [lra|]. split; [lra|]. split; [|split].
      + intros k' x' [[= <- <-]|Hx]; [lra|]. apply (R5 k' x' Hx).
      + destruct R6 as [-> |(k' & x' & Hx & ->)]; [|right; exists k', x'; split; [right; exact Hx|reflexivity]].
        unfold std_min. destruct (nltb _ _); [right; exists k, x; split; [left; reflexivity|reflexivity]|left; reflexivity].
      + destruct R7 as [-> |(k' & x' & Hx & ->)]; [|right; exists k', x'; split; [right; exact Hx|reflexivity]].
        unfold std_max. destruct (nltb _ _); [right; exists k, x; split; [left; reflexivity|reflexivity]|left; reflexivity]. }
  assert (NI : isnum (nopp ninf : F) = true) by (rewrite isnum_opp; apply isnum_inf).
  destruct (K tr ninf (nopp ninf) G isnum_inf NI) as (R1 & R2 & _ & _ & R5 & R6 & R7).
  fold (trace_begin tr) in *. fold (trace_end tr) in *.
  apply neqb_true in B1 as (Nb & _ & B1). apply neqb_true in B2 as (Ne & _ & B2).
  pose proof (R5 _ _ H1) as [L1 _]. pose proof (R5 _ _ H2) as [_ L2]. split; apply neqb_true; (split; [assumption|split; [assumption|]]).
  - assert (rk b <= rk (trace_begin tr))%R; [|lra]. destruct R6 as [-> |(k & x & Hx & ->)]; [apply rk_inf, Nb|]. destruct (A k x Hx) as [Q _]. num_hyps. lra.
  - assert (rk (trace_end tr) <= rk e)%R; [|lra]. destruct R7 as [-> |(k & x & Hx & ->)]; [apply rk_ninf_opp, Ne|]. destruct (A k x Hx) as [_ Q]. num_hyps. lra.
Qed.
End G.

(** ** C37 at the level of formulas *)
Lemma rob_until_made dbg (i : interval B64) x y : made_interval i -> rob_until dbg i x y = compute_until dbg x y.
Proof.
  intros M. unfold rob_until. destruct (has_value i) eqn:V; cbn [negb]; [|reflexivity]. pose proof (b64_hv i V) as Z.
  unfold has_value, is_zero_to_inf in V. apply andb_prop in V as [_ V]. unfold as_double in *. cbn [fst] in Z. rewrite V, Z. reflexivity.
Qed.

Lemma C37_lemma dbg fuel (tr : trace B64) s a b i x y x' y' :
  Forall (fun e => wf (snd e) /\ snd e <> []) tr -> made_interval i ->
  compute_robustness dbg fuel a tr s = Ok x -> compute_robustness dbg fuel b tr s = Ok y ->
  synchronize x y = Ok (x', y') -> all_num (values x') -> all_num (values y') ->
  exists z, compute_robustness dbg fuel (EUntil a b i) tr s = Ok z /\ times z = times x' /\
    forall k v, nth_error (values z) k = Some v -> forall c, isnum c = true ->
      (nleb c v = true <-> until_reached (values x') (values y') k c \/ until_given_up (values x') (values y') k c \/ until_stays (values x') k c).
Proof.
  intros G M Ea Eb S Nx Ny. destruct (C43_lemma _ _ _ _ _ _ G Ea) as [Wx _]. destruct (C43_lemma _ _ _ _ _ _ G Eb) as [Wy _].
  destruct (until_main dbg x y x' y' Wx Wy S Nx Ny) as (z & E & _ & T & _ & K). exists z. split; [|auto].
  unfold compute_robustness in *. cbn [compute]. rewrite Ea, Eb. cbn [bind]. rewrite rob_until_made by exact M. exact E.
Qed.

Definition sx : string := "x". Definition sy : string := "y".
Definition c37_tr : trace B64 := [(sx, sig_of [(dbl 0 0, dbl (-5) 0); (dbl 1 0, dbl (-5) 0)]); (sy, sig_of [(dbl 0 0, dbl (-1) 0); (dbl 1 0, dbl (-1) 0)])].
Definition c37_phi : expr B64 := EUntil (EPred sx GT nzero) (EPred sy GT nzero) interval_default.
Lemma one_ok {A} (m : outcome A) (P : A -> bool) : match m with Ok a => P a | _ => false end = true -> exists a, m = Ok a /\ P a = true.
Proof. destruct m; intros H; try discriminate. eauto. Qed.
Lemma C37_witness : exists (x y : signal B64) z, wf x /\ wf y /\
  Forall (fun a => nltb (s_value a) nzero = true) x /\ Forall (fun a => nltb (s_value a) nzero = true) y /\
  compute_robustness true 0 c37_phi [(sx, x); (sy, y)] false = Ok z /\ Forall (fun a => nltb nzero (s_value a) = true) z /\ z <> [].
Proof.
  exists (sig_of [(dbl 0 0, dbl (-5) 0); (dbl 1 0, dbl (-5) 0)]), (sig_of [(dbl 0 0, dbl (-1) 0); (dbl 1 0, dbl (-1) 0)]).
  destruct (one_ok (compute_robustness true 0 c37_phi c37_tr false) (fun z => forallb (fun a => nltb nzero (s_value a)) z && Nat.ltb 0 (length z))) as (z & E & H).
  { vm_compute; reflexivity. }
  apply andb_prop in H as [H1 H2]. exists z. split; [apply b64_wf; vm_compute; reflexivity|]. split; [apply b64_wf; vm_compute; reflexivity|].
  split. { apply Forall_forall, forallb_forall. vm_compute; reflexivity. } split. { apply Forall_forall, forallb_forall. vm_compute; reflexivity. }
  split; [exact E|]. split; [apply Forall_forall, forallb_forall, H1|]. intros ->. discriminate H2.
Qed.

(** ** C38 *)
Lemma sub_num (x y : B64) : nltb y x = true -> isnum (nsub x y) = true.
Proof.
  intros H. destruct (finite x) eqn:Fx, (finite y) eqn:Fy.
  - apply (sub_rk _ _ Fx Fy).
  - destruct x, y; cbn in *; try discriminate; destruct s0; try discriminate; reflexivity.
  - destruct x, y; cbn in *; try discriminate; destruct s; try discriminate; reflexivity.
  - destruct x, y; cbn in *; try discriminate; destruct s, s0; try discriminate; reflexivity.
Qed.
Lemma span_num (y : signal B64) : wf y -> y <> [] -> 2 <= length y \/ finite (begin_time y) = true -> isnum (nsub (end_time y) (begin_time y)) = true.
Proof.
  intros (Ny & I & _) N H. destruct y as [|a [|c y]]; [congruence| |].
  - destruct H as [H|H]; [cbn in H; lia|]. change (end_time [a]) with (begin_time [a]). apply (sub_rk _ _ H H).
  - apply sub_num. change (begin_time (a :: c :: y)) with (s_time a). unfold end_time.
    assert (K : forall (l : signal B64) c, all_num (times (c :: l)) -> increasing (times (c :: l)) -> exists d, last_opt (c :: l) = Some d /\ nleb (s_time c) (s_time d) = true).
    { induction l as [|d l IH]; intros c' Nl Il; [exists c'; split; [reflexivity|]; inversion Nl; subst; apply nleb_true; repeat split; auto; lra|].
      inversion Nl as [|? ? N1 N2]; subst. inversion Il as [|? ? I1 I2]; subst. destruct (IH d N2 I1) as (f & E & Q). exists f. split; [exact E|].
      inversion I2; subst. num. }
    inversion Ny as [|? ? N1 N2]; subst. inversion I as [|? ? I1 I2]; subst. destruct (K y c N2 I1) as (d & E & Q).
    change (last_opt (a :: c :: y)) with (last_opt (c :: y)). rewrite E. inversion I2; subst. num.
Qed.
Lemma C38_lemma dbg fuel (tr : trace B64) s phi i y : Forall (fun e => wf (snd e) /\ snd e <> []) tr -> made_interval i ->
  compute_robustness dbg fuel phi tr s = Ok y -> 2 <= length y \/ finite (begin_time y) = true ->
  compute_robustness dbg fuel (EAlways phi i) tr s = compute_robustness dbg fuel (EAlways phi interval_default) tr s /\
  compute_robustness dbg fuel (EEventually phi i) tr s = compute_robustness dbg fuel (EEventually phi interval_default) tr s.
Proof.
  intros G M E Fb. destruct (C43_lemma _ _ _ _ _ _ G E) as [W N].
  assert (Nd : isnum (nsub (end_time y) (begin_time y)) = true) by (apply span_num; assumption).
  assert (K : forall comp j, made_interval j -> rob_temporal fuel comp j y = minmax_seq comp y).
  { intros comp j Mj. unfold rob_temporal. destruct (has_value j) eqn:V; cbn [negb]; [|reflexivity].
    pose proof (made_b64 j Mj V) as E'. destruct (as_double j) as [u v]. cbn [fst snd] in E'. rewrite E'. cbn zeta.
    assert (nltb (ninf : B64) nzero = false) as -> by reflexivity. assert (neqb (ninf : B64) nzero = false) as -> by reflexivity.
    assert (nleb (nsub (end_time y) (begin_time y)) ninf = true) as ->; [|reflexivity].
    apply nleb_true. split; [exact Nd|]. split; [apply isnum_inf|]. apply rk_inf, Nd. }
  unfold compute_robustness in *. cbn [compute]. rewrite E. cbn [bind]. rewrite !K; auto; left; reflexivity.
Qed.
Lemma C38_until_lemma dbg fuel (tr : trace B64) s a b i : made_interval i ->
  compute_robustness dbg fuel (EUntil a b i) tr s = compute_robustness dbg fuel (EUntil a b interval_default) tr s.
Proof.
  intros M. unfold compute_robustness. cbn [compute]. destruct (compute dbg fuel _ a); cbn [bind]; auto. destruct (compute dbg fuel _ b); cbn [bind]; auto.
  rewrite !rob_until_made; auto. left. reflexivity.
Qed.

Definition c38_y : signal B64 := sig_of [(dbl 0 0, dbl 1 0); (dbl 1 0, dbl 1 0); (dbl 5 0, dbl (-1) 0)].
Definition c38_i : interval B64 := mkInterval (IDbl nzero) (IDbl (dbl 1 0)).
Definition hd_value (z : signal B64) : B64 := match z with [] => nzero | a :: _ => s_value a end.
Lemma C38_witness : exists (y : signal B64) i z a, interval_dbl nzero (dbl 1 0) = Ok i /\ wf y /\
  Forall (fun c => nleb (s_time c) (dbl 1 0) = true -> nltb nzero (s_value c) = true) y /\
  Exists (fun c => neqb (s_time c) (dbl 1 0) = true) y /\
  compute_robustness true 0 (EAlways (EPred sx GT nzero) i) [(sx, y)] false = Ok z /\
  hd_error z = Some a /\ neqb (s_time a) nzero = true /\ nltb (s_value a) nzero = true.
Proof.
  destruct (one_ok (compute_robustness true 0 (EAlways (EPred sx GT nzero) c38_i) [(sx, c38_y)] false)
    (fun z => nltb (hd_value z) nzero && neqb (begin_time z) nzero)) as (z & E & H).
  { vm_compute; reflexivity. }
  apply andb_prop in H as [H1 H2]. destruct z as [|a z]; [discriminate H1|].
  exists c38_y, c38_i, (a :: z), a. split; [reflexivity|]. split; [apply b64_wf; vm_compute; reflexivity|]. split.
  { assert (K : forallb (fun c => negb (nleb (s_time c) (dbl 1 0)) || nltb nzero (s_value c)) c38_y = true) by (vm_compute; reflexivity).
    apply Forall_forall. rewrite forallb_forall in K. intros c Hc Q. specialize (K c Hc). rewrite Q in K. exact K. }
  split. { assert (K : existsb (fun c => neqb (s_time c) (dbl 1 0)) c38_y = true) by (vm_compute; reflexivity). apply Exists_exists. apply existsb_exists in K. exact K. }
  split; [exact E|]. split; [reflexivity|]. split; assumption.
Qed.

(** ** C39 *)
Definition neutral (comp : sample B64 -> sample B64 -> bool) (v : B64) : Prop := forall a b, s_value b = v -> comp a b = true.
Lemma nltb_inf_l (w : B64) : nltb ninf w = false.
Proof.
  destruct (nltb ninf w) eqn:E; [|reflexivity]. apply nltb_true in E as (_ & N & L). pose proof (rk_inf w N). lra.
Qed.
Lemma nltb_inf_r (w : B64) : nltb w (nopp ninf) = false.
Proof.
  destruct (nltb w (nopp ninf)) eqn:E; [|reflexivity]. apply nltb_true in E as (N & _ & L). pose proof (rk_ninf_opp w N). lra.
Qed.
Lemma nan_add (v d : B64) (t u : B64) : d = B754_nan -> nadd v (nmul d (nsub t u)) = B754_nan.
Proof.
  intros ->. set (w := nsub t u). change (nmul B754_nan w) with (@Bmult 53 1024 b64_prec_gt_0 b64_prec_lt_emax mode_NE B754_nan w).
  replace (Bmult mode_NE B754_nan w) with (@B754_nan 53 1024) by (destruct w; reflexivity).
  change (@Bplus 53 1024 b64_prec_gt_0 b64_prec_lt_emax mode_NE v B754_nan = B754_nan). destruct v; reflexivity.
Qed.

Lemma const_value dbg (y : signal B64) (bo : bool) tb te : wf y -> y <> [] -> nltb tb te = true ->
  neqb (begin_time y) tb = true -> nleb (end_time y) te = true ->
  exists c, from_samples [mkSample tb (if bo then ninf else nopp ninf) nzero; mkSample te (if bo then ninf else nopp ninf) nzero] = Ok c /\
    minmax_pair dbg (if bo then sample_le else sample_ge) false y c = Ok y.
Proof.
  intros W N L B E. set (v := if bo then ninf else nopp ninf). pose proof (proj1 (nltb_true _ _) L) as (Nb & Ne & Lt).
  eexists. split.
  - apply from_samples_ok; cbn [times map s_time]; [repeat constructor; assumption|]. repeat constructor. exact L.
  - cbn [points map s_time s_value sig_of slope fst snd]. apply const_neutral; auto.
    + apply wf_canon. exists [(tb, v); (te, v)]. split; [|reflexivity]. split; cbn [map fst]; repeat constructor; assumption.
    + cbn [s_value]. intros a b Hb.
      assert (K : s_value b = v \/ s_value b = B754_nan).
      { destruct Hb as [H|[H|(t & H)]]; auto. right. rewrite H. unfold interpolate. cbn [s_value s_deriv s_time]. apply nan_add.
        unfold slope. cbn [fst snd]. change (nsub v v) with (@Bminus 53 1024 b64_prec_gt_0 b64_prec_lt_emax mode_NE v v).
        replace (Bminus mode_NE v v) with (@B754_nan 53 1024) by (unfold v; destruct bo; reflexivity).
        set (w := nsub te tb). change (@Bdiv 53 1024 b64_prec_gt_0 b64_prec_lt_emax mode_NE B754_nan w = B754_nan). destruct w; reflexivity. }
      unfold v in K. destruct bo.
      * unfold sample_le, sample_gt, sample_lt. apply negb_true_iff. destruct K as [-> | ->]; [apply nltb_inf_l|apply nltb_nan_l; reflexivity].
      * unfold sample_ge, sample_lt. apply negb_true_iff. destruct K as [-> | ->]; [apply nltb_inf_r|apply nltb_nan_r; reflexivity].
Qed.

Lemma C39_lemma dbg fuel (tr : trace B64) s phi y b e : Forall (fun x => wf (snd x) /\ snd x <> []) tr -> spans tr b e -> nltb b e = true ->
  compute_robustness dbg fuel phi tr s = Ok y -> neqb (begin_time y) b = true -> nleb (end_time y) e = true ->
  compute_robustness dbg fuel (EAnd [phi; EConst true]) tr s = Ok y /\
  compute_robustness dbg fuel (EOr [phi; EConst false]) tr s = Ok y.
Proof.
  intros G S L E B Q. destruct (C43_lemma _ _ _ _ _ _ G E) as [W N]. destruct (trace_bounds tr b e G S) as [T1 T2].
  assert (L' : nltb (trace_begin tr) (trace_end tr) = true) by num.
  assert (B' : neqb (begin_time y) (trace_begin tr) = true) by num.
  assert (Q' : nleb (end_time y) (trace_end tr) = true) by num.
  unfold compute_robustness in *. cbn [compute compute_list]. rewrite E. cbn [bind]. unfold rob_const. cbn [min_time max_time]. split.
  - destruct (const_value dbg y true _ _ W N L' B' Q') as (c & E1 & E2). rewrite E1. cbn [bind]. exact E2.
  - destruct (const_value dbg y false _ _ W N L' B' Q') as (c & E1 & E2). rewrite E1. cbn [bind]. exact E2.
Qed.

Definition c39_x : signal B64 := sig_of [(dbl 0 0, dbl 1 0); (dbl 1 0, dbl 2 0); (dbl 2 0, dbl 1 0)].
Lemma C39_witness : exists (x : signal B64) y z a, wf x /\ Forall (fun c => finite (s_time c) = true /\ finite (s_value c) = true) x /\
  compute_robustness true 0 (EPred sx GT nzero) [(sx, x)] false = Ok y /\ all_num (values y) /\
  compute_robustness true 0 (EAnd [EConst true; EPred sx GT nzero]) [(sx, x)] false = Ok z /\ In a z /\ isnum (s_value a) = false.
Proof.
  exists c39_x. destruct (two_ok (compute_robustness true 0 (EPred sx GT nzero) [(sx, c39_x)] false)
    (compute_robustness true 0 (EAnd [EConst true; EPred sx GT nzero]) [(sx, c39_x)] false)
    (fun y z => forallb isnum (values y) && existsb (fun a => negb (isnum (s_value a))) z)) as (y & z & E1 & E2 & H).
  { vm_compute; reflexivity. }
  apply andb_prop in H as [H1 H2]. apply existsb_exists in H2 as (a & Ha & Na). exists y, z, a.
  split; [apply b64_wf; vm_compute; reflexivity|]. split.
  { assert (K : forallb (fun c => finite (s_time c) && finite (s_value c)) c39_x = true) by (vm_compute; reflexivity). rewrite forallb_forall in K.
    apply Forall_forall. intros c Hc. apply andb_prop, K, Hc. }
  split; [exact E1|]. split; [apply Forall_forall, forallb_forall, H1|]. split; [exact E2|]. split; [exact Ha|]. apply negb_true_iff, Na.
Qed.
