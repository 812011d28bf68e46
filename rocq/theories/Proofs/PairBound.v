(** Bounds on the samples of a minimum or maximum computed in doubles. *)
From Coq Require Import Reals Lra Lia Sorted.
From Flocq Require Import Core.Core IEEE754.BinarySingleNaN.
From Verif Require Import Base Num NumB64.
From Verif.Model Require Import Signal MinMax.
From Verif.Spec Require Import SignalSpec Pwl Formula Discrete Accuracy.
From Verif.Proofs Require Import NumFacts SignalFacts B64Facts LowerBound Reshape Sync SyncProps MinMaxFacts SeqFacts MinMaxCases RobFacts InterpError SyncError DiscreteFacts RobWf.
Local Open Scope R_scope.

(** ** Where the samples of the result come from *)
Section Points.
Context {F : Type} `{NF : Num F} {NL : NumLaws F}.
Variable comp : sample F -> sample F -> bool.

(** A sample inserted between the neighbours [a] and [b] of [l]. *)
Definition crossing (l : list (sample F)) (q : F * F) : Prop :=
  exists u1 a b u2 p, l = u1 ++ a :: b :: u2 /\ nltb (s_time a) (fst q) = true /\ nltb (fst q) (s_time b) = true /\
    fst q = time_intersect a p /\ snd q = interpolate a (fst q).

Lemma crossing_cons a l q : crossing l q -> crossing (a :: l) q.
Proof. intros (u1 & b & c & u2 & p & -> & H). exists (a :: u1), b, c, u2, p. split; [reflexivity|exact H]. Qed.

Lemma step_points pts sw pw pl win z : wfp pts -> isnum (s_time win) = true ->
  pair_step (sig_of pts) sw (Some pw) (Some pl) win = Ok z ->
  exists extra, z = sig_of (pts ++ extra ++ [pt win]) /\ wfp (pts ++ extra ++ [pt win]) /\
    forall q, In q extra -> sw = true /\ fst q = time_intersect pl pw /\ snd q = interpolate pl (fst q) /\
      nltb (end_time (sig_of pts)) (fst q) = true /\ nltb (fst q) (s_time win) = true.
Proof.
  intros W N H. unfold pair_step in H. apply bind_ok_inv in H as (o & H1 & H2).
  destruct sw; cycle 1.
  { injection H1 as <-. exists []. apply push_back_inv in H2 as [-> ?]; auto. split; [reflexivity|]. split; [assumption|]. intros q []. }
  destruct (nltb _ _) eqn:E; cbn [andb] in H1; cycle 1.
  { injection H1 as <-. exists []. apply push_back_inv in H2 as [-> ?]; auto. split; [reflexivity|]. split; [assumption|]. intros q []. }
  destruct (negb _); cycle 1.
  { injection H1 as <-. exists []. apply push_back_inv in H2 as [-> ?]; auto. split; [reflexivity|]. split; [assumption|]. intros q []. }
  apply push_back_inv in H1 as [-> W1]; auto; [|apply nltb_true in E; apply E].
  apply push_back_inv in H2 as [-> W2]; auto. rewrite <- app_assoc in *. eexists [_]. split; [reflexivity|]. split; [exact W2|].
  intros q [<-|[]]. cbn [pt fst snd s_time s_value]. split; [reflexivity|]. split; [reflexivity|]. split; [reflexivity|]. split; [exact E|].
  destruct W2 as (_ & I). rewrite map_app in I. apply increasing_app in I as (_ & I & _). cbn [map app pt fst s_time] in I.
  apply increasing_cons2 in I as [I _]. exact I.
Qed.

Lemma loop_points : forall xs ys i0 j0 pts z, wfp pts -> end_time (sig_of pts) = s_time (pick comp i0 j0) ->
  neqb (s_time i0) (s_time j0) = true -> Forall2 (fun a b => neqb (s_time a) (s_time b) = true) xs ys ->
  all_num (times xs) -> all_num (times ys) ->
  pair_loop comp (Some i0) (Some j0) xs ys (if comp i0 j0 then ChX else ChY) (sig_of pts) = Ok z ->
  exists pts', z = sig_of (pts ++ pts') /\
    forall q, In q pts' -> (exists c, (In c xs \/ In c ys) /\ q = pt c) \/ crossing (i0 :: xs) q \/ crossing (j0 :: ys) q.
Proof.
  induction xs as [|i xs IH]; intros ys i0 j0 pts z W E Eij S Nx Ny H; inversion S as [|? j ? ys' Eij' S']; subst.
  { injection H as <-. exists []. rewrite app_nil_r. split; [reflexivity|]. intros q []. }
  cbn [pair_loop] in H. inversion Nx as [|? ? N1 N2]; subst. inversion Ny as [|? ? N3 N4]; subst.
  assert (K : exists o, pair_loop comp (Some i) (Some j) xs ys' (if comp i j then ChX else ChY) o = Ok z /\
     exists e, o = sig_of (pts ++ e ++ [pt (pick comp i j)]) /\ wfp (pts ++ e ++ [pt (pick comp i j)]) /\
       forall q, In q e -> crossing (i0 :: i :: xs) q \/ crossing (j0 :: j :: ys') q).
  { unfold pick in *. destruct (comp i j) eqn:C; apply bind_ok_inv in H as (o & H1 & H2); apply step_points in H1 as (e & -> & W' & K); auto;
      (eexists; split; [exact H2|]; exists e; split; [reflexivity|]; split; [exact W'|]); intros q Hq; destruct (K q Hq) as (Hs & Q1 & Q2 & Q3 & Q4);
      rewrite E in Q3; destruct (comp i0 j0); cbn [chosen_eqb] in Hs; try discriminate.
    - right. exists [], j0, j, ys', i0. repeat split; auto; num.
    - left. exists [], i0, i, xs, j0. repeat split; auto; num. }
  destruct K as (o & H2 & e & -> & W' & Ke).
  destruct (IH ys' i j _ z W' ) as (p & -> & Hin); auto.
  { rewrite app_assoc. unfold end_time. rewrite last_opt_sig_of, last_opt_snoc. reflexivity. }
  exists (e ++ [pt (pick comp i j)] ++ p). rewrite !app_assoc. split; [reflexivity|].
  intros q Hq. rewrite <- app_assoc in Hq. apply in_app_or in Hq as [Hq|[<-|Hq]].
  - right. apply Ke, Hq.
  - left. exists (pick comp i j). split; [|reflexivity]. unfold pick. destruct (comp i j); [left; left|right; left]; reflexivity.
  - destruct (Hin q Hq) as [(c & Hc & ->)|[Hc|Hc]].
    + left. exists c. split; [|reflexivity]. destruct Hc; [left|right]; right; assumption.
    + right. left. apply crossing_cons, Hc.
    + right. right. apply crossing_cons, Hc.
Qed.

Lemma pair_points dbg x y z : wf x -> wf y -> minmax_pair dbg comp false x y = Ok z ->
  exists x' y', synchronize x y = Ok (x', y') /\
    forall c, In c z -> (exists b, (In b x' \/ In b y') /\ s_time c = s_time b /\ s_value c = s_value b) \/
      crossing x' (s_time c, s_value c) \/ crossing y' (s_time c, s_value c).
Proof.
  intros Wx Wy H. apply minmax_pair_inv in H as (x' & y' & S & H). cbn in S. exists x', y'. split; [exact S|].
  destruct (sync_out _ _ _ _ Wx Wy S) as (W1 & W2 & N1 & N2 & T).
  destruct T as [|i j xs ys Eij T]; [congruence|]. rewrite pair_loop_start in H by exact Eij.
  destruct W1 as (A1 & _ & _), W2 as (A2 & _ & _). inversion A1; subst. inversion A2; subst.
  apply loop_points in H as (pts & -> & K); auto.
  2: { split; cbn [map pt fst]; [repeat constructor|repeat constructor]. unfold pick. destruct (comp i j); assumption. }
  intros c Hc. apply sig_of_mem in Hc. apply in_app_or in Hc as [[Hc|[]]|Hc].
  - left. injection Hc as E1 E2. exists (pick comp i j). split; [|auto]. unfold pick. destruct (comp i j); [left; left|right; left]; reflexivity.
  - destruct (K _ Hc) as [(b & Hb & E)|[Hq|Hq]].
    + left. injection E as E1 E2. exists b. split; [|auto]. destruct Hb; [left|right]; right; assumption.
    + right. left. exact Hq.
    + right. right. exact Hq.
Qed.
End Points.

(** ** Infinite slopes never produce a crossing *)
Lemma sub_inf (x : B64) s : exists b, nsub x (B754_infinity s : B64) = B754_infinity b \/ nsub x (B754_infinity s : B64) = B754_nan.
Proof. destruct x as [s'|s'| |s' m e B], s; try destruct s'; cbn; first [now (exists true; auto) | now (exists false; auto)]. Qed.
Lemma sub_inf_l (y : B64) : finite y = true -> forall s, nsub (B754_infinity s : B64) y = B754_infinity s.
Proof. destruct y as [s'|s'| |s' m e B]; try discriminate; intros _ s; reflexivity. Qed.
Lemma mul_inf (x : B64) s : exists b, nmul (B754_infinity s : B64) x = B754_infinity b \/ nmul (B754_infinity s : B64) x = B754_nan.
Proof. destruct x as [s'|s'| |s' m e B], s; try destruct s'; cbn; first [now (exists true; auto) | now (exists false; auto)]. Qed.
Lemma sub_nan (x : B64) : nsub x (B754_nan : B64) = B754_nan.
Proof. destruct x; reflexivity. Qed.
Lemma nan_mul (x : B64) : nmul (B754_nan : B64) x = B754_nan.
Proof. destruct x; reflexivity. Qed.
Lemma nan_div (x : B64) : ndiv (B754_nan : B64) x = B754_nan.
Proof. destruct x; reflexivity. Qed.
Lemma div_nan (x : B64) : ndiv x (B754_nan : B64) = B754_nan.
Proof. destruct x; reflexivity. Qed.
Lemma inf_div s s' : ndiv (B754_infinity s : B64) (B754_infinity s' : B64) = B754_nan.
Proof. reflexivity. Qed.

Lemma intersect_slope (a p : sample B64) : isnum (time_intersect a p) = true -> finite (s_deriv a) = true.
Proof.
  intros N. unfold time_intersect in N. destruct (s_deriv a) as [s|s| |s m e B] eqn:D; try reflexivity; exfalso.
  - destruct (mul_inf (s_time a) s) as (b & [E|E]); rewrite E in N.
    + destruct (sub_inf (nadd (nsub (s_value a) (s_value p)) (nmul (s_deriv p) (s_time p))) b) as (b' & [E'|E']); rewrite E' in N.
      * destruct (sub_inf (s_deriv p) s) as (b'' & [E''|E'']); rewrite E'' in N; [rewrite inf_div in N|rewrite div_nan in N]; discriminate.
      * rewrite nan_div in N. discriminate.
    + rewrite sub_nan, nan_div in N. discriminate.
  - rewrite nan_mul, sub_nan, nan_div in N. discriminate.
Qed.

(** ** Bounds *)
Section Bounds.
Variables (M T : R).
Hypothesis HM : M <= big.
Hypothesis HT : 0 <= T.
Let tol := tolerance M T.

Definition tame (B : R) (x : signal B64) : Prop :=
  (forall a, In a x -> finite (s_time a) = true /\ finite (s_value a) = true /\ Rabs (B2R (s_time a)) <= big /\ Rabs (B2R (s_value a)) <= B) /\
  (forall a b, In a x -> In b x -> B2R (s_time b) - B2R (s_time a) <= T).
Definition steady (x : signal B64) : Prop := forall x1 a b x2, x = x1 ++ a :: b :: x2 -> finite (s_deriv a) = true.
(** From time [t] on the values, times [sg], are at least [m]. *)
Definition above (sg : R) (t : B64) (m : R) (x : signal B64) : Prop := forall a, In a x -> B2R t <= B2R (s_time a) -> m <= sg * B2R (s_value a).
Definition has_time (t : B64) (x : signal B64) : Prop := exists a, In a x /\ neqb (s_time a) t = true.

Lemma convex u v m sg k : 0 <= k <= 1 -> m <= sg * u -> m <= sg * v -> m <= sg * (u + (v - u) * k).
Proof. intros. nra. Qed.

Lemma slope_of x1 (a b : sample B64) x2 : slopes_ok (x1 ++ a :: b :: x2) -> s_deriv a = ndiv (nsub (s_value b) (s_value a)) (nsub (s_time b) (s_time a)).
Proof. intros S. induction x1 as [|c x1 IH]; [apply S|]. apply IH. destruct S as [_ S]. exact S. Qed.

Lemma between_bound B (x x1 : signal B64) a b x2 t : wf x -> tame B x -> B <= M -> x = x1 ++ a :: b :: x2 -> finite t = true -> finite (s_deriv a) = true ->
  nltb (s_time a) t = true -> nltb t (s_time b) = true ->
  finite (interpolate a t) = true /\ Rabs (B2R (interpolate a t)) <= B + tol /\
  forall sg m, sg = 1 \/ sg = -1 -> m <= sg * B2R (s_value a) -> m <= sg * B2R (s_value b) -> m - tol <= sg * B2R (interpolate a t).
Proof.
  intros (Nx & Ix & Sx) (M1 & M2) HB Ex Ft Fd H1 H2.
  assert (Ha : In a x) by (rewrite Ex; apply in_or_app; right; left; reflexivity).
  assert (Hb : In b x) by (rewrite Ex; apply in_or_app; right; right; left; reflexivity).
  destruct (M1 _ Ha) as (A1 & A2 & A3 & A4). destruct (M1 _ Hb) as (B1 & B2 & B3 & B4). pose proof (M2 _ _ Ha Hb) as G.
  assert (D : s_deriv a = ndiv (nsub (s_value b) (s_value a)) (nsub (s_time b) (s_time a))).
  { rewrite Ex in Sx. eapply slope_of, Sx. }
  apply lt_B2R in H1; [|assumption..]. apply lt_B2R in H2; [|assumption..].
  destruct (interp_finite a b t M A1 A2 B1 B2 Ft D ltac:(lra) ltac:(lra) A3 B3 ltac:(lra) ltac:(lra) HM Fd) as (F1 & E1).
  split; [exact F1|]. set (h := B2R (s_time b) - B2R (s_time a)) in *. set (k := (B2R t - B2R (s_time a)) / h).
  assert (Hk : 0 <= k <= 1).
  { unfold k, h. split; [apply Rmult_le_pos; [lra|left; apply Rinv_0_lt_compat; lra]|].
    apply Rmult_le_reg_r with (B2R (s_time b) - B2R (s_time a)); [lra|]. unfold Rdiv. rewrite Rmult_assoc, Rinv_l; lra. }
  assert (Ek : (B2R (s_value b) - B2R (s_value a)) * (B2R t - B2R (s_time a)) / h = (B2R (s_value b) - B2R (s_value a)) * k) by (unfold k; field; unfold h; lra).
  rewrite Ek in E1. clear Ek. clearbody k.
  assert (E2 : Rabs (B2R (interpolate a t) - (B2R (s_value a) + (B2R (s_value b) - B2R (s_value a)) * k)) <= tol).
  { eapply Rle_trans; [exact E1|]. unfold tol. rewrite tolerance_uu. apply Rplus_le_compat_l. apply Rmult_le_compat_l; [pose proof eta_pos; lra|lra]. }
  apply Rabs_le_inv in E2. apply Rabs_le_inv in A4. apply Rabs_le_inv in B4.
  assert (C : forall sg m, m <= sg * B2R (s_value a) -> m <= sg * B2R (s_value b) -> m <= sg * (B2R (s_value a) + (B2R (s_value b) - B2R (s_value a)) * k)).
  { intros sg m. apply convex, Hk. }
  split.
  - pose proof (C 1 (- B) ltac:(lra) ltac:(lra)). pose proof (C (-1) (- B) ltac:(lra) ltac:(lra)). apply Rabs_le. lra.
  - intros sg m [-> | ->] Q1 Q2; specialize (C _ _ Q1 Q2); lra.
Qed.

Lemma has_time_B2R t x : finite t = true -> tame M x -> has_time t x -> exists a, In a x /\ B2R (s_time a) = B2R t.
Proof. intros Ft (M1 & _) (a & Ha & E). exists a. split; [exact Ha|]. apply eq_B2R; [apply M1, Ha|exact Ft|exact E]. Qed.

(** A sample at [t] is not strictly between two neighbours. *)
Lemma not_between (x x1 : signal B64) a b x2 t : wf x -> x = x1 ++ a :: b :: x2 -> nltb (s_time a) t = true -> nltb t (s_time b) = true -> ~ has_time t x.
Proof.
  intros (Nx & Ix & _) Ex H1 H2 (c & Hc & E). rewrite Ex in Hc. apply in_app_or in Hc as [Hc|[<-|[<-|Hc]]].
  - apply in_split in Hc as (u1 & u2 & ->). rewrite Ex, <- app_assoc in Ix. cbn [app] in Ix.
    assert (K : nltb (s_time c) (s_time a) = true) by (eapply later; [exact Ix|apply in_or_app; right; left; reflexivity]). num.
  - num.
  - num.
  - rewrite Ex in Ix. change (a :: b :: x2) with ([a] ++ b :: x2) in Ix. rewrite app_assoc in Ix.
    assert (K : nltb (s_time b) (s_time c) = true) by (eapply later; [exact Ix|exact Hc]). num.
Qed.
(** The neighbour before a time after [t] is not before [t]. *)
Lemma previous (x x1 : signal B64) a b x2 (t u : B64) : wf x -> tame M x -> x = x1 ++ a :: b :: x2 -> finite t = true -> finite u = true -> has_time t x ->
  nltb u (s_time b) = true -> B2R t <= B2R u -> B2R t <= B2R (s_time a).
Proof.
  intros W TX Ex Ft Fu (c & Hc & E) H2 H. pose proof W as (Nx & Ix & _).
  assert (Hb : In b x) by (rewrite Ex; apply in_or_app; right; right; left; reflexivity).
  assert (Ha : In a x) by (rewrite Ex; apply in_or_app; right; left; reflexivity).
  pose proof (proj1 TX _ Ha) as (Fa & _). pose proof (proj1 TX _ Hb) as (Fb & _). pose proof (proj1 TX _ Hc) as (Fc & _).
  apply lt_B2R in H2; [|assumption..]. pose proof (eq_B2R _ _ Fc Ft E) as Et.
  rewrite Ex in Hc. apply in_app_or in Hc as [Hc|[<-|[<-|Hc]]].
  - apply in_split in Hc as (u1 & u2 & ->). rewrite Ex, <- app_assoc in Ix. cbn [app] in Ix.
    assert (K : nltb (s_time c) (s_time a) = true) by (eapply later; [exact Ix|apply in_or_app; right; left; reflexivity]).
    apply lt_B2R in K; [|assumption..]. lra.
  - lra.
  - lra.
  - rewrite Ex in Ix. change (a :: b :: x2) with ([a] ++ b :: x2) in Ix. rewrite app_assoc in Ix.
    assert (K : nltb (s_time b) (s_time c) = true) by (eapply later; [exact Ix|exact Hc]). apply lt_B2R in K; [|assumption..]. lra.
Qed.

Section Pair.
Variables (comp : sample B64 -> sample B64 -> bool) (dbg : bool) (B : R) (x y z : signal B64).
Hypothesis Wx : wf x.
Hypothesis Wy : wf y.
Hypothesis TX : tame B x.
Hypothesis TY : tame B y.
Hypothesis HB : B + tol <= M.
Hypothesis Htol : 0 <= tol.
Hypothesis SP : forall a b, In a x \/ In a y -> In b x \/ In b y -> B2R (s_time b) - B2R (s_time a) <= T.
Hypothesis SY : steady y.
Hypothesis CV : forall b, In b y -> has_time (s_time b) x.
Hypothesis H : minmax_pair dbg comp false x y = Ok z.

Lemma tame_more B' x0 : B <= B' -> tame B x0 -> tame B' x0.
Proof. intros L (A & C). split; [|exact C]. intros a Ha. destruct (A a Ha) as (A1 & A2 & A3 & A4). repeat split; auto. lra. Qed.

Lemma sync_above x' y' : synchronize x y = Ok (x', y') ->
  tame (B + tol) x' /\ tame (B + tol) y' /\
  (forall c, In c x' \/ In c y' -> exists a b, (In a x \/ In a y) /\ (In b x \/ In b y) /\ B2R (s_time a) <= B2R (s_time c) <= B2R (s_time b)) /\
  forall sg t m, sg = 1 \/ sg = -1 -> finite t = true -> has_time t y -> above sg t m x -> above sg t m y -> above sg t (m - tol) x' /\ above sg t (m - tol) y'.
Proof.
  intros S. destruct (sync_from _ _ _ _ Wx Wy S) as (K1 & K2). rewrite Forall_forall in K1, K2.
  assert (FT : forall c, In c x' \/ In c y' -> (exists a, (In a x \/ In a y) /\ s_time a = s_time c)).
  { intros c [Hc|Hc]; [destruct (K1 c Hc) as (_ & [(a & Ha & <-)|(a & Ha & <-)])|destruct (K2 c Hc) as (_ & [(a & Ha & <-)|(a & Ha & <-)])]; eauto. }
  assert (FT2 : forall c, In c x' \/ In c y' -> finite (s_time c) = true /\ Rabs (B2R (s_time c)) <= big).
  { intros c Hc. destruct (FT c Hc) as (a & [Ha|Ha] & <-); [destruct (proj1 TX a Ha)|destruct (proj1 TY a Ha)]; tauto. }
  assert (FX : forall c, In c x' -> exists a, In a x /\ s_time a = s_time c /\ s_value a = s_value c).
  { intros c Hc. destruct (K1 c Hc) as ([Q|(x1 & a & b & x2 & Ex & H1 & H2 & _)] & [(a' & Ha' & Et)|(b' & Hb' & Et)]); [exact Q|exact Q|exfalso..].
    - apply (not_between x x1 a b x2 (s_time c) Wx Ex H1 H2). exists a'. split; [exact Ha'|]. rewrite Et. num.
    - apply (not_between x x1 a b x2 (s_time c) Wx Ex H1 H2). rewrite <- Et. apply CV, Hb'. }
  assert (FY : forall c, In c y' -> (exists a, In a y /\ s_time a = s_time c /\ s_value a = s_value c) \/
    (exists y1 a b y2, y = y1 ++ a :: b :: y2 /\ nltb (s_time a) (s_time c) = true /\ nltb (s_time c) (s_time b) = true /\ s_value c = interpolate a (s_time c))).
  { intros c Hc. apply (K2 c Hc). }
  assert (VY : forall c, In c y' -> finite (s_value c) = true /\ Rabs (B2R (s_value c)) <= B + tol).
  { intros c Hc. destruct (FY c Hc) as [(a & Ha & _ & <-)|(y1 & a & b & y2 & Ey & H1 & H2 & ->)].
    - destruct (proj1 TY a Ha) as (_ & A2 & _ & A4). split; [exact A2|lra].
    - destruct (between_bound B y y1 a b y2 (s_time c) Wy TY ltac:(lra) Ey (proj1 (FT2 c (or_intror Hc))) (SY _ _ _ _ Ey) H1 H2) as (F1 & F2 & _). auto. }
  assert (SPN : forall c c', In c x' \/ In c y' -> In c' x' \/ In c' y' -> B2R (s_time c') - B2R (s_time c) <= T).
  { intros c c' Hc Hc'. destruct (FT c Hc) as (a & Ha & <-). destruct (FT c' Hc') as (a' & Ha' & <-). apply SP; assumption. }
  split; [|split; [|split]].
  - split; [|intros a b Ha Hb; apply SPN; auto]. intros c Hc. destruct (FT2 c (or_introl Hc)) as (F1 & F2).
    destruct (FX c Hc) as (a & Ha & _ & <-). destruct (proj1 TX a Ha) as (_ & A2 & _ & A4). repeat split; auto. lra.
  - split; [|intros a b Ha Hb; apply SPN; auto]. intros c Hc. destruct (FT2 c (or_intror Hc)) as (F1 & F2). destruct (VY c Hc). auto.
  - intros c Hc. destruct (FT c Hc) as (a & Ha & E). exists a, a. rewrite E. repeat split; auto; lra.
  - intros sg t m Hsg Ft Hty AX AY. split.
    + intros c Hc Hle. destruct (FX c Hc) as (a & Ha & E & <-). rewrite <- E in Hle. specialize (AX a Ha Hle). lra.
    + intros c Hc Hle. destruct (FY c Hc) as [(a & Ha & E & <-)|(y1 & a & b & y2 & Ey & H1 & H2 & ->)].
      * rewrite <- E in Hle. specialize (AY a Ha Hle). lra.
      * pose proof (proj1 (FT2 c (or_intror Hc))) as Fc.
        destruct (between_bound B y y1 a b y2 (s_time c) Wy TY ltac:(lra) Ey Fc (SY _ _ _ _ Ey) H1 H2) as (_ & _ & K).
        assert (Ha : In a y) by (rewrite Ey; apply in_or_app; right; left; reflexivity).
        assert (Hb : In b y) by (rewrite Ey; apply in_or_app; right; right; left; reflexivity).
        apply K; [exact Hsg| |].
        -- apply AY; [exact Ha|]. apply (previous y y1 a b y2 t (s_time c)); auto. apply (tame_more M); [lra|exact TY].
        -- apply AY; [exact Hb|]. apply lt_B2R in H2; [lra|exact Fc|apply (proj1 TY b Hb)].
Qed.

Lemma pair_bound : tame (B + 2 * tol) z /\
  (forall c, In c z -> exists a b, (In a x \/ In a y) /\ (In b x \/ In b y) /\ B2R (s_time a) <= B2R (s_time c) <= B2R (s_time b)) /\
  forall sg t m, sg = 1 \/ sg = -1 -> finite t = true -> has_time t y -> has_time t x -> above sg t m x -> above sg t m y -> above sg t (m - 2 * tol) z.
Proof.
  destruct (pair_points comp dbg x y z Wx Wy H) as (x' & y' & S & K).
  destruct (sync_out _ _ _ _ Wx Wy S) as (W1 & W2 & N1 & N2 & Tm).
  destruct (sync_above x' y' S) as (TX' & TY' & FT & AB).
  assert (CR : forall u c, wf u -> tame (B + tol) u -> (forall d, In d u -> In d x' \/ In d y') -> crossing u (s_time c, s_value c) ->
    finite (s_time c) = true /\ finite (s_value c) = true /\ Rabs (B2R (s_time c)) <= big /\ Rabs (B2R (s_value c)) <= B + tol + tol /\
    (exists a b, (In a x \/ In a y) /\ (In b x \/ In b y) /\ B2R (s_time a) <= B2R (s_time c) <= B2R (s_time b)) /\
    forall sg t m, sg = 1 \/ sg = -1 -> finite t = true -> has_time t u -> above sg t m u -> B2R t <= B2R (s_time c) -> m - tol <= sg * B2R (s_value c)).
  { intros u c Wu Tu Hu (u1 & a & b & u2 & p & Eu & H1 & H2 & Ei & Ev). cbn [fst snd] in *.
    assert (Ha : In a u) by (rewrite Eu; apply in_or_app; right; left; reflexivity).
    assert (Hb : In b u) by (rewrite Eu; apply in_or_app; right; right; left; reflexivity).
    destruct (proj1 Tu a Ha) as (A1 & A2 & A3 & A4). destruct (proj1 Tu b Hb) as (B1 & B2 & B3 & B4).
    assert (Fd : finite (s_deriv a) = true) by (apply (intersect_slope a p); rewrite <- Ei; apply nltb_true in H1; apply H1).
    assert (Fc : finite (s_time c) = true).
    { apply nltb_true in H1 as (_ & N & H1). apply nltb_true in H2 as (_ & _ & H2). rewrite (finite_rk _ A1) in H1. rewrite (finite_rk _ B1) in H2.
      destruct (s_time c) as [|[|]| |]; try reflexivity; try discriminate N; exfalso; apply Rabs_le_inv in A3, B3;
        match type of H1 with _ < ?r => let r' := eval cbv [rk] in r in idtac end;
        pose proof (abs_B2R_lt_emax 53 1024 (s_time a)) as Q1; pose proof (abs_B2R_lt_emax 53 1024 (s_time b)) as Q2;
        apply Rabs_lt_inv in Q1, Q2; change (rk (B754_infinity true : B64)) with (- bpow radix2 1024) in *; change (rk (B754_infinity false : B64)) with (bpow radix2 1024) in *; lra. }
    destruct (between_bound (B + tol) u u1 a b u2 (s_time c) Wu Tu HB Eu Fc Fd H1 H2) as (F1 & F2 & F3). rewrite Ev.
    pose proof H2 as H2'. apply lt_B2R in H1; [|assumption..]. apply lt_B2R in H2; [|assumption..].
    split; [exact Fc|]. split; [exact F1|]. split; [apply Rabs_le_inv in A3, B3; apply Rabs_le; lra|]. split; [exact F2|]. split.
    - destruct (FT a (Hu a Ha)) as (a1 & b0 & Q1 & Q0 & Q2). destruct (FT b (Hu b Hb)) as (a0 & b1 & Q0' & Q3 & Q4). exists a1, b1. repeat split; auto; lra.
    - intros sg t m Hsg Ft Ht A Hle. apply F3; [exact Hsg| |].
      + apply A; [exact Ha|]. apply (previous u u1 a b u2 t (s_time c)); auto. destruct Tu as (T1 & T2). split; [|exact T2].
        intros d Hd. destruct (T1 d Hd) as (D1 & D2 & D3 & D4). repeat split; auto. lra.
      + apply A; [exact Hb|lra]. }
  assert (ALL : forall c, In c z -> finite (s_time c) = true /\ finite (s_value c) = true /\ Rabs (B2R (s_time c)) <= big /\ Rabs (B2R (s_value c)) <= B + 2 * tol /\
    (exists a b, (In a x \/ In a y) /\ (In b x \/ In b y) /\ B2R (s_time a) <= B2R (s_time c) <= B2R (s_time b))).
  { intros c Hc. destruct (K c Hc) as [(b & Hb & Et & Ev)|[Q|Q]].
    - rewrite Et, Ev. assert (Q : finite (s_time b) = true /\ finite (s_value b) = true /\ Rabs (B2R (s_time b)) <= big /\ Rabs (B2R (s_value b)) <= B + tol).
      { destruct Hb as [Hb|Hb]; [apply (proj1 TX' b Hb)|apply (proj1 TY' b Hb)]. }
      destruct Q as (Q1 & Q2 & Q3 & Q4). split; [exact Q1|]. split; [exact Q2|]. split; [exact Q3|]. split; [lra|]. apply FT, Hb.
    - destruct (CR x' c W1 TX' ltac:(auto) Q) as (Q1 & Q2 & Q3 & Q4 & Q5 & _). split; [exact Q1|]. split; [exact Q2|]. split; [exact Q3|]. split; [lra|exact Q5].
    - destruct (CR y' c W2 TY' ltac:(auto) Q) as (Q1 & Q2 & Q3 & Q4 & Q5 & _). split; [exact Q1|]. split; [exact Q2|]. split; [exact Q3|]. split; [lra|exact Q5]. }
  split; [|split].
  - split; [intros c Hc; destruct (ALL c Hc) as (Q1 & Q2 & Q3 & Q4 & _); auto|].
    intros c c' Hc Hc'. destruct (ALL c Hc) as (_ & _ & _ & _ & a & b0 & Ha & Hb0 & Q & Q0). destruct (ALL c' Hc') as (_ & _ & _ & _ & a0 & b & Ha0 & Hb & Q0' & Q').
    pose proof (SP a b Ha Hb). lra.
  - intros c Hc. apply (ALL c Hc).
  - intros sg t m Hsg Ft Hty Htx AX AY. destruct (AB sg t m Hsg Ft Hty AX AY) as (A1 & A2).
    assert (TM : forall u, tame (B + tol) u -> tame M u) by (intros u (T1 & T2); split; [|exact T2]; intros d Hd; destruct (T1 d Hd) as (D1 & D2 & D3 & D4); repeat split; auto; lra).
    destruct Htx as (ax & Hax & Eax). destruct Hty as (ay & Hay & Eay).
    assert (HX : has_time t x').
    { destruct (sync_hits t (s_value ax) (s_value ay) x y x' y' Wx Wy S) as (d & Hd & E & _); [exists ax; auto|exists ay; auto|]. exists d. auto. }
    assert (HY : has_time t y').
    { destruct (sync_hits t (s_value ay) (s_value ax) y x y' x' Wy Wx (sync_sym _ _ _ _ Wx Wy S)) as (d & Hd & E & _); [exists ay; auto|exists ax; auto|]. exists d. auto. }
    intros c Hc Hle. destruct (K c Hc) as [(b & Hb & Et & Ev)|[Q|Q]].
    + rewrite Ev. rewrite Et in Hle. destruct Hb as [Hb|Hb]; [specialize (A1 b Hb Hle)|specialize (A2 b Hb Hle)]; lra.
    + destruct (CR x' c W1 TX' ltac:(auto) Q) as (_ & _ & _ & _ & _ & R). specialize (R sg t _ Hsg Ft HX A1 Hle). lra.
    + destruct (CR y' c W2 TY' ltac:(auto) Q) as (_ & _ & _ & _ & _ & R). specialize (R sg t _ Hsg Ft HY A2 Hle). lra.
Qed.
End Pair.
End Bounds.

Definition comp_of (p : bool) : sample B64 -> sample B64 -> bool := if p then sample_le else sample_ge.
Definition best_of_two (p : bool) : B64 -> B64 -> B64 := if p then lesser else greater.
Lemma best_pick p a b : s_value (pick (comp_of p) a b) = best_of_two p (s_value a) (s_value b).
Proof. destruct p; [apply value_le|apply value_ge]. Qed.

Section Fold.
Variables (M T lo : R) (base : B64 -> Prop) (p dbg : bool).
Hypothesis HM : M <= big.
Hypothesis HT : 0 <= T.
Hypothesis Hbase : forall g, base g -> finite g = true.
Let tol := tolerance M T.
Hypothesis Htol : 0 <= tol.

Definition ranged (x : signal B64) : Prop := forall a, In a x -> lo <= B2R (s_time a) <= lo + T.
Definition covers (x : signal B64) : Prop := forall g, base g -> has_time g x.
Definition operand (B : R) (y : signal B64) : Prop :=
  good y /\ tame T B y /\ steady y /\ ranged y /\ covers y /\ (forall b, In b y -> base (s_time b)).

Lemma step_fold B x y z : good x -> tame T B x -> ranged x -> covers x -> operand B y -> B + tol <= M ->
  minmax_pair dbg (comp_of p) false x y = Ok z ->
  good z /\ tame T (B + 2 * tol) z /\ ranged z /\ covers z /\
  forall sg t m, sg = 1 \/ sg = -1 -> base t -> above sg t m x -> above sg t m y -> above sg t (m - 2 * tol) z.
Proof.
  intros Gx Tx Rx Cx (Gy & Ty & Sy & Ry & Cy & By) HB H.
  assert (SP : forall a b, In a x \/ In a y -> In b x \/ In b y -> B2R (s_time b) - B2R (s_time a) <= T).
  { assert (K : forall a, In a x \/ In a y -> lo <= B2R (s_time a) <= lo + T) by (intros a [Ha|Ha]; [apply Rx|apply Ry]; exact Ha).
    intros a b Ha Hb. pose proof (K a Ha). pose proof (K b Hb). lra. }
  destruct (pair_bound M T HM (comp_of p) dbg B x y z (proj1 Gx) (proj1 Gy) Tx Ty HB Htol SP Sy) as (Q1 & Q2 & Q3); auto.
  split; [exact (good_pair dbg (comp_of p) x y z Gx Gy H)|]. split; [exact Q1|]. split; [|split].
  - intros c Hc. destruct (Q2 c Hc) as (a & b & Ha & Hb & L).
    assert (K : forall a, In a x \/ In a y -> lo <= B2R (s_time a) <= lo + T) by (intros d [Hd|Hd]; [apply Rx|apply Ry]; exact Hd).
    pose proof (K a Ha). pose proof (K b Hb). lra.
  - intros g Hg. destruct (Cx g Hg) as (a & Ha & Ea). destruct (Cy g Hg) as (b & Hb & Eb).
    destruct (pair_hits (comp_of p) (best_of_two p) (best_pick p) dbg g (s_value a) (s_value b) x y z (proj1 Gx) (proj1 Gy) H) as (c & Hc & Ec & _);
      [exists a; auto|exists b; auto|]. exists c. auto.
  - intros sg t m Hsg Ht. apply Q3; auto.
Qed.

Lemma fold_bound B ys : Forall (operand B) ys -> forall B' acc z, B <= B' -> good acc -> tame T B' acc -> ranged acc -> covers acc ->
  B' + 2 * tol * INR (length ys) <= M -> minmax_fold dbg (comp_of p) false acc ys = Ok z ->
  good z /\ tame T M z /\ ranged z /\ covers z /\
  forall sg t m, sg = 1 \/ sg = -1 -> base t -> above sg t m acc -> Forall (above sg t m) ys -> above sg t (m - 2 * tol * INR (length ys)) z.
Proof.
  intros O. induction O as [|y ys Oy _ IH]; intros B' acc z HBB G TA RA CA HB H.
  - cbn [minmax_fold] in H. injection H as <-. cbn [length INR] in *. split; [exact G|]. split; [|split; [exact RA|split; [exact CA|]]].
    + destruct TA as (T1 & T2). split; [|exact T2]. intros a Ha. destruct (T1 a Ha) as (D1 & D2 & D3 & D4). repeat split; auto. lra.
    + intros sg t m _ _ A _ a Ha Hle. specialize (A a Ha Hle). lra.
  - cbn [minmax_fold] in H. apply bind_ok_inv in H as (acc' & H1 & H2). cbn [length] in *. rewrite S_INR in HB.
    assert (P : 0 <= tol * INR (length ys)) by (apply Rmult_le_pos; [exact Htol|apply pos_INR]).
    assert (Oy' : operand B' y).
    { destruct Oy as (Gy & (T1 & T2) & Sy & Ry & Cy & By). repeat (split; [assumption|]). split; [|split; [assumption|split; [assumption|split; assumption]]].
      split; [|exact T2]. intros a Ha. destruct (T1 a Ha) as (D1 & D2 & D3 & D4). repeat split; auto. lra. }
    destruct (step_fold B' acc y acc' G TA RA CA Oy' ltac:(lra) H1) as (G' & TA' & RA' & CA' & A').
    destruct (IH (B' + 2 * tol) acc' z ltac:(lra) G' TA' RA' CA' ltac:(lra) H2) as (Gz & Tz & Rz & Cz & Az).
    repeat (split; [assumption|]). intros sg t m Hsg Ht A F. inversion F as [|? ? Fy Fys]; subst. rewrite S_INR.
    replace (m - 2 * tol * (INR (length ys) + 1)) with ((m - 2 * tol) - 2 * tol * INR (length ys)) by ring.
    apply Az; [exact Hsg|exact Ht| |].
    + apply A'; assumption.
    + eapply Forall_impl; [|exact Fys]. intros u Hu a Ha Hle. specialize (Hu a Ha Hle). lra.
Qed.

Lemma list_fold {Fl} `{NF : Num Fl} dbg' comp sync (x : signal Fl) xs : minmax_list dbg' comp sync (x :: xs) = minmax_fold dbg' comp sync x xs.
Proof. destruct xs as [|y [|w xs]]; [reflexivity| |reflexivity]. cbn [minmax_list minmax_fold]. destruct (minmax_pair dbg' comp sync x y); reflexivity. Qed.

Lemma list_bound B xs z : Forall (operand B) xs -> xs <> [] -> B + 2 * tol * INR (length xs) <= M ->
  minmax_list dbg (comp_of p) false xs = Ok z ->
  good z /\ tame T M z /\ ranged z /\ covers z /\
  forall sg t m, sg = 1 \/ sg = -1 -> base t -> Forall (above sg t m) xs -> above sg t (m - 2 * tol * INR (length xs)) z.
Proof.
  intros O N HB H. destruct xs as [|x xs]; [congruence|]. rewrite list_fold in H. inversion O as [|? ? Ox Oxs]; subst.
  cbn [length] in *. rewrite S_INR in HB. destruct Ox as (Gx & Tx & Sx & Rx & Cx & Bx).
  destruct (fold_bound B xs Oxs B x z ltac:(lra) Gx Tx Rx Cx ltac:(lra) H) as (Gz & Tz & Rz & Cz & Az).
  repeat (split; [assumption|]). intros sg t m Hsg Ht F. inversion F as [|? ? Fx Fxs]; subst. rewrite S_INR. intros a Ha Hle.
  specialize (Az sg t m Hsg Ht Fx Fxs a Ha Hle). lra.
Qed.
End Fold.
