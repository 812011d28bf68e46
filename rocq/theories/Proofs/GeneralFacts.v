(** Minimum and maximum of signals in general position: they return (C121). *)
From Coq Require Import Reals Lra Lia Sorted.
From Flocq Require Import Core.Core IEEE754.BinarySingleNaN.
From Verif Require Import Base Num NumB64.
From Verif.Model Require Import Signal MinMax Ast Robustness.
From Verif.Spec Require Import SignalSpec Pwl Formula Crossing Accuracy Apart Spaced General.
From Verif.Proofs Require Import NumFacts SignalFacts PwlFacts B64Facts SafeFacts MinMaxFacts MinMaxCases SyncProps SyncCases RobFacts DiscreteFacts InterpError CrossingError SyncError PairBound ChainFacts UniformFacts QuantFacts WholeFacts JoinFormula PairError SlopeError ManyError.
Local Open Scope R_scope.

(** ** Two signals at the same times *)
Section Times.
Variables (V S K : R).
Variable rel : sample B64 -> sample B64 -> Prop.
Let opposite (a a' b b' : sample B64) : Prop :=
  let g0 := B2R (s_value a) - B2R (s_value b) in let g1 := B2R (s_value a') - B2R (s_value b') in g0 <= 0 <= g1 \/ g1 <= 0 <= g0.
Hypothesis Hgap : forall a a' b b', follows V S rel a a' -> follows V S rel b b' -> B2R (s_time b) = B2R (s_time a) -> B2R (s_time b') = B2R (s_time a') ->
  opposite a a' b b' -> PairError.meets K a a' b b'.
Hypothesis Hontime : forall a a' b b', follows V S rel a a' -> follows V S rel b b' -> B2R (s_time b) = B2R (s_time a) -> B2R (s_time b') = B2R (s_time a') ->
  opposite a a' b b' -> K < Rabs (B2R (s_value a') - B2R (s_value b')) -> finite (time_intersect a b) = true /\ B2R (time_intersect a b) <= B2R (s_time a').
Variable p : bool.
Let s : R := QuantFacts.sgp p.
Let comp := comp_of p.

Lemma opposite_of (a a' b b' : sample B64) : s * B2R (s_value a) <= s * B2R (s_value b) -> s * B2R (s_value b') <= s * B2R (s_value a') -> opposite a a' b b'.
Proof. unfold s, opposite. cbv zeta. destruct (sgp_cases p) as [-> | ->]; intros; [left|right]; lra. Qed.

(** A sample inserted between two others is at a time at which the lines are close. *)
Lemma switch_time pts (pl pl' pw' win : sample B64) z : wfp pts -> pts <> [] -> end_time (sig_of pts) = s_time pl ->
  follows V S rel pl pl' -> follows V S rel pw' win -> B2R (s_time pw') = B2R (s_time pl) -> B2R (s_time win) = B2R (s_time pl') -> opposite pl pl' pw' win ->
  pair_step (sig_of pts) true (Some pw') (Some pl) win = Ok z ->
  let t0 := B2R (s_time pl) in let t1 := B2R (s_time win) in let g0 := B2R (s_value pl) - B2R (s_value pw') in let g1 := B2R (s_value pl') - B2R (s_value win) in
  exists ext, z = sig_of (pts ++ ext ++ [pt win]) /\ wfp (pts ++ ext ++ [pt win]) /\
    forall q, In q ext -> t0 < B2R (fst q) < t1 /\ Rabs (g0 + (g1 - g0) * ((B2R (fst q) - t0) / (t1 - t0))) <= K.
Proof.
  intros W Hne He Fl Fw Et Et' Ho Hz t0 t1 g0 g1.
  pose proof (Hgap pl pl' pw' win Fl Fw Et Et' Ho) as G. unfold PairError.meets in G. cbv zeta in G. fold t0 g0 g1 in G. rewrite <- Et' in G. fold t1 in G.
  pose proof Fl as ((Fl1 & Fl2 & Fl3 & Fl4) & (Fl5 & Fl6 & Fl7 & Fl8) & Hh & _ & Dl). pose proof Fw as ((Fw1 & Fw2 & Fw3 & Fw4) & (Fw5 & Fw6 & Fw7 & Fw8) & Hh' & _ & Dw).
  set (it := time_intersect pl pw') in *. assert (T01 : t0 < t1) by (unfold t0, t1; lra).
  assert (L : nltb (end_time (sig_of pts)) (s_time win) = true) by (rewrite He; apply B2R_lt; auto).
  unfold pair_step in Hz. rewrite He in Hz. fold it in Hz.
  destruct (nltb (s_time pl) it) eqn:L3; cbn [andb] in Hz; cycle 1.
  { exists []. cbn [bind] in Hz. destruct (push_back_ok pts win W Hne L) as (P1 & P2). rewrite P1 in Hz. injection Hz as <-. split; [reflexivity|]. split; [exact P2|]. intros q []. }
  destruct (neqb it (s_time win)) eqn:L4; cbn [negb bind] in Hz.
  { exists []. destruct (push_back_ok pts win W Hne L) as (P1 & P2). rewrite P1 in Hz. injection Hz as <-. split; [reflexivity|]. split; [exact P2|]. intros q []. }
  set (a := mkSample it (interpolate pl it) nzero) in *.
  destruct (push_back_ok pts a W Hne) as (P1 & P2); [rewrite He; exact L3|]. rewrite P1 in Hz. cbn [bind] in Hz.
  apply push_back_inv in Hz as (-> & P4); [|exact P2|apply finite_num, Fw5].
  assert (L5 : nltb it (s_time win) = true).
  { destruct P4 as (_ & P4). rewrite !map_app in P4. apply increasing_app in P4 as (_ & _ & P4). apply P4; [apply in_or_app; right; left; reflexivity|left; reflexivity]. }
  assert (Fi : finite it = true). { apply (between_finite (s_time pl) it (s_time win)); auto; num. }
  assert (K1 : t0 < B2R it) by (apply lt_B2R; auto). assert (K2 : B2R it < t1) by (apply lt_B2R; auto).
  exists [pt a]. rewrite <- app_assoc in *. split; [reflexivity|]. split; [exact P4|]. intros q [<-|[]]. cbn [pt fst s_time a]. change (s_time a) with it. split; [lra|].
  destruct G as [(G1 & G2)|(_ & _ & G2)]; [|apply G2; lra].
  set (sg := (B2R it - t0) / (t1 - t0)). assert (S01 : 0 < sg < 1).
  { unfold sg. split; [apply Rmult_lt_0_compat; [lra|apply Rinv_0_lt_compat; lra]|]. apply Rmult_lt_reg_r with (t1 - t0); [lra|]. unfold Rdiv. rewrite Rmult_assoc, Rinv_l by lra. lra. }
  replace (g0 + (g1 - g0) * sg) with (g0 * (1 - sg) + g1 * sg) by ring. apply Rabs_le_inv in G1, G2. apply Rabs_le. split; nra.
Qed.

Lemma loop_times : forall xs ys i j pts z, together V S rel i j xs ys -> wfp pts -> pts <> [] -> end_time (sig_of pts) = s_time (pick comp i j) ->
  pair_loop comp (Some i) (Some j) xs ys (if comp i j then ChX else ChY) (sig_of pts) = Ok z ->
  exists pts', z = sig_of (pts ++ pts') /\ forall q, In q pts' -> B2R (s_time i) < B2R (fst q) /\
    ((exists a, In a xs /\ B2R (fst q) = B2R (s_time a)) \/ Rabs (pw (reals (i :: xs)) (B2R (fst q)) - pw (reals (j :: ys)) (B2R (fst q))) <= K).
Proof.
  pose proof (comp_real p) as Hcomp. fold s comp in Hcomp.
  induction xs as [|i' xs IH]; intros ys i j pts z C W Hne He Hz; destruct ys as [|j' ys]; try (destruct C as (? & ? & ? & []); fail).
  - exists []. rewrite app_nil_r. cbn [pair_loop] in Hz. injection Hz as <-. split; [reflexivity|]. intros q [].
  - pose proof C as C0. destruct C as (A1 & A2 & A3 & Fi & Fj & C). pose proof (together_first _ _ _ _ _ _ _ C) as (A1' & A2' & A3').
    assert (T01 : B2R (s_time i) < B2R (s_time i')) by (destruct Fi as (_ & _ & Q & _); exact Q).
    set (t0 := B2R (s_time i)) in *. set (t1 := B2R (s_time i')) in *.
    set (v := B2R (s_value i)). set (v' := B2R (s_value i')). set (w := B2R (s_value j)). set (w' := B2R (s_value j')).
    destruct (pick_ok V S s comp Hcomp rel _ _ _ _ C0) as (P1 & P2 & P3). destruct (pick_ok V S s comp Hcomp rel _ _ _ _ C) as (P1' & P2' & P3'). fold t0 in P2. fold t1 in P2'.
    assert (Step : exists ext, pair_loop comp (Some i') (Some j') xs ys (if comp i' j' then ChX else ChY) (sig_of (pts ++ ext ++ [pt (pick comp i' j')])) = Ok z /\
       wfp (pts ++ ext ++ [pt (pick comp i' j')]) /\ forall q, In q ext -> t0 < B2R (fst q) < t1 /\ Rabs ((v - w) + ((v' - w') - (v - w)) * ((B2R (fst q) - t0) / (t1 - t0))) <= K).
    { assert (L : nltb (end_time (sig_of pts)) (s_time (pick comp i' j')) = true).
      { rewrite He. apply B2R_lt; [apply P1|apply P1'|]. rewrite P2, P2'. exact T01. }
      assert (Ce : comp i j = if Rle_dec (s * v) (s * w) then true else false) by (apply Hcomp; [apply A1|apply A2]).
      assert (Ce' : comp i' j' = if Rle_dec (s * v') (s * w') then true else false) by (apply Hcomp; [apply A1'|apply A2']).
      cbn [pair_loop] in Hz. unfold pick in He, L, Hz |- *. rewrite Ce, Ce' in *.
      destruct (Rle_dec (s * v) (s * w)) as [Q|Q], (Rle_dec (s * v') (s * w')) as [Q'|Q']; cbn [chosen_eqb] in Hz.
      - exists []. destruct (push_back_ok pts i' W Hne L) as (B1 & B2). unfold pair_step in Hz. cbn [bind] in Hz. rewrite B1 in Hz. cbn [bind] in Hz. split; [exact Hz|]. split; [exact B2|]. intros q [].
      - apply Rnot_le_lt in Q'. destruct (pair_step (sig_of pts) true (Some j) (Some i) j') as [out| | | |] eqn:St; try discriminate. cbn [bind] in Hz.
        destruct (switch_time pts i i' j j' out W Hne He Fi Fj A3 A3' (opposite_of _ _ _ _ Q (Rlt_le _ _ Q')) St) as (ext & -> & B2 & B3). rewrite A3' in B3.
        exists ext. split; [exact Hz|]. split; [exact B2|]. exact B3.
      - apply Rnot_le_lt in Q. destruct (pair_step (sig_of pts) true (Some i) (Some j) i') as [out| | | |] eqn:St; try discriminate. cbn [bind] in Hz.
        destruct (switch_time pts j j' i i' out W Hne He Fj Fi (eq_sym A3) (eq_sym A3') (opposite_of _ _ _ _ (Rlt_le _ _ Q) Q') St) as (ext & -> & B2 & B3). rewrite A3 in B3. fold t0 t1 v w v' w' in B3.
        exists ext. split; [exact Hz|]. split; [exact B2|]. intros q Hq. destruct (B3 q Hq) as (B4 & B5). split; [exact B4|]. rewrite <- Rabs_Ropp.
        match goal with |- Rabs ?a <= _ => replace a with (w - v + (w' - v' - (w - v)) * ((B2R (fst q) - t0) / (t1 - t0))) by ring end. exact B5.
      - apply Rnot_le_lt in Q, Q'. exists []. destruct (push_back_ok pts j' W Hne L) as (B1 & B2). unfold pair_step in Hz. cbn [bind] in Hz. rewrite B1 in Hz. cbn [bind] in Hz. split; [exact Hz|]. split; [exact B2|]. intros q []. }
    destruct Step as (ext & S1 & S2 & S3).
    destruct (IH ys i' j' (pts ++ ext ++ [pt (pick comp i' j')]) z C S2) as (pts' & H1 & H2); [apply wfp_nonempty_app|rewrite app_assoc; apply end_snoc|exact S1|].
    exists (ext ++ pt (pick comp i' j') :: pts'). split; [rewrite H1, <- !app_assoc; reflexivity|].
    assert (Ex2 : reals (i :: i' :: xs) = (t0, v) :: (t1, v') :: reals xs) by reflexivity.
    assert (Ey2 : reals (j :: j' :: ys) = (t0, w) :: (t1, w') :: reals ys) by (rewrite !reals_cons, A3, A3'; reflexivity).
    intros q Hq. apply in_app_or in Hq as [Hq|[<-|Hq]].
    + destruct (S3 q Hq) as (B1 & B2). split; [lra|]. right. rewrite Ex2, Ey2, !pw_first by (cbn [fst]; lra). rewrite !line_frac.
      match goal with |- Rabs ?a <= _ => replace a with ((v - w) + ((v' - w') - (v - w)) * ((B2R (fst q) - t0) / (t1 - t0))) by ring end. exact B2.
    + cbn [pt fst]. rewrite P2'. split; [exact T01|]. left. exists i'. split; [left; reflexivity|reflexivity].
    + destruct (H2 q Hq) as (B1 & B2). fold t1 in B1. split; [lra|]. destruct B2 as [(a & Ha & Ea)|B2]; [left; exists a; split; [right; exact Ha|exact Ea]|right].
      assert (Px : pw (reals (i :: i' :: xs)) (B2R (fst q)) = pw (reals (i' :: xs)) (B2R (fst q))).
      { rewrite Ex2. cbn [pw fst]. destruct (Rle_dec _ t1); [lra|reflexivity]. }
      assert (Py : pw (reals (j :: j' :: ys)) (B2R (fst q)) = pw (reals (j' :: ys)) (B2R (fst q))).
      { rewrite Ey2. rewrite (reals_cons j'), A3'. cbn [pw fst]. destruct (Rle_dec _ t1); [lra|reflexivity]. }
      rewrite Px, Py. exact B2.
Qed.

Lemma all_on_time : forall xs ys i j, together V S rel i j xs ys -> (forall a b, In (a, b) (combine xs ys) -> K < Rabs (B2R (s_value a) - B2R (s_value b))) -> crossings_ok comp i j xs ys.
Proof.
  pose proof (comp_real p) as Hcomp. fold s comp in Hcomp.
  induction xs as [|i' xs IH]; intros ys i j C A; destruct ys as [|j' ys]; try exact I.
  destruct C as (A1 & A2 & A3 & Fi & Fj & C). pose proof (together_first _ _ _ _ _ _ _ C) as (A1' & A2' & A3').
  cbn [crossings_ok]. rewrite !Hcomp by first [apply A1|apply A2|apply A1'|apply A2'].
  assert (D : K < Rabs (B2R (s_value i') - B2R (s_value j'))) by (apply A; left; reflexivity).
  assert (NL : forall u v : B64, finite u = true -> finite v = true -> B2R v <= B2R u -> nltb u v = false).
  { intros u v' Fu Fv Hle. destruct (nltb u v') eqn:E; [|reflexivity]. apply lt_B2R in E; [lra|assumption..]. }
  split; [|split; [|apply IH; [exact C|intros a b Hab; apply A; right; exact Hab]]].
  - destruct (Rle_dec _ _) as [Q|Q]; [|discriminate]. intros _. destruct (Rle_dec (s * B2R (s_value i')) _) as [Q'|Q']; [discriminate|]. intros _. apply Rnot_le_lt in Q'.
    destruct (Hontime i i' j j' Fi Fj A3 A3' (opposite_of _ _ _ _ Q (Rlt_le _ _ Q')) D) as (F & B). apply NL; [apply A2'|exact F|]. rewrite A3'. exact B.
  - destruct (Rle_dec _ _) as [Q|Q]; [discriminate|]. intros _. destruct (Rle_dec (s * B2R (s_value i')) _) as [Q'|Q']; [|discriminate]. intros _. apply Rnot_le_lt in Q.
    rewrite Rabs_minus_sym in D.
    destruct (Hontime j j' i i' Fj Fi (eq_sym A3) (eq_sym A3') (opposite_of _ _ _ _ (Rlt_le _ _ Q) Q') D) as (F & B). apply NL; [apply A1'|exact F|]. rewrite <- A3'. exact B.
Qed.

Lemma pair_general dbg (x y : signal B64) : wf x -> wf y -> x <> [] -> Forall2 (fun a b => neqb (s_time a) (s_time b) = true) x y ->
  steps V S rel x -> steps V S rel y -> (forall a b, In (a, b) (combine x y) -> K < Rabs (B2R (s_value a) - B2R (s_value b))) ->
  exists z, minmax_pair dbg comp true x y = Ok z /\
    forall c, In c z -> (exists a, In a x /\ B2R (s_time c) = B2R (s_time a)) \/ Rabs (pw (reals x) (B2R (s_time c)) - pw (reals y) (B2R (s_time c))) <= K.
Proof.
  intros Wx Wy N T Hx Hy A. rewrite (minmax_true_same dbg comp x y N T). destruct T as [|i j xs ys E T]; [congruence|]. rewrite (pair_loop_start comp i j xs ys E).
  pose proof (together_of V S rel _ _ Hx Hy (proj2 (proj2 Wx)) (proj2 (proj2 Wy)) (Forall2_cons _ _ E T) i j xs ys eq_refl eq_refl) as L.
  pose proof (comp_real p) as Hc. destruct (pick_ok V S s comp Hc rel _ _ _ _ L) as (P1 & P2 & P3).
  assert (W0 : wfp [pt (pick comp i j)]). { split; cbn [map fst pt]; [constructor; [apply finite_num, P1|constructor]|repeat constructor]. }
  assert (CO : crossings_ok comp i j xs ys) by (apply all_on_time; [exact L|intros a b Hab; apply A; right; exact Hab]).
  destruct Wx as (Nx & Ix & _).
  destruct (pair_loop_total comp xs ys i j [pt (pick comp i j)] W0 ltac:(discriminate) (end_snoc [] _) E T Ix Nx) as [[_ [z Z]]|[K' _]]; [|contradiction].
  exists z. split; [exact Z|]. destruct (loop_times xs ys i j _ z L W0 ltac:(discriminate) (end_snoc [] _) Z) as (pts' & -> & H2).
  intros c Hc'. assert (Hp : In (pt c) ([pt (pick comp i j)] ++ pts')).
  { rewrite <- (points_sig_of ([pt (pick comp i j)] ++ pts')). unfold points. apply (in_map (fun a => (s_time a, s_value a))) in Hc'. exact Hc'. }
  destruct Hp as [Hp|Hp].
  - left. exists i. split; [left; reflexivity|]. injection Hp as Hp _. rewrite <- Hp. exact P2.
  - destruct (H2 _ Hp) as (_ & [(a & Ha & Ea)|B]); [left; exists a; split; [right; exact Ha|exact Ea]|right; exact B].
Qed.
End Times.

(** ** Any number of operands at the same times *)
Section Many.
Variables (V S H : R).
Hypothesis HV : lo <= V.
Hypothesis HV' : 4 * V <= hi.
Hypothesis HS : S <= hi.
Hypothesis HH : lo <= H <= S.
Hypothesis HlS : lo <= uu * S.
Let L := ManyError.L V H.
Let tol := tolerance V (2 * S).

Lemma lip_steps e (u : signal B64) f a0 b0 : wf u ->
  (forall a, In a u -> sample_ok (2 * V) S a /\ a0 <= B2R (s_time a) <= b0 /\ Rabs (B2R (s_value a) - f (B2R (s_time a))) <= e / 2) ->
  lipschitz L f a0 b0 -> steps (2 * V) S (slope_rel L e) u.
Proof.
  intros Wu Hu' Lk. split; [intros a Ha; apply (Hu' a Ha)|]. intros x1 a b x2 Eu.
  assert (Ha : In a u) by (rewrite Eu; apply in_or_app; right; left; reflexivity).
  assert (Hb : In b u) by (rewrite Eu; apply in_or_app; right; right; left; reflexivity).
  destruct (Hu' a Ha) as ((A1 & A2 & A3 & A4) & A5 & A6). destruct (Hu' b Hb) as ((B1 & B2 & B3 & B4) & B5 & B6).
  assert (Lt : B2R (s_time a) < B2R (s_time b)).
  { apply lt_B2R; auto. destruct Wu as (_ & Iu & _). rewrite Eu in Iu. eapply later; [exact Iu|left; reflexivity]. }
  split; [exact Lt|]. unfold slope_rel. pose proof (Lk (B2R (s_time a)) (B2R (s_time b)) ltac:(lra) ltac:(lra) ltac:(lra)) as D.
  apply Rabs_le_inv in A6, B6, D. apply Rabs_le. lra.
Qed.

(** One more operand [y]: it is at least [8 r] away from [f] at the samples of [z]. *)
Lemma held_general dbg p x f r z y : wf x -> x <> [] -> sized V S x -> held V H x f r z -> member V S H x y -> tol <= r -> 0 < r -> 800 * uu * (L * S) <= r -> r <= V ->
  (forall c, In c z -> 8 * r <= Rabs (f (B2R (s_time c)) - pw (reals y) (B2R (s_time c)))) ->
  exists z', minmax_pair dbg (comp_of p) false z y = Ok z' /\
    forall c, In c z' -> (exists a, In a z /\ B2R (s_time c) = B2R (s_time a)) \/ Rabs (f (B2R (s_time c)) - pw (reals y) (B2R (s_time c))) < 8 * r.
Proof.
  intros Wx Nx Sx (Z1 & Z2 & Z3 & Z4 & Z5 & Z6 & Z7 & Z8) (Wy & Ny & Sy & Py & Ty) Hr Hr0 Hc HrV HA. destruct (same_ends V S x y Sx Sy Ty) as (E1 & E2).
  pose proof (sized_finite V S x Sx) as Fx. pose proof (sized_finite V S y Sy) as Fy. destruct (many_parts V S H HV HV' HS HH) as (V0 & H0 & S0 & L0 & LS & LH & tol0 & tolV).
  fold L in L0, LS, LH. fold tol in tol0, tolV. pose proof lo_hi as (l0 & L1 & L2). pose proof uu_small as Hu.
  assert (YT : forall b, In b y -> has_time (s_time b) z).
  { intros b Hb. assert (exists a, In a x /\ neqb (s_time a) (s_time b) = true) as (a & Ha & E).
    { clear - Ty Hb. induction Ty as [|u w xs ys E T IH]; [destruct Hb|]. destruct Hb as [<-|Hb]; [exists u; split; [left; reflexivity|exact E]|]. destruct (IH Hb) as (a & Ha & Ea). exists a. split; [right; exact Ha|exact Ea]. }
    destruct (Z6 a Ha) as (c & Hc' & Ec). exists c. split; [exact Hc'|]. clear - E Ec. num_hyps. num. }
  assert (BZ : forall t, first_time (reals x) <= t <= final_time (reals x) -> Rabs t <= S).
  { intros t Dt. destruct (first_in x Nx) as (c1 & Hc1 & Q1'). destruct (final_in x Nx) as (c2 & Hc2 & Q2'). destruct (proj1 Sx c1 Hc1) as (_ & _ & Q1 & _). destruct (proj1 Sx c2 Hc2) as (_ & _ & Q2 & _).
    apply Rabs_le_inv in Q1, Q2. apply Rabs_le. rewrite <- Q1', <- Q2' in Dt. lra. }
  assert (FF : first_time (reals x) <= final_time (reals x)). { destruct (first_in x Nx) as (c & Hc' & <-). apply (in_range x c Wx Fx Hc'). }
  assert (exists r, synchronize z y = Ok r) as ([x' y'] & HY).
  { apply sync_iff; auto. destruct y as [|b y]; [congruence|]. destruct (YT b (or_introl eq_refl)) as (a & Ha & Ea). exists a, b. split; [exact Ha|]. split; [left; reflexivity|]. split; [exact Ea|]. right. reflexivity. }
  pose proof (sync_sym _ _ _ _ Z1 Wy HY) as HY'. destruct (sync_out _ _ _ _ Z1 Wy HY) as (Wx' & Wy' & Nx' & Ny' & T).
  assert (CX : forall c, In c x' -> exists a, In a z /\ s_time a = s_time c /\ s_value a = s_value c).
  { intros c Hc'. destruct (sync_from _ _ _ _ Z1 Wy HY) as (K & _). rewrite Forall_forall in K. destruct (K c Hc') as (K1 & K2).
    assert (HT : has_time (s_time c) z).
    { destruct K2 as [(a & Ha & Ea)|(b & Hb & Eb)]; [|rewrite <- Eb; apply YT, Hb]. exists a. split; [exact Ha|]. rewrite Ea.
      assert (isnum (s_time c) = true) by (rewrite <- Ea; apply finite_num, (proj1 (Forall_forall _ _) Z3 a Ha)). num. }
    destruct K1 as [(a & Ha & Et & Ev)|(u1 & a & b & u2 & Eu & H1 & H2 & _)]; [exists a; auto|destruct (not_between z u1 a b u2 _ Z1 Eu H1 H2 HT)]. }
  assert (DZ : forall a, In a z -> first_time (reals x) <= B2R (s_time a) <= final_time (reals x)) by (intros a Ha; rewrite <- Z4, <- Z5; apply in_range; assumption).
  assert (VZ : forall a, In a z -> B2R (s_value a) = pw (reals z) (B2R (s_time a))).
  { intros a Ha. exact (repr_In (reals z) (pw (reals z)) _ (repr_pw _ (reals_rincr z Z1 Z3)) (in_reals z a Ha)). }
  assert (X1 : forall c, In c x' -> finite (s_time c) = true /\ finite (s_value c) = true /\ first_time (reals x) <= B2R (s_time c) <= final_time (reals x) /\
     Rabs (B2R (s_value c) - f (B2R (s_time c))) <= r /\ B2R (s_value c) = pw (reals z) (B2R (s_time c)) /\ 8 * r <= Rabs (f (B2R (s_time c)) - pw (reals y) (B2R (s_time c)))).
  { intros c Hc'. destruct (CX c Hc') as (a & Ha & <- & <-). destruct (proj1 (Forall_forall _ _) Z3 a Ha) as (F1 & F2). pose proof (DZ a Ha) as D. destruct (Z8 _ D) as (_ & Z9).
    rewrite (VZ a Ha). auto 10. }
  assert (X2 : forall c, In c y' -> finite (s_time c) = true /\ finite (s_value c) = true /\ first_time (reals x) <= B2R (s_time c) <= final_time (reals x) /\ Rabs (B2R (s_value c) - pw (reals y) (B2R (s_time c))) <= tol).
  { intros c Hc'. assert (Fc : finite (s_time c) = true) by (apply (sync_time_finite y z y' x'); auto). split; [exact Fc|].
    destruct (sync_from _ _ _ _ Wy Z1 HY') as (K & _). rewrite Forall_forall in K. destruct (K c Hc') as (K1 & _).
    destruct (from_close V (2 * S) y _ _ Wy (base_mild V S H HV HV' HS HH y Wy Sy Py) Fc K1) as (F1 & r' & P1 & Q1). split; [exact F1|].
    apply pwl_pw in P1 as (P0 & ->); [|apply reals_rincr; assumption|destruct y; [congruence|discriminate]]. rewrite E1, E2 in P0. auto. }
  assert (Fx' : fins x') by (apply Forall_forall; intros c Hc'; destruct (X1 c Hc') as (? & ? & _); auto).
  assert (Fy' : fins y') by (apply Forall_forall; intros c Hc'; destruct (X2 c Hc') as (? & ? & _); auto).
  assert (uuV : uu * V <= V / 1000000) by (assert (uu * V <= / 1000000 * V) by (apply Rmult_le_compat_r; lra); lra).
  assert (uuLS : uu * (2 * V) <= uu * (L * S)) by (apply Rmult_le_compat_l; lra). assert (uV0 : 0 <= uu * V) by (apply Rmult_le_pos; lra).
  assert (SX : steps (2 * V) S (slope_rel L (2 * r)) x').
  { apply (lip_steps (2 * r) x' f (first_time (reals x)) (final_time (reals x)) Wx'); [|exact Z7]. intros c Hc'. destruct (X1 c Hc') as (C1 & C2 & C3 & C4 & _). destruct (Z8 _ C3) as (C5 & _).
    split; [|split; [exact C3|lra]]. split; [exact C1|]. split; [exact C2|]. split; [apply BZ, C3|]. apply Rabs_le_inv in C4, C5. apply Rabs_le. lra. }
  assert (SY : steps (2 * V) S (slope_rel L (2 * r)) y').
  { apply (lip_steps (2 * r) y' (pw (reals y)) (first_time (reals x)) (final_time (reals x)) Wy').
    - intros c Hc'. destruct (X2 c Hc') as (C1 & C2 & C3 & C4). assert (C5 : Rabs (pw (reals y) (B2R (s_time c))) <= V) by (apply (base_bound V S); auto; rewrite E1, E2; exact C3).
      split; [|split; [exact C3|lra]]. split; [exact C1|]. split; [exact C2|]. split; [apply BZ, C3|]. apply Rabs_le_inv in C4, C5. apply Rabs_le. lra.
    - rewrite <- E1, <- E2. apply gentle_lipschitz; [apply reals_rincr; assumption|apply (base_gentle V S H); assumption]. }
  set (K := 260 * uu * (L * S) + 128 * uu * (2 * V) + 2 * (2 * r)).
  assert (LV : 2 * V <= L * S) by lra. assert (KR : K <= 5 * r) by (unfold K; lra).
  assert (PI : forall a b, In (a, b) (combine x' y') -> B2R (s_time b) = B2R (s_time a)).
  { intros a b Hab. assert (E : neqb (s_time a) (s_time b) = true) by (clear - T Hab; induction T as [|u w us ws E T IH]; [destruct Hab|destruct Hab as [Hab|Hab]; [injection Hab as <- <-; exact E|auto]]).
    symmetry. apply eq_B2R; [apply (X1 a (in_combine_l _ _ _ _ Hab))|apply (X2 b (in_combine_r _ _ _ _ Hab))|exact E]. }
  destruct (pair_general (2 * V) S K (slope_rel L (2 * r)) (slope_gap (2 * V) S L (2 * r) ltac:(lra) HS HlS LV LH ltac:(lra)) (slope_on_time (2 * V) S L (2 * r) ltac:(lra) HS HlS LV LH ltac:(lra)) p dbg x' y' Wx' Wy' Nx' T SX SY) as (z' & Hz & Q).
  { intros a b Hab. destruct (X1 a (in_combine_l _ _ _ _ Hab)) as (_ & _ & _ & A1 & _ & A2). destruct (X2 b (in_combine_r _ _ _ _ Hab)) as (_ & _ & _ & B1). rewrite (PI a b Hab) in B1.
    set (u := B2R (s_value a)) in *. set (v := B2R (s_value b)) in *. set (fu := f (B2R (s_time a))) in *. set (fv := pw (reals y) (B2R (s_time a))) in *. clearbody u v fu fv. clear - A1 A2 B1 KR Hr Hr0.
    revert A1 A2 B1. unfold Rabs. destruct (Rcase_abs (u - fu)), (Rcase_abs (fu - fv)), (Rcase_abs (v - fv)), (Rcase_abs (u - v)); lra. }
  assert (Hz' : minmax_pair dbg (comp_of p) false z y = Ok z') by (unfold minmax_pair in Hz |- *; rewrite HY; exact Hz).
  exists z'. split; [exact Hz'|]. intros c Hc'. destruct (Q c Hc') as [(a & Ha & Ea)|Q1].
  - left. destruct (CX a Ha) as (a' & Ha' & Et & _). exists a'. split; [exact Ha'|]. rewrite Et. exact Ea.
  - right. pose proof (slope_pair (2 * V) S L (2 * r) ltac:(lra) HS HlS LV LH ltac:(lra) dbg p x' y' z' f (pw (reals y)) (first_time (reals x)) (final_time (reals x)) Wx' Wy' Nx' T) as SP.
    destruct SP as (S1 & S2 & S3 & S4 & S5 & _).
    + intros d Hd. split; [apply SX, Hd|]. destruct (X1 d Hd) as (_ & _ & D1 & D2 & _). split; [exact D1|lra].
    + intros d Hd. split; [apply SY, Hd|]. destruct (X2 d Hd) as (_ & _ & D1 & D2). split; [exact D1|lra].
    + exact Z7.
    + rewrite <- E1, <- E2. apply gentle_lipschitz; [apply reals_rincr; assumption|apply (base_gentle V S H); assumption].
    + exact Hz.
    + pose proof (in_range z' c S1 S3 Hc') as D. rewrite S4, S5 in D.
      assert (D' : first_time (reals y') <= B2R (s_time c) <= final_time (reals y')). { destruct (ends_agree x' y' Fx' Fy' T) as (Q3 & Q4). rewrite Q3, Q4. exact D. }
      assert (DX : first_time (reals x) <= B2R (s_time c) <= final_time (reals x)).
      { destruct (first_in x' Nx') as (d1 & Hd1 & G1). destruct (final_in x' Nx') as (d2 & Hd2 & G2). destruct (X1 d1 Hd1) as (_ & _ & G3 & _). destruct (X1 d2 Hd2) as (_ & _ & G4 & _). lra. }
      pose proof (sync_close z y x' y' 0 Z1 Wy Z2 Ny Z3 Fy Fx' HY ltac:(lra)) as W1. specialize (W1 ltac:(intros d Hd; destruct (X1 d Hd) as (_ & _ & _ & _ & -> & _); unfold Rminus; rewrite Rplus_opp_r, Rabs_R0; lra) _ D).
      pose proof (sync_close y z y' x' tol Wy Z1 Ny Z2 Fy Z3 Fy' HY' tol0 (fun d Hd => proj2 (proj2 (proj2 (X2 d Hd)))) _ D') as W2.
      destruct (Z8 _ DX) as (_ & W3). apply Rabs_le_inv in Q1, W1, W2, W3. apply Rabs_def1; lra.
Qed.

(** [z] has samples only at the times of [x] and at times at which two of the signals [ds] differ by less than [d]. *)
Definition stamped (x : signal B64) (d : R) (ds : list (signal B64)) (z : signal B64) : Prop :=
  forall c, In c z -> (exists a, In a x /\ B2R (s_time c) = B2R (s_time a)) \/
    exists k l u v, (k < l)%nat /\ nth_error ds k = Some u /\ nth_error ds l = Some v /\ Rabs (pw (reals u) (B2R (s_time c)) - pw (reals v) (B2R (s_time c))) < d.

Lemma fold_general dbg p x d : wf x -> x <> [] -> sized V S x -> forall ys ds f r z, general d (ds ++ ys) -> Forall (member V S H x) (ds ++ ys) -> In x (ds ++ ys) ->
  held V H x f r z -> stamped x d ds z -> (forall t, exists k u, nth_error ds k = Some u /\ f t = pw (reals u) t) ->
  tol <= r -> 0 < r -> 800 * uu * (L * S) <= r -> r * 10 ^ length ys <= V -> r * 10 ^ length ys <= d -> exists z', minmax_fold dbg (comp_of p) false z ys = Ok z'.
Proof.
  intros Wx Nx Sx. induction ys as [|y ys IH]; intros ds f r z G F Ix Hh St Hf Ht Hr0 Hc HrV Hrd; cbn [length minmax_fold pow] in *; [exists z; reflexivity|].
  assert (P : 1 <= 10 ^ length ys) by (apply pow_R1_Rle; lra). assert (r * 10 * 1 <= r * 10 * 10 ^ length ys) by (apply Rmult_le_compat_l; lra).
  assert (My : member V S H x y) by (rewrite Forall_forall in F; apply F, in_or_app; right; left; reflexivity).
  assert (PW : forall u t, In u (ds ++ y :: ys) -> first_time (reals x) <= t <= final_time (reals x) -> pwl (reals u) t (pw (reals u) t)).
  { intros u t Hu D. rewrite Forall_forall in F. destruct (F u Hu) as (Wu & Nu & Su & Pu & Tu). destruct (same_ends V S x u Sx Su Tu) as (E1 & E2).
    apply pwl_pw; [apply reals_rincr; [exact Wu|eapply sized_finite; eauto]|destruct u; [congruence|discriminate]|]. rewrite E1, E2. auto. }
  assert (CL : forall k l u v t, nth_error (ds ++ y :: ys) k = Some u -> nth_error (ds ++ y :: ys) l = Some v -> first_time (reals x) <= t <= final_time (reals x) ->
     Rabs (pw (reals u) t - pw (reals v) t) < d -> close_at d (ds ++ y :: ys) k l t).
  { intros k l u v t Hk Hl D A. exists u, v, (pw (reals u) t), (pw (reals v) t). repeat (split; [first [assumption|eapply PW; [eapply nth_error_In; eauto|exact D]]|]). exact A. }
  assert (NY : nth_error (ds ++ y :: ys) (length ds) = Some y) by (rewrite nth_error_app2, Nat.sub_diag by lia; reflexivity).
  assert (ND : forall k u, nth_error ds k = Some u -> nth_error (ds ++ y :: ys) k = Some u /\ (k < length ds)%nat).
  { intros k u Hk. assert (k < length ds)%nat by (apply nth_error_Some; congruence). split; [rewrite nth_error_app1; assumption|assumption]. }
  pose proof Hh as (Z1 & Z2 & Z3 & Z4 & Z5 & Z6 & Z7 & Z8).
  destruct (held_general dbg p x f r z y Wx Nx Sx Hh My Ht Hr0 Hc ltac:(lra)) as (z1 & Hz1 & Q).
  { intros c Hc'. pose proof (in_range z c Z1 Z3 Hc') as D. rewrite Z4, Z5 in D. destruct (Rle_lt_dec (8 * r) (Rabs (f (B2R (s_time c)) - pw (reals y) (B2R (s_time c))))) as [C|C]; [exact C|]. exfalso.
    destruct (Hf (B2R (s_time c))) as (k & u & Hk & Ek). rewrite Ek in C. destruct (ND k u Hk) as (Hk' & Lk). pose proof (CL k (length ds) u y _ Hk' NY D ltac:(lra)) as C1.
    destruct G as (G1 & G2). destruct (St c Hc') as [(a & Ha & Ea)|(i & j & v & w & Hij & Hi & Hj & C2)].
    - rewrite Ea in C1. exact (G1 k (length ds) x a Lk Ix Ha C1).
    - destruct (ND i v Hi) as (Hi' & Li). destruct (ND j w Hj) as (Hj' & Lj). refine (G2 k (length ds) i j (B2R (s_time c)) Lk Hij _ C1 (CL i j v w _ Hi' Hj' D C2)). intros E. injection E as E E'. lia. }
  rewrite Hz1. cbn [bind].
  pose proof (held_step V S H HV HV' HS HH HlS dbg p x f r z y z1 Wx Nx Sx Hh My Ht ltac:(lra) Hz1) as Hh1.
  assert (Hh2 : held V H x (fun t => sbest (QuantFacts.sgp p) (f t) (pw (reals y) t)) (10 * r) z1).
  { destruct Hh1 as (Y1 & Y2 & Y3 & Y4 & Y5 & Y6 & Y7 & Y8). repeat (split; [assumption|]). intros t Dt. destruct (Y8 t Dt) as (W1 & W2). split; [exact W1|]. fold L in W2. lra. }
  assert (EA : ds ++ y :: ys = (ds ++ [y]) ++ ys) by (rewrite <- app_assoc; reflexivity). rewrite EA in G, F, Ix.
  apply (IH (ds ++ [y]) (fun t => sbest (QuantFacts.sgp p) (f t) (pw (reals y) t)) (10 * r) z1 G F Ix Hh2); try lra.
  - intros c Hc'. destruct (Q c Hc') as [(a & Ha & Ea)|C].
    + rewrite Ea. destruct (St a Ha) as [C|(k & l & u & v & Hkl & Hk & Hl & C)]; [left; exact C|right].
      exists k, l, u, v. split; [exact Hkl|]. split; [rewrite nth_error_app1; [exact Hk|apply nth_error_Some; congruence]|]. split; [rewrite nth_error_app1; [exact Hl|apply nth_error_Some; congruence]|exact C].
    + right. destruct (Hf (B2R (s_time c))) as (k & u & Hk & Ek). rewrite Ek in C. exists k, (length ds), u, y. destruct (ND k u Hk) as (_ & Lk). split; [exact Lk|].
      split; [rewrite nth_error_app1; assumption|]. split; [rewrite nth_error_app2, Nat.sub_diag by lia; reflexivity|lra].
  - intros t. unfold sbest. destruct (Rle_dec _ _).
    + destruct (Hf t) as (k & u & Hk & Ek). exists k, u. split; [rewrite nth_error_app1; [exact Hk|apply nth_error_Some; congruence]|exact Ek].
    + exists (length ds), y. split; [rewrite nth_error_app2, Nat.sub_diag by lia; reflexivity|reflexivity].
Qed.

Lemma list_general dbg p x ys : wf x -> x <> [] -> sized V S x -> spaced H x -> Forall (member V S H x) ys -> unit_error V S H * 10 ^ length ys <= V -> general (unit_error V S H * 10 ^ length ys) (x :: ys) ->
  exists z, minmax_list dbg (comp_of p) false (x :: ys) = Ok z.
Proof.
  intros Wx Nx Sx Px F Hr G. rewrite list_fold. destruct (many_parts V S H HV HV' HS HH) as (V0 & H0 & S0 & L0 & LS & LH & tol0 & tolV). fold L in L0, LS, LH. fold tol in tol0, tolV. pose proof uu_small as Hu.
  pose proof lo_hi as (l0 & _). pose proof (sized_finite V S x Sx) as Fx. assert (u0 : 0 < uu) by (unfold uu; apply bpow_gt_0).
  assert (uu * (2 * V) <= uu * (L * S)) by (apply Rmult_le_compat_l; lra). assert (0 < uu * V) by (apply Rmult_lt_0_compat; lra).
  assert (Tx : same x x). { clear - Fx. unfold same. induction Fx as [|a x (A & _) _ IH]; constructor; [|exact IH]. pose proof (finite_num _ A). num. }
  assert (UE : unit_error V S H = 1024 * uu * (L * S)) by reflexivity.
  apply (fold_general dbg p x (unit_error V S H * 10 ^ length ys) Wx Nx Sx ys [x] (pw (reals x)) (unit_error V S H) x); auto; try (rewrite UE; lra); try lra.
  - constructor; [|exact F]. repeat (split; [assumption|]). exact Tx.
  - left. reflexivity.
  - repeat (split; [assumption || reflexivity|]). split; [|split].
    + intros a Ha. exists a. split; [exact Ha|]. pose proof (finite_num _ (proj1 (proj1 (Forall_forall _ _) Fx a Ha))). num.
    + apply gentle_lipschitz; [apply reals_rincr; assumption|apply (base_gentle V S H); assumption].
    + intros t Dt. split; [apply (base_bound V S); assumption|]. unfold Rminus. rewrite Rplus_opp_r, Rabs_R0, UE. lra.
  - intros c Hc. left. exists c. auto.
  - intros t. exists 0%nat, x. auto.
Qed.
End Many.
