(** Error of the minimum and maximum of two signals sampled at the same times, in doubles (C118). *)
From Coq Require Import Reals Lra Lia Sorted.
From Flocq Require Import Core.Core IEEE754.BinarySingleNaN.
From Verif Require Import Base Num NumB64.
From Verif.Model Require Import Signal MinMax Ast Robustness.
From Verif.Spec Require Import SignalSpec Pwl Formula Crossing Accuracy Apart Spaced.
From Verif.Proofs Require Import NumFacts SignalFacts PwlFacts B64Facts SafeFacts MinMaxFacts MinMaxCases SyncProps InterpError CrossingError SyncError PairBound ChainFacts UniformFacts QuantFacts WholeFacts.
Local Open Scope R_scope.

Section Loop.
(** [V], [S]: bounds of values and times; [K]: how far apart the operands are where they are found to cross. *)
Variables (V S K : R).
Hypothesis HV : V <= big.
Hypothesis HS : S <= big.
Hypothesis K0 : 0 <= K.
Variable s : R.
Hypothesis Hs : s = 1 \/ s = -1.
Variable comp : sample B64 -> sample B64 -> bool.
Hypothesis Hcomp : forall i j, finite (s_value i) = true -> finite (s_value j) = true ->
  comp i j = if Rle_dec (s * B2R (s_value i)) (s * B2R (s_value j)) then true else false.

(** Error of an interpolated value, and of the result. *)
Definition DI : R := 16 * uu * V + 4 * eta * (2 * S + 1).
Definition EQ : R := DI + 2 * K.

Definition sample_ok (i : sample B64) : Prop := finite (s_time i) = true /\ finite (s_value i) = true /\ Rabs (B2R (s_time i)) <= S /\ Rabs (B2R (s_value i)) <= V.
(** [i'] follows [i]; [rel] says more about the two. *)
Variable rel : sample B64 -> sample B64 -> Prop.
Definition follows (i i' : sample B64) : Prop := sample_ok i /\ sample_ok i' /\ B2R (s_time i) < B2R (s_time i') /\ rel i i' /\
  s_deriv i = ndiv (nsub (s_value i') (s_value i)) (nsub (s_time i') (s_time i)).
(** Two lines that meet, or nearly so, where they are computed to cross. *)
Definition meets (a a' b b' : sample B64) : Prop :=
  let g0 := B2R (s_value a) - B2R (s_value b) in let g1 := B2R (s_value a') - B2R (s_value b') in
  let it := time_intersect a b in let t0 := B2R (s_time a) in let t1 := B2R (s_time a') in
  (Rabs g0 <= K /\ Rabs g1 <= K) \/
  (finite it = true /\ (B2R it < t0 -> Rabs g0 <= K) /\ (t0 <= B2R it <= t1 -> Rabs (g0 + (g1 - g0) * ((B2R it - t0) / (t1 - t0))) <= K)).
Hypothesis Hgap : forall a a' b b', follows a a' -> follows b b' -> B2R (s_time b) = B2R (s_time a) -> B2R (s_time b') = B2R (s_time a') ->
  let g0 := B2R (s_value a) - B2R (s_value b) in let g1 := B2R (s_value a') - B2R (s_value b') in (g0 <= 0 <= g1 \/ g1 <= 0 <= g0) -> meets a a' b b'.

(** What is appended between the times [t0] and [t1]. *)
Definition inserted (t0 t1 : R) (ext : list (B64 * B64)) : Prop :=
  ext = [] \/ exists it vv, ext = [(it, vv)] /\ finite it = true /\ finite vv = true /\ t0 < B2R it < t1.

Lemma line_frac t0 a t1 b t : line (t0, a) (t1, b) t = a + (b - a) * ((t - t0) / (t1 - t0)).
Proof. unfold line. cbn [fst snd]. unfold Rdiv. ring. Qed.

Lemma step_switch pts (pl pl' pw' win : sample B64) z : wfp pts -> pts <> [] -> end_time (sig_of pts) = s_time pl ->
  follows pl pl' -> follows pw' win -> B2R (s_time pw') = B2R (s_time pl) -> B2R (s_time win) = B2R (s_time pl') ->
  let al := B2R (s_value pl) in let al' := B2R (s_value pl') in let be := B2R (s_value pw') in let be' := B2R (s_value win) in
  s * al <= s * be -> s * be' <= s * al' ->
  pair_step (sig_of pts) true (Some pw') (Some pl) win = Ok z ->
  let t0 := B2R (s_time pl) in let t1 := B2R (s_time win) in
  exists ext, z = sig_of (pts ++ ext ++ [pt win]) /\ wfp (pts ++ ext ++ [pt win]) /\ inserted t0 t1 ext /\
    forall rest t, t0 <= t <= t1 ->
      Rabs (pw ((t0, al) :: map rpt ext ++ (t1, be') :: rest) t - sbest s (al + (al' - al) * ((t - t0) / (t1 - t0))) (be + (be' - be) * ((t - t0) / (t1 - t0)))) <= EQ.
Proof.
  intros W Hne He Fl Fw Et Et' al al' be be' H0 H1 Hz t0 t1.
  pose proof Fl as ((Fl1 & Fl2 & Fl3 & Fl4) & (Fl5 & Fl6 & Fl7 & Fl8) & Hh & _ & Dl). pose proof Fw as ((Fw1 & Fw2 & Fw3 & Fw4) & (Fw5 & Fw6 & Fw7 & Fw8) & Hh' & _ & Dw).
  set (h := t1 - t0). assert (Eh : B2R (s_time pl') - B2R (s_time pl) = h) by (unfold h, t0, t1; lra).
  assert (h0 : 0 < h) by lra. assert (HhS : h <= 2 * S). { rewrite <- Eh. apply Rabs_le_inv in Fl3, Fl7. lra. }
  pose proof uu_small as Hu. pose proof eta_pos as He0. assert (V0 : 0 <= V) by (pose proof (Rabs_pos (B2R (s_value pl))); lra).
  assert (D0 : 0 <= DI). { unfold DI. assert (0 <= uu * V) by (apply Rmult_le_pos; lra). assert (0 <= eta * (2 * S + 1)) by (apply Rmult_le_pos; lra). lra. }
  set (it := time_intersect pl pw').
  assert (Hg : (al - be <= 0 <= al' - be') \/ (al' - be' <= 0 <= al - be)) by (destruct Hs as [E|E]; rewrite E in H0, H1; [left|right]; lra).
  pose proof (Hgap pl pl' pw' win Fl Fw Et Et' Hg) as G. unfold meets in G. cbv zeta in G. fold it t0 al al' be be' in G. rewrite <- Et' in G. fold t1 in G. fold h in G.
  assert (KE : DI + 2 * K <= EQ) by (unfold EQ; lra).
  assert (L : nltb (end_time (sig_of pts)) (s_time win) = true) by (rewrite He; apply B2R_lt; auto; fold t0 t1; unfold h in *; lra).
  unfold pair_step in Hz. rewrite He in Hz. fold it in Hz.
  destruct (nltb (s_time pl) it) eqn:L3; cbn [andb] in Hz; cycle 1.
  { (* no crossing after the old end *)
    exists []. cbn [bind] in Hz. destruct (push_back_ok pts win W Hne L) as (P1 & P2). rewrite P1 in Hz. injection Hz as <-.
    split; [reflexivity|]. split; [exact P2|]. split; [left; reflexivity|].
    intros rest t Ht. cbn [map app]. rewrite pw_first by exact (proj2 Ht). rewrite line_frac. fold h.
    assert (G0 : Rabs (al - be) <= K).
    { destruct G as [(G & _)|(Fi & G1 & G2)]; [exact G|]. apply B2R_le_false in L3; auto. fold t0 in L3. destruct (Rle_lt_or_eq_dec _ _ L3) as [C|C]; [apply G1, C|].
      rewrite C in G2. replace (al - be) with (al - be + (al' - be' - (al - be)) * ((t0 - t0) / h)) by (field; lra). apply G2. unfold h in *; lra. }
    assert (U01 : 0 <= (t - t0) / h <= 1) by (split; [apply Rmult_le_pos; [lra|left; apply Rinv_0_lt_compat; lra]|apply Rmult_le_reg_r with h; [lra|]; unfold Rdiv; rewrite Rmult_assoc, Rinv_l by lra; unfold h; lra]).
    set (u := (t - t0) / h) in *.
    pose proof (right_part s Hs al al' be be' 0 al 0 K u H1 ltac:(lra)) as R.
    replace (al + (be' - al) * u) with (al + (be' - al) / (1 - 0) * (u - 0)) by field.
    eapply Rle_trans; [apply R; [|rewrite Rmult_0_r, Rplus_0_r, Rminus_diag_eq by reflexivity; rewrite Rabs_R0; lra|lra]|lra].
    rewrite Rmult_0_r, Rplus_0_r. exact G0. }
  destruct (neqb it (s_time win)) eqn:L4; cbn [negb bind] in Hz.
  { exists []. destruct (push_back_ok pts win W Hne L) as (P1 & P2). rewrite P1 in Hz. injection Hz as <-.
    split; [reflexivity|]. split; [exact P2|]. split; [left; reflexivity|].
    intros rest t Ht. cbn [map app]. rewrite pw_first by exact (proj2 Ht). rewrite line_frac. fold h.
    assert (G0 : Rabs (al' - be') <= K).
    { destruct G as [(_ & G)|(Fi & G1 & G2)]; [exact G|]. apply eq_B2R in L4; auto. fold t1 in L4.
      rewrite L4 in G2. fold h in G2. replace (al' - be') with (al - be + (al' - be' - (al - be)) * (h / h)) by (field; lra). apply G2. unfold h in *; lra. }
    assert (U01 : 0 <= (t - t0) / h <= 1) by (split; [apply Rmult_le_pos; [lra|left; apply Rinv_0_lt_compat; lra]|apply Rmult_le_reg_r with h; [lra|]; unfold Rdiv; rewrite Rmult_assoc, Rinv_l by lra; unfold h; lra]).
    set (u := (t - t0) / h) in *.
    pose proof (left_part s Hs al al' be be' 1 be' K K u H0 ltac:(lra)) as R.
    replace (al + (be' - al) * u) with (al + (be' - al) / 1 * u) by field.
    eapply Rle_trans; [apply R; [| |lra]|lra].
    - match goal with |- Rabs ?a <= _ => replace a with (al' - be') by ring end. exact G0.
    - rewrite <- Rabs_Ropp. match goal with |- Rabs ?a <= _ => replace a with (al' - be') by ring end. exact G0. }
  set (vv := interpolate pl it) in *. set (a := mkSample it vv nzero) in *.
  destruct (push_back_ok pts a W Hne) as (P1 & P2); [rewrite He; exact L3|]. rewrite P1 in Hz. cbn [bind] in Hz.
  apply push_back_inv in Hz as (-> & P4); [|exact P2|apply finite_num, Fw5].
  assert (L5 : nltb it (s_time win) = true).
  { destruct P4 as (_ & P4). rewrite !map_app in P4. apply increasing_app in P4 as (_ & _ & P4). apply P4; [apply in_or_app; right; left; reflexivity|left; reflexivity]. }
  assert (Fi : finite it = true). { apply (between_finite (s_time pl) it (s_time win)); auto; num. }
  assert (K1 : t0 < B2R it) by (apply lt_B2R; auto). assert (K2 : B2R it < t1) by (apply lt_B2R; auto).
  assert (Fd : finite (s_deriv pl) = true) by (apply (intersect_slope pl pw'), finite_num, Fi).
  destruct (interp_finite pl pl' it V Fl1 Fl2 Fl5 Fl6 Fi Dl) as (Fv & Ev); auto.
  { fold t0. rewrite <- Et'. fold t1. lra. } { lra. } { lra. }
  fold vv in Fv, Ev. rewrite Eh in Ev. fold t0 al al' in Ev.
  set (sg := (B2R it - t0) / h). assert (S01 : 0 < sg < 1).
  { unfold sg. split; [apply Rmult_lt_0_compat; [lra|apply Rinv_0_lt_compat; lra]|]. apply Rmult_lt_reg_r with h; [lra|]. unfold Rdiv. rewrite Rmult_assoc, Rinv_l by lra. unfold h. lra. }
  assert (Evv : Rabs (B2R vv - (al + (al' - al) * sg)) <= DI).
  { unfold sg. replace ((al' - al) * ((B2R it - t0) / h)) with ((al' - al) * (B2R it - t0) / h) by (unfold Rdiv; ring). eapply Rle_trans; [exact Ev|].
    unfold DI. assert (eta * (h + 1) <= eta * (2 * S + 1)) by (apply Rmult_le_compat_l; lra). lra. }
  assert (Gk : Rabs ((al - be) + ((al' - be') - (al - be)) * sg) <= K).
  { destruct G as [(G1 & G2)|(_ & _ & G2)]; [|apply G2; lra].
    replace ((al - be) + ((al' - be') - (al - be)) * sg) with ((al - be) * (1 - sg) + (al' - be') * sg) by ring.
    apply Rabs_le_inv in G1, G2. apply Rabs_le. split; nra. }
  exists [(it, vv)]. change [(it, vv)] with [pt a]. rewrite <- app_assoc. split; [reflexivity|]. split; [rewrite app_assoc; exact P4|].
  split. { right. exists it, vv. auto. }
  intros rest t Ht. change (map rpt [pt a]) with [(B2R it, B2R vv)]. cbn [app].
  assert (U01 : 0 <= (t - t0) / h <= 1) by (split; [apply Rmult_le_pos; [lra|left; apply Rinv_0_lt_compat; lra]|apply Rmult_le_reg_r with h; [lra|]; unfold Rdiv; rewrite Rmult_assoc, Rinv_l by lra; unfold h; lra]).
  set (u := (t - t0) / h) in *. assert (Etu : t - t0 = u * h) by (unfold u; field; lra). assert (Eis : B2R it - t0 = sg * h) by (unfold sg; field; lra).
  destruct (Rle_lt_dec t (B2R it)) as [Lt|Lt].
  - rewrite pw_first by exact Lt. unfold line. cbn [fst snd].
    pose proof (left_part s Hs al al' be be' sg (B2R vv) DI K u H0 ltac:(lra) Gk Evv) as R.
    assert (u <= sg) by (apply Rmult_le_reg_r with h; lra).
    replace (al + (B2R vv - al) / (B2R it - t0) * (t - t0)) with (al + (B2R vv - al) / sg * u) by (rewrite Etu, Eis; field; lra).
    eapply Rle_trans; [apply R; lra|lra].
  - cbn [pw fst]. destruct (Rle_dec t (B2R it)) as [?|_]; [lra|]. destruct (Rle_dec t t1) as [_|?]; [|lra]. unfold line. cbn [fst snd].
    pose proof (right_part s Hs al al' be be' sg (B2R vv) DI K u H1 ltac:(lra) Gk Evv) as R.
    assert (sg <= u) by (apply Rmult_le_reg_r with h; lra).
    replace (B2R vv + (be' - B2R vv) / (t1 - B2R it) * (t - B2R it)) with (B2R vv + (be' - B2R vv) / (1 - sg) * (u - sg)).
    { eapply Rle_trans; [apply R; lra|lra]. }
    replace (t1 - B2R it) with ((1 - sg) * h) by (unfold h in *; lra). replace (t - B2R it) with ((u - sg) * h) by lra. field. lra.
Qed.

(** The same operand is chosen at both ends. *)
Lemma step_same t0 t1 al al' be be' rest t : t0 < t1 -> s * al <= s * be -> s * al' <= s * be' -> t0 <= t <= t1 ->
  pw ((t0, al) :: (t1, al') :: rest) t - sbest s (al + (al' - al) * ((t - t0) / (t1 - t0))) (be + (be' - be) * ((t - t0) / (t1 - t0))) = 0.
Proof.
  intros Ht01 H0 H1 Ht. rewrite pw_first by exact (proj2 Ht). rewrite line_frac.
  assert (U01 : 0 <= (t - t0) / (t1 - t0) <= 1) by (split; [apply Rmult_le_pos; [lra|left; apply Rinv_0_lt_compat; lra]|apply Rmult_le_reg_r with (t1 - t0); [lra|]; unfold Rdiv; rewrite Rmult_assoc, Rinv_l by lra; lra]).
  set (u := (t - t0) / (t1 - t0)) in *. unfold sbest. destruct (Rle_dec _ _) as [L|L]; [ring|]. exfalso. apply L.
  destruct Hs as [-> | ->]; nra.
Qed.

(** Operands sampled together. *)
Fixpoint together (i j : sample B64) (xs ys : list (sample B64)) : Prop :=
  sample_ok i /\ sample_ok j /\ B2R (s_time j) = B2R (s_time i) /\
  match xs, ys with
  | [], [] => True
  | i' :: xs', j' :: ys' => follows i i' /\ follows j j' /\ together i' j' xs' ys'
  | _, _ => False
  end.
Lemma together_first i j xs ys : together i j xs ys -> sample_ok i /\ sample_ok j /\ B2R (s_time j) = B2R (s_time i).
Proof. clear. destruct xs, ys; cbn; tauto. Qed.
Lemma pick_ok i j xs ys : together i j xs ys -> sample_ok (pick comp i j) /\ B2R (s_time (pick comp i j)) = B2R (s_time i) /\
  B2R (s_value (pick comp i j)) = sbest s (B2R (s_value i)) (B2R (s_value j)).
Proof.
  intros T. apply together_first in T as (A & B & C). unfold pick. rewrite (Hcomp i j (proj1 (proj2 A)) (proj1 (proj2 B))). unfold sbest. destruct (Rle_dec _ _); auto.
Qed.

Lemma EQ_nonneg i : sample_ok i -> 0 <= EQ.
Proof.
  intros (_ & _ & A & B). pose proof (Rabs_pos (B2R (s_time i))). pose proof (Rabs_pos (B2R (s_value i))). pose proof uu_small. pose proof eta_pos. unfold EQ, DI.
  assert (0 <= uu * V) by (apply Rmult_le_pos; lra). assert (0 <= eta * (2 * S + 1)) by (apply Rmult_le_pos; lra). lra.
Qed.

Lemma loop_error : forall xs ys i j pts z, together i j xs ys -> wfp pts -> pts <> [] -> end_time (sig_of pts) = s_time (pick comp i j) ->
  pair_loop comp (Some i) (Some j) xs ys (if comp i j then ChX else ChY) (sig_of pts) = Ok z ->
  exists pts', z = sig_of (pts ++ pts') /\ wfp (pts ++ pts') /\
    Forall fpt pts' /\ Forall (fun p => B2R (s_time i) < B2R (fst p)) pts' /\
    final_time (map rpt (pt (pick comp i j) :: pts')) = final_time (reals (i :: xs)) /\
    forall t, B2R (s_time i) <= t <= final_time (reals (i :: xs)) ->
      Rabs (pw (map rpt (pt (pick comp i j) :: pts')) t - sbest s (pw (reals (i :: xs)) t) (pw (reals (j :: ys)) t)) <= EQ.
Proof.
  induction xs as [|i' xs IH]; intros ys i j pts z C W Hne He Hz; destruct ys as [|j' ys]; try (destruct C as (? & ? & ? & []); fail).
  - exists []. rewrite app_nil_r. cbn [pair_loop] in Hz. injection Hz as <-. split; [reflexivity|]. split; [exact W|]. split; [constructor|]. split; [constructor|].
    destruct (pick_ok _ _ _ _ C) as (_ & P1 & P2). cbn [map]. rewrite rpt_pt, P1, P2.
    rewrite !reals_cons. cbn [reals map pw final_time last_opt fst snd]. split; [reflexivity|].
    intros t _. rewrite Rminus_diag_eq by reflexivity. rewrite Rabs_R0. apply (EQ_nonneg i), C.
  - pose proof C as C0. destruct C as (A1 & A2 & A3 & Fi & Fj & C). pose proof (EQ_nonneg i A1) as E0.
    pose proof (together_first _ _ _ _ C) as (A1' & A2' & A3').
    assert (T01 : B2R (s_time i) < B2R (s_time i')) by (destruct Fi as (_ & _ & Q & _); exact Q).
    set (t0 := B2R (s_time i)) in *. set (t1 := B2R (s_time i')) in *.
    set (v := B2R (s_value i)). set (v' := B2R (s_value i')). set (w := B2R (s_value j)). set (w' := B2R (s_value j')).
    destruct (pick_ok _ _ _ _ C0) as (P1 & P2 & P3). destruct (pick_ok _ _ _ _ C) as (P1' & P2' & P3'). fold t0 in P2. fold t1 in P2'. fold v w in P3. fold v' w' in P3'.
    assert (Step : exists ext, pair_loop comp (Some i') (Some j') xs ys (if comp i' j' then ChX else ChY) (sig_of (pts ++ ext ++ [pt (pick comp i' j')])) = Ok z /\
       wfp (pts ++ ext ++ [pt (pick comp i' j')]) /\ inserted t0 t1 ext /\ forall rest t, t0 <= t <= t1 ->
         Rabs (pw (map rpt (pt (pick comp i j) :: ext ++ pt (pick comp i' j') :: rest)) t -
            sbest s (v + (v' - v) * ((t - t0) / (t1 - t0))) (w + (w' - w) * ((t - t0) / (t1 - t0)))) <= EQ).
    { assert (L : nltb (end_time (sig_of pts)) (s_time (pick comp i' j')) = true).
      { rewrite He. apply B2R_lt; [apply P1|apply P1'|]. rewrite P2, P2'. exact T01. }
      assert (Ce : comp i j = if Rle_dec (s * v) (s * w) then true else false) by (apply Hcomp; [apply A1|apply A2]).
      assert (Ce' : comp i' j' = if Rle_dec (s * v') (s * w') then true else false) by (apply Hcomp; [apply A1'|apply A2']).
      assert (Hp : rpt (pt (pick comp i j)) = (t0, sbest s v w)) by (rewrite rpt_pt, P2, P3; reflexivity).
      assert (Hp' : rpt (pt (pick comp i' j')) = (t1, sbest s v' w')) by (rewrite rpt_pt, P2', P3'; reflexivity).
      cbn [pair_loop] in Hz. setoid_rewrite map_cons. setoid_rewrite map_app. setoid_rewrite map_cons. rewrite Hp, Hp'. clear Hp Hp'.
      unfold pick in He, L, Hz |- *. unfold sbest at 1 2. rewrite Ce, Ce' in *.
      destruct (Rle_dec (s * v) (s * w)) as [Q|Q], (Rle_dec (s * v') (s * w')) as [Q'|Q']; cbn [chosen_eqb] in Hz.
      - exists []. destruct (push_back_ok pts i' W Hne L) as (B1 & B2). unfold pair_step in Hz. cbn [bind] in Hz. rewrite B1 in Hz. cbn [bind] in Hz. split; [exact Hz|]. split; [exact B2|].
        split; [left; reflexivity|]. intros rest t Ht. cbn [map app]. rewrite (step_same t0 t1 v v' w w' (map rpt rest) t T01 Q Q' Ht), Rabs_R0. exact E0.
      - apply Rnot_le_lt in Q'. destruct (pair_step (sig_of pts) true (Some j) (Some i) j') as [out| | | |] eqn:St; try discriminate. cbn [bind] in Hz.
        destruct (step_switch pts i i' j j' out W Hne He Fi Fj A3 A3' Q (Rlt_le _ _ Q') St) as (ext & -> & B2 & B3 & B4). rewrite A3' in B3, B4.
        exists ext. split; [exact Hz|]. split; [exact B2|]. split; [exact B3|]. intros rest t Ht. apply B4, Ht.
      - apply Rnot_le_lt in Q. destruct (pair_step (sig_of pts) true (Some i) (Some j) i') as [out| | | |] eqn:St; try discriminate. cbn [bind] in Hz.
        destruct (step_switch pts j j' i i' out W Hne He Fj Fi (eq_sym A3) (eq_sym A3') (Rlt_le _ _ Q) Q' St) as (ext & -> & B2 & B3 & B4). rewrite A3 in B3, B4.
        exists ext. split; [exact Hz|]. split; [exact B2|]. split; [exact B3|]. intros rest t Ht. rewrite (sbest_sym s Hs comp Hcomp). apply B4, Ht.
      - apply Rnot_le_lt in Q, Q'. exists []. destruct (push_back_ok pts j' W Hne L) as (B1 & B2). unfold pair_step in Hz. cbn [bind] in Hz. rewrite B1 in Hz. cbn [bind] in Hz. split; [exact Hz|]. split; [exact B2|].
        split; [left; reflexivity|]. intros rest t Ht. cbn [map app]. rewrite (sbest_sym s Hs comp Hcomp). rewrite (step_same t0 t1 w w' v v' (map rpt rest) t T01 (Rlt_le _ _ Q) (Rlt_le _ _ Q') Ht), Rabs_R0. exact E0. }
    destruct Step as (ext & S1 & S2 & S3 & S4).
    destruct (IH ys i' j' (pts ++ ext ++ [pt (pick comp i' j')]) z C S2) as (pts' & H1 & H2 & H3 & H4 & H5 & H6); [apply wfp_nonempty_app|rewrite app_assoc; apply end_snoc|exact S1|].
    assert (Ea : (pts ++ ext ++ [pt (pick comp i' j')]) ++ pts' = pts ++ (ext ++ pt (pick comp i' j') :: pts')) by (rewrite <- !app_assoc; reflexivity).
    rewrite Ea in H1, H2. fold t1 in H4, H6.
    exists (ext ++ pt (pick comp i' j') :: pts'). split; [exact H1|]. split; [exact H2|].
    split. { apply Forall_app. split; [destruct S3 as [-> | (it & vv & -> & F1 & F2 & _)]; repeat constructor; assumption|]. constructor; [split; apply P1'|exact H3]. }
    split. { apply Forall_app. split; [destruct S3 as [-> | (it & vv & -> & _ & _ & F3)]; [constructor|repeat constructor; cbn; lra]|].
      constructor; [cbn [pt fst]; rewrite P2'; exact T01|]. eapply Forall_impl; [|exact H4]. cbn beta. intros; lra. }
    assert (Hf : final_time (map rpt (pt (pick comp i j) :: ext ++ pt (pick comp i' j') :: pts')) = final_time (map rpt (pt (pick comp i' j') :: pts'))).
    { rewrite map_cons, map_app. apply (final_app (rpt (pt (pick comp i j)) :: map rpt ext)). discriminate. }
    split. { rewrite Hf, H5. reflexivity. }
    assert (Ex2 : reals (i :: i' :: xs) = (t0, v) :: (t1, v') :: reals xs) by reflexivity.
    assert (Ey2 : reals (j :: j' :: ys) = (t0, w) :: (t1, w') :: reals ys) by (rewrite !reals_cons, A3, A3'; reflexivity).
    assert (Fx : final_time (reals (i :: i' :: xs)) = final_time (reals (i' :: xs))) by reflexivity.
    rewrite Fx. intros t Ht. destruct (Rle_lt_dec t t1) as [Lt|Lt].
    + rewrite Ex2, Ey2. rewrite !pw_first by exact Lt. rewrite !line_frac. apply S4. lra.
    + assert (Px : pw (reals (i :: i' :: xs)) t = pw (reals (i' :: xs)) t).
      { rewrite Ex2. cbn [pw fst]. destruct (Rle_dec t t1); [lra|reflexivity]. }
      assert (Py : pw (reals (j :: j' :: ys)) t = pw (reals (j' :: ys)) t).
      { rewrite Ey2. rewrite (reals_cons j'), A3'. cbn [pw fst]. destruct (Rle_dec t t1); [lra|reflexivity]. }
      rewrite Px, Py. assert (Pz : pw (map rpt (pt (pick comp i j) :: ext ++ pt (pick comp i' j') :: pts')) t = pw (map rpt (pt (pick comp i' j') :: pts')) t).
      { assert (G : B2R (s_time (pick comp i' j')) < t) by (rewrite P2'; exact Lt).
        destruct S3 as [-> | (it & vv & -> & _ & _ & F3)]; cbn [map app pw rpt fst pt].
        - destruct (Rle_dec t _) as [?|_]; [lra|reflexivity].
        - destruct (Rle_dec t (B2R it)) as [?|_]; [lra|]. destruct (Rle_dec t _) as [?|_]; [lra|reflexivity]. }
      rewrite Pz. apply H6. lra.
Qed.
End Loop.

(** ** Two signals *)
Definition fins (x : signal B64) : Prop := Forall (fun a => finite (s_time a) = true /\ finite (s_value a) = true) x.
Lemma sized_finite V S x : sized V S x -> fins x.
Proof. intros (A & _). apply Forall_forall. intros a Ha. destruct (A a Ha) as (H1 & H2 & _). auto. Qed.
Lemma sized_tail V S a x : sized V S (a :: x) -> sized V S x.
Proof. intros (A & B). split; [intros b Hb; apply A; right; exact Hb|]. intros x1 b c x2 ->. apply (B (a :: x1) b c x2). reflexivity. Qed.
Lemma spaced_tail H a x : spaced H (a :: x) -> spaced H x.
Proof. intros B x1 b c x2 ->. apply (B (a :: x1) b c x2). reflexivity. Qed.

Section Pair.
Variables (V S K : R).
Variable rel : sample B64 -> sample B64 -> Prop.
Definition steps (x : signal B64) : Prop := (forall a, In a x -> sample_ok V S a) /\ forall x1 a b x2, x = x1 ++ a :: b :: x2 -> B2R (s_time a) < B2R (s_time b) /\ rel a b.
Lemma steps_tail a x : steps (a :: x) -> steps x.
Proof. intros (A & B). split; [intros b Hb; apply A; right; exact Hb|]. intros x1 b c x2 ->. apply (B (a :: x1) b c x2). reflexivity. Qed.

Lemma together_of : forall x y, steps x -> steps y -> slopes_ok x -> slopes_ok y -> Forall2 (fun a b => neqb (s_time a) (s_time b) = true) x y ->
  forall i j xs ys, x = i :: xs -> y = j :: ys -> together V S rel i j xs ys.
Proof.
  induction x as [|a x IH]; intros y Wx Wy Sx Sy F i j xs ys Ex Ey; [discriminate|]. injection Ex as -> ->. subst y.
  inversion F as [|? ? ? ? T F']; subst.
  pose proof (proj1 Wx i (or_introl eq_refl)) as Oi. pose proof (proj1 Wy j (or_introl eq_refl)) as Oj.
  assert (Et : B2R (s_time j) = B2R (s_time i)) by (symmetry; apply eq_B2R; [apply Oi|apply Oj|exact T]).
  destruct xs as [|i' xs]; [inversion F'; subst; cbn; repeat (split; [assumption|]); exact I|]. inversion F' as [|? j' ? ys' T' F'']; subst. cbn [together].
  pose proof (IH (j' :: ys') (steps_tail _ _ Wx) (steps_tail _ _ Wy) (proj2 Sx) (proj2 Sy) F' i' j' xs ys' eq_refl eq_refl) as L.
  destruct (together_first V S rel i' j' xs ys' L) as (Oi' & Oj' & Et').
  split; [exact Oi|]. split; [exact Oj|]. split; [exact Et|]. destruct (proj2 Wx [] i i' xs eq_refl) as (X1 & X2). destruct (proj2 Wy [] j j' ys' eq_refl) as (Y1 & Y2).
  split; [|split; [|exact L]].
  - repeat (split; [assumption|]). apply Sx.
  - repeat (split; [assumption|]). apply Sy.
Qed.

Hypothesis HV : V <= big.
Hypothesis HS : S <= big.
Hypothesis K0 : 0 <= K.
Hypothesis Hgap : forall a a' b b', follows V S rel a a' -> follows V S rel b b' -> B2R (s_time b) = B2R (s_time a) -> B2R (s_time b') = B2R (s_time a') ->
  let g0 := B2R (s_value a) - B2R (s_value b) in let g1 := B2R (s_value a') - B2R (s_value b') in (g0 <= 0 <= g1 \/ g1 <= 0 <= g0) -> meets K a a' b b'.

Lemma together_error dbg (p : bool) (x y z : signal B64) : wf x -> wf y -> x <> [] -> Forall2 (fun a b => neqb (s_time a) (s_time b) = true) x y ->
  steps x -> steps y -> minmax_pair dbg (comp_of p) true x y = Ok z ->
    wf z /\ z <> [] /\ fins z /\ first_time (reals z) = first_time (reals x) /\ final_time (reals z) = final_time (reals x) /\
    forall t, first_time (reals x) <= t <= final_time (reals x) -> Rabs (pw (reals z) t - sbest (QuantFacts.sgp p) (pw (reals x) t) (pw (reals y) t)) <= EQ V S K.
Proof.
  intros Wx Wy N T Hx Hy Hz.
  rewrite (minmax_true_same dbg (comp_of p) x y N T) in Hz. destruct T as [|i j xs ys E T]; [congruence|]. rewrite (pair_loop_start (comp_of p) i j xs ys E) in Hz.
  pose proof (together_of _ _ Hx Hy (proj2 (proj2 Wx)) (proj2 (proj2 Wy)) (Forall2_cons _ _ E T) i j xs ys eq_refl eq_refl) as L.
  pose proof (comp_real p) as Hc.
  destruct (pick_ok V S (QuantFacts.sgp p) (comp_of p) Hc rel _ _ _ _ L) as (P1 & P2 & P3).
  assert (W0 : wfp [pt (pick (comp_of p) i j)]). { split; cbn [map fst pt]; [constructor; [apply finite_num, P1|constructor]|repeat constructor]. }
  destruct (loop_error V S K HV HS K0 (QuantFacts.sgp p) (sgp_cases p) (comp_of p) Hc rel Hgap xs ys i j _ z L W0 ltac:(discriminate) (end_snoc [] _) Hz) as (pts' & -> & H2 & H3 & H4 & H5 & H6).
  split; [apply wf_canon; eauto|]. split; [discriminate|].
  assert (FP : Forall fpt ([pt (pick (comp_of p) i j)] ++ pts')) by (constructor; [split; apply P1|exact H3]).
  split. { clear - FP. unfold fins. induction FP as [|a l (A & B) _ IH]; cbn [sig_of]; constructor; auto. }
  rewrite reals_sig_of. split; [exact P2|]. split; [exact H5|]. exact H6.
Qed.
End Pair.

(** ** Samples at least [H] apart *)
Section Spaced.
Variables (V S H : R).
Hypothesis HV : lo <= V <= hi.
Hypothesis HS : S <= hi.
Hypothesis HH : lo <= H.
Definition ES : R := 512 * uu * (V / H * S).
Let K : R := 128 * uu * (V / H * S).

Lemma hi_big : hi <= big.
Proof. unfold hi, big. apply bpow_le. lia. Qed.
Lemma spaced_gap a a' b b' : let rel (i i' : sample B64) := H <= B2R (s_time i') - B2R (s_time i) in
  follows V S rel a a' -> follows V S rel b b' -> B2R (s_time b) = B2R (s_time a) -> B2R (s_time b') = B2R (s_time a') ->
  let g0 := B2R (s_value a) - B2R (s_value b) in let g1 := B2R (s_value a') - B2R (s_value b') in (g0 <= 0 <= g1 \/ g1 <= 0 <= g0) -> meets K a a' b b'.
Proof.
  intros rel ((Fl1 & Fl2 & Fl3 & Fl4) & (Fl5 & Fl6 & Fl7 & Fl8) & Lt & Hh & Dl) ((Fw1 & Fw2 & Fw3 & Fw4) & (Fw5 & Fw6 & Fw7 & Fw8) & _ & Hh' & Dw) Et Et' g0 g1 Hg.
  unfold rel in Hh. cbv beta in Hh. set (h := B2R (s_time a') - B2R (s_time a)) in *.
  assert (Hlo : lo <= h) by lra. assert (HhS : h <= 2 * S). { unfold h. apply Rabs_le_inv in Fl3, Fl7. lra. } pose proof lo_hi as (L0 & L1 & L2). pose proof uu_small as Hu.
  assert (HQ : 128 * uu * (V / h * S) <= K).
  { unfold K. apply Rmult_le_compat_l; [lra|]. unfold Rdiv. pose proof (S_pos S h Hlo HhS). apply Rmult_le_compat_r; [lra|]. apply Rmult_le_compat_l; [lra|]. apply Rinv_le_contravar; lra. }
  pose proof (crossing_gap V S h HV HS Hlo HhS a b (s_value a') (s_value b') (s_time a') Fl1 Fw1 Fl2 Fw2 Fl6 Fw6 Fl5 Et eq_refl Fl3 Fl7 Fl4 Fw4 Fl8 Fw8
    (s_time a') (s_time b') eq_refl Et' Fl5 Fw5 Dl Dw Hg) as G. cbv zeta in G. fold g0 g1 in G. unfold meets. cbv zeta. fold g0 g1 h.
  destruct G as [(G1 & G2)|(G0 & G1 & G2)]; [left; lra|right]. split; [exact G0|]. split; [intros C; specialize (G1 C); lra|intros C; specialize (G2 C); lra].
Qed.
Lemma spaced_error : 0 < S -> H <= 2 * S -> EQ V S K <= ES.
Proof.
  intros S0 HhS. pose proof (eta_M V S H HV HS HH HhS) as M1. pose proof (eta_Q V S H HV HH HhS) as M2. pose proof (V_le_Q V S H HV HH HhS) as M3. pose proof (eta_S S H HH HhS) as M4.
  pose proof uu_small as Hu. unfold EQ, DI, ES, K. set (Q := V / H * S) in *.
  assert (uu * V <= uu * (2 * Q)) by (apply Rmult_le_compat_l; lra).
  assert (eta * S <= uu * Q). { unfold Q. replace (uu * (V / H * S)) with (uu * (V / H) * S) by ring. apply Rmult_le_compat_r; lra. }
  assert (0 <= uu * Q) by (pose proof eta_pos; lra). lra.
Qed.

Lemma spaced_steps x : wf x -> sized V S x -> spaced H x -> steps V S (fun (i i' : sample B64) => H <= B2R (s_time i') - B2R (s_time i)) x.
Proof. intros W (A & B) P. split; [exact A|]. intros x1 a b x2 E. specialize (P x1 a b x2 E). pose proof lo_hi as (L0 & _). split; [lra|exact P]. Qed.
Lemma same_spaced x y : sized V S x -> sized V S y -> Forall2 (fun a b => neqb (s_time a) (s_time b) = true) x y -> spaced H x -> spaced H y.
Proof.
  intros (A & _) (B & _) F P y1 a b y2 E. subst y. apply Forall2_app_inv_r in F as (x1 & l & F1 & F2 & Ex). inversion F2 as [|i ? ? ? T1 F3]; subst. inversion F3 as [|i' ? ? ? T2 F4]; subst.
  apply eq_B2R in T1; [|apply A; apply in_or_app; right; left; reflexivity|apply B; apply in_or_app; right; left; reflexivity].
  apply eq_B2R in T2; [|apply A; apply in_or_app; right; right; left; reflexivity|apply B; apply in_or_app; right; right; left; reflexivity].
  rewrite <- T1, <- T2. apply (P x1 i i' _ eq_refl).
Qed.

Lemma pair_error dbg (p sync : bool) (x y z : signal B64) : wf x -> wf y -> x <> [] -> Forall2 (fun a b => neqb (s_time a) (s_time b) = true) x y ->
  sized V S x -> sized V S y -> spaced H x -> H <= S -> minmax_pair dbg (comp_of p) sync x y = Ok z ->
    wf z /\ z <> [] /\ fins z /\ first_time (reals z) = first_time (reals x) /\ final_time (reals z) = final_time (reals x) /\
    forall t, first_time (reals x) <= t <= final_time (reals x) -> Rabs (pw (reals z) t - sbest (QuantFacts.sgp p) (pw (reals x) t) (pw (reals y) t)) <= ES.
Proof.
  intros Wx Wy N T Hx Hy Px HHS Hz. assert (Q : minmax_pair dbg (comp_of p) false x y = minmax_pair dbg (comp_of p) true x y).
  { unfold minmax_pair. rewrite (sync_fixed x y) by assumption. reflexivity. }
  replace (minmax_pair dbg (comp_of p) sync x y) with (minmax_pair dbg (comp_of p) true x y) in Hz by (destruct sync; auto). clear Q. pose proof lo_hi as (L0 & L1 & _). pose proof hi_big.
  assert (K0 : 0 <= K). { unfold K. pose proof uu_small. apply Rmult_le_pos; [lra|]. left. apply Q_pos; lra. }
  destruct (together_error V S K (fun (i i' : sample B64) => H <= B2R (s_time i') - B2R (s_time i)) ltac:(lra) ltac:(lra) K0 spaced_gap dbg p x y z Wx Wy N T) as (A1 & A2 & A3 & A4 & A5 & A6); auto.
  { apply spaced_steps; assumption. } { apply spaced_steps; auto. apply (same_spaced x y); assumption. }
  repeat (split; [assumption|]). intros t Ht. eapply Rle_trans; [apply A6, Ht|]. apply spaced_error; lra.
Qed.
End Spaced.
Lemma ES_is V S H : ES V S H = bpow radix2 (-44) * V * S / H.
Proof. unfold ES, uu. change (bpow radix2 (-44)) with (bpow radix2 (9 + -53)). rewrite bpow_plus. change (bpow radix2 9) with 512. unfold Rdiv. ring. Qed.

Lemma error_pwl (p : bool) (x y z : signal B64) E : wf x -> wf y -> wf z -> x <> [] -> y <> [] -> z <> [] -> fins x -> fins y -> fins z ->
  first_time (reals z) = first_time (reals x) -> final_time (reals z) = final_time (reals x) ->
  (forall t, first_time (reals x) <= t <= final_time (reals x) -> Rabs (pw (reals z) t - sbest (QuantFacts.sgp p) (pw (reals x) t) (pw (reals y) t)) <= E) ->
  forall t u v, pwl (reals x) t u -> pwl (reals y) t v -> exists w, pwl (reals z) t w /\ Rabs (w - if p then Rmin u v else Rmax u v) <= E.
Proof.
  intros Wx Wy Wz Nx Ny Nz Fx Fy Fz E1 E2 H t u v Hu Hv.
  apply pwl_pw in Hu as (D & ->); [|apply reals_rincr; assumption|destruct x; [congruence|discriminate]].
  apply pwl_pw in Hv as (_ & ->); [|apply reals_rincr; assumption|destruct y; [congruence|discriminate]].
  exists (pw (reals z) t). split. { apply pwl_pw; [apply reals_rincr; assumption|destruct z; [congruence|discriminate]|]. rewrite E1, E2. auto. }
  specialize (H t D). destruct p; cbn [QuantFacts.sgp] in H; [rewrite sbest_min in H|rewrite sbest_max in H]; exact H.
Qed.

Lemma C118_pair_lemma dbg sync (x y z : signal B64) V S H : wf x -> wf y -> x <> [] -> Forall2 (fun a b => neqb (s_time a) (s_time b) = true) x y ->
  ordinary V S H -> sized V S x -> sized V S y -> spaced H x ->
  (elementwise_min dbg sync x y = Ok z -> forall t u v, pwl (reals x) t u -> pwl (reals y) t v ->
     exists w, pwl (reals z) t w /\ Rabs (w - Rmin u v) <= bpow radix2 (-44) * V * S / H) /\
  (elementwise_max dbg sync x y = Ok z -> forall t u v, pwl (reals x) t u -> pwl (reals y) t v ->
     exists w, pwl (reals z) t w /\ Rabs (w - Rmax u v) <= bpow radix2 (-44) * V * S / H).
Proof.
  intros Wx Wy Nx T ((O1 & O2) & (O3 & O5) & O4) Hx Hy Px. assert (Ny : y <> []) by (inversion T; subst; congruence).
  assert (HV : lo <= V <= hi). { split; [exact O1|]. eapply Rle_trans; [exact O2|]. apply bpow_le. lia. }
  split; [set (p := true)|set (p := false)]; intros Hz; destruct (pair_error V S H HV O4 O3 dbg p sync x y z Wx Wy Nx T Hx Hy Px O5 Hz) as (Z1 & Z2 & Z3 & Z4 & Z5 & Z6);
    rewrite <- ES_is; apply (error_pwl p); eauto using sized_finite.
Qed.
