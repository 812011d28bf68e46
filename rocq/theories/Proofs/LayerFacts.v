(** C109: Boolean combinations of temporal formulas over one signal each. *)
From Coq Require Import Reals Lra Lia Sorted.
From Flocq Require Import Core.Core IEEE754.BinarySingleNaN.
From Verif Require Import Base Num NumXR NumB64.
From Verif.Model Require Import Signal MinMax Ast Robustness.
From Verif.Spec Require Import SignalSpec Pwl Formula Discrete Semantics Quantitative Rounding Accuracy.
From Verif.Proofs Require Import NumFacts SignalFacts PwlFacts RobFacts RobWf B64Facts MinMaxProps MinMaxCases SyncError DiscreteFacts Rounding ChainFacts.
Local Open Scope R_scope.

Section Sat.
Variable l : list (R * R).
Hypothesis I : rincr l.

(** The sign of [E] decides [P] at the samples; between two samples if both agree. *)
Definition decides (P : R -> Prop) (E : list (R * R) -> R) : Prop :=
  (forall l1 p l2, l = l1 ++ p :: l2 -> (0 < E (p :: l2) -> P (fst p)) /\ (E (p :: l2) < 0 -> ~ P (fst p))) /\
  (forall l1 p q l2 t, l = l1 ++ p :: q :: l2 -> fst p < t < fst q ->
     (0 < E (p :: q :: l2) -> 0 < E (q :: l2) -> P t) /\ (E (p :: q :: l2) < 0 -> E (q :: l2) < 0 -> ~ P t)).

Lemma decides_ext P P' E E' : (forall t, P t <-> P' t) -> (forall w, E w = E' w) -> decides P E -> decides P' E'.
Proof.
  intros HP HE (A & B). split.
  - intros l1 p l2 El. rewrite <- HE, <- HP. apply (A _ _ _ El).
  - intros l1 p q l2 t El Ht. rewrite <- !HE, <- HP. apply (B _ _ _ _ _ El Ht).
Qed.
Lemma decides_not P E : decides P E -> decides (fun t => ~ P t) (fun w => - E w).
Proof.
  intros (A & B). split.
  - intros l1 p l2 El. destruct (A _ _ _ El) as [H1 H2]. split; intros H; [apply H2; lra|]. intros K. apply K, H1. lra.
  - intros l1 p q l2 t El Ht. destruct (B _ _ _ _ _ El Ht) as [H1 H2]. split; intros H H'; [apply H2; lra|]. intros K. apply K, H1; lra.
Qed.

Lemma later_sample l1 p l2 m1 q m2 : l = l1 ++ p :: l2 -> l = m1 ++ q :: m2 -> fst p <= fst q -> In (q :: m2) (tails (p :: l2)).
Proof.
  intros El E H. apply tails_in. split; [discriminate|]. apply (suffix_of l1 p l2 m1 q m2); [rewrite <- El; exact I|congruence|exact H].
Qed.
Lemma sample_later l1 p l2 q m2 : l = l1 ++ p :: l2 -> In (q :: m2) (tails (p :: l2)) -> fst p <= fst q /\ exists m1, l = m1 ++ q :: m2.
Proof.
  intros El H. apply tails_in in H as (_ & m & Em). split.
  - destruct m as [|c m]; [injection Em as -> _; lra|]. injection Em as <- Em. rewrite El in I.
    assert (I' : rincr (p :: l2)) by (clear - I; induction l1; [exact I|apply IHl1; inversion I; assumption]).
    apply rincr_cons in I' as [_ F]. rewrite Forall_forall in F. left. apply F. rewrite Em. apply in_or_app. right. left. reflexivity.
  - exists (l1 ++ m). rewrite <- app_assoc, <- Em. exact El.
Qed.
Lemma before_or l1 p l2 m1 q m2 : l = l1 ++ p :: l2 -> l = m1 ++ q :: m2 -> fst p < fst q -> forall m0 r, m1 = m0 ++ [r] -> fst p <= fst r.
Proof.
  intros El E H m0 r Er. destruct (suffix_of l1 p l2 m1 q m2) as (m & Em); [rewrite <- El; exact I|congruence|lra|].
  destruct (exists_last (l := m)) as (m' & r' & ->).
  { intros ->. injection Em as -> _. lra. }
  assert (Q : l1 ++ m' ++ [r'] = m0 ++ [r]).
  { apply (app_inv_tail (q :: m2)). rewrite <- Er, <- E, <- app_assoc, El, Em. reflexivity. }
  rewrite app_assoc in Q. apply app_inj_tail in Q as [_ <-].
  assert (Hin : In (r' :: q :: m2) (tails (p :: l2))).
  { apply tails_in. split; [discriminate|]. exists m'. rewrite Em, <- app_assoc. reflexivity. }
  apply (sample_later l1 p l2 r' (q :: m2) El Hin).
Qed.

Definition dom (t : R) : Prop := exists u, pwl l t u.
Lemma dom_cases t : dom t -> (exists l1 p l2, l = l1 ++ p :: l2 /\ t = fst p) \/
  (exists l1 p q l2, l = l1 ++ p :: q :: l2 /\ fst p < t < fst q).
Proof.
  intros (u & [(p & Hp & Ep & _)|(l1 & p & q & l2 & El & Hpq & _)]).
  - left. apply in_split in Hp as (l1 & l2 & El). exists l1, p, l2. auto.
  - right. exists l1, p, q, l2. auto.
Qed.
Lemma dom_sample l1 p l2 : l = l1 ++ p :: l2 -> dom (fst p).
Proof. intros El. exists (snd p). left. exists p. split; [rewrite El; apply in_or_app; right; left; reflexivity|auto]. Qed.

(** What holds at all samples from [p] on holds at all times from there on. *)
Lemma from_on (P : R -> Prop) E (sg : R) l1 p l2 : (sg = 1 \/ sg = -1) -> l = l1 ++ p :: l2 ->
  (forall m1 q m2, l = m1 ++ q :: m2 -> 0 < sg * E (q :: m2) -> P (fst q)) ->
  (forall m1 q r m2 t, l = m1 ++ q :: r :: m2 -> fst q < t < fst r -> 0 < sg * E (q :: r :: m2) -> 0 < sg * E (r :: m2) -> P t) ->
  (forall s, In s (tails (p :: l2)) -> 0 < sg * E s) -> forall t, fst p <= t -> dom t -> P t.
Proof.
  intros Hsg El A B H t Ht D. apply dom_cases in D as [(m1 & q & m2 & Em & ->)|(m1 & q & r & m2 & Em & Hqr)].
  - apply (A m1 q m2 Em). apply H. eapply later_sample; eauto.
  - assert (Em' : l = (m1 ++ [q]) ++ r :: m2) by (rewrite <- app_assoc; exact Em).
    apply (B m1 q r m2 t Em Hqr).
    + apply H. apply (later_sample l1 p l2 m1 q (r :: m2) El Em). apply (before_or l1 p l2 (m1 ++ [q]) r m2 El Em' ltac:(lra) m1 q eq_refl).
    + apply H. apply (later_sample l1 p l2 (m1 ++ [q]) r m2 El Em'). lra.
Qed.

Lemma decides_always P E : decides P E ->
  decides (fun t => forall t', t <= t' -> dom t' -> P t') (fun w => Rleast (map E (tails w))).
Proof.
  intros (A & B). set (AE := fun w => Rleast (map E (tails w))).
  assert (Pos : forall l1 p l2 t, l = l1 ++ p :: l2 -> 0 < AE (p :: l2) -> fst p <= t -> dom t -> P t).
  { intros l1 p l2 t El H Ht D. apply (from_on P E 1 l1 p l2); auto.
    - intros m1 q m2 Em Hq. apply (A _ _ _ Em). lra.
    - intros m1 q r m2 u Em Hu H1 H2. apply (B _ _ _ _ _ Em Hu); lra.
    - intros s Hs. assert (AE (p :: l2) <= E s) by (apply least_le, in_map, Hs). lra. }
  assert (Neg : forall l1 p l2, l = l1 ++ p :: l2 -> AE (p :: l2) < 0 -> exists t, fst p <= t /\ dom t /\ ~ P t).
  { intros l1 p l2 El H. assert (In (AE (p :: l2)) (map E (tails (p :: l2)))) as K by (apply least_in; discriminate).
    apply in_map_iff in K as (s & Es & Hs). pose proof (proj1 (tails_in _ _) Hs) as (Ns & _). destruct s as [|q m2]; [congruence|].
    destruct (sample_later l1 p l2 q m2 El Hs) as [Hle (m1 & Em)]. exists (fst q). split; [exact Hle|]. split; [eapply dom_sample, Em|].
    apply (A _ _ _ Em). lra. }
  split.
  - intros l1 p l2 El. split; intros H.
    + intros t' Ht' D. eapply Pos; eauto.
    + intros K. destruct (Neg _ _ _ El H) as (t & H1 & H2 & H3). apply H3, K; assumption.
  - intros l1 p q l2 t El Ht. split; intros H H'.
    + intros t' Ht' D. apply (Pos _ _ _ t' El H); [lra|exact D].
    + intros K. destruct (Neg (l1 ++ [p]) q l2) as (u & H1 & H2 & H3); [rewrite <- app_assoc; exact El|exact H'|]. apply H3, K; [lra|exact H2].
Qed.
Lemma decides_eventually P E : decides P E ->
  decides (fun t => exists t', t <= t' /\ dom t' /\ P t') (fun w => Rgreatest (map E (tails w))).
Proof.
  intros (A & B). set (AE := fun w => Rgreatest (map E (tails w))).
  assert (GL : forall w, AE w = - Rleast (map (fun s => - E s) (tails w))) by (intros w; unfold AE; rewrite greatest_opp, map_map; reflexivity).
  assert (Neg : forall l1 p l2 t, l = l1 ++ p :: l2 -> AE (p :: l2) < 0 -> fst p <= t -> dom t -> ~ P t).
  { intros l1 p l2 t El H Ht D. apply (from_on (fun t => ~ P t) E (-1) l1 p l2); auto.
    - intros m1 q m2 Em Hq. apply (A _ _ _ Em). lra.
    - intros m1 q r m2 u Em Hu H1 H2. apply (B _ _ _ _ _ Em Hu); lra.
    - intros s Hs. rewrite GL in H. assert (K := least_le _ _ (in_map (fun s => - E s) _ _ Hs)). cbv beta in K. lra. }
  assert (Pos : forall l1 p l2, l = l1 ++ p :: l2 -> 0 < AE (p :: l2) -> exists t, fst p <= t /\ dom t /\ P t).
  { intros l1 p l2 El H. rewrite GL in H.
    assert (In (Rleast (map (fun s => - E s) (tails (p :: l2)))) (map (fun s => - E s) (tails (p :: l2)))) as K by (apply least_in; discriminate).
    apply in_map_iff in K as (s & Es & Hs). pose proof (proj1 (tails_in _ _) Hs) as (Ns & _). destruct s as [|q m2]; [congruence|].
    destruct (sample_later l1 p l2 q m2 El Hs) as [Hle (m1 & Em)]. exists (fst q). split; [exact Hle|]. split; [eapply dom_sample, Em|].
    apply (A _ _ _ Em). lra. }
  split.
  - intros l1 p l2 El. split; intros H.
    + eapply Pos; eauto.
    + intros (t & H1 & H2 & H3). eapply Neg; eauto.
  - intros l1 p q l2 t El Ht. split; intros H H'.
    + destruct (Pos (l1 ++ [p]) q l2) as (u & H1 & H2 & H3); [rewrite <- app_assoc; exact El|exact H'|]. exists u. split; [lra|auto].
    + intros (t' & H1 & H2 & H3). apply (Neg _ _ _ t' El H); [lra|exact H2|exact H3].
Qed.
Lemma pwl_det t a b : pwl l t a -> pwl l t b -> a = b.
Proof. apply pwl_fun, I. Qed.
Lemma decides_pred op c : decides (fun t => exists x, pwl l t x /\ real_cmp op x c)
  (fun w => match w with [] => 0 | p :: _ => exact_pred op (snd p) c end).
Proof.
  split.
  - intros l1 p l2 El. assert (V : pwl l (fst p) (snd p)) by (left; exists p; split; [rewrite El; apply in_or_app; right; left; reflexivity|auto]).
    split; intros H.
    + exists (snd p). split; [exact V|]. destruct op; cbn [exact_pred real_cmp] in *; lra.
    + intros (x & Hx & C). rewrite (pwl_det _ _ _ Hx V) in C. destruct op; cbn [exact_pred real_cmp] in *; lra.
  - intros l1 p q l2 t El Ht. set (x := snd p + (snd q - snd p) / (fst q - fst p) * (t - fst p)).
    assert (V : pwl l t x) by (right; exists l1, p, q, l2; auto).
    set (lam := (t - fst p) / (fst q - fst p)).
    assert (Hl : 0 <= lam <= 1).
    { unfold lam. split; [apply Rmult_le_pos; [lra|left; apply Rinv_0_lt_compat; lra]|].
      apply Rmult_le_reg_r with (fst q - fst p); [lra|]. unfold Rdiv. rewrite Rmult_assoc, Rinv_l; lra. }
    assert (Ex : x = snd p + (snd q - snd p) * lam) by (unfold x, lam; field; lra).
    assert (Bx : snd p <= x <= snd q \/ snd q <= x <= snd p) by (clear - Ex Hl; destruct (Rle_dec (snd p) (snd q)); [left|right]; rewrite Ex; nra).
    clearbody x. clear lam Hl Ex. split; intros H H'.
    + exists x. split; [exact V|]. destruct op; cbn [exact_pred real_cmp] in *; lra.
    + intros (y & Hy & C). rewrite (pwl_det _ _ _ Hy V) in C. destruct op; cbn [exact_pred real_cmp] in *; lra.
Qed.
End Sat.

Lemma names_real (phi : expr B64) : names (real_formula phi) = names phi.
Proof.
  induction phi using expr_rec; cbn [real_formula names]; auto; try congruence.
  - induction H as [|e l He _ IH]; cbn [map flat_map]; [reflexivity|]. rewrite He, IH. reflexivity.
  - induction H as [|e l He _ IH]; cbn [map flat_map]; [reflexivity|]. rewrite He, IH. reflexivity.
Qed.
Lemma chain_decides lt n l phi : rincr l -> (forall t v, value_at lt n t v <-> pwl l t v) -> names phi = [n] ->
  free_of is_const phi = true -> free_of is_andor phi = true -> free_of is_until phi = true ->
  decides l (sat lt (real_formula phi)) (fun w => exact_samples phi (map snd w)).
Proof.
  intros I HV. induction phi using expr_rec; intros Hn H1 H2 H3; cbn [free_of is_const is_andor is_until negb andb] in H1, H2, H3; try discriminate.
  - injection Hn as ->. eapply decides_ext; [| |apply (decides_pred l I o (B2R c))].
    + intros t. cbn [real_formula sat]. split.
      * intros (x & Hx & K). exists x, (B2R c). split; [apply HV, Hx|]. split; [reflexivity|exact K].
      * intros (x & r & Hx & Hr & K). injection Hr as <-. exists x. split; [apply HV, Hx|exact K].
    + intros [|p w]; reflexivity.
  - cbn [names] in Hn. exact (decides_not _ _ _ (IHphi Hn H1 H2 H3)).
  - cbn [names] in Hn. specialize (IHphi Hn H1 H2 H3). eapply decides_ext; [| |apply (decides_always l I _ _ IHphi)].
    + intros t. cbn [real_formula sat]. unfold inside.
      assert (D : forall t', dom l t' <-> (forall m, In m (names (real_formula phi)) -> exists u, value_at lt m t' u)).
      { intros t'. rewrite names_real, Hn. split; [intros (u & U) m [<-|[]]; exists u; apply HV, U|]. intros K. destruct (K n (or_introl eq_refl)) as (u & U). exists u. apply HV, U. }
      split; intros K t' Ht' Hd; apply K; auto; apply D, Hd.
    + intros w. cbn [exact_samples]. rewrite tails_map, map_map. reflexivity.
  - cbn [names] in Hn. specialize (IHphi Hn H1 H2 H3). eapply decides_ext; [| |apply (decides_eventually l I _ _ IHphi)].
    + intros t. cbn [real_formula sat]. unfold inside.
      assert (D : forall t', dom l t' <-> (forall m, In m (names (real_formula phi)) -> exists u, value_at lt m t' u)).
      { intros t'. rewrite names_real, Hn. split; [intros (u & U) m [<-|[]]; exists u; apply HV, U|]. intros K. destruct (K n (or_introl eq_refl)) as (u & U). exists u. apply HV, U. }
      split; intros (t' & Ht' & Hd & K); exists t'; (split; [exact Ht'|]); (split; [apply D, Hd|exact K]).
    + intros w. cbn [exact_samples]. rewrite tails_map, map_map. reflexivity.
Qed.

Section Layers.
Variables (dbg : bool) (fuel : nat) (tr : trace B64) (t : B64).
Hypothesis U : keys_unique tr.
Hypothesis G : Forall (fun e => wf (snd e) /\ snd e <> [] /\ Forall (fun a => finite (s_time a) = true /\ finite (s_value a) = true) (snd e)) tr.
Let r0 := mkRob (trace_begin tr) (trace_end tr) tr.

Definition sampled (phi : expr B64) : Prop := forall n, In n (names phi) -> exists x a, has_signal tr n x /\ In a x /\ neqb (s_time a) t = true.
Definition verdict (phi : expr B64) (r : R) : Prop :=
  rob (real_trace tr) (real_formula phi) (B2R t) r /\
  (0 < r -> sat (real_trace tr) (real_formula phi) (B2R t)) /\ (r < 0 -> ~ sat (real_trace tr) (real_formula phi) (B2R t)).
Definition ok_at (phi : expr B64) (v : B64) : Prop := exists r, verdict phi r /\ near r v /\ difference r.

Lemma time_eq (a : sample B64) : finite (s_time a) = true -> neqb (s_time a) t = true -> B2R (s_time a) = B2R t.
Proof.
  intros Fa E. apply neqb_true in E as (_ & Nt & E). rewrite (finite_rk _ Fa) in E. rewrite E. apply finite_rk.
  destruct t as [|[|]| |]; try reflexivity; try discriminate; exfalso; change (rk (s_time a)) with (b64_rk (s_time a)) in *; cbn -[bpow] in E.
  - pose proof (abs_B2R_lt_emax 53 1024 (s_time a)) as K. rewrite E, Rabs_Ropp, Rabs_pos_eq in K by apply bpow_ge_0. lra.
  - pose proof (abs_B2R_lt_emax 53 1024 (s_time a)) as K. rewrite E, Rabs_pos_eq in K by apply bpow_ge_0. lra.
Qed.
Lemma values_of n x : has_signal tr n x -> forall u v, value_at (real_trace tr) n u v <-> pwl (reals x) u v.
Proof.
  intros B u v. unfold value_at. split.
  - intros (l & Hl & P). unfold real_trace in Hl. apply in_map_iff in Hl as ([m y] & E & Hy). cbn [fst snd] in E. injection E as -> <-.
    assert (T1 := proj2 (trace_find_iff tr n y U) Hy). assert (T2 := proj2 (trace_find_iff tr n _ U) B). congruence.
  - intros P. exists (reals x). split; [|exact P]. apply in_map_iff. exists (n, x). split; [reflexivity|exact B].
Qed.

Lemma chain_at phi : free_of is_const phi = true -> free_of is_andor phi = true -> free_of is_until phi = true ->
  (forall e, In e (subs phi) -> match e with EPred _ _ c => finite c = true | _ => True end) -> intervals_made phi -> sampled phi ->
  forall z, compute dbg fuel r0 phi = Ok z -> exists v, hits t v z /\ ok_at phi v.
Proof.
  intros F1 F2 F3 FC IM S z H.
  assert (HN : forall n, In n (names phi) -> exists x, has_signal tr n x) by (intros n Hn; destruct (S n Hn) as (x & _ & Hx & _); eauto).
  destruct (C91_temporal_lemma dbg fuel tr false phi U F1 F2 F3 FC IM HN G) as (n & x & z' & A & B & C & D & K).
  change (compute dbg fuel r0 phi = Ok z') in C. rewrite H in C. injection C as <-.
  pose proof (proj1 (Forall_forall _ _) G _ B) as (W & N & Q). cbn [snd] in *.
  destruct (S n) as (x' & a & Hx & Ha & Et); [rewrite A; left; reflexivity|].
  assert (x' = x). { assert (T1 := proj2 (trace_find_iff tr n x' U) Hx). assert (T2 := proj2 (trace_find_iff tr n _ U) B). congruence. } subst x'.
  pose proof (proj1 (Forall_forall _ _) Q _ Ha) as [Fa _]. apply in_split in Ha as (x1 & x2 & ->).
  assert (exists z1 c z2, z = z1 ++ c :: z2 /\ length x1 = length z1 /\ s_time c = s_time a) as (z1 & c & z2 & -> & L & Ec).
  { clear - D. revert z D. induction x1 as [|b x1 IH]; intros z D; destruct z as [|c z]; try discriminate; cbn [app times map] in D.
    - injection D as D1 D2. exists [], c, z. auto.
    - injection D as D1 D2. destruct (IH z) as (z1 & c' & z2 & -> & L & E); [exact D2|]. exists (c :: z1), c', z2. cbn. auto. }
  specialize (K x1 a x2 z1 c z2 eq_refl eq_refl L). cbv zeta in K.
  set (r := exact_samples phi (map (fun b => B2R (s_value b)) (a :: x2))) in *. destruct K as [K1 K2].
  exists (s_value c). split.
  { exists c. split; [apply in_or_app; right; left; reflexivity|]. rewrite Ec. auto. }
  exists r. split; [|split; [apply near_rounds, K1|]].
  2: { unfold r. rewrite <- (map_map s_value (@B2R 53 1024)). apply diff_samples. }
  assert (Er : r = exact_samples phi (map snd ((B2R (s_time a), B2R (s_value a)) :: reals x2))).
  { unfold r, reals. cbn [map snd]. rewrite map_map. reflexivity. }
  assert (El : reals (x1 ++ a :: x2) = reals x1 ++ (B2R (s_time a), B2R (s_value a)) :: reals x2) by (unfold reals; rewrite map_app; reflexivity).
  destruct (chain_tracks (real_trace tr) n (reals (x1 ++ a :: x2)) phi (reals_rincr _ W Q) (values_of n _ B) A F1 F2 F3) as (T & _).
  destruct (chain_decides (real_trace tr) n (reals (x1 ++ a :: x2)) phi (reals_rincr _ W Q) (values_of n _ B) A F1 F2 F3) as (T' & _).
  specialize (T _ _ _ El). specialize (T' _ _ _ El). cbn [fst] in T, T'. rewrite <- Er, (time_eq a Fa Et) in T, T'. split; [exact T|exact T'].
Qed.

Lemma ok_not e v : ok_at e v -> ok_at (ENot e) (nopp v).
Proof.
  intros (r & (R1 & R2 & R3) & N & D). exists (- r). split; [|split; [apply near_opp, N|apply diff_opp, D]]. split; [|split].
  - cbn [real_formula rob]. rewrite Ropp_involutive. exact R1.
  - intros H. cbn [real_formula sat]. apply R3. lra.
  - intros H K. cbn [real_formula sat] in K. apply K, R2. lra.
Qed.
Lemma fold_max_le l : forall v, v <= fold_left Rmax l v /\ forall x, In x l -> x <= fold_left Rmax l v.
Proof.
  induction l as [|a l IH]; intros v; cbn [fold_left]; [split; [lra|intros x []]|].
  destruct (IH (Rmax v a)) as [H1 H2]. pose proof (Rmax_l v a). pose proof (Rmax_r v a). split; [lra|]. intros x [<-|Hx]; [lra|auto].
Qed.
Lemma fold_max_in l : forall v, fold_left Rmax l v = v \/ In (fold_left Rmax l v) l.
Proof.
  induction l as [|a l IH]; intros v; cbn [fold_left]; [auto|]. destruct (IH (Rmax v a)) as [H|H]; [|right; right; exact H].
  rewrite H. unfold Rmax. destruct (Rle_dec v a); [right; left; reflexivity|auto].
Qed.

(** Operands with their exact values. *)
Lemma pick_exact l vs : Forall2 ok_at l vs -> exists rs, Forall2 verdict l rs /\ Forall2 near rs vs /\ Forall difference rs.
Proof.
  induction 1 as [|e v l vs (r & H1 & H2 & H3) _ (rs & A & B & C)]; [exists []; repeat constructor|]. exists (r :: rs). repeat split; constructor; assumption.
Qed.
Lemma F2_in_l {A B} (P : A -> B -> Prop) la lb a : Forall2 P la lb -> In a la -> exists b, In b lb /\ P a b.
Proof. induction 1 as [|x y la lb H _ IH]; [intros []|]. intros [<-|Ha]; [exists y; split; [left; reflexivity|exact H]|]. destruct (IH Ha) as (b & Hb & Q). exists b. split; [right; exact Hb|exact Q]. Qed.
Lemma F2_in_r {A B} (P : A -> B -> Prop) la lb b : Forall2 P la lb -> In b lb -> exists a, In a la /\ P a b.
Proof. induction 1 as [|x y la lb H _ IH]; [intros []|]. intros [<-|Ha]; [exists x; split; [left; reflexivity|exact H]|]. destruct (IH Ha) as (a & Hb & Q). exists a. split; [right; exact Hb|exact Q]. Qed.

Lemma ok_and e l v vs : Forall2 ok_at (e :: l) (v :: vs) -> ok_at (EAnd (e :: l)) (fold_left lesser vs v).
Proof.
  intros H. destruct (pick_exact _ _ H) as (rs & A & B & C). inversion B as [|r ? rs' ? Hr Hrs]; subst.
  set (m := fold_left Rmin rs' r). assert (Min : In m (r :: rs')) by (destruct (fold_min_in rs' r) as [E|E]; [left; symmetry; exact E|right; exact E]).
  assert (Mle : forall x, In x (r :: rs') -> m <= x) by (intros x [<-|Hx]; [exact (proj1 (fold_min_le rs' r))|exact (proj2 (fold_min_le rs' r) _ Hx)]).
  exists m. split; [|split; [apply near_fold_min; assumption|apply (proj1 (Forall_forall _ _) C), Min]].
  split; [|split]; cbn [real_formula].
  - cbn [rob]. split.
    + destruct (F2_in_r _ _ _ _ A Min) as (e' & He' & V). apply Exists_exists. exists (rob (real_trace tr) (real_formula e')). split; [apply in_map, in_map, He'|apply V].
    + apply Forall_forall. intros P HP. apply in_map_iff in HP as (f & <- & Hf). apply in_map_iff in Hf as (e' & <- & He').
      destruct (F2_in_l _ _ _ _ A He') as (w & Hw & V). exists w. split; [apply V|apply Mle, Hw].
  - intros Hm. cbn [sat]. apply Forall_forall. intros P HP. apply in_map_iff in HP as (f & <- & Hf). apply in_map_iff in Hf as (e' & <- & He').
    destruct (F2_in_l _ _ _ _ A He') as (w & Hw & V). apply V. specialize (Mle w Hw). lra.
  - intros Hm K. cbn [sat] in K. destruct (F2_in_r _ _ _ _ A Min) as (e' & He' & _ & _ & V). apply (V Hm).
    apply (proj1 (Forall_forall _ _) K (sat (real_trace tr) (real_formula e'))). apply in_map, in_map, He'.
Qed.
Lemma ok_or e l v vs : Forall2 ok_at (e :: l) (v :: vs) -> ok_at (EOr (e :: l)) (fold_left greater vs v).
Proof.
  intros H. destruct (pick_exact _ _ H) as (rs & A & B & C). inversion B as [|r ? rs' ? Hr Hrs]; subst.
  set (m := fold_left Rmax rs' r). assert (Min : In m (r :: rs')) by (destruct (fold_max_in rs' r) as [E|E]; [left; symmetry; exact E|right; exact E]).
  assert (Mle : forall x, In x (r :: rs') -> x <= m) by (intros x [<-|Hx]; [exact (proj1 (fold_max_le rs' r))|exact (proj2 (fold_max_le rs' r) _ Hx)]).
  exists m. split; [|split; [apply near_fold_max; assumption|apply (proj1 (Forall_forall _ _) C), Min]].
  split; [|split]; cbn [real_formula].
  - cbn [rob]. split.
    + destruct (F2_in_r _ _ _ _ A Min) as (e' & He' & V). apply Exists_exists. exists (rob (real_trace tr) (real_formula e')). split; [apply in_map, in_map, He'|apply V].
    + apply Forall_forall. intros P HP. apply in_map_iff in HP as (f & <- & Hf). apply in_map_iff in Hf as (e' & <- & He').
      destruct (F2_in_l _ _ _ _ A He') as (w & Hw & V). exists w. split; [apply V|apply Mle, Hw].
  - intros Hm. cbn [sat]. destruct (F2_in_r _ _ _ _ A Min) as (e' & He' & _ & V & _). apply Exists_exists.
    exists (sat (real_trace tr) (real_formula e')). split; [apply in_map, in_map, He'|apply V, Hm].
  - intros Hm K. cbn [sat] in K. apply Exists_exists in K as (P & HP & K). apply in_map_iff in HP as (f & <- & Hf). apply in_map_iff in Hf as (e' & <- & He').
    destruct (F2_in_l _ _ _ _ A He') as (w & Hw & _ & _ & V). apply V; [|exact K]. specialize (Mle w Hw). lra.
Qed.

Lemma tr_good : Forall (fun e => RobWf.good (snd e)) tr.
Proof. eapply Forall_impl; [|exact G]. intros e (H1 & H2 & _). split; assumption. Qed.

Lemma layer_at phi : layered phi = true ->
  (forall e, In e (subs phi) -> match e with EPred _ _ c => finite c = true | _ => True end) -> intervals_made phi -> sampled phi ->
  forall z, compute dbg fuel r0 phi = Ok z -> exists v, hits t v z /\ ok_at phi v.
Proof.
  assert (LIST : forall l ys, Forall (fun e => layered e = true ->
      (forall f, In f (subs e) -> match f with EPred _ _ c => finite c = true | _ => True end) -> intervals_made e -> sampled e ->
      forall z, compute dbg fuel r0 e = Ok z -> exists v, hits t v z /\ ok_at e v) l ->
    forallb layered l = true -> (forall e f, In e l -> In f (subs e) -> match f with EPred _ _ c => finite c = true | _ => True end) ->
    (forall e, In e l -> intervals_made e) -> (forall e, In e l -> sampled e) ->
    Forall2 (fun e y => compute dbg fuel r0 e = Ok y) l ys ->
    exists vs, Forall2 (fun v x => RobWf.good x /\ hits t v x) vs ys /\ Forall2 ok_at l vs).
  { intros l ys H L FC IM S C. induction C as [|e y l ys E _ IH]; [exists []; split; constructor|].
    inversion H as [|? ? He Hl]; subst. cbn [forallb] in L. apply andb_prop in L as [Le L].
    destruct (He Le (fun f => FC e f (or_introl eq_refl)) (IM e (or_introl eq_refl)) (S e (or_introl eq_refl)) y E) as (v & Hv & Ov).
    destruct IH as (vs & A & B); auto.
    - intros e' f He' Hf. exact (FC e' f (or_intror He') Hf).
    - intros e' He'. exact (IM e' (or_intror He')).
    - intros e' He'. exact (S e' (or_intror He')).
    - exists (v :: vs). split; constructor; auto. split; [|exact Hv]. exact (good_compute b64_win b64_hv dbg fuel tr e tr_good y E). }
  induction phi using expr_rec; intros L FC IM S z H0; cbn [layered] in L; try discriminate.
  - apply chain_at; auto.
  - cbn [compute] in H0. apply bind_ok_inv in H0 as (y & H1 & H0).
    destruct (IHphi L) with (z := y) as (v & Hv & Ov); auto.
    { intros e He. apply (FC e). right. exact He. } { intros e He. apply (IM e). right. exact He. }
    exists (nopp v). split; [|apply ok_not, Ov]. eapply (hits_map nopp t v y); [exact Hv| | |exact H0].
    + unfold times. rewrite map_map. reflexivity.
    + unfold points. rewrite map_map. reflexivity.
  - cbn [compute] in H0. apply bind_ok_inv in H0 as (ys & H1 & H0). apply compute_list_inv in H1. apply andb_prop in L as [L0 L].
    destruct (LIST l ys H L) as (vs & A & B); auto.
    { intros e f He Hf. apply (FC f). right. apply in_flat_map. eauto. } { intros e He f Hf. apply (IM f). right. apply in_flat_map. eauto. }
    { intros e He n Hn. apply S. apply in_flat_map. eauto. }
    inversion B as [E1 E2|e v l' vs' Ov B' E1 E2]; subst; [discriminate L0|].
    exists (fold_left lesser vs' v). split; [|apply ok_and, B]. eapply list_hits; [exact value_le|exact A|exact H0].
  - cbn [compute] in H0. apply bind_ok_inv in H0 as (ys & H1 & H0). apply compute_list_inv in H1. apply andb_prop in L as [L0 L].
    destruct (LIST l ys H L) as (vs & A & B); auto.
    { intros e f He Hf. apply (FC f). right. apply in_flat_map. eauto. } { intros e He f Hf. apply (IM f). right. apply in_flat_map. eauto. }
    { intros e He n Hn. apply S. apply in_flat_map. eauto. }
    inversion B as [E1 E2|e v l' vs' Ov B' E1 E2]; subst; [discriminate L0|].
    exists (fold_left greater vs' v). split; [|apply ok_or, B]. eapply list_hits; [exact value_ge|exact A|exact H0].
  - apply andb_prop in L as [L L3]. apply andb_prop in L as [L1 L2]. apply chain_at; auto.
  - apply andb_prop in L as [L L3]. apply andb_prop in L as [L1 L2]. apply chain_at; auto.
Qed.
End Layers.

Lemma C109_lemma dbg fuel (tr : trace B64) s phi t z : keys_unique tr ->
  Forall (fun e => wf (snd e) /\ snd e <> [] /\ Forall (fun a => finite (s_time a) = true /\ finite (s_value a) = true) (snd e)) tr ->
  layered phi = true ->
  (forall e, In e (subs phi) -> match e with EPred _ _ c => finite c = true | _ => True end) -> intervals_made phi ->
  (forall n, In n (names phi) -> exists x a, has_signal tr n x /\ In a x /\ neqb (s_time a) t = true) ->
  compute_robustness dbg fuel phi tr s = Ok z ->
  exists c r, In c z /\ neqb (s_time c) t = true /\ rob (real_trace tr) (real_formula phi) (B2R t) r /\ rounds_to r (s_value c) /\
    (finite (s_value c) = true -> Rabs (B2R (s_value c) - r) <= bpow radix2 (-53) * Rabs r) /\
    (nltb nzero (s_value c) = true -> sat (real_trace tr) (real_formula phi) (B2R t)) /\
    (nltb (s_value c) nzero = true -> ~ sat (real_trace tr) (real_formula phi) (B2R t)).
Proof.
  intros U G L FC IM S H. destruct (layer_at dbg fuel tr t U G phi L FC IM S z H) as (v & (c & Hc & Ec & <-) & r & (R1 & R2 & R3) & N & D).
  assert (K : rounds_to r (s_value c)) by apply near_rounds, N.
  assert (K2 : finite (s_value c) = true -> Rabs (B2R (s_value c) - r) <= bpow radix2 (-53) * Rabs r) by (apply difference_error; assumption).
  destruct (sign_kept r (s_value c) (proj1 N) K K2) as [S1 S2].
  exists c, r. split; [exact Hc|]. split; [exact Ec|]. split; [exact R1|]. split; [exact K|]. split; [exact K2|]. split; intros Q.
  - apply R2, S1, Q.
  - apply R3, S2, Q.
Qed.
