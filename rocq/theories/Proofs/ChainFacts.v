(** Not, Always and Eventually over one signal: the true robustness at a sample is the extreme of the
    values at the samples. *)
From Coq Require Import Reals Lra Lia Sorted.
From Flocq Require Import Core.Core IEEE754.BinarySingleNaN.
From Verif Require Import Base Num NumXR NumB64.
From Verif.Model Require Import Signal Ast Robustness.
From Verif.Spec Require Import SignalSpec Pwl Formula Semantics Quantitative Rounding Accuracy.
From Verif.Proofs Require Import NumFacts SignalFacts PwlFacts RobFacts B64Facts SyncError Rounding.
Local Open Scope R_scope.

Lemma suffix_of (l1 : list (R * R)) : forall p l2 l1' q l3, rincr (l1 ++ p :: l2) -> l1 ++ p :: l2 = l1' ++ q :: l3 -> fst p <= fst q ->
  exists m, p :: l2 = m ++ q :: l3.
Proof.
  induction l1 as [|c l1 IH]; intros p l2 l1' q l3 I E H.
  - exists l1'. exact E.
  - destruct l1' as [|c' l1'].
    + exfalso. injection E as E1 E2. subst c. apply rincr_cons in I as [_ F]. rewrite Forall_forall in F.
      specialize (F p ltac:(apply in_or_app; right; left; reflexivity)). lra.
    + injection E as -> E. apply rincr_cons in I as [I _]. eapply IH; eauto.
Qed.

Lemma tails_in {A} (w s : list A) : In s (tails w) <-> s <> [] /\ exists m, w = m ++ s.
Proof.
  split.
  - induction w as [|a w IH]; [intros []|]. intros [<-|H]; [split; [discriminate|exists []; reflexivity]|].
    destruct (IH H) as (N & m & ->). split; [exact N|]. exists (a :: m). reflexivity.
  - intros (N & m & ->). induction m as [|a m IH]; [destruct s; [congruence|left; reflexivity]|]. right. exact IH.
Qed.

Lemma fold_min_le l : forall v, fold_left Rmin l v <= v /\ forall x, In x l -> fold_left Rmin l v <= x.
Proof.
  induction l as [|a l IH]; intros v; cbn [fold_left]; [split; [lra|intros x []]|].
  destruct (IH (Rmin v a)) as [H1 H2]. pose proof (Rmin_l v a). pose proof (Rmin_r v a). split; [lra|]. intros x [<-|Hx]; [lra|auto].
Qed.
Lemma fold_min_in l : forall v, fold_left Rmin l v = v \/ In (fold_left Rmin l v) l.
Proof.
  induction l as [|a l IH]; intros v; cbn [fold_left]; [auto|]. destruct (IH (Rmin v a)) as [H|H]; [|right; right; exact H].
  rewrite H. unfold Rmin. destruct (Rle_dec v a); [auto|right; left; reflexivity].
Qed.
Lemma least_in l : l <> [] -> In (Rleast l) l.
Proof. destruct l as [|v l]; [congruence|]. intros _. cbn [Rleast]. destruct (fold_min_in l v) as [->|H]; [left; reflexivity|right; exact H]. Qed.
Lemma least_le l x : In x l -> Rleast l <= x.
Proof. destruct l as [|v l]; [intros []|]. cbn [Rleast]. destruct (fold_min_le l v) as [H1 H2]. intros [<-|H]; auto. Qed.
Lemma greatest_opp l : Rgreatest l = - Rleast (map Ropp l).
Proof.
  destruct l as [|v l]; cbn [Rgreatest Rleast map]; [lra|]. revert v. induction l as [|a l IH]; intros v; cbn [fold_left map]; [lra|].
  rewrite IH. f_equal. f_equal. unfold Rmax, Rmin. destruct (Rle_dec v a), (Rle_dec (- v) (- a)); lra.
Qed.

Section Chain.
Variable l : list (R * R).
Hypothesis I : rincr l.

(** [P] agrees with [E] at the samples and lies between neighbouring values elsewhere. *)
Definition tracks (P : R -> R -> Prop) (E : list (R * R) -> R) : Prop :=
  (forall l1 p l2, l = l1 ++ p :: l2 -> P (fst p) (E (p :: l2))) /\
  (forall t w, P t w -> (exists l1 p l2, l = l1 ++ p :: l2 /\ t = fst p /\ w = E (p :: l2)) \/
     (exists l1 p q l2, l = l1 ++ p :: q :: l2 /\ fst p < t < fst q /\
        Rmin (E (p :: q :: l2)) (E (q :: l2)) <= w <= Rmax (E (p :: q :: l2)) (E (q :: l2)))).

Lemma tracks_ext P P' E E' : (forall t v, P t v <-> P' t v) -> (forall w, E w = E' w) -> tracks P E -> tracks P' E'.
Proof.
  intros HP HE (A & B). split.
  - intros l1 p l2 El. rewrite <- HE. apply HP, (A _ _ _ El).
  - intros t w H. apply HP, B in H as [(l1 & p & l2 & H1 & H2 & H3)|(l1 & p & q & l2 & H1 & H2 & H3)].
    + left. exists l1, p, l2. rewrite <- HE. auto.
    + right. exists l1, p, q, l2. rewrite <- !HE. auto.
Qed.

Lemma tracks_not P E : tracks P E -> tracks (fun t v => P t (- v)) (fun w => - E w).
Proof.
  intros (A & B). split.
  - intros l1 p l2 El. rewrite Ropp_involutive. apply (A _ _ _ El).
  - intros t w H. apply B in H as [(l1 & p & l2 & H1 & H2 & H3)|(l1 & p & q & l2 & H1 & H2 & H3)].
    + left. exists l1, p, l2. split; [exact H1|]. split; [exact H2|lra].
    + right. exists l1, p, q, l2. split; [exact H1|]. split; [exact H2|].
      revert H3. unfold Rmin, Rmax. repeat destruct (Rle_dec _ _); lra.
Qed.

Lemma tracks_always P E : tracks P E ->
  tracks (fun t v => (exists u, pwl l t u) /\ (exists t', t <= t' /\ P t' v) /\ (forall t' w, t <= t' -> P t' w -> v <= w))
    (fun w => Rleast (map E (tails w))).
Proof.
  intros (A & B). set (AE := fun w => Rleast (map E (tails w))).
  assert (AEle : forall w s, In s (tails w) -> AE w <= E s) by (intros w s H; apply least_le, in_map, H).
  assert (AEin : forall p l2, exists s, In s (tails (p :: l2)) /\ AE (p :: l2) = E s).
  { intros p l2. assert (H : In (AE (p :: l2)) (map E (tails (p :: l2)))) by (apply least_in; discriminate).
    apply in_map_iff in H as (s & H1 & H2). exists s. auto. }
  assert (Bl : forall l1 p l2 t' w, l = l1 ++ p :: l2 -> fst p <= t' -> P t' w -> AE (p :: l2) <= w).
  { intros l1 p l2 t' w El Ht H. apply B in H as [(m1 & q & m2 & H1 & H2 & H3)|(m1 & q & r & m2 & H1 & H2 & H3)].
    - assert (exists m, p :: l2 = m ++ q :: m2) as (m & Em).
      { apply (suffix_of l1 p l2 m1 q m2); [rewrite <- El; exact I|congruence|lra]. }
      rewrite H3. apply AEle, tails_in. split; [discriminate|]. exists m. exact Em.
    - assert (exists m, p :: l2 = m ++ r :: m2) as (m & Em).
      { apply (suffix_of l1 p l2 (m1 ++ [q]) r m2); [rewrite <- El; exact I| |lra]. rewrite <- app_assoc. cbn. congruence. }
      assert (exists m, p :: l2 = m ++ q :: r :: m2) as (m' & Em').
      { apply (suffix_of l1 p l2 m1 q (r :: m2)); [rewrite <- El; exact I|congruence|].
        destruct (Rle_dec (fst p) (fst q)) as [?|Hn]; [assumption|]. exfalso.
        assert (Hq : exists m, q :: r :: m2 = m ++ p :: l2).
        { apply (suffix_of m1 q (r :: m2) l1 p l2); [rewrite <- H1; exact I|congruence|lra]. }
        destruct Hq as ([|c m0] & Hq).
        - injection Hq as -> _. lra.
        - injection Hq as _ Hq. pose proof I as I'. rewrite H1 in I'.
          assert (length (p :: l2) = length (m ++ r :: m2)) by (rewrite Em; reflexivity).
          assert (length (r :: m2) = length (m0 ++ p :: l2)) by (rewrite Hq; reflexivity).
          rewrite app_length in *. assert (Lm : length m = 0%nat) by (cbn [length] in *; lia). destruct m; [|discriminate].
          cbn [app] in Em. injection Em as -> _. lra. }
      assert (L1 : AE (p :: l2) <= E (r :: m2)) by (apply AEle, tails_in; split; [discriminate|exists m; exact Em]).
      assert (L2 : AE (p :: l2) <= E (q :: r :: m2)) by (apply AEle, tails_in; split; [discriminate|exists m'; exact Em']).
      assert (AE (p :: l2) <= Rmin (E (q :: r :: m2)) (E (r :: m2))) by (apply Rmin_glb; assumption). lra. }
  assert (Al : forall l1 p l2, l = l1 ++ p :: l2 -> exists t', fst p <= t' /\ P t' (AE (p :: l2))).
  { intros l1 p l2 El. destruct (AEin p l2) as (s & Hs & ->). apply tails_in in Hs as (Ns & m & Em). destruct s as [|q s]; [congruence|].
    exists (fst q). split.
    - destruct m as [|c m]; [injection Em as -> _; lra|]. injection Em as <- Em. rewrite El in I.
      assert (I' : rincr (p :: l2)) by (clear - I; induction l1; [exact I|apply IHl1; inversion I; assumption]).
      apply rincr_cons in I' as [_ F]. rewrite Forall_forall in F. left. apply F. rewrite Em. apply in_or_app. right. left. reflexivity.
    - apply (A (l1 ++ m)). rewrite <- app_assoc, <- Em. exact El. }
  split.
  - intros l1 p l2 El. split; [|split].
    + exists (snd p). left. exists p. split; [rewrite El; apply in_or_app; right; left; reflexivity|auto].
    + apply (Al _ _ _ El).
    + intros t' w Ht H. eapply Bl; eauto.
  - intros t w ((u & U) & (t' & Ht' & Hw) & Hall). destruct U as [(p & Hp & Ep & _)|(l1 & p & q & l2 & El & Hpq & _)].
    + left. apply in_split in Hp as (l1 & l2 & El). exists l1, p, l2. split; [exact El|]. split; [auto|].
      apply Rle_antisym.
      * destruct (Al _ _ _ El) as (t1 & Ht1 & H1). apply (Hall t1); [lra|exact H1].
      * apply (Bl l1 p l2 t'); [exact El|lra|exact Hw].
    + right. exists l1, p, q, l2. split; [exact El|]. split; [exact Hpq|]. split.
      * eapply Rle_trans; [apply Rmin_l|]. apply (Bl l1 p (q :: l2) t'); [exact El|lra|exact Hw].
      * eapply Rle_trans; [|apply Rmax_r]. destruct (Al (l1 ++ [p]) q l2) as (t1 & Ht1 & H1); [rewrite <- app_assoc; exact El|].
        apply (Hall t1); [lra|exact H1].
Qed.

Lemma tracks_eventually P E : tracks P E ->
  tracks (fun t v => (exists u, pwl l t u) /\ (exists t', t <= t' /\ P t' v) /\ (forall t' w, t <= t' -> P t' w -> w <= v))
    (fun w => Rgreatest (map E (tails w))).
Proof.
  intros H. eapply tracks_ext; [| |apply tracks_not, tracks_always, tracks_not, H].
  - intros t v. cbv beta. split; intros (H1 & (t' & H2 & H3) & H4); split; auto; split.
    + exists t'. rewrite Ropp_involutive in H3. auto.
    + intros t1 w H5 H6. rewrite <- (Ropp_involutive w) in H6. specialize (H4 t1 (- w) H5 H6). lra.
    + exists t'. rewrite Ropp_involutive. auto.
    + intros t1 w H5 H6. specialize (H4 t1 (- w) H5 H6). lra.
  - intros w. cbv beta. rewrite greatest_opp. do 2 f_equal. rewrite map_map. reflexivity.
Qed.

Lemma tracks_pred op c : tracks (fun t v => exists x, pwl l t x /\ v = exact_pred op x c)
  (fun w => match w with [] => 0 | p :: _ => exact_pred op (snd p) c end).
Proof.
  split.
  - intros l1 p l2 El. exists (snd p). split; [|reflexivity]. left. exists p. split; [rewrite El; apply in_or_app; right; left; reflexivity|auto].
  - intros t w (x & [(p & Hp & <- & <-)|(l1 & p & q & l2 & El & Hpq & ->)] & ->).
    + left. apply in_split in Hp as (l1 & l2 & El). exists l1, p, l2. auto.
    + right. exists l1, p, q, l2. split; [exact El|]. split; [exact Hpq|].
      set (lam := (t - fst p) / (fst q - fst p)).
      assert (Hl : 0 <= lam <= 1).
      { unfold lam. split; [apply Rmult_le_pos; [lra|left; apply Rinv_0_lt_compat; lra]|].
        apply Rmult_le_reg_r with (fst q - fst p); [lra|]. unfold Rdiv. rewrite Rmult_assoc, Rinv_l; lra. }
      replace ((snd q - snd p) / (fst q - fst p) * (t - fst p)) with ((snd q - snd p) * lam) by (unfold lam; field; lra).
      unfold Rmin, Rmax. destruct op; cbn [exact_pred]; repeat destruct (Rle_dec _ _); nra.
Qed.
End Chain.

Lemma tails_map {A B} (f : A -> B) w : tails (map f w) = map (map f) (tails w).
Proof. induction w as [|a w IH]; [reflexivity|]. cbn [map tails]. rewrite IH. reflexivity. Qed.

Lemma chain_tracks lt n l phi : rincr l -> (forall t v, value_at lt n t v <-> pwl l t v) -> names phi = [n] ->
  free_of is_const phi = true -> free_of is_andor phi = true -> free_of is_until phi = true ->
  tracks l (rob lt (real_formula phi)) (fun w => exact_samples phi (map snd w)).
Proof.
  intros I HV. induction phi using expr_rec; intros Hn H1 H2 H3; cbn [free_of is_const is_andor is_until negb andb] in H1, H2, H3; try discriminate.
  - injection Hn as ->. eapply tracks_ext; [| |apply (tracks_pred l o (B2R c))].
    + intros t v. cbn [real_formula rob]. split.
      * intros (x & Hx & ->). exists x, (B2R c). split; [apply HV, Hx|]. split; [reflexivity|]. destruct o; reflexivity.
      * intros (x & r & Hx & Hr & ->). injection Hr as <-. exists x. split; [apply HV, Hx|]. destruct o; reflexivity.
    + intros [|p w]; reflexivity.
  - cbn [names] in Hn. specialize (IHphi Hn H1 H2 H3). exact (tracks_not _ _ _ IHphi).
  - cbn [names] in Hn. specialize (IHphi Hn H1 H2 H3). eapply tracks_ext; [| |apply (tracks_always l I _ _ IHphi)].
    + intros t v. cbn [real_formula rob]. unfold inside.
      assert (D : (exists u, pwl l t u) <-> (forall m, In m (names (real_formula phi)) -> exists u, value_at lt m t u)).
      { assert (En : names (real_formula phi) = [n]).
        { clear - Hn H2 H3. induction phi using expr_rec; cbn [free_of is_andor is_until negb andb] in *; try discriminate; try exact Hn; auto. }
        rewrite En. split; [intros (u & U) m [<-|[]]; exists u; apply HV, U|]. intros K. destruct (K n (or_introl eq_refl)) as (u & U). exists u. apply HV, U. }
      rewrite D. reflexivity.
    + intros w. cbn [exact_samples]. rewrite tails_map, map_map. reflexivity.
  - cbn [names] in Hn. specialize (IHphi Hn H1 H2 H3). eapply tracks_ext; [| |apply (tracks_eventually l I _ _ IHphi)].
    + intros t v. cbn [real_formula rob]. unfold inside.
      assert (D : (exists u, pwl l t u) <-> (forall m, In m (names (real_formula phi)) -> exists u, value_at lt m t u)).
      { assert (En : names (real_formula phi) = [n]).
        { clear - Hn H2 H3. induction phi using expr_rec; cbn [free_of is_andor is_until negb andb] in *; try discriminate; try exact Hn; auto. }
        rewrite En. split; [intros (u & U) m [<-|[]]; exists u; apply HV, U|]. intros K. destruct (K n (or_introl eq_refl)) as (u & U). exists u. apply HV, U. }
      rewrite D. reflexivity.
    + intros w. cbn [exact_samples]. rewrite tails_map, map_map. reflexivity.
Qed.

Lemma reals_rincr (x : signal B64) : wf x -> Forall (fun a => finite (s_time a) = true /\ finite (s_value a) = true) x -> rincr (reals x).
Proof.
  intros (_ & W & _) H. unfold rincr, reals, increasing in *. induction x as [|a x IH]; cbn [map times] in *; constructor.
  - apply IH; [inversion W; assumption|inversion H; assumption].
  - inversion W as [|? ? _ K]; subst. inversion H as [|? ? [Fa _] Fx]; subst. apply Forall_forall. intros p Hp.
    apply in_map_iff in Hp as (b & <- & Hb). cbn [fst]. unfold times in K. rewrite Forall_map, Forall_forall in K.
    rewrite Forall_forall in Fx. apply lt_B2R; [exact Fa|apply Fx, Hb|apply K, Hb].
Qed.

Lemma sign_kept r (v : B64) : isnum v = true -> rounds_to r v ->
  (finite v = true -> Rabs (B2R v - r) <= bpow radix2 (-53) * Rabs r) ->
  (nltb nzero v = true <-> 0 < r) /\ (nltb v nzero = true <-> r < 0).
Proof.
  intros N H E. assert (Hu : 0 < bpow radix2 (-53) < 1).
  { split; [apply bpow_gt_0|]. change 1 with (bpow radix2 0). apply bpow_lt. lia. }
  assert (Z : isnum (nzero : B64) = true) by reflexivity. assert (Z0 : rk (nzero : B64) = 0) by reflexivity.
  assert (S : (0 < rk v <-> 0 < r) /\ (rk v < 0 <-> r < 0)).
  { destruct (finite v) eqn:F.
    - rewrite (finite_rk v F). specialize (E eq_refl). unfold Rabs in E. repeat destruct (Rcase_abs _) in E; split; split; intros; nra.
    - unfold rounds_to in H. revert H. case Rlt_bool_spec; intros L H; [destruct H; congruence|].
      assert (r <> 0). { intros ->. unfold b64_round in L. rewrite round_0, Rabs_R0 in L by apply valid_rnd_N. pose proof (bpow_gt_0 radix2 1024). lra. }
      assert (RK : forall b, rk (B754_infinity b : B64) = if b then - bpow radix2 1024 else bpow radix2 1024) by reflexivity.
      revert H. case Rlt_bool_spec; intros L' ->; rewrite RK in *; pose proof (bpow_gt_0 radix2 1024); split; split; intros; lra. }
  split; (split; [intros K|intros K]); try (num_hyps; rewrite ?Z0 in *; tauto); num; rewrite ?Z0; tauto.
Qed.

Lemma C93_lemma dbg fuel (tr : trace B64) s phi : keys_unique tr ->
  free_of is_const phi = true -> free_of is_andor phi = true -> free_of is_until phi = true ->
  (forall e, In e (subs phi) -> match e with EPred _ _ c => finite c = true | _ => True end) -> intervals_made phi ->
  (forall n, In n (names phi) -> exists x, has_signal tr n x) ->
  Forall (fun e => wf (snd e) /\ snd e <> [] /\ Forall (fun a => finite (s_time a) = true /\ finite (s_value a) = true) (snd e)) tr ->
  exists z, compute_robustness dbg fuel phi tr s = Ok z /\ z <> [] /\
    forall c, In c z -> exists r, rob (real_trace tr) (real_formula phi) (B2R (s_time c)) r /\ rounds_to r (s_value c) /\
      (finite (s_value c) = true -> Rabs (B2R (s_value c) - r) <= bpow radix2 (-53) * Rabs r) /\
      (nltb nzero (s_value c) = true <-> 0 < r) /\ (nltb (s_value c) nzero = true <-> r < 0).
Proof.
  intros U F1 F2 F3 FC IM HN G.
  destruct (C91_temporal_lemma dbg fuel tr s phi U F1 F2 F3 FC IM HN G) as (n & x & z & A & B & C & D & K).
  rewrite Forall_forall in G. pose proof (G _ B) as (W & N & Q). cbn [snd] in *.
  exists z. split; [exact C|]. split; [intros ->; destruct x; [congruence|discriminate]|].
  intros c Hc. apply in_split in Hc as (z1 & z2 & ->).
  assert (exists x1 a x2, x = x1 ++ a :: x2 /\ length x1 = length z1 /\ s_time c = s_time a) as (x1 & a & x2 & -> & L & Et).
  { clear - D. revert x D. induction z1 as [|b z1 IH]; intros x D; destruct x as [|a x]; try discriminate; cbn [app times map] in D.
    - injection D as D1 D2. exists [], a, x. auto.
    - injection D as D1 D2. destruct (IH x) as (x1 & a' & x2 & -> & L & E); [exact D2|]. exists (a :: x1), a', x2. cbn. auto. }
  specialize (K x1 a x2 z1 c z2 eq_refl eq_refl L). cbv zeta in K.
  set (r := exact_samples phi (map (fun b => B2R (s_value b)) (a :: x2))) in *. destruct K as [K1 K2].
  exists r. split; [|split; [exact K1|split; [exact K2|]]].
  - assert (HV : forall t v, value_at (real_trace tr) n t v <-> pwl (reals (x1 ++ a :: x2)) t v).
    { intros t v. unfold value_at. split.
      - intros (l & Hl & P). unfold real_trace in Hl. apply in_map_iff in Hl as ([m y] & E & Hy). cbn [fst snd] in E. injection E as -> <-.
        assert (y = x1 ++ a :: x2); [|subst; exact P].
        assert (T1 := proj2 (trace_find_iff tr n y U) Hy). assert (T2 := proj2 (trace_find_iff tr n _ U) B). congruence.
      - intros P. exists (reals (x1 ++ a :: x2)). split; [|exact P]. apply in_map_iff. exists (n, x1 ++ a :: x2). split; [reflexivity|exact B]. }
    destruct (chain_tracks (real_trace tr) n (reals (x1 ++ a :: x2)) phi (reals_rincr _ W Q) HV A F1 F2 F3) as (T & _).
    specialize (T (reals x1) (B2R (s_time a), B2R (s_value a)) (reals x2)). cbn [fst] in T. rewrite Et.
    replace r with (exact_samples phi (map snd ((B2R (s_time a), B2R (s_value a)) :: reals x2))).
    + apply T. unfold reals. rewrite map_app. reflexivity.
    + unfold r, reals. cbn [map snd]. rewrite map_map. reflexivity.
  - apply sign_kept; [|exact K1|exact K2]. apply near_rounds in K1. apply K1.
Qed.
