(** The windowed min/max in exact arithmetic, where it does not throw. *)
From Coq Require Import Sorted Reals Lra.
From Flocq Require Import Core.Raux.
From Verif Require Import Base Num NumXR.
From Verif.Model Require Import Signal MonoWedge MinMax.
From Verif.Spec Require Import SignalSpec Subseq Pwl.
From Verif.Proofs Require Import NumFacts SignalFacts LowerBound Reshape Sync PwlFacts ShapeExact PairExact WinFacts.
Open Scope R_scope.

Ltac xcmp := change (@nzero XR _) with (Fin 0); change (@nltb XR _) with xlt; change (@nleb XR _) with xle; change (@neqb XR _) with xeq; change (@nadd XR _) with xadd; change (@nsub XR _) with xsub; change (@nopp XR _) with xopp.

Section Win.
Variable comp : sample XR -> sample XR -> bool.

Lemma push_fsig zs t v : (zs = [] \/ final_time zs < t) -> push_back_tv (fsig zs) (Fin t) (Fin v) = Ok (fsig (zs ++ [(t, v)])).
Proof.
  intros H. unfold push_back_tv. destruct zs as [|[t0 v0] zs _] using rev_ind; [reflexivity|].
  destruct H as [H|H]; [destruct zs; discriminate|]. rewrite final_snoc in H. rewrite (fsig_push zs t0 v0 t v) by auto. rewrite <- app_assoc. reflexivity.
Qed.

Lemma update_one f i : wedge_update comp [f] i = Ok [f; i] \/ wedge_update comp [f] i = Ok [i].
Proof. destruct (wedge_update_some comp [f] i) as (k & ->). destruct k as [|k]; [right; reflexivity|left; destruct k; reflexivity]. Qed.

(** The times at which samples are inserted. *)
Definition ticks (tf a v : R) (k : nat) : list (R * R) := map (fun j => (tf + INR j * a, v)) (seq 1 k).
Lemma ticks_S tf a v k : ticks tf a v (S k) = (tf + a, v) :: ticks (tf + a) a v k.
Proof.
  unfold ticks. cbn [seq map]. f_equal; [f_equal; cbn; ring|]. rewrite <- seq_shift, map_map. apply map_ext. intros j. rewrite S_INR. f_equal. ring.
Qed.

Lemma stream_ticks a D vq v : 0 < a -> forall n fuel tf f pr zs, D - a <= tf + INR n * a -> (n + 1 < fuel)%nat ->
  s_time f = Fin tf -> interpolate pr (Fin (tf + a)) = Fin v -> tf < D -> (zs = [] \/ final_time zs <= tf) ->
  exists k, (k <= n)%nat /\ D - a <= tf + INR k * a /\ (forall j, (j < k)%nat -> tf + INR j * a < D - a) /\
  win_stream comp fuel (Fin a) [f] (Some pr) [mkSample (Fin D) (Fin vq) (Fin 0)] (fsig zs) = Ok (fsig (zs ++ ticks tf a v k ++ [(D, vq)])).
Proof.
  intros Ha. induction n as [|n IH]; intros fuel tf f pr zs Hn Hf Ef Ei HD Hz; (destruct fuel as [|fuel]; [lia|]); cbn [win_stream s_time]; rewrite Ef; xcmp; cbn [xsub xadd xopp]; rewrite fin_lt.
  all: assert (LASTSTEP : D + - a <= tf -> exists z, (w1 <- wedge_update comp [f] (mkSample (Fin D) (Fin vq) (Fin 0)) ;;
      w2 <- win_pop (Fin (D + - a)) w1 ;; z' <- push_back_tv (fsig zs) (Fin D) (Fin vq) ;; win_stream comp fuel (Fin a) w2 (Some (mkSample (Fin D) (Fin vq) (Fin 0))) [] z') = Ok z /\ z = fsig (zs ++ [(D, vq)])).
  1, 3: (intros L; destruct fuel as [|fuel]; [lia|]; eexists; split; [|reflexivity];
    assert (P : exists w2, (w1 <- wedge_update comp [f] (mkSample (Fin D) (Fin vq) (Fin 0)) ;; win_pop (Fin (D + - a)) w1) = Ok w2) by
     (destruct (update_one f (mkSample (Fin D) (Fin vq) (Fin 0))) as [-> | ->]; cbn [bind win_pop s_time]; rewrite ?Ef; xcmp; rewrite ?fin_le;
       [destruct (Rle_bool tf (D + - a)); [|eauto]|]; rewrite Rle_bool_false by lra; eauto);
    destruct P as [w2 P]; destruct (wedge_update comp [f] _) as [w1|e| | |]; try discriminate P; cbn [bind] in P |- *; rewrite P; cbn [bind];
    rewrite push_fsig by (destruct Hz as [Hz|Hz]; [left; exact Hz|right; lra]); reflexivity).
  - cbn in Hn. rewrite Rlt_bool_false by lra. cbn [bind]. destruct LASTSTEP as (z & E & ->); [lra|].
    exists 0%nat. split; [lia|]. split; [cbn; lra|]. split; [intros j Hj; lia|]. exact E.
  - case Rlt_bool_spec; intros L.
    + cbn [bind]. change (xadd (Fin tf) (Fin a)) with (Fin (tf + a)). rewrite Ei. set (i := mkSample (Fin (tf + a)) (Fin v) (Fin 0)).
      assert (P : (w1 <- wedge_update comp [f] i ;; win_pop (Fin (tf + a + - a)) w1) = Ok [i]).
      { destruct (update_one f i) as [-> | ->]; cbn [bind win_pop]; cbn [i s_time]; rewrite ?Ef; xcmp; rewrite ?fin_le; [rewrite Rle_bool_true by lra|]; rewrite Rle_bool_false by lra; reflexivity. }
      change (xsub (s_time i) (Fin a)) with (Fin (tf + a + - a)).
      destruct (wedge_update comp [f] i) as [w1|e| | |]; try discriminate P; cbn [bind] in P |- *; rewrite P; cbn [bind].
      change (s_time i) with (Fin (tf + a)). change (s_value i) with (Fin v). rewrite push_fsig by (destruct Hz as [Hz|Hz]; [left; exact Hz|right; lra]). cbn [bind].
      destruct (IH fuel (tf + a) i i (zs ++ [(tf + a, v)])) as (k & K1 & K2 & K3 & ->).
      * rewrite S_INR in Hn. lra.
      * lia.
      * reflexivity.
      * unfold interpolate, i. cbn. f_equal. ring.
      * lra.
      * right. rewrite final_snoc. cbn. lra.
      * exists (S k). split; [lia|]. split; [rewrite S_INR; lra|]. split.
        -- intros [|j] Hj; [cbn; lra|]. rewrite S_INR. specialize (K3 j ltac:(lia)). lra.
        -- rewrite ticks_S, <- app_assoc. reflexivity.
    + cbn [bind]. destruct LASTSTEP as (z & E & ->); [lra|].
      exists 0%nat. split; [lia|]. split; [cbn; lra|]. split; [intros j Hj; lia|]. exact E.
Qed.

Lemma resize_pair l p q start fin fill : rincr (l ++ [p; q]) -> fst p <= start < fst q -> fst q <= fin ->
  resize (fsig (l ++ [p; q])) (Fin start) (Fin fin) (Fin fill) = Ok (fsig [(start, line p q start); q]).
Proof.
  intros I H1 H2. destruct (fsig_app l [p; q]) as (l0 & El & _); [discriminate|].
  destruct (fsig_fine _ I) as [W1 W2]. rewrite El in *. apply rincr_app in I as (_ & I & _). apply rincr_cons2 in I as [L _].
  change (fsig [p; q]) with [mkSample (Fin (fst p)) (Fin (snd p)) (slope (inj p) (inj q)); mkSample (Fin (fst q)) (Fin (snd q)) (Fin 0)] in *.
  rewrite resize_last_segment; auto.
  2: xcmp; rewrite fin_lt; apply Rlt_bool_true; lra.
  2: cbn [s_time]; xcmp; rewrite fin_le; apply Rle_bool_true; lra.
  2: cbn [s_time]; xcmp; rewrite fin_lt; apply Rlt_bool_true; lra.
  rewrite interp_line by exact L. cbn [s_time s_value]. xcmp. rewrite fin_le, Rle_bool_true by lra. reflexivity.
Qed.

Section Setup.
Variables (l : list (R * R)) (p q : R * R) (a b : R).
Hypothesis Hi : rincr (l ++ [p; q]).
Hypothesis Ha : 0 < a.
Hypothesis Hab : a < b.
Let T0 := first_time (l ++ [p; q]).
Let w := b - a.

Lemma end_pq : end_time (fsig (l ++ [p; q])) = Fin (fst q).
Proof. rewrite end_fsig. rewrite final_app by discriminate. reflexivity. Qed.
Lemma back_pq : back (fsig (l ++ [p; q])) = Ok (mkSample (Fin (fst q)) (Fin (snd q)) (Fin 0)).
Proof. destruct (fsig_app l [p; q]) as (l0 & -> & _); [discriminate|]. unfold back. rewrite last_opt_app by discriminate. reflexivity. Qed.

Lemma win_unfold fuel : minmax_seq_win comp fuel (fsig (l ++ [p; q])) (Fin a) (Fin b) =
  (x_ <- resize_shift (fsig (l ++ [p; q])) (Fin (T0 + w)) (Fin (fst q + w)) (Fin (snd q)) (Fin (- w)) ;;
   '(wp, r) <- win_fill comp (Fin (T0 + w)) [] None x_ ;;
   let '(window, prev) := wp in z <- win_stream comp fuel (Fin a) window prev r [] ;; simplify z).
Proof.
  unfold minmax_seq_win. rewrite back_pq, begin_fsig, end_pq. xcmp. rewrite fin_eq, Req_bool_false by lra. reflexivity.
Qed.

Lemma win_inside fuel : fst p <= T0 + w < fst q ->
  minmax_seq_win comp fuel (fsig (l ++ [p; q])) (Fin a) (Fin b) =
  (if Rlt_bool (fst q - w) (T0 + w) then UB
   else z <- win_stream comp fuel (Fin a) [mkSample (Fin T0) (Fin (line p q (T0 + w))) (slope (Fin T0, Fin (line p q (T0 + w))) (Fin (fst q - w), Fin (snd q)))]
               (Some (mkSample (Fin T0) (Fin (line p q (T0 + w))) (slope (Fin T0, Fin (line p q (T0 + w))) (Fin (fst q - w), Fin (snd q)))))
               [mkSample (Fin (fst q - w)) (Fin (snd q)) (Fin 0)] [] ;; simplify z).
Proof.
  intros H. rewrite win_unfold. unfold resize_shift. rewrite resize_pair by (auto; unfold w in *; lra). cbn [bind].
  rewrite fsig_move by (apply rincr_cons2; split; [cbn; lra|repeat constructor]). cbn [map]. unfold move. cbn [fst snd].
  replace (T0 + w + - w) with T0 by ring. replace (fst q + - w) with (fst q - w) by ring.
  change (fsig [(T0, line p q (T0 + w)); (fst q - w, snd q)]) with
    [mkSample (Fin T0) (Fin (line p q (T0 + w))) (slope (Fin T0, Fin (line p q (T0 + w))) (Fin (fst q - w), Fin (snd q))); mkSample (Fin (fst q - w)) (Fin (snd q)) (Fin 0)].
  set (s0 := mkSample (Fin T0) _ _). set (s1 := mkSample (Fin (fst q - w)) (Fin (snd q)) (Fin 0)).
  cbn [win_fill]. change (s_time s0) with (Fin T0). change (s_time s1) with (Fin (fst q - w)). xcmp. rewrite !fin_lt, Rlt_bool_true by (unfold w; lra).
  change (wedge_update comp [] s0) with (Ok [s0]). cbn [bind].
  destruct (Rlt_bool (fst q - w) (T0 + w)); [|reflexivity].
  destruct (update_one s0 s1) as [-> | ->]; reflexivity.
Qed.

Lemma win_long fuel : fst p <= T0 + w -> fst q - w < T0 + w -> minmax_seq_win comp fuel (fsig (l ++ [p; q])) (Fin a) (Fin b) = UB.
Proof.
  intros H1 H2. assert (Hq : T0 <= fst q) by (apply (rincr_first_final _ q Hi); apply in_or_app; right; right; left; reflexivity).
  destruct (Rlt_le_dec (T0 + w) (fst q)) as [L|L].
  - rewrite win_inside by lra. rewrite Rlt_bool_true by lra. reflexivity.
  - rewrite win_unfold. unfold resize_shift. destruct (fsig_fine _ Hi) as [W1 W2]. destruct (fsig_app (l ++ [p]) [q]) as (l0 & El & _); [discriminate|].
    rewrite <- app_assoc in El. cbn [app] in El. rewrite El in *. change (fsig [q]) with [mkSample (Fin (fst q)) (Fin (snd q)) (Fin 0)] in *.
    rewrite resize_after_end; auto.
    2: xcmp; rewrite fin_le; apply Rle_bool_true; lra.
    2: cbn [s_time]; xcmp; rewrite fin_le; apply Rle_bool_true; lra.
    cbn [s_time s_value]. xcmp. rewrite fin_eq. case Req_bool_spec; intros E; [|reflexivity].
    change (sig_of [(Fin (fst q), Fin (snd q))]) with [mkSample (Fin (fst q)) (Fin (snd q)) (Fin 0)].
    cbn [bind map win_fill add_time s_time]. xcmp. cbn [xadd]. rewrite fin_lt, Rlt_bool_true by lra. reflexivity.
Qed.

End Setup.
End Win.

Lemma win_short l p q a b : rincr (l ++ [p; q]) -> 0 < a -> a < b -> let T0 := first_time (l ++ [p; q]) in let w := b - a in
  fst p <= T0 + w -> T0 + w <= fst q - w -> exists n k v l', (forall comp fuel, (n <= fuel)%nat ->
    minmax_seq_win comp fuel (fsig (l ++ [p; q])) (Fin a) (Fin b) = Ok (fsig l')) /\ rincr l' /\ l' <> [] /\
  (forall t u, pwl l' t u <-> pwl (ticks T0 a v k ++ [(fst q - w, snd q)]) t u) /\
  fst q - w - a <= T0 + INR k * a /\ (forall j, (j < k)%nat -> T0 + INR j * a < fst q - w - a) /\
  ((0 < k)%nat -> pwl (l ++ [p; q]) (T0 + a + w) v).
Proof.
  intros Hi Ha Hab T0 w H1 H2. assert (W : 0 < w) by (unfold w; lra).
  destruct (archimed ((fst q - w - a - T0) / a)) as [A _]. set (n := Z.to_nat (up ((fst q - w - a - T0) / a))).
  assert (An : fst q - w - a <= T0 + INR n * a).
  { assert (B : (fst q - w - a - T0) / a <= INR n).
    { unfold n. destruct (Z.le_gt_cases 0 (up ((fst q - w - a - T0) / a))) as [Z0|Z0].
      - rewrite INR_IZR_INZ, Z2Nat.id by exact Z0. lra.
      - replace (Z.to_nat _) with 0%nat by lia. cbn. apply IZR_lt in Z0. lra. }
    apply (Rmult_le_compat_r a) in B; [|lra]. unfold Rdiv in B. rewrite Rmult_assoc, Rinv_l, Rmult_1_r in B by lra. lra. }
  set (v := line (T0, line p q (T0 + w)) (fst q - w, snd q) (T0 + a)).
  assert (L : T0 < fst q - w) by lra.
  destruct (stream_ticks sample_le a (fst q - w) (snd q) v Ha n (n + 2) T0
     (mkSample (Fin T0) (Fin (line p q (T0 + w))) (slope (Fin T0, Fin (line p q (T0 + w))) (Fin (fst q - w), Fin (snd q))))
     (mkSample (Fin T0) (Fin (line p q (T0 + w))) (slope (Fin T0, Fin (line p q (T0 + w))) (Fin (fst q - w), Fin (snd q)))) []) as (k & _ & K2 & K3 & _).
  { exact An. } { lia. } { reflexivity. } { apply (interp_line (T0, line p q (T0 + w)) (fst q - w, snd q)). exact L. } { exact L. } { left. reflexivity. }
  set (out := ticks T0 a v k ++ [(fst q - w, snd q)]).
  assert (Io : rincr out).
  { unfold out. apply rincr_app. split; [|split; [repeat constructor|]].
    - unfold ticks. clear - Ha. generalize 1%nat. induction k as [|k IH]; intros m; [constructor|]. cbn [seq map]. apply rincr_cons. split; [apply IH|].
      apply Forall_map, Forall_forall. intros j Hj. apply in_seq in Hj. cbn [fst]. assert (INR m < INR j) by (apply lt_INR; lia). nra.
    - intros x y Hx [<-|[]]. unfold ticks in Hx. apply in_map_iff in Hx as (j & <- & Hj). apply in_seq in Hj. cbn [fst].
      specialize (K3 (j - 1)%nat ltac:(lia)). rewrite minus_INR in K3 by lia. cbn in K3. lra. }
  destruct (simplify_exact out Io) as (l' & E' & N' & Rp & _ & F1 & F2); [unfold out; destruct (ticks T0 a v k); discriminate|].
  exists (n + 2)%nat, k, v, l'. split; [|split; [eapply repr_rincr, Rp|split; [exact N'|split; [|split; [exact K2|split; [exact K3|]]]]]].
  - intros comp fuel Hf. rewrite win_inside by (auto; fold T0 w; lra). fold T0 w. rewrite Rlt_bool_false by lra.
    destruct (stream_ticks comp a (fst q - w) (snd q) v Ha n fuel T0
     (mkSample (Fin T0) (Fin (line p q (T0 + w))) (slope (Fin T0, Fin (line p q (T0 + w))) (Fin (fst q - w), Fin (snd q))))
     (mkSample (Fin T0) (Fin (line p q (T0 + w))) (slope (Fin T0, Fin (line p q (T0 + w))) (Fin (fst q - w), Fin (snd q)))) []) as (k' & _ & K2' & K3' & E).
    { exact An. } { lia. } { reflexivity. } { apply (interp_line (T0, line p q (T0 + w)) (fst q - w, snd q)). exact L. } { exact L. } { left. reflexivity. }
    change (fsig []) with ([] : signal XR) in E. rewrite E. cbn [bind app].
    assert (k' = k).
    { destruct (Nat.lt_trichotomy k k') as [C|[C|C]]; [exfalso; specialize (K3' k C); lra|auto|exfalso; specialize (K3 k' C); lra]. }
    subst k'. exact E'.
  - intros t u. fold out. rewrite (repr_pwl _ _ t u Rp N'), (pwl_pw out t u Io); [rewrite F1, F2; reflexivity|unfold out; destruct (ticks T0 a v k); discriminate].
  - intros K. specialize (K3 0%nat K). cbn in K3. assert (Hlt : fst p < T0 + a + w < fst q) by lra. right. exists l, p, q, []. split; [reflexivity|]. split; [exact Hlt|].
    unfold v, line. cbn [fst snd]. field. lra.
Qed.

Lemma C32_long_lemma l p q s a b fuel : built (l ++ [p; q]) s -> 0 < a -> a < b ->
  fst p <= first_time (l ++ [p; q]) + (b - a) -> fst q - (b - a) < first_time (l ++ [p; q]) + (b - a) ->
  max_seq_win fuel s (Fin a) (Fin b) = UB /\ min_seq_win fuel s (Fin a) (Fin b) = UB.
Proof. intros B Ha Hab H1 H2. apply built_iff in B as [I ->]. split; apply win_long; auto. Qed.

Lemma C32_shift_lemma l p q s a b : built (l ++ [p; q]) s -> 0 < a -> a < b ->
  fst p <= first_time (l ++ [p; q]) + (b - a) <= fst q - (b - a) ->
  exists n k v l' z, (forall fuel, (n <= fuel)%nat -> max_seq_win fuel s (Fin a) (Fin b) = Ok z /\ min_seq_win fuel s (Fin a) (Fin b) = Ok z) /\
    built l' z /\
    (forall t u, pwl l' t u <-> pwl (map (fun j => (first_time (l ++ [p; q]) + INR j * a, v)) (seq 1 k) ++ [(fst q - (b - a), snd q)]) t u) /\
    fst q - b <= first_time (l ++ [p; q]) + INR k * a /\
    (forall j, (j < k)%nat -> first_time (l ++ [p; q]) + INR j * a < fst q - b) /\
    ((0 < k)%nat -> pwl (l ++ [p; q]) (first_time (l ++ [p; q]) + b) v).
Proof.
  intros B Ha Hab [H1 H2]. apply built_iff in B as [I ->].
  destruct (win_short l p q a b I Ha Hab H1 H2) as (n & k & v & l' & E & I' & _ & P & K2 & K3 & K4).
  exists n, k, v, l', (fsig l'). split; [intros fuel Hf; split; apply E, Hf|]. split; [apply built_iff; auto|]. split; [exact P|].
  split; [lra|]. split; [intros j Hj; specialize (K3 j Hj); lra|]. intros K. specialize (K4 K).
  replace (first_time (l ++ [p; q]) + b) with (first_time (l ++ [p; q]) + a + (b - a)) by ring. exact K4.
Qed.

(** Both conditions can be met. *)
Lemma C32_shift_case : exists s, built ([] ++ [(0, 5); (8, 1)]) s /\ 0 < 1 /\ 1 < 3 /\
  fst (0, 5) <= first_time ([] ++ [(0, 5); (8, 1)]) + (3 - 1) <= fst (8, 1) - (3 - 1).
Proof.
  exists (fsig ([] ++ [(0, 5); (8, 1)])). split; [apply built_iff; split; [apply rincr_cons2; split; [cbn; lra|repeat constructor]|reflexivity]|]. cbn. lra.
Qed.
Lemma C32_long_case : exists s, built ([(0, 5)] ++ [(1, 5); (3, 1)]) s /\ 0 < 1 /\ 1 < 3 /\
  fst (1, 5) <= first_time ([(0, 5)] ++ [(1, 5); (3, 1)]) + (3 - 1) /\
  fst (3, 1) - (3 - 1) < first_time ([(0, 5)] ++ [(1, 5); (3, 1)]) + (3 - 1).
Proof.
  exists (fsig ([(0, 5)] ++ [(1, 5); (3, 1)])). split; [apply built_iff; split; [cbn [app]; apply rincr_cons2; split; [cbn; lra|apply rincr_cons2; split; [cbn; lra|repeat constructor]]|reflexivity]|]. cbn. lra.
Qed.
