(** C25, C26, C29, C32 in the form of Props/MinMax.v; witnesses and cases. *)
From Coq Require Import Sorted Reals Lra Psatz.
From Flocq Require Import IEEE754.BinarySingleNaN Core.Raux.
From Verif Require Import Base Num NumXR NumB64.
From Verif.Model Require Import Signal MonoWedge MinMax.
From Verif.Spec Require Import SignalSpec Pwl Crossing.
From Verif.Proofs Require Import NumFacts SignalFacts LowerBound Reshape Sync PwlFacts SyncExact SyncProps SampleFacts
  PairExact MinMaxFacts SeqFacts SeqExact B64Facts WinFacts SignalProps MinMaxProps.

Section G.
Local Open Scope nat_scope.
Context {F : Type} `{NF : Num F} {NL : NumLaws F}.

Lemma minmax_true_inv dbg comp (x y z : signal F) : minmax_pair dbg comp true x y = Ok z ->
  pair_loop comp None None x y ChNone [] = Ok z.
Proof.
  unfold minmax_pair, assert_. cbn [bind]. intros H.
  destruct (dbg && _); [discriminate|]. cbn [bind] in H. destruct (dbg && _); [discriminate|]. cbn [bind] in H.
  destruct (dbg && _); [discriminate|]. exact H.
Qed.

Lemma In_sig_of_pt (pts : list (F * F)) p : In p pts -> exists c, In c (sig_of pts) /\ s_time c = fst p /\ s_value c = snd p.
Proof.
  intros H. rewrite <- (points_sig_of pts) in H. unfold points in H. apply in_map_iff in H as (c & <- & Hc). exists c. auto.
Qed.

Lemma nth_combine (A B : Type) (x : list A) : forall (y : list B) k a b, nth_error x k = Some a -> nth_error y k = Some b -> In (a, b) (combine x y).
Proof.
  induction x as [|c x IH]; intros [|d y] [|k] a b Ha Hb; cbn in *; try discriminate.
  - injection Ha as <-. injection Hb as <-. auto.
  - right. eapply IH; eauto.
Qed.

Section Dir.
Variables (comp : sample F -> sample F -> bool) (ordb : F -> F -> bool).
Hypothesis HC : forall a b, isnum (s_value a) = true -> isnum (s_value b) = true -> comp a b = ordb (s_value a) (s_value b).
Hypothesis HR : forall v, isnum v = true -> ordb v v = true.
Hypothesis HT : forall v w, isnum v = true -> isnum w = true -> ordb v w = false -> ordb w v = true.

Lemma pair_at_samples dbg (x y z : signal F) : all_num (times x) -> all_num (times y) -> same_times x y ->
  all_num (values x) -> all_num (values y) ->
  minmax_pair dbg comp true x y = Ok z ->
  wf z /\ forall k a b, nth_error x k = Some a -> nth_error y k = Some b ->
    exists c, In c z /\ neqb (s_time c) (s_time a) = true /\ neqb (s_time c) (s_time b) = true /\
      (s_value c = s_value a \/ s_value c = s_value b) /\
      ordb (s_value c) (s_value a) = true /\ ordb (s_value c) (s_value b) = true.
Proof.
  intros Nx Ny T Vx Vy H. apply minmax_true_inv in H.
  destruct (pair_loop_inv comp x y None None ChNone [] z) as (pts & -> & W & P); auto.
  { split; constructor. }
  cbn [app] in *. split; [apply wf_canon; eauto|]. intros k a b Ha Hb.
  pose proof (P _ _ (nth_combine _ _ _ _ _ _ _ Ha Hb)) as Hin. destruct (In_sig_of_pt _ _ Hin) as (c & Hc & Ct & Cv).
  exists c. split; [exact Hc|]. rewrite Ct, Cv. cbn [pt fst snd].
  assert (Na : isnum (s_value a) = true). { unfold all_num in Vx. rewrite Forall_forall in Vx. apply Vx, in_map. eapply nth_error_In; eauto. }
  assert (Nb : isnum (s_value b) = true). { unfold all_num in Vy. rewrite Forall_forall in Vy. apply Vy, in_map. eapply nth_error_In; eauto. }
  assert (Tab : neqb (s_time a) (s_time b) = true).
  { clear -T Ha Hb. revert k Ha Hb. induction T; intros [|k] Ha Hb; cbn in *; try discriminate; [congruence|eauto]. }
  unfold pick. rewrite HC by assumption. destruct (ordb (s_value a) (s_value b)) eqn:E.
  - split; [num|]. split; [num|]. split; [auto|]. split; auto.
  - split; [num|]. split; [num|]. split; [auto|]. split; auto.
Qed.

Lemma pair_at_sync dbg (x y x' y' z : signal F) : wf x -> wf y -> synchronize x y = Ok (x', y') ->
  all_num (values x') -> all_num (values y') ->
  minmax_pair dbg comp false x y = Ok z ->
  wf z /\ forall k a b, nth_error x' k = Some a -> nth_error y' k = Some b ->
    exists c, In c z /\ neqb (s_time c) (s_time a) = true /\ neqb (s_time c) (s_time b) = true /\
      (s_value c = s_value a \/ s_value c = s_value b) /\
      ordb (s_value c) (s_value a) = true /\ ordb (s_value c) (s_value b) = true.
Proof.
  intros Wx Wy S Vx Vy H. unfold minmax_pair in H. rewrite S in H.
  destruct (sync_out _ _ _ _ Wx Wy S) as ((N1 & _) & (N2 & _) & _ & _ & T).
  eapply (pair_at_samples dbg x' y' z); eauto.
Qed.
End Dir.

Lemma same_length (x y : list (sample F)) : same_times x y -> length x = length y.
Proof. induction 1; cbn; auto. Qed.
Lemma same_begin (x y : list (sample F)) : x <> [] -> same_times x y -> neqb (begin_time x) (begin_time y) = true.
Proof. intros N T. destruct T; [congruence|exact H]. Qed.
Lemma same_end (x y : list (sample F)) : x <> [] -> same_times x y -> neqb (end_time x) (end_time y) = true.
Proof.
  intros N T. assert (K : exists a b, last_opt x = Some a /\ last_opt y = Some b /\ neqb (s_time a) (s_time b) = true).
  { induction T as [|a b x y E T IH]; [congruence|]. destruct T as [|a' b' x y E' T].
    - exists a, b. auto.
    - destruct IH as (c & d & H1 & H2 & H3); [discriminate|]. exists c, d. auto. }
  destruct K as (a & b & H1 & H2 & H3). unfold end_time. rewrite H1, H2. exact H3.
Qed.

Lemma minmax_true_same dbg comp (x y : signal F) : x <> [] -> same_times x y ->
  minmax_pair dbg comp true x y = pair_loop comp None None x y ChNone [].
Proof.
  intros N T. unfold minmax_pair. cbn [bind]. rewrite (same_length _ _ T), Nat.eqb_refl, (same_begin _ _ N T), (same_end _ _ N T).
  unfold assert_. cbn [negb]. rewrite andb_false_r. reflexivity.
Qed.

Lemma crossings_late comp worse : (forall a b, comp a b = negb (worse (s_value a) (s_value b))) ->
  forall xs ys (i j : sample F), length xs = length ys ->
  (crossings_ok comp i j xs ys <-> ~ late_crossing worse (i :: xs) (j :: ys)).
Proof.
  intros HC. induction xs as [|i' xs IH]; intros ys i j L.
  - destruct ys; [|discriminate]. cbn [crossings_ok]. split; [|auto].
    intros _ (x1 & a & a' & x2 & y1 & b & b' & y2 & E & _). destruct x1 as [|? [|]]; discriminate.
  - destruct ys as [|j' ys]; [discriminate|]. injection L as L. cbn [crossings_ok]. rewrite (IH ys i' j' L). rewrite !HC. split.
    + intros (A & B & C) (x1 & a & a' & x2 & y1 & b & b' & y2 & Ex & Ey & El & D).
      destruct x1 as [|c x1], y1 as [|d y1]; try discriminate; cbn [app] in Ex, Ey.
      * injection Ex as <- <- <-. injection Ey as <- <- <-. destruct D as [(D1 & D2 & D3)|(D1 & D2 & D3)]; rewrite D1, D2, D3 in *; cbn in *.
        -- discriminate (A eq_refl eq_refl).
        -- discriminate (B eq_refl eq_refl).
      * injection Ex as <- Ex. injection Ey as <- Ey. apply C. exists x1, a, a', x2, y1, b, b', y2. repeat split; auto.
    + intros K. split; [|split].
      * intros H1 H2. apply negb_true_iff in H1. apply negb_false_iff in H2.
        destruct (nltb _ _) eqn:E; [|reflexivity]. exfalso. apply K. exists [], i, i', xs, [], j, j', ys. repeat split; auto.
      * intros H1 H2. apply negb_false_iff in H1. apply negb_true_iff in H2.
        destruct (nltb _ _) eqn:E; [|reflexivity]. exfalso. apply K. exists [], i, i', xs, [], j, j', ys. repeat split; auto.
      * intros (x1 & a & a' & x2 & y1 & b & b' & y2 & Ex & Ey & El & D). apply K.
        exists (i :: x1), a, a', x2, (j :: y1), b, b', y2. rewrite Ex, Ey. repeat split; auto. cbn. auto.
Qed.

Lemma pair_throws dbg comp worse (x y : signal F) : (forall a b, comp a b = negb (worse (s_value a) (s_value b))) ->
  wf x -> wf y -> x <> [] -> Forall2 (fun a b => neqb (s_time a) (s_time b) = true) x y ->
  (~ late_crossing worse x y /\ exists z, minmax_pair dbg comp false x y = Ok z /\ minmax_pair dbg comp true x y = Ok z) \/
  (late_crossing worse x y /\ minmax_pair dbg comp false x y = Throw InvalidArgument /\ minmax_pair dbg comp true x y = Throw InvalidArgument).
Proof.
  intros HC Wx Wy N T. assert (Q : minmax_pair dbg comp false x y = minmax_pair dbg comp true x y).
  { unfold minmax_pair. rewrite (sync_fixed x y) by assumption. reflexivity. }
  rewrite Q, (minmax_true_same dbg comp x y N T). pose proof (same_length _ _ T) as L.
  destruct T as [|i j xs ys E T]; [congruence|]. rewrite (pair_loop_start comp i j xs ys E).
  destruct Wx as (Nx & Ix & _). destruct Wy as (Ny & Iy & _).
  assert (X := crossings_late comp worse HC xs ys i j). cbn in L. specialize (X ltac:(lia)).
  destruct (pair_loop_total comp xs ys i j [pt (pick comp i j)]) as [[K [z Z]]|[K Z]]; auto.
  - split; cbn.
    + constructor; [|constructor]. inversion Nx; inversion Ny; subst. unfold pick. destruct (comp i j); assumption.
    + repeat constructor.
  - discriminate.
  - left. split; [apply X, K|]. exists z. auto.
  - right. split; [|auto]. apply Classical_Prop.NNPP. intros M. apply K, X, M.
Qed.
End G.

Lemma C25_min_lemma dbg (x y x' y' z : signal B64) : wf x -> wf y -> synchronize x y = Ok (x', y') ->
  all_num (values x') -> all_num (values y') -> elementwise_min dbg false x y = Ok z ->
  wf z /\ forall k a b, nth_error x' k = Some a -> nth_error y' k = Some b ->
    exists c, In c z /\ neqb (s_time c) (s_time a) = true /\ neqb (s_time c) (s_time b) = true /\
      (s_value c = s_value a \/ s_value c = s_value b) /\
      nleb (s_value c) (s_value a) = true /\ nleb (s_value c) (s_value b) = true.
Proof. apply (pair_at_sync sample_le nleb le_comp nleb_refl nleb_total). Qed.
Lemma C25_max_lemma dbg (x y x' y' z : signal B64) : wf x -> wf y -> synchronize x y = Ok (x', y') ->
  all_num (values x') -> all_num (values y') -> elementwise_max dbg false x y = Ok z ->
  wf z /\ forall k a b, nth_error x' k = Some a -> nth_error y' k = Some b ->
    exists c, In c z /\ neqb (s_time c) (s_time a) = true /\ neqb (s_time c) (s_time b) = true /\
      (s_value c = s_value a \/ s_value c = s_value b) /\
      nleb (s_value a) (s_value c) = true /\ nleb (s_value b) (s_value c) = true.
Proof. apply (pair_at_sync sample_ge (fun v w => nleb w v) ge_comp nleb_refl nleb_total'). Qed.

Lemma C26_min_lemma dbg (x y : signal B64) : wf x -> wf y -> x <> [] ->
  Forall2 (fun a b => neqb (s_time a) (s_time b) = true) x y ->
  (~ late_crossing (fun v w => nltb w v) x y /\ exists z, elementwise_min dbg false x y = Ok z /\ elementwise_min dbg true x y = Ok z) \/
  (late_crossing (fun v w => nltb w v) x y /\ elementwise_min dbg false x y = Throw InvalidArgument /\ elementwise_min dbg true x y = Throw InvalidArgument).
Proof. apply pair_throws. reflexivity. Qed.
Lemma C26_max_lemma dbg (x y : signal B64) : wf x -> wf y -> x <> [] ->
  Forall2 (fun a b => neqb (s_time a) (s_time b) = true) x y ->
  (~ late_crossing nltb x y /\ exists z, elementwise_max dbg false x y = Ok z /\ elementwise_max dbg true x y = Ok z) \/
  (late_crossing nltb x y /\ elementwise_max dbg false x y = Throw InvalidArgument /\ elementwise_max dbg true x y = Throw InvalidArgument).
Proof. apply pair_throws. reflexivity. Qed.

(** ** Witnesses *)
Definition w26_x : list (B64 * B64) := [(dbl 2 0, dbl 8106479329266893 (-53)); (dbl 3 0, dbl (-7) (-2))].
Definition w26_y : list (B64 * B64) := [(dbl 2 0, dbl 5404319552844595 (-54)); (dbl 3 0, dbl (-7) (-2))].

Lemma C26_witness : exists x y : signal B64, wf x /\ wf y /\ x <> [] /\
  Forall2 (fun a b => s_time a = s_time b) x y /\
  Forall (fun a => finite (s_time a) = true /\ finite (s_value a) = true) (x ++ y) /\
  forall dbg sync, elementwise_min dbg sync x y = Throw InvalidArgument.
Proof.
  assert (W1 : wf (sig_of w26_x)) by (apply b64_wf; vm_compute; reflexivity).
  assert (W2 : wf (sig_of w26_y)) by (apply b64_wf; vm_compute; reflexivity).
  exists (sig_of w26_x), (sig_of w26_y). split; [exact W1|]. split; [exact W2|]. split; [discriminate|].
  split; [unfold w26_x, w26_y; cbn [sig_of]; constructor; [reflexivity|]; constructor; [reflexivity|constructor]|].
  split.
  { apply Forall_forall. intros a Ha.
    assert (E : forallb (fun a => finite (s_time a) && finite (s_value a)) (sig_of w26_x ++ sig_of w26_y) = true) by (vm_compute; reflexivity).
    rewrite forallb_forall in E. apply andb_prop, E, Ha. }
  intros [|] [|]; vm_compute; reflexivity.
Qed.

Definition w32_x : list (B64 * B64) := [(dbl 0 0, dbl 1 0); (dbl 1 0, dbl 1 0); (dbl 3 0, dbl 7 0)].

Lemma C32_wrong : exists (x : signal B64) (a b : B64), wf x /\ finite a = true /\ finite b = true /\ nltb nzero a = true /\ nltb a b = true /\
  exists s, In s x /\ exists c z, max_seq_win 100 x a b = Ok z /\ In c z /\
    nleb (nadd (s_time c) a) (s_time s) = true /\ nleb (s_time s) (nadd (s_time c) b) = true /\
    nltb (s_value c) (s_value s) = true.
Proof.
  assert (W1 : wf (sig_of w32_x)) by (apply b64_wf; vm_compute; reflexivity).
  exists (sig_of w32_x), (dbl 1 0), (dbl 2 0). split; [exact W1|].
  split; [vm_compute; reflexivity|]. split; [vm_compute; reflexivity|]. split; [vm_compute; reflexivity|]. split; [vm_compute; reflexivity|].
  assert (H : match max_seq_win 100 (sig_of w32_x) (dbl 1 0) (dbl 2 0), last_opt (sig_of w32_x) with
    | Ok z, Some s => existsb (fun c => nleb (nadd (s_time c) (dbl 1 0)) (s_time s) && nleb (s_time s) (nadd (s_time c) (dbl 2 0)) && nltb (s_value c) (s_value s)) z
    | _, _ => false end = true) by (vm_compute; reflexivity).
  destruct (last_opt (sig_of w32_x)) as [s|] eqn:L; [|destruct (max_seq_win _ _ _ _); discriminate].
  exists s. split; [apply last_opt_In, L|].
  destruct (max_seq_win 100 (sig_of w32_x) (dbl 1 0) (dbl 2 0)) as [z| | | |]; try discriminate.
  apply existsb_exists in H as (c & Hc & H). apply andb_prop in H as [H H3]. apply andb_prop in H as [H1 H2].
  exists c, z. auto.
Qed.

Lemma b64_zero_inv (a : B64) : neqb a nzero = true -> exists s, a = B754_zero s.
Proof. destruct a as [s|s| |s m e H]; try (vm_compute; discriminate); eauto. - destruct s; vm_compute; discriminate. - destruct s; vm_compute; discriminate. Qed.

Lemma b64_add_zero s (x : B64) : isnum x = true -> neqb (nadd x (B754_zero s)) x = true.
Proof.
  destruct x as [s'|s'| |s' m e H]; intros N; try discriminate.
  - destruct s, s'; reflexivity.
  - destruct s'; reflexivity.
  - exact N.
Qed.
Lemma b64_sub_zero s (x : B64) : isnum x = true -> neqb (nsub x (B754_zero s)) x = true.
Proof.
  destruct x as [s'|s'| |s' m e H]; intros N; try discriminate.
  - destruct s, s'; reflexivity.
  - destruct s'; reflexivity.
  - exact N.
Qed.

Lemma C32_zero_lemma (x : signal B64) (a b : B64) fuel : wf x -> neqb a nzero = true -> (length x < fuel)%nat ->
  max_seq_win fuel x a b = UB /\ min_seq_win fuel x a b = UB.
Proof.
  intros (N & I & _) Ha Hf. destruct (b64_zero_inv _ Ha) as (s & ->).
  split; apply win_zero_ub; auto using b64_add_zero, b64_sub_zero.
Qed.

Lemma C32_throw_lemma (x0 : signal B64) p q (a b : B64) fuel : wf (x0 ++ [p; q]) ->
  neqb a nzero = false -> finite (nsub b a) = true -> nltb (nadd (begin_time (x0 ++ [p; q])) (nsub b a)) (s_time p) = true ->
  max_seq_win fuel (x0 ++ [p; q]) a b = Throw InvalidArgument /\ min_seq_win fuel (x0 ++ [p; q]) a b = Throw InvalidArgument.
Proof.
  intros (N & I & _) Ha Hw L.
  assert (R : forall fill, resize (x0 ++ [p; q]) (nadd (begin_time (x0 ++ [p; q])) (nsub b a))
     (nadd (end_time (x0 ++ [p; q])) (nsub b a)) fill = Throw InvalidArgument).
  { intros fill. apply resize_throws; auto.
    - apply nltb_true in L. apply L.
    - apply add_mono; [exact Hw|].
      assert (E : end_time (x0 ++ [p; q]) = s_time q) by (unfold end_time; rewrite (last_opt_app x0 [p; q]); [reflexivity|discriminate]).
      rewrite E. clear -N I. destruct x0 as [|c x0].
      + cbn [app times map] in I. cbn [app begin_time]. apply increasing_cons2 in I as [I _]. num.
      + cbn [app begin_time]. cbn [app times map] in I. apply increasing_cons in I as [_ I]. rewrite Forall_forall in I.
        assert (In (s_time q) (map s_time (x0 ++ [p; q]))) by (apply in_map, in_or_app; right; right; left; reflexivity).
        specialize (I _ H). num. }
  assert (B : exists l, back (x0 ++ [p; q]) = Ok l).
  { unfold back. rewrite (last_opt_app x0 [p; q]) by discriminate. eexists. reflexivity. }
  destruct B as (l & B).
  split; unfold max_seq_win, min_seq_win, minmax_seq_win; rewrite Ha; rewrite B; cbn [bind]; unfold resize_shift; rewrite R; reflexivity.
Qed.

(** ** C29 *)
Open Scope R_scope.
Section Roll.
Variables (sg : R) (comp : sample XR -> sample XR -> bool).
Hypothesis SG : sg_comp sg comp.

Lemma vb_unique p r m : (exists c, In c (p :: r) /\ snd c = m) -> (forall c, In c (p :: r) -> sg * m <= sg * snd c) -> vb sg p r = m.
Proof.
  intros (c & Hc & <-) H. destruct (vb_In sg r p) as (d & Hd & E). specialize (H d Hd). rewrite <- E in H.
  pose proof (vb_le sg r p c Hc). assert (sg <> 0) by apply SG. apply (Rmult_eq_reg_l sg); [lra|assumption].
Qed.

Lemma roll_lemma l x : built l x -> l <> [] ->
  exists lz z, minmax_seq comp x = Ok z /\ built lz z /\ map fst lz = map fst l /\
    (forall t v, pwl lz t v -> forall t' v', t <= t' -> pwl l t' v' -> sg * v <= sg * v') /\
    (forall p v, In p l -> pwl lz (fst p) v -> exists t', fst p <= t' /\ pwl l t' v) /\
    (forall l1 p q r t v m, l = l1 ++ p :: q :: r -> fst p < t < fst q -> pwl lz t v ->
       (exists c, In c (q :: r) /\ snd c = m) -> (forall c, In c (q :: r) -> sg * m <= sg * snd c) ->
       ((exists t', t <= t' /\ pwl l t' v) <-> ~ (sg * snd p < sg * m /\ sg * m < sg * snd q))).
Proof.
  intros B Hne. apply built_iff in B as [I ->]. exists (rroll sg l), (fsig (rroll sg l)).
  split; [apply seq_fsig; auto|]. split; [apply built_iff; split; [apply rincr_rroll, I|reflexivity]|].
  split; [apply rroll_fst|]. split; [|split].
  - intros t v H t' v' L H'. eapply roll_bound; eauto.
  - intros p v Hp H. eapply (roll_attained_at sg); eauto.
  - intros l1 p q r t v m -> Ht H Hm Hm'. rewrite <- (vb_unique q r m Hm Hm'). split.
    + intros (t' & L & H') K. pose proof (roll_strict sg l1 p q r t v I Ht H K t' v L H'). lra.
    + intros K. eapply (roll_attained_mid sg); eauto.
Qed.
End Roll.

Lemma C29_min_lemma l x : built l x -> l <> [] ->
  exists lz z, min_seq x = Ok z /\ built lz z /\ map fst lz = map fst l /\
    (forall t v, pwl lz t v -> forall t' v', t <= t' -> pwl l t' v' -> v <= v') /\
    (forall p v, In p l -> pwl lz (fst p) v -> exists t', fst p <= t' /\ pwl l t' v) /\
    (forall l1 p q r t v m, l = l1 ++ p :: q :: r -> fst p < t < fst q -> pwl lz t v ->
       (exists c, In c (q :: r) /\ snd c = m) -> (forall c, In c (q :: r) -> m <= snd c) ->
       ((exists t', t <= t' /\ pwl l t' v) <-> ~ (snd p < m < snd q))).
Proof.
  intros B Hne. destruct (roll_lemma 1 sample_le sg_le l x B Hne) as (lz & z & A & C & D & E & G & H).
  exists lz, z. split; [exact A|]. split; [exact C|]. split; [exact D|]. split; [|split; [exact G|]].
  - intros t v P t' v' L P'. specialize (E t v P t' v' L P'). lra.
  - intros l1 p q r t v m El Ht P Hm Hm'. rewrite (H l1 p q r t v m El Ht P Hm).
    + split; intros K K'; apply K; lra.
    + intros c Hc. specialize (Hm' c Hc). lra.
Qed.
Lemma C29_max_lemma l x : built l x -> l <> [] ->
  exists lz z, max_seq x = Ok z /\ built lz z /\ map fst lz = map fst l /\
    (forall t v, pwl lz t v -> forall t' v', t <= t' -> pwl l t' v' -> v' <= v) /\
    (forall p v, In p l -> pwl lz (fst p) v -> exists t', fst p <= t' /\ pwl l t' v) /\
    (forall l1 p q r t v m, l = l1 ++ p :: q :: r -> fst p < t < fst q -> pwl lz t v ->
       (exists c, In c (q :: r) /\ snd c = m) -> (forall c, In c (q :: r) -> snd c <= m) ->
       ((exists t', t <= t' /\ pwl l t' v) <-> ~ (snd q < m < snd p))).
Proof.
  intros B Hne. destruct (roll_lemma (-1) sample_ge sg_ge l x B Hne) as (lz & z & A & C & D & E & G & H).
  exists lz, z. split; [exact A|]. split; [exact C|]. split; [exact D|]. split; [|split; [exact G|]].
  - intros t v P t' v' L P'. specialize (E t v P t' v' L P'). lra.
  - intros l1 p q r t v m El Ht P Hm Hm'. rewrite (H l1 p q r t v m El Ht P Hm).
    + split; intros K K'; apply K; lra.
    + intros c Hc. specialize (Hm' c Hc). lra.
Qed.

(** The rolling maximum of 5, 0, 3 at times 0, 1, 2 is 4 at time 1/2, but nothing later than
    1/2 exceeds 3. *)
Lemma C29_witness : exists l x lz z t v, built l x /\ max_seq x = Ok z /\ built lz z /\ pwl lz t v /\
  forall t' v', t <= t' -> pwl l t' v' -> v' < v.
Proof.
  set (l := [(0, 5); (1, 0); (2, 3)]). assert (I : rincr l) by (unfold l; rincr_tac).
  assert (B : built l (fsig l)) by (apply built_iff; auto).
  exists l, (fsig l), (rroll (-1) l), (fsig (rroll (-1) l)), (1/2), 4. split; [exact B|].
  split; [apply seq_fsig; auto using sg_ge; discriminate|]. split; [apply built_iff; split; [apply rincr_rroll, I|reflexivity]|].
  assert (V1 : vb (-1) (1, 0) [(2, 3)] = 3). { apply (vb_unique (-1) sample_ge sg_ge); cbn; [exists (2, 3); cbn; auto|]. intros c [<-|[<-|[]]]; cbn; lra. }
  assert (V0 : vb (-1) (0, 5) [(1, 0); (2, 3)] = 5). { apply (vb_unique (-1) sample_ge sg_ge); cbn; [exists (0, 5); cbn; auto|]. intros c [<-|[<-|[<-|[]]]]; cbn; lra. }
  assert (P : pwl (rroll (-1) l) (1/2) 4).
  { apply (roll_mid (-1) [] (0, 5) (1, 0) [(2, 3)]); [exact I|cbn; lra|]. rewrite V0, V1. unfold line. cbn. field. }
  split; [exact P|]. intros t' v' L H'.
  pose proof (roll_strict (-1) [] (0, 5) (1, 0) [(2, 3)] (1/2) 4 I) as K. cbn [fst snd app] in K. rewrite V1 in K.
  specialize (K ltac:(lra) P ltac:(lra) t' v' L H'). lra.
Qed.
