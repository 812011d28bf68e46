(** C85: what lies before a common sample time does not matter after it. *)
From Coq Require Import Sorted Reals Lra.
From Flocq Require Import Core.Raux IEEE754.BinarySingleNaN.
From Verif Require Import Base Num NumB64.
From Verif.Model Require Import Signal MonoWedge MinMax Ast Robustness.
From Verif.Spec Require Import SignalSpec Formula.
From Verif.Proofs Require Import NumFacts SignalFacts AccessFacts Reshape LowerBound B64Facts Sync SyncProps MinMaxFacts MinMaxCases SeqFacts RobFacts RobWf UntilFacts.
Local Open Scope nat_scope.

Section G.
Context {F : Type} `{NF : Num F} {NL : NumLaws F}.
Variable t0 : F.

(** [s'] is the part of [s] from its sample at [t0] on. *)
Definition cut (s s' : signal F) : Prop :=
  exists p a r, s = p ++ s' /\ s' = a :: r /\ neqb (s_time a) t0 = true.

Lemma cut_wf s s' : wf s -> cut s s' -> wf s'.
Proof.
  intros (N & I & S) (p & a & r & -> & _). rewrite times_app in N, I. split; [apply all_num_app in N; apply N|].
  split; [apply increasing_app in I; apply I|]. clear N I. induction p as [|b p IH]; [exact S|]. apply IH. apply S.
Qed.
Lemma cut_good s s' : good s -> cut s s' -> good s'.
Proof. intros [W _] C. split; [eapply cut_wf; eauto|]. destruct C as (p & a & r & _ & -> & _). discriminate. Qed.

Lemma cut_since s s' : fine s -> cut s s' -> s' = since t0 s.
Proof.
  intros Fi (p & a & r & -> & -> & E). unfold since. rewrite filter_app.
  assert (Hp : forall b, In b p -> nltb (s_time b) (s_time a) = true).
  { intros b Hb. eapply increasing_app_cons_lt; [apply Fi|exact Hb]. }
  apply fine_app_r in Fi. apply fine_cons in Fi as (_ & _ & Fr).
  assert (filter (fun a => nleb t0 (s_time a)) p = []) as ->.
  { clear Fr. induction p as [|b p IH]; [reflexivity|]. cbn [filter].
    assert (nleb t0 (s_time b) = false) as ->. { specialize (Hp b (or_introl eq_refl)). num. }
    apply IH. intros c Hc. apply Hp. right. exact Hc. }
  cbn [app filter]. assert (nleb t0 (s_time a) = true) as -> by num. f_equal.
  induction Fr as [|b r Hb _ IH]; [reflexivity|]. cbn [filter]. assert (nleb t0 (s_time b) = true) as -> by num. f_equal. exact IH.
Qed.
Lemma since_cut s : fine s -> sample_at t0 s -> cut s (since t0 s).
Proof.
  intros Fi H. apply Exists_exists in H as (a & Ha & E). apply in_split in Ha as (p & r & ->).
  assert (C : cut (p ++ a :: r) (a :: r)) by (exists p, a, r; auto). rewrite <- (cut_since _ _ Fi C). exact C.
Qed.

(** *** sig_of *)
Lemma sig_of_app (p q : list (F * F)) : exists p', sig_of (p ++ q) = p' ++ sig_of q /\ length p' = length p.
Proof.
  induction p as [|x p IH]; [exists []; auto|]. destruct IH as (p' & E & L). cbn [app sig_of]. rewrite E. eexists (_ :: p'). cbn. split; [reflexivity|]. lia.
Qed.
Lemma cut_sig_of p t v q : neqb t t0 = true -> cut (sig_of (p ++ (t, v) :: q)) (sig_of ((t, v) :: q)).
Proof.
  intros E. destruct (sig_of_app p ((t, v) :: q)) as (p' & -> & _). exists p'. eexists _, _. split; [reflexivity|]. cbn [sig_of]. split; [reflexivity|exact E].
Qed.

(** Pointwise operations. *)
Lemma cut_map (f : sample F -> F) s s' : wf s -> cut s s' ->
  cut (sig_of (map (fun a => (s_time a, f a)) s)) (sig_of (map (fun a => (s_time a, f a)) s')).
Proof.
  intros _ (p & a & r & -> & -> & E). rewrite map_app. cbn [map]. apply cut_sig_of, E.
Qed.
Lemma from_map (f : sample F -> F) s : wf s ->
  from_samples (map (fun a => mkSample (s_time a) (f a) nzero) s) = Ok (sig_of (map (fun a => (s_time a, f a)) s)).
Proof.
  intros W. set (l := map _ s). assert (Ht : times l = times s) by (unfold l, times; rewrite map_map; reflexivity).
  rewrite (from_samples_ok l) by (rewrite Ht; apply W). f_equal. f_equal. unfold points, l. rewrite map_map. reflexivity.
Qed.

(** *** synchronize *)
Lemma increasing_head_eq (q : list (sample F)) b ry j ys : j :: ys = q ++ b :: ry -> increasing (times (j :: ys)) ->
  neqb (s_time j) (s_time b) = true -> q = [] /\ j = b /\ ys = ry.
Proof.
  intros E I H. destruct q as [|c q]; [injection E as -> ->; auto|]. injection E as -> ->. exfalso.
  unfold times in I. cbn [map] in I. apply increasing_cons in I as [_ I]. rewrite Forall_map, Forall_forall in I.
  specialize (I b ltac:(apply in_or_app; right; left; reflexivity)). num.
Qed.
Lemma merged_cut p xs q ys l : merged p xs q ys l -> forall px a rx py b ry, xs = px ++ a :: rx -> ys = py ++ b :: ry ->
  neqb (s_time a) (s_time b) = true -> fine xs -> fine ys ->
  exists l1 l2, l = l1 ++ (a, b) :: l2 /\ merged a rx b ry l2.
Proof.
  intros M. induction M as [p q ys|p q xs|p i xs q j ys l E M IH|p i xs q j ys l E M IH|p i xs q j ys l E M IH]; intros px a rx py b ry Ex Ey Eab Fx Fy.
  - destruct px; discriminate.
  - destruct py; discriminate.
  - destruct px as [|i' px]; injection Ex as Ei Ex; subst.
    + destruct (increasing_head_eq _ _ _ _ _ Ey (proj2 Fy)) as (_ & -> & ->); [num|]. exists [], l. auto.
    + destruct py as [|j' py]; injection Ey as Ej Ey; subst.
      * exfalso. apply fine_cons in Fx as (_ & _ & Fx). rewrite Forall_forall in Fx. specialize (Fx a ltac:(apply in_or_app; right; left; reflexivity)). num.
      * apply fine_cons in Fx as (_ & Fx & _). apply fine_cons in Fy as (_ & Fy & _).
        destruct (IH px a rx py b ry eq_refl eq_refl Eab Fx Fy) as (l1 & l2 & -> & H). exists ((i', j') :: l1), l2. auto.
  - destruct px as [|i' px]; injection Ex as Ei Ex; subst.
    + exfalso. destruct py as [|j' py]; injection Ey as Ej Ey; subst; [num|]. apply fine_cons in Fy as (_ & _ & Fy). rewrite Forall_forall in Fy.
      specialize (Fy b ltac:(apply in_or_app; right; left; reflexivity)). num.
    + apply fine_cons in Fx as (_ & Fx & _). destruct (IH px a rx py b ry eq_refl Ey Eab Fx Fy) as (l1 & l2 & -> & H).
      eexists (_ :: l1), l2. cbn [app]. auto.
  - destruct py as [|j' py]; injection Ey as Ej Ey; subst.
    + exfalso. destruct px as [|i' px]; injection Ex as Ei Ex; subst; [num|]. apply fine_cons in Fx as (_ & _ & Fx). rewrite Forall_forall in Fx.
      specialize (Fx a ltac:(apply in_or_app; right; left; reflexivity)). num.
    + apply fine_cons in Fy as (_ & Fy & _). destruct (IH px a rx py b ry Ex eq_refl Eab Fx Fy) as (l1 & l2 & -> & H).
      eexists (_ :: l1), l2. cbn [app]. auto.
Qed.

Lemma suffix_of {A} (x1 : list A) : forall i xs p a r, x1 ++ i :: xs = p ++ a :: r -> length x1 <= length p ->
  exists p', i :: xs = p' ++ a :: r.
Proof.
  induction x1 as [|c x1 IH]; intros i xs p a r E L; [exists p; exact E|]. destruct p as [|d p]; [cbn in L; lia|].
  injection E as -> E. apply (IH i xs p a r E). cbn in L. lia.
Qed.
Lemma before_index (x1 : list (sample F)) i xs p a r : x1 ++ i :: xs = p ++ a :: r -> fine (x1 ++ i :: xs) ->
  nleb (s_time i) (s_time a) = true -> length x1 <= length p.
Proof.
  revert x1. induction p as [|d p IH]; intros [|c x1] E Fi L; cbn [length]; try lia.
  - exfalso. injection E as -> <-. cbn [app] in Fi. apply fine_cons in Fi as (_ & _ & Fi). rewrite Forall_forall in Fi.
    specialize (Fi i ltac:(apply in_or_app; right; left; reflexivity)). num.
  - injection E as -> E. apply fine_cons in Fi as (_ & Fi & _). specialize (IH x1 E Fi L). lia.
Qed.
Lemma head_le (i : sample F) xs p a r : i :: xs = p ++ a :: r -> fine (i :: xs) -> nleb (s_time i) (s_time a) = true.
Proof.
  intros E Fi. apply fine_cons in Fi as (N & _ & Fi). destruct p as [|c p]; injection E as -> ->; [num|].
  rewrite Forall_forall in Fi. specialize (Fi a ltac:(apply in_or_app; right; left; reflexivity)). num.
Qed.

Lemma cut_sync x y x0 y0 u v : wf x -> wf y -> cut x x0 -> cut y y0 -> synchronize x y = Ok (u, v) ->
  exists u0 v0, synchronize x0 y0 = Ok (u0, v0) /\ cut u u0 /\ cut v v0.
Proof.
  intros Wx Wy (px & a & rx & Ex & -> & Ea) (py & b & ry & Ey & -> & Eb) H. apply wf_fine in Wx, Wy.
  destruct (sync_inv _ _ _ _ Wx Wy H) as (x1 & i & xs & y1 & j & ys & l & Hx & Hy & E & Hb & M & -> & ->). rewrite Hx in Ex, Wx. rewrite Hy in Ey, Wy.
  assert (Eab : neqb (s_time a) (s_time b) = true) by num.
  assert (Le : nleb (s_time i) (s_time a) = true /\ nleb (s_time j) (s_time b) = true).
  { destruct Hb as [-> | ->].
    - pose proof (head_le _ _ _ _ _ Ex Wx). split; num.
    - pose proof (head_le _ _ _ _ _ Ey Wy). split; num. }
  destruct (suffix_of _ _ _ _ _ _ Ex (before_index _ _ _ _ _ _ Ex Wx (proj1 Le))) as (px' & Px).
  destruct (suffix_of _ _ _ _ _ _ Ey (before_index _ _ _ _ _ _ Ey Wy (proj2 Le))) as (py' & Py).
  apply fine_app_r in Wx, Wy. clear Ex Ey.
  assert (K : exists l1 l2, (i, j) :: l = l1 ++ (a, b) :: l2 /\ merged a rx b ry l2).
  { eapply (merged_cut i (i :: xs) j (j :: ys)); [constructor; [exact E|exact M]|exact Px|exact Py|exact Eab|exact Wx|exact Wy]. }
  destruct K as (l1 & l2 & K & M2). rewrite Px in Wx. rewrite Py in Wy. apply fine_app_r in Wx, Wy.
  destruct (sync_ok [] a rx [] b ry Wx Wy Eab (or_introl eq_refl)) as (l' & M' & S). cbn [app] in S.
  rewrite (merged_det _ _ _ _ _ M' _ M2) in S. eexists _, _. split; [exact S|].
  change (i :: map fst l) with (map fst ((i, j) :: l)). change (j :: map snd l) with (map snd ((i, j) :: l)). rewrite K, !map_app. cbn [map fst snd].
  unfold points. rewrite !map_app. cbn [map]. split; apply cut_sig_of; assumption.
Qed.

(** *** elementwise minimum and maximum *)
Lemma removelast_app_ne {A} (p s : list A) : s <> [] -> removelast (p ++ s) = p ++ removelast s.
Proof. apply removelast_app. Qed.
Lemma last_opt_app_ne {A} (p s : list A) : s <> [] -> last_opt (p ++ s) = last_opt s.
Proof. intros H. destruct s as [|a s _] using rev_ind; [congruence|]. rewrite app_assoc, !last_opt_snoc. reflexivity. Qed.
Lemma push_app (p s : signal F) x : s <> [] -> push_back (p ++ s) x = omap (app p) (push_back s x).
Proof.
  intros H. unfold push_back, push_back_st. rewrite last_opt_app_ne by exact H. destruct (last_opt s) eqn:E; [|apply last_opt_none in E; congruence].
  destruct (nleb _ _); [reflexivity|]. cbn [omap bind]. rewrite removelast_app_ne, <- app_assoc by exact H. reflexivity.
Qed.
Lemma push_ne (s : signal F) x z : push_back s x = Ok z -> z <> [].
Proof.
  unfold push_back, push_back_st. intros H. destruct (last_opt s); [destruct (nleb _ _); [discriminate|]|]; injection H as <-; [|discriminate].
  intros E. apply (f_equal (@length _)) in E. rewrite app_length in E. cbn in E. lia.
Qed.
Lemma push_shape (s : signal F) x z : push_back s x = Ok z -> exists p, z = p ++ [mkSample (s_time x) (s_value x) nzero].
Proof.
  unfold push_back, push_back_st. intros H. destruct (last_opt s); [destruct (nleb _ _); [discriminate|]|]; injection H as <-.
  - eexists (removelast s ++ [_]). rewrite <- app_assoc. reflexivity.
  - exists []. reflexivity.
Qed.
Lemma end_app (p s : signal F) : s <> [] -> end_time (p ++ s) = end_time s.
Proof. intros H. unfold end_time. rewrite last_opt_app_ne by exact H. reflexivity. Qed.

Lemma step_app (p out : signal F) sw pw pl w : out <> [] -> pair_step (p ++ out) sw pw pl w = omap (app p) (pair_step out sw pw pl w).
Proof.
  intros H. unfold pair_step. destruct sw; cbn [bind]; [|apply push_app, H]. destruct pl as [pl|]; [|reflexivity]. destruct pw as [pw|]; [|reflexivity].
  rewrite end_app by exact H. destruct (_ && _); cbn [bind]; [|apply push_app, H]. rewrite push_app by exact H.
  destruct (push_back out _) as [o| | | |] eqn:E; try reflexivity. cbn [omap bind]. apply push_app. eapply push_ne; exact E.
Qed.
Lemma step_shape (out : signal F) sw pw pl w z : pair_step out sw pw pl w = Ok z -> exists p, z = p ++ [mkSample (s_time w) (s_value w) nzero].
Proof. unfold pair_step. intros H. apply bind_ok_inv in H as (o & _ & H). eapply push_shape; exact H. Qed.
Lemma loop_app comp : forall xs ys pi pj last p out, out <> [] ->
  pair_loop comp pi pj xs ys last (p ++ out) = omap (app p) (pair_loop (F := F) comp pi pj xs ys last out).
Proof.
  induction xs as [|i xs IH]; intros [|j ys] pi pj last p out H; try reflexivity. cbn [pair_loop].
  destruct (comp i j); rewrite step_app by exact H.
  - destruct (pair_step out _ pi pj i) as [o| | | |] eqn:E; try reflexivity. cbn [omap bind]. apply IH. apply step_shape in E as (q & ->). destruct q; discriminate.
  - destruct (pair_step out _ pj pi j) as [o| | | |] eqn:E; try reflexivity. cbn [omap bind]. apply IH. apply step_shape in E as (q & ->). destruct q; discriminate.
Qed.
Lemma loop_cut comp a rx b ry : forall px py pi pj last out z, length px = length py ->
  pair_loop comp pi pj (px ++ a :: rx) (py ++ b :: ry) last out = Ok z ->
  exists p z', z = p ++ z' /\ pair_loop (F := F) comp None None (a :: rx) (b :: ry) ChNone [] = Ok z'.
Proof.
  induction px as [|i px IH]; intros [|j py] pi pj last out z L H; try discriminate; cbn [app] in H.
  - cbn [pair_loop] in *. destruct (comp a b); apply bind_ok_inv in H as (o & H1 & H2); apply step_shape in H1 as (q & ->);
      rewrite loop_app in H2 by discriminate; unfold pair_step; cbn [chosen_eqb bind]; rewrite push_back_nil; cbn [bind sig_of fst snd];
      (destruct (pair_loop comp _ _ rx ry _ _) as [z'| | | |]; try discriminate H2); injection H2 as <-; eauto.
  - cbn [pair_loop] in H. injection L as L. destruct (comp i j); apply bind_ok_inv in H as (o & H1 & H2); eapply IH; eauto.
Qed.

Lemma same_length_prefix (px : list (sample F)) : forall py a rx b ry,
  Forall2 (fun a b => neqb (s_time a) (s_time b) = true) (px ++ a :: rx) (py ++ b :: ry) -> neqb (s_time a) (s_time b) = true ->
  increasing (times (px ++ a :: rx)) -> increasing (times (py ++ b :: ry)) -> length px = length py.
Proof.
  induction px as [|i px IH]; intros [|j py] a rx b ry T E I J; [reflexivity| | |]; cbn [app] in *; unfold times in I, J; cbn [map] in I, J.
  - exfalso. inversion T; subst. apply increasing_cons in J as [_ J]. rewrite Forall_map, Forall_forall in J.
    specialize (J b ltac:(apply in_or_app; right; left; reflexivity)). num.
  - exfalso. inversion T; subst. apply increasing_cons in I as [_ I]. rewrite Forall_map, Forall_forall in I.
    specialize (I a ltac:(apply in_or_app; right; left; reflexivity)). num.
  - inversion T; subst. cbn. f_equal. apply increasing_cons in I as [I _]. apply increasing_cons in J as [J _]. eapply IH; eassumption.
Qed.

(** The asserts hold for synchronized signals. *)
Lemma asserts_sync {A} dbg (x' y' : signal F) (k : outcome A) : x' <> [] -> Forall2 (fun a b => neqb (s_time a) (s_time b) = true) x' y' ->
  (_ <- assert_ dbg (Nat.eqb (length x') (length y')) ;;
   _ <- assert_ dbg (neqb (begin_time x') (begin_time y')) ;;
   _ <- assert_ dbg (neqb (end_time x') (end_time y')) ;; k) = k.
Proof.
  intros N1 T. rewrite (same_length _ _ T), Nat.eqb_refl.
  assert (B1 : neqb (begin_time x') (begin_time y') = true) by (inversion T; subst; [congruence|assumption]).
  assert (B2 : neqb (end_time x') (end_time y') = true).
  { unfold end_time. clear -T N1. induction T as [|a b x y E T IH]; [congruence|]. destruct T as [|a' b' x y E' T]; [exact E|]. apply IH. discriminate. }
  rewrite B1, B2. unfold assert_. cbn [negb]. rewrite andb_false_r. reflexivity.
Qed.

Lemma loop_head comp (a b : sample F) rx ry z : all_num (times (a :: rx)) -> all_num (times (b :: ry)) -> neqb (s_time a) (s_time b) = true ->
  pair_loop comp None None (a :: rx) (b :: ry) ChNone [] = Ok z -> exists c r, z = c :: r /\ neqb (s_time c) (s_time a) = true.
Proof.
  intros Na Nb E H. rewrite pair_loop_start in H by exact E. inversion Na as [|? ? A1 A2]; subst. inversion Nb as [|? ? B1 B2]; subst.
  destruct (fun W A B => pair_loop_inv comp rx ry (Some a) (Some b) _ [pt (pick comp a b)] z W A B H) as (pts & -> & _ & _); [|assumption|assumption|].
  - split; cbn; [|repeat constructor]. repeat constructor. unfold pick. destruct (comp a b); assumption.
  - cbn [app sig_of]. eexists _, _. split; [reflexivity|]. cbn [s_time fst pt]. unfold pick. destruct (comp a b); [assumption|num].
Qed.

Lemma cut_pair dbg comp x y x0 y0 z : good x -> good y -> cut x x0 -> cut y y0 -> minmax_pair dbg comp false x y = Ok z ->
  exists z0, minmax_pair dbg comp false x0 y0 = Ok z0 /\ cut z z0.
Proof.
  intros [Wx _] [Wy _] Cx Cy H. pose proof (cut_wf _ _ Wx Cx) as Wx0. pose proof (cut_wf _ _ Wy Cy) as Wy0.
  apply minmax_pair_inv in H as (u & v & S & H). destruct (cut_sync _ _ _ _ _ _ Wx Wy Cx Cy S) as (u0 & v0 & S0 & Cu & Cv).
  destruct (sync_out _ _ _ _ Wx Wy S) as (W1 & W2 & _ & _ & T). destruct (sync_out _ _ _ _ Wx0 Wy0 S0) as (W10 & W20 & N1 & N2 & T0).
  unfold minmax_pair. rewrite S0. cbn [bind]. rewrite asserts_sync by assumption.
  destruct Cu as (pu & a & ru & -> & -> & Ea). destruct Cv as (pv & b & rv & -> & -> & Eb).
  assert (Eab : neqb (s_time a) (s_time b) = true) by num.
  destruct (loop_cut comp a ru b rv pu pv None None ChNone [] z) as (p & z0 & -> & Hz); [|exact H|].
  - eapply same_length_prefix; [exact T|exact Eab|apply W1|apply W2].
  - exists z0. split; [exact Hz|]. destruct (loop_head comp a b ru rv z0) as (c & r & -> & Ec); [apply W10|apply W20|exact Eab|exact Hz|].
    exists p, c, r. repeat split. num.
Qed.
Lemma cut_fold dbg comp xs xs0 : Forall2 cut xs xs0 -> Forall good xs -> forall acc acc0 z, good acc -> cut acc acc0 ->
  minmax_fold dbg comp false acc xs = Ok z -> exists z0, minmax_fold dbg comp false acc0 xs0 = Ok z0 /\ cut z z0.
Proof.
  induction 1 as [|x x0 xs xs0 Cx _ IH]; intros G acc acc0 z Ga Ca H; cbn [minmax_fold] in *; [injection H as <-; eauto|].
  inversion G as [|? ? G1 G2]; subst. apply bind_ok_inv in H as (acc' & H1 & H2). destruct (cut_pair dbg comp acc x acc0 x0 acc') as (acc0' & E & C); auto.
  rewrite E. cbn [bind]. eapply IH; [assumption| |exact C|exact H2]. eapply (good_pair dbg comp acc x); eauto.
Qed.
Lemma cut_list dbg comp xs xs0 z : xs <> [] -> Forall2 cut xs xs0 -> Forall good xs -> minmax_list dbg comp false xs = Ok z ->
  exists z0, minmax_list dbg comp false xs0 = Ok z0 /\ cut z z0.
Proof.
  intros N C G H. destruct C as [|x x0 xs xs0 Cx C]; [congruence|]. inversion G as [|? ? G1 G2]; subst.
  destruct C as [|y y0 xs xs0 Cy C]; [injection H as <-; eexists; split; [reflexivity|exact Cx]|]. inversion G2 as [|? ? G3 G4]; subst.
  destruct C as [|w w0 xs xs0 Cw C]; cbn [minmax_list] in *; [eapply cut_pair; [| |exact Cx|exact Cy|exact H]; assumption|].
  eapply (cut_fold dbg comp (y :: w :: xs) (y0 :: w0 :: xs0)); [repeat constructor; assumption|assumption|exact G1|exact Cx|exact H].
Qed.

(** *** rolling minimum and maximum *)
Lemma rollp_split comp (x1 x2 : list (sample F)) : exists z, rollp comp (x1 ++ x2) = z ++ rollp comp x2.
Proof. induction x1 as [|b x1 (z & E)]; [exists []; reflexivity|]. cbn [app rollp]. rewrite E. eexists (_ :: z). reflexivity. Qed.
Lemma cut_seq comp x x0 z : good x -> cut x x0 -> minmax_seq comp x = Ok z -> exists z0, minmax_seq comp x0 = Ok z0 /\ cut z z0.
Proof.
  intros [W Hne] C H. pose proof (cut_wf _ _ W C) as W0. rewrite minmax_seq_roll in H by assumption. injection H as <-.
  destruct C as (p & a & r & -> & -> & E). rewrite minmax_seq_roll by (assumption || discriminate). eexists. split; [reflexivity|].
  destruct (rollp_split comp p (a :: r)) as (q & ->). cbn [rollp]. apply cut_sig_of, E.
Qed.

(** *** until *)
Lemma uval_split : forall (px py : list (sample F)) rx ry, length px = length py ->
  exists p, snd (uval (px ++ rx) (py ++ ry)) = p ++ snd (uval rx ry).
Proof.
  induction px as [|i px IH]; intros [|j py] rx ry L; try discriminate; [exists []; reflexivity|]. cbn [app uval].
  destruct (IH py rx ry ltac:(cbn in L; lia)) as (p & E). destruct (uval (px ++ rx) (py ++ ry)) as [[q m] out]. cbn [snd] in *. rewrite E. eexists (_ :: p). reflexivity.
Qed.
Lemma until_uval dbg x y x' y' : wf x -> wf y -> synchronize x y = Ok (x', y') -> compute_until dbg x y = Ok (sig_of (points (snd (uval x' y')))).
Proof.
  intros Wx Wy S. destruct (sync_out _ _ _ _ Wx Wy S) as (W1 & W2 & N1 & N2 & T). pose proof (same_length _ _ T) as L.
  unfold compute_until. rewrite S. cbn [bind]. rewrite asserts_sync by assumption. destruct (until_loop_uval x' y' L) as [_ ->].
  apply from_samples_ok; rewrite (uval_times x' y' L); apply W1.
Qed.
Lemma cut_until dbg x y x0 y0 z : good x -> good y -> cut x x0 -> cut y y0 -> compute_until dbg x y = Ok z ->
  exists z0, compute_until dbg x0 y0 = Ok z0 /\ cut z z0.
Proof.
  intros [Wx _] [Wy _] Cx Cy H. pose proof (cut_wf _ _ Wx Cx) as Wx0. pose proof (cut_wf _ _ Wy Cy) as Wy0.
  pose proof H as H'. apply until_inv in H' as (u & v & S & _). rewrite (until_uval dbg _ _ _ _ Wx Wy S) in H. injection H as <-.
  destruct (cut_sync _ _ _ _ _ _ Wx Wy Cx Cy S) as (u0 & v0 & S0 & Cu & Cv). rewrite (until_uval dbg _ _ _ _ Wx0 Wy0 S0).
  eexists. split; [reflexivity|]. destruct (sync_out _ _ _ _ Wx Wy S) as (W1 & W2 & _ & _ & T).
  destruct Cu as (pu & a & ru & -> & -> & Ea). destruct Cv as (pv & b & rv & -> & -> & Eb).
  assert (Eab : neqb (s_time a) (s_time b) = true) by num.
  destruct (uval_split pu pv (a :: ru) (b :: rv)) as (p & ->); [eapply same_length_prefix; [exact T|exact Eab|apply W1|apply W2]|].
  unfold points. rewrite map_app. cbn [uval]. destruct (uval ru rv) as [[q m] out]. cbn [snd map s_time s_value]. apply cut_sig_of, Ea.
Qed.

(** *** formulas *)
Hypothesis TMP : forall fuel comp i y z y0, good y -> cut y y0 -> rob_temporal fuel comp i y = Ok z ->
  minmax_seq comp y = Ok z /\ rob_temporal fuel comp i y0 = minmax_seq comp y0.

Lemma until_any dbg i (x y x0 y0 : signal F) z : rob_until dbg i x y = Ok z -> rob_until dbg i x0 y0 = compute_until dbg x0 y0.
Proof. unfold rob_until. destruct (negb _); [reflexivity|]. destruct (as_double i). destruct (_ && _); [reflexivity|discriminate]. Qed.

Lemma since_find (tr : trace F) n : trace_find (map_trace (since t0) tr) n = option_map (since t0) (trace_find tr n).
Proof. induction tr as [|[k s] tr IH]; [reflexivity|]. cbn. destruct (String.eqb_spec k n) as [->|]; [reflexivity|exact IH]. Qed.

Lemma good_map (f : sample F -> F) s : wf s -> s <> [] -> good (sig_of (map (fun a => (s_time a, f a)) s)).
Proof.
  intros W Hne. split; [|destruct s; [congruence|discriminate]]. apply wf_canon. eexists. split; [|reflexivity]. destruct W as (N & I & _). unfold wfp. rewrite map_map. split; assumption.
Qed.
Lemma not_map s : wf s -> from_samples (map (fun a => mkSample (s_time a) (nopp (s_value a)) (nopp (s_deriv a))) s) = Ok (sig_of (map (fun a => (s_time a, nopp (s_value a))) s)).
Proof.
  intros W. set (l := map _ s). assert (Ht : times l = times s) by (unfold l, times; rewrite map_map; reflexivity).
  rewrite (from_samples_ok l) by (rewrite Ht; apply W). f_equal. f_equal. unfold points, l. rewrite map_map. reflexivity.
Qed.
Lemma cut_args dbg fuel (tr : trace F) b e b' e' l :
  Forall (fun phi => free_of is_const phi = true -> free_of (short 1) phi = true ->
    (forall n x, In n (names phi) -> trace_find tr n = Some x -> wf x /\ sample_at t0 x) ->
    forall z, compute dbg fuel (mkRob b e tr) phi = Ok z ->
    good z /\ exists z0, compute dbg fuel (mkRob b' e' (map_trace (since t0) tr)) phi = Ok z0 /\ cut z z0) l ->
  forallb (free_of is_const) l = true -> forallb (free_of (short 1)) l = true ->
  (forall n x, In n (flat_map names l) -> trace_find tr n = Some x -> wf x /\ sample_at t0 x) ->
  forall ys, compute_list (compute dbg fuel (mkRob b e tr)) l = Ok ys ->
  Forall good ys /\ exists ys0, compute_list (compute dbg fuel (mkRob b' e' (map_trace (since t0) tr))) l = Ok ys0 /\ Forall2 cut ys ys0.
Proof.
  induction 1 as [|phi l H _ IH]; intros FC FS Hn ys E.
  { injection E as <-. split; [constructor|]. exists []. split; [reflexivity|constructor]. }
  apply andb_prop in FC as [FC1 FC2]. apply andb_prop in FS as [FS1 FS2].
  change (compute_list ?f (phi :: l)) with (y <- f phi ;; ys <- compute_list f l ;; Ok (y :: ys)) in *.
  apply bind_ok_inv in E as (y & E1 & E2). apply bind_ok_inv in E2 as (ys' & E2 & E3). injection E3 as <-.
  destruct (H FC1 FS1 (fun n x Hi => Hn n x (in_or_app _ _ _ (or_introl Hi))) y E1) as (G & y0 & -> & C).
  destruct (IH FC2 FS2 (fun n x Hi => Hn n x (in_or_app _ _ _ (or_intror Hi))) ys' E2) as (Gs & ys0 & -> & Cs). cbn [bind].
  split; [constructor; assumption|]. eexists. split; [reflexivity|]. constructor; assumption.
Qed.
Lemma cut_compute dbg fuel (tr : trace F) b e b' e' phi :
  free_of is_const phi = true -> free_of (short 1) phi = true ->
  (forall n x, In n (names phi) -> trace_find tr n = Some x -> wf x /\ sample_at t0 x) ->
  forall z, compute dbg fuel (mkRob b e tr) phi = Ok z ->
  good z /\ exists z0, compute dbg fuel (mkRob b' e' (map_trace (since t0) tr)) phi = Ok z0 /\ cut z z0.
Proof.
  induction phi as [c|n op c|phi IHphi|l H|l H|phi i IHphi|phi i IHphi|phi1 phi2 i IHphi1 IHphi2] using expr_rec; cbn [free_of is_const short negb andb names]; intros FC FS Hn z E; try discriminate; cbn [compute] in *.
  - unfold rob_pred in *. cbn [r_trace] in *. rewrite since_find. destruct (trace_find tr n) as [x|] eqn:Ex; [|discriminate]. cbn [option_map].
    destruct (Hn n x (or_introl eq_refl) Ex) as [W S]. pose proof (since_cut x (wf_fine _ W) S) as C.
    rewrite pred_loop_push in *. change (push_all []) with (@from_samples F NF) in *.
    rewrite (from_map (fun s => pred_value op c (s_value s))) in E by exact W. rewrite (from_map (fun s => pred_value op c (s_value s))) by (eapply cut_wf; eassumption).
    injection E as <-. split; [|eexists; split; [reflexivity|]; apply cut_map; assumption]. apply good_map; [exact W|].
    intros ->. inversion S.
  - apply bind_ok_inv in E as (x & E1 & E2). destruct (IHphi FC FS Hn x E1) as (G & x0 & -> & C). cbn [bind]. unfold rob_not in *. unfold sample_neg in *.
    rewrite not_map in E2 by apply G. rewrite not_map by (eapply cut_wf; [apply G|exact C]). injection E2 as <-.
    split; [apply good_map; apply G|]. eexists. split; [reflexivity|]. apply cut_map; [apply G|exact C].
  - apply andb_prop in FS as [FL FS]. apply bind_ok_inv in E as (ys & E1 & E2). destruct (cut_args dbg fuel tr b e b' e' l H FC FS Hn ys E1) as (G & ys0 & -> & C).
    cbn [bind]. split; [eapply good_list; [exact G|exact E2]|]. eapply cut_list; [|exact C|exact G|exact E2]. intros ->. apply compute_list_inv in E1. inversion E1; subst. discriminate.
  - apply andb_prop in FS as [FL FS]. apply bind_ok_inv in E as (ys & E1 & E2). destruct (cut_args dbg fuel tr b e b' e' l H FC FS Hn ys E1) as (G & ys0 & -> & C).
    cbn [bind]. split; [eapply good_list; [exact G|exact E2]|]. eapply cut_list; [|exact C|exact G|exact E2]. intros ->. apply compute_list_inv in E1. inversion E1; subst. discriminate.
  - apply bind_ok_inv in E as (x & E1 & E2). destruct (IHphi FC FS Hn x E1) as (G & x0 & -> & C). cbn [bind].
    destruct (TMP _ _ _ _ _ _ G C E2) as [E3 ->]. split; [eapply good_seq; [exact G|exact E3]|]. eapply cut_seq; [exact G|exact C|exact E3].
  - apply bind_ok_inv in E as (x & E1 & E2). destruct (IHphi FC FS Hn x E1) as (G & x0 & -> & C). cbn [bind].
    destruct (TMP _ _ _ _ _ _ G C E2) as [E3 ->]. split; [eapply good_seq; [exact G|exact E3]|]. eapply cut_seq; [exact G|exact C|exact E3].
  - apply andb_prop in FC as [FC1 FC2]. apply andb_prop in FS as [FS1 FS2]. apply bind_ok_inv in E as (x & E1 & E2). apply bind_ok_inv in E2 as (y & E2 & E3).
    destruct (IHphi1 FC1 FS1 (fun n x Hi => Hn n x (in_or_app _ _ _ (or_introl Hi))) x E1) as (G1 & x0 & -> & C1).
    destruct (IHphi2 FC2 FS2 (fun n x Hi => Hn n x (in_or_app _ _ _ (or_intror Hi))) y E2) as (G2 & y0 & -> & C2). cbn [bind].
    rewrite (until_any _ _ _ _ _ _ _ E3). apply rob_until_inv in E3. split; [eapply good_until; [exact G1|exact G2|exact E3]|].
    eapply cut_until; [exact G1|exact G2|exact C1|exact C2|exact E3].
Qed.

Lemma cut_lemma dbg fuel phi (tr : trace F) s z : keys_unique tr -> free_of is_const phi = true -> free_of (short 1) phi = true ->
  (forall n x, In n (names phi) -> has_signal tr n x -> wf x /\ sample_at t0 x) ->
  compute_robustness dbg fuel phi tr s = Ok z ->
  compute_robustness dbg fuel phi (map_trace (since t0) tr) s = Ok (since t0 z) /\ sample_at t0 z.
Proof.
  intros U FC FS Hn E. unfold compute_robustness in *.
  destruct (cut_compute dbg fuel tr (trace_begin tr) (trace_end tr) (trace_begin (map_trace (since t0) tr)) (trace_end (map_trace (since t0) tr)) phi FC FS) with (2 := E) as ([W _] & z0 & -> & C).
  - intros n x Hi Hx. apply (Hn n x Hi). apply trace_find_iff; assumption.
  - rewrite (cut_since _ _ (wf_fine _ W) C). split; [reflexivity|]. destruct C as (p & a & r & -> & -> & Ea). apply Exists_exists. exists a. split; [|exact Ea].
    apply in_or_app. right. left. reflexivity.
Qed.
End G.

Lemma dur_ok (t b e : B64) : finite t = true -> isnum b = true -> isnum e = true -> nleb b t = true -> nleb t e = true ->
  nleb (nsub e b) ninf = true.
Proof.
  intros Ft Nb Ne Lb Le. assert (N : isnum (nsub e b) = true); [|apply nleb_true; split; [exact N|split; [apply isnum_inf|apply rk_inf, N]]].
  destruct (finite b) eqn:Fb, (finite e) eqn:Fe; [apply (sub_rk e b Fe Fb)|..]; destruct t as [ ?| ?| |? ? ? ?]; try discriminate Ft;
    destruct b as [ ?|[]| |[] ? ? ?]; try discriminate Fb; try discriminate Nb; try discriminate Lb;
    destruct e as [ ?|[]| |[] ? ? ?]; try discriminate Fe; try discriminate Ne; try discriminate Le; reflexivity.
Qed.
Lemma cut_ends (t : B64) y : good y -> sample_at t y -> nleb (begin_time y) t = true /\ nleb t (end_time y) = true.
Proof.
  intros [W _] H. apply wf_fine in W. apply Exists_exists in H as (a & Ha & E). apply in_split in Ha as (p & r & ->). split.
  - destruct p as [|c p]; cbn [app begin_time] in *.
    + num.
    + pose proof (increasing_app_cons_lt (c :: p) a r c (proj2 W) (or_introl eq_refl)). num.
  - rewrite end_app by discriminate. apply fine_app_r, fine_cons in W as (_ & W & Fr). unfold end_time.
    destruct (last_opt (a :: r)) as [c|] eqn:L; [|apply last_opt_none in L; discriminate]. apply last_opt_In in L as [<-|L]; [num|].
    rewrite Forall_forall in Fr. specialize (Fr c L). num.
Qed.
Lemma b64_tmp t : finite t = true -> forall fuel comp i (y : signal B64) z y0, good y -> cut t y y0 -> rob_temporal fuel comp i y = Ok z ->
  minmax_seq comp y = Ok z /\ rob_temporal fuel comp i y0 = minmax_seq comp y0.
Proof.
  intros Ft fuel comp i y z y0 G C H. pose proof (cut_good _ _ _ G C) as G0.
  assert (S : sample_at t y /\ sample_at t y0).
  { destruct C as (p & a & r & -> & -> & E). split; apply Exists_exists; exists a; (split; [|exact E]); [apply in_or_app; right|]; left; reflexivity. }
  assert (D : forall x, good x -> sample_at t x -> nleb (nsub (end_time x) (begin_time x)) (ninf : B64) = true).
  { intros x Gx Sx. destruct (cut_ends t x Gx Sx). destruct (good_begin x Gx). eapply dur_ok; eassumption. }
  unfold rob_temporal in *. destruct (has_value i) eqn:V; cbn [negb] in *; [|auto].
  pose proof (b64_hv i V) as Z. unfold has_value, is_zero_to_inf in V. apply andb_prop in V as [_ V].
  destruct (as_double i) as [a b] eqn:E. cbn [fst snd] in *. assert (Eb : b = inum_double (high i)) by (injection E; auto). rewrite <- Eb in V.
  destruct b as [|sb| |]; try discriminate V. destruct (b64_zero_inv _ Z) as (sa & ->). destruct sb.
  - destruct sa; discriminate H.
  - assert (W : nsub (B754_infinity false : B64) (B754_zero sa) = ninf) by (destruct sa; reflexivity). rewrite W in *. cbn zeta in *.
    assert (E1 : nltb (ninf : B64) nzero = false) by reflexivity. assert (E2 : neqb (ninf : B64) nzero = false) by reflexivity. rewrite E1, E2, !D in * by tauto. auto.
Qed.

Lemma C85_lemma dbg fuel phi (tr : trace B64) s z t : keys_unique tr -> free_of is_const phi = true -> free_of (short 1) phi = true -> finite t = true ->
  (forall n x, In n (names phi) -> has_signal tr n x -> wf x /\ sample_at t x) ->
  compute_robustness dbg fuel phi tr s = Ok z ->
  compute_robustness dbg fuel phi (map_trace (since t) tr) s = Ok (since t z) /\ sample_at t z.
Proof. intros U FC FS Ft. apply cut_lemma; auto. apply b64_tmp, Ft. Qed.

Lemma C85_past_lemma dbg fuel phi (tr tr' : trace B64) s z z' t : keys_unique tr -> keys_unique tr' -> free_of is_const phi = true -> free_of (short 1) phi = true -> finite t = true ->
  (forall n x x', In n (names phi) -> has_signal tr n x -> has_signal tr' n x' -> wf x /\ sample_at t x /\ wf x' /\ sample_at t x' /\ since t x = since t x') ->
  compute_robustness dbg fuel phi tr s = Ok z -> compute_robustness dbg fuel phi tr' s = Ok z' -> since t z = since t z'.
Proof.
  intros U U' FC FS Ft Hn E E'.
  assert (P : forall n, In n (names phi) -> exists x x', has_signal tr n x /\ has_signal tr' n x').
  { intros n Hi. destruct (trace_find tr n) as [x|] eqn:T; [|exfalso; eapply compute_missing; [|exact Hi|exact E]; exact T].
    destruct (trace_find tr' n) as [x'|] eqn:T'; [|exfalso; eapply compute_missing; [|exact Hi|exact E']; exact T'].
    apply trace_find_In in T. apply trace_find_In in T'. exists x, x'. auto. }
  destruct (C85_lemma dbg fuel phi tr s z t U FC FS Ft) as [A _]; [|exact E|].
  { intros n x Hi Hx. destruct (P n Hi) as (_ & x' & _ & Hx'). destruct (Hn n x x' Hi Hx Hx') as (? & ? & _). auto. }
  destruct (C85_lemma dbg fuel phi tr' s z' t U' FC FS Ft) as [A' _]; [|exact E'|].
  { intros n x Hi Hx. destruct (P n Hi) as (x' & _ & Hx' & _). destruct (Hn n x' x Hi Hx' Hx) as (? & ? & ? & ? & _). auto. }
  assert (Q : compute_robustness dbg fuel phi (map_trace (since t) tr) s = compute_robustness dbg fuel phi (map_trace (since t) tr') s).
  { unfold compute_robustness. apply compute_names; [exact FC|]. cbn [r_trace]. intros n Hi. rewrite !since_find. destruct (P n Hi) as (x & x' & Hx & Hx').
    pose proof (Hn n x x' Hi Hx Hx') as (_ & _ & _ & _ & Es). apply (trace_find_iff _ _ _ U) in Hx. apply (trace_find_iff _ _ _ U') in Hx'. rewrite Hx, Hx'. cbn. rewrite Es. reflexivity. }
  rewrite A, A' in Q. injection Q as Q. exact Q.
Qed.
