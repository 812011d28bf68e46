(** C71: values of propositional formulas at common sample times. *)
From Coq Require Import Sorted Reals Lra.
From Flocq Require Import IEEE754.BinarySingleNaN.
From Verif Require Import Base Num NumXR NumB64.
From Verif.Model Require Import Signal MonoWedge MinMax Ast Robustness.
From Verif.Spec Require Import SignalSpec Formula Discrete.
From Verif.Proofs Require Import NumFacts SignalFacts LowerBound Reshape Sync SyncProps MinMaxFacts SeqFacts B64Facts WinFacts MinMaxCases RobFacts RobWf.
Local Open Scope nat_scope.

Section G.
Context {F : Type} `{NF : Num F} {NL : NumLaws F}.

(** A sample of value [v] at [t]. *)
Definition hits (t v : F) (z : signal F) : Prop := exists c, In c z /\ neqb (s_time c) t = true /\ s_value c = v.

Lemma in_range t v x : wf x -> hits t v x -> nleb (begin_time x) t = true /\ nleb t (end_time x) = true.
Proof.
  intros W (c & Hc & Et & _). pose proof (begin_le_end x c (proj1 W) (proj1 (proj2 W)) Hc).
  assert (Hne : x <> []) by (intros ->; destruct Hc).
  pose proof (begin_num x (wf_fine _ W) Hne). pose proof (end_num x (wf_fine _ W) Hne). split; num.
Qed.
Lemma sync_hits t v w x y x' y' : wf x -> wf y -> synchronize x y = Ok (x', y') -> hits t v x -> hits t w y -> hits t v x'.
Proof.
  intros Wx Wy S (c & Hc & Et & Ev) Hy. destruct (in_range t w y Wy Hy) as [B E].
  assert (B' : nleb (begin_time y) (s_time c) = true) by num. assert (E' : nleb (s_time c) (end_time y) = true) by num.
  destruct (sync_complete x y x' y' c Wx Wy S Hc B' E') as (c' & H1 & H2 & H3). exists c'. rewrite H2, H3. auto.
Qed.
Lemma increasing_index (x : list (sample F)) : all_num (times x) -> increasing (times x) ->
  forall i j a b, nth_error x i = Some a -> nth_error x j = Some b -> i < j -> nltb (s_time a) (s_time b) = true.
Proof.
  intros N I i j a b Hi Hj L. apply nth_error_split in Hi as (x1 & x2 & -> & <-).
  rewrite nth_error_app2 in Hj by lia. destruct (j - length x1) as [|k] eqn:K; [lia|]. cbn in Hj. apply nth_error_In in Hj.
  unfold times in I. rewrite map_app in I. apply increasing_app in I as (_ & I & _). cbn [map] in I. apply increasing_cons in I as [_ I].
  rewrite Forall_forall in I. apply I, in_map, Hj.
Qed.
Lemma pair_index (x y : list (sample F)) a b t : wf x -> wf y -> same_times x y -> In a x -> In b y ->
  neqb (s_time a) t = true -> neqb (s_time b) t = true -> exists k, nth_error x k = Some a /\ nth_error y k = Some b.
Proof.
  intros Wx Wy T Ha Hb Ea Eb. apply In_nth_error in Ha as (i & Hi). apply In_nth_error in Hb as (j & Hj).
  assert (Tn : forall k u w, nth_error x k = Some u -> nth_error y k = Some w -> neqb (s_time u) (s_time w) = true).
  { clear -T. induction T; intros [|k] u w Ha Hb; cbn in *; try discriminate; [congruence|eauto]. }
  pose proof (same_length _ _ T) as L.
  destruct (lt_eq_lt_dec i j) as [[H| ->]|H]; [|exists j; auto|].
  - exfalso. assert (exists w, nth_error y i = Some w) as (w & Hw).
    { destruct (nth_error y i) eqn:Q; [eauto|]. apply nth_error_None in Q. assert (nth_error x i <> None) by congruence. apply nth_error_Some in H0. lia. }
    pose proof (Tn _ _ _ Hi Hw) as E1. pose proof (increasing_index y (proj1 Wy) (proj1 (proj2 Wy)) i j w b Hw Hj H) as E2. num.
  - exfalso. assert (exists w, nth_error x j = Some w) as (w & Hw).
    { destruct (nth_error x j) eqn:Q; [eauto|]. apply nth_error_None in Q. assert (nth_error y j <> None) by congruence. apply nth_error_Some in H0. lia. }
    pose proof (Tn _ _ _ Hw Hj) as E1. pose proof (increasing_index x (proj1 Wx) (proj1 (proj2 Wx)) j i w a Hw Hi H) as E2. num.
Qed.

Section Dir.
Variables (comp : sample F -> sample F -> bool) (best : F -> F -> F).
Hypothesis HB : forall a b, s_value (pick comp a b) = best (s_value a) (s_value b).

Lemma pair_hits dbg t v w x y z : wf x -> wf y -> minmax_pair dbg comp false x y = Ok z -> hits t v x -> hits t w y -> hits t (best v w) z.
Proof.
  intros Wx Wy H Hx Hy. apply minmax_pair_inv in H as (x' & y' & S & H). cbn in S.
  destruct (sync_out _ _ _ _ Wx Wy S) as (W1 & W2 & N1 & N2 & T).
  destruct (sync_hits t v w x y x' y' Wx Wy S Hx Hy) as (a & Ha & Ta & Va).
  destruct (sync_hits t w v y x y' x' Wy Wx (sync_sym _ _ _ _ Wx Wy S) Hy Hx) as (b & Hb & Tb & Vb).
  destruct (pair_index x' y' a b t W1 W2 T Ha Hb Ta Tb) as (k & Ka & Kb).
  destruct (pair_loop_inv comp x' y' None None ChNone [] z) as (pts & -> & W & P); auto.
  { split; constructor. } { apply W1. } { apply W2. }
  specialize (P a b (nth_combine _ _ _ _ _ _ _ Ka Kb)). cbn [app] in *.
  destruct (In_sig_of_pt _ _ P) as (c & Hc & Ct & Cv). exists c. split; [exact Hc|]. rewrite Ct, Cv. cbn [pt fst snd]. split.
  - unfold pick. destruct (comp a b); assumption.
  - rewrite HB, Va, Vb. reflexivity.
Qed.
Lemma fold_hits dbg t vs xs : Forall2 (fun v x => good x /\ hits t v x) vs xs -> forall acc u z, good acc -> hits t u acc ->
  minmax_fold dbg comp false acc xs = Ok z -> hits t (fold_left best vs u) z.
Proof.
  induction 1 as [|v x vs xs [Gx Hx] _ IH]; intros acc u z Ga Ha H; cbn [minmax_fold fold_left] in *; [injection H as <-; exact Ha|].
  apply bind_ok_inv in H as (acc' & H1 & H2). eapply IH; [| |exact H2].
  - eapply (good_pair dbg comp acc x); eauto.
  - eapply (pair_hits dbg t u v acc x); eauto; apply Ga || apply Gx.
Qed.
Lemma list_hits dbg t v vs xs z : Forall2 (fun v x => good x /\ hits t v x) (v :: vs) xs ->
  minmax_list dbg comp false xs = Ok z -> hits t (fold_left best vs v) z.
Proof.
  intros C H. inversion C as [|? x ? xs' [Gx Hx] C']; subst. destruct xs' as [|y xs']; cbn [minmax_list] in H.
  - inversion C'; subst. injection H as <-. exact Hx.
  - destruct xs' as [|w xs'].
    + inversion C' as [|v' ? vs' ? [Gy Hy] C'']; subst. inversion C''; subst. cbn [fold_left].
      eapply (pair_hits dbg t v v' x y); eauto; apply Gx || apply Gy.
    + eapply fold_hits; [exact C'|exact Gx|exact Hx|exact H].
Qed.
End Dir.

Lemma value_le a b : s_value (pick sample_le a b) = lesser (s_value a) (s_value b).
Proof. unfold pick, lesser. change (sample_le a b) with (negb (nltb (s_value b) (s_value a))). destruct (nltb _ _); reflexivity. Qed.
Lemma value_ge a b : s_value (pick sample_ge a b) = greater (s_value a) (s_value b).
Proof. unfold pick, greater. change (sample_ge a b) with (negb (nltb (s_value a) (s_value b))). destruct (nltb _ _); reflexivity. Qed.

Lemma hits_map (g : F -> F) t v (x : signal F) l z : hits t v x -> times l = times x -> points l = map (fun a => (s_time a, g (s_value a))) x ->
  from_samples l = Ok z -> hits t (g v) z.
Proof.
  intros (c & Hc & Ct & Cv) T P H. rewrite from_samples_canon in H. destruct (steps_ok (points l)); [|discriminate]. injection H as <-.
  rewrite P. destruct (In_sig_of_pt (map (fun a => (s_time a, g (s_value a))) x) (s_time c, g (s_value c))) as (d & Hd & Td & Vd).
  { apply (in_map (fun a => (s_time a, g (s_value a)))), Hc. }
  exists d. split; [exact Hd|]. rewrite Td, Vd. cbn [fst snd]. rewrite Cv. auto.
Qed.

Lemma now_compute dbg fuel (r : rob_op F) env t phi : propositional phi ->
  (forall n, In n (names phi) -> exists x, trace_find (r_trace r) n = Some x /\ good x /\ hits t (env n) x) ->
  forall z, compute dbg fuel r phi = Ok z -> good z /\ hits t (value_now env phi) z.
Proof.
  intros (P1 & P2 & P3). induction phi using expr_rec; intros HN z H0; cbn [compute] in H0;
    cbn [free_of is_const is_temporal_op negb andb] in P1, P2; try discriminate.
  - destruct (HN n (or_introl eq_refl)) as (x & E & Gx & Hx). unfold rob_pred in H0. rewrite E, pred_loop_push in H0.
    split.
    { eapply wf_from; [| |exact H0]; [unfold times; rewrite map_map; apply Gx|]. destruct Gx as [_ Hne]. destruct x; [congruence|discriminate]. }
    replace (value_now env (EPred n o c)) with (pred_value o c (env n)) by (destruct o; reflexivity).
    eapply (hits_map (pred_value o c) t (env n) x); [exact Hx| | |exact H0].
    + unfold times. rewrite map_map. reflexivity.
    + unfold points. rewrite map_map. reflexivity.
  - cbn [free_of short negb andb] in P3. apply bind_ok_inv in H0 as (x & H1 & H0). destruct (IHphi P1 P2 P3 HN x H1) as [Gx Hx]. split.
    { eapply wf_from; [| |exact H0]; [unfold times; rewrite map_map; apply Gx|]. destruct Gx as [_ Hne]. destruct x; [congruence|discriminate]. }
    cbn [value_now]. eapply (hits_map nopp t _ x); [exact Hx| | |exact H0].
    + unfold times. rewrite map_map. reflexivity.
    + unfold points. rewrite map_map. reflexivity.
  - apply bind_ok_inv in H0 as (ys & H1 & H0). apply compute_list_inv in H1. cbn [free_of short] in P3. apply andb_prop in P3 as [L P3].
    assert (K : Forall2 (fun v x => good x /\ hits t v x) (map (value_now env) l) ys).
    { clear L H0. revert P1 P2 P3 HN H. induction H1 as [|e y l ys E _ IH]; intros P1 P2 P3 HN H; cbn [map]; [constructor|].
      cbn [forallb] in P1, P2, P3. apply andb_prop in P1 as [P1 P1'], P2 as [P2 P2'], P3 as [P3 P3']. inversion H as [|? ? He Hl]; subst. constructor.
      - apply He; auto. intros n Hn. apply HN. cbn. apply in_or_app. auto.
      - apply IH; auto. intros n Hn. apply HN. cbn. apply in_or_app. auto. }
    split.
    + eapply good_list; [|exact H0]. clear -K. induction K; constructor; intuition.
    + cbn [value_now]. destruct l as [|e l]; [discriminate L|]. cbn [map least_of] in *. eapply list_hits; [exact value_le|exact K|exact H0].
  - apply bind_ok_inv in H0 as (ys & H1 & H0). apply compute_list_inv in H1. cbn [free_of short] in P3. apply andb_prop in P3 as [L P3].
    assert (K : Forall2 (fun v x => good x /\ hits t v x) (map (value_now env) l) ys).
    { clear L H0. revert P1 P2 P3 HN H. induction H1 as [|e y l ys E _ IH]; intros P1 P2 P3 HN H; cbn [map]; [constructor|].
      cbn [forallb] in P1, P2, P3. apply andb_prop in P1 as [P1 P1'], P2 as [P2 P2'], P3 as [P3 P3']. inversion H as [|? ? He Hl]; subst. constructor.
      - apply He; auto. intros n Hn. apply HN. cbn. apply in_or_app. auto.
      - apply IH; auto. intros n Hn. apply HN. cbn. apply in_or_app. auto. }
    split.
    + eapply good_list; [|exact H0]. clear -K. induction K; constructor; intuition.
    + cbn [value_now]. destruct l as [|e l]; [discriminate L|]. cbn [map greatest_of] in *. eapply list_hits; [exact value_ge|exact K|exact H0].
Qed.

Lemma now_lemma dbg fuel (tr : trace F) s phi env t z : keys_unique tr -> Forall (fun e => wf (snd e) /\ snd e <> []) tr ->
  propositional phi -> sampled_at tr env t phi -> compute_robustness dbg fuel phi tr s = Ok z ->
  wf z /\ exists c, In c z /\ neqb (s_time c) t = true /\ s_value c = value_now env phi.
Proof.
  intros U G P HN H. assert (K : good z /\ hits t (value_now env phi) z).
  2: { destruct K as [[W _] Hz]. split; [exact W|exact Hz]. }
  refine (now_compute dbg fuel _ env t phi P _ z H). intros n Hn. destruct (HN n Hn) as (x & a & Hx & Ha & Ta & Va). exists x. cbn [r_trace].
  split; [apply trace_find_iff; assumption|]. split; [apply (proj1 (Forall_forall _ _) G _ Hx)|]. exists a. auto.
Qed.
End G.

(** ** Sign of the value in binary64 *)
Section Sign.
Local Open Scope R_scope.
Definition says (v : B64) (b : bool) : Prop :=
  isnum v = true /\ (nltb nzero v = true -> b = true) /\ (nltb v nzero = true -> b = false).

Lemma says_pred op (v c : B64) : finite v = true -> finite c = true -> says (pred_value op c v) (cmp_holds op v c).
Proof.
  intros Fv Fc. destruct (pred_sign op v c Fv Fc) as (N & P & Q). pose proof (finite_num _ Fv). pose proof (finite_num _ Fc).
  split; [exact N|]. rewrite P, Q. destruct op; cbn [cmp_holds]; split; intros; num.
Qed.
Lemma says_not v b : says v b -> says (nopp v) (negb b).
Proof.
  intros (N & P & Q). split; [rewrite isnum_opp; exact N|]. pose proof (rk_zero (F := B64)) as Z. pose proof (rk_opp v) as O. split; intros H.
  - rewrite Q; [reflexivity|]. num_hyps. num_goal; first [apply isnum_zero|lra].
  - rewrite P; [reflexivity|]. num_hyps. num_goal; first [apply isnum_zero|lra].
Qed.
Lemma says_lesser v b w c : says v b -> says w c -> says (lesser v w) (b && c).
Proof.
  intros (N1 & P1 & Q1) (N2 & P2 & Q2). unfold lesser. destruct (nltb w v) eqn:E.
  - split; [exact N2|]. split; intros H; [rewrite P1, P2 by (exact H || num); reflexivity|rewrite Q2 by exact H; apply andb_false_r].
  - split; [exact N1|]. split; intros H; [rewrite P1, P2 by (exact H || num); reflexivity|rewrite Q1 by exact H; reflexivity].
Qed.
Lemma says_greater v b w c : says v b -> says w c -> says (greater v w) (b || c).
Proof.
  intros (N1 & P1 & Q1) (N2 & P2 & Q2). unfold greater. destruct (nltb v w) eqn:E.
  - split; [exact N2|]. split; intros H; [rewrite P2 by exact H; apply orb_true_r|rewrite Q1, Q2 by (exact H || num); reflexivity].
  - split; [exact N1|]. split; intros H; [rewrite P1 by exact H; reflexivity|rewrite Q1, Q2 by (exact H || num); reflexivity].
Qed.
Lemma says_fold f g vs bs : (forall v b w c, says v b -> says w c -> says (f v w) (g b c)) ->
  Forall2 says vs bs -> forall v b, says v b -> says (fold_left f vs v) (fold_left g bs b).
Proof. intros H. induction 1; intros v b Hv; cbn [fold_left]; auto. Qed.
Lemma fold_andb l : forall b, fold_left andb l b = b && forallb (fun x => x) l.
Proof. induction l as [|c l IH]; intros b; cbn [fold_left forallb]; [symmetry; apply andb_true_r|]. rewrite IH. apply eq_sym, andb_assoc. Qed.
Lemma fold_orb l : forall b, fold_left orb l b = b || existsb (fun x => x) l.
Proof. induction l as [|c l IH]; intros b; cbn [fold_left existsb]; [symmetry; apply orb_false_r|]. rewrite IH. apply eq_sym, orb_assoc. Qed.
Lemma forallb_map_id {A} (f : A -> bool) l : forallb (fun x => x) (map f l) = forallb f l.
Proof. induction l; cbn; congruence. Qed.
Lemma existsb_map_id {A} (f : A -> bool) l : existsb (fun x => x) (map f l) = existsb f l.
Proof. induction l; cbn; congruence. Qed.

Lemma now_sign env (phi : expr B64) : propositional phi -> (forall n, In n (names phi) -> finite (env n) = true) ->
  (forall e, In e (subs phi) -> match e with EPred _ _ c => finite c = true | _ => True end) ->
  says (value_now env phi) (holds_now env phi).
Proof.
  intros (P1 & P2 & P3). induction phi using expr_rec; intros HN HC;
    cbn [free_of is_const is_temporal_op negb andb] in P1, P2; try discriminate.
  - replace (value_now env (EPred n o c)) with (pred_value o c (env n)) by (destruct o; reflexivity).
    apply says_pred; [apply HN; left; reflexivity|apply (HC _ (or_introl eq_refl))].
  - cbn [free_of short negb andb] in P3. cbn [value_now holds_now]. apply says_not, IHphi; auto. intros e He. apply (HC e). right. exact He.
  - cbn [free_of short] in P3. apply andb_prop in P3 as [L P3]. cbn [value_now holds_now].
    assert (K : Forall2 says (map (value_now env) l) (map (holds_now env) l)).
    { clear L. induction l as [|e l IH]; cbn [map]; [constructor|]. cbn [forallb] in P1, P2, P3. apply andb_prop in P1 as [P1 P1'], P2 as [P2 P2'], P3 as [P3 P3'].
      inversion H as [|? ? He Hl]; subst. constructor.
      - apply He; auto. { intros n Hn. apply HN. cbn. apply in_or_app. auto. } { intros e' He'. apply (HC e'). right. cbn. apply in_or_app. auto. }
      - apply IH; auto. { intros n Hn. apply HN. cbn. apply in_or_app. auto. } { intros e' [<-|He']; [exact I|]. apply (HC e'). right. cbn. apply in_or_app. auto. } }
    destruct l as [|e l]; [discriminate L|]. cbn [map least_of forallb] in *. inversion K; subst.
    rewrite <- forallb_map_id, <- fold_andb. apply says_fold; auto using says_lesser.
  - cbn [free_of short] in P3. apply andb_prop in P3 as [L P3]. cbn [value_now holds_now].
    assert (K : Forall2 says (map (value_now env) l) (map (holds_now env) l)).
    { clear L. induction l as [|e l IH]; cbn [map]; [constructor|]. cbn [forallb] in P1, P2, P3. apply andb_prop in P1 as [P1 P1'], P2 as [P2 P2'], P3 as [P3 P3'].
      inversion H as [|? ? He Hl]; subst. constructor.
      - apply He; auto. { intros n Hn. apply HN. cbn. apply in_or_app. auto. } { intros e' He'. apply (HC e'). right. cbn. apply in_or_app. auto. }
      - apply IH; auto. { intros n Hn. apply HN. cbn. apply in_or_app. auto. } { intros e' [<-|He']; [exact I|]. apply (HC e'). right. cbn. apply in_or_app. auto. } }
    destruct l as [|e l]; [discriminate L|]. cbn [map greatest_of existsb] in *. inversion K; subst.
    rewrite <- existsb_map_id, <- fold_orb. apply says_fold; auto using says_greater.
Qed.
End Sign.

Lemma C71_sign_lemma dbg fuel (tr : trace B64) s phi env t z : keys_unique tr -> Forall (fun e => wf (snd e) /\ snd e <> []) tr ->
  propositional phi -> sampled_at tr env t phi -> (forall n, In n (names phi) -> finite (env n) = true) ->
  (forall e, In e (subs phi) -> match e with EPred _ _ c => finite c = true | _ => True end) ->
  compute_robustness dbg fuel phi tr s = Ok z ->
  exists c, In c z /\ neqb (s_time c) t = true /\ isnum (s_value c) = true /\
    (nltb nzero (s_value c) = true -> holds_now env phi = true) /\ (nltb (s_value c) nzero = true -> holds_now env phi = false).
Proof.
  intros U G P HN FE FC H. destruct (now_lemma dbg fuel tr s phi env t z U G P HN H) as (_ & c & H1 & H2 & H3).
  exists c. split; [exact H1|]. split; [exact H2|]. rewrite H3. apply now_sign; assumption.
Qed.
