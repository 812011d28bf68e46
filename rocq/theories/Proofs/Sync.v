(** synchronize: outcome and result, for any arithmetic satisfying the order laws. *)
From Coq Require Import Sorted Reals Lra.
From Verif Require Import Base Num.
From Verif.Model Require Import Signal.
From Verif.Spec Require Import SignalSpec Subseq.
From Verif.Proofs Require Import NumFacts SignalFacts LowerBound Reshape.

Section Sync.
Context {F : Type} `{NF : Num F} {NL : NumLaws F}.
Local Open Scope R_scope.

Definition interp_at (p : sample F) (t : F) : sample F := mkSample t (interpolate p t) nzero.

(** The main loop as a relation; [p], [q] are the samples before the iterators. *)
Inductive merged : sample F -> list (sample F) -> sample F -> list (sample F) ->
    list (sample F * sample F) -> Prop :=
| m_end_x p q ys : merged p [] q ys []
| m_end_y p q xs : merged p xs q [] []
| m_eq p i xs q j ys l : neqb (s_time i) (s_time j) = true -> merged i xs j ys l ->
    merged p (i :: xs) q (j :: ys) ((i, j) :: l)
| m_lt p i xs q j ys l : nltb (s_time i) (s_time j) = true -> merged i xs q (j :: ys) l ->
    merged p (i :: xs) q (j :: ys) ((i, interp_at q (s_time i)) :: l)
| m_gt p i xs q j ys l : nltb (s_time j) (s_time i) = true -> merged p (i :: xs) j ys l ->
    merged p (i :: xs) q (j :: ys) ((interp_at p (s_time j), j) :: l).

Lemma sync_loop_merged : forall fuel p xs q ys xv yv,
  all_num (times xs) -> all_num (times ys) -> (length xs + length ys < fuel)%nat ->
  exists l, merged p xs q ys l /\
    sync_loop fuel (Some p) xs (Some q) ys xv yv = Ok (xv ++ map fst l, yv ++ map snd l).
Proof.
  induction fuel as [|fuel IH]; intros p xs q ys xv yv Hx Hy Hf; [lia|].
  destruct xs as [|i xs].
  { exists []. split; [constructor|]. cbn. rewrite !app_nil_r. reflexivity. }
  destruct ys as [|j ys].
  { exists []. split; [constructor|]. cbn. rewrite !app_nil_r. reflexivity. }
  inversion Hx as [|? ? Hi Hx']; subst. inversion Hy as [|? ? Hj Hy']; subst.
  cbn in Hf. cbn [sync_loop].
  destruct (neqb (s_time i) (s_time j)) eqn:E1.
  { destruct (IH i xs j ys (xv ++ [i]) (yv ++ [j])) as (l & Hl & ->); try assumption; [lia|].
    exists ((i, j) :: l). split; [constructor; assumption|]. cbn. rewrite <- !app_assoc. reflexivity. }
  destruct (nltb (s_time i) (s_time j)) eqn:E2.
  { destruct (IH i xs q (j :: ys) (xv ++ [i]) (yv ++ [interp_at q (s_time i)])) as (l & Hl & H); try assumption; [cbn; lia|].
    exists ((i, interp_at q (s_time i)) :: l). split; [apply m_lt; assumption|].
    unfold interp_at in *. rewrite H. cbn. rewrite <- !app_assoc. reflexivity. }
  assert (E3 : nltb (s_time j) (s_time i) = true) by num. rewrite E3.
  destruct (IH p (i :: xs) j ys (xv ++ [interp_at p (s_time j)]) (yv ++ [j])) as (l & Hl & H); try assumption; [cbn; lia|].
  exists ((interp_at p (s_time j), j) :: l). split; [apply m_gt; assumption|].
  unfold interp_at in *. rewrite H. cbn. rewrite <- !app_assoc. reflexivity.
Qed.

Lemma merged_times p xs q ys l : all_num (times xs) -> all_num (times ys) -> merged p xs q ys l ->
  Forall (fun ab => neqb (s_time (fst ab)) (s_time (snd ab)) = true) l.
Proof.
  intros Hx Hy H. induction H as [| |p i xs q j ys l E H IH|p i xs q j ys l E H IH|p i xs q j ys l E H IH];
    constructor; cbn; auto;
    try (inversion Hx as [|? ? Hi Hx']; subst; inversion Hy as [|? ? Hj Hy']; subst; auto); try exact Hi; try exact Hj.
Qed.

(** Everything merged lies after both predecessors, in increasing order. *)
Lemma merged_after p xs q ys l (b : F) : merged p xs q ys l ->
  Forall (fun a => nltb b (s_time a) = true) xs -> Forall (fun a => nltb b (s_time a) = true) ys ->
  Forall (fun ab => nltb b (s_time (fst ab)) = true /\ nltb b (s_time (snd ab)) = true) l.
Proof.
  intros H. induction H as [| |p i xs q j ys l E H IH|p i xs q j ys l E H IH|p i xs q j ys l E H IH];
    intros Hx Hy; constructor; cbn;
    try (inversion Hx as [|? ? Hi Hx']; subst; inversion Hy as [|? ? Hj Hy']; subst; auto).
Qed.

Lemma Forall_lt_trans (b c : F) (l : list (sample F)) : nleb b c = true ->
  Forall (fun a => nltb c (s_time a) = true) l -> Forall (fun a => nltb b (s_time a) = true) l.
Proof. intros Hb H. eapply Forall_impl; [|exact H]. cbn. intros a Ha. num_hyps. num. Qed.

Lemma merged_incr p xs q ys l : merged p xs q ys l ->
  increasing (times xs) -> increasing (times ys) ->
  increasing (map (fun ab => s_time (fst ab)) l) /\ increasing (map (fun ab => s_time (snd ab)) l).
Proof.
  intros H. induction H as [| |p i xs q j ys l E H IH|p i xs q j ys l E H IH|p i xs q j ys l E H IH];
    intros Hx Hy; cbn [map]; try solve [split; constructor];
    pose proof Hx as Hx0; pose proof Hy as Hy0; cbn in Hx0, Hy0;
    apply increasing_cons in Hx0 as [Hx' Hfx]; apply increasing_cons in Hy0 as [Hy' Hfy];
    change (map s_time xs) with (times xs) in *; change (map s_time ys) with (times ys) in *;
    unfold times in Hfx, Hfy; rewrite Forall_map in Hfx, Hfy.
  - destruct (IH Hx' Hy') as [H1 H2].
    assert (Ha1 := merged_after _ _ _ _ _ (s_time i) H Hfx
      ltac:(eapply Forall_lt_trans; [|exact Hfy]; num_hyps; num)).
    assert (Ha2 := merged_after _ _ _ _ _ (s_time j) H
      ltac:(eapply Forall_lt_trans; [|exact Hfx]; num_hyps; num) Hfy).
    cbn [fst snd interp_at s_time]. rewrite !increasing_cons, !Forall_map. repeat split; auto.
    + eapply Forall_impl; [|exact Ha1]; cbn; tauto.
    + eapply Forall_impl; [|exact Ha2]; cbn; tauto.
  - destruct (IH Hx' Hy) as [H1 H2].
    assert (Ha1 := merged_after _ _ _ _ _ (s_time i) H Hfx
      ltac:(constructor; [assumption|]; eapply Forall_lt_trans; [|exact Hfy]; num_hyps; num)).
    cbn [fst snd interp_at s_time]. rewrite !increasing_cons, !Forall_map. repeat split; auto;
      (eapply Forall_impl; [|exact Ha1]; cbn; tauto).
  - destruct (IH Hx Hy') as [H1 H2].
    assert (Ha1 := merged_after _ _ _ _ _ (s_time j) H
      ltac:(constructor; [assumption|]; eapply Forall_lt_trans; [|exact Hfx]; num_hyps; num) Hfy).
    cbn [fst snd interp_at s_time]. rewrite !increasing_cons, !Forall_map. repeat split; auto;
      (eapply Forall_impl; [|exact Ha1]; cbn; tauto).
Qed.

Lemma merged_num p xs q ys l : merged p xs q ys l -> all_num (times xs) -> all_num (times ys) ->
  all_num (times (map fst l)) /\ all_num (times (map snd l)).
Proof.
  intros H. induction H as [| |p i xs q j ys l E H IH|p i xs q j ys l E H IH|p i xs q j ys l E H IH];
    intros Hx Hy; try solve [split; apply Forall_nil]; cbn [map fst snd times];
    inversion Hx as [|? ? Hi Hx']; subst; inversion Hy as [|? ? Hj Hy']; subst;
    try (destruct (IH Hx' Hy') as [H1 H2]); try (destruct (IH Hx' Hy) as [H1 H2]); try (destruct (IH Hx Hy') as [H1 H2]);
    split; apply Forall_cons; cbn; assumption.
Qed.

Lemma merged_sym p xs q ys l : merged p xs q ys l ->
  merged q ys p xs (map (fun ab => (snd ab, fst ab)) l).
Proof.
  induction 1 as [| |p i xs q j ys l E H IH|p i xs q j ys l E H IH|p i xs q j ys l E H IH]; cbn;
    try constructor; auto. num_hyps; num.
Qed.

Lemma merged_det p xs q ys l : merged p xs q ys l -> forall l', merged p xs q ys l' -> l = l'.
Proof.
  induction 1 as [p q ys|p q xs|p i xs q j ys l E H IH|p i xs q j ys l E H IH|p i xs q j ys l E H IH]; intros l' H';
    inversion H'; subst; auto; try (f_equal; auto; fail); exfalso; num.
Qed.

(** Completeness and origin of the merged times. *)
Lemma merged_origin p xs q ys l ab : merged p xs q ys l -> In ab l ->
  (In (fst ab) xs \/ (In (snd ab) ys /\ exists r, In r (p :: xs) /\ fst ab = interp_at r (s_time (snd ab)))) /\
  (In (snd ab) ys \/ (In (fst ab) xs /\ exists r, In r (q :: ys) /\ snd ab = interp_at r (s_time (fst ab)))).
Proof.
  intros H. induction H as [| |p i xs q j ys l E H IH|p i xs q j ys l E H IH|p i xs q j ys l E H IH];
    intros Hin; [destruct Hin|destruct Hin|destruct Hin as [<-|Hin]; cbn [fst snd]..].
  - split; left; left; reflexivity.
  - destruct (IH Hin) as [H1 H2]. split.
    + destruct H1 as [H1|(H1 & r & Hr & ->)]; [left; right; exact H1|right]. split; [right; exact H1|].
      exists r. split; [right; exact Hr|reflexivity].
    + destruct H2 as [H2|(H2 & r & Hr & ->)]; [left; right; exact H2|right]. split; [right; exact H2|].
      exists r. split; [right; exact Hr|reflexivity].
  - split; [left; left; reflexivity|]. right. split; [left; reflexivity|].
    exists q. split; [left; reflexivity|reflexivity].
  - destruct (IH Hin) as [H1 H2]. split.
    + destruct H1 as [H1|(H1 & r & Hr & ->)]; [left; right; exact H1|right]. split; [exact H1|].
      exists r. split; [right; exact Hr|reflexivity].
    + destruct H2 as [H2|(H2 & r & Hr & ->)]; [left; exact H2|right]. split; [right; exact H2|].
      exists r. split; [exact Hr|reflexivity].
  - split; [|left; left; reflexivity]. right. split; [left; reflexivity|].
    exists p. split; [left; reflexivity|reflexivity].
  - destruct (IH Hin) as [H1 H2]. split.
    + destruct H1 as [H1|(H1 & r & Hr & ->)]; [left; exact H1|right]. split; [right; exact H1|].
      exists r. split; [exact Hr|reflexivity].
    + destruct H2 as [H2|(H2 & r & Hr & ->)]; [left; right; exact H2|right]. split; [exact H2|].
      exists r. split; [right; exact Hr|reflexivity].
Qed.

(** Every sample of either side up to the other side's end is kept, unchanged. *)
Lemma merged_complete p xs q ys l : merged p xs q ys l ->
  increasing (times xs) -> increasing (times ys) ->
  (forall a b, In a xs -> In b ys -> nleb (s_time a) (s_time b) = true -> In a (map fst l)) /\
  (forall a b, In a xs -> In b ys -> nleb (s_time b) (s_time a) = true -> In b (map snd l)).
Proof.
  intros H. induction H as [p q ys|p q xs|p i xs q j ys l E H IH|p i xs q j ys l E H IH|p i xs q j ys l E H IH];
    intros Hx Hy; try (split; intros a b Ha Hb; destruct Ha; fail); try (split; intros a b Ha Hb; destruct Hb; fail);
    pose proof Hx as Hx0; pose proof Hy as Hy0; cbn in Hx0, Hy0;
    apply increasing_cons in Hx0 as [Hx' Hfx]; apply increasing_cons in Hy0 as [Hy' Hfy];
    rewrite Forall_map in Hfx, Hfy; rewrite Forall_forall in Hfx, Hfy.
  - destruct (IH Hx' Hy') as [H1 H2]. split; intros a b [<-|Ha] [<-|Hb] Hle; cbn; auto.
    + exfalso. specialize (Hfx a Ha). num.
    + right. eapply H1; eauto.
    + exfalso. specialize (Hfy b Hb). num.
    + right. eapply H2; eauto.
  - destruct (IH Hx' Hy) as [H1 H2]. split; intros a b [<-|Ha] Hb Hle; cbn; auto.
    + right. eapply H1; eauto.
    + exfalso. destruct Hb as [<-|Hb]; [num|]. specialize (Hfy b Hb). num.
    + right. eapply H2; eauto.
  - destruct (IH Hx Hy') as [H1 H2]. split; intros a b Ha [<-|Hb] Hle; cbn; auto.
    + exfalso. destruct Ha as [<-|Ha]; [num|]. specialize (Hfx a Ha). num.
    + right. eapply H1; eauto.
    + right. eapply H2; eauto.
Qed.

(** *** The whole function *)

Definition fine (x : list (sample F)) : Prop := all_num (times x) /\ increasing (times x).

Lemma times_app (l1 l2 : list (sample F)) : times (l1 ++ l2) = times l1 ++ times l2.
Proof. apply map_app. Qed.

Lemma fine_app_r l1 l2 : fine (l1 ++ l2) -> fine l2.
Proof.
  unfold fine, all_num. rewrite times_app, Forall_app. intros [[_ H] Hi].
  apply increasing_app in Hi. tauto.
Qed.

Lemma fine_cons a l : fine (a :: l) <->
  isnum (s_time a) = true /\ fine l /\ Forall (fun b => nltb (s_time a) (s_time b) = true) l.
Proof.
  unfold fine, all_num. unfold times. cbn [map]. rewrite increasing_cons, Forall_map. split.
  - intros [H1 [H2 H3]]. inversion H1; subst. tauto.
  - intros (H1 & (H2 & H3) & H4). split; [constructor; assumption|]. tauto.
Qed.

Lemma nth_error_pred_last {A} (l1 l2 : list A) k : length l1 = S k -> nth_error (l1 ++ l2) k = last_opt l1.
Proof.
  intros H. destruct l1 as [|a l1 _] using rev_ind; [discriminate|]. rewrite last_opt_snoc.
  rewrite app_length in H. cbn in H. rewrite <- app_assoc. replace k with (length l1) by lia.
  apply nth_error_split_head.
Qed.

Lemma iter_at_split (l1 l2 : list (sample F)) :
  iter_at (l1 ++ l2) (length l1) = (last_opt l1, l2).
Proof.
  unfold iter_at. f_equal.
  - destruct (length l1) eqn:E; [apply length_zero_iff_nil in E; subst; reflexivity|].
    apply nth_error_pred_last, E.
  - rewrite skipn_app, Nat.sub_diag, skipn_all. reflexivity.
Qed.

Lemma sync_close_equal (xv yv : list (sample F)) a b : last_opt xv = Some a -> last_opt yv = Some b ->
  neqb (s_time a) (s_time b) = true -> sync_close xv yv = Ok (xv, yv).
Proof.
  intros Ha Hb E. unfold sync_close, back. rewrite Ha, Hb. cbn [bind].
  assert (nltb (s_time b) (s_time a) = false) as -> by (num_hyps; num). rewrite Hb. cbn [bind].
  assert (nltb (s_time a) (s_time b) = false) as -> by (num_hyps; num). reflexivity.
Qed.

Lemma last_opt_pairs (l : list (sample F * sample F)) a b :
  Forall (fun ab => neqb (s_time (fst ab)) (s_time (snd ab)) = true) ((a, b) :: l) ->
  exists c d, last_opt (a :: map fst l) = Some c /\ last_opt (b :: map snd l) = Some d /\
    neqb (s_time c) (s_time d) = true.
Proof.
  revert a b. induction l as [|[a' b'] l IH]; intros a b H; inversion H as [|? ? H1 H2]; subst.
  - exists a, b. auto.
  - apply IH, H2.
Qed.

(** What the split positions look like. *)
Definition split_of (bt : F) (x x1 x2 : list (sample F)) : Prop :=
  x = x1 ++ x2 /\ Forall (fun a => nltb (s_time a) bt = true) x1 /\
  Forall (fun a => nltb (s_time a) bt = false) x2.

Lemma std_max_cases (a b : F) : isnum a = true -> isnum b = true ->
  (std_max a b = a /\ nleb b a = true) \/ (std_max a b = b /\ nltb a b = true).
Proof.
  intros Ha Hb. unfold std_max. destruct (nltb a b) eqn:E; [right; auto|left]. split; [reflexivity|]. num.
Qed.

(** Success: both signals have a sample at the later begin time. *)
Lemma sync_ok x1 i xs y1 j ys :
  fine (x1 ++ i :: xs) -> fine (y1 ++ j :: ys) ->
  neqb (s_time i) (s_time j) = true -> (x1 = [] \/ y1 = []) ->
  exists l, merged i xs j ys l /\
    synchronize (x1 ++ i :: xs) (y1 ++ j :: ys) =
    Ok (sig_of (points (i :: map fst l)), sig_of (points (j :: map snd l))).
Proof.
  intros Hx Hy E Hb.
  pose proof (fine_app_r _ _ Hx) as Hx2. pose proof (fine_app_r _ _ Hy) as Hy2.
  apply fine_cons in Hx2 as (Hi & Hxs & Hfx). apply fine_cons in Hy2 as (Hj & Hys & Hfy).
  assert (Hlx : forall a, In a x1 -> nltb (s_time a) (s_time i) = true).
  { intros a Ha. eapply increasing_app_cons_lt; [apply Hx|exact Ha]. }
  assert (Hly : forall a, In a y1 -> nltb (s_time a) (s_time j) = true).
  { intros a Ha. eapply increasing_app_cons_lt; [apply Hy|exact Ha]. }
  set (bt := std_max (begin_time (x1 ++ i :: xs)) (begin_time (y1 ++ j :: ys))).
  assert (Hbt : isnum bt = true /\ rk bt = rk (s_time i)).
  { subst bt. destruct Hb as [-> | ->]; cbn [app begin_time].
    - destruct y1 as [|b y1]; cbn [app begin_time].
      + destruct (std_max_cases (s_time i) (s_time j) Hi Hj) as [[-> ?]|[-> ?]]; num_hyps; split; auto; lra.
      + specialize (Hly b (or_introl eq_refl)).
        assert (Hbn : isnum (s_time b) = true) by (num_hyps; assumption).
        destruct (std_max_cases (s_time i) (s_time b) Hi Hbn) as [[-> ?]|[-> ?]]; num_hyps; split; auto; lra.
    - destruct x1 as [|b x1]; cbn [app begin_time].
      + destruct (std_max_cases (s_time i) (s_time j) Hi Hj) as [[-> ?]|[-> ?]]; num_hyps; split; auto; lra.
      + specialize (Hlx b (or_introl eq_refl)).
        assert (Hbn : isnum (s_time b) = true) by (num_hyps; assumption).
        destruct (std_max_cases (s_time b) (s_time j) Hbn Hj) as [[-> ?]|[-> ?]]; num_hyps; split; auto; lra. }
  destruct Hbt as [Hbn Hbr]. num_hyps.
  unfold synchronize, synchronize_fuel. fold bt.
  rewrite lower_bound_split.
  2: { rewrite Forall_forall. intros a Ha. specialize (Hlx a Ha). num_hyps; num. }
  2: { constructor; [num|]. eapply Forall_impl; [|exact Hfx]. cbn. intros a Ha. num_hyps; num. }
  cbn [bind]. rewrite iter_at_split. unfold sync_first at 1. cbn [fst snd].
  assert (nltb bt (s_time i) = false) as -> by num. cbn [bind].
  rewrite lower_bound_split.
  2: { rewrite Forall_forall. intros a Ha. specialize (Hly a Ha). num_hyps; num. }
  2: { constructor; [num|]. eapply Forall_impl; [|exact Hfy]. cbn. intros a Ha. num_hyps; num. }
  cbn [bind]. rewrite iter_at_split. unfold sync_first at 1. cbn [fst snd].
  assert (nltb bt (s_time j) = false) as -> by num. cbn [bind].
  assert (Eij : neqb (s_time i) (s_time j) = true) by num.
  cbn [sync_loop]. rewrite Eij. cbn [app].
  destruct (sync_loop_merged (length (x1 ++ i :: xs) + length (y1 ++ j :: ys)) i xs j ys [i] [j]) as (l & Hl & ->);
    [apply Hxs|apply Hys|rewrite !app_length; cbn; lia|].
  exists l. split; [exact Hl|]. cbn [bind app].
  pose proof (merged_times _ _ _ _ _ (proj1 Hxs) (proj1 Hys) Hl) as Ht.
  destruct (last_opt_pairs l i j) as (c & d & Hc & Hd & Hcd); [constructor; assumption|].
  rewrite (sync_close_equal _ _ _ _ Hc Hd Hcd). cbn [bind].
  destruct (merged_incr _ _ _ _ _ Hl (proj2 Hxs) (proj2 Hys)) as [I1 I2].
  destruct (merged_num _ _ _ _ _ Hl (proj1 Hxs) (proj1 Hys)) as [N1 N2].
  assert (Ha : Forall (fun ab => nltb (s_time i) (s_time (fst ab)) = true /\ nltb (s_time i) (s_time (snd ab)) = true) l).
  { eapply merged_after; eauto. eapply Forall_lt_trans; [|exact Hfy]. num. }
  assert (Hb' : Forall (fun ab => nltb (s_time j) (s_time (fst ab)) = true /\ nltb (s_time j) (s_time (snd ab)) = true) l).
  { eapply merged_after; eauto. eapply Forall_lt_trans; [|exact Hfx]. num. }
  rewrite !from_samples_ok; [reflexivity|..].
  - constructor; assumption.
  - unfold times. cbn [map]. rewrite map_map. apply increasing_cons. split; [exact I2|]. rewrite Forall_map.
    eapply Forall_impl; [|exact Hb']. cbn; tauto.
  - constructor; assumption.
  - unfold times. cbn [map]. rewrite map_map. apply increasing_cons. split; [exact I1|]. rewrite Forall_map.
    eapply Forall_impl; [|exact Ha]. cbn; tauto.
Qed.

(** Failure cases. *)
Lemma synchronize_split fuel x1 x2 y1 y2 :
  let bt := std_max (begin_time (x1 ++ x2)) (begin_time (y1 ++ y2)) in
  Forall (fun a => nltb (s_time a) bt = true) x1 -> Forall (fun a => nltb (s_time a) bt = false) x2 ->
  Forall (fun a => nltb (s_time a) bt = true) y1 -> Forall (fun a => nltb (s_time a) bt = false) y2 ->
  synchronize_fuel fuel (x1 ++ x2) (y1 ++ y2) =
  (xv0 <- sync_first bt (last_opt x1, x2) (last_opt x1, x2) ;;
   yv0 <- sync_first bt (last_opt y1, y2) (last_opt x1, x2) ;;
   '(xv, yv) <- sync_loop fuel (last_opt x1) x2 (last_opt y1) y2 xv0 yv0 ;;
   '(xv', yv') <- sync_close xv yv ;;
   sx <- from_samples xv' ;;
   sy <- from_samples yv' ;;
   Ok (sx, sy)).
Proof.
  intros bt H1 H2 H3 H4. unfold synchronize_fuel. fold bt. rewrite !lower_bound_split by assumption.
  cbn [bind]. rewrite !iter_at_split. reflexivity.
Qed.

Lemma begin_num (x : list (sample F)) : fine x -> x <> [] -> isnum (begin_time x) = true.
Proof. destruct x; [congruence|]. intros H _. apply fine_cons in H. apply H. Qed.

Lemma end_num (x : list (sample F)) : fine x -> x <> [] -> isnum (end_time x) = true.
Proof.
  intros H Hx. unfold end_time. destruct (last_opt x) as [a|] eqn:E.
  - apply last_opt_In in E. apply (all_num_In x); [apply H|exact E].
  - apply last_opt_none in E. congruence.
Qed.

Lemma sync_ub_disjoint x y : fine x -> fine y -> x <> [] -> y <> [] ->
  nltb (end_time x) (begin_time y) = true \/ nltb (end_time y) (begin_time x) = true ->
  synchronize x y = UB.
Proof.
  intros Hx Hy Hnx Hny H. unfold synchronize.
  assert (Hbx := begin_num x Hx Hnx). assert (Hby := begin_num y Hy Hny).
  assert (Hbt : isnum (std_max (begin_time x) (begin_time y)) = true).
  { unfold std_max. destruct (nltb (begin_time x) (begin_time y)); assumption. }
  destruct (split_at x (std_max (begin_time x) (begin_time y)) (proj1 Hx) (proj2 Hx) Hbt) as (x1 & x2 & Ex & Hx1 & Hx2).
  destruct (split_at y (std_max (begin_time x) (begin_time y)) (proj1 Hy) (proj2 Hy) Hbt) as (y1 & y2 & Ey & Hy1 & Hy2).
  generalize (S (length x + length y)) as fuel. intros fuel. subst x y.
  rewrite synchronize_split by assumption.
  assert (Hlast : forall u u1 u2 bt, u = u1 ++ u2 -> fine u -> u <> [] -> isnum bt = true -> nltb (end_time u) bt = true ->
     Forall (fun a => nltb (s_time a) bt = false) u2 -> u2 = []).
  { intros u u1 u2 bt -> Hu Hnu Hb He H2. destruct u2 as [|a u2]; [reflexivity|]. exfalso.
    assert (Ha : In a (u1 ++ a :: u2)) by (apply in_or_app; right; left; reflexivity).
    pose proof (begin_le_end _ a (proj1 Hu) (proj2 Hu) Ha). pose proof (all_num_In _ a (proj1 Hu) Ha).
    inversion H2; subst. num_hyps. num. }
  destruct H as [H|H].
  - assert (Hm : nltb (end_time (x1 ++ x2)) (std_max (begin_time (x1 ++ x2)) (begin_time (y1 ++ y2))) = true).
    { unfold std_max. destruct (nltb (begin_time (x1 ++ x2)) (begin_time (y1 ++ y2))) eqn:E; [exact H|]. num. }
    rewrite (Hlast _ x1 x2 _ eq_refl Hx Hnx Hbt Hm Hx2). reflexivity.
  - assert (Hm : nltb (end_time (y1 ++ y2)) (std_max (begin_time (x1 ++ x2)) (begin_time (y1 ++ y2))) = true).
    { unfold std_max. destruct (nltb (begin_time (x1 ++ x2)) (begin_time (y1 ++ y2))) eqn:E; [|exact H]. num. }
    pose proof (Hlast _ y1 y2 _ eq_refl Hy Hny Hbt Hm Hy2) as Ey2.
    unfold sync_first at 1. cbn [fst snd].
    destruct x2 as [|a x2]; [reflexivity|].
    destruct (nltb _ (s_time a)); [|cbn [bind]; rewrite Ey2; reflexivity].
    destruct (last_opt x1); cbn [bind]; rewrite Ey2; reflexivity.
Qed.

(** The signals overlap, but the later begin time is strictly inside a segment. *)
Lemma sync_throw_inside x1 p i xs j ys :
  fine (x1 ++ p :: i :: xs) -> fine (j :: ys) ->
  nltb (s_time p) (s_time j) = true -> nltb (s_time j) (s_time i) = true ->
  synchronize (x1 ++ p :: i :: xs) (j :: ys) = Throw InvalidArgument.
Proof.
  intros Hx Hy Hpj Hji. unfold synchronize.
  replace (x1 ++ p :: i :: xs) with ((x1 ++ [p]) ++ i :: xs) in * by (rewrite <- app_assoc; reflexivity).
  set (f := (length ((x1 ++ [p]) ++ i :: xs) + length (j :: ys))%nat). remember f as fuel0 eqn:Ef. subst f.
  pose proof (fine_app_r _ _ Hx) as Hx2. apply fine_cons in Hx2 as (Hi & Hxs & Hfx).
  pose proof Hy as Hy2. apply fine_cons in Hy2 as (Hj & Hys & Hfy).
  assert (Hlx : forall a, In a (x1 ++ [p]) -> nltb (s_time a) (s_time j) = true).
  { intros a Ha. apply in_app_or in Ha as [Ha|[<-|[]]]; [|exact Hpj].
    assert (nltb (s_time a) (s_time p) = true).
    { rewrite <- app_assoc in Hx. eapply increasing_app_cons_lt; [apply Hx|exact Ha]. }
    num. }
  assert (Hbt : std_max (begin_time ((x1 ++ [p]) ++ i :: xs)) (begin_time ([] ++ j :: ys)) = s_time j).
  { cbn [app begin_time]. unfold std_max. destruct x1 as [|b x1]; cbn [app begin_time] in *.
    - rewrite Hpj. reflexivity.
    - rewrite (Hlx b (or_introl eq_refl)). reflexivity. }
  change (j :: ys) with ([] ++ j :: ys). rewrite synchronize_split; rewrite Hbt.
  - rewrite last_opt_snoc. unfold sync_first. cbn [fst snd last_opt]. rewrite Hji. cbn [bind].
    assert (nltb (s_time j) (s_time j) = false) as -> by num. cbn [bind].
    cbn [sync_loop].
    assert (neqb (s_time i) (s_time j) = false) as -> by num.
    assert (nltb (s_time i) (s_time j) = false) as -> by (num_hyps; num). rewrite Hji. cbn [app].
    destruct (sync_loop_merged fuel0 p (i :: xs) j ys
       [mkSample (s_time j) (interpolate p (s_time j)) (s_deriv p); mkSample (s_time j) (interpolate p (s_time j)) nzero] [j])
       as (l & Hl & ->);
    [constructor; [exact Hi|apply Hxs]|apply Hys|subst fuel0; rewrite !app_length; cbn; lia|].
    cbn [bind app].
    assert (Hnx : all_num (times (i :: xs))) by (constructor; [exact Hi|apply Hxs]).
    pose proof (merged_times _ _ _ _ _ Hnx (proj1 Hys) Hl) as Ht.
    destruct (last_opt_pairs l (mkSample (s_time j) (interpolate p (s_time j)) nzero) j) as (c & d & Hc & Hd & Hcd).
    { constructor; [|exact Ht]. cbn. num. }
    erewrite sync_close_equal; [|exact Hc|exact Hd|exact Hcd]. cbn [bind].
    rewrite from_samples_canon. unfold points. cbn [map s_time s_value steps_ok fst snd].
    assert (nleb (s_time j) (s_time j) = true) as -> by num. reflexivity.
  - rewrite Forall_forall. exact Hlx.
  - constructor; [num|]. eapply Forall_impl; [|exact Hfx]. cbn. intros a Ha. num_hyps; num.
  - constructor.
  - constructor; [num|]. eapply Forall_impl; [|exact Hfy]. cbn. intros a Ha. num_hyps; num.
Qed.

Lemma sync_ub_inside y1 p j ys i xs :
  fine (i :: xs) -> fine (y1 ++ p :: j :: ys) ->
  nltb (s_time p) (s_time i) = true -> nltb (s_time i) (s_time j) = true ->
  synchronize (i :: xs) (y1 ++ p :: j :: ys) = UB.
Proof.
  intros Hx Hy Hpi Hij. unfold synchronize. generalize (S (length (i :: xs) + length (y1 ++ p :: j :: ys)))%nat as fuel. intros fuel.
  replace (y1 ++ p :: j :: ys) with ((y1 ++ [p]) ++ j :: ys) in * by (rewrite <- app_assoc; reflexivity).
  pose proof (fine_app_r _ _ Hy) as Hy2. apply fine_cons in Hy2 as (Hj & Hys & Hfy).
  pose proof Hx as Hx2. apply fine_cons in Hx2 as (Hi & Hxs & Hfx).
  assert (Hly : forall a, In a (y1 ++ [p]) -> nltb (s_time a) (s_time i) = true).
  { intros a Ha. apply in_app_or in Ha as [Ha|[<-|[]]]; [|exact Hpi].
    assert (nltb (s_time a) (s_time p) = true).
    { rewrite <- app_assoc in Hy. eapply increasing_app_cons_lt; [apply Hy|exact Ha]. }
    num. }
  assert (Hbt : std_max (begin_time ([] ++ i :: xs)) (begin_time ((y1 ++ [p]) ++ j :: ys)) = s_time i).
  { cbn [app begin_time]. unfold std_max. destruct y1 as [|b y1]; cbn [app begin_time] in *.
    - assert (nltb (s_time i) (s_time p) = false) as -> by (num_hyps; num). reflexivity.
    - specialize (Hly b (or_introl eq_refl)).
      assert (nltb (s_time i) (s_time b) = false) as -> by (num_hyps; num). reflexivity. }
  change (i :: xs) with ([] ++ i :: xs). rewrite synchronize_split; rewrite Hbt.
  - rewrite last_opt_snoc. unfold sync_first. cbn [fst snd last_opt].
    assert (nltb (s_time i) (s_time i) = false) as -> by num. cbn [bind]. rewrite Hij. reflexivity.
  - constructor.
  - constructor; [num|]. eapply Forall_impl; [|exact Hfx]. cbn. intros a Ha. num_hyps; num.
  - rewrite Forall_forall. exact Hly.
  - constructor; [num|]. eapply Forall_impl; [|exact Hfy]. cbn. intros a Ha. num_hyps; num.
Qed.

(** Complete case distinction on two non-empty signals. *)
Inductive overlap (x y : list (sample F)) : Prop :=
| ov_common x1 i xs y1 j ys : x = x1 ++ i :: xs -> y = y1 ++ j :: ys ->
    neqb (s_time i) (s_time j) = true -> (x1 = [] \/ y1 = []) -> overlap x y
| ov_disjoint : nltb (end_time x) (begin_time y) = true \/ nltb (end_time y) (begin_time x) = true -> overlap x y
| ov_x_first x1 p i xs j ys : x = x1 ++ p :: i :: xs -> y = j :: ys ->
    nltb (s_time p) (s_time j) = true -> nltb (s_time j) (s_time i) = true -> overlap x y
| ov_y_first y1 p j ys i xs : x = i :: xs -> y = y1 ++ p :: j :: ys ->
    nltb (s_time p) (s_time i) = true -> nltb (s_time i) (s_time j) = true -> overlap x y.

Lemma locate (x : list (sample F)) t : fine x -> x <> [] -> isnum t = true -> nleb (begin_time x) t = true ->
  nltb (end_time x) t = true \/
  (exists x1 i xs, x = x1 ++ i :: xs /\ neqb (s_time i) t = true) \/
  (exists x1 p i xs, x = x1 ++ p :: i :: xs /\ nltb (s_time p) t = true /\ nltb t (s_time i) = true).
Proof.
  intros Hx Hnx Ht Hb. destruct (split_at x t (proj1 Hx) (proj2 Hx) Ht) as (x1 & x2 & -> & H1 & H2).
  destruct x2 as [|i xs].
  - left. rewrite app_nil_r in *. unfold end_time. destruct (last_opt x1) as [a|] eqn:E.
    + rewrite Forall_forall in H1. apply H1, last_opt_In, E.
    + apply last_opt_none in E. congruence.
  - right. assert (Hi : isnum (s_time i) = true).
    { apply fine_app_r in Hx. apply fine_cons in Hx. apply Hx. }
    inversion H2 as [|? ? Hit H2']; subst.
    destruct (neqb (s_time i) t) eqn:E; [left; eauto|].
    right. destruct x1 as [|p x1 _] using rev_ind.
    + exfalso. cbn in Hb. num.
    + exists x1, p, i, xs. rewrite <- app_assoc. split; [reflexivity|].
      apply Forall_app in H1 as [_ H1]. inversion H1; subst. split; [assumption|]. num.
Qed.

Lemma overlap_cases x y : fine x -> fine y -> x <> [] -> y <> [] -> overlap x y.
Proof.
  intros Hx Hy Hnx Hny. assert (Hbx := begin_num x Hx Hnx). assert (Hby := begin_num y Hy Hny).
  destruct (nleb (begin_time x) (begin_time y)) eqn:E.
  - destruct (locate x (begin_time y) Hx Hnx Hby E) as [H|[(x1 & i & xs & -> & H)|(x1 & p & i & xs & -> & H1 & H2)]].
    + apply ov_disjoint. auto.
    + destruct y as [|j ys]; [congruence|]. cbn [begin_time] in H.
      apply (ov_common _ _ x1 i xs [] j ys); auto.
    + destruct y as [|j ys]; [congruence|]. cbn [begin_time] in *.
      apply (ov_x_first _ _ x1 p i xs j ys); auto.
  - assert (E' : nleb (begin_time y) (begin_time x) = true) by num.
    destruct (locate y (begin_time x) Hy Hny Hbx E') as [H|[(y1 & j & ys & -> & H)|(y1 & p & j & ys & -> & H1 & H2)]].
    + apply ov_disjoint. auto.
    + destruct x as [|i xs]; [congruence|]. cbn [begin_time] in H.
      apply (ov_common _ _ [] i xs y1 j ys); auto. num_hyps; num.
    + destruct x as [|i xs]; [congruence|]. cbn [begin_time] in *.
      apply (ov_y_first _ _ y1 p j ys i xs); auto.
Qed.

Lemma sync_empty_l (y : signal F) : synchronize [] y = UB.
Proof.
  unfold synchronize, synchronize_fuel. cbn [lower_bound length lower_bound_loop Nat.eqb bind]. reflexivity.
Qed.

Lemma sync_empty_r (x : signal F) : synchronize x [] = UB.
Proof.
  unfold synchronize, synchronize_fuel.
  destruct (lower_bound_total (before (std_max (begin_time x) (begin_time []))) x) as (k & -> & _). cbn [bind].
  destruct (iter_at x k) as [[p|] xs]; unfold sync_first; cbn [fst snd]; destruct xs as [|i xs]; try reflexivity;
    destruct (nltb _ _); reflexivity.
Qed.

(** NaN timestamps: the loop never advances. *)
Lemma sync_loop_spin fuel p i xs q j ys xv yv :
  isnum (s_time i) = false \/ isnum (s_time j) = false ->
  sync_loop fuel p (i :: xs) q (j :: ys) xv yv = Hang.
Proof.
  intros H. induction fuel as [|fuel IH]; [reflexivity|]. cbn [sync_loop].
  assert (neqb (s_time i) (s_time j) = false) as -> by (destruct H; [apply neqb_nan_l|apply neqb_nan_r]; assumption).
  assert (nltb (s_time i) (s_time j) = false) as -> by (destruct H; [apply nltb_nan_l|apply nltb_nan_r]; assumption).
  assert (nltb (s_time j) (s_time i) = false) as -> by (destruct H; [apply nltb_nan_r|apply nltb_nan_l]; assumption).
  exact IH.
Qed.

Lemma sync_hang fuel (i j : sample F) xs ys : isnum (s_time i) = false ->
  synchronize_fuel fuel (i :: xs) (j :: ys) = Hang.
Proof.
  intros Hi.
  assert (Hb : std_max (begin_time (i :: xs)) (begin_time (j :: ys)) = s_time i).
  { unfold std_max. cbn [begin_time]. rewrite nltb_nan_l by exact Hi. reflexivity. }
  assert (Hnone : forall l : list (sample F), Forall (fun a => nltb (s_time a) (s_time i) = false) l).
  { intros l. rewrite Forall_forall. intros a _. apply nltb_nan_r, Hi. }
  change (i :: xs) with ([] ++ i :: xs). change (j :: ys) with ([] ++ j :: ys).
  rewrite synchronize_split; cbn [app]; rewrite Hb; try apply Hnone; try constructor.
  unfold sync_first. cbn [fst snd last_opt]. rewrite !nltb_nan_l by exact Hi. cbn [bind].
  rewrite sync_loop_spin by (left; exact Hi). reflexivity.
Qed.
End Sync.
