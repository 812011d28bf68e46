(** Piecewise-linear functions: representation of a function by points. *)
From Coq Require Import Sorted Reals Lra.
From Flocq Require Import Core.Raux.
From Verif Require Import Base Num NumXR.
From Verif.Model Require Import Signal.
From Verif.Spec Require Import SignalSpec Pwl.
From Verif.Proofs Require Import NumFacts SignalFacts.
Open Scope R_scope.

(** ** Finite values in the extended reals *)
Lemma fin_lt a b : xlt (Fin a) (Fin b) = Rlt_bool a b. Proof. reflexivity. Qed.
Lemma fin_le a b : xle (Fin a) (Fin b) = Rle_bool a b.
Proof. unfold xle. cbn. case Rlt_bool_spec; case Rle_bool_spec; intros; try reflexivity; exfalso; lra. Qed.
Lemma fin_eq a b : xeq (Fin a) (Fin b) = Req_bool a b.
Proof.
  unfold xeq. rewrite !fin_le. case Req_bool_spec; case Rle_bool_spec; case Rle_bool_spec; intros; try reflexivity; exfalso; lra.
Qed.
Lemma fin_sub a b : xsub (Fin a) (Fin b) = Fin (a - b). Proof. reflexivity. Qed.
Lemma fin_div a b : b <> 0 -> xdiv (Fin a) (Fin b) = Fin (a / b).
Proof. intros H. cbn. rewrite Req_bool_false by exact H. reflexivity. Qed.
Lemma fin_num a : isnum (Fin a) = true. Proof. rewrite xisnum. reflexivity. Qed.

Definition inj (p : R * R) : XR * XR := (Fin (fst p), Fin (snd p)).
Definition fsig (l : list (R * R)) : signal XR := sig_of (map inj l).
Definition rincr (l : list (R * R)) : Prop := StronglySorted (fun p q => fst p < fst q) l.

Lemma rincr_cons p l : rincr (p :: l) <-> rincr l /\ Forall (fun q => fst p < fst q) l.
Proof. split; [inversion 1; auto|]. intros [H1 H2]. constructor; auto. Qed.
Lemma rincr_cons2 p q l : rincr (p :: q :: l) <-> fst p < fst q /\ rincr (q :: l).
Proof.
  rewrite rincr_cons. split; intros [H1 H2].
  - split; [|exact H1]. inversion H2; assumption.
  - split; [exact H2|]. constructor; [exact H1|]. apply rincr_cons in H2 as [_ H3].
    eapply Forall_impl; [|exact H3]. cbn. intros a Ha. lra.
Qed.
Lemma rincr_app l1 l2 : rincr (l1 ++ l2) <-> rincr l1 /\ rincr l2 /\ (forall a b, In a l1 -> In b l2 -> fst a < fst b).
Proof.
  induction l1 as [|a l1 IH]; cbn [app].
  - split; intros H; [|tauto]. split; [constructor|]. split; [exact H|]. intros a b [].
  - rewrite !rincr_cons, IH, Forall_app, !Forall_forall. split; intros H.
    + destruct H as ((H1 & H2 & H3) & H4 & H5). repeat split; auto. intros x b [->|Ha] Hb; auto.
    + destruct H as ((H1 & H2) & H3 & H4). repeat split; auto; intros; apply H4; cbn; auto.
Qed.

Lemma rincr_increasing l : rincr l <-> increasing (map fst (map inj l)).
Proof.
  induction l as [|p l IH]; [split; constructor|]. cbn [map fst inj]. rewrite rincr_cons, increasing_cons, IH.
  assert (Forall (fun q => fst p < fst q) l <-> Forall (fun u => nltb (Fin (fst p)) u = true) (map fst (map inj l))) as ->; [|reflexivity].
  rewrite !Forall_map, !Forall_forall. split; intros H q Hq; specialize (H q Hq); cbn in *.
  - apply Rlt_bool_true. exact H.
  - revert H. case Rlt_bool_spec; [auto|discriminate].
Qed.
Lemma inj_num l : all_num (map fst (map inj l)).
Proof. unfold all_num. rewrite !Forall_map, Forall_forall. intros p _. cbn [inj fst]. apply fin_num. Qed.
Lemma rincr_wfp l : rincr l <-> wfp (map inj l).
Proof. unfold wfp. rewrite <- rincr_increasing. pose proof (inj_num l). tauto. Qed.

Lemma combine_map {A B C} (f : A -> B) (g : A -> C) l : combine (map f l) (map g l) = map (fun a => (f a, g a)) l.
Proof. induction l; cbn; [|f_equal]; auto. Qed.

Lemma built_iff l s : built l s <-> rincr l /\ s = fsig l.
Proof.
  unfold built. rewrite from_vectors_canon by (rewrite !map_length; reflexivity). rewrite combine_map.
  change (map (fun a => (Fin (fst a), Fin (snd a))) l) with (map inj l).
  rewrite rincr_increasing. rewrite <- increasing_steps by apply inj_num.
  destruct (steps_ok (map inj l)); split; intros H.
  - injection H as <-. split; reflexivity.
  - destruct H as [_ ->]. reflexivity.
  - discriminate H.
  - destruct H as [H _]. discriminate H.
Qed.

Lemma fsig_wf l : rincr l -> wf (fsig l).
Proof. intros H. apply wf_canon. exists (map inj l). split; [apply rincr_wfp, H|reflexivity]. Qed.
Lemma fsig_fine l : rincr l -> all_num (times (fsig l)) /\ increasing (times (fsig l)).
Proof. intros H. apply fsig_wf in H as (? & ? & ?). auto. Qed.

(** ** Lines and evaluation *)
Definition line (p q : R * R) (t : R) : R :=
  snd p + (snd q - snd p) / (fst q - fst p) * (t - fst p).

Fixpoint pw (l : list (R * R)) (t : R) : R :=
  match l with
  | [] => 0
  | p :: r =>
      match r with
      | [] => snd p
      | q :: _ => if Rle_dec t (fst q) then line p q t else pw r t
      end
  end.

Definition affine_on (g : R -> R) (a b : R) : Prop :=
  exists m c, forall t, a <= t <= b -> g t = m * t + c.

Fixpoint repr (l : list (R * R)) (g : R -> R) : Prop :=
  match l with
  | [] => True
  | p :: r =>
      snd p = g (fst p) /\
      match r with [] => True | q :: _ => fst p < fst q /\ affine_on g (fst p) (fst q) end /\
      repr r g
  end.

Lemma line_l p q : line p q (fst p) = snd p.
Proof. unfold line. ring. Qed.
Lemma line_r p q : fst p < fst q -> line p q (fst q) = snd q.
Proof. intros H. unfold line. field. lra. Qed.
Lemma line_affine p q a b : affine_on (line p q) a b.
Proof.
  exists ((snd q - snd p) / (fst q - fst p)), (snd p - (snd q - snd p) / (fst q - fst p) * fst p).
  intros t _. unfold line. ring.
Qed.

Lemma affine_ext g h a b : (forall t, a <= t <= b -> g t = h t) -> affine_on g a b -> affine_on h a b.
Proof. intros E (m & c & H). exists m, c. intros t Ht. rewrite <- E by exact Ht. apply H, Ht. Qed.
Lemma affine_sub g a b a' b' : a <= a' -> b' <= b -> affine_on g a b -> affine_on g a' b'.
Proof. intros ? ? (m & c & H). exists m, c. intros t Ht. apply H. lra. Qed.

Lemma affine_line g p q t : affine_on g (fst p) (fst q) -> snd p = g (fst p) -> snd q = g (fst q) ->
  fst p < fst q -> fst p <= t <= fst q -> line p q t = g t.
Proof.
  intros (m & c & H) Hp Hq Hlt Ht. unfold line. rewrite Hp, Hq.
  rewrite (H t Ht), (H (fst p)), (H (fst q)) by lra. field. lra.
Qed.

Lemma final_cons p q l : final_time (p :: q :: l) = final_time (q :: l).
Proof. reflexivity. Qed.
Lemma final_snoc l p : final_time (l ++ [p]) = fst p.
Proof. unfold final_time. rewrite last_opt_snoc. reflexivity. Qed.
Lemma final_app l l' : l' <> [] -> final_time (l ++ l') = final_time l'.
Proof. intros H. unfold final_time. rewrite last_opt_app by exact H. reflexivity. Qed.

Lemma repr_rincr l g : repr l g -> rincr l.
Proof.
  induction l as [|p [|q r] IH]; intros H; [constructor|repeat constructor|].
  destruct H as (H1 & (H2 & H3) & H4). apply rincr_cons2. auto.
Qed.

Lemma rincr_first_final l p : rincr l -> In p l -> first_time l <= fst p <= final_time l.
Proof.
  intros H Hp. split.
  - destruct l as [|a l]; [destruct Hp|]. cbn. apply rincr_cons in H as [_ H]. destruct Hp as [->|Hp]; [lra|].
    rewrite Forall_forall in H. specialize (H p Hp). lra.
  - unfold final_time. destruct (last_opt l) as [a|] eqn:E; [|apply last_opt_none in E; subst; destruct Hp].
    apply last_opt_some in E as [l' ->]. apply rincr_app in H as (_ & _ & H).
    apply in_app_or in Hp as [Hp|[->|[]]]; [|lra]. specialize (H p a Hp (or_introl eq_refl)). lra.
Qed.

Lemma pw_hd p r : rincr (p :: r) -> pw (p :: r) (fst p) = snd p.
Proof.
  destruct r as [|q r]; [reflexivity|]. intros H. apply rincr_cons2 in H as [H _]. cbn [pw].
  destruct (Rle_dec (fst p) (fst q)); [apply line_l|lra].
Qed.
Lemma pw_tail p q r t : rincr (p :: q :: r) -> fst q <= t -> pw (p :: q :: r) t = pw (q :: r) t.
Proof.
  intros Hpq Ht. pose proof Hpq as Hpq0. apply rincr_cons2 in Hpq0 as [Hlt Hr].
  change (pw (p :: q :: r) t) with (if Rle_dec t (fst q) then line p q t else pw (q :: r) t).
  destruct (Rle_dec t (fst q)) as [Hle|_]; [|reflexivity].
  assert (t = fst q) by lra. subst t. rewrite line_r by exact Hlt. rewrite pw_hd by exact Hr. reflexivity.
Qed.
Lemma pw_first p q r t : t <= fst q -> pw (p :: q :: r) t = line p q t.
Proof. intros H. cbn [pw]. destruct (Rle_dec t (fst q)); [reflexivity|lra]. Qed.

Lemma repr_ext l g h : (forall t, first_time l <= t <= final_time l -> g t = h t) -> repr l g -> repr l h.
Proof.
  induction l as [|p [|q r] IH]; intros E H.
  - exact I.
  - destruct H as (H1 & _). cbn. split; [|auto]. rewrite H1. apply E. unfold final_time. cbn. lra.
  - pose proof (repr_rincr _ _ H) as Hi. pose proof (rincr_first_final _ p Hi (or_introl eq_refl)) as B1.
    pose proof (rincr_first_final _ q Hi (or_intror (or_introl eq_refl))) as B2. cbn [first_time] in *.
    destruct H as (H1 & (H2 & H3) & H4). split; [|split; [split; [exact H2|]|]].
    + rewrite H1. apply E. lra.
    + eapply affine_ext; [|exact H3]. intros t Ht. apply E. lra.
    + apply IH; [|exact H4]. intros t Ht. cbn [first_time] in Ht. apply E. rewrite final_cons. lra.
Qed.

Lemma repr_pw l : rincr l -> repr l (pw l).
Proof.
  induction l as [|p [|q r] IH]; intros H.
  - exact I.
  - repeat split.
  - pose proof H as H0. apply rincr_cons2 in H0 as [Hlt Hr]. split; [|split; [split; [exact Hlt|]|]].
    + rewrite pw_hd by exact H. reflexivity.
    + apply affine_ext with (line p q); [|apply line_affine]. intros t Ht. rewrite pw_first by lra. reflexivity.
    + eapply repr_ext; [|apply IH, Hr]. intros t Ht. cbn [first_time] in Ht. rewrite pw_tail by (try lra; exact H). reflexivity.
Qed.

Lemma repr_app_r l1 l2 g : repr (l1 ++ l2) g -> repr l2 g.
Proof. induction l1 as [|a l1 IH]; cbn; [auto|]. intros (_ & _ & H). auto. Qed.

Lemma repr_In l g p : repr l g -> In p l -> snd p = g (fst p).
Proof. induction l as [|a l IH]; intros H []; [subst; apply H|]. apply IH; [apply H|assumption]. Qed.

Lemma find_segment l t : rincr l -> l <> [] -> first_time l <= t <= final_time l ->
  (exists p, In p l /\ fst p = t) \/ (exists l1 p q l2, l = l1 ++ p :: q :: l2 /\ fst p < t < fst q).
Proof.
  induction l as [|p [|q r] IH]; intros Hi Hne Ht; [congruence| |].
  - left. exists p. split; [left; reflexivity|]. unfold final_time in Ht. cbn in Ht. lra.
  - apply rincr_cons2 in Hi as [Hlt Hi]. rewrite final_cons in Ht. cbn [first_time] in *.
    destruct (Rle_dec (fst q) t) as [Hq|Hq].
    + destruct IH as [(s & Hs & E)|(l1 & s & u & l2 & E & Hs)]; auto; [discriminate|lra| |].
      * left. exists s. split; [right; exact Hs|exact E].
      * right. exists (p :: l1), s, u, l2. split; [cbn; rewrite E; reflexivity|exact Hs].
    + destruct (Req_dec (fst p) t) as [E|E].
      * left. exists p. split; [left; reflexivity|exact E].
      * right. exists [], p, q, r. split; [reflexivity|lra].
Qed.

(** The relation [pwl] is the graph of the represented function on the time range. *)
Lemma repr_pwl l g t v : repr l g -> l <> [] ->
  (pwl l t v <-> first_time l <= t <= final_time l /\ v = g t).
Proof.
  intros H Hne. pose proof (repr_rincr _ _ H) as Hi. split.
  - intros [(p & Hp & <- & <-)|(l1 & p & q & l2 & -> & Ht & ->)].
    + split; [apply rincr_first_final; assumption|]. eapply repr_In; eauto.
    + assert (Hp : In p (l1 ++ p :: q :: l2)) by (apply in_or_app; right; left; reflexivity).
      assert (Hq : In q (l1 ++ p :: q :: l2)) by (apply in_or_app; right; right; left; reflexivity).
      pose proof (rincr_first_final _ p Hi Hp). pose proof (rincr_first_final _ q Hi Hq). split; [lra|].
      apply repr_app_r in H. destruct H as (Ha & (Hb & Hc) & Hd & _).
      change (line p q t = g t). apply affine_line; auto. lra.
  - intros [Ht ->]. destruct (find_segment l t Hi Hne Ht) as [(p & Hp & <-)|(l1 & p & q & l2 & -> & Hs)].
    + left. exists p. split; [exact Hp|]. split; [reflexivity|]. eapply repr_In; eauto.
    + right. exists l1, p, q, l2. split; [reflexivity|]. split; [exact Hs|].
      apply repr_app_r in H. destruct H as (Ha & (Hb & Hc) & Hd & _).
      symmetry. apply affine_line; auto. lra.
Qed.

Lemma pwl_pw l t v : rincr l -> l <> [] ->
  (pwl l t v <-> first_time l <= t <= final_time l /\ v = pw l t).
Proof. intros H Hne. apply repr_pwl; [apply repr_pw, H|exact Hne]. Qed.

Lemma repr_eq_pw l g t : repr l g -> l <> [] -> first_time l <= t <= final_time l -> pw l t = g t.
Proof.
  intros H Hne Ht. pose proof (repr_rincr _ _ H) as Hi.
  assert (Hp : pwl l t (pw l t)) by (apply pwl_pw; auto).
  apply (repr_pwl l g) in Hp; [|exact H|exact Hne]. apply Hp.
Qed.

(** Interpolation of a stored sample is the line to its successor. *)
Lemma fsig_cons p l : fsig (p :: l) =
  mkSample (Fin (fst p)) (Fin (snd p)) (match l with [] => Fin 0 | q :: _ => slope (inj p) (inj q) end) :: fsig l.
Proof. destruct l; reflexivity. Qed.

Lemma slope_inj p q : fst p < fst q -> slope (inj p) (inj q) = Fin ((snd q - snd p) / (fst q - fst p)).
Proof. intros H. unfold slope. cbn [inj fst snd]. change nsub with xsub. change ndiv with xdiv.
  rewrite !fin_sub. apply fin_div. lra. Qed.

Lemma interp_line p q t : fst p < fst q ->
  interpolate (mkSample (Fin (fst p)) (Fin (snd p)) (slope (inj p) (inj q))) (Fin t) = Fin (line p q t).
Proof. intros H. rewrite slope_inj by exact H. reflexivity. Qed.

Lemma begin_fsig l : begin_time (fsig l) = Fin (first_time l).
Proof. destruct l; reflexivity. Qed.
Lemma end_fsig l : end_time (fsig l) = Fin (final_time l).
Proof. unfold end_time, fsig, final_time. rewrite last_opt_sig_of, last_opt_map. destruct (last_opt l); reflexivity. Qed.
Lemma points_fsig l : points (fsig l) = map inj l.
Proof. apply points_sig_of. Qed.
Lemma fsig_app l1 l2 : l2 <> [] -> exists l1', fsig (l1 ++ l2) = l1' ++ fsig l2 /\ length l1' = length l1.
Proof.
  intros H. induction l1 as [|a l1 IH]; cbn [app].
  - exists []. split; reflexivity.
  - destruct IH as (l1' & E & L). rewrite fsig_cons, E. eexists (_ :: l1'). split; [reflexivity|]. cbn. rewrite L. reflexivity.
Qed.
