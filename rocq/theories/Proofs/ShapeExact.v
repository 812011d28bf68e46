(** simplify, shift, resize and at as functions of time (exact arithmetic). *)
From Coq Require Import Sorted Reals Lra.
From Flocq Require Import Core.Raux.
From Verif Require Import Base Num NumXR.
From Verif.Model Require Import Signal.
From Verif.Spec Require Import SignalSpec Subseq Pwl.
From Verif.Proofs Require Import NumFacts SignalFacts LowerBound Reshape Sync PwlFacts.
Open Scope R_scope.

(** ** simplify *)

Definition rdrop (b q : R * R) (next : list (R * R)) : bool :=
  Req_bool (snd b) (snd q) && match next with [] => true | n :: _ => Req_bool (snd n) (snd q) end.

Fixpoint rkeep (b : R * R) (l : list (R * R)) : list (R * R) :=
  match l with
  | [] => []
  | q :: l' => if rdrop b q l' then rkeep b l' else q :: rkeep q l'
  end.

Lemma rkeep_keep l : forall b, rincr l -> simp_keep (Some (inj b)) (fsig l) = map inj (rkeep b l).
Proof.
  induction l as [|q l IH]; intros b I; [reflexivity|].
  assert (I' : rincr l) by (destruct l; [constructor|apply rincr_cons2 in I; apply I]).
  rewrite fsig_cons. cbn [simp_keep rkeep s_time s_value].
  assert (E : simp_drop (inj b) (mkSample (Fin (fst q)) (Fin (snd q))
      (match l with [] => Fin 0 | r :: _ => slope (inj q) (inj r) end)) = rdrop b q l).
  { unfold simp_drop, rdrop. cbn [s_time s_value s_deriv inj fst snd].
    change (nadd (Fin (snd b)) (nmul nzero (nsub (Fin (fst q)) (Fin (fst b))))) with (Fin (snd b + 0 * (fst q + - fst b))).
    change (@neqb XR _) with xeq. change (@nzero XR _) with (Fin 0).
    replace (snd b + 0 * (fst q + - fst b)) with (snd b) by ring. rewrite fin_eq. f_equal.
    destruct l as [|r l]; [rewrite fin_eq; apply Req_bool_true; reflexivity|].
    apply rincr_cons2 in I as [I _]. rewrite slope_inj by exact I. rewrite fin_eq.
    case (Req_bool_spec (snd r) (snd q)); intros H.
    - apply Req_bool_true. rewrite H. unfold Rdiv. replace (snd q - snd q) with 0 by ring. ring.
    - apply Req_bool_false. intros E. apply H.
      assert (snd r - snd q = 0); [|lra].
      replace (snd r - snd q) with ((snd r - snd q) / (fst r - fst q) * (fst r - fst q)) by (field; lra).
      rewrite <- E. ring. }
  rewrite E. destruct (rdrop b q l); [apply IH, I'|]. cbn [map]. f_equal. apply (IH q I').
Qed.

Definition const_on (g : R -> R) (a b v : R) : Prop := forall t, a <= t <= b -> g t = v.

Lemma affine_const g a b v : affine_on g a b -> a < b -> g a = v -> g b = v -> const_on g a b v.
Proof.
  intros (m & c & H) L Ha Hb t Ht. rewrite H in Ha by lra. rewrite H in Hb by lra. rewrite H by lra.
  assert (m * (b - a) = 0) by lra. assert (m = 0) by (destruct (Rmult_integral _ _ H0); lra). subst m. lra.
Qed.
Lemma const_affine g a b v : const_on g a b v -> affine_on g a b.
Proof. intros H. exists 0, v. intros t Ht. rewrite H by lra. ring. Qed.

Definition rfin (k : list (R * R)) (l : list (R * R)) : list (R * R) :=
  if Req_bool (final_time l) (final_time k) then k
  else match last_opt l with Some p => k ++ [p] | None => k end.

Lemma rfin_cons b q k c l : rfin (b :: q :: k) (c :: q :: l) = b :: rfin (q :: k) (q :: l).
Proof.
  unfold rfin. rewrite !final_cons. cbn [last_opt]. destruct (Req_bool _ _); [reflexivity|].
  destruct (match l with [] => _ | _ => _ end); reflexivity.
Qed.

Lemma rfin_hd b k l : exists k', rfin (b :: k) l = b :: k'.
Proof. unfold rfin. destruct (Req_bool _ _); [eauto|]. destruct (last_opt l); eexists; reflexivity. Qed.

Lemma rkeep_repr g l : forall b c,
  (c = b \/ (fst b < fst c /\ const_on g (fst b) (fst c) (snd b) /\ snd c = snd b /\
     match l with [] => True | q :: _ => snd q = snd c end)) ->
  repr (c :: l) g -> snd b = g (fst b) -> repr (rfin (b :: rkeep b l) (c :: l)) g.
Proof.
  induction l as [|q l IH]; intros b c Hc R Hb.
  - cbn [rkeep]. unfold rfin. change (final_time [b]) with (fst b). change (final_time [c]) with (fst c).
    cbn [last_opt]. destruct Hc as [-> | (L & C & Hv & _)].
    + rewrite Req_bool_true by reflexivity. cbn. auto.
    + rewrite Req_bool_false by lra. cbn. repeat split; auto.
      * eapply const_affine; eauto.
      * rewrite C by lra. exact Hv.
  - destruct R as (Rc & (Lcq & Acq) & Rq). cbn [rkeep].
    assert (Rv : snd q = g (fst q)) by (destruct Rq as [? _]; assumption).
    destruct (rdrop b q l) eqn:D.
    + unfold rdrop in D. apply andb_prop in D as [D1 D2].
      assert (E1 : snd b = snd q) by (revert D1; case Req_bool_spec; [auto|discriminate]).
      replace (rfin (b :: rkeep b l) (c :: q :: l)) with (rfin (b :: rkeep b l) (q :: l)) by reflexivity.
      apply IH; auto. right.
      assert (Ccq : const_on g (fst c) (fst q) (snd b)).
      { apply affine_const; auto; [|congruence]. destruct Hc as [-> | (_ & _ & Hv & _)]; congruence. }
      repeat split.
      * destruct Hc as [-> | (L & _)]; lra.
      * intros t Ht. destruct Hc as [-> | (L & C & _)]; [apply Ccq; lra|].
        destruct (Rle_dec t (fst c)); [apply C; lra|apply Ccq; lra].
      * congruence.
      * destruct l as [|n l]; [exact I|]. revert D2. case Req_bool_spec; [auto|discriminate].
    + rewrite rfin_cons. specialize (IH q q (or_introl eq_refl) Rq Rv).
      destruct (rfin_hd q (rkeep q l) (q :: l)) as [k' Ek]. rewrite Ek in *. cbn [repr]. split; [exact Hb|]. split; [|exact IH].
      destruct Hc as [-> | (L & C & Hv & Hq)]; [split; assumption|]. split; [lra|].
      apply const_affine with (v := snd b). intros t Ht. destruct (Rle_dec t (fst c)); [apply C; lra|].
      refine (affine_const g (fst c) (fst q) (snd b) Acq Lcq _ _ t _); [congruence|congruence|lra].
Qed.

Lemma map_inj_eq l l' : map inj l = map inj l' -> l = l'.
Proof.
  revert l'. induction l as [|[a b] l IH]; intros [|[c d] l'] H; try discriminate; [reflexivity|].
  injection H as <- <- H. f_equal. auto.
Qed.

Lemma simplify_exact l : rincr l -> l <> [] -> exists l',
  simplify (fsig l) = Ok (fsig l') /\ l' <> [] /\ repr l' (pw l) /\ subseq l' l /\
  first_time l' = first_time l /\ final_time l' = final_time l.
Proof.
  intros I N. destruct l as [|b l]; [congruence|]. clear N.
  assert (I' : rincr l) by (destruct l; [constructor|apply rincr_cons2 in I; apply I]).
  set (l' := rfin (b :: rkeep b l) (b :: l)). exists l'.
  assert (W : wfp (points (fsig (b :: l)))) by (rewrite points_fsig; apply rincr_wfp, I).
  assert (E : simp_points (fsig (b :: l)) = map inj l').
  { assert (K : simp_keep None (fsig (b :: l)) = map inj (b :: rkeep b l)).
    { rewrite fsig_cons. cbn [simp_keep]. change (s_time _, s_value _) with (inj b). rewrite rkeep_keep by exact I'. reflexivity. }
    unfold simp_points. rewrite K, end_fsig.
    change (sig_of (map inj (b :: rkeep b l))) with (fsig (b :: rkeep b l)).
    rewrite end_fsig. change (@neqb XR _) with xeq. rewrite fin_eq. unfold l', rfin.
    destruct (Req_bool _ _); cbn [negb]; [reflexivity|].
    rewrite points_fsig, last_opt_map. destruct (last_opt (b :: l)); cbn [option_map]; [|reflexivity].
    rewrite map_app. reflexivity. }
  assert (Hr : repr l' (pw (b :: l))).
  { apply rkeep_repr; [left; reflexivity|apply repr_pw, I|]. symmetry. apply pw_hd. exact I. }
  split; [rewrite simplify_ok by exact W; rewrite E; reflexivity|].
  destruct (rfin_hd b (rkeep b l) (b :: l)) as [k Ek]. fold l' in Ek.
  split; [rewrite Ek; discriminate|]. split; [exact Hr|].
  split; [|split].
  - pose proof (simp_points_subseq _ W) as S. rewrite E, points_fsig in S.
    remember (map inj l') as A eqn:EA. remember (map inj (b :: l)) as B eqn:EB. clear -S EA EB.
    revert EA EB. generalize l' as u. generalize (b :: l) as v.
    induction S as [|a A B S IH|a A B S IH]; intros v u EA EB.
    + destruct u; [|discriminate]. apply subseq_nil_l.
    + destruct v as [|[y1 y2] v]; [discriminate|]. destruct u as [|[z1 z2] u]; [discriminate|].
      cbn [map] in *. injection EB as EB1 EB. injection EA as EA1 EA. rewrite EA1 in EB1. injection EB1 as -> ->.
      apply sub_keep, IH; assumption.
    + destruct v as [|y v]; [discriminate|]. cbn [map] in *. injection EB as _ EB. apply sub_skip, IH; assumption.
  - rewrite Ek. reflexivity.
  - pose proof (simp_points_last _ W) as S. rewrite E, points_fsig, !last_opt_map in S. unfold final_time.
    destruct (last_opt l') as [[x1 x2]|]; destruct (last_opt (b :: l)) as [[y1 y2]|]; unfold inj in S; cbn [option_map fst snd] in *; try discriminate; [|reflexivity].
    injection S; auto.
Qed.

(** ** shift *)

Definition move (dt : R) (p : R * R) : R * R := (fst p + dt, snd p).

Lemma fsig_move dt l : rincr l -> map (add_time (Fin dt)) (fsig l) = fsig (map (move dt) l).
Proof.
  induction l as [|p l IH]; intros I; [reflexivity|]. cbn [map]. rewrite !fsig_cons. cbn [map].
  rewrite IH by (destruct l; [constructor|apply rincr_cons2 in I; apply I]). f_equal.
  unfold add_time. cbn [s_time s_value s_deriv move fst snd]. f_equal.
  destruct l as [|q l]; [reflexivity|]. apply rincr_cons2 in I as [I _]. cbn [map].
  rewrite !slope_inj by (cbn; lra). cbn [move fst snd]. do 2 f_equal. ring.
Qed.

Lemma rincr_move dt l : rincr l -> rincr (map (move dt) l).
Proof.
  induction l as [|p [|q l] IH]; intros I; [constructor|cbn; repeat constructor|].
  apply rincr_cons2 in I as [I1 I2]. cbn [map]. apply rincr_cons2. split; [cbn; lra|]. apply IH, I2.
Qed.

Lemma shift_exact dt l : rincr l -> shift (fsig l) (Fin dt) = Ok (fsig (map (move dt) l)).
Proof.
  intros I. unfold shift. rewrite from_samples_self by apply fsig_wf, I. cbn [bind].
  rewrite fsig_move by exact I. reflexivity.
Qed.

Lemma pwl_move_1 dt l t v : pwl l t v -> pwl (map (move dt) l) (t + dt) v.
Proof.
  intros [(p & Hp & <- & <-)|(l1 & p & q & l2 & -> & Ht & ->)].
  - left. exists (move dt p). split; [apply in_map, Hp|]. split; reflexivity.
  - right. exists (map (move dt) l1), (move dt p), (move dt q), (map (move dt) l2).
    rewrite map_app. cbn [map move fst snd]. repeat split; try lra. f_equal. f_equal; [f_equal; ring|ring].
Qed.

Lemma move_move a b l : map (move b) (map (move a) l) = map (move (a + b)) l.
Proof. rewrite map_map. apply map_ext. intros [t v]. unfold move. cbn. f_equal. ring. Qed.

Lemma move_0 l : map (move 0) l = l.
Proof. rewrite <- (map_id l) at 2. apply map_ext. intros [t v]. unfold move. cbn. f_equal. ring. Qed.

Lemma pwl_move dt l t v : pwl (map (move dt) l) (t + dt) v <-> pwl l t v.
Proof.
  split; [|apply pwl_move_1]. intros H. apply (pwl_move_1 (- dt)) in H.
  rewrite move_move in H. replace (dt + - dt) with 0 in H by ring. rewrite move_0 in H.
  replace (t + dt + - dt) with t in H by ring. exact H.
Qed.

(** ** resize in the last segment *)

Lemma resize_exact l p q start fin fill :
  rincr (l ++ [p; q]) -> fst p <= start < fst q -> start < fin ->
  exists l', resize (fsig (l ++ [p; q])) (Fin start) (Fin fin) (Fin fill) = Ok (fsig l') /\
    first_time l' = start /\ final_time l' = Rmin fin (fst q) /\ l' <> [] /\
    repr l' (pw (l ++ [p; q])).
Proof.
  intros I H1 H2.
  destruct (fsig_app l [p; q]) as (l0 & El & _); [discriminate|].
  destruct (fsig_fine _ I) as [W1 W2]. rewrite El in *.
  pose proof (repr_app_r _ _ _ (repr_pw _ I)) as Rp.
  destruct Rp as (Vp & (Lpq & Apq) & Vq & _).
  set (g := pw (l ++ [p; q])) in *.
  assert (Hi : forall t, fst p <= t <= fst q ->
     interpolate (mkSample (Fin (fst p)) (Fin (snd p)) (slope (inj p) (inj q))) (Fin t) = Fin (g t)).
  { intros t Ht. rewrite interp_line by exact Lpq. f_equal. apply affine_line; auto. }
  change (fsig [p; q]) with [mkSample (Fin (fst p)) (Fin (snd p)) (slope (inj p) (inj q)); mkSample (Fin (fst q)) (Fin (snd q)) (Fin 0)] in *.
  rewrite resize_last_segment; auto.
  2: change (@nltb XR _) with xlt; rewrite fin_lt; apply Rlt_bool_true; lra.
  2: cbn [s_time]; change (@nleb XR _) with xle; rewrite fin_le; apply Rle_bool_true; lra.
  2: cbn [s_time]; change (@nltb XR _) with xlt; rewrite fin_lt; apply Rlt_bool_true; lra.
  rewrite Hi by lra. cbn [s_time s_value]. change (@nleb XR _) with xle. rewrite fin_le.
  case Rle_bool_spec; intros Hf.
  - exists [(start, g start); q]. split; [reflexivity|]. split; [reflexivity|].
    split; [rewrite Rmin_right by lra; reflexivity|]. split; [discriminate|].
    cbn. repeat split; auto; try lra. eapply affine_sub; [| |exact Apq]; lra.
  - rewrite Hi by lra. exists [(start, g start); (fin, g fin)]. split; [reflexivity|]. split; [reflexivity|].
    split; [rewrite Rmin_left by lra; reflexivity|]. split; [discriminate|].
    cbn. repeat split; auto; try lra. eapply affine_sub; [| |exact Apq]; lra.
Qed.

(** ** at between samples *)

Lemma at_exact l p q l2 t : rincr (l ++ p :: q :: l2) -> fst p < t < fst q ->
  exists a, at_time (fsig (l ++ p :: q :: l2)) (Fin t) = Ok a /\ s_time a = Fin t /\
    s_value a = Fin (snd q + match l2 with [] => 0 | r :: _ => (snd r - snd q) / (fst r - fst q) end * (t - fst q)).
Proof.
  intros I Ht. destruct (fsig_app (l ++ [p]) (q :: l2)) as (l0 & El & _); [discriminate|].
  rewrite <- app_assoc in El. cbn [app] in El. destruct (fsig_fine _ I) as [W1 W2].
  assert (Et : forall a, In a l0 -> nltb (s_time a) (Fin t) = true).
  { pose proof (f_equal times El) as Em. unfold fsig at 1 in Em. rewrite times_sig_of in Em.
    rewrite map_map in Em.
    assert (El0 : times l0 = map (fun x => Fin (fst x)) (l ++ [p])).
    { replace (l ++ p :: q :: l2) with ((l ++ [p]) ++ q :: l2) in Em by (rewrite <- app_assoc; reflexivity).
      rewrite map_app in Em. rewrite times_app in Em. unfold fsig in Em. rewrite times_sig_of, map_map in Em.
      apply app_inv_tail in Em. symmetry. exact Em. }
    intros a Ha. assert (In (s_time a) (times l0)) by (apply in_map, Ha). rewrite El0 in H.
    apply in_map_iff in H as (x & <- & Hx). change (@nltb XR _) with xlt. cbn. apply Rlt_bool_true.
    replace (l ++ p :: q :: l2) with ((l ++ [p]) ++ q :: l2) in I by (rewrite <- app_assoc; reflexivity).
    apply rincr_app in I as (I1 & _ & _). apply rincr_app in I1 as (_ & _ & I1).
    apply in_app_or in Hx as [Hx|[->|[]]]; [|lra]. specialize (I1 x p Hx (or_introl eq_refl)). lra. }
  rewrite El in *. rewrite fsig_cons in *. rewrite at_miss; auto.
  - eexists. split; [reflexivity|]. split; [reflexivity|]. cbn [s_value].
    unfold interpolate. cbn [s_value s_deriv s_time].
    destruct l2 as [|r l2]; [reflexivity|]. rewrite slope_inj; [reflexivity|].
    apply rincr_app in I as (_ & I & _). apply rincr_cons2 in I as (_ & I). apply rincr_cons2 in I as (I & _). exact I.
  - apply fin_num.
  - change (@nltb XR _) with xlt. cbn. apply Rlt_bool_true. lra.
  - apply Forall_forall. exact Et.
Qed.
