(** C24-C30 and C32 in the form of Props/MinMax.v. *)
From Coq Require Import Sorted Reals Lra Psatz.
From Flocq Require Import IEEE754.BinarySingleNaN Core.Raux.
From Verif Require Import Base Num NumXR NumB64.
From Verif.Model Require Import Signal MonoWedge MinMax.
From Verif.Spec Require Import SignalSpec Pwl.
From Verif.Proofs Require Import NumFacts SignalFacts LowerBound Reshape Sync PwlFacts SyncExact SyncProps SampleFacts
  PairExact MinMaxFacts SeqFacts SeqExact B64Facts WinFacts SignalProps.
Open Scope R_scope.

(** ** Exact arithmetic, two signals *)
Section Exact.
Variables (sg : R) (comp : sample XR -> sample XR -> bool) (bst : R -> R -> R).
Hypothesis SG : sg_comp sg comp.
Hypothesis BST : forall a b, best sg (fun t => bst (a t) (b t)) a b.

Lemma fin_eq_refl a : neqb (Fin a) (Fin a) = true.
Proof. change neqb with xeq. rewrite fin_eq. apply Req_bool_true. reflexivity. Qed.

Lemma length_fsig_graph g ts : length (fsig (graph g ts)) = length ts.
Proof. unfold fsig. rewrite length_sig_of, map_length. apply map_length. Qed.

Lemma pair_graph dbg gx gy h t0 ts : best sg h gx gy -> achain gx t0 ts -> achain gy t0 ts ->
  exists us, minmax_pair dbg comp true (fsig (graph gx (t0 :: ts))) (fsig (graph gy (t0 :: ts))) = Ok (fsig (graph h (t0 :: us))) /\
    achain h t0 us /\ last_from t0 us = last_from t0 ts /\ incl ts us.
Proof.
  intros B Ax Ay. destruct (pair_exact sg comp SG h gx gy t0 ts B Ax Ay) as (us & E & H). exists us. split; [|exact H].
  unfold minmax_pair. cbn [bind]. rewrite !length_fsig_graph, Nat.eqb_refl, !begin_fsig, !end_fsig, !first_graph, !final_graph, !fin_eq_refl.
  unfold assert_. cbn [negb]. rewrite !andb_false_r. cbn [bind]. exact E.
Qed.

Lemma minmax_sync dbg x y x' y' : synchronize x y = Ok (x', y') ->
  minmax_pair dbg comp false x y = minmax_pair dbg comp true x' y'.
Proof. intros H. unfold minmax_pair. rewrite H. reflexivity. Qed.

Lemma pair_fsig dbg lx ly x' y' : rincr lx -> rincr ly -> synchronize (fsig lx) (fsig ly) = Ok (x', y') ->
  let h := fun t => bst (pw lx t) (pw ly t) in
  exists t0 us, minmax_pair dbg comp false (fsig lx) (fsig ly) = Ok (fsig (graph h (t0 :: us))) /\
    achain h t0 us /\ t0 = Rmax (first_time lx) (first_time ly) /\ last_from t0 us = Rmin (final_time lx) (final_time ly) /\
    lx <> [] /\ ly <> [].
Proof.
  intros Ix Iy H h. destruct (sync_exact_inv _ _ _ _ Ix Iy H) as (Nx & Ny & t0 & ts & -> & -> & Ax & Ay & E0 & E1).
  destruct (pair_graph dbg (pw lx) (pw ly) h t0 ts) as (us & E & A & L & _); auto; [apply BST|].
  exists t0, us. split; [rewrite (minmax_sync _ _ _ _ _ H); exact E|]. split; [exact A|]. split; [exact E0|].
  split; [rewrite L; exact E1|auto].
Qed.

Lemma pwl_fun l t v w : rincr l -> pwl l t v -> pwl l t w -> v = w.
Proof.
  intros I H H'. assert (Hne : l <> []).
  { intros ->. destruct H as [(p & [] & _)|(l1 & p & q & l2 & E & _)]. destruct l1; discriminate. }
  apply pwl_pw in H, H'; auto. destruct H as [_ ->], H' as [_ ->]. reflexivity.
Qed.

Lemma pair_pwl dbg lx ly x y : built lx x -> built ly y -> meets x y ->
  exists l z, minmax_pair dbg comp false x y = Ok z /\ built l z /\ l <> [] /\
    first_time l = Rmax (first_time lx) (first_time ly) /\
    forall t v, pwl l t v <-> exists vx vy, pwl lx t vx /\ pwl ly t vy /\ v = bst vx vy.
Proof.
  intros Bx By M. apply built_iff in Bx as [Ix ->]. apply built_iff in By as [Iy ->].
  assert (exists r, synchronize (fsig lx) (fsig ly) = Ok r) as [[x' y'] S] by (apply sync_iff; auto using fsig_wf).
  destruct (pair_fsig dbg lx ly x' y' Ix Iy S) as (t0 & us & E & A & E0 & E1 & Nx & Ny).
  set (h := fun t => bst (pw lx t) (pw ly t)) in *.
  exists (graph h (t0 :: us)), (fsig (graph h (t0 :: us))). split; [exact E|].
  pose proof (achain_rincr _ _ _ A) as I. split; [apply built_iff; auto|]. split; [discriminate|]. split; [exact E0|].
  intros t v. rewrite (repr_pwl _ h) by (try discriminate; apply repr_graph, A). rewrite first_graph, final_graph, E1, E0.
  split.
  - intros [B ->]. pose proof (Rmax_l (first_time lx) (first_time ly)). pose proof (Rmax_r (first_time lx) (first_time ly)).
    pose proof (Rmin_l (final_time lx) (final_time ly)). pose proof (Rmin_r (final_time lx) (final_time ly)).
    exists (pw lx t), (pw ly t). repeat split; try (apply pwl_pw; auto; split; [lra|reflexivity]).
  - intros (vx & vy & Hx & Hy & ->). apply pwl_pw in Hx as [Bx ->]; auto. apply pwl_pw in Hy as [By ->]; auto.
    split; [|reflexivity]. split; [apply Rmax_lub|apply Rmin_glb]; lra.
Qed.

Lemma pair_pwl_same dbg lx ly x y : built lx x -> built ly y -> map fst lx = map fst ly -> lx <> [] ->
  minmax_pair dbg comp true x y = minmax_pair dbg comp false x y /\ meets x y.
Proof.
  intros Bx By E Hne. apply built_iff in Bx as [Ix ->]. apply built_iff in By as [Iy ->].
  assert (Nx : fsig lx <> []) by (destruct lx; [congruence|rewrite fsig_cons; discriminate]).
  assert (Q : synchronize (fsig lx) (fsig ly) = Ok (fsig lx, fsig ly)).
  { apply sync_fixed; auto using fsig_wf. clear -E. revert ly E. induction lx as [|p lx IH]; intros [|q ly] E; try discriminate; [constructor|].
    rewrite !fsig_cons. injection E as E1 E2. constructor; [cbn [s_time]; rewrite E1; apply fin_eq_refl|]. apply IH, E2. }
  split; [symmetry; apply minmax_sync, Q|]. eapply ok_meets; [| |exact Q]; apply wf_fine; apply fsig_wf; assumption.
Qed.

Lemma meets_first lx ly : lx <> [] -> ly <> [] -> first_time lx = first_time ly -> meets (fsig lx) (fsig ly).
Proof.
  intros Nx Ny E. destruct lx as [|p lx]; [congruence|]. destruct ly as [|q ly]; [congruence|]. rewrite !fsig_cons.
  eexists _, _. split; [left; reflexivity|]. split; [left; reflexivity|]. cbn [s_time]. split; [|left; reflexivity].
  cbn in E. rewrite E. apply fin_eq_refl.
Qed.

(** ** n signals *)
Definition starts (t0 : R) (l : list (R * R)) : Prop := l <> [] /\ first_time l = t0.

Lemma best_pick u w : (bst u w = u \/ bst u w = w) /\ sg * bst u w <= sg * u /\ sg * bst u w <= sg * w.
Proof.
  destruct (BST (fun _ => u) (fun _ => w) 0) as [A B]. cbv beta in A, B.
  destruct (Rle_dec (sg * u) (sg * w)) as [C|C].
  - rewrite (A C). repeat split; auto; lra.
  - assert (C' : sg * w <= sg * u) by lra. rewrite (B C'). repeat split; auto; lra.
Qed.

Definition extreme (ls : list (list (R * R))) (t v : R) : Prop :=
  (forall l, In l ls -> exists vl, pwl l t vl) /\ (exists l, In l ls /\ pwl l t v) /\
  (forall l vl, In l ls -> pwl l t vl -> sg * v <= sg * vl).

Lemma fold_exact dbg : forall ls la t0, rincr la -> starts t0 la -> Forall (fun l => rincr l /\ starts t0 l) ls ->
  exists l, minmax_fold dbg comp false (fsig la) (map fsig ls) = Ok (fsig l) /\ rincr l /\ starts t0 l /\
    forall t v, pwl l t v <-> extreme (la :: ls) t v.
Proof.
  induction ls as [|ly ls IH]; intros la t0 Ia [Na Fa] Hf.
  - exists la. split; [reflexivity|]. split; [exact Ia|]. split; [split; assumption|]. intros t v. unfold extreme. split.
    + intros H. split; [intros l [<-|[]]; eauto|]. split; [exists la; cbn; auto|]. intros l vl [<-|[]] Hl. rewrite (pwl_fun _ _ _ _ Ia H Hl). lra.
    + intros (_ & (l & [<-|[]] & H) & _). exact H.
  - inversion Hf as [|? ? [Iy [Ny Fy]] Hf']; subst.
    destruct (pair_pwl dbg la ly (fsig la) (fsig ly)) as (l1 & z & E & Bz & N1 & F1 & P1).
    { apply built_iff; auto. } { apply built_iff; auto. } { apply meets_first; auto. }
    apply built_iff in Bz as [I1 ->].
    destruct (IH l1 (first_time la)) as (l & E' & I' & S' & P'); auto.
    { split; [exact N1|]. rewrite F1, Fy. apply Rmax_left. lra. }
    exists l. cbn [map minmax_fold]. rewrite E. cbn [bind]. split; [exact E'|]. split; [exact I'|]. split; [exact S'|].
    intros t v. rewrite P'. unfold extreme. split.
    + intros (D & (l2 & Hl2 & H2) & M). destruct (D l1 (or_introl eq_refl)) as (v1 & H1). pose proof H1 as H1'. apply P1 in H1 as (vx & vy & Hx & Hy & ->).
      destruct (best_pick vx vy) as (Pk & Lx & Ly). pose proof (M l1 _ (or_introl eq_refl) H1') as M1. split; [|split].
      * intros l0 [<-|[<-|Hl]]; [eauto|eauto|]. apply D. right. exact Hl.
      * destruct Hl2 as [<-|Hl2].
        -- apply P1 in H2 as (ux & uy & Ux & Uy & ->). destruct (best_pick ux uy) as ([-> | ->] & _).
           ++ exists la. cbn; auto.
           ++ exists ly. cbn; auto.
        -- exists l2. cbn; auto.
      * intros l0 vl [<-|[<-|Hl]] H0.
        -- rewrite (pwl_fun _ _ _ _ Ia H0 Hx). lra.
        -- rewrite (pwl_fun _ _ _ _ Iy H0 Hy). lra.
        -- eapply M; [right; exact Hl|exact H0].
    + intros (D & (l2 & Hl2 & H2) & M).
      destruct (D la (or_introl eq_refl)) as (vx & Hx). destruct (D ly (or_intror (or_introl eq_refl))) as (vy & Hy).
      assert (H1 : pwl l1 t (bst vx vy)) by (apply P1; eauto).
      destruct (best_pick vx vy) as (Pk & Lx & Ly).
      pose proof (M la vx (or_introl eq_refl) Hx) as Mx. pose proof (M ly vy (or_intror (or_introl eq_refl)) Hy) as My.
      split; [|split].
      * intros l0 [<-|Hl]; [eauto|]. apply D. right. right. exact Hl.
      * assert (S0 : sg <> 0) by apply SG. destruct Hl2 as [<-|[<-|Hl2]].
        -- exists l1. split; [left; reflexivity|]. rewrite (pwl_fun _ _ _ _ Ia H2 Hx) in *.
           assert (bst vx vy = vx) as <-; [|exact H1]. destruct Pk as [Pk|Pk]; [exact Pk|]. rewrite Pk in *. apply (Rmult_eq_reg_l sg); [lra|exact S0].
        -- exists l1. split; [left; reflexivity|]. rewrite (pwl_fun _ _ _ _ Iy H2 Hy) in *.
           assert (bst vx vy = vy) as <-; [|exact H1]. destruct Pk as [Pk|Pk]; [|exact Pk]. rewrite Pk in *. apply (Rmult_eq_reg_l sg); [lra|exact S0].
        -- exists l2. cbn; auto.
      * intros l0 vl [<-|Hl] H0.
        -- rewrite (pwl_fun _ _ _ _ I1 H0 H1). destruct Pk as [-> | ->]; assumption.
        -- apply (M l0); [right; right; exact Hl|exact H0].
Qed.

Lemma list_exact dbg ls t0 : (2 <= length ls)%nat -> Forall (fun l => rincr l /\ starts t0 l) ls ->
  exists l, minmax_list dbg comp false (map fsig ls) = Ok (fsig l) /\ rincr l /\ starts t0 l /\
    forall t v, pwl l t v <-> extreme ls t v.
Proof.
  intros Hl Hf. destruct ls as [|l1 [|l2 ls]]; [cbn in Hl; lia|cbn in Hl; lia|].
  inversion Hf as [|? ? [I1 S1] Hf']; subst. destruct (fold_exact dbg (l2 :: ls) l1 t0 I1 S1 Hf') as (l & E & R).
  exists l. split; [|exact R]. rewrite <- E. cbn [map minmax_list minmax_fold]. destruct ls; [|reflexivity].
  cbn [map minmax_fold]. destruct (minmax_pair _ _ _ _ _); reflexivity.
Qed.
End Exact.

Lemma Forall2_built ls xs : Forall2 built ls xs -> xs = map fsig ls /\ Forall rincr ls.
Proof.
  induction 1 as [|l x ls xs H _ (IH1 & IH2)]; [split; [reflexivity|constructor]|].
  apply built_iff in H as [I ->]. split; [cbn; rewrite IH1; reflexivity|constructor; auto].
Qed.

Lemma C24_min dbg lx ly x y : built lx x -> built ly y -> meets x y ->
  exists l z, elementwise_min dbg false x y = Ok z /\ built l z /\
    forall t v, pwl l t v <-> exists vx vy, pwl lx t vx /\ pwl ly t vy /\ v = Rmin vx vy.
Proof.
  intros Bx By M. destruct (pair_pwl 1 sample_le Rmin sg_le (fun a b => best_min a b) dbg lx ly x y Bx By M) as (l & z & A & B & _ & _ & C). eauto.
Qed.
Lemma C24_max dbg lx ly x y : built lx x -> built ly y -> meets x y ->
  exists l z, elementwise_max dbg false x y = Ok z /\ built l z /\
    forall t v, pwl l t v <-> exists vx vy, pwl lx t vx /\ pwl ly t vy /\ v = Rmax vx vy.
Proof.
  intros Bx By M. destruct (pair_pwl (-1) sample_ge Rmax sg_ge (fun a b => best_max a b) dbg lx ly x y Bx By M) as (l & z & A & B & _ & _ & C). eauto.
Qed.
Lemma C24_first lx ly x y : built lx x -> built ly y -> lx <> [] -> ly <> [] -> first_time lx = first_time ly -> meets x y.
Proof. intros Bx By. apply built_iff in Bx as [_ ->]. apply built_iff in By as [_ ->]. apply meets_first. Qed.
Lemma C24_flag dbg lx ly x y : built lx x -> built ly y -> map fst lx = map fst ly -> lx <> [] ->
  elementwise_min dbg true x y = elementwise_min dbg false x y /\ elementwise_max dbg true x y = elementwise_max dbg false x y.
Proof.
  intros Bx By E N. split; eapply pair_pwl_same; eauto.
Qed.

Lemma C27_min dbg ls xs t0 : Forall2 built ls xs -> (2 <= length ls)%nat ->
  Forall (fun l => l <> [] /\ first_time l = t0) ls ->
  exists l z, elementwise_min_list dbg false xs = Ok z /\ built l z /\
    forall t v, pwl l t v <->
      (forall l', In l' ls -> exists v', pwl l' t v') /\ (exists l', In l' ls /\ pwl l' t v) /\
      (forall l' v', In l' ls -> pwl l' t v' -> v <= v').
Proof.
  intros B L S. apply Forall2_built in B as [-> I].
  destruct (list_exact 1 sample_le Rmin sg_le (fun a b => best_min a b) dbg ls t0 L) as (l & E & Il & _ & P).
  { clear -I S. induction I; inversion S; subst; constructor; auto. }
  exists l, (fsig l). split; [exact E|]. split; [apply built_iff; auto|]. intros t v. rewrite P. unfold extreme.
  assert (forall a b, 1 * a <= 1 * b <-> a <= b) as K by (intros; lra). split; intros (A & C & D); repeat split; auto; intros; apply K; eapply D; eauto.
Qed.
Lemma C27_max dbg ls xs t0 : Forall2 built ls xs -> (2 <= length ls)%nat ->
  Forall (fun l => l <> [] /\ first_time l = t0) ls ->
  exists l z, elementwise_max_list dbg false xs = Ok z /\ built l z /\
    forall t v, pwl l t v <->
      (forall l', In l' ls -> exists v', pwl l' t v') /\ (exists l', In l' ls /\ pwl l' t v) /\
      (forall l' v', In l' ls -> pwl l' t v' -> v' <= v).
Proof.
  intros B L S. apply Forall2_built in B as [-> I].
  destruct (list_exact (-1) sample_ge Rmax sg_ge (fun a b => best_max a b) dbg ls t0 L) as (l & E & Il & _ & P).
  { clear -I S. induction I; inversion S; subst; constructor; auto. }
  exists l, (fsig l). split; [exact E|]. split; [apply built_iff; auto|]. intros t v. rewrite P. unfold extreme.
  split; intros (A & C & D); repeat split; auto; intros l' v' Hl Hv; specialize (D l' v' Hl Hv); lra.
Qed.
