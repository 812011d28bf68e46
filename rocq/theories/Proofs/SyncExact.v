(** synchronize preserves both functions (exact arithmetic). *)
From Coq Require Import Sorted Reals Lra.
From Flocq Require Import Core.Raux.
From Verif Require Import Base Num NumXR.
From Verif.Model Require Import Signal.
From Verif.Spec Require Import SignalSpec Pwl.
From Verif.Proofs Require Import NumFacts SignalFacts LowerBound Reshape Sync PwlFacts.
Open Scope R_scope.

Definition graph (g : R -> R) (ts : list R) : list (R * R) := map (fun t => (t, g t)) ts.

Fixpoint achain (g : R -> R) (t0 : R) (ts : list R) : Prop :=
  match ts with
  | [] => True
  | t :: r => t0 < t /\ affine_on g t0 t /\ achain g t r
  end.

Fixpoint last_from (t0 : R) (ts : list R) : R :=
  match ts with [] => t0 | t :: r => last_from t r end.

Lemma repr_graph g t0 ts : achain g t0 ts -> repr (graph g (t0 :: ts)) g.
Proof.
  revert t0. induction ts as [|t ts IH]; intros t0 H; [cbn; auto|].
  destruct H as (H1 & H2 & H3). specialize (IH t H3). cbn in *. intuition.
Qed.

Lemma final_graph g t0 ts : final_time (graph g (t0 :: ts)) = last_from t0 ts.
Proof. revert t0. induction ts as [|t ts IH]; intros t0; [reflexivity|]. apply IH. Qed.

Lemma first_graph g t0 ts : first_time (graph g (t0 :: ts)) = t0.
Proof. reflexivity. Qed.

Lemma fsig_head p xs P XS : p :: xs = fsig (P :: XS) ->
  s_time p = Fin (fst P) /\ s_value p = Fin (snd P) /\ xs = fsig XS /\
  s_deriv p = match XS with [] => Fin 0 | Q :: _ => slope (inj P) (inj Q) end.
Proof. rewrite fsig_cons. intros E. injection E as E1 E2. subst. repeat split. Qed.

Lemma fsig_interp p xs P Q XS g t : p :: xs = fsig (P :: Q :: XS) -> repr (P :: Q :: XS) g ->
  fst P <= t <= fst Q -> interpolate p (Fin t) = Fin (g t).
Proof.
  intros E H Ht. rewrite fsig_cons in E. apply (f_equal (@hd _ p)) in E. cbn [hd] in E. rewrite E.
  destruct H as (H1 & (H2 & H3) & H4 & _). rewrite interp_line by exact H2.
  f_equal. apply affine_line; auto.
Qed.

Lemma first_le_final P XS g : repr (P :: XS) g -> fst P <= final_time (P :: XS).
Proof. intros H. apply repr_rincr in H. apply (rincr_first_final _ P H (or_introl eq_refl)). Qed.

Lemma merged_exact p xs q ys l : merged p xs q ys l -> forall P XS Q YS gx gy t0,
  p :: xs = fsig (P :: XS) -> q :: ys = fsig (Q :: YS) ->
  repr (P :: XS) gx -> repr (Q :: YS) gy ->
  fst P <= t0 -> fst Q <= t0 ->
  match XS with [] => t0 = fst P | X :: _ => t0 < fst X end ->
  match YS with [] => t0 = fst Q | Y :: _ => t0 < fst Y end ->
  exists ts, points (map fst l) = map inj (graph gx ts) /\ points (map snd l) = map inj (graph gy ts) /\
    achain gx t0 ts /\ achain gy t0 ts /\
    last_from t0 ts = Rmin (final_time (P :: XS)) (final_time (Q :: YS)).
Proof.
  intros H. induction H as [p q ys|p q xs|p i xs q j ys l E H IH|p i xs q j ys l E H IH|p i xs q j ys l E H IH];
    intros P XS Q YS gx gy t0 Ex Ey Rx Ry HP HQ HX HY.
  - destruct XS as [|X XS]; [|rewrite fsig_cons in Ex; discriminate].
    exists []. repeat split. cbn [last_from]. pose proof (first_le_final _ _ _ Ry) as B.
    assert (t0 <= final_time (Q :: YS)).
    { destruct YS as [|Y YS]; [unfold final_time; cbn in *; lra|]. destruct Ry as (_ & _ & Ry). pose proof (first_le_final _ _ _ Ry). rewrite final_cons. lra. }
    change (final_time [P]) with (fst P). rewrite Rmin_left; lra.
  - destruct YS as [|Y YS]; [|rewrite fsig_cons in Ey; discriminate].
    exists []. repeat split. cbn [last_from]. pose proof (first_le_final _ _ _ Rx) as B.
    assert (t0 <= final_time (P :: XS)).
    { destruct XS as [|X XS]; [unfold final_time; cbn in *; lra|]. destruct Rx as (_ & _ & Rx). pose proof (first_le_final _ _ _ Rx). rewrite final_cons. lra. }
    change (final_time [Q]) with (fst Q). rewrite Rmin_right; lra.
  - destruct XS as [|X XS]; [discriminate|]. destruct YS as [|Y YS]; [discriminate|].
    apply fsig_head in Ex as (_ & _ & Ex & _). apply fsig_head in Ey as (_ & _ & Ey & _).
    pose proof Ex as Ex0. pose proof Ey as Ey0.
    apply fsig_head in Ex0 as (Tx & Vx & Ex0 & _). apply fsig_head in Ey0 as (Ty & Vy & Ey0 & _).
    assert (Exy : fst X = fst Y).
    { rewrite Tx, Ty in E. change neqb with xeq in E. rewrite fin_eq in E. revert E. case Req_bool_spec; auto; discriminate. }
    destruct Rx as (Px & (Lx & Ax) & Rx). destruct Ry as (Py & (Ly & Ay) & Ry).
    destruct (IH X XS Y YS gx gy (fst X)) as (ts & H1 & H2 & H3 & H4 & H5); auto; try lra.
    { destruct XS as [|X' XS]; [reflexivity|]. apply Rx. }
    { destruct YS as [|Y' YS]; [exact Exy|]. rewrite Exy. apply Ry. }
    exists (fst X :: ts). cbn [map fst snd graph points last_from achain].
    unfold points in *. rewrite Tx, Ty, Vx, Vy. cbn [map].
    repeat split; auto.
    + rewrite H1. unfold inj at 2. cbn [fst snd]. rewrite (proj1 Rx). reflexivity.
    + rewrite H2. unfold inj at 2. cbn [fst snd]. rewrite (proj1 Ry), Exy. reflexivity.
    + eapply affine_sub; [| |exact Ax]; lra.
    + eapply affine_sub; [| |exact Ay]; lra.
  - destruct XS as [|X XS]; [discriminate|]. destruct YS as [|Y YS]; [discriminate|].
    apply fsig_head in Ex as (_ & _ & Ex & _).
    pose proof Ex as Ex0. pose proof Ey as Ey0.
    apply fsig_head in Ex0 as (Tx & Vx & Ex0 & _). apply fsig_head in Ey0 as (_ & _ & Ey0 & _).
    apply fsig_head in Ey0 as (Ty & Vy & Ey0 & _).
    assert (Exy : fst X < fst Y).
    { rewrite Tx, Ty in E. change nltb with xlt in E. rewrite fin_lt in E. revert E. case Rlt_bool_spec; auto; discriminate. }
    pose proof Rx as Rx0. pose proof Ry as Ry0.
    destruct Rx as (Px & (Lx & Ax) & Rx). destruct Ry as (Py & (Ly & Ay) & Ry).
    destruct (IH X XS Q (Y :: YS) gx gy (fst X)) as (ts & H1 & H2 & H3 & H4 & H5); auto; try lra.
    { destruct XS as [|X' XS]; [reflexivity|]. apply Rx. }
    exists (fst X :: ts). cbn [map fst snd graph points last_from achain].
    unfold points in *. unfold interp_at. cbn [s_time s_value]. rewrite Tx, Vx. cbn [map].
    repeat split; auto.
    + rewrite H1. unfold inj at 2. cbn [fst snd]. rewrite (proj1 Rx). reflexivity.
    + rewrite H2. unfold inj at 2. cbn [fst snd]. do 2 f_equal. eapply fsig_interp; eauto. lra.
    + eapply affine_sub; [| |exact Ax]; lra.
    + eapply affine_sub; [| |exact Ay]; lra.
  - destruct XS as [|X XS]; [discriminate|]. destruct YS as [|Y YS]; [discriminate|].
    apply fsig_head in Ey as (_ & _ & Ey & _).
    pose proof Ex as Ex0. pose proof Ey as Ey0.
    apply fsig_head in Ey0 as (Ty & Vy & Ey0 & _). apply fsig_head in Ex0 as (_ & _ & Ex0 & _).
    apply fsig_head in Ex0 as (Tx & Vx & Ex0 & _).
    assert (Exy : fst Y < fst X).
    { rewrite Tx, Ty in E. change nltb with xlt in E. rewrite fin_lt in E. revert E. case Rlt_bool_spec; auto; discriminate. }
    pose proof Rx as Rx0. pose proof Ry as Ry0.
    destruct Rx as (Px & (Lx & Ax) & Rx). destruct Ry as (Py & (Ly & Ay) & Ry).
    destruct (IH P (X :: XS) Y YS gx gy (fst Y)) as (ts & H1 & H2 & H3 & H4 & H5); auto; try lra.
    { destruct YS as [|Y' YS]; [reflexivity|]. apply Ry. }
    exists (fst Y :: ts). cbn [map fst snd graph points last_from achain].
    unfold points in *. unfold interp_at. cbn [s_time s_value]. rewrite Ty, Vy. cbn [map].
    repeat split; auto.
    + rewrite H1. unfold inj at 2. cbn [fst snd]. do 2 f_equal. eapply fsig_interp; eauto. lra.
    + rewrite H2. unfold inj at 2. cbn [fst snd]. rewrite (proj1 Ry). reflexivity.
    + eapply affine_sub; [| |exact Ax]; lra.
    + eapply affine_sub; [| |exact Ay]; lra.
Qed.

Lemma fsig_of_graph g t0 ts i l : s_time i = Fin t0 -> s_value i = Fin (g t0) ->
  points l = map inj (graph g ts) -> sig_of (points (i :: l)) = fsig (graph g (t0 :: ts)).
Proof.
  intros Ht Hv H. unfold fsig. f_equal. unfold points in *. cbn [map graph]. rewrite Ht, Hv, H. reflexivity.
Qed.

(** Success of synchronize in exact arithmetic: common begin. *)
Lemma sync_exact lx1 X lx ly1 Y ly gx gy :
  repr (lx1 ++ X :: lx) gx -> repr (ly1 ++ Y :: ly) gy -> fst X = fst Y -> (lx1 = [] \/ ly1 = []) ->
  exists ts, synchronize (fsig (lx1 ++ X :: lx)) (fsig (ly1 ++ Y :: ly)) =
      Ok (fsig (graph gx (fst X :: ts)), fsig (graph gy (fst X :: ts))) /\
    achain gx (fst X) ts /\ achain gy (fst X) ts /\
    last_from (fst X) ts = Rmin (final_time (lx1 ++ X :: lx)) (final_time (ly1 ++ Y :: ly)).
Proof.
  intros Rx Ry E Hb.
  pose proof (repr_rincr _ _ Rx) as Ix. pose proof (repr_rincr _ _ Ry) as Iy.
  destruct (fsig_app lx1 (X :: lx)) as (sx1 & Ex & Lx); [discriminate|].
  destruct (fsig_app ly1 (Y :: ly)) as (sy1 & Ey & Ly); [discriminate|].
  pose proof (fsig_fine _ Ix) as Fx. pose proof (fsig_fine _ Iy) as Fy. rewrite Ex in Fx. rewrite Ey in Fy.
  rewrite Ex, Ey. rewrite (fsig_cons X lx), (fsig_cons Y ly) in *.
  set (i := mkSample _ _ _) in Fx |- *. set (j := mkSample _ _ _) in Fy |- *.
  destruct (sync_ok sx1 i (fsig lx) sy1 j (fsig ly)) as (l & Hl & ->); auto.
  { cbn [i j s_time]. change neqb with xeq. rewrite fin_eq. apply Req_bool_true, E. }
  { destruct Hb as [-> | ->]; [left; destruct sx1|right; destruct sy1]; try reflexivity; discriminate. }
  rewrite !final_app by discriminate.
  apply repr_app_r in Rx. apply repr_app_r in Ry.
  destruct (merged_exact _ _ _ _ _ Hl X lx Y ly gx gy (fst X)) as (ts & H1 & H2 & H3 & H4 & H5); auto; try lra.
  { symmetry. apply fsig_cons. }
  { symmetry. apply fsig_cons. }
  { destruct lx as [|X' lx]; [reflexivity|]. apply Rx. }
  { destruct ly as [|Y' ly]; [exact E|]. rewrite E. apply Ry. }
  exists ts. split; [|auto]. do 2 f_equal.
  - apply fsig_of_graph; [reflexivity| |exact H1]. cbn. rewrite (proj1 Rx). reflexivity.
  - apply fsig_of_graph; [cbn; rewrite E; reflexivity| |exact H2]. cbn. rewrite (proj1 Ry), E. reflexivity.
Qed.
