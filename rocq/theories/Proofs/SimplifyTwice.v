(** C97: simplifying twice is simplifying once. *)
From Coq Require Import Reals Lra.
From Flocq Require Import Core.Core IEEE754.BinarySingleNaN.
From Verif Require Import Base Num NumB64.
From Verif.Model Require Import Signal.
From Verif.Spec Require Import SignalSpec Subseq.
From Verif.Proofs Require Import NumFacts SignalFacts Reshape B64Facts SignalProps.

Section Twice.
Context {F} {N : Num F} {NL : NumLaws F}.

Definition level (p q : F * F) : bool := neqb (nadd (snd p) (nmul nzero (nsub (fst q) (fst p)))) (snd q).

(** What a horizontal step says about the slope of that step. *)
Hypothesis flat : forall a n k : F * F, nltb (fst a) (fst n) = true -> level a n = true ->
  neqb nzero (slope n k) = true -> neqb nzero (slope a n) = true.

Definition drops (b : option (F * F)) (a : F * F) (d : F) : bool :=
  match b with Some p => level p a && neqb nzero d | None => false end.

(** The samples kept, [b] the last one before them. *)
Fixpoint kept (b : option (F * F)) (l : list (F * F)) : list (F * F) :=
  match l with
  | [] => []
  | a :: l' =>
      match l' with
      | [] => [a]
      | n :: _ => if drops b a (slope a n) then kept b l' else a :: kept (Some a) l'
      end
  end.

Lemma kept_cons b a n l : kept b (a :: n :: l) = if drops b a (slope a n) then kept b (n :: l) else a :: kept (Some a) (n :: l).
Proof. reflexivity. Qed.
Lemma kept_subseq l : forall b, subseq (kept b l) l.
Proof.
  induction l as [|a [|n l] IH]; intros b; [constructor|apply subseq_refl|]. rewrite kept_cons.
  destruct (drops _ _ _); constructor; apply IH.
Qed.
Lemma kept_ne l : forall b, l <> [] -> kept b l <> [].
Proof.
  induction l as [|a [|n l] IH]; intros b H; [congruence|discriminate|]. rewrite kept_cons. destruct (drops _ _ _); [|discriminate].
  apply IH. discriminate.
Qed.
Lemma kept_last l : forall b, last_opt (kept b l) = last_opt l.
Proof.
  induction l as [|a [|n l] IH]; intros b; [reflexivity|reflexivity|]. rewrite kept_cons.
  change (last_opt (a :: n :: l)) with (last_opt (n :: l)). destruct (drops _ _ _); [apply IH|].
  rewrite <- (IH (Some a)). pose proof (kept_ne (n :: l) (Some a)) as H. destruct (kept (Some a) (n :: l)); [destruct H; [discriminate|reflexivity]|reflexivity].
Qed.
(** The first sample kept after [a] is the next one, or the next one was level with [a]. *)
Lemma kept_head b l n : exists h r, kept b (n :: l) = h :: r /\ (h = n \/ exists k, drops b n (slope n k) = true).
Proof.
  destruct l as [|k l]; [exists n, []; split; [reflexivity|left; reflexivity]|]. rewrite kept_cons. destruct (drops b n (slope n k)) eqn:D.
  - pose proof (kept_ne (k :: l) b) as H. destruct (kept b (k :: l)) as [|h r]; [destruct H; [discriminate|reflexivity]|]. exists h, r. eauto.
  - exists n, (kept (Some n) (k :: l)). auto.
Qed.

Lemma kept_twice l : forall b, increasing (map fst l) -> kept b (kept b l) = kept b l.
Proof.
  induction l as [|a [|n l] IH]; intros b I; [reflexivity|reflexivity|]. rewrite kept_cons.
  assert (I' : increasing (map fst (n :: l))) by (cbn [map] in I; apply increasing_cons in I; tauto).
  destruct (drops b a (slope a n)) eqn:D; [apply IH, I'|].
  assert (L : nltb (fst a) (fst n) = true) by (cbn [map] in I; apply increasing_cons in I as [_ I]; exact (Forall_inv I)).
  destruct (kept_head (Some a) l n) as (h & r & E & H). pose proof (IH (Some a) I') as T. rewrite E in *. rewrite kept_cons.
  replace (drops b a (slope a h)) with false; [rewrite T; reflexivity|]. symmetry.
  destruct H as [->|[k H]]; [exact D|]. destruct b as [p|]; [|reflexivity]. cbn [drops] in *. apply andb_prop in H as [H1 H2].
  rewrite (flat a n k L H1 H2), andb_true_r in D. rewrite D. reflexivity.
Qed.

Lemma keep_kept l : forall b, l <> [] ->
  simp_keep b (sig_of l) = kept b l \/ exists p, last_opt l = Some p /\ kept b l = simp_keep b (sig_of l) ++ [p].
Proof.
  induction l as [|a [|n l] IH]; intros b Hn; [congruence|..].
  - cbn [sig_of simp_keep s_time s_value kept]. destruct b as [p|]; [|left; destruct a; reflexivity].
    destruct (simp_drop _ _); [right; exists a; auto|left; destruct a; reflexivity].
  - rewrite kept_cons. change (sig_of (a :: n :: l)) with (mkSample (fst a) (snd a) (slope a n) :: sig_of (n :: l)).
    change (last_opt (a :: n :: l)) with (last_opt (n :: l)). assert (Hk := fun b => IH b ltac:(discriminate)). clear IH.
    generalize dependent (sig_of (n :: l)). intros t Hk. cbn [simp_keep s_time s_value]. rewrite <- surjective_pairing.
    destruct b as [p|]; cbn [drops].
    + change (simp_drop p _) with (level p a && neqb nzero (slope a n)). destruct (_ && _); [apply Hk|].
      destruct (Hk (Some a)) as [->|(q & E & ->)]; [left; reflexivity|right; exists q; auto].
    + destruct (Hk (Some a)) as [->|(q & E & ->)]; [left; reflexivity|right; exists q; auto].
Qed.

Lemma simp_kept l : wfp l -> simp_points (sig_of l) = kept None l.
Proof.
  intros W. destruct l as [|a l]; [unfold simp_points; cbn; destruct (negb _); reflexivity|].
  unfold simp_points. rewrite !end_time_points, !points_sig_of.
  destruct (keep_kept (a :: l) None) as [->|(p & E & K)]; [discriminate|..].
  - rewrite kept_last. destruct (last_opt (a :: l)) as [p|] eqn:E; [|apply last_opt_none in E; discriminate].
    replace (neqb (fst p) (fst p)) with true; [reflexivity|]. symmetry. destruct W as [W _].
    assert (isnum (fst p) = true) by (unfold all_num in W; rewrite Forall_forall in W; apply W, in_map, last_opt_In, E). num.
  - rewrite K, E. pose proof (wfp_subseq _ _ (kept_subseq (a :: l) None) W) as Wk. rewrite K in Wk.
    destruct (last_opt (simp_keep None (sig_of (a :: l)))) as [q|] eqn:Eq.
    + apply last_opt_In in Eq. destruct Wk as [_ I]. rewrite map_app in I. apply increasing_app in I as (_ & _ & I).
      assert (nltb (fst q) (fst p) = true) by (apply I; [apply in_map, Eq|left; reflexivity]).
      replace (neqb (fst p) (fst q)) with false; [reflexivity|]. symmetry. num.
    + apply last_opt_none in Eq. cbn [sig_of simp_keep] in Eq. discriminate.
Qed.

Lemma twice (s s' : signal F) : wf s -> simplify s = Ok s' -> simplify s' = Ok s'.
Proof.
  intros W E. apply wf_canon in W as (l & W & ->). rewrite simplify_ok in E by (rewrite points_sig_of; exact W).
  rewrite simp_kept in E by exact W. injection E as <-.
  pose proof (wfp_subseq _ _ (kept_subseq l None) W) as Wk. rewrite simplify_ok by (rewrite points_sig_of; exact Wk).
  rewrite simp_kept by exact Wk. rewrite kept_twice by (apply W). reflexivity.
Qed.
End Twice.

(** ** Doubles *)
Lemma zero_of (x : B64) : finite x = true -> B2R x = 0%R -> exists s, x = B754_zero s.
Proof.
  destruct x as [s|s| |s m e H]; intros Hf Hr; try discriminate; [eauto|].
  exfalso. cbn in Hr. apply (F2R_neq_0 radix2) in Hr; [exact Hr|]. destruct s; discriminate.
Qed.
Lemma flat_B64 (a n k : B64 * B64) : nltb (fst a) (fst n) = true -> level a n = true ->
  neqb nzero (slope n k) = true -> neqb nzero (slope a n) = true.
Proof.
  destruct a as [ta va], n as [tn vn], k as [tk vk]. unfold level, slope. cbn [fst snd]. intros L V Z.
  (* times *)
  assert (Fd : finite (nsub tn ta) = true).
  { destruct (nsub tn ta) as [s|s| |s m e H]; try reflexivity; exfalso; destruct va; cbn in V; discriminate. }
  assert (Ft : finite tn = true /\ finite ta = true).
  { destruct tn as [s|s| |s m e H], ta as [s'|s'| |s' m' e' H']; try (split; reflexivity); exfalso; try discriminate; cbn in Fd; try discriminate; destruct s, s'; discriminate. }
  destruct Ft as [Fn Fa]. destruct (sub_sign tn ta Fn Fa) as (S & _ & _). rewrite L in S.
  (* values *)
  assert (Fv : finite vn = true).
  { destruct vn as [s|s| |s m e H]; try reflexivity; exfalso; [|rewrite neqb_law in V; apply andb_prop in V as [V _]; apply andb_prop in V as [_ V]; discriminate].
    assert (Q : finite (nsub vk (B754_infinity s)) = false).
    { destruct vk as [s'|s'| |s' m' e' H'], s; try destruct s'; reflexivity. }
    destruct (nsub vk (B754_infinity s)) as [u|u| |u m e H]; try discriminate;
    destruct (nsub tk tn) as [w|w| |w ? ? ?]; try destruct u; try destruct w; cbn in Z; discriminate. }
  assert (P : exists s', nmul nzero (nsub tn ta) = B754_zero s').
  { destruct (nsub tn ta) as [s|s| |s m e H]; try discriminate; cbn; eauto. }
  destruct P as [s' P]. rewrite P in V.
  assert (Fw : finite va = true).
  { destruct va as [s|s| |s m e H]; try reflexivity; exfalso; cbn in V; [|discriminate]. destruct vn; try discriminate; destruct s; discriminate. }
  assert (E : B2R vn = B2R va).
  { assert (W : finite (nadd va (B754_zero s')) = true /\ B2R (nadd va (B754_zero s')) = B2R va).
    { destruct va as [s|s| |s m e H]; try discriminate; cbn; [destruct (Bool.eqb s s')|]; auto. }
    destruct W as [W1 W2]. rewrite neqb_law in V. apply andb_prop in V as [_ V]. rewrite (finite_rk _ W1), (finite_rk _ Fv), W2 in V.
    case (Req_bool_spec (B2R va) (B2R vn)) in V; [auto|discriminate]. }
  destruct (sub_rk vn va Fv Fw) as [N1 R1]. rewrite E in R1. unfold Rminus in R1. rewrite Rplus_opp_r, rnd_0, clip_0 in R1.
  assert (Q : exists s, nsub vn va = B754_zero s).
  { pose proof (bpow_gt_0 radix2 1024). apply zero_of; destruct (nsub vn va) as [s|s| |s m e H']; try reflexivity; try discriminate; cbn in R1; [destruct s; lra..|exact R1]. }
  destruct Q as [s Q]. rewrite Q. destruct (nsub tn ta) as [u|u| |u m e H]; try discriminate. reflexivity.
Qed.

Lemma C97_lemma (s s' : signal B64) : wf s -> simplify s = Ok s' -> simplify s' = Ok s'.
Proof. apply twice, flat_B64. Qed.

Lemma C97_case_lemma : exists s s' : signal B64, wf s /\ simplify s = Ok s' /\ length s = 5%nat /\ length s' = 4%nat.
Proof.
  exists (sig_of [(dbl 0 0, dbl 1 0); (dbl 1 0, dbl 1 0); (dbl 2 0, dbl 1 0); (dbl 3 0, dbl 4 0); (dbl 4 0, dbl 7 0)]).
  assert (W : wf (sig_of [(dbl 0 0, dbl 1 0); (dbl 1 0, dbl 1 0); (dbl 2 0, dbl 1 0); (dbl 3 0, dbl 4 0); (dbl 4 0, dbl 7 0)])) by (apply b64_wf; vm_compute; reflexivity).
  eexists. split; [exact W|]. split; [apply simplify_ok; apply wf_canon in W as (l & Hl & ->); rewrite points_sig_of; exact Hl|].
  split; [reflexivity|]. vm_compute. reflexivity.
Qed.
