(** C79: the sign of until at the samples. *)
From Coq Require Import Sorted Reals Lra.
From Verif Require Import Base Num NumB64.
From Verif.Model Require Import Signal MonoWedge MinMax Ast Robustness.
From Verif.Spec Require Import SignalSpec Formula UntilSpec.
From Verif.Proofs Require Import NumFacts SignalFacts LowerBound Reshape Sync SyncProps SignalProps RobFacts RobWf UntilFacts.
Local Open Scope nat_scope.

Section G.
Context {F : Type} `{NF : Num F} {NL : NumLaws F}.
Lemma positive_min (q : F) l : nltb nzero q = true -> Forall (fun p => nltb nzero p = true) l ->
  exists c, nltb nzero c = true /\ nleb c q = true /\ Forall (fun p => nleb c p = true) l.
Proof.
  intros Hq. induction 1 as [|p l Hp _ (c & H1 & H2 & H3)].
  - exists q. split; [exact Hq|]. split; [num|constructor].
  - destruct (nltb p c) eqn:E.
    + exists p. split; [exact Hp|]. split; [num|]. constructor; [num|]. eapply Forall_impl; [|exact H3]. cbn beta. intros r Hr. num.
    + exists c. split; [exact H1|]. split; [exact H2|]. constructor; [num|exact H3].
Qed.
Lemma nth_error_slice (ps : list F) k n l : nth_error (firstn n (skipn k ps)) l = if Nat.ltb l n then nth_error ps (k + l) else None.
Proof.
  revert ps k l. induction n as [|n IH]; intros ps k l; [destruct l; reflexivity|].
  destruct (skipn k ps) as [|p r] eqn:E.
  - cbn [firstn]. rewrite <- (firstn_skipn k ps), E, app_nil_r. destruct (Nat.ltb_spec l (S n)); [|destruct l; reflexivity].
    symmetry. assert (L : length ps <= k).
    { destruct (Nat.lt_ge_cases k (length ps)) as [C|C]; [|exact C]. assert (length (skipn k ps) = 0) by (rewrite E; reflexivity). rewrite skipn_length in *. lia. }
    destruct l; cbn; apply nth_error_None; rewrite firstn_length; lia.
  - destruct l as [|l]; cbn [firstn nth_error].
    + rewrite Nat.add_0_r. rewrite <- (firstn_skipn k ps), E. assert (L : length (firstn k ps) = k).
      { rewrite firstn_length. assert (length (skipn k ps) = S (length r)) by (rewrite E; reflexivity). rewrite skipn_length in *. lia. }
      rewrite nth_error_app2 by lia. rewrite L, Nat.sub_diag. reflexivity.
    + assert (r = skipn (S k) ps) as ->.
      { clear -E. revert k E. induction ps as [|a ps IH]; intros [|k] E; try discriminate; [injection E as _ <-; reflexivity|]. exact (IH k E). }
      rewrite IH. replace (k + S l) with (S k + l) by lia. reflexivity.
Qed.

Lemma until_true_reached (ps qs : list F) k : until_true (nltb nzero) ps qs k ->
  exists c, nltb nzero c = true /\ until_reached ps qs k c.
Proof.
  intros (m & q & Hk & Hq & Pq & Hp).
  destruct (positive_min q (firstn (m - k) (skipn k ps)) Pq) as (c & H1 & H2 & H3).
  { apply Forall_forall. intros p Hin. apply In_nth_error in Hin as (l & Hl). rewrite nth_error_slice in Hl.
    destruct (Nat.ltb_spec l (m - k)); [|discriminate]. apply (Hp (k + l)); [lia|exact Hl]. }
  exists c. split; [exact H1|]. exists m, q. split; [exact Hk|]. split; [exact Hq|]. split; [exact H2|].
  intros l p Hl E. rewrite Forall_forall in H3. apply H3. apply (nth_error_In _ (l - k)). rewrite nth_error_slice.
  destruct (Nat.ltb_spec (l - k) (m - k)); [|lia]. replace (k + (l - k)) with l by lia. exact E.
Qed.
End G.

Lemma last_opt_nth {A} (l : list A) a : last_opt l = Some a -> nth_error l (length l - 1) = Some a /\ 0 < length l.
Proof.
  destruct l as [|x l] using rev_ind; [discriminate|]. rewrite last_opt_snoc. intros [= ->]. rewrite app_length. cbn. split; [|lia].
  rewrite nth_error_app2 by lia. replace (length l + 1 - 1 - length l) with 0 by lia. reflexivity.
Qed.

Lemma C79_lemma dbg fuel (tr : trace B64) s a b i x y x' y' :
  Forall (fun e => wf (snd e) /\ snd e <> []) tr -> made_interval i ->
  compute_robustness dbg fuel a tr s = Ok x -> compute_robustness dbg fuel b tr s = Ok y ->
  synchronize x y = Ok (x', y') -> all_num (values x') -> all_num (values y') ->
  exists z, compute_robustness dbg fuel (EUntil a b i) tr s = Ok z /\ times z = times x' /\
    forall k v, nth_error (values z) k = Some v ->
      (until_true (nltb nzero) (values x') (values y') k -> nltb nzero v = true) /\
      (nltb v nzero = true -> ~ until_true (nleb nzero) (values x') (values y') k) /\
      (forall q, last_opt (values y') = Some q -> nltb nzero q = true ->
         (nltb nzero v = true <-> until_true (nltb nzero) (values x') (values y') k)).
Proof.
  intros G M Ea Eb S Nx Ny. destruct (C37_lemma dbg fuel tr s a b i x y x' y' G M Ea Eb S Nx Ny) as (z & E & T & K).
  destruct (C43_lemma _ _ _ _ _ _ G Ea) as [Wx _]. destruct (C43_lemma _ _ _ _ _ _ G Eb) as [Wy _].
  destruct (sync_out _ _ _ _ Wx Wy S) as (_ & _ & _ & _ & TT).
  assert (L : length x' = length y') by (clear -TT; induction TT; cbn; congruence).
  exists z. split; [exact E|]. split; [exact T|]. intros k v Hv. specialize (K k v Hv).
  assert (H1 : until_true (nltb nzero) (values x') (values y') k -> nltb nzero v = true).
  { intros U. apply until_true_reached in U as (c & Pc & U). assert (isnum c = true) as Nc by (num_hyps; assumption).
    assert (nleb c v = true) as Q by (apply (K c Nc); left; exact U). num. }
  split; [exact H1|]. split.
  - intros Neg U. assert (nleb nzero v = true) as Q by (apply (K nzero isnum_zero); left; exact U). num.
  - intros q Lq Pq. split; [|exact H1]. intros Pv. assert (isnum v = true) as Nv by (num_hyps; assumption).
    assert (nleb v v = true) as Q by num. apply (K v Nv) in Q.
    apply last_opt_nth in Lq as [Lq L0]. assert (Lk : k < length (values y')).
    { assert (k < length (values z)) by (apply nth_error_Some; congruence). unfold values in *. rewrite !map_length in *.
      assert (length (times z) = length (times x')) by congruence. unfold times in *. rewrite !map_length in *. lia. }
    destruct Q as [(m & q' & Hk & Hq & Pq' & Hp)|[(m & Hm & Hq & _)|St]].
    + exists m, q'. split; [exact Hk|]. split; [exact Hq|]. split; [num|]. intros l p Hl Ep. specialize (Hp l p Hl Ep). num.
    + exfalso. specialize (Hq (length (values y') - 1) q ltac:(lia) Lq). rewrite nleb_true, isnum_opp, rk_opp in Hq. destruct Hq as (_ & _ & Hq). num_hyps. rewrite rk_zero in *. lra.
    + exists (length (values y') - 1), q. split; [lia|]. split; [exact Lq|]. split; [exact Pq|]. intros l p Hl Ep. specialize (St l p ltac:(lia) Ep). num.
Qed.
