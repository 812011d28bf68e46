(** C05-C14 in the form of Props/Signals.v, and witnesses. *)
From Coq Require Import Sorted Reals Lra.
From Flocq Require Import IEEE754.BinarySingleNaN Core.Raux.
From Verif Require Import Base Num NumXR NumB64.
From Verif.Model Require Import Signal.
From Verif.Spec Require Import SignalSpec History Subseq Pwl.
From Verif.Proofs Require Import NumFacts SignalFacts HistoryFacts LowerBound Reshape Sync PwlFacts ShapeExact B64Facts SimplifyDrop SyncProps.

Section G.
Context {F : Type} `{NF : Num F} {NL : NumLaws F}.

Lemma C05_lemma (s : signal F) a t : wf s -> In a s -> neqb (s_time a) t = true -> at_time s t = Ok a.
Proof. intros (A & B & _). apply at_hit; assumption. Qed.

Lemma C07_lemma (s : signal F) t : wf s ->
  (s = [] -> at_time s t = UB) /\
  (s <> [] -> nltb (end_time s) t = true -> at_time s t = UB) /\
  (s <> [] -> nltb t (begin_time s) = true ->
     exists a0 r, s = a0 :: r /\ at_time s t = Ok (mkSample t (interpolate a0 t) (s_deriv a0))) /\
  (forall e, at_time s t <> Throw e).
Proof.
  intros (A & B & C). split; [intros ->; apply at_empty|]. split; [intros; apply at_after_end; auto|]. split.
  - intros N L. destruct s as [|a0 r]; [congruence|]. exists a0, r. split; [reflexivity|].
    apply (at_miss [] a0 r t A B); [|exact L|constructor]. clear -L NL. num_hyps. assumption.
  - intros e. destruct s as [|a0 r]; [rewrite at_empty; discriminate|].
    unfold at_time. rewrite at_range_check_false by (auto; discriminate).
    destruct (lower_bound_total (before t) (a0 :: r)) as (k & -> & _). cbn [bind].
    destruct (nth_error _ k); [|discriminate]. destruct (neqb _ _); discriminate.
Qed.

Lemma C08_lemma (s : signal F) t : wf s -> isnum t = true ->
  exists k, begin_at s t = Ok k /\ (k <= length s)%nat /\
    (forall i a, nth_error s i = Some a -> ((i < k)%nat <-> nltb (s_time a) t = true)).
Proof. intros (A & B & _). apply begin_at_spec; assumption. Qed.

Lemma C09_lemma (s : signal F) t :
  (nleb (end_time s) t = true -> end_at s t = Ok (length s)) /\
  (nleb (end_time s) t = false -> end_at s t = UB).
Proof. split; [apply end_at_in|apply end_at_out]. Qed.

Local Open Scope nat_scope.
Lemma times_nth (s : signal F) : increasing (times s) -> forall i j a b,
  nth_error s i = Some a -> nth_error s j = Some b -> i < j -> nltb (s_time a) (s_time b) = true.
Proof.
  induction s as [|c s IH]; intros H i j a b A B L; [destruct i; discriminate|].
  destruct j as [|j]; [lia|]. cbn in B. apply increasing_cons in H as [H1 H2].
  destruct i as [|i]; cbn in A; [|apply (IH H1 i j a b A B); lia]. injection A as <-.
  rewrite Forall_forall in H2. apply H2. apply in_map_iff. exists b. split; [reflexivity|]. eapply nth_error_In, B.
Qed.

Lemma end_at_loop_spec (s : signal F) t : isnum t = true -> all_num (times s) -> forall k, k < length s ->
  (exists j a, end_at_loop s t k = Ok (S j) /\ j <= k /\ nth_error s j = Some a /\ nleb (s_time a) t = true /\
    forall i b, j < i <= k -> nth_error s i = Some b -> nltb t (s_time b) = true) \/
  (end_at_loop s t k = UB /\ forall i b, i <= k -> nth_error s i = Some b -> nltb t (s_time b) = true).
Proof.
  intros T N. induction k as [|k IH]; intros L; cbn [end_at_loop].
  - destruct (nth_error s 0) as [a|] eqn:E; [|apply nth_error_None in E; lia].
    destruct (nltb t (s_time a)) eqn:Q.
    + right. split; [reflexivity|]. intros i b I B. replace i with 0 in B by lia. rewrite E in B. injection B as <-. exact Q.
    + left. exists 0, a. split; [reflexivity|]. split; [lia|]. split; [exact E|]. split.
      * assert (M : isnum (s_time a) = true). { apply (proj1 (Forall_forall _ _) N), in_map_iff. exists a. split; [reflexivity|]. eapply nth_error_In, E. }
        num_hyps. num_goal; try lra.
      * intros i b I. lia.
  - destruct (nth_error s (S k)) as [a|] eqn:E; [|apply nth_error_None in E; lia].
    destruct (nltb t (s_time a)) eqn:Q.
    + destruct (IH ltac:(lia)) as [(j & c & A & B & C & D & K) | [A K]].
      * left. exists j, c. repeat (split; [assumption || lia|]). intros i b I X.
        destruct (Nat.eq_dec i (S k)) as [-> | ]; [rewrite E in X; injection X as <-; exact Q|]. apply (K i b); [lia|exact X].
      * right. split; [exact A|]. intros i b I X.
        destruct (Nat.eq_dec i (S k)) as [-> | ]; [rewrite E in X; injection X as <-; exact Q|]. apply (K i b); [lia|exact X].
    + left. exists (S k), a. split; [reflexivity|]. split; [lia|]. split; [exact E|]. split.
      * assert (M : isnum (s_time a) = true). { apply (proj1 (Forall_forall _ _) N), in_map_iff. exists a. split; [reflexivity|]. eapply nth_error_In, E. }
        num_hyps. num_goal; try lra.
      * intros i b I. lia.
Qed.

Lemma C09_search_lemma (s : signal F) t : wf s -> s <> [] -> isnum t = true ->
  (nleb (begin_time s) t = true -> exists k, end_at_loop s t (length s - 1) = Ok k /\ (k <= length s)%nat /\
    (forall i a, nth_error s i = Some a -> ((i < k)%nat <-> nleb (s_time a) t = true))) /\
  (nltb t (begin_time s) = true -> end_at_loop s t (length s - 1) = UB).
Proof.
  intros (N & I & _) E T.
  assert (L : length s - 1 < length s) by (destruct s; [congruence|cbn; lia]).
  assert (H0 : exists a0, nth_error s 0 = Some a0 /\ begin_time s = s_time a0).
  { destruct s as [|a0 r]; [congruence|]. exists a0. split; reflexivity. }
  destruct H0 as (a0 & E0 & B0). rewrite B0.
  assert (NUM : forall i a, nth_error s i = Some a -> isnum (s_time a) = true).
  { intros i a X. apply (proj1 (Forall_forall _ _) N), in_map_iff. exists a. split; [reflexivity|]. eapply nth_error_In, X. }
  pose proof (NUM _ _ E0) as N0.
  destruct (end_at_loop_spec s t T N _ L) as [(j & c & A & B & C & D & K) | [A K]]; split; intros G.
  - exists (S j). split; [exact A|]. split; [lia|]. intros i a X. split; intros Y.
    + destruct (Nat.eq_dec i j) as [-> | ]; [rewrite C in X; injection X as <-; exact D|].
      assert (Z : nltb (s_time a) (s_time c) = true) by (apply (times_nth s I i j a c X C); lia).
      num_hyps. num_goal; try lra.
    + destruct (Nat.lt_ge_cases i (S j)) as [ | Q]; [assumption|exfalso].
      assert (Z : nltb t (s_time a) = true). { apply (K i a); [|exact X]. assert (i < length s) by (apply nth_error_Some; congruence). lia. }
      num_hyps. num_goal; try lra.
  - exfalso. destruct j as [|j].
    + rewrite C in E0. injection E0 as ->. num_hyps. num_goal; try lra.
    + assert (Z : nltb (s_time a0) (s_time c) = true) by (apply (times_nth s I 0 (S j) a0 c E0 C); lia). num_hyps. num_goal; try lra.
  - exfalso. pose proof (K 0 a0 ltac:(lia) E0) as Z. num_hyps. num_goal; try lra.
  - exact A.
Qed.

Local Close Scope nat_scope.

Lemma wf_points (s : signal F) : wf s -> wfp (points s).
Proof. intros (A & B & _). split; rewrite <- times_points; assumption. Qed.

Lemma C10_order_lemma (s : signal F) : wf s ->
  exists s', simplify s = Ok s' /\ wf s' /\ subseq (points s') (points s) /\
    hd_error (points s') = hd_error (points s) /\ last_opt (points s') = last_opt (points s).
Proof.
  intros W. apply wf_points in W. exists (sig_of (simp_points s)). rewrite points_sig_of.
  pose proof (simp_points_subseq s W) as S.
  split; [apply simplify_ok, W|]. split; [apply wf_canon; eauto using wfp_subseq|].
  split; [exact S|]. split; [apply simp_points_first|apply simp_points_last, W].
Qed.

Lemma C12_throw_lemma (l0 : list (sample F)) a b start fin fill :
  wf (l0 ++ [a; b]) -> isnum start = true -> nleb start fin = true ->
  nltb start (s_time a) = true -> resize (l0 ++ [a; b]) start fin fill = Throw InvalidArgument.
Proof. intros (A & B & _). intros. apply resize_throws; assumption. Qed.
End G.

(** ** Binary64 *)

Definition ex_history : list (sample B64) :=
  [mkSample (dbl 1 0) (dbl 5 0) (dbl 9 0); mkSample (dbl 1 0) (dbl 6 0) nzero; mkSample (dbl 2 0) (dbl 7 0) nzero].

Lemma C01_case_lemma : Forall (fun x : sample B64 => isnum (s_time x) = true) ex_history /\
  length (after ex_history) = 2%nat /\ length ex_history = 3%nat.
Proof.
  split; [|split; [vm_compute|]; reflexivity].
  repeat (apply Forall_cons; [vm_compute; reflexivity|]). apply Forall_nil.
Qed.

Definition ex_points : list (B64 * B64) := [(dbl 0 0, dbl 1 0); (dbl 1 0, dbl 3 0); (dbl 2 0, dbl (-1) 0)].
Definition ex_signal : signal B64 := sig_of ex_points.

Lemma b64_wf (pts : list (B64 * B64)) : forallb (fun p => isnum (fst p)) pts = true -> steps_ok pts = true -> wf (sig_of pts).
Proof.
  intros H S. assert (N : all_num (map fst pts)).
  { apply Forall_forall. intros x Hx. apply in_map_iff in Hx as (p & <- & Hp). rewrite forallb_forall in H. auto. }
  apply wf_canon. exists pts. split; [|reflexivity]. split; [exact N|]. apply increasing_steps; assumption.
Qed.

Lemma C02_witness : exists h : list (sample B64),
  ~ increasing (times (after h)) /\
  exists a b, hd_error (times (after h)) = Some a /\ last_opt (times (after h)) = Some b /\ nltb b a = true.
Proof.
  set (h := [mkSample (dbl 1 0) nzero nzero; mkSample B754_nan nzero nzero; mkSample (dbl 0 0) nzero nzero] : list (sample B64)).
  exists h. assert (E : times (after h) = [dbl 1 0; B754_nan; dbl 0 0]) by reflexivity. rewrite E. split.
  - intros H. apply StronglySorted_inv in H as [_ H]. apply Forall_inv in H. vm_compute in H. discriminate.
  - exists (dbl 1 0), (dbl 0 0). split; [reflexivity|]. split; [reflexivity|]. vm_compute. reflexivity.
Qed.

Lemma C04_case_lemma : all_num [dbl 1 0; dbl 3 0] /\ increasing [dbl 1 0; dbl 3 0] /\ ~ increasing [dbl 3 0; dbl 1 0].
Proof.
  split; [repeat constructor|]. split.
  - repeat constructor.
  - intros H. apply StronglySorted_inv in H as [_ H]. apply Forall_inv in H. vm_compute in H. discriminate.
Qed.

Lemma ex_signal_wf : wf ex_signal.
Proof. apply b64_wf; vm_compute; reflexivity. Qed.

Lemma C05_case_lemma : wf ex_signal /\ exists a, In a ex_signal /\ neqb (s_time a) (dbl 1 0) = true.
Proof. split; [exact ex_signal_wf|]. eexists. split; [right; left; reflexivity|]. vm_compute. reflexivity. Qed.

Lemma C06_witness_b64 : exists (s : signal B64) a,
  from_vectors [dbl 0 0; dbl 1 0; dbl 1 0] [dbl 0 0; dbl 1 0; dbl 2 0] = Ok s /\
  at_time s (dbl 1 (-1)) = Ok a /\ neqb (s_value a) (dbl 1 0) = true.
Proof.
  assert (H : match from_vectors [dbl 0 0; dbl 1 0; dbl 1 0] [dbl 0 0; dbl 1 0; dbl 2 0] with
              | Ok s => match at_time s (dbl 1 (-1)) with Ok a => neqb (s_value a) (dbl 1 0) | _ => false end
              | _ => false end = true) by (vm_compute; reflexivity).
  destruct (from_vectors _ _) as [s| | | |]; try discriminate.
  destruct (at_time s _) as [a| | | |] eqn:E; try discriminate. exists s, a. auto.
Qed.

Lemma C07_witness : exists (s : signal B64) t a u, wf s /\ s <> [] /\
  nltb t (begin_time s) = true /\ at_time s t = Ok a /\
  nltb (end_time s) u = true /\ at_time s u = UB.
Proof.
  pose proof ex_signal_wf as W. destruct (C07_lemma ex_signal (dbl (-1) 0) W) as (_ & _ & H & _).
  destruct (C07_lemma ex_signal (dbl 7 0) W) as (_ & H2 & _).
  destruct H as (a0 & r & E & H); [discriminate|vm_compute; reflexivity|].
  exists ex_signal, (dbl (-1) 0). eexists. exists (dbl 7 0). split; [exact W|]. split; [discriminate|].
  split; [vm_compute; reflexivity|]. split; [exact H|]. split; [vm_compute; reflexivity|].
  apply H2; [discriminate|vm_compute; reflexivity].
Qed.

Lemma C08_case_lemma : wf ex_signal /\ begin_at ex_signal (dbl 1 (-1)) = Ok 1%nat.
Proof. split; [exact ex_signal_wf|]. vm_compute. reflexivity. Qed.

Lemma C07_case_lemma : wf ex_signal /\ ex_signal <> [] /\ nltb (end_time ex_signal) (dbl 9 0) = true /\ nltb (dbl (-9) 0) (begin_time ex_signal) = true.
Proof. split; [exact ex_signal_wf|]. split; [discriminate|]. split; vm_compute; reflexivity. Qed.
Lemma C09_case_lemma : nleb (end_time ex_signal) (dbl 9 0) = true /\ nleb (end_time ex_signal) (dbl 1 0) = false.
Proof. split; vm_compute; reflexivity. Qed.
Lemma C09_search_case_lemma : wf ex_signal /\ ex_signal <> [] /\ isnum (dbl 1 0) = true /\ nleb (begin_time ex_signal) (dbl 1 0) = true /\
  nltb (dbl (-1) 0) (begin_time ex_signal) = true.
Proof. split; [exact ex_signal_wf|]. split; [discriminate|]. repeat split; vm_compute; reflexivity. Qed.
Lemma C12_throws_case_lemma : exists (l0 : list (sample B64)) a b, wf (l0 ++ [a; b]) /\ nleb (begin_time (l0 ++ [a; b])) (dbl 1 (-1)) = true /\
  isnum (dbl 1 (-1)) = true /\ nleb (dbl 1 (-1)) (dbl 3 (-1)) = true /\ nltb (dbl 1 (-1)) (s_time a) = true.
Proof. eexists [_], _, _. split; [exact ex_signal_wf|]. repeat split; vm_compute; reflexivity. Qed.
Lemma C14_case_lemma : wf ex_signal /\ finite (dbl 7 (-2)) = true.
Proof. split; [exact ex_signal_wf|]. vm_compute; reflexivity. Qed.

Lemma C09_witness : exists (s : signal B64) t, wf s /\ nleb (begin_time s) t = true /\
  nltb t (end_time s) = true /\ end_at s t = UB.
Proof.
  exists ex_signal, (dbl 1 0). split; [exact ex_signal_wf|]. split; [vm_compute; reflexivity|]. split; [vm_compute; reflexivity|].
  apply end_at_out. vm_compute. reflexivity.
Qed.

Lemma C12_otherwise_case_lemma : wf ex_signal /\ wf (sig_of [(dbl 1 0, dbl 5 0)]) /\ nltb (dbl 0 0) (dbl 1 0) = true /\
  nltb (end_time ex_signal) (dbl 3 0) = true /\
  (exists l0 a b, ex_signal = l0 ++ [a; b] /\ nleb (s_time a) (dbl 1 0) = true /\ nltb (s_time a) (dbl 3 (-1)) = true /\ nltb (dbl 3 (-1)) (s_time b) = true).
Proof.
  split; [exact ex_signal_wf|]. split; [apply b64_wf; vm_compute; reflexivity|]. split; [vm_compute; reflexivity|]. split; [vm_compute; reflexivity|].
  eexists [_], _, _. split; [reflexivity|]. split; [|split]; vm_compute; reflexivity.
Qed.
Lemma C12_witness : exists (s : signal B64) start fin fill, wf s /\
  nleb (begin_time s) start = true /\ nltb start fin = true /\ nleb fin (end_time s) = true /\
  resize s start fin fill = Throw InvalidArgument.
Proof.
  exists ex_signal, (dbl 1 (-1)), (dbl 3 (-1)), (dbl 0 0). split; [exact ex_signal_wf|].
  repeat (split; [vm_compute; reflexivity|]).
  apply (C12_throw_lemma [_] _ _); [exact ex_signal_wf|..]; vm_compute; reflexivity.
Qed.

Lemma add_time_sorted (l : list (sample B64)) dt : finite dt = true -> increasing (times l) ->
  StronglySorted (fun a b => nleb a b = true) (times (map (add_time dt) l)).
Proof.
  intros Fd. induction l as [|a l IH]; cbn [map times]; intros H; constructor.
  - apply IH. apply StronglySorted_inv in H as [H _]. exact H.
  - apply StronglySorted_inv in H as [_ H]. unfold times. rewrite map_map. apply Forall_map.
    apply Forall_map in H. eapply Forall_impl; [|exact H]. cbn [add_time s_time]. intros b Hb.
    apply add_mono; [exact Fd|]. clear -Hb. num_hyps; num_goal; lra.
Qed.

Lemma C14_lemma (s : signal B64) dt : wf s -> finite dt = true ->
  exists s', shift s dt = Ok s' /\ values s' = values s /\ length s' = length s /\
    StronglySorted (fun a b => nleb a b = true) (times s').
Proof.
  intros W Fd. unfold shift. rewrite from_samples_self by exact W. cbn [bind]. eexists. split; [reflexivity|].
  split; [unfold values; rewrite map_map; reflexivity|]. split; [apply map_length|].
  apply add_time_sorted; [exact Fd|]. apply W.
Qed.

Lemma C14_witness : exists (s s' : signal B64) dt, wf s /\ finite dt = true /\
  shift s dt = Ok s' /\ ~ increasing (times s').
Proof.
  assert (W : wf (sig_of [(dbl 0 0, dbl 1 0); (dbl 1 0, dbl 2 0)])) by (apply b64_wf; vm_compute; reflexivity).
  exists (sig_of [(dbl 0 0, dbl 1 0); (dbl 1 0, dbl 2 0)]). eexists. exists (dbl 1 60).
  split; [exact W|]. split; [vm_compute; reflexivity|]. split.
  - unfold shift. rewrite from_samples_self by exact W. reflexivity.
  - intros H. apply StronglySorted_inv in H as [_ H]. apply Forall_inv in H. vm_compute in H. discriminate.
Qed.

(** ** Exact arithmetic *)
Open Scope R_scope.

Ltac rincr_tac := repeat (constructor; try (cbn; lra)).

Lemma pwl_mid l1 p q l2 t v : rincr (l1 ++ p :: q :: l2) -> fst p < t < fst q ->
  (pwl (l1 ++ p :: q :: l2) t v <-> v = line p q t).
Proof.
  intros I Ht. split.
  - intros H. apply pwl_pw in H; [|exact I|destruct l1; discriminate]. destruct H as [_ ->].
    pose proof (repr_app_r _ _ _ (repr_pw _ I)) as R. destruct R as (V1 & (L & A) & V2 & _).
    symmetry. apply affine_line; auto. lra.
  - intros ->. right. exists l1, p, q, l2. auto.
Qed.

Lemma C06_lemma l1 p q l2 s t : built (l1 ++ p :: q :: l2) s ->
  fst p < t < fst q ->
  exists a v, at_time s (Fin t) = Ok a /\ s_time a = Fin t /\ s_value a = Fin v /\
    (pwl (l1 ++ p :: q :: l2) t v <->
     (snd q - snd p) / (fst q - fst p) =
      match l2 with [] => 0 | r :: _ => (snd r - snd q) / (fst r - fst q) end).
Proof.
  intros B Ht. apply built_iff in B as [I ->].
  destruct (at_exact l1 p q l2 t I Ht) as (a & H1 & H2 & H3).
  eexists a, _. split; [exact H1|]. split; [exact H2|]. split; [exact H3|].
  rewrite pwl_mid by assumption. unfold line. set (m := match l2 with [] => 0 | _ => _ end).
  set (k := (snd q - snd p) / (fst q - fst p)).
  assert (E : snd q = snd p + k * (fst q - fst p)) by (unfold k; field; lra).
  split; intros H.
  - assert (K : (m - k) * (t - fst q) = 0) by lra. apply Rmult_integral in K as [K|K]; lra.
  - rewrite <- H. rewrite E at 1. ring.
Qed.

Lemma C06_case_lemma : exists s, built [(0, 0); (1, 2); (2, 0)] s /\ fst (0, 0) < 1 / 2 < fst (1, 2).
Proof. eexists. split; [apply built_iff; split; [rincr_tac|reflexivity]|]. cbn. lra. Qed.

Lemma C06_witness : exists l s t v a, built l s /\ pwl l t v /\
  at_time s (Fin t) = Ok a /\ s_value a <> Fin v.
Proof.
  assert (I : rincr [(0, 0); (1, 2); (2, 0)]) by rincr_tac.
  destruct (at_exact [] (0, 0) (1, 2) [(2, 0)] (1/2) I) as (a & H1 & H2 & H3); [cbn; lra|].
  exists [(0, 0); (1, 2); (2, 0)], (fsig [(0, 0); (1, 2); (2, 0)]), (1/2), 1, a.
  split; [apply built_iff; split; [exact I|reflexivity]|]. split.
  - right. exists [], (0, 0), (1, 2), [(2, 0)]. cbn. split; [reflexivity|]. split; [lra|field].
  - split; [exact H1|]. rewrite H3. cbn. intros H. injection H as H. lra.
Qed.

Lemma C10_exact_lemma l s : built l s ->
  exists l' s', simplify s = Ok s' /\ built l' s' /\ subseq l' l /\
    forall t v, pwl l' t v <-> pwl l t v.
Proof.
  intros B. apply built_iff in B as [I ->]. destruct l as [|p l].
  - exists [], []. split; [cbn; rewrite fin_eq, Req_bool_true by reflexivity; reflexivity|].
    split; [apply built_iff; split; [constructor|reflexivity]|]. split; [constructor|tauto].
  - destruct (simplify_exact (p :: l) I ltac:(discriminate)) as (l' & H1 & H2 & H3 & H4 & H5 & H6).
    exists l', (fsig l'). split; [exact H1|]. split; [apply built_iff; split; [eapply repr_rincr, H3|reflexivity]|].
    split; [exact H4|]. intros t v. rewrite (repr_pwl _ _ _ _ H3 H2), pwl_pw by (assumption || discriminate).
    rewrite H5, H6. tauto.
Qed.

Lemma C10_case_lemma : exists s s', built [(0, 1); (1, 1); (2, 1); (3, 4)] s /\ simplify s = Ok s' /\ length s' = 3%nat.
Proof.
  assert (I : rincr [(0, 1); (1, 1); (2, 1); (3, 4)]) by rincr_tac.
  exists (fsig [(0, 1); (1, 1); (2, 1); (3, 4)]). eexists.
  split; [apply built_iff; split; [exact I|reflexivity]|].
  split; [apply simplify_ok; rewrite points_fsig; apply rincr_wfp, I|].
  rewrite length_sig_of. unfold simp_points.
  replace (simp_keep None (fsig [(0, 1); (1, 1); (2, 1); (3, 4)])) with (map inj [(0, 1); (2, 1); (3, 4)]).
  - rewrite end_fsig. change (sig_of (map inj [(0, 1); (2, 1); (3, 4)])) with (fsig [(0, 1); (2, 1); (3, 4)]).
    rewrite end_fsig. change (@neqb XR _) with xeq. rewrite fin_eq. unfold final_time. cbn [last_opt fst].
    rewrite Req_bool_true by reflexivity. reflexivity.
  - rewrite fsig_cons. cbn [simp_keep]. change (s_time _, s_value _) with (inj (0, 1)).
    rewrite rkeep_keep by (apply rincr_cons2 in I; apply I).
    cbn [rkeep]. unfold rdrop. cbn [snd]. rewrite (Req_bool_true 1 1) by reflexivity. cbn [andb].
    rewrite (Req_bool_false 4 1) by lra. rewrite (Req_bool_false 1 4) by lra. reflexivity.
Qed.
Lemma C11_case_lemma : exists s s' l', built ([(0, 1)] ++ (1, 1) :: (2, 1) :: (3, 4) :: []) s /\ simplify s = Ok s' /\ built l' s'.
Proof.
  destruct C10_case_lemma as (s & s' & B & E & _). destruct (C10_exact_lemma _ _ B) as (l' & s2 & E' & B' & _).
  rewrite E in E'. injection E' as <-. exists s, s', l'. auto.
Qed.

Lemma C11_lemma l1 p q r l2 s s' l' :
  built (l1 ++ p :: q :: r :: l2) s -> simplify s = Ok s' -> built l' s' ->
  (In q l' <-> ~ (snd p = snd q /\ snd q = snd r)).
Proof. intros B E B'. apply built_iff in B as [I ->]. eapply simplify_drops; eauto. Qed.

Lemma C11_witness : exists p q r s, built [p; q; r] s /\ simplify s = Ok s /\
  (snd q - snd p) / (fst q - fst p) = (snd r - snd q) / (fst r - fst q).
Proof.
  assert (I : rincr [(0, 0); (1, 1); (2, 2)]) by rincr_tac.
  exists (0, 0), (1, 1), (2, 2), (fsig [(0, 0); (1, 1); (2, 2)]).
  split; [apply built_iff; split; [exact I|reflexivity]|]. split; [|cbn; field].
  rewrite simplify_ok by (rewrite points_fsig; apply rincr_wfp, I).
  unfold simp_points.
  replace (simp_keep None (fsig [(0, 0); (1, 1); (2, 2)])) with (map inj [(0, 0); (1, 1); (2, 2)]).
  - rewrite end_fsig. change (sig_of (map inj [(0, 0); (1, 1); (2, 2)])) with (fsig [(0, 0); (1, 1); (2, 2)]).
    rewrite end_fsig. change (@neqb XR _) with xeq. rewrite fin_eq, Req_bool_true by reflexivity. reflexivity.
  - rewrite fsig_cons. cbn [simp_keep]. change (s_time _, s_value _) with (inj (0, 0)).
    rewrite rkeep_keep by (apply rincr_cons2 in I; apply I).
    cbn [rkeep]. unfold rdrop. cbn [snd]. rewrite (Req_bool_false 0 1) by lra. rewrite (Req_bool_false 1 2) by lra. reflexivity.
Qed.

Lemma C12_lemma l p q start fin fill s :
  built (l ++ [p; q]) s -> fst p <= start < fst q -> start < fin ->
  exists l' s', resize s (Fin start) (Fin fin) (Fin fill) = Ok s' /\ built l' s' /\
    forall t v, pwl l' t v <-> pwl (l ++ [p; q]) t v /\ start <= t <= fin.
Proof.
  intros B H1 H2. apply built_iff in B as [I ->].
  destruct (resize_exact l p q start fin fill I H1 H2) as (l' & E & F1 & F2 & N & R).
  exists l', (fsig l'). split; [exact E|]. split; [apply built_iff; split; [eapply repr_rincr, R|reflexivity]|].
  intros t v. rewrite (repr_pwl _ _ _ _ R N), pwl_pw by (assumption || (destruct l; discriminate)).
  rewrite F1, F2. assert (Ef : final_time (l ++ [p; q]) = fst q) by (rewrite final_app by discriminate; reflexivity).
  rewrite Ef.
  assert (Hp : first_time (l ++ [p; q]) <= fst p) by (apply (rincr_first_final _ p I); apply in_or_app; right; left; reflexivity).
  unfold Rmin. destruct (Rle_dec fin (fst q)); intuition lra.
Qed.

Lemma C12_case_lemma : exists s, built ([(0, 1)] ++ [(1, 2); (3, 5)]) s /\ fst (1, 2) <= 2 < fst (3, 5).
Proof. eexists. split; [apply built_iff; split; [rincr_tac|reflexivity]|]. cbn. lra. Qed.

Lemma C13_lemma l s dt : built l s ->
  exists l' s', shift s (Fin dt) = Ok s' /\ built l' s' /\
    (forall t v, pwl l' (t + dt) v <-> pwl l t v) /\
    (forall dt2, shift s' (Fin dt2) = shift s (Fin (dt + dt2))).
Proof.
  intros B. apply built_iff in B as [I ->]. exists (map (move dt) l), (fsig (map (move dt) l)).
  split; [apply shift_exact, I|]. split; [apply built_iff; split; [apply rincr_move, I|reflexivity]|].
  split; [intros; apply pwl_move|]. intros dt2. rewrite !shift_exact by (auto using rincr_move). rewrite move_move. reflexivity.
Qed.

Lemma C13_case_lemma : exists s, built [(0, 1); (1, 2); (3, 5)] s.
Proof. eexists. apply built_iff; split; [rincr_tac|reflexivity]. Qed.

Lemma C66_case_lemma : (length ex_signal <= 5)%nat /\ exists a b post, ex_signal = [a] ++ b :: post.
Proof.
  assert (L : length ex_signal = 2%nat \/ length ex_signal = 3%nat \/ length ex_signal = 4%nat) by (vm_compute; auto).
  split; [lia|]. destruct ex_signal as [|a [|b post]]; [cbn in L; lia..|]. exists a, b, post. reflexivity.
Qed.
