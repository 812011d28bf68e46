(** Cases and witnesses for C86-C88. *)
From Coq Require Import Sorted Reals Lra Permutation.
From Verif Require Import Base Num NumXR NumB64.
From Verif.Model Require Import Signal MonoWedge MinMax Ast Robustness.
From Verif.Spec Require Import SignalSpec Pwl Formula Semantics Quantitative Laws.
From Verif.Proofs Require Import NumFacts SignalFacts PwlFacts SignalProps SyncExact PairExact MinMaxProps MinMaxCases MinMaxExamples SeqExact RobFacts RobWf RobTransport Duality RobExact UntilFacts RobExamples QuantFacts QuantExamples BoolLaws Resample.

Section Exact.
Local Open Scope R_scope.

(** x and (not y or F x), against (x and not y) or (x and F x). *)
Definition law_l : expr XR := EAnd [EOr [ENot ey; EEventually gx interval_default]; gx].
Definition law_r : expr XR := EOr [EAnd [ENot ey; gx]; EAnd [EEventually gx interval_default; gx]].
Lemma ev_tac_l : evaluable lt1 law_l.
Proof.
  split; [reflexivity|]. split; [reflexivity|]. split; [|split].
  - intros e He. cbn in He. repeat (destruct He as [<-|He]; [first [exact I|left; reflexivity]|]). destruct He.
  - intros e He. cbn in He. repeat (destruct He as [<-|He]; [first [exact I|eexists; reflexivity]|]). destruct He.
  - intros n Hn. apply lt1_names. cbn in Hn. repeat (destruct Hn as [<-|Hn]; [auto|]). destruct Hn.
Qed.
Lemma ev_tac_r : evaluable lt1 law_r.
Proof.
  split; [reflexivity|]. split; [reflexivity|]. split; [|split].
  - intros e He. cbn in He. repeat (destruct He as [<-|He]; [first [exact I|left; reflexivity]|]). destruct He.
  - intros e He. cbn in He. repeat (destruct He as [<-|He]; [first [exact I|eexists; reflexivity]|]). destruct He.
  - intros n Hn. apply lt1_names. cbn in Hn. repeat (destruct Hn as [<-|Hn]; [auto|]). destruct Hn.
Qed.
Lemma lt1_inside e t : 0 <= t <= 2 -> inside lt1 e t <-> forall n, In n (names e) -> n = sx \/ n = sy.
Proof.
  intros T. split; intros H n Hn.
  - destruct (H n Hn) as (v & l & [[= <- _]|[[= <- _]|[]]] & _); auto.
  - destruct (H n Hn) as [-> | ->].
    + exists (pw lx1 t), lx1. split; [left; reflexivity|]. apply pwl_pw; [exact lx1_incr|discriminate|]. split; [cbn; lra|reflexivity].
    + exists (pw ly1 t), ly1. split; [right; left; reflexivity|]. apply pwl_pw; [exact ly1_incr|discriminate|]. split; [cbn; lra|reflexivity].
Qed.
Lemma C86_case_lemma : trace_of lt1 tr1 /\ keys_unique tr1 /\ all_start lt1 0 /\ law law_l law_r /\ evaluable lt1 law_l /\ evaluable lt1 law_r /\
  inside lt1 law_l (1/3) /\ inside lt1 law_r (1/3) /\ exists v, gives true 0 tr1 false law_l (1/3) v.
Proof.
  split; [exact tr1_of|]. split; [exact tr1_keys|]. split; [exact tr1_start|]. split; [apply (law_and_or [gx] [ENot ey; EEventually gx interval_default])|].
  split; [exact ev_tac_l|]. split; [exact ev_tac_r|].
  assert (I1 : inside lt1 law_l (1/3)). { apply lt1_inside; [lra|]. intros n Hn. cbn in Hn. repeat (destruct Hn as [<-|Hn]; [auto|]). destruct Hn. }
  split; [exact I1|]. split.
  { apply lt1_inside; [lra|]. intros n Hn. cbn in Hn. repeat (destruct Hn as [<-|Hn]; [auto|]). destruct Hn. }
  apply (gives_inside true 0 lt1 tr1 0 false tr1_of tr1_keys tr1_start law_l (1/3) ev_tac_l), I1.
Qed.

Definition ctx (e : expr XR) : expr XR := EAnd [EAlways e interval_default; gx].
Definition dm_l : expr XR := ENot (EAnd [gx; ey]).
Definition dm_r : expr XR := EOr [ENot gx; ENot ey].
Lemma ctx_ev e : e = dm_l \/ e = dm_r -> evaluable lt1 (ctx e).
Proof.
  intros [-> | ->].
  - split; [reflexivity|]. split; [reflexivity|]. split; [|split].
    + intros e He. cbn in He. repeat (destruct He as [<-|He]; [first [exact I|left; reflexivity]|]). destruct He.
    + intros e He. cbn in He. repeat (destruct He as [<-|He]; [first [exact I|eexists; reflexivity]|]). destruct He.
    + intros n Hn. apply lt1_names. cbn in Hn. repeat (destruct Hn as [<-|Hn]; [auto|]). destruct Hn.
  - split; [reflexivity|]. split; [reflexivity|]. split; [|split].
    + intros e He. cbn in He. repeat (destruct He as [<-|He]; [first [exact I|left; reflexivity]|]). destruct He.
    + intros e He. cbn in He. repeat (destruct He as [<-|He]; [first [exact I|eexists; reflexivity]|]). destruct He.
    + intros n Hn. apply lt1_names. cbn in Hn. repeat (destruct Hn as [<-|Hn]; [auto|]). destruct Hn.
Qed.
Lemma C87_case_lemma : trace_of lt1 tr1 /\ keys_unique tr1 /\ all_start lt1 0 /\ rewrite1 (ctx dm_l) (ctx dm_r) /\
  evaluable lt1 (ctx dm_l) /\ evaluable lt1 (ctx dm_r) /\ first_exact (ctx dm_l) = true /\ first_exact (ctx dm_r) = true.
Proof.
  split; [exact tr1_of|]. split; [exact tr1_keys|]. split; [exact tr1_start|]. split.
  { apply (rw_and [] (EAlways dm_l interval_default) (EAlways dm_r interval_default) [gx]). apply rw_always, rw_law, (law_not_and [gx; ey]). }
  split; [apply ctx_ev; auto|]. split; [apply ctx_ev; auto|]. split; reflexivity.
Qed.

(** The same function with one more point. *)
Definition lx3 : list (R * R) := [(0, 10); (1/2, 5); (1, 0); (2, 5)].
Lemma lx3_incr : rincr lx3. Proof. unfold lx3. rincr_tac. Qed.
Lemma lx23_same t v : pwl lx2 t v <-> pwl lx3 t v.
Proof.
  rewrite (pwl_pw lx2 t v lx2_incr), (pwl_pw lx3 t v lx3_incr) by discriminate.
  assert (E : 0 <= t <= 2 -> pw lx2 t = pw lx3 t).
  { intros T. unfold lx2, lx3. cbn [pw fst snd]. unfold line. cbn [fst snd].
    repeat match goal with |- context [Rle_dec ?a ?b] => destruct (Rle_dec a b) end; try lra; field. }
  change (first_time lx2) with 0. change (first_time lx3) with 0. change (final_time lx2) with 2. change (final_time lx3) with 2.
  split; intros [T ->]; (split; [exact T|]); [|symmetry]; apply E, T.
Qed.
Definition one_lt (l : list (R * R)) : ptrace := [(sx, l)].
Definition one_tr (l : list (R * R)) : trace XR := [(sx, fsig l)].
Lemma one_of l : rincr l -> trace_of (one_lt l) (one_tr l).
Proof. intros I. constructor; [split; [reflexivity|]; apply built_iff; split; [exact I|reflexivity]|constructor]. Qed.
Lemma one_keys l : keys_unique (one_tr l).
Proof. unfold keys_unique. cbn. constructor; [intros []|constructor]. Qed.
Lemma one_ev l e : e = gx \/ e = EEventually gx interval_default -> evaluable (one_lt l) e.
Proof.
  intros [-> | ->]; (split; [reflexivity|]; split; [reflexivity|]; split; [|split]).
  - intros e He. cbn in He. repeat (destruct He as [<-|He]; [first [exact I|left; reflexivity]|]). destruct He.
  - intros e He. cbn in He. repeat (destruct He as [<-|He]; [first [exact I|eexists; reflexivity]|]). destruct He.
  - intros n [<-|[]]. exists l. left. reflexivity.
  - intros e He. cbn in He. repeat (destruct He as [<-|He]; [first [exact I|left; reflexivity]|]). destruct He.
  - intros e He. cbn in He. repeat (destruct He as [<-|He]; [first [exact I|eexists; reflexivity]|]). destruct He.
  - intros n [<-|[]]. exists l. left. reflexivity.
Qed.
Lemma C88_case_lemma : trace_of (one_lt lx2) (one_tr lx2) /\ trace_of (one_lt lx3) (one_tr lx3) /\ same_functions (one_lt lx2) (one_lt lx3) /\
  keys_unique (one_tr lx2) /\ keys_unique (one_tr lx3) /\ all_start (one_lt lx2) 0 /\
  evaluable (one_lt lx2) gx /\ free_of is_temporal gx = true /\ lx2 <> lx3 /\
  evaluable (one_lt lx2) (EEventually gx interval_default) /\ first_exact (EEventually gx interval_default) = true.
Proof.
  split; [apply one_of, lx2_incr|]. split; [apply one_of, lx3_incr|]. split; [constructor; [split; [reflexivity|]; cbn [snd]; apply lx23_same|constructor]|].
  split; [apply one_keys|]. split; [apply one_keys|]. split; [repeat constructor; discriminate|]. split; [apply one_ev; auto|]. split; [reflexivity|].
  split; [intros H; apply (f_equal (@length _)) in H; discriminate|]. split; [apply one_ev; auto|reflexivity].
Qed.

Lemma gx_one dbg fuel l r : rincr l -> r_trace r = one_tr l -> compute dbg fuel r gx = Ok (fsig l).
Proof.
  intros I Hr. unfold gx. rewrite (pred_fsig sx GT 0 fuel dbg r l); [|rewrite Hr; reflexivity|exact I]. do 2 f_equal.
  clear. induction l as [|[a b] l IH]; [reflexivity|]. cbn [map fst snd]. rewrite IH. f_equal. f_equal. lra.
Qed.
Lemma ev_one l t v : rincr l -> l <> [] -> pwl (rroll (-1) l) t v -> gives true 0 (one_tr l) false (EEventually gx interval_default) t v.
Proof.
  intros I N H. exists (rroll (-1) l), (fsig (rroll (-1) l)). split; [|split; [apply built_iff; split; [apply rincr_rroll, I|reflexivity]|exact H]].
  unfold compute_robustness. set (r := mkRob _ _ _).
  change (compute true 0 r (EEventually gx interval_default)) with (y <- compute true 0 r gx ;; rob_temporal 0 sample_ge interval_default y).
  rewrite (gx_one true 0 l r I) by reflexivity. cbn [bind]. rewrite temporal_xr; [|exact I|exact N|left; reflexivity].
  apply (seq_fsig (-1) sample_ge sg_ge); assumption.
Qed.
Lemma C88_witness : exists lt lt' tr tr' phi t v w, trace_of lt tr /\ trace_of lt' tr' /\ same_functions lt lt' /\ keys_unique tr /\ keys_unique tr' /\ all_start lt 0 /\
  evaluable lt phi /\ gives true 0 tr false phi t v /\ gives true 0 tr' false phi t w /\ v <> w.
Proof.
  destruct C88_case_lemma as (A1 & A2 & A3 & A4 & A5 & A6 & _ & _ & _ & A7 & _).
  exists (one_lt lx2), (one_lt lx3), (one_tr lx2), (one_tr lx3), (EEventually gx interval_default), (1/2), (15/2), 5.
  do 7 (split; [assumption|]).
  assert (V1 : vb (-1) (1, 0) [(2, 5)] = 5). { apply (vb_unique (-1) sample_ge sg_ge); cbn; [exists (2, 5); cbn; auto|]. intros c [<-|[<-|[]]]; cbn; lra. }
  assert (V0 : vb (-1) (0, 10) [(1, 0); (2, 5)] = 10). { apply (vb_unique (-1) sample_ge sg_ge); cbn; [exists (0, 10); cbn; auto|]. intros c [<-|[<-|[<-|[]]]]; cbn; lra. }
  assert (V2 : vb (-1) (1/2, 5) [(1, 0); (2, 5)] = 5). { apply (vb_unique (-1) sample_ge sg_ge); cbn; [exists (1/2, 5); cbn; auto|]. intros c [<-|[<-|[<-|[]]]]; cbn; lra. }
  split; [|split; [|lra]]; (apply ev_one; [(exact lx2_incr || exact lx3_incr)|discriminate|]).
  - apply (roll_mid (-1) [] (0, 10) (1, 0) [(2, 5)]); [exact lx2_incr|cbn; lra|]. rewrite V0, V1. unfold line. cbn. field.
  - left. exists (1/2, 5). split; [|cbn; auto]. right. left. f_equal. exact V2.
Qed.
End Exact.

(** ** C87: the order of three operands *)
Local Open Scope nat_scope.
Definition sz : string := "z"%string.
Definition otr : trace B64 :=
  [(sx, sig_of [(dbl 0 0, dbl 5 0); (dbl 1 0, dbl 0 0); (dbl 2 0, dbl 3 0)]);
   (sy, sig_of [(dbl 0 0, dbl 10 0); (dbl 1 0, dbl 20 0); (dbl 2 0, dbl 20 0)]);
   (sz, sig_of [(dbl 0 0, dbl 20 0); (dbl 1 0, dbl 10 0); (dbl 2 0, dbl 10 0)])].
Definition opx : expr B64 := EPred sx GT nzero.
Definition opy : expr B64 := EPred sy GT nzero.
Definition opz : expr B64 := EPred sz GT nzero.
Lemma C87_witness : exists (phi psi : expr B64) tr z z' a b c, rewrite1 phi psi /\ keys_unique tr /\
  Forall (fun e => wf (snd e) /\ neqb (begin_time (snd e)) nzero = true) tr /\
  compute_robustness true 0 phi tr false = Ok z /\ compute_robustness true 0 psi tr false = Ok z' /\
  nth_error z 0 = Some a /\ nth_error z 1 = Some b /\ In c z' /\ nltb (s_time a) (s_time c) = true /\ nltb (s_time c) (s_time b) = true /\
  nltb (s_value c) (interpolate a (s_time c)) = true.
Proof.
  exists (EEventually (EAnd [opx; opy; opz]) interval_default), (EEventually (EAnd [opy; opz; opx]) interval_default), otr.
  destruct (two_ok (compute_robustness true 0 (EEventually (EAnd [opx; opy; opz]) interval_default) otr false)
    (compute_robustness true 0 (EEventually (EAnd [opy; opz; opx]) interval_default) otr false)
    (fun z z' => match z, z' with
     | a :: b :: _, _ :: c :: _ => nltb (s_time a) (s_time c) && nltb (s_time c) (s_time b) && nltb (s_value c) (interpolate a (s_time c))
     | _, _ => false end)) as (z & z' & E & E' & H); [vm_compute; reflexivity|].
  destruct z as [|a [|b z]]; try discriminate H. destruct z' as [|c0 [|c z']]; try discriminate H. apply andb_prop in H as [H H3]. apply andb_prop in H as [H1 H2].
  exists (a :: b :: z), (c0 :: c :: z'), a, b, c. split.
  { apply rw_eventually, rw_law, law_and_comm. apply (Permutation_cons_append [opy; opz] opx). }
  split. { unfold keys_unique. cbn [map fst otr]. repeat constructor; cbn; intuition discriminate. }
  split. { repeat constructor; try (apply b64_wf; vm_compute; reflexivity); vm_compute; reflexivity. }
  repeat split; auto. right. left. reflexivity.
Qed.
