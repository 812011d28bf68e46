(** simplify and resize: claims that only need the order of timestamps. *)
From Coq Require Import Sorted Reals Lra.
From Verif Require Import Base Num.
From Verif.Model Require Import Signal.
From Verif.Spec Require Import SignalSpec Subseq.
From Verif.Proofs Require Import NumFacts SignalFacts LowerBound.

Section Simplify.
Context {F : Type} `{NF : Num F} {NL : NumLaws F}.
Local Open Scope R_scope.

Lemma increasing_subseq (ts us : list F) : subseq ts us -> increasing us -> increasing ts.
Proof.
  induction 1 as [|a l l' H IH|a l l' H IH]; intros Hi; auto.
  - apply increasing_cons in Hi as [Hi Hf]. apply increasing_cons. split; [auto|].
    rewrite Forall_forall in *. intros x Hx. apply Hf. eapply subseq_In; eauto.
  - apply increasing_cons in Hi as [Hi _]. auto.
Qed.
Lemma all_num_subseq (ts us : list F) : subseq ts us -> all_num us -> all_num ts.
Proof.
  intros H Hn. unfold all_num in *. rewrite Forall_forall in *. intros x Hx. apply Hn. eapply subseq_In; eauto.
Qed.
Lemma wfp_subseq (p q : list (F * F)) : subseq p q -> wfp q -> wfp p.
Proof.
  intros H [Hn Hi]. apply (subseq_map fst) in H. split; [eapply all_num_subseq|eapply increasing_subseq]; eauto.
Qed.
Lemma wfp_app_l (p q : list (F * F)) : wfp (p ++ q) -> wfp p.
Proof.
  apply wfp_subseq. rewrite <- (app_nil_r p) at 1. apply subseq_app; [apply subseq_refl|apply subseq_nil_l].
Qed.
Lemma wfp_app_r (p q : list (F * F)) : wfp (p ++ q) -> wfp q.
Proof. apply wfp_subseq. change q with ([] ++ q) at 1. apply subseq_app; [apply subseq_nil_l|apply subseq_refl]. Qed.

Lemma push_back_wfp pts x : wfp (pts ++ [(s_time x, s_value x)]) ->
  push_back (sig_of pts) x = Ok (sig_of (pts ++ [(s_time x, s_value x)])).
Proof.
  intros H. rewrite push_back_canon by (apply wfp_steps; eapply wfp_app_l; eauto).
  rewrite wfp_steps by exact H. reflexivity.
Qed.

(** Which samples simplify keeps: [keep_flat b a] with [b] the last kept point. *)
Definition simp_drop (b : F * F) (a : sample F) : bool :=
  neqb (nadd (snd b) (nmul nzero (nsub (s_time a) (fst b)))) (s_value a) && neqb nzero (s_deriv a).

Fixpoint simp_keep (b : option (F * F)) (l : list (sample F)) : list (F * F) :=
  match l with
  | [] => []
  | a :: l' =>
      match b with
      | Some p => if simp_drop p a then simp_keep b l'
                  else (s_time a, s_value a) :: simp_keep (Some (s_time a, s_value a)) l'
      | None => (s_time a, s_value a) :: simp_keep (Some (s_time a, s_value a)) l'
      end
  end.

Lemma simp_keep_subseq l : forall b, subseq (simp_keep b l) (points l).
Proof.
  induction l as [|a l IH]; intros b; [constructor|].
  cbn [simp_keep]. change (points (a :: l)) with ((s_time a, s_value a) :: points l). destruct b as [p|].
  - destruct (simp_drop p a); constructor; apply IH.
  - constructor; apply IH.
Qed.

Lemma simplify_loop_keep l : forall pts, wfp (pts ++ points l) ->
  simplify_loop (sig_of pts) l = Ok (sig_of (pts ++ simp_keep (last_opt pts) l)).
Proof.
  induction l as [|a l IH]; intros pts Hw.
  - cbn. rewrite app_nil_r. reflexivity.
  - change (points (a :: l)) with ([(s_time a, s_value a)] ++ points l) in Hw. rewrite app_assoc in Hw.
    assert (Hstep : forall b, simp_keep b (a :: l) = (s_time a, s_value a) :: simp_keep (Some (s_time a, s_value a)) l ->
       (sig' <- push_back (sig_of pts) a ;; simplify_loop sig' l) = Ok (sig_of (pts ++ simp_keep b (a :: l)))).
    { intros b ->. rewrite push_back_wfp by (eapply wfp_app_l; eauto). cbn [bind]. rewrite IH by exact Hw.
      rewrite last_opt_snoc, <- app_assoc. reflexivity. }
    cbn [simplify_loop]. rewrite last_opt_sig_of. destruct (last_opt pts) as [p|] eqn:E; cbn [option_map].
    + unfold interpolate. cbn [s_time s_value s_deriv]. rewrite <- negb_andb. fold (simp_drop p a).
      destruct (simp_drop p a) eqn:Ed; cbn [negb].
      * rewrite IH.
        -- cbn [simp_keep]. rewrite E, Ed. reflexivity.
        -- eapply wfp_subseq; [|exact Hw]. rewrite <- app_assoc. apply subseq_app; [apply subseq_refl|].
           apply sub_skip, subseq_refl.
      * apply Hstep. cbn [simp_keep]. rewrite Ed. reflexivity.
    + apply Hstep. reflexivity.
Qed.

Definition simp_points (s : signal F) : list (F * F) :=
  let k := simp_keep None s in
  if negb (neqb (end_time s) (end_time (sig_of k))) then
    match last_opt (points s) with Some p => k ++ [p] | None => k end
  else k.

Lemma end_time_points (s : signal F) :
  end_time s = match last_opt (points s) with Some p => fst p | None => nzero end.
Proof. unfold end_time, points. rewrite last_opt_map. destruct (last_opt s); reflexivity. Qed.

Lemma subseq_snoc_last {A} (k l : list A) p : last_opt l = Some p -> subseq k l ->
  last_opt k <> Some p -> subseq (k ++ [p]) l.
Proof.
  intros Hl Hs Hne. apply last_opt_some in Hl as [l' ->]. apply subseq_app_cons_inv in Hs as (a & b & -> & Ha & Hb).
  destruct b as [|x b].
  - rewrite app_nil_r. apply subseq_app; [exact Ha|apply subseq_refl].
  - exfalso. apply subseq_length in Hb as Hl. cbn in Hl. destruct b; [|cbn in Hl; lia].
    inversion Hb as [|? ? ? H1|? ? ? H1]; subst; [|inversion H1]. rewrite last_opt_snoc in Hne. congruence.
Qed.

Lemma simp_points_subseq s : wfp (points s) -> subseq (simp_points s) (points s).
Proof.
  intros [Hn Hi]. unfold simp_points. pose proof (simp_keep_subseq s None) as Hs.
  destruct (neqb (end_time s) (end_time (sig_of (simp_keep None s)))) eqn:E; cbn [negb]; [exact Hs|].
  destruct (last_opt (points s)) as [p|] eqn:El; [|exact Hs].
  apply subseq_snoc_last; auto. intros Hc.
  rewrite !end_time_points, points_sig_of, El, Hc in E.
  assert (isnum (fst p) = true). { unfold all_num in Hn. rewrite Forall_forall in Hn. apply Hn, in_map, last_opt_In, El. }
  num.
Qed.

Lemma simplify_ok (s : signal F) : wfp (points s) -> simplify s = Ok (sig_of (simp_points s)).
Proof.
  intros Hw. destruct s as [|a0 s0].
  { unfold simplify, simp_points. cbn. assert (E : neqb nzero nzero = true) by exact isnum_zero. rewrite E. reflexivity. }
  remember (a0 :: s0) as s eqn:Es.
  pose proof (simp_points_subseq s Hw) as Hsub. pose proof (wfp_subseq _ _ Hsub Hw) as Hwp.
  unfold simplify. change (@nil (sample F)) with (sig_of (@nil (F * F))).
  rewrite simplify_loop_keep by exact Hw. cbn [bind last_opt app].
  unfold simp_points in *. destruct (negb _); [|reflexivity].
  destruct (last_opt (points s)) as [p|] eqn:El.
  - unfold back. assert (exists a, last_opt s = Some a /\ p = (s_time a, s_value a)) as (a & -> & ->).
    { unfold points in El. rewrite last_opt_map in El. destruct (last_opt s) as [a|]; [|discriminate].
      injection El as <-. eauto. }
    cbn [bind]. apply push_back_wfp. exact Hwp.
  - unfold points in El. rewrite last_opt_map in El. destruct (last_opt s) eqn:E2; [discriminate|].
    apply last_opt_none in E2. congruence.
Qed.

Lemma simp_points_first (s : signal F) : hd_error (simp_points s) = hd_error (points s).
Proof.
  destruct s as [|a s]; unfold simp_points; cbn [simp_keep].
  - cbn. destruct (negb _); reflexivity.
  - destruct (negb _); [|reflexivity]. destruct (last_opt _); reflexivity.
Qed.

Lemma simp_points_last (s : signal F) : wfp (points s) ->
  last_opt (simp_points s) = last_opt (points s).
Proof.
  intros [Hn Hi]. unfold simp_points. pose proof (simp_keep_subseq s None) as Hs.
  destruct (last_opt (points s)) as [p|] eqn:El.
  2: { apply last_opt_none in El. rewrite El in Hs. inversion Hs as [E| |].
       destruct (negb _); reflexivity. }
  destruct (negb (neqb (end_time s) (end_time (sig_of (simp_keep None s))))) eqn:E.
  { apply last_opt_snoc. }
  apply negb_false_iff in E. rewrite !end_time_points, points_sig_of, El in E.
  destruct (last_opt (simp_keep None s)) as [q|] eqn:Ek.
  2: { destruct s as [|a s]; [discriminate|]. apply last_opt_none in Ek. discriminate. }
  f_equal. pose proof (last_opt_In _ _ Ek) as Hq. eapply subseq_In in Hq; [|exact Hs].
  apply last_opt_some in El as [l' El]. rewrite El in *.
  apply in_app_or in Hq as [Hq|[Hq|[]]]; [|auto].
  rewrite map_app in Hi. apply increasing_app in Hi as (_ & _ & H).
  assert (nltb (fst q) (fst p) = true) by (apply H; [apply in_map, Hq|left; reflexivity]). num.
Qed.
End Simplify.

Section Resize.
Context {F : Type} `{NF : Num F} {NL : NumLaws F}.
Local Open Scope R_scope.

Lemma increasing_app_cons_lt (l1 : list (sample F)) a l2 x :
  increasing (times (l1 ++ a :: l2)) -> In x l1 -> nltb (s_time x) (s_time a) = true.
Proof.
  unfold times. rewrite map_app. intros H Hx. apply increasing_app in H as (_ & _ & H).
  apply H; [apply in_map, Hx|left; reflexivity].
Qed.

Lemma next_head (l1 : list (sample F)) a l2 : exists n l', l1 ++ a :: l2 = n :: l' /\ (n = a \/ In n l1).
Proof. destruct l1 as [|n l1]; cbn; eauto 10. Qed.

Lemma resize_loop_cons start fin sig prev (i : sample F) l' :
  resize_loop start fin sig prev (i :: l') =
  if (match l' with [] => false | n :: _ => nltb start (s_time n) end) then
    sig' <- push_back sig (mkSample start (interpolate i start) nzero) ;;
    resize_loop start fin sig' (Some i) l'
  else if nleb start (s_time i) && nleb (s_time i) fin then
    sig' <- push_back sig i ;; resize_loop start fin sig' (Some i) l'
  else if nltb fin (s_time i) then
    match prev with
    | Some p =>
        if nltb (s_time p) fin then
          sig' <- push_back sig (mkSample fin (interpolate p fin) nzero) ;;
          resize_loop start fin sig' (Some i) l'
        else Ok sig
    | None => Ok sig
    end
  else resize_loop start fin sig (Some i) l'.
Proof. reflexivity. Qed.

(** A second sample whose successor lies after [start] makes push_back throw. *)
Lemma resize_loop_throw start fin (a b : sample F) : isnum start = true ->
  nleb start fin = true -> nltb start (s_time b) = true ->
  forall l1 pts v prev, all_num (times (l1 ++ [a; b])) -> increasing (times (l1 ++ [a; b])) ->
  resize_loop start fin (sig_of (pts ++ [(start, v)])) prev (l1 ++ [a; b]) = Throw InvalidArgument.
Proof.
  intros Hs Hsf Hb. induction l1 as [|i l1 IH]; intros pts v prev Hn Hi.
  - cbn [app]. rewrite resize_loop_cons. rewrite Hb. rewrite push_back_snoc. cbn [s_time fst].
    assert (E : nleb start start = true) by num. rewrite E. reflexivity.
  - cbn [app] in *. inversion Hn as [|? ? Hin Hn']; subst. pose proof Hi as Hi0.
    cbn in Hi. apply increasing_cons in Hi as [Hi Hf].
    destruct (next_head l1 a [b]) as (n & l' & El & Hnx).
    rewrite resize_loop_cons. rewrite El in *. cbn iota beta.
    destruct (nltb start (s_time n)) eqn:E1.
    + rewrite push_back_snoc. cbn [s_time fst].
      assert (E : nleb start start = true) by num. rewrite E. reflexivity.
    + assert (Hin2 : nltb (s_time i) (s_time n) = true) by (inversion Hf; assumption).
      assert (isnum (s_time n) = true) by (num_hyps; assumption).
      assert (nleb start (s_time i) = false) as -> by num. cbn [andb].
      assert (nltb fin (s_time i) = false) as -> by num.
      apply IH; assumption.
Qed.

Lemma resize_throws (l0 : list (sample F)) a b start fin fill :
  all_num (times (l0 ++ [a; b])) -> increasing (times (l0 ++ [a; b])) -> isnum start = true ->
  nleb start fin = true -> nltb start (s_time a) = true ->
  resize (l0 ++ [a; b]) start fin fill = Throw InvalidArgument.
Proof.
  intros Hn Hi Hs Hsf Ha.
  assert (Hab : nltb (s_time a) (s_time b) = true).
  { replace (l0 ++ [a; b]) with ((l0 ++ [a]) ++ [b]) in Hi by (rewrite <- app_assoc; reflexivity).
    eapply increasing_app_cons_lt; eauto. apply in_or_app; right; left; reflexivity. }
  assert (Hb : nltb start (s_time b) = true) by num.
  unfold resize. destruct (nltb start (begin_time (l0 ++ [a; b]))) eqn:Eb.
  - rewrite push_back_nil. cbn [bind s_time s_value].
    apply (resize_loop_throw start fin a b Hs Hsf Hb l0 []); assumption.
  - cbn [bind]. destruct l0 as [|i0 l0]; [cbn in Eb; congruence|]. clear Eb.
    generalize (@None (sample F)). revert i0 Hn Hi. induction l0 as [|i1 l0 IH]; intros i0 Hn Hi prev.
    + cbn [app]. rewrite resize_loop_cons. rewrite Ha. rewrite push_back_nil. cbn [bind s_time s_value].
      inversion Hn; subst. cbn in Hi. apply increasing_cons in Hi as [Hi _].
      apply (resize_loop_throw start fin a b Hs Hsf Hb [] []); assumption.
    + inversion Hn as [|? ? Hi0n Hn']; subst. pose proof Hi as Hi0. cbn in Hi. apply increasing_cons in Hi as [Hi Hf].
      cbn [app]. rewrite resize_loop_cons. destruct (nltb start (s_time i1)) eqn:E1.
      * rewrite push_back_nil. cbn [bind s_time s_value].
        apply (resize_loop_throw start fin a b Hs Hsf Hb (i1 :: l0) []); assumption.
      * assert (Hin2 : nltb (s_time i0) (s_time i1) = true) by (inversion Hf; assumption).
        assert (isnum (s_time i1) = true) by (num_hyps; assumption).
        assert (nleb start (s_time i0) = false) as -> by num. cbn [andb].
        assert (nltb fin (s_time i0) = false) as -> by num.
        apply IH; assumption.
Qed.

(** Samples before [start] whose successor is not after [start] are skipped. *)
Lemma resize_loop_skip start fin (c : sample F) l2 : nleb start fin = true -> nleb (s_time c) start = true ->
  forall l1 sig prev, all_num (times (l1 ++ c :: l2)) -> increasing (times (l1 ++ c :: l2)) ->
  resize_loop start fin sig prev (l1 ++ c :: l2) =
  resize_loop start fin sig (match last_opt l1 with Some p => Some p | None => prev end) (c :: l2).
Proof.
  intros Hsf Hc. induction l1 as [|i l1 IH]; intros sig prev Hn Hi; [reflexivity|].
  cbn [app] in *. inversion Hn as [|? ? Hin Hn']; subst. pose proof Hi as Hi0.
  cbn in Hi. apply increasing_cons in Hi as [Hi Hf].
  destruct (next_head l1 c l2) as (n & l' & El & Hnx).
  rewrite resize_loop_cons. rewrite El in *. cbn iota beta.
  assert (Hn2 : nltb (s_time i) (s_time n) = true) by (inversion Hf; assumption).
  assert (Hle : nleb (s_time n) start = true).
  { destruct Hnx as [->|Hnx]; [exact Hc|]. rewrite <- El in Hi.
    pose proof (increasing_app_cons_lt _ _ _ _ Hi Hnx). num. }
  assert (nltb start (s_time n) = false) as -> by (num_hyps; num).
  assert (nleb start (s_time i) = false) as -> by (num_hyps; num). cbn [andb].
  assert (nltb fin (s_time i) = false) as -> by (num_hyps; num).
  rewrite <- El in *. rewrite IH by assumption. f_equal.
  destruct l1 as [|x l1]; [reflexivity|]. change (last_opt (i :: x :: l1)) with (last_opt (x :: l1)).
  destruct (last_opt (x :: l1)) eqn:Ex; [reflexivity|]. apply last_opt_none in Ex. discriminate.
Qed.

Lemma begin_time_le_head (s : signal F) x start : all_num (times s) -> increasing (times s) ->
  In x s -> nleb (s_time x) start = true -> nltb start (begin_time s) = false.
Proof.
  intros Hn Hi Hx H. pose proof (begin_le_end s x Hn Hi Hx).
  assert (isnum (begin_time s) = true). { destruct s; [destruct Hx|]. inversion Hn; assumption. }
  num.
Qed.

(** The window starts inside the last segment. *)
Lemma resize_last_segment (l0 : list (sample F)) a b start fin fill :
  all_num (times (l0 ++ [a; b])) -> increasing (times (l0 ++ [a; b])) ->
  nltb start fin = true -> nleb (s_time a) start = true -> nltb start (s_time b) = true ->
  resize (l0 ++ [a; b]) start fin fill =
  Ok (sig_of [(start, interpolate a start);
              if nleb (s_time b) fin then (s_time b, s_value b) else (fin, interpolate a fin)]).
Proof.
  intros Hn Hi Hsf Ha Hb. unfold resize.
  rewrite (begin_time_le_head _ a start) by (auto; apply in_or_app; right; left; reflexivity).
  cbn [bind]. rewrite resize_loop_skip by (auto; num_hyps; num).
  remember (match last_opt l0 with Some p => Some p | None => None end) as prev.
  cbn [resize_loop]. rewrite Hb, push_back_nil. cbn [bind s_time s_value].
  assert (nleb start (s_time b) = true) as -> by (num_hyps; num). cbn [andb].
  assert (Hp : forall t v, nltb start t = true ->
     push_back (sig_of [(start, interpolate a start)]) (mkSample t v nzero) =
     Ok (sig_of [(start, interpolate a start); (t, v)])).
  { intros t v Ht. rewrite push_back_single. cbn [s_time s_value fst app].
    assert (nleb t start = false) as -> by (num_hyps; num). reflexivity. }
  destruct (nleb (s_time b) fin) eqn:E.
  - destruct b as [tb vb db]. rewrite push_back_single. cbn [s_time s_value fst app] in *.
    assert (nleb tb start = false) as -> by (num_hyps; num). reflexivity.
  - assert (isnum fin = true) by (num_hyps; assumption). assert (isnum (s_time b) = true) by (num_hyps; assumption).
    assert (nltb fin (s_time b) = true) as -> by num.
    assert (nltb (s_time a) fin = true) as -> by (num_hyps; num).
    rewrite Hp by exact Hsf. reflexivity.
Qed.

(** The window starts at or after the last sample. *)
Lemma resize_after_end (l0 : list (sample F)) b start fin fill :
  all_num (times (l0 ++ [b])) -> increasing (times (l0 ++ [b])) ->
  nleb start fin = true -> nleb (s_time b) start = true ->
  resize (l0 ++ [b]) start fin fill =
  Ok (sig_of (if neqb (s_time b) start then [(s_time b, s_value b)] else [])).
Proof.
  intros Hn Hi Hsf Hb. unfold resize.
  rewrite (begin_time_le_head _ b start) by (auto; apply in_or_app; right; left; reflexivity).
  cbn [bind]. rewrite resize_loop_skip by (auto; num_hyps; num).
  cbn [resize_loop]. destruct (neqb (s_time b) start) eqn:E.
  - assert (nleb start (s_time b) = true) as -> by (num_hyps; num).
    assert (nleb (s_time b) fin = true) as -> by (num_hyps; num). reflexivity.
  - assert (nleb start (s_time b) = false) as ->. { num_hyps. num. } cbn [andb].
    assert (nltb fin (s_time b) = false) as -> by (num_hyps; num). reflexivity.
Qed.

(** A single sample after the start: the fill value is put in front. *)
Lemma resize_single_fill (b : sample F) start fin fill :
  nltb start (s_time b) = true -> isnum fin = true ->
  resize [b] start fin fill =
  Ok (sig_of ((start, fill) :: (if nleb (s_time b) fin then [(s_time b, s_value b)] else []))).
Proof.
  intros Hb Hf. unfold resize. cbn [begin_time]. rewrite Hb, push_back_nil. cbn [bind s_time s_value resize_loop].
  assert (nleb start (s_time b) = true) as -> by (num_hyps; num). cbn [andb].
  destruct (nleb (s_time b) fin) eqn:E.
  - rewrite push_back_single. cbn [fst].
    assert (nleb (s_time b) start = false) as -> by (num_hyps; num). reflexivity.
  - assert (nltb fin (s_time b) = true) as -> by (num_hyps; num). reflexivity.
Qed.

(** A window of a single point inside the last segment. *)
Lemma resize_point (l0 : list (sample F)) a b start fin fill :
  all_num (times (l0 ++ [a; b])) -> increasing (times (l0 ++ [a; b])) ->
  neqb start fin = true -> nleb (s_time a) start = true -> nltb start (s_time b) = true ->
  resize (l0 ++ [a; b]) start fin fill =
  if nltb (s_time a) start then Throw InvalidArgument else Ok (sig_of [(start, interpolate a start)]).
Proof.
  intros Hn Hi Hsf Ha Hb. unfold resize.
  rewrite (begin_time_le_head _ a start) by (auto; apply in_or_app; right; left; reflexivity).
  cbn [bind]. rewrite resize_loop_skip by (auto; num_hyps; num).
  remember (match last_opt l0 with Some p => Some p | None => None end) as prev.
  cbn [resize_loop]. rewrite Hb, push_back_nil. cbn [bind s_time s_value].
  assert (nleb start (s_time b) = true) as -> by (num_hyps; num).
  assert (nleb (s_time b) fin = false) as -> by (num_hyps; num). cbn [andb].
  assert (nltb fin (s_time b) = true) as -> by (num_hyps; num).
  destruct (nltb (s_time a) start) eqn:E.
  - assert (nltb (s_time a) fin = true) as -> by (num_hyps; num).
    rewrite push_back_single. cbn [s_time fst]. assert (nleb fin start = true) as -> by (num_hyps; num). reflexivity.
  - assert (nltb (s_time a) fin = false) as -> by (num_hyps; num). reflexivity.
Qed.

(** The empty signal begins at 0. *)
Lemma resize_empty start fin fill :
  resize (@nil (sample F)) start fin fill = Ok (sig_of (if nltb start nzero then [(start, fill)] else [])).
Proof. unfold resize. cbn [begin_time]. destruct (nltb start nzero); reflexivity. Qed.

(** Every remaining case of C12, as points. *)
Lemma C12_rest_lemma (s : signal F) start fin fill : wf s -> isnum start = true -> nleb start fin = true ->
  (s = [] -> exists s', resize s start fin fill = Ok s' /\ points s' = (if nltb start nzero then [(start, fill)] else [])) /\
  (forall b, s = [b] -> nltb start (s_time b) = true -> exists s', resize s start fin fill = Ok s' /\
     points s' = (start, fill) :: (if nleb (s_time b) fin then [(s_time b, s_value b)] else [])) /\
  (forall l0 b, s = l0 ++ [b] -> nleb (s_time b) start = true -> exists s', resize s start fin fill = Ok s' /\
     points s' = (if neqb (s_time b) start then [(s_time b, s_value b)] else [])) /\
  (forall l0 a b, s = l0 ++ [a; b] -> nleb (s_time a) start = true -> nltb start (s_time b) = true -> neqb start fin = true ->
     (nltb (s_time a) start = true -> resize s start fin fill = Throw InvalidArgument) /\
     (nltb (s_time a) start = false -> exists s' v, resize s start fin fill = Ok s' /\ points s' = [(start, v)] /\
        v = nadd (s_value a) (nmul (s_deriv a) (nsub start (s_time a))))) /\
  (forall l0 a b, s = l0 ++ [a; b] -> nleb (s_time a) start = true -> nltb start (s_time b) = true -> nltb start fin = true ->
     exists s', resize s start fin fill = Ok s' /\
       points s' = [(start, nadd (s_value a) (nmul (s_deriv a) (nsub start (s_time a))));
                    if nleb (s_time b) fin then (s_time b, s_value b)
                    else (fin, nadd (s_value a) (nmul (s_deriv a) (nsub fin (s_time a))))]).
Proof.
  intros (Wn & Wi & _) Hs Hsf. split; [|split; [|split; [|split]]].
  - intros ->. eexists. split; [apply resize_empty|apply points_sig_of].
  - intros b -> Hb. eexists. split; [apply resize_single_fill; [exact Hb|num_hyps; assumption]|apply points_sig_of].
  - intros l0 b -> Hb. eexists. split; [apply resize_after_end; assumption|apply points_sig_of].
  - intros l0 a b -> Ha Hb He. rewrite resize_point by assumption. split; intros ->; [reflexivity|].
    do 2 eexists. split; [reflexivity|]. split; reflexivity.
  - intros l0 a b -> Ha Hb He. eexists. split; [apply resize_last_segment; assumption|apply points_sig_of].
Qed.
End Resize.
