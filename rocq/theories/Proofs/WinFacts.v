(** The windowed min/max: what it does for a = 0 and for windows that start before the
    second-to-last sample. *)
From Coq Require Import Sorted Reals Lra.
From Flocq Require Import IEEE754.BinarySingleNaN Core.
From Verif Require Import Base Num NumB64.
From Verif.Model Require Import Signal MonoWedge MinMax.
From Verif.Spec Require Import SignalSpec.
From Verif.Proofs Require Import NumFacts SignalFacts LowerBound Reshape B64Facts MinMaxFacts SignalProps.

Section G.
Local Open Scope nat_scope.
Context {F : Type} `{NF : Num F} {NL : NumLaws F}.
Variable comp : sample F -> sample F -> bool.
(** Adding or subtracting a zero does not change the (numeric) value. *)
Variable a : F.
Hypothesis add_a : forall x, isnum x = true -> neqb (nadd x a) x = true.
Hypothesis sub_a : forall x, isnum x = true -> neqb (nsub x a) x = true.

Lemma wedge_linear_some (w : list (sample F)) v : forall fuel i pos, 1 <= i -> pos + i = length w -> pos < fuel ->
  exists r, wedge_linear comp fuel w v i pos = Ok r.
Proof.
  induction fuel as [|fuel IH]; intros i pos Hi Hp Hf; [lia|]. cbn [wedge_linear].
  replace (length w - i) with pos by lia.
  destruct (Nat.ltb_spec 0 (Nat.shiftr pos i)) as [L|L]; [|eauto].
  destruct (nth_error w pos) as [b|] eqn:E; [|apply nth_error_None in E; lia].
  destruct (comp b v); [eauto|]. destruct pos as [|pos].
  - rewrite Nat.shiftr_div_pow2, Nat.div_0_l in L by (apply Nat.pow_nonzero; lia). lia.
  - apply IH; lia.
Qed.

Lemma wedge_update_some (w : list (sample F)) v : exists k, wedge_update comp w v = Ok (firstn k w ++ [v]).
Proof.
  unfold wedge_update, wedge_search. destruct w as [|b w]; [exists 0; reflexivity|].
  destruct (wedge_linear_some (b :: w) v (S (length (b :: w))) 1 (length (b :: w) - 1)) as ([k|p] & E); try (cbn; lia).
  - rewrite E. cbn [bind]. eauto.
  - rewrite E. cbn [bind]. destruct (lower_bound_total (fun a => comp a v) (firstn (S p) (b :: w))) as (k & -> & _). cbn [bind]. eauto.
Qed.

(** Window shape during streaming: genuine samples with increasing times between [z]'s end
    and [i0], then inserted ones that are not later than [last]. *)
Definition gen (last : option F) (i0 : F) (g : list (sample F)) : Prop :=
  increasing (times g) /\ all_num (times g) /\ (forall b, In b g -> nltb (s_time b) i0 = true) /\
  (forall b u, In b g -> last = Some u -> nltb u (s_time b) = true).

Definition stale (last : option F) (s : list (sample F)) : Prop :=
  forall b, In b s -> exists u, last = Some u /\ nleb (s_time b) u = true.

Lemma win_pop_stale bound s : (forall b, In b s -> nleb (s_time b) bound = true) -> win_pop bound s = UB.
Proof.
  induction s as [|b s IH]; intros H; [reflexivity|]. cbn [win_pop]. rewrite H by (left; reflexivity). apply IH.
  intros c Hc. apply H. right. exact Hc.
Qed.

Lemma increasing_firstn k (l : list (sample F)) : increasing (times l) -> increasing (times (firstn k l)).
Proof. intros H. rewrite <- (firstn_skipn k l) in H. unfold times in H. rewrite map_app in H. apply increasing_app in H. apply H. Qed.

Lemma stream_ub : forall n g s fuel prev i0 l z,
  length g <= n -> n < fuel -> isnum (s_time i0) = true ->
  (exists pts, z = sig_of pts /\ wfp pts) ->
  gen (option_map s_time (last_opt z)) (s_time i0) g -> stale (option_map s_time (last_opt z)) s ->
  (g ++ s <> [] -> g <> []) -> prev <> None \/ g = [] ->
  win_stream comp fuel a (g ++ s) prev (i0 :: l) z = UB.
Proof.
  induction n as [|n IH]; intros g s fuel prev i0 l z Hg Hf Ni (pts & Ez & Wz) (G1 & G2 & G3 & G4) Hst Hne Hp.
  { destruct g; [|cbn in Hg; lia]. cbn [app] in *. destruct s; [|exfalso; apply Hne; [discriminate|reflexivity]].
    destruct fuel; [lia|]. reflexivity. }
  destruct fuel as [|fuel]; [lia|]. cbn [win_stream].
  destruct g as [|f g].
  { cbn [app] in *. destruct s; [reflexivity|]. exfalso. apply Hne; [discriminate|reflexivity]. }
  cbn [app]. assert (Nf : isnum (s_time f) = true) by (inversion G2; assumption).
  pose proof (G3 f (or_introl eq_refl)) as Lf. pose proof (sub_a _ Ni) as Si.
  assert (nltb (s_time f) (nsub (s_time i0) a) = true) as -> by num.
  destruct Hp as [Hp|Hp]; [|discriminate]. destruct prev as [p|]; [|congruence]. cbn [bind].
  set (i := mkSample (nadd (s_time f) a) _ _).
  pose proof (add_a _ Nf) as Ai. assert (Nti : isnum (s_time i) = true) by (cbn [i s_time]; num_hyps; assumption).
  pose proof (sub_a _ Nti) as Sa. cbn [i s_time] in Sa. fold (s_time i) in Sa.
  destruct (wedge_update_some (f :: g ++ s) i) as (k & ->). cbn [bind].
  set (bound := nsub (s_time i) a) in *. assert (Eb : neqb bound (s_time f) = true) by (unfold bound; cbn [i s_time] in *; num).
  change (f :: g ++ s) with ((f :: g) ++ s). rewrite firstn_app.
  destruct (firstn k (f :: g)) as [|f' g'] eqn:Ek.
  { (* f itself was dropped *)
    destruct k; [|discriminate]. cbn [Nat.sub firstn app]. rewrite win_pop_stale; [reflexivity|].
    intros b [<-|[]]. cbn [i s_time] in *. num. }
  destruct k as [|k]; [discriminate|]. cbn [firstn] in Ek. injection Ek as <- <-.
  set (s' := firstn (S k - length (f :: g)) s ++ [i]).
  assert (St : forall b, In b s' -> nleb (s_time b) bound = true).
  { unfold s'. intros b Hb. apply in_app_or in Hb as [Hb|[<-|[]]]; [|cbn [i s_time] in *; num].
    assert (In b s) by (rewrite <- (firstn_skipn (S k - length (f :: g)) s); apply in_or_app; left; exact Hb).
    destruct (Hst b H) as (u & Hu & Lu). pose proof (G4 f u (or_introl eq_refl) Hu). num. }
  replace (((f :: firstn k g) ++ firstn (S k - length (f :: g)) s) ++ [i]) with (f :: firstn k g ++ s') by (unfold s'; cbn [app]; rewrite <- app_assoc; reflexivity).
  cbn [win_pop]. assert (nleb (s_time f) bound = true) as -> by num.
  destruct (firstn k g) as [|f2 g2] eqn:Ek2.
  { cbn [app]. rewrite win_pop_stale by exact St. reflexivity. }
  assert (In2 : forall b, In b (f2 :: g2) -> In b g) by (rewrite <- Ek2; intros b Hb; rewrite <- (firstn_skipn k g); apply in_or_app; left; exact Hb).
  cbn [times map] in G1. pose proof G1 as G1'. apply increasing_cons in G1' as [G1' Gf]. rewrite Forall_forall in Gf.
  assert (Lgt : forall b, In b (f2 :: g2) -> nltb (s_time f) (s_time b) = true) by (intros b Hb; apply Gf, in_map, In2, Hb).
  cbn [app win_pop]. pose proof (Lgt f2 (or_introl eq_refl)) as L2.
  assert (nleb (s_time f2) bound = false) as -> by num. cbn [bind].
  (* push to z *)
  assert (PB : push_back_tv z (s_time i) (s_value i) = Ok (sig_of (pts ++ [(s_time i, s_value i)])) /\ wfp (pts ++ [(s_time i, s_value i)])).
  { subst z. unfold push_back_tv. destruct pts as [|q pts' _] using rev_ind.
    - cbn. split; [reflexivity|]. split; cbn; [repeat constructor; exact Nti|repeat constructor].
    - change (s_time i, s_value i) with (pt (mkSample (s_time i) (s_value i) nzero)). apply push_back_ok; auto.
      + intros Q. apply app_eq_nil in Q as [_ Q]. discriminate.
      + rewrite last_opt_sig_of, last_opt_snoc in G4. cbn in G4.
        pose proof (G4 f (fst q) (or_introl eq_refl) eq_refl).
        unfold end_time. rewrite last_opt_sig_of, last_opt_snoc. cbn. cbn [i s_time] in Ai. num. }
  destruct PB as [-> Wz']. cbn [bind].
  change (f2 :: g2 ++ s') with ((f2 :: g2) ++ s').
  assert (EL : option_map s_time (last_opt (sig_of (pts ++ [(s_time i, s_value i)]))) = Some (s_time i)) by (rewrite last_opt_sig_of, last_opt_snoc; reflexivity).
  apply IH; auto; try (rewrite EL).
  - rewrite <- Ek2, firstn_length. cbn in Hg. lia.
  - lia.
  - exists (pts ++ [(s_time i, s_value i)]). auto.
  - rewrite <- Ek2. split; [apply increasing_firstn, G1'|]. split; [|split].
    + inversion G2; subst. unfold all_num in *. rewrite Forall_forall in *. intros u Hu. apply in_map_iff in Hu as (b & <- & Hb).
      rewrite Ek2 in Hb. apply H2, in_map, In2, Hb.
    + rewrite Ek2. intros b Hb. apply G3. right. apply In2, Hb.
    + rewrite Ek2. intros b u Hb [= <-]. pose proof (Lgt b Hb). cbn [i s_time] in *. num.
  - intros b Hb. exists (s_time i). split; [reflexivity|]. pose proof (St b Hb). change (s_time i) with (nadd (s_time f) a). num.
  - intros _. discriminate.
  - left. discriminate.
Qed.

Lemma win_zero_ub fuel x b : neqb a nzero = true -> all_num (times x) -> increasing (times x) ->
  length x < fuel -> minmax_seq_win comp fuel x a b = UB.
Proof.
  intros Ha N I Hf. unfold minmax_seq_win. rewrite Ha. cbn [bind].
  assert (SORT : forall l w p, (exists pre, x = pre ++ l /\ (forall c, In c w -> In c pre) /\ increasing (times w) /\ length w <= length pre /\ (w <> [] -> p <> None)) ->
    forall r, win_fill comp (nadd (begin_time x) (nsub b a)) w p l = r ->
    r = UB \/ exists w' p' i l' pre, r = Ok (w', p', i :: l') /\ x = pre ++ i :: l' /\ (forall c, In c w' -> In c pre) /\ increasing (times w') /\ length w' <= length pre /\ (w' <> [] -> p' <> None)).
  { induction l as [|i l IH]; intros w p (pre & Ex & Hw & Hi & Hl & Hp) r Hr; cbn [win_fill] in Hr; [left; auto|].
    destruct (nltb (s_time i) (nadd (begin_time x) (nsub b a))).
    - destruct (wedge_update_some w i) as (k & E). rewrite E in Hr. cbn [bind] in Hr. eapply IH; [|exact Hr].
      exists (pre ++ [i]). rewrite <- app_assoc. split; [exact Ex|]. split; [|split; [|split]].
      + intros c Hc. apply in_app_or in Hc as [Hc|[<-|[]]]; apply in_or_app; [left|right; left; reflexivity].
        apply Hw. rewrite <- (firstn_skipn k w). apply in_or_app. left. exact Hc.
      + unfold times. rewrite map_app. apply increasing_app. split; [apply increasing_firstn, Hi|]. split; [repeat constructor|].
        intros u v Hu [<-|[]]. apply in_map_iff in Hu as (c & <- & Hc).
        assert (Hc' : In c pre) by (apply Hw; rewrite <- (firstn_skipn k w); apply in_or_app; left; exact Hc).
        rewrite Ex in I. unfold times in I. rewrite map_app in I. apply increasing_app in I as (_ & _ & I). apply I; [apply in_map, Hc'|left; reflexivity].
      + rewrite !app_length, firstn_length. cbn. lia.
      + intros _. discriminate.
    - right. subst r. exists w, p, i, l, pre. auto 10. }
  destruct (SORT x [] None) with (r := win_fill comp (nadd (begin_time x) (nsub b a)) [] None x) as [-> |(w & p & i & l & pre & -> & Ex & Hw & Hi & Hl & Hp)]; auto.
  { exists []. split; [reflexivity|]. split; [intros c []|]. split; [constructor|]. split; [cbn; lia|congruence]. }
  cbn [bind]. replace w with (w ++ []) by apply app_nil_r.
  assert (Nw : all_num (times w)).
  { unfold all_num in *. rewrite Forall_forall in *. intros u Hu. apply in_map_iff in Hu as (c & <- & Hc). apply N. rewrite Ex. apply in_map. apply in_or_app. left. apply Hw, Hc. }
  rewrite (stream_ub (length w)); auto.
  - rewrite Ex, app_length in Hf. cbn in Hf. lia.
  - unfold all_num in N. rewrite Forall_forall in N. apply N. rewrite Ex. apply in_map. apply in_or_app. right. left. reflexivity.
  - exists []. split; [reflexivity|]. split; constructor.
  - split; [exact Hi|]. split; [exact Nw|]. split; [|cbn; discriminate].
    intros c Hc. rewrite Ex in I. unfold times in I. rewrite map_app in I. apply increasing_app in I as (_ & _ & I). apply I; [apply in_map, Hw, Hc|left; reflexivity].
  - intros c [].
  - rewrite app_nil_r. auto.
  - destruct w; [right; reflexivity|left; apply Hp; discriminate].
Qed.
End G.
