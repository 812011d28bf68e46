(** C88: other samples of the same functions. *)
From Coq Require Import Sorted Reals Lra.
From Verif Require Import Base Num NumXR.
From Verif.Model Require Import Signal MonoWedge MinMax Ast Robustness.
From Verif.Spec Require Import SignalSpec Pwl Formula Semantics Quantitative Laws.
From Verif.Proofs Require Import NumFacts SignalFacts PwlFacts SyncExact SignalProps PairExact MinMaxProps RobFacts RobExact QuantFacts BoolLaws.
Open Scope R_scope.

Lemma first_le_final l : rincr l -> l <> [] -> first_time l <= final_time l.
Proof. intros I N. destruct l as [|p l]; [congruence|]. pose proof (rincr_first_final (p :: l) p I (or_introl eq_refl)). lra. Qed.

Section S.
Variables lt lt' : ptrace.
Hypothesis SF : same_functions lt lt'.

Lemma same_value n t v : value_at lt n t v <-> value_at lt' n t v.
Proof.
  unfold value_at. split; intros (l & H & P).
  - destruct (F2_l _ _ _ _ SF H) as ((m & l') & H' & E & Q). cbn in E, Q. subst m. exists l'. split; [exact H'|]. apply Q, P.
  - destruct (F2_r _ _ _ _ SF H) as ((m & l') & H' & E & Q). cbn in E, Q. subst m. exists l'. split; [exact H'|]. apply Q, P.
Qed.
Lemma same_inside e t : inside lt e t <-> inside lt' e t.
Proof. unfold inside. setoid_rewrite same_value. reflexivity. Qed.
Lemma same_evaluable e : evaluable lt e -> evaluable lt' e.
Proof.
  intros (A & B & C & D & E). repeat (split; [assumption|]). intros n Hn. destruct (E n Hn) as (l & H).
  destruct (F2_l _ _ _ _ SF H) as ((m & l') & H' & Em & _). cbn in Em. subst m. eauto.
Qed.

Lemma same_rho : forall e t v, rho lt e t v <-> rho lt' e t v.
Proof.
  induction e using expr_rec; intros t v; try reflexivity.
  - cbn [rho]. setoid_rewrite same_value. reflexivity.
  - apply IHe.
  - rewrite !rho_and. rewrite Forall_forall in H. split; intros [(e & He & A) M]; (split; [exists e; split; [exact He|apply H; assumption]|]);
      intros e' He'; destruct (M e' He') as (w & Hw & L); exists w; (split; [apply H; assumption|exact L]).
  - rewrite !rho_or. rewrite Forall_forall in H. split; intros [(e & He & A) M]; (split; [exists e; split; [exact He|apply H; assumption]|]);
      intros e' He'; destruct (M e' He') as (w & Hw & L); exists w; (split; [apply H; assumption|exact L]).
Qed.

Lemma same_rob : forall e t v, rob lt e t v <-> rob lt' e t v.
Proof.
  assert (NODE : forall p l, Forall (fun e => forall t v, rob lt e t v <-> rob lt' e t v) l -> forall t v, rob lt (node p l) t v <-> rob lt' (node p l) t v).
  { intros p l H t v. rewrite !rob_node. rewrite Forall_forall in H. unfold family. split; intros [(P & HP & Q) M].
    - split.
      + apply in_map_iff in HP as (e & <- & He). exists (rob lt' e). split; [apply in_map, He|]. apply H; assumption.
      + intros P' HP'. apply in_map_iff in HP' as (e & <- & He). destruct (M (rob lt e) (in_map _ _ _ He)) as (w & Hw & L). exists w. split; [apply H; assumption|exact L].
    - split.
      + apply in_map_iff in HP as (e & <- & He). exists (rob lt e). split; [apply in_map, He|]. apply H; assumption.
      + intros P' HP'. apply in_map_iff in HP' as (e & <- & He). destruct (M (rob lt' e) (in_map _ _ _ He)) as (w & Hw & L). exists w. split; [apply H; assumption|exact L]. }
  assert (UNB : forall p e i, (forall t v, rob lt e t v <-> rob lt' e t v) -> forall t v, rob lt (unbounded p e i) t v <-> rob lt' (unbounded p e i) t v).
  { intros p e i H t v. rewrite !rob_unbounded, same_inside. setoid_rewrite H. reflexivity. }
  induction e using expr_rec; intros t v; try reflexivity.
  - cbn [rob]. setoid_rewrite same_value. reflexivity.
  - apply IHe.
  - apply (NODE true l H).
  - apply (NODE false l H).
  - apply (UNB true e i IHe).
  - apply (UNB false e i IHe).
Qed.

Lemma same_start t0 : all_start lt t0 -> Forall (fun a => rincr (snd a)) lt -> Forall (fun a => rincr (snd a)) lt' -> all_start lt' t0.
Proof.
  unfold all_start. pose proof SF as SF0. revert SF0. clear. induction 1 as [|(n & l) (n' & l') lt lt' (E & Q) _ IH]; intros A I I'; [constructor|].
  apply Forall_cons_iff in A as [[N S] A], I as [H1 I], I' as [H5 I']. constructor; [|exact (IH A I I')].
  cbn [fst snd] in *. assert (N' : l' <> []).
  { intros ->. destruct (proj2 (dom_iff l (first_time l) H1 N)) as (v & Hv); [split; [lra|apply first_le_final; assumption]|]. apply Q in Hv. destruct Hv as [(p & [] & _)|(l1 & p & q & l2 & X & _)]. destruct l1; discriminate. }
  split; [exact N'|]. assert (D : forall t, first_time l <= t <= final_time l <-> first_time l' <= t <= final_time l').
  { intros t. rewrite <- !dom_iff by assumption. setoid_rewrite Q. reflexivity. }
  pose proof (first_le_final l H1 N). pose proof (first_le_final l' H5 N').
  pose proof (proj1 (D (first_time l))). pose proof (proj2 (D (first_time l'))). lra.
Qed.
End S.

Lemma built_all lt tr : trace_of lt tr -> Forall (fun a => rincr (snd a)) lt.
Proof. induction 1 as [|a b lt tr [_ H] _ IH]; constructor; [|exact IH]. apply built_iff in H. apply H. Qed.

Lemma C88_lemma dbg fuel lt lt' tr tr' t0 phi s : trace_of lt tr -> trace_of lt' tr' -> same_functions lt lt' -> keys_unique tr -> keys_unique tr' -> all_start lt t0 ->
  evaluable lt phi ->
  (free_of is_temporal phi = true -> forall t v, gives dbg fuel tr s phi t v <-> gives dbg fuel tr' s phi t v) /\
  (first_exact phi = true -> forall v, gives dbg fuel tr s phi t0 v <-> gives dbg fuel tr' s phi t0 v).
Proof.
  intros T T' SF K K' A E. assert (A' : all_start lt' t0) by (eapply same_start; eauto using built_all). assert (E' := same_evaluable lt lt' SF phi E). split.
  - intros F t v. destruct (gives_eval dbg fuel lt tr t0 s T K A phi E) as (l & _ & EV & G). destruct (gives_eval dbg fuel lt' tr' t0 s T' K' A' phi E') as (l' & _ & EV' & G').
    destruct EV as (_ & _ & _ & R & _), EV' as (_ & _ & _ & R' & _). rewrite G, G', (R F), (R' F). apply same_rho, SF.
  - intros F v. destruct (C72_lemma dbg fuel lt tr t0 phi s T K A E F) as (l & z & w & C & Bz & _ & P & R).
    destruct (C72_lemma dbg fuel lt' tr' t0 phi s T' K' A' E' F) as (l' & z' & w' & C' & Bz' & _ & P' & R').
    assert (w = w') as -> by (apply R', (same_rob lt lt' SF), R; reflexivity).
    split; intros H.
    + rewrite (gives_fun dbg fuel tr s phi t0 v w' H) by (exists l, z; auto). exists l', z'. auto.
    + rewrite (gives_fun dbg fuel tr' s phi t0 v w' H) by (exists l', z'; auto). exists l, z. auto.
Qed.
