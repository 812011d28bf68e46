(** C72, C73: concrete cases. *)
From Coq Require Import Sorted Reals Lra.
From Flocq Require Import Core.Raux.
From Verif Require Import Base Num NumXR.
From Verif.Model Require Import Signal MonoWedge MinMax Ast Robustness.
From Verif.Spec Require Import SignalSpec Pwl Formula Semantics Quantitative.
From Verif.Proofs Require Import NumFacts SignalFacts PwlFacts SignalProps PairExact SeqExact MinMaxCases MinMaxExamples RobFacts RobWf RobTransport Duality RobExact UntilFacts RobExamples QuantFacts.
Open Scope R_scope.

Definition c72_phi : expr XR :=
  EOr [EAlways (EAnd [gx; ENot (EEventually ey interval_default)]) interval_default; ENot (EEventually (EOr [gx; ENot (EAlways ey interval_default)]) interval_default)].
Lemma c72_ev : evaluable lt1 c72_phi.
Proof.
  split; [reflexivity|]. split; [reflexivity|]. split; [|split].
  - intros e He. cbn in He. repeat (destruct He as [<-|He]; [first [exact I|left; reflexivity]|]). destruct He.
  - intros e He. cbn in He. repeat (destruct He as [<-|He]; [first [exact I|eexists; reflexivity]|]). destruct He.
  - intros n Hn. apply lt1_names. cbn in Hn. repeat (destruct Hn as [<-|Hn]; [auto|]). destruct Hn.
Qed.
Lemma C72_case_lemma : trace_of lt1 tr1 /\ keys_unique tr1 /\ all_start lt1 0 /\ evaluable lt1 c72_phi /\ first_exact c72_phi = true.
Proof. split; [exact tr1_of|]. split; [exact tr1_keys|]. split; [exact tr1_start|]. split; [exact c72_ev|reflexivity]. Qed.

(** C73: Always (Eventually x > 0 or y > 0); at 3/4 the disjunction is 5, computed as 25/4. *)
Definition lx2 : list (R * R) := [(0, 10); (1, 0); (2, 5)].
Definition ly2 : list (R * R) := [(0, 10); (3/4, 5); (1, 10); (2, 10)].
Lemma lx2_incr : rincr lx2. Proof. unfold lx2. rincr_tac. Qed.
Lemma ly2_incr : rincr ly2. Proof. unfold ly2. rincr_tac. Qed.
Definition lt2 : ptrace := [(sx, lx2); (sy, ly2)].
Definition tr2 : trace XR := [(sx, fsig lx2); (sy, fsig ly2)].
Definition gy : expr XR := EPred sy GT (Fin 0).
Definition disj : expr XR := EOr [EEventually gx interval_default; gy].
Definition c73_phi : expr XR := EAlways disj interval_default.

Lemma tr2_of : trace_of lt2 tr2.
Proof.
  constructor; [split; [reflexivity|]; apply built_iff; split; [exact lx2_incr|reflexivity]|].
  constructor; [split; [reflexivity|]; apply built_iff; split; [exact ly2_incr|reflexivity]|constructor].
Qed.
Lemma tr2_keys : keys_unique tr2.
Proof. unfold keys_unique. cbn. constructor; [intros [H|[]]; discriminate H|]. constructor; [intros []|constructor]. Qed.
Lemma tr2_start : all_start lt2 0.
Proof. repeat constructor; discriminate. Qed.
Lemma c73_ev : evaluable lt2 c73_phi.
Proof.
  split; [reflexivity|]. split; [reflexivity|]. split; [|split].
  - intros e He. cbn in He. repeat (destruct He as [<-|He]; [first [exact I|left; reflexivity]|]). destruct He.
  - intros e He. cbn in He. repeat (destruct He as [<-|He]; [first [exact I|eexists; reflexivity]|]). destruct He.
  - intros n Hn. cbn in Hn. repeat (destruct Hn as [<-|Hn]; [eexists; cbn; eauto|]). destruct Hn.
Qed.

Lemma vx t v : pwl lx2 t v <-> 0 <= t <= 2 /\ v = pw lx2 t.
Proof. apply (pwl_pw lx2 t v lx2_incr). discriminate. Qed.
Lemma vy t v : pwl ly2 t v <-> 0 <= t <= 2 /\ v = pw ly2 t.
Proof. apply (pwl_pw ly2 t v ly2_incr). discriminate. Qed.
Lemma value_x t v : value_at lt2 sx t v <-> pwl lx2 t v.
Proof. unfold value_at, lt2. split; [intros (l & [[= <-]|[H|[]]] & P); [exact P|discriminate H]|]. intros P. exists lx2. split; [left; reflexivity|exact P]. Qed.
Lemma value_y t v : value_at lt2 sy t v <-> pwl ly2 t v.
Proof. unfold value_at, lt2. split; [intros (l & [H|[[= <-]|[]]] & P); [discriminate H|exact P]|]. intros P. exists ly2. split; [right; left; reflexivity|exact P]. Qed.
Lemma rob_x t v : rob lt2 gx t v <-> 0 <= t <= 2 /\ v = pw lx2 t.
Proof.
  cbn [rob gx]. split.
  - intros (x & r & H & [= <-] & ->). apply value_x, vx in H as [H ->]. split; [exact H|lra].
  - intros [H ->]. exists (pw lx2 t), 0. split; [apply value_x, vx; auto|]. split; [reflexivity|lra].
Qed.
Lemma rob_y t v : rob lt2 gy t v <-> 0 <= t <= 2 /\ v = pw ly2 t.
Proof.
  cbn [rob gy]. split.
  - intros (x & r & H & [= <-] & ->). apply value_y, vy in H as [H ->]. split; [exact H|lra].
  - intros [H ->]. exists (pw ly2 t), 0. split; [apply value_y, vy; auto|]. split; [reflexivity|lra].
Qed.
Lemma in2 e t : e = gx \/ e = EEventually gx interval_default \/ e = disj -> 0 <= t <= 2 -> inside lt2 e t.
Proof.
  intros He H n Hn. assert (n = sx \/ n = sy) as [-> | ->].
  { destruct He as [-> |[-> | ->]]; cbn in Hn; intuition congruence. }
  - exists (pw lx2 t). apply value_x, vx. auto.
  - exists (pw ly2 t). apply value_y, vy. auto.
Qed.
Lemma x_low t : 3/4 <= t <= 2 -> pw lx2 t <= 5.
Proof. intros H. unfold lx2. cbn [pw fst snd]. repeat destruct (Rle_dec _ _); unfold line; cbn [fst snd]; lra. Qed.

Lemma c73_rob : rob lt2 c73_phi 0 5.
Proof.
  split; [apply in2; auto; lra|]. split.
  - exists (3/4). split; [lra|]. split.
    + right. left. apply rob_y. split; [lra|]. unfold ly2. cbn [pw fst snd]. repeat destruct (Rle_dec _ _); unfold line; cbn [fst snd]; lra.
    + constructor; [|constructor; [|constructor]].
      * exists 5. split; [|lra]. split; [apply in2; auto; lra|]. split.
        -- exists 2. split; [lra|]. apply rob_x. split; [lra|]. unfold lx2. cbn [pw fst snd]. repeat destruct (Rle_dec _ _); unfold line; cbn [fst snd]; lra.
        -- intros t' w Ht Hw. apply rob_x in Hw as [B ->]. apply x_low. lra.
      * exists 5. split; [|lra]. apply rob_y. split; [lra|]. unfold ly2. cbn [pw fst snd]. repeat destruct (Rle_dec _ _); unfold line; cbn [fst snd]; lra.
  - intros t' w Ht (_ & Hw). apply Forall_inv in Hw as (u & (Hi & _ & Hu) & Le).
    assert (t' <= 2) as B. { destruct (Hi sx (or_introl eq_refl)) as (k & Hk). apply value_x, vx in Hk. lra. }
    assert (5 <= u); [|lra]. apply (Hu 2 5 B). apply rob_x. split; [lra|]. unfold lx2. cbn [pw fst snd]. repeat destruct (Rle_dec _ _); unfold line; cbn [fst snd]; lra.
Qed.

Definition op2 : rob_op XR := mkRob (trace_begin tr2) (trace_end tr2) tr2.
Lemma pred_same n l : trace_find tr2 n = Some (fsig l) -> rincr l -> compute true 0 op2 (EPred n GT (Fin 0)) = Ok (fsig l).
Proof.
  intros E I. rewrite (pred_fsig n GT 0 0 true op2 l E I). do 2 f_equal. clear. induction l as [|[a b] l IH]; [reflexivity|].
  cbn [map fst snd]. rewrite IH. do 2 f_equal. lra.
Qed.

Lemma C73_witness : exists lt tr t0 phi l z v w, trace_of lt tr /\ keys_unique tr /\ all_start lt t0 /\ evaluable lt phi /\
  compute_robustness true 0 phi tr false = Ok z /\ built l z /\ pwl l t0 v /\ rob lt phi t0 w /\ w < v.
Proof.
  exists lt2, tr2, 0, c73_phi.
  pose proof (pred_same sx lx2 eq_refl lx2_incr) as CX. pose proof (pred_same sy ly2 eq_refl ly2_incr) as CY.
  assert (EX : evaluable lt2 gx) by (apply (evaluable_sub lt2 c73_phi gx c73_ev); auto; cbn; tauto).
  assert (EY : evaluable lt2 gy) by (apply (evaluable_sub lt2 c73_phi gy c73_ev); auto; cbn; tauto).
  destruct (eval_pred true 0 lt2 tr2 0 op2 tr2_of tr2_keys tr2_start eq_refl sx GT (Fin 0) EX) as (l1 & C1 & V1).
  rewrite CX in C1. injection C1 as C1. apply fsig_inj in C1. subst l1.
  destruct (eval_pred true 0 lt2 tr2 0 op2 tr2_of tr2_keys tr2_start eq_refl sy GT (Fin 0) EY) as (l1 & C1 & V2).
  rewrite CY in C1. injection C1 as C1. apply fsig_inj in C1. subst l1.
  destruct (eval_unbounded true 0 lt2 0 op2 tr2_start false gx interval_default lx2 (or_introl eq_refl) V1 CX) as [CE VE].
  destruct (eval_node true 0 lt2 tr2 0 op2 tr2_of tr2_keys eq_refl false [EEventually gx interval_default; gy] [rroll (-1) lx2; ly2]) as (ld & CD & VD & PD);
    [discriminate|exact (Forall2_cons _ _ CE (Forall2_cons _ _ CY (Forall2_nil _)))|exact (Forall2_cons _ _ VE (Forall2_cons _ _ V2 (Forall2_nil _)))|].
  change (node false [EEventually gx interval_default; gy]) with disj in *.
  destruct (eval_unbounded true 0 lt2 0 op2 tr2_start true disj interval_default ld (or_introl eq_refl) VD CD) as [CA VA].
  pose proof VA as (IA & [NA SA] & _). pose proof VD as (ID & SD & _).
  assert (PV : pwl (rroll 1 ld) 0 (pw (rroll 1 ld) 0)).
  { apply pwl_pw; [exact IA|exact NA|]. split; [|reflexivity]. pose proof (ev_ends lt2 0 _ _ VA) as Q. cbn [sgp] in *. lra. }
  exists (rroll 1 ld), (fsig (rroll 1 ld)), (pw (rroll 1 ld) 0), 5.
  split; [exact tr2_of|]. split; [exact tr2_keys|]. split; [exact tr2_start|]. split; [exact c73_ev|]. split; [exact CA|].
  split; [apply built_iff; auto|]. split; [exact PV|]. split; [exact c73_rob|].
  destruct (roll_first lt2 0 tr2_start 1 sample_le ld _ sg_le ID SD PV) as (t' & Ht & P'). set (v := pw (rroll 1 ld) 0) in *. clearbody v.
  apply PD in P' as (_ & M). cbn [map] in M.
  destruct (M _ (or_introl eq_refl)) as (w1 & W1 & L1). destruct (M _ (or_intror (or_introl eq_refl))) as (w2 & W2 & L2). cbn [sgp] in L1, L2.
  apply vy in W2 as [B ->].
  assert (RO : rroll (-1) lx2 = [(0, 10); (1, 5); (2, 5)]).
  { unfold lx2. cbn [rroll vb fst snd]. repeat (rewrite ?(Rle_bool_true (-1 * 10)), ?(Rle_bool_false (-1 * 0)) by lra). reflexivity. }
  rewrite RO in W1. apply pwl_pw in W1 as [_ ->]; [|rincr_tac|discriminate].
  cbn [pw fst snd] in L1. unfold ly2 in L2. cbn [pw fst snd] in L2. unfold line in L1, L2. cbn [fst snd] in L1, L2. repeat destruct (Rle_dec _ _) in L1; repeat destruct (Rle_dec _ _) in L2; lra.
Qed.
