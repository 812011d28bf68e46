(** C72: the value at the first time is the quantitative semantics. *)
From Coq Require Import Sorted Reals Lra Classical_Prop.
From Flocq Require Import Core.Raux.
From Verif Require Import Base Num NumXR.
From Verif.Model Require Import Signal MonoWedge MinMax Ast Robustness.
From Verif.Spec Require Import SignalSpec Pwl Formula Semantics Quantitative.
From Verif.Proofs Require Import NumFacts SignalFacts LowerBound Reshape Sync SyncProps SyncExact SampleFacts PwlFacts SignalProps PairExact MinMaxFacts MinMaxProps SeqFacts SeqExact MinMaxCases RobFacts RobWf RobTransport Duality RobExact.
Open Scope R_scope.

Lemma F2_l {A B} (P : A -> B -> Prop) l l' a : Forall2 P l l' -> In a l -> exists b, In b l' /\ P a b.
Proof. induction 1 as [|x y l l' H _ IH]; intros []; [subst; exists y; split; [left; reflexivity|exact H]|]. destruct (IH H0) as (b & ? & ?). exists b. split; [right|]; assumption. Qed.
Lemma F2_r {A B} (P : A -> B -> Prop) l l' b : Forall2 P l l' -> In b l' -> exists a, In a l /\ P a b.
Proof. induction 1 as [|x y l l' H _ IH]; intros []; [subst; exists x; split; [left; reflexivity|exact H]|]. destruct (IH H0) as (a & ? & ?). exists a. split; [right|]; assumption. Qed.

Lemma F2_impl {A B} (P Q : A -> B -> Prop) l l' : (forall a b, P a b -> Q a b) -> Forall2 P l l' -> Forall2 Q l l'.
Proof. induction 2; constructor; auto. Qed.

Lemma F2_length {A B} (P : A -> B -> Prop) l l' : Forall2 P l l' -> length l = length l'.
Proof. induction 1; cbn; congruence. Qed.

(** ** Extremes of a relation over a range of times *)
Definition sgp (p : bool) : R := if p then 1 else -1.
Definition ext (p : bool) (P : R -> R -> Prop) (a b v : R) : Prop :=
  (exists t, a <= t <= b /\ P t v) /\ forall t w, a <= t <= b -> P t w -> sgp p * v <= sgp p * w.

Lemma ext_iff p (P Q : R -> R -> Prop) a b v : (forall t w, a <= t <= b -> (P t w <-> Q t w)) -> ext p P a b v -> ext p Q a b v.
Proof.
  intros H [(t & Ht & Hv) L]. split; [exists t; split; [exact Ht|apply H; assumption]|].
  intros u w Hu Hw. apply (L u w Hu). apply H; assumption.
Qed.
Lemma ext_opp p (P : R -> R -> Prop) a b v : ext (negb p) P a b v -> ext p (fun t w => P t (- w)) a b (- v).
Proof.
  intros [(t & Ht & Hv) L]. split; [exists t; split; [exact Ht|]; rewrite Ropp_involutive; exact Hv|].
  intros u w Hu Hw. specialize (L u (- w) Hu Hw). destruct p; cbn [sgp negb] in *; lra.
Qed.

Lemma argmin (f : R -> R) (ts : list R) : ts <> [] -> exists t, In t ts /\ forall u, In u ts -> f t <= f u.
Proof.
  induction ts as [|t ts IH]; intros N; [congruence|]. destruct ts as [|u ts].
  - exists t. split; [left; reflexivity|]. intros u [<-|[]]. lra.
  - destruct IH as (m & Hm & Lm); [discriminate|]. destruct (Rle_dec (f t) (f m)) as [C|C].
    + exists t. split; [left; reflexivity|]. intros w [<-|Hw]; [lra|]. specialize (Lm w Hw). lra.
    + exists m. split; [right; exact Hm|]. intros w [<-|Hw]; [lra|]. apply Lm, Hw.
Qed.

Lemma compact p l a b : rincr l -> l <> [] -> first_time l <= a -> a <= b -> b <= final_time l -> exists v, ext p (pwl l) a b v.
Proof.
  intros I N Ha Hab Hb. set (f := fun t => sgp p * pw l t).
  set (ts := a :: b :: filter (fun t => Rle_bool a t && Rle_bool t b) (map fst l)).
  destruct (argmin f ts ltac:(discriminate)) as (m & Hm & Lm).
  assert (R : forall t, In t ts -> a <= t <= b).
  { intros t [<-|[<-|Ht]]; [lra|lra|]. apply filter_In in Ht as [_ Ht]. apply andb_prop in Ht as [H1 H2].
    revert H1 H2. case Rle_bool_spec; intros; try discriminate. revert H2. case Rle_bool_spec; intros; try discriminate. lra. }
  assert (M : forall u, a <= u <= b -> In u (map fst l) -> f m <= f u).
  { intros u Hu Hi. apply Lm. right. right. apply filter_In. split; [exact Hi|]. rewrite !Rle_bool_true by lra. reflexivity. }
  assert (Ma : f m <= f a) by (apply Lm; left; reflexivity). assert (Mb : f m <= f b) by (apply Lm; right; left; reflexivity).
  exists (pw l m). specialize (R m Hm). split.
  - exists m. split; [exact R|]. apply pwl_pw; auto. split; [lra|reflexivity].
  - intros t w Ht Hw. pose proof Hw as Hw'. apply pwl_pw in Hw' as [Bt ->]; auto. change (f m <= f t).
    destruct (find_segment l t I N Bt) as [(c & Hc & <-)|(l1 & c & d & l2 & El & Hs)]; [apply M; [exact Ht|apply in_map, Hc]|].
    pose proof (repr_pw l I) as RP. rewrite El in RP at 1. apply repr_app_r in RP. destruct RP as (_ & (Hlt & (k & e & Af)) & _).
    assert (Ic : In (fst c) (map fst l)) by (rewrite El, map_app; apply in_or_app; right; left; reflexivity).
    assert (Id : In (fst d) (map fst l)) by (rewrite El, map_app; apply in_or_app; right; right; left; reflexivity).
    assert (Lo : exists u, fst c <= u <= t /\ f m <= f u).
    { destruct (Rle_dec a (fst c)); [exists (fst c); split; [lra|apply M; [lra|exact Ic]]|exists a; split; [lra|exact Ma]]. }
    assert (Hi : exists u, t <= u <= fst d /\ f m <= f u).
    { destruct (Rle_dec (fst d) b); [exists (fst d); split; [lra|apply M; [lra|exact Id]]|exists b; split; [lra|exact Mb]]. }
    destruct Lo as (u & Hu & Lu). destruct Hi as (w & Hw1 & Lw). clear - Hu Lu Hw1 Lw Af Hs.
    unfold f at 2 in Lu. unfold f at 2 in Lw. unfold f at 2. rewrite (Af u) in Lu by lra. rewrite (Af w) in Lw by lra. rewrite (Af t) by lra.
    set (fm := f m) in *. clearbody fm. destruct p; cbn [sgp] in *; destruct (Rle_dec 0 k) as [K|K];
      try (assert (k * u <= k * t) by (apply Rmult_le_compat_l; lra)); try (assert (k * t <= k * w) by (apply Rmult_le_compat_l; lra));
      try (assert (k * t <= k * u) by (apply Rmult_le_compat_neg_l; lra)); try (assert (k * w <= k * t) by (apply Rmult_le_compat_neg_l; lra)); lra.
Qed.

(** Extreme of a family. *)
Definition family (p : bool) (Ps : list (R -> R -> Prop)) (t v : R) : Prop :=
  (exists P, In P Ps /\ P t v) /\ forall P, In P Ps -> exists w, P t w /\ sgp p * v <= sgp p * w.
Lemma best_in p (ms : list R) : ms <> [] -> exists v, In v ms /\ forall m, In m ms -> sgp p * v <= sgp p * m.
Proof. intros N. destruct (argmin (fun m => sgp p * m) ms N) as (v & H1 & H2). eauto. Qed.
Lemma family_now p Ps ms t v : Forall2 (fun (P : R -> R -> Prop) m => P t m) Ps ms -> In v ms -> (forall m, In m ms -> sgp p * v <= sgp p * m) ->
  family p Ps t v.
Proof.
  intros F Hv Hm. split.
  - destruct (F2_r _ _ _ _ F Hv) as (P & HP & Q). eauto.
  - intros P HP. destruct (F2_l _ _ _ _ F HP) as (m & Hin & Q). exists m. split; [exact Q|]. apply Hm, Hin.
Qed.
Lemma family_ext p Ps ms a b v : (forall P t, In P Ps -> a <= t <= b -> exists w, P t w) ->
  Forall2 (fun P m => ext p P a b m) Ps ms -> In v ms -> (forall m, In m ms -> sgp p * v <= sgp p * m) ->
  ext p (family p Ps) a b v.
Proof.
  intros T F Hv Hm. split.
  - destruct (F2_r _ _ _ _ F Hv) as (P & HP & ((t & Ht & Q) & _)). exists t. split; [exact Ht|]. split; [eauto|].
    intros P' HP'. destruct (T P' t HP' Ht) as (w & Hw). exists w. split; [exact Hw|].
    destruct (F2_l _ _ _ _ F HP') as (m & Hin & (_ & L)). specialize (L t w Ht Hw). specialize (Hm m Hin). lra.
  - intros t w Ht ((P & HP & Q) & _). destruct (F2_l _ _ _ _ F HP) as (m & Hin & (_ & L)). specialize (L t w Ht Q). specialize (Hm m Hin). lra.
Qed.

(** ** The semantics *)
Definition node (p : bool) (l : list (expr XR)) : expr XR := if p then EAnd l else EOr l.
Definition unbounded (p : bool) (e : expr XR) (i : interval XR) : expr XR := if p then EAlways e i else EEventually e i.

Lemma rob_node lt p l t v : rob lt (node p l) t v <-> family p (map (rob lt) l) t v.
Proof.
  destruct p; cbn [node rob]; rewrite Forall_forall, Exists_exists; unfold family; cbn [sgp]; split; intros [A B]; (split; [exact A|]);
    intros P HP; destruct (B P HP) as (w & H1 & H2); exists w; (split; [exact H1|lra]).
Qed.
Lemma rob_unbounded lt p e i t v : rob lt (unbounded p e i) t v <->
  inside lt e t /\ (exists t', t <= t' /\ rob lt e t' v) /\ (forall t' w, t <= t' -> rob lt e t' w -> sgp p * v <= sgp p * w).
Proof.
  destruct p; cbn [unbounded rob sgp]; split; intros (A & B & C); (split; [exact A|]); (split; [exact B|]); intros t' w H1 H2; specialize (C t' w H1 H2); lra.
Qed.
Lemma inside_node lt p l t : inside lt (node p l) t <-> forall e, In e l -> inside lt e t.
Proof. destruct p; apply inside_and. Qed.
Lemma inside_unbounded lt p e i t : inside lt (unbounded p e i) t <-> inside lt e t.
Proof. destruct p; reflexivity. Qed.

Lemma rob_inside lt : forall e t v, rob lt e t v -> inside lt e t.
Proof.
  assert (NODE : forall p l, Forall (fun e => forall t v, rob lt e t v -> inside lt e t) l -> forall t v, rob lt (node p l) t v -> inside lt (node p l) t).
  { intros p l H t v Q. apply rob_node in Q as (_ & Q). apply inside_node. intros e He. rewrite Forall_forall in H.
    destruct (Q (rob lt e) (in_map _ _ _ He)) as (w & Hw & _). eapply H; eauto. }
  induction e using expr_rec; intros t v Q; try contradiction.
  - destruct Q as (x & r & H & _). intros n' [<-|[]]. eauto.
  - apply (IHe t (- v) Q).
  - apply (NODE true l H t v Q).
  - apply (NODE false l H t v Q).
  - apply Q.
  - apply Q.
Qed.

Lemma rob_rho lt : forall e, free_of is_temporal e = true -> forall t v, rob lt e t v <-> rho lt e t v.
Proof.
  assert (L : forall l, Forall (fun e => free_of is_temporal e = true -> forall t v, rob lt e t v <-> rho lt e t v) l ->
    forallb (free_of is_temporal) l = true -> forall e, In e l -> forall t v, rob lt e t v <-> rho lt e t v).
  { intros l H T e He. rewrite Forall_forall in H. rewrite forallb_forall in T. apply H; auto. }
  induction e using expr_rec; cbn [free_of is_temporal negb andb]; intros T t v; try discriminate; try reflexivity.
  - apply IHe, T.
  - rewrite rho_and. change (EAnd l) with (node true l). rewrite rob_node. unfold family. cbn [sgp]. split; intros [A B]; split.
    + destruct A as (P & HP & Q). apply in_map_iff in HP as (e & <- & He). exists e. split; [exact He|]. apply (L l H T e He), Q.
    + intros e He. destruct (B (rob lt e) (in_map _ _ _ He)) as (w & H1 & H2). exists w. split; [apply (L l H T e He), H1|lra].
    + destruct A as (e & He & Q). exists (rob lt e). split; [apply in_map, He|]. apply (L l H T e He), Q.
    + intros P HP. apply in_map_iff in HP as (e & <- & He). destruct (B e He) as (w & H1 & H2). exists w. split; [apply (L l H T e He), H1|lra].
  - rewrite rho_or. change (EOr l) with (node false l). rewrite rob_node. unfold family. cbn [sgp]. split; intros [A B]; split.
    + destruct A as (P & HP & Q). apply in_map_iff in HP as (e & <- & He). exists e. split; [exact He|]. apply (L l H T e He), Q.
    + intros e He. destruct (B (rob lt e) (in_map _ _ _ He)) as (w & H1 & H2). exists w. split; [apply (L l H T e He), H1|lra].
    + destruct A as (e & He & Q). exists (rob lt e). split; [apply in_map, He|]. apply (L l H T e He), Q.
    + intros P HP. apply in_map_iff in HP as (e & <- & He). destruct (B e He) as (w & H1 & H2). exists w. split; [apply (L l H T e He), H1|lra].
Qed.

Section Fun.
Variables (lt : ptrace).
Hypothesis VF : forall n t v w, value_at lt n t v -> value_at lt n t w -> v = w.
Lemma rob_fun : forall e t v w, rob lt e t v -> rob lt e t w -> v = w.
Proof.
  assert (NODE : forall p l, Forall (fun e => forall t v w, rob lt e t v -> rob lt e t w -> v = w) l ->
    forall t v w, rob lt (node p l) t v -> rob lt (node p l) t w -> v = w).
  { intros p l H t v w A B. apply rob_node in A as ((P & HP & QP) & A), B as ((P' & HP' & QP') & B). rewrite Forall_forall in H.
    destruct (A P' HP') as (u & U1 & U2). destruct (B P HP) as (u' & U1' & U2').
    apply in_map_iff in HP as (e & <- & He), HP' as (e' & <- & He'). rewrite (H e' He' t u w U1 QP') in U2. rewrite (H e He t u' v U1' QP) in U2'.
    destruct p; cbn [sgp] in *; lra. }
  assert (UNB : forall p e i, (forall t v w, rob lt e t v -> rob lt e t w -> v = w) -> forall t v w, rob lt (unbounded p e i) t v -> rob lt (unbounded p e i) t w -> v = w).
  { intros p e i _ t v w A B. apply rob_unbounded in A as (_ & (t1 & T1 & A1) & A2), B as (_ & (t2 & T2 & B1) & B2).
    specialize (A2 t2 w T2 B1). specialize (B2 t1 v T1 A1). destruct p; cbn [sgp] in *; lra. }
  induction e using expr_rec; intros t v w A B; try contradiction.
  - destruct A as (x & r & H1 & H2 & ->), B as (x' & r' & H1' & H2' & ->). rewrite H2 in H2'. injection H2' as <-. rewrite (VF n t x x' H1 H1'). reflexivity.
  - specialize (IHe t _ _ A B). lra.
  - apply (NODE true l H t v w A B).
  - apply (NODE false l H t v w A B).
  - apply (UNB true e i IHe t v w A B).
  - apply (UNB false e i IHe t v w A B).
Qed.
End Fun.

(** ** Rolling extreme of a list of points *)
Lemma rroll_ge p r c : In c (rroll (sgp p) r) -> forall a r', r = a :: r' -> sgp p * vb (sgp p) a r' <= sgp p * snd c.
Proof.
  induction r as [|a r IH]; intros Hc a' r' E; [discriminate|]. injection E as <- <-. cbn [rroll] in Hc. destruct Hc as [<-|Hc]; [cbn; lra|].
  destruct r as [|b r]; [destruct Hc|]. specialize (IH Hc b r eq_refl). destruct (vb_cases (sgp p) a b r) as (_ & A & _). lra.
Qed.
Lemma rroll_min p l a r t v : l = a :: r -> rincr l -> pwl (rroll (sgp p) l) t v -> sgp p * vb (sgp p) a r <= sgp p * v.
Proof.
  intros -> I H. pose proof (rincr_rroll (sgp p) _ I) as I'. cbn [rroll] in H, I'.
  pose proof (vb_bound (sgp p) _ _ _ _ I' H) as B. destruct (vb_In (sgp p) (rroll (sgp p) r) (fst a, vb (sgp p) a r)) as (c & Hc & E). rewrite E in B.
  pose proof (rroll_ge p (a :: r) c) as K. cbn [rroll] in K. specialize (K Hc a r eq_refl). lra.
Qed.

(** ** Formulas *)
Lemma fsig_inj l l' : fsig l = fsig l' -> l = l'.
Proof.
  intros E. apply (f_equal points) in E. unfold fsig in E. rewrite !points_sig_of in E. revert l' E.
  induction l as [|[a b] l IH]; intros [|[c d] l'] E; try discriminate; [reflexivity|]. injection E as -> -> E. f_equal. auto.
Qed.

Section Main.
Variables (dbg : bool) (fuel : nat) (lt : ptrace) (tr : trace XR) (t0 : R) (r : rob_op XR).
Hypothesis TO : trace_of lt tr.
Hypothesis KU : keys_unique tr.
Hypothesis AS : all_start lt t0.
Hypothesis RT : r_trace r = tr.

Definition total_ext (p : bool) (e : expr XR) (l : list (R * R)) : Prop :=
  forall a b, t0 <= a -> a <= b -> b <= final_time l -> exists v, ext p (rob lt e) a b v.
Definition same_ext (p : bool) (e : expr XR) (l : list (R * R)) : Prop :=
  forall b, t0 <= b <= final_time l -> exists v, ext p (pwl l) t0 b v /\ ext p (rob lt e) t0 b v.
Definition quant (e : expr XR) (l : list (R * R)) : Prop :=
  evaluated lt t0 e l /\
  (forall p, extreme_exact p e = true -> total_ext p e l /\ same_ext p e l) /\
  (first_exact e = true -> exists v, pwl l t0 v /\ rob lt e t0 v).

Lemma ev_dom e l : evaluated lt t0 e l -> forall t, inside lt e t <-> t0 <= t <= final_time l.
Proof. intros (I & S & D & _) t. rewrite <- D, dom_iff by (assumption || apply S). rewrite (proj2 S). reflexivity. Qed.
Lemma ev_ends e l : evaluated lt t0 e l -> t0 <= final_time l.
Proof. intros (I & [N S] & _). destruct l as [|q l]; [congruence|]. cbn in S. destruct (rincr_first_final (q :: l) q I (or_introl eq_refl)). lra. Qed.

Lemma base e l p : evaluated lt t0 e l -> free_of is_temporal e = true -> total_ext p e l /\ same_ext p e l.
Proof.
  intros EV T. pose proof EV as (I & [N S] & _ & R & _).
  assert (EQ : forall t w, pwl l t w <-> rob lt e t w) by (intros; rewrite (rob_rho lt e T); apply R, T). split.
  - intros a b Ha Hab Hb. destruct (compact p l a b I N ltac:(lra) Hab Hb) as (v & Hv). exists v. eapply ext_iff; [|exact Hv]. intros; apply EQ.
  - intros b Hb. destruct (compact p l t0 b I N ltac:(lra) ltac:(lra) ltac:(lra)) as (v & Hv). exists v. split; [exact Hv|]. eapply ext_iff; [|exact Hv]. intros; apply EQ.
Qed.

Lemma total_at p e l t : total_ext p e l -> t0 <= t <= final_time l -> exists w, rob lt e t w.
Proof.
  intros E Ht. destruct (E t t ltac:(lra) ltac:(lra) ltac:(lra)) as (v & (t' & Ht' & Hv) & _). assert (t' = t) as -> by lra. eauto.
Qed.

Lemma q_pred n op c : evaluable lt (EPred n op c) -> exists l, compute dbg fuel r (EPred n op c) = Ok (fsig l) /\ quant (EPred n op c) l.
Proof.
  intros H. destruct (eval_pred dbg fuel lt tr t0 r TO KU AS RT n op c H) as (l & C & EV). exists l. split; [exact C|]. split; [exact EV|]. split.
  - intros p _. apply base; [exact EV|reflexivity].
  - intros _. pose proof EV as (I & [N S] & _ & R & _). exists (pw l t0).
    assert (pwl l t0 (pw l t0)) as Q by (apply pwl_pw; auto; split; [rewrite S; pose proof (ev_ends _ _ EV); lra|reflexivity]).
    split; [exact Q|]. apply rob_rho; [reflexivity|]. apply R; [reflexivity|exact Q].
Qed.

Lemma q_not e l : quant e l -> compute dbg fuel r e = Ok (fsig l) -> exists l', compute dbg fuel r (ENot e) = Ok (fsig l') /\ quant (ENot e) l'.
Proof.
  intros (EV & X & F) C. destruct (eval_not dbg fuel lt t0 r e l EV C) as (l' & C' & EV'). exists l'. split; [exact C'|].
  assert (l' = map (fun p => (fst p, - snd p)) l) as El.
  { cbn [compute] in C'. rewrite C in C'. cbn [bind] in C'. rewrite not_fsig in C' by apply EV. injection C' as C'. symmetry. apply fsig_inj, C'. }
  assert (PW : forall t v, pwl l' t v <-> pwl l t (- v)).
  { intros t v. rewrite El. apply (pwl_map_iff Ropp Ropp); [exists (-1), 0; intros; ring|exists (-1), 0; intros; ring|intros; ring|intros; ring]. }
  assert (FT : final_time l' = final_time l) by (rewrite El; unfold final_time; rewrite last_opt_map; destruct (last_opt l); reflexivity).
  split; [exact EV'|]. split.
  - intros p Hp. cbn [extreme_exact] in Hp. apply orb_prop in Hp as [Hp|Hp]; [apply base; assumption|].
    destruct (X (negb p) Hp) as [X1 X2]. split.
    + intros a b Ha Hab Hb. rewrite FT in Hb. destruct (X1 a b Ha Hab Hb) as (v & Hv). exists (- v). apply ext_opp in Hv. exact Hv.
    + intros b Hb. rewrite FT in Hb. destruct (X2 b Hb) as (v & Hv & Hw). exists (- v). apply ext_opp in Hv, Hw. split; [|exact Hw].
      eapply ext_iff; [|exact Hv]. intros t w _. cbn beta. rewrite PW. reflexivity.
  - intros Hf. destruct (F Hf) as (v & H1 & H2). exists (- v). rewrite PW, Ropp_involutive. split; [exact H1|]. cbn [rob]. rewrite Ropp_involutive. exact H2.
Qed.

Lemma extreme_family p ls t v : Forall rincr ls -> extreme (sgp p) ls t v <-> family p (map pwl ls) t v.
Proof.
  intros I. rewrite Forall_forall in I. split.
  - intros (A & (l & Hl & B) & C). split; [exists (pwl l); split; [apply in_map, Hl|exact B]|].
    intros P HP. apply in_map_iff in HP as (l' & <- & Hl'). destruct (A l' Hl') as (w & Hw). exists w. split; [exact Hw|]. exact (C l' w Hl' Hw).
  - intros ((P & HP & Q) & B). apply in_map_iff in HP as (l & <- & Hl). split; [|split; [eauto|]].
    + intros l' Hl'. destruct (B (pwl l') (in_map _ _ _ Hl')) as (w & Hw & _). eauto.
    + intros l' vl Hl' Hv. destruct (B (pwl l') (in_map _ _ _ Hl')) as (w & Hw & Le). rewrite (pwl_fun _ _ _ _ (I l' Hl') Hv Hw). exact Le.
Qed.

Lemma eval_node p es ls : es <> [] -> Forall2 (fun e l => compute dbg fuel r e = Ok (fsig l)) es ls -> Forall2 (evaluated lt t0) es ls ->
  exists l, compute dbg fuel r (node p es) = Ok (fsig l) /\ evaluated lt t0 (node p es) l /\ forall t v, pwl l t v <-> family p (map pwl ls) t v.
Proof.
  intros N C E. assert (Nl : ls <> []) by (inversion E; subst; congruence).
  assert (IS : Forall (fun l => rincr l /\ starts t0 l) ls) by (clear -E; induction E as [|? ? ? ? H]; constructor; [split; apply H|assumption]).
  assert (IR : Forall rincr ls) by (eapply Forall_impl; [|exact IS]; intros a Ha; apply Ha).
  destruct p; cbn [node].
  - destruct (eval_and dbg fuel lt tr t0 r TO KU RT es ls N C E) as (l & Cl & EV). exists l. split; [exact Cl|]. split; [exact EV|].
    destruct (list_exact1 1 sample_le Rmin sg_le (fun a b => best_min a b) dbg ls t0 Nl IS) as (l1 & EL & _ & _ & X).
    assert (C1 : compute dbg fuel r (EAnd es) = Ok (fsig l1)) by (cbn [compute]; rewrite (eval_list dbg fuel r es ls C); exact EL).
    rewrite Cl in C1. injection C1 as C1. apply fsig_inj in C1. subst l1.
    intros t v. rewrite X. apply (extreme_family true), IR.
  - destruct (eval_or dbg fuel lt tr t0 r TO KU RT es ls N C E) as (l & Cl & EV). exists l. split; [exact Cl|]. split; [exact EV|].
    destruct (list_exact1 (-1) sample_ge Rmax sg_ge (fun a b => best_max a b) dbg ls t0 Nl IS) as (l1 & EL & _ & _ & X).
    assert (C1 : compute dbg fuel r (EOr es) = Ok (fsig l1)) by (cbn [compute]; rewrite (eval_list dbg fuel r es ls C); exact EL).
    rewrite Cl in C1. injection C1 as C1. apply fsig_inj in C1. subst l1.
    intros t v. rewrite X. apply (extreme_family false), IR.
Qed.

Lemma F2_map {A B C D} (f : A -> C) (g : B -> D) (P : C -> D -> Prop) l l' : Forall2 (fun a b => P (f a) (g b)) l l' -> Forall2 P (map f l) (map g l').
Proof. induction 1; constructor; assumption. Qed.
Lemma F2_all {A B} (P : A -> B -> Prop) (Q : A -> Prop) (S : A -> B -> Prop) l l' : Forall2 P l l' -> (forall a, In a l -> Q a) -> (forall a b, P a b -> Q a -> S a b) -> Forall2 S l l'.
Proof. induction 1 as [|a b l l' H _ IH]; intros HQ HS; constructor; [apply HS; [exact H|apply HQ; left; reflexivity]|apply IH; [intros; apply HQ; right; assumption|exact HS]]. Qed.
Lemma q_node p es ls : es <> [] -> Forall2 (fun e l => compute dbg fuel r e = Ok (fsig l)) es ls -> Forall2 quant es ls ->
  exists l, compute dbg fuel r (node p es) = Ok (fsig l) /\ quant (node p es) l.
Proof.
  intros N C Q. assert (E : Forall2 (evaluated lt t0) es ls) by (eapply F2_impl; [|exact Q]; intros a b H; apply H).
  destruct (eval_node p es ls N C E) as (l & Cl & EV & PW). exists l. split; [exact Cl|]. split; [exact EV|].
  assert (FT : forall e l', In e es -> evaluated lt t0 e l' -> final_time l <= final_time l').
  { intros e l' He H'. assert (inside lt (node p es) (final_time l)) as Q1 by (apply (ev_dom _ _ EV); pose proof (ev_ends _ _ EV); lra).
    rewrite inside_node in Q1. specialize (Q1 e He). apply (ev_dom _ _ H') in Q1. lra. }
  split.
  - intros p' Hp. destruct (free_of is_temporal (node p es)) eqn:T; [apply base; assumption|].
    assert (p' = p /\ forall e, In e es -> extreme_exact p e = true) as [-> Hes].
    { destruct p; cbn [node extreme_exact] in Hp, T; rewrite T in Hp; cbn [orb] in Hp; apply andb_prop in Hp as [H1 H2]; rewrite forallb_forall in H2.
      - destruct p'; [auto|discriminate].
      - destruct p'; [discriminate|auto]. }
    assert (QQ : Forall2 (fun e l' => (total_ext p e l' /\ same_ext p e l') /\ evaluated lt t0 e l') es ls).
    { eapply F2_all; [exact Q|exact Hes|]. intros a b (H1 & H2 & _) Ha. split; [apply H2, Ha|exact H1]. }
    assert (NN : forall ms : list R, length es = length ms -> ms <> []) by (intros [|? ?] H; [destruct es; [congruence|discriminate]|discriminate]).
    assert (TA : forall e t, In e es -> t0 <= t <= final_time l -> exists w, rob lt e t w).
    { intros e t He Ht. destruct (F2_l _ _ _ _ QQ He) as (l' & _ & ((H1 & _) & H2)). specialize (FT e l' He H2). eapply total_at; [exact H1|lra]. }
    split.
    + intros a b Ha Hab Hb.
      assert (exists ms, Forall2 (fun e m => ext p (rob lt e) a b m) es ms) as (ms & Hms).
      { clear -QQ FT Ha Hab Hb. revert FT. induction QQ as [|e l' es ls ((H1 & _) & H2) _ IH]; intros FT; [exists []; constructor|].
        destruct IH as (ms & IH); [intros; eapply FT; [right|]; eassumption|]. specialize (FT e l' (or_introl eq_refl) H2).
        destruct (H1 a b Ha Hab ltac:(lra)) as (m & Hm). exists (m :: ms). constructor; assumption. }
      destruct (best_in p ms) as (v & Hv & Lv); [apply NN; eapply F2_length; exact Hms|]. exists v.
      eapply ext_iff; [intros t w _; symmetry; apply rob_node|]. eapply family_ext; [|apply (F2_map (rob lt) (fun m => m)); exact Hms|rewrite map_id; exact Hv|rewrite map_id; exact Lv].
      intros P t HP Ht. apply in_map_iff in HP as (e & <- & He). apply TA; [exact He|lra].
    + intros b Hb.
      assert (exists ms, Forall2 (fun e m => ext p (rob lt e) t0 b m) es ms /\ Forall2 (fun l' m => ext p (pwl l') t0 b m) ls ms) as (ms & Hms & Hms').
      { clear -QQ FT Hb. revert FT. induction QQ as [|e l' es ls ((_ & H1) & H2) _ IH]; intros FT; [exists []; split; constructor|].
        destruct IH as (ms & IH & IH'); [intros; eapply FT; [right|]; eassumption|]. specialize (FT e l' (or_introl eq_refl) H2).
        destruct (H1 b ltac:(lra)) as (m & Hm & Hm'). exists (m :: ms). split; constructor; assumption. }
      destruct (best_in p ms) as (v & Hv & Lv); [apply NN; eapply F2_length; exact Hms|]. exists v. split.
      * eapply ext_iff; [intros t w _; symmetry; apply PW|]. eapply family_ext; [|apply (F2_map pwl (fun m => m)); exact Hms'|rewrite map_id; exact Hv|rewrite map_id; exact Lv].
        intros P t HP Ht. apply in_map_iff in HP as (l' & <- & Hl'). destruct (F2_r _ _ _ _ E Hl') as (e & He & Ee).
        pose proof Ee as (_ & _ & D & _). apply D. apply (ev_dom _ _ Ee). specialize (FT e l' He Ee). lra.
      * eapply ext_iff; [intros t w _; symmetry; apply rob_node|]. eapply family_ext; [|apply (F2_map (rob lt) (fun m => m)); exact Hms|rewrite map_id; exact Hv|rewrite map_id; exact Lv].
        intros P t HP Ht. apply in_map_iff in HP as (e & <- & He). apply TA; [exact He|lra].
  - intros Hf. assert (Hes : forall e, In e es -> first_exact e = true) by (destruct p; cbn [node first_exact] in Hf; rewrite forallb_forall in Hf; exact Hf).
    assert (exists ms, Forall2 (fun e m => rob lt e t0 m) es ms /\ Forall2 (fun l' m => pwl l' t0 m) ls ms /\ length es = length ms) as (ms & Hms & Hms' & Len).
    { clear -Q Hes. induction Q as [|e l' es ls (_ & _ & H) _ IH]; [exists []; repeat constructor|].
      destruct IH as (ms & IH1 & IH2 & IH3); [intros; apply Hes; right; assumption|]. destruct (H (Hes e (or_introl eq_refl))) as (m & Hm & Hm').
      exists (m :: ms). split; [constructor; assumption|]. split; [constructor; assumption|]. cbn. congruence. }
    destruct (best_in p ms) as (v & Hv & Lv); [intros ->; destruct es; [congruence|discriminate]|]. exists v. split.
    + apply PW. eapply family_now; [apply (F2_map pwl (fun m => m)); exact Hms'|rewrite map_id; exact Hv|rewrite map_id; exact Lv].
    + apply rob_node. eapply family_now; [apply (F2_map (rob lt) (fun m => m)); exact Hms|rewrite map_id; exact Hv|rewrite map_id; exact Lv].
Qed.

Lemma eval_unbounded p e i l : made_interval i -> evaluated lt t0 e l -> compute dbg fuel r e = Ok (fsig l) ->
  compute dbg fuel r (unbounded p e i) = Ok (fsig (rroll (sgp p) l)) /\ evaluated lt t0 (unbounded p e i) (rroll (sgp p) l).
Proof.
  intros M EV C. pose proof EV as (I & [N _] & _). destruct p; cbn [unbounded sgp].
  - assert (compute dbg fuel r (EAlways e i) = Ok (fsig (rroll 1 l))) as Q.
    { cbn [compute]; rewrite C; cbn [bind]; rewrite temporal_xr by assumption; apply (seq_fsig 1 sample_le sg_le); assumption. }
    split; [exact Q|]. destruct (eval_always dbg fuel lt t0 r AS e i l M EV C) as (l' & C' & EV'). rewrite Q in C'. injection C' as C'. apply fsig_inj in C'. rewrite C'. exact EV'.
  - assert (compute dbg fuel r (EEventually e i) = Ok (fsig (rroll (-1) l))) as Q.
    { cbn [compute]; rewrite C; cbn [bind]; rewrite temporal_xr by assumption; apply (seq_fsig (-1) sample_ge sg_ge); assumption. }
    split; [exact Q|]. destruct (eval_eventually dbg fuel lt t0 r AS e i l M EV C) as (l' & C' & EV'). rewrite Q in C'. injection C' as C'. apply fsig_inj in C'. rewrite C'. exact EV'.
Qed.

Lemma q_unbounded p e i l : made_interval i -> quant e l -> compute dbg fuel r e = Ok (fsig l) ->
  exists l', compute dbg fuel r (unbounded p e i) = Ok (fsig l') /\ quant (unbounded p e i) l'.
Proof.
  intros M (EV & X & _) C. destruct (eval_unbounded p e i l M EV C) as [C' EV']. exists (rroll (sgp p) l). split; [exact C'|]. split; [exact EV'|].
  assert (FT : final_time (rroll (sgp p) l) = final_time l) by apply rroll_final.
  assert (ALL : forall t a v, t0 <= a -> ext p (rob lt e) a (final_time l) v -> a <= t -> t <= a -> rob lt (unbounded p e i) t v).
  { intros t a v Ha ((t1 & T1 & V1) & V2) H1 H2. assert (t = a) as -> by lra. apply rob_unbounded. split; [|split].
    - apply (ev_dom _ _ EV). lra.
    - exists t1. split; [lra|exact V1].
    - intros t' w Ht Hw. apply (V2 t' w); [|exact Hw]. apply rob_inside in Hw. apply (ev_dom _ _ EV) in Hw. lra. }
  assert (FIRST : extreme_exact p e = true -> exists v, pwl (rroll (sgp p) l) t0 v /\ rob lt (unbounded p e i) t0 v /\
     forall t w, pwl (rroll (sgp p) l) t w -> sgp p * v <= sgp p * w).
  { intros Hp. destruct (X p Hp) as [_ X2]. destruct (X2 (final_time l)) as (v & (((t1 & T1 & V1) & V2) & Hr)); [pose proof (ev_ends _ _ EV); lra|].
    pose proof EV as (I & [N S] & _). destruct l as [|q l]; [congruence|]. cbn [first_time] in S.
    assert (v = vb (sgp p) q l) as Ev.
    { pose proof (vb_bound (sgp p) q l t1 v I V1) as B. destruct (vb_In (sgp p) l q) as (c & Hc & Ec).
      assert (pwl (q :: l) (fst c) (snd c)) as Pc by (left; eauto). assert (t0 <= fst c <= final_time (q :: l)) as Bc.
      { rewrite <- S. apply (rincr_first_final (q :: l) c I Hc). }
      specialize (V2 _ _ Bc Pc). rewrite <- Ec in V2. destruct p; cbn [sgp] in *; lra. }
    exists v. split; [|split].
    - left. exists (fst q, vb (sgp p) q l). split; [left; reflexivity|]. cbn [fst snd]. split; [exact S|congruence].
    - apply (ALL t0 t0 v); [lra|exact Hr|lra|lra].
    - intros t w Hw. rewrite Ev. eapply rroll_min; [reflexivity|exact I|exact Hw]. }
  split.
  - intros p' Hp. assert (p' = p /\ extreme_exact p e = true) as [-> He].
    { destruct p; cbn [unbounded extreme_exact free_of is_temporal negb andb orb] in Hp; apply andb_prop in Hp as [H1 H2]; destruct p'; try discriminate; auto. }
    destruct (X p He) as [X1 X2].
    assert (LOW : forall a v t w, t0 <= a -> ext p (rob lt e) a (final_time l) v -> a <= t -> rob lt (unbounded p e i) t w -> sgp p * v <= sgp p * w).
    { intros a v t w Ha (_ & V2) Ht Hw. apply rob_unbounded in Hw as (_ & (t' & Ht' & Hw) & _). apply (V2 t' w); [|exact Hw].
      apply rob_inside in Hw. apply (ev_dom _ _ EV) in Hw. lra. }
    split.
    + intros a b Ha Hab Hb. rewrite FT in Hb. destruct (X1 a (final_time l) Ha ltac:(lra) ltac:(lra)) as (v & Hv). exists v. split.
      * exists a. split; [lra|]. apply (ALL a a v Ha Hv); lra.
      * intros t w Ht Hw. eapply LOW; [exact Ha|exact Hv| |exact Hw]. lra.
    + intros b Hb. destruct (FIRST He) as (v & V1 & V2 & V3). exists v. split; split.
      * exists t0. split; [lra|exact V1].
      * intros t w _. apply V3.
      * exists t0. split; [lra|exact V2].
      * intros t w Ht Hw. apply rob_unbounded in V2 as (_ & _ & V2). apply rob_unbounded in Hw as (_ & (t' & Ht' & Hw) & _). apply (V2 t' w); [lra|exact Hw].
  - intros Hf. assert (extreme_exact p e = true) as He by (destruct p; exact Hf). destruct (FIRST He) as (v & V1 & V2 & _). eauto.
Qed.

Lemma q_main phi : evaluable lt phi -> exists l, compute dbg fuel r phi = Ok (fsig l) /\ quant phi l.
Proof.
  assert (LISTS : forall es, Forall (fun e => evaluable lt e -> exists l, compute dbg fuel r e = Ok (fsig l) /\ quant e l) es ->
    (forall e, In e es -> evaluable lt e) -> exists ls, Forall2 (fun e l => compute dbg fuel r e = Ok (fsig l)) es ls /\ Forall2 quant es ls).
  { induction 1 as [|e es H _ IH]; intros Q; [exists []; split; constructor|].
    destruct (H (Q e (or_introl eq_refl))) as (l & C & E). destruct IH as (ls & C' & E'); [intros; apply Q; right; assumption|]. exists (l :: ls). split; constructor; assumption. }
  induction phi using expr_rec; intros HE.
  - destruct HE as [HE _]. discriminate.
  - apply q_pred, HE.
  - destruct IHphi as (l & C & E); [|eapply q_not; eauto]. apply (evaluable_sub lt _ phi HE); auto. intros x Hx. right. exact Hx.
  - destruct (LISTS l H) as (ls & C & E); [intros e; apply evaluable_in, HE|]. eapply (q_node true); eauto. intros ->. destruct HE as (_ & HE & _). discriminate.
  - assert (HE' : evaluable lt (EAnd l)).
    { destruct HE as (A & B & C & D & E). split; [exact A|]. split; [exact B|]. split; [|split; [|exact E]].
      - intros e [<-|He]; [exact I|]. apply C. right. exact He.
      - intros e [<-|He]; [exact I|]. apply D. right. exact He. }
    destruct (LISTS l H) as (ls & C & E); [intros e; apply evaluable_in, HE'|]. eapply (q_node false); eauto. intros ->. destruct HE as (_ & HE & _). discriminate.
  - destruct IHphi as (l & C & E); [apply (evaluable_sub lt _ phi HE); auto; intros x Hx; right; exact Hx|]. eapply (q_unbounded true); eauto.
    destruct HE as (_ & _ & HE & _). apply (HE _ (or_introl eq_refl)).
  - destruct IHphi as (l & C & E); [apply (evaluable_sub lt _ phi HE); auto; intros x Hx; right; exact Hx|]. eapply (q_unbounded false); eauto.
    destruct HE as (_ & _ & HE & _). apply (HE _ (or_introl eq_refl)).
  - destruct (eval_main dbg fuel lt tr t0 r TO KU AS RT _ HE) as (l & C & EV). exists l. split; [exact C|]. split; [exact EV|]. split; [intros p Hp|intros Hp]; discriminate.
Qed.
End Main.

Lemma C72_lemma dbg fuel lt tr t0 phi s : trace_of lt tr -> keys_unique tr -> all_start lt t0 -> evaluable lt phi -> first_exact phi = true ->
  exists l z v, compute_robustness dbg fuel phi tr s = Ok z /\ built l z /\ first_time l = t0 /\
    pwl l t0 v /\ forall w, rob lt phi t0 w <-> w = v.
Proof.
  intros T K A E F. destruct (q_main dbg fuel lt tr t0 (mkRob (trace_begin tr) (trace_end tr) tr) T K A eq_refl phi E) as (l & C & EV & _ & Q).
  destruct (Q F) as (v & H1 & H2). exists l, (fsig l), v. split; [exact C|]. split; [apply built_iff; split; [apply EV|reflexivity]|].
  split; [apply EV|]. split; [exact H1|]. intros w. split; [|intros ->; exact H2]. intros H. refine (rob_fun lt _ phi t0 w v H H2).
  intros n t a b Ha Hb. pose proof Ha as (la & La & _). destruct (named lt tr t0 (mkRob (trace_begin tr) (trace_end tr) tr) T K A eq_refl n (ex_intro _ la La)) as (l' & _ & I & _ & V).
  apply V in Ha, Hb. eapply pwl_fun; eauto.
Qed.
