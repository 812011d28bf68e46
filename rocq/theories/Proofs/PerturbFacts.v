(** C75-C77: how the value at the first time depends on the trace. *)
From Coq Require Import Sorted Reals Lra Classical_Prop.
From Flocq Require Import Core.Raux.
From Verif Require Import Base Num NumXR.
From Verif.Model Require Import Signal MonoWedge MinMax Ast Robustness.
From Verif.Spec Require Import SignalSpec Pwl Formula Semantics Quantitative Perturb.
From Verif.Proofs Require Import NumFacts SignalFacts LowerBound Reshape Sync SyncProps SyncExact SampleFacts PwlFacts SignalProps PairExact MinMaxFacts MinMaxProps SeqFacts SeqExact MinMaxCases RobFacts RobWf RobTransport Duality RobExact QuantFacts.
Open Scope R_scope.

Definition fine (e : expr XR) : Prop := first_exact e = true \/ exists q, extreme_exact q e = true.
Lemma free_extreme q e : free_of is_temporal e = true -> extreme_exact q e = true.
Proof. intros H. destruct e; cbn [extreme_exact] in *; rewrite H; reflexivity. Qed.
Lemma fine_not e : fine (ENot e) -> fine e.
Proof.
  intros [H|(q & H)]; [left; exact H|right]. cbn [extreme_exact] in H. apply orb_prop in H as [H|H]; [|eauto].
  exists true. apply free_extreme. exact H.
Qed.
Lemma fine_node p l e : fine (node p l) -> In e l -> fine e.
Proof.
  intros [H|(q & H)] He.
  - left. assert (forallb first_exact l = true) as K by (destruct p; exact H). rewrite forallb_forall in K. auto.
  - right. assert (forallb (free_of is_temporal) l = true \/ forallb (extreme_exact q) l = true) as [K|K].
    { destruct p; cbn [node extreme_exact] in H; apply orb_prop in H as [H|H]; try (left; exact H); apply andb_prop in H as [_ H]; right; exact H. }
    + rewrite forallb_forall in K. exists true. apply free_extreme; auto.
    + rewrite forallb_forall in K. exists q. auto.
Qed.
Lemma fine_unbounded p e i : fine (unbounded p e i) -> extreme_exact p e = true.
Proof.
  intros [H|(q & H)]; destruct p; cbn [unbounded first_exact extreme_exact free_of is_temporal negb andb orb] in H; try exact H.
  - apply andb_prop in H as [-> H]. exact H.
  - destruct q; [discriminate|]. exact H.
Qed.

(** ** Good traces *)
Definition good (lt : ptrace) (tr : trace XR) (t0 : R) : Prop := trace_of lt tr /\ keys_unique tr /\ all_start lt t0.
Lemma good_value lt tr t0 : good lt tr t0 -> forall n t v w, value_at lt n t v -> value_at lt n t w -> v = w.
Proof.
  intros (T & K & A) n t a b Ha Hb. pose proof Ha as (la & La & _).
  destruct (named lt tr t0 (mkRob (trace_begin tr) (trace_end tr) tr) T K A eq_refl n (ex_intro _ la La)) as (l' & _ & I & _ & V).
  apply V in Ha, Hb. eapply pwl_fun; eauto.
Qed.
Lemma good_total lt tr t0 : good lt tr t0 -> forall q e t, evaluable lt e -> extreme_exact q e = true -> inside lt e t -> exists w, rob lt e t w.
Proof.
  intros (T & K & A) q e t E X Hi.
  destruct (q_main true 0 lt tr t0 (mkRob (trace_begin tr) (trace_end tr) tr) T K A eq_refl e E) as (l & _ & EV & Q & _).
  destruct (Q q X) as [Q1 _]. eapply total_at; [exact Q1|]. eapply ev_dom; eauto.
Qed.

Lemma ev_node lt p l e : evaluable lt (node p l) -> In e l -> evaluable lt e.
Proof.
  intros H He. apply (evaluable_sub lt _ e H).
  - intros x Hx. destruct p; right; apply in_flat_map; eauto.
  - intros K. assert (forallb (free_of is_const) l = true) as Q by (destruct p; exact K). rewrite forallb_forall in Q. auto.
  - intros K. assert (forallb (free_of (short 1)) l = true) as Q by (destruct p; cbn in K; apply andb_prop in K; tauto). rewrite forallb_forall in Q. auto.
  - intros x Hx. destruct p; apply in_flat_map; eauto.
Qed.
Lemma ev_unbounded lt p e i : evaluable lt (unbounded p e i) -> evaluable lt e.
Proof. intros H. destruct p; apply (evaluable_sub lt _ e H); auto; intros x Hx; right; exact Hx. Qed.
Lemma ev_not lt e : evaluable lt (ENot e) -> evaluable lt e.
Proof. intros H. apply (evaluable_sub lt _ e H); auto; intros x Hx; right; exact Hx. Qed.

(** ** Sign and satisfaction *)
Section Sign.
Variables (lt : ptrace) (tr : trace XR) (t0 : R).
Hypothesis G : good lt tr t0.

Lemma rob_sign : forall e, evaluable lt e -> fine e -> forall t v, rob lt e t v -> (0 < v -> sat lt e t) /\ (v < 0 -> ~ sat lt e t).
Proof.
  induction e using expr_rec; intros E X t v Q; try contradiction.
  - destruct Q as (x & r & V & -> & ->). split.
    + intros H. exists x, r. split; [exact V|]. split; [reflexivity|]. match goal with o : cmp_op |- _ => destruct o end; cbn [real_cmp]; lra.
    + intros H (x' & r' & V' & [= <-] & C). rewrite <- (good_value _ _ _ G n t x x' V V') in C. match goal with o : cmp_op |- _ => destruct o end; cbn [real_cmp] in C; lra.
  - cbn [rob] in Q. destruct (IHe (ev_not _ _ E) (fine_not _ X) t _ Q) as [A B]. cbn [sat]. split; intros H.
    + apply B. lra.
    + intros K. apply K. apply A. lra.
  - change (EAnd l) with (node true l) in *. apply rob_node in Q as ((P & HP & Q) & L). cbn [node sat]. rewrite Forall_forall in H. split; intros V.
    + apply Forall_forall. intros S HS. apply in_map_iff in HS as (e & <- & He). destruct (L _ (in_map _ _ _ He)) as (w & Hw & Le). cbn [sgp] in Le.
      apply (proj1 (H e He (ev_node _ true _ _ E He) (fine_node true _ _ X He) t w Hw)). lra.
    + apply in_map_iff in HP as (e & <- & He). intros K. rewrite Forall_forall in K. apply (proj2 (H e He (ev_node _ true _ _ E He) (fine_node true _ _ X He) t v Q) V). apply (K _ (in_map _ _ _ He)).
  - change (EOr l) with (node false l) in *. apply rob_node in Q as ((P & HP & Q) & L). cbn [node sat]. rewrite Forall_forall in H. split; intros V.
    + apply in_map_iff in HP as (e & <- & He). apply Exists_exists. exists (sat lt e). split; [apply in_map, He|].
      apply (proj1 (H e He (ev_node _ false _ _ E He) (fine_node false _ _ X He) t v Q) V).
    + intros K. apply Exists_exists in K as (S & HS & K). apply in_map_iff in HS as (e & <- & He). destruct (L _ (in_map _ _ _ He)) as (w & Hw & Le). cbn [sgp] in Le.
      apply (proj2 (H e He (ev_node _ false _ _ E He) (fine_node false _ _ X He) t w Hw)); [lra|exact K].
  - pose proof (fine_unbounded true e i X) as Xe. assert (Fe : fine e) by (right; eauto). pose proof (ev_unbounded _ true e i E) as Ee.
    destruct Q as (Hi & (t1 & T1 & Q) & L). cbn [sat]. split; intros V.
    + intros t' Ht' Hin. destruct (good_total _ _ _ G true e t' Ee Xe Hin) as (w & Hw). apply (proj1 (IHe Ee Fe t' w Hw)). specialize (L t' w Ht' Hw). lra.
    + intros K. apply (proj2 (IHe Ee Fe t1 v Q) V). apply K; [exact T1|]. eapply rob_inside, Q.
  - pose proof (fine_unbounded false e i X) as Xe. assert (Fe : fine e) by (right; eauto). pose proof (ev_unbounded _ false e i E) as Ee.
    destruct Q as (Hi & (t1 & T1 & Q) & L). cbn [sat]. split; intros V.
    + exists t1. split; [exact T1|]. split; [eapply rob_inside, Q|]. apply (proj1 (IHe Ee Fe t1 v Q) V).
    + intros (t' & Ht' & Hin & K). destruct (good_total _ _ _ G false e t' Ee Xe Hin) as (w & Hw). specialize (L t' w Ht' Hw).
      apply (proj2 (IHe Ee Fe t' w Hw)); [lra|exact K].
Qed.
End Sign.

(** ** Two traces *)
Section Two.
Variables (lt lt' : ptrace) (tr tr' : trace XR) (t0 : R) (P : R -> R -> Prop).
Hypothesis G : good lt tr t0.
Hypothesis G' : good lt' tr' t0.
Hypothesis RL : related P lt lt'.

Lemma in_left n l : In (n, l) lt -> exists l', In (n, l') lt' /\ (forall t, (exists x, pwl l t x) <-> (exists y, pwl l' t y)) /\ forall t x y, pwl l t x -> pwl l' t y -> P x y.
Proof. intros H. destruct (F2_l _ _ _ _ RL H) as ([n' l'] & Hin & E & D & V). cbn [fst snd] in *. subst n'. exists l'. auto. Qed.
Lemma in_right n l' : In (n, l') lt' -> exists l, In (n, l) lt /\ (forall t, (exists x, pwl l t x) <-> (exists y, pwl l' t y)) /\ forall t x y, pwl l t x -> pwl l' t y -> P x y.
Proof. intros H. destruct (F2_r _ _ _ _ RL H) as ([n' l] & Hin & E & D & V). cbn [fst snd] in *. subst n'. exists l. auto. Qed.
Lemma value_rel n t x y : value_at lt n t x -> value_at lt' n t y -> P x y.
Proof.
  intros (l & Hl & Hx) Hy. destruct (in_left n l Hl) as (l' & Hl' & D & V). destruct (proj1 (D t) (ex_intro _ x Hx)) as (y' & Hy').
  rewrite (good_value _ _ _ G' n t y y' Hy); [eapply V; eauto|]. exists l'. auto.
Qed.
Lemma value_dom n t : (exists x, value_at lt n t x) <-> exists y, value_at lt' n t y.
Proof.
  split; intros (x & l & Hl & Hx).
  - destruct (in_left n l Hl) as (l' & Hl' & D & _). destruct (proj1 (D t) (ex_intro _ x Hx)) as (y & Hy). exists y, l'. auto.
  - destruct (in_right n l Hl) as (l' & Hl' & D & _). destruct (proj2 (D t) (ex_intro _ x Hx)) as (y & Hy). exists y, l'. auto.
Qed.
Lemma inside_same e t : inside lt e t <-> inside lt' e t.
Proof. split; intros H n Hn; apply value_dom, H, Hn. Qed.
Lemma ev_same e : evaluable lt e <-> evaluable lt' e.
Proof.
  split; intros (A & B & C & D & N); (split; [exact A|]); (split; [exact B|]); (split; [exact C|]); (split; [exact D|]); intros n Hn; destruct (N n Hn) as (l & Hl).
  - destruct (in_left n l Hl) as (l' & H & _). eauto.
  - destruct (in_right n l Hl) as (l' & H & _). eauto.
Qed.

Variables (known : bool -> Prop) (d : R).
Hypothesis KN : forall q x y, known q -> P x y -> sgp q * x <= sgp q * y + d.

Fixpoint leaves (p : bool) (e : expr XR) : Prop :=
  match e with
  | EConst _ => True
  | EPred _ (GT | GE) _ => known p
  | EPred _ (LT | LE) _ => known (negb p)
  | ENot e => leaves (negb p) e
  | EAnd l | EOr l => Forall (fun x => x) (map (leaves p) l)
  | EAlways e _ | EEventually e _ => leaves p e
  | EUntil a b _ => leaves p a /\ leaves p b
  end.
Lemma leaves_node p q l e : leaves p (node q l) -> In e l -> leaves p e.
Proof.
  intros H He. assert (Forall (fun x => x) (map (leaves p) l)) as K by (destruct q; exact H). rewrite Forall_forall in K. apply K, in_map, He.
Qed.

Lemma sgp_eq p q : p = q \/ sgp p = - sgp q.
Proof. destruct p, q; cbn [sgp]; auto; right; lra. Qed.

Lemma moves : forall e, evaluable lt e -> fine e -> forall p t v w, leaves p e -> rob lt e t v -> rob lt' e t w -> sgp p * v <= sgp p * w + d.
Proof.
  assert (NODE : forall q l, Forall (fun e => evaluable lt e -> fine e -> forall p t v w, leaves p e -> rob lt e t v -> rob lt' e t w -> sgp p * v <= sgp p * w + d) l ->
    evaluable lt (node q l) -> fine (node q l) -> forall p t v w, leaves p (node q l) -> rob lt (node q l) t v -> rob lt' (node q l) t w -> sgp p * v <= sgp p * w + d).
  { intros q l H E X p t v w L A B. apply rob_node in A as ((Q & HQ & A) & LA), B as ((S & HS & B) & LB). rewrite Forall_forall in H.
    apply in_map_iff in HQ as (e & <- & He), HS as (e' & <- & He').
    destruct (LA _ (in_map _ _ _ He')) as (u & U & UL). destruct (LB _ (in_map _ _ _ He)) as (u' & U' & UL').
    pose proof (H e He (ev_node _ q _ _ E He) (fine_node q _ _ X He) p t v u' (leaves_node p q l e L He) A U') as M1.
    pose proof (H e' He' (ev_node _ q _ _ E He') (fine_node q _ _ X He') p t u w (leaves_node p q l e' L He') U B) as M2.
    destruct p, q; cbn [sgp] in *; lra. }
  assert (UNB : forall q e i, (evaluable lt e -> fine e -> forall p t v w, leaves p e -> rob lt e t v -> rob lt' e t w -> sgp p * v <= sgp p * w + d) ->
    evaluable lt (unbounded q e i) -> fine (unbounded q e i) -> forall p t v w, leaves p (unbounded q e i) -> rob lt (unbounded q e i) t v -> rob lt' (unbounded q e i) t w -> sgp p * v <= sgp p * w + d).
  { intros q e i IH E X p t v w L A B. apply rob_unbounded in A as (_ & (t1 & T1 & A) & LA), B as (_ & (t2 & T2 & B) & LB).
    pose proof (fine_unbounded q e i X) as Xe. assert (Fe : fine e) by (right; eauto). pose proof (ev_unbounded _ q e i E) as Ee. pose proof (proj1 (ev_same e) Ee) as Ee'.
    assert (Le : leaves p e) by (destruct q; exact L).
    destruct (good_total _ _ _ G' q e t1 Ee' Xe) as (u' & U'); [apply inside_same; eapply rob_inside, A|].
    destruct (good_total _ _ _ G q e t2 Ee Xe) as (u & U); [apply inside_same; eapply rob_inside, B|].
    pose proof (IH Ee Fe p t1 v u' Le A U') as M1. pose proof (IH Ee Fe p t2 u w Le U B) as M2.
    specialize (LA t2 u T2 U). specialize (LB t1 u' T1 U'). destruct p, q; cbn [sgp] in *; lra. }
  induction e using expr_rec; intros E X p t v w L A B; try contradiction.
  - destruct A as (x & r & H1 & H2 & ->), B as (x' & r' & H1' & H2' & ->). rewrite H2 in H2'. injection H2' as <-.
    pose proof (value_rel n t x x' H1 H1') as V. match goal with o : cmp_op |- _ => destruct o end; cbn [leaves] in L; pose proof (KN _ _ _ L V) as M; destruct p; cbn [sgp negb] in *; lra.
  - cbn [rob] in A, B. pose proof (IHe (ev_not _ _ E) (fine_not _ X) (negb p) t _ _ L A B) as M. destruct p; cbn [sgp negb] in *; lra.
  - apply (NODE true l H E X p t v w L A B).
  - apply (NODE false l H E X p t v w L A B).
  - apply (UNB true e i IHe E X p t v w L A B).
  - apply (UNB false e i IHe E X p t v w L A B).
Qed.
End Two.

Lemma leaves_all : forall e p, leaves (fun _ => True) p e.
Proof.
  induction e using expr_rec; intros p; cbn [leaves]; auto.
  - match goal with o : cmp_op |- _ => destruct o end; exact I.
  - apply Forall_forall. intros x Hx. apply in_map_iff in Hx as (e & <- & He). rewrite Forall_forall in H. apply H, He.
  - apply Forall_forall. intros x Hx. apply in_map_iff in Hx as (e & <- & He). rewrite Forall_forall in H. apply H, He.
Qed.
Lemma leaves_rising : forall e p, rising p e = true -> leaves (fun q => q = true) p e.
Proof.
  assert (L : forall l p, Forall (fun e => forall p, rising p e = true -> leaves (fun q => q = true) p e) l -> forallb (rising p) l = true ->
    Forall (fun x => x) (map (leaves (fun q => q = true) p) l)).
  { intros l p H R. apply Forall_forall. intros x Hx. apply in_map_iff in Hx as (e & <- & He). rewrite Forall_forall in H. rewrite forallb_forall in R. auto. }
  induction e using expr_rec; intros p R; cbn [leaves rising] in *; auto.
  - match goal with o : cmp_op |- _ => destruct o end; exact R.
  - apply andb_prop in R as []. auto.
Qed.

Lemma C75_lemma dbg fuel lt tr lt' tr' t0 phi s d :
  trace_of lt tr -> keys_unique tr -> all_start lt t0 -> trace_of lt' tr' -> keys_unique tr' -> all_start lt' t0 ->
  evaluable lt phi -> first_exact phi = true -> close d lt lt' ->
  exists l z v l' z' v', compute_robustness dbg fuel phi tr s = Ok z /\ built l z /\ pwl l t0 v /\
    compute_robustness dbg fuel phi tr' s = Ok z' /\ built l' z' /\ pwl l' t0 v' /\ Rabs (v - v') <= d.
Proof.
  intros T K A T' K' A' E F C. pose proof (conj T (conj K A) : good lt tr t0) as G. pose proof (conj T' (conj K' A') : good lt' tr' t0) as G'.
  pose proof (proj1 (ev_same lt lt' _ C phi) E) as E'.
  destruct (C72_lemma dbg fuel lt tr t0 phi s T K A E F) as (l & z & v & C1 & B1 & _ & P1 & R1).
  destruct (C72_lemma dbg fuel lt' tr' t0 phi s T' K' A' E' F) as (l' & z' & v' & C2 & B2 & _ & P2 & R2).
  exists l, z, v, l', z', v'. repeat (split; [assumption|]).
  assert (KN : forall q x y, True -> Rabs (x - y) <= d -> sgp q * x <= sgp q * y + d).
  { intros q x y _ H. apply Rabs_le_inv in H. destruct q; cbn [sgp]; lra. }
  pose proof (moves lt lt' tr tr' t0 _ G G' C (fun _ => True) d KN phi E (or_introl F)) as M.
  apply Rabs_le. pose proof (M true t0 v v' (leaves_all phi true) (proj2 (R1 v) eq_refl) (proj2 (R2 v') eq_refl)) as M1.
  pose proof (M false t0 v v' (leaves_all phi false) (proj2 (R1 v) eq_refl) (proj2 (R2 v') eq_refl)) as M2. cbn [sgp] in *. lra.
Qed.

Lemma C75_boolean_lemma dbg fuel lt tr lt' tr' t0 phi s d :
  trace_of lt tr -> keys_unique tr -> all_start lt t0 -> trace_of lt' tr' -> keys_unique tr' -> all_start lt' t0 ->
  evaluable lt phi -> free_of is_temporal phi = true -> close d lt lt' ->
  exists l z l' z', compute_robustness dbg fuel phi tr s = Ok z /\ built l z /\ compute_robustness dbg fuel phi tr' s = Ok z' /\ built l' z' /\
    forall t, ((exists v, pwl l t v) <-> (exists v, pwl l' t v)) /\ forall v v', pwl l t v -> pwl l' t v' -> Rabs (v - v') <= d.
Proof.
  intros T K A T' K' A' E F C. pose proof (conj T (conj K A) : good lt tr t0) as G. pose proof (conj T' (conj K' A') : good lt' tr' t0) as G'.
  pose proof (proj1 (ev_same lt lt' _ C phi) E) as E'.
  destruct (C35_lemma dbg fuel lt tr t0 phi s T K A E F) as (l & z & C1 & B1 & R1).
  destruct (C35_lemma dbg fuel lt' tr' t0 phi s T' K' A' E' F) as (l' & z' & C2 & B2 & R2).
  exists l, z, l', z'. repeat (split; [assumption|]).
  assert (KN : forall q x y, True -> Rabs (x - y) <= d -> sgp q * x <= sgp q * y + d).
  { intros q x y _ H. apply Rabs_le_inv in H. destruct q; cbn [sgp]; lra. }
  assert (X : fine phi) by (right; exists true; apply free_extreme, F).
  pose proof (moves lt lt' tr tr' t0 _ G G' C (fun _ => True) d KN phi E X) as M. intros t. split.
  - split; intros (v & V).
    + apply R1, rob_rho in V; [|exact F]. apply rob_inside in V. apply (inside_same lt lt' _ C) in V.
      destruct (good_total _ _ _ G' true phi t E' (free_extreme _ _ F) V) as (w & W). exists w. apply R2, rob_rho; assumption.
    + apply R2, rob_rho in V; [|exact F]. apply rob_inside in V. apply (inside_same lt lt' _ C) in V.
      destruct (good_total _ _ _ G true phi t E (free_extreme _ _ F) V) as (w & W). exists w. apply R1, rob_rho; assumption.
  - intros v v' V V'. apply R1, rob_rho in V; [|exact F]. apply R2, rob_rho in V'; [|exact F].
    apply Rabs_le. pose proof (M true t v v' (leaves_all phi true) V V') as M1. pose proof (M false t v v' (leaves_all phi false) V V') as M2. cbn [sgp] in *. lra.
Qed.

Lemma C76_lemma dbg fuel lt tr lt' tr' t0 phi s :
  trace_of lt tr -> keys_unique tr -> all_start lt t0 -> trace_of lt' tr' -> keys_unique tr' -> all_start lt' t0 ->
  evaluable lt phi -> first_exact phi = true -> rising true phi = true -> below lt lt' ->
  exists l z v l' z' v', compute_robustness dbg fuel phi tr s = Ok z /\ built l z /\ pwl l t0 v /\
    compute_robustness dbg fuel phi tr' s = Ok z' /\ built l' z' /\ pwl l' t0 v' /\ v <= v'.
Proof.
  intros T K A T' K' A' E F RI C. pose proof (conj T (conj K A) : good lt tr t0) as G. pose proof (conj T' (conj K' A') : good lt' tr' t0) as G'.
  pose proof (proj1 (ev_same lt lt' _ C phi) E) as E'.
  destruct (C72_lemma dbg fuel lt tr t0 phi s T K A E F) as (l & z & v & C1 & B1 & _ & P1 & R1).
  destruct (C72_lemma dbg fuel lt' tr' t0 phi s T' K' A' E' F) as (l' & z' & v' & C2 & B2 & _ & P2 & R2).
  exists l, z, v, l', z', v'. repeat (split; [assumption|]).
  assert (KN : forall q x y, q = true -> x <= y -> sgp q * x <= sgp q * y + 0) by (intros q x y -> H; cbn [sgp]; lra).
  pose proof (moves lt lt' tr tr' t0 _ G G' C (fun q => q = true) 0 KN phi E (or_introl F) true t0 v v' (leaves_rising phi true RI) (proj2 (R1 v) eq_refl) (proj2 (R2 v') eq_refl)) as M.
  cbn [sgp] in M. lra.
Qed.

Lemma C77_lemma dbg fuel lt tr lt' tr' t0 phi s d :
  trace_of lt tr -> keys_unique tr -> all_start lt t0 -> trace_of lt' tr' -> keys_unique tr' -> all_start lt' t0 ->
  evaluable lt phi -> first_exact phi = true -> close d lt lt' ->
  exists l z v, compute_robustness dbg fuel phi tr s = Ok z /\ built l z /\ pwl l t0 v /\
    (d < v -> sat lt' phi t0) /\ (v < - d -> ~ sat lt' phi t0).
Proof.
  intros T K A T' K' A' E F C. pose proof (conj T (conj K A) : good lt tr t0) as G. pose proof (conj T' (conj K' A') : good lt' tr' t0) as G'.
  pose proof (proj1 (ev_same lt lt' _ C phi) E) as E'.
  destruct (C72_lemma dbg fuel lt tr t0 phi s T K A E F) as (l & z & v & C1 & B1 & _ & P1 & R1).
  destruct (C72_lemma dbg fuel lt' tr' t0 phi s T' K' A' E' F) as (l' & z' & v' & C2 & B2 & _ & P2 & R2).
  exists l, z, v. repeat (split; [assumption|]).
  assert (KN : forall q x y, True -> Rabs (x - y) <= d -> sgp q * x <= sgp q * y + d).
  { intros q x y _ H. apply Rabs_le_inv in H. destruct q; cbn [sgp]; lra. }
  pose proof (moves lt lt' tr tr' t0 _ G G' C (fun _ => True) d KN phi E (or_introl F)) as M.
  pose proof (M true t0 v v' (leaves_all phi true) (proj2 (R1 v) eq_refl) (proj2 (R2 v') eq_refl)) as M1.
  pose proof (M false t0 v v' (leaves_all phi false) (proj2 (R1 v) eq_refl) (proj2 (R2 v') eq_refl)) as M2. cbn [sgp] in *.
  destruct (rob_sign lt' tr' t0 G' phi E' (or_introl F) t0 v' (proj2 (R2 v') eq_refl)) as [S1 S2]. split; intros H; [apply S1|apply S2]; lra.
Qed.

Lemma C77_sign_lemma dbg fuel lt tr t0 phi s : trace_of lt tr -> keys_unique tr -> all_start lt t0 -> evaluable lt phi -> first_exact phi = true ->
  exists l z v, compute_robustness dbg fuel phi tr s = Ok z /\ built l z /\ pwl l t0 v /\ (0 < v -> sat lt phi t0) /\ (v < 0 -> ~ sat lt phi t0).
Proof.
  intros T K A E F. destruct (C72_lemma dbg fuel lt tr t0 phi s T K A E F) as (l & z & v & C1 & B1 & _ & P1 & R1).
  exists l, z, v. repeat (split; [assumption|]). apply (rob_sign lt tr t0 (conj T (conj K A)) phi E (or_introl F) t0 v (proj2 (R1 v) eq_refl)).
Qed.
