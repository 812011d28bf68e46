(** Formulas of predicates under Not, And and Or in doubles, sampled at any times (C122). *)
From Coq Require Import Reals Lra Lia.
From Flocq Require Import Core.Core IEEE754.BinarySingleNaN.
From Verif Require Import Base Num NumXR NumB64.
From Verif.Model Require Import Signal MinMax Ast Robustness.
From Verif.Spec Require Import SignalSpec Pwl Formula Semantics Quantitative Rounding Accuracy Uniform Whole Apart Spaced Many Tree.
From Verif.Proofs Require Import NumFacts SignalFacts PwlFacts RobFacts RobWf B64Facts SeqFacts MinMaxProps InterpError CrossingError SyncError Rounding ChainFacts LayerFacts RobExact QuantFacts PairBound UniformFacts PerturbFacts WholeFacts DualB64 JoinFormula PairError SpacedFormula SlopeError ManyError ManyFormula GeneralFormula TreeError Size SafeFacts.
Local Open Scope R_scope.

Lemma in_prefixes {A} k (l : list A) : (1 <= k)%nat -> l <> [] -> In (firstn k l) (prefixes l).
Proof.
  intros K N. unfold prefixes. apply in_map_iff. destruct (Nat.le_gt_cases k (length l)) as [L|L].
  - exists k. split; [reflexivity|]. apply in_seq. lia.
  - exists (length l). split; [rewrite firstn_all, firstn_all2 by lia; reflexivity|]. apply in_seq. destruct l; [congruence|cbn; lia].
Qed.
Lemma stages_prefix p k l : (1 <= k)%nat -> l <> [] -> In (join p (firstn k l)) (stages (join p l)).
Proof. intros K N. pose proof (in_prefixes k l K N). destruct p; cbn [join stages]; apply in_or_app; left; apply in_map; assumption. Qed.
Lemma stages_sub p l e f : In e l -> In f (stages e) -> In f (stages (join p l)).
Proof. intros He Hf. destruct p; cbn [join stages]; apply in_or_app; right; apply in_flat_map; exists e; auto. Qed.
Lemma stages_self e : boolean e = true -> In e (stages e).
Proof.
  assert (J : forall p l, boolean (join p l) = true -> In (join p l) (stages (join p l))).
  { intros p l B. assert (N : l <> []) by (intros ->; destruct p; discriminate). rewrite <- (firstn_all l) at 1. apply stages_prefix; [destruct l; [congruence|cbn; lia]|exact N]. }
  destruct e; cbn [boolean]; intros B; try discriminate; [left; reflexivity|left; reflexivity|apply (J true), B|apply (J false), B].
Qed.
Lemma boolean_join p l : boolean (join p l) = true -> l <> [] /\ forall e, In e l -> boolean e = true.
Proof.
  destruct l as [|a l]; [destruct p; discriminate|]. intros B. split; [discriminate|]. assert (K : boolean a = true /\ forallb boolean l = true) by (apply andb_prop; destruct p; exact B).
  intros e [<-|He]; [apply K|]. exact (proj1 (forallb_forall _ _) (proj2 K) e He).
Qed.
Lemma boolean_names e : boolean e = true -> (1 <= length (names e))%nat.
Proof.
  assert (J : forall p l, Forall (fun e => boolean e = true -> (1 <= length (names e))%nat) l -> boolean (join p l) = true -> (1 <= length (names (join p l)))%nat).
  { intros p l F B. apply boolean_join in B as (N & B). destruct l as [|a l]; [congruence|]. inversion F; subst. rewrite names_join. cbn [flat_map]. rewrite app_length. specialize (H1 (B a (or_introl eq_refl))). lia. }
  induction e using expr_rec; intros B; try discriminate; [cbn; lia|exact (IHe B)|apply (J true), B; assumption|apply (J false), B; assumption].
Qed.

Section T.
Variables (dbg : bool) (fuel : nat) (tr : trace B64) (V S H : R).
Hypothesis MO : moderate V S H.
Hypothesis U : keys_unique tr.
Hypothesis G : Forall (fun e => wf (snd e) /\ snd e <> []) tr.
Hypothesis WH : forall n x, has_signal tr n x -> sized V S x /\ spaced H x.
Let lt := real_trace tr.
Let r0 := mkRob (trace_begin tr) (trace_end tr) tr.
Let OR := moderate_ordinary V S H MO.
Let unit := unit_error (4 * V) S H.

Lemma gap_H : gap <= H.
Proof. pose proof MO as (_ & (A & _) & _). eapply Rle_trans; [|exact A]. apply bpow_le. lia. Qed.

(** A predicate or negated predicate. *)
Lemma near_base y : wf y -> y <> [] -> sized (4 * V) S y -> spaced H y -> near (4 * V) S H (pw (reals y)) unit y.
Proof.
  intros Wy Ny Sy Py. pose proof (sized_finite _ _ _ Sy) as Fy.
  destruct (moderate_parts V S H 4 MO ltac:(lra)) as (M1 & M2 & M3 & M4 & M5). destruct (many_parts (4 * V) S H M1 M2 M3 M4) as (V0 & H0 & S0 & L0 & LS & _). pose proof uu_small as Hu.
  repeat (split; [assumption|]). split; [|split; [|split]].
  - intros a Ha. destruct Sy as (A & _). apply (A a Ha).
  - intros x1 a b x2 E. eapply Rle_trans; [exact gap_H|exact (Py _ _ _ _ E)].
  - apply gentle_lipschitz; [apply reals_rincr; assumption|]. apply (base_gentle (4 * V) S H M1 M2 M3 M4); assumption.
  - intros t Dt. split; [apply (base_bound (4 * V) S y t Wy Ny Sy); lra|]. unfold Rminus. rewrite Rplus_opp_r, Rabs_R0. unfold unit, unit_error.
    assert (0 <= uu * (L (4 * V) H * S)) by (apply Rmult_le_pos; lra). lra.
Qed.
Lemma near_not W T h f r z z' : near W T h f r z -> rob_not z = Ok z' -> near W T h (fun t => - f t) r z' /\ times z' = times z.
Proof.
  intros (Z1 & Z2 & Z3 & Z4 & Z5 & Z7 & Z8) E. destruct (not_points z (conj Z1 Z2)) as (z2 & E2 & (W2 & N2) & T2 & F2). rewrite E2 in E. injection E as ->.
  assert (P : Forall2 (fun b b' => s_time b' = s_time b /\ s_value b' = nopp (s_value b)) z z').
  { clear - T2 F2. induction F2 as [|b b' z z' Eb F IH]; [constructor|]. injection T2 as T1 T2. constructor; [split; assumption|]. apply IH. exact T2. }
  assert (F' : fins z').
  { clear - P Z3. induction P as [|b b' z z' (E1 & E2) P IH]; [constructor|]. inversion Z3 as [|? ? (A & B) Z3']; subst. constructor; [|apply IH, Z3']. rewrite E1, E2. split; [exact A|]. rewrite finite_nopp. exact B. }
  split; [|exact T2]. split; [exact W2|]. split; [exact N2|]. split; [exact F'|]. rewrite (first_times z z' T2), (final_times z z' T2). split; [|split; [|split]].
  - intros a' Ha'. clear - P Z4 Ha'. induction P as [|b b' z z' (E1 & E2) P IH]; [destruct Ha'|]. destruct Ha' as [<-|Ha']; [rewrite E1; apply Z4; left; reflexivity|]. apply IH; [|exact Ha']. intros a Ha. apply Z4. right. exact Ha.
  - intros x1 a b x2 E. clear - P Z5 E. subst z'. apply Forall2_app_inv_r in P as (z1 & z2 & P1 & P2 & ->). inversion P2 as [|c a' z3 l3 (E1 & _) P3]; subst. inversion P3 as [|d b' z4 l4 (E2 & _) P4]; subst. rewrite E1, E2. exact (Z5 _ _ _ _ eq_refl).
  - intros a b Ha Hab Hb. specialize (Z7 a b Ha Hab Hb). replace (- f b - - f a) with (- (f b - f a)) by ring. rewrite Rabs_Ropp. exact Z7.
  - intros t Dt. destruct (Z8 t Dt) as (Q1 & Q2). rewrite Rabs_Ropp. split; [exact Q1|].
    assert (E : Rabs (pw (reals z') t - (-1 * pw (reals z) t + 0)) <= 0).
    { apply pw_close; [lra|apply reals_rincr; assumption| |destruct z; [congruence|discriminate]|lra]. clear - P. induction P as [|b b' z z' (E1 & E2) P IH]; [constructor|]. rewrite !reals_cons. constructor; [|exact IH].
      cbn [fst snd]. split; [rewrite E1; reflexivity|]. rewrite E2. assert (Eo : B2R (nopp (s_value b)) = - B2R (s_value b)) by exact (B2R_Bopp 53 1024 (s_value b)).
      match goal with |- Rabs ?a <= 0 => replace a with 0; [rewrite Rabs_R0; lra|] end. rewrite Eo. ring. }
    apply Rabs_le_inv in E, Q2. apply Rabs_le. lra.
Qed.

(** The computed signal is near a function that is within the rounding of the predicates of the exact robustness. *)
Definition fine_op (e : expr B64) (o : operand) : Prop :=
  fits (4 * V) S H o /\ snd o = length (names e) /\
  (forall t n, reaches (fst (fst o)) t -> In n (names e) -> exists x, has_signal tr n x /\ first_time (reals x) <= t <= final_time (reals x)) /\
  forall t r, rob lt (real_formula e) t r -> reaches (fst (fst o)) t /\ Rabs (snd (fst o) t - r) <= 4 * uu * V.
Definition follows (e : expr B64) (z : signal B64) : Prop := exists f, fine_op e (z, f, length (names e)).

Lemma follows_join p l z : boolean (join p l) = true -> error_of (length (names (join p l))) V S H <= V ->
  (forall k y, (1 <= k)%nat -> compute dbg fuel r0 (join p (firstn k l)) = Ok y -> spaced gap y) ->
  (forall e y, In e l -> compute dbg fuel r0 e = Ok y -> follows e y) -> compute dbg fuel r0 (join p l) = Ok z -> follows (join p l) z.
Proof.
  intros B EV SP IH Hz. apply boolean_join in B as (N & B).
  assert (exists ys, Forall2 (fun e y => compute dbg fuel r0 e = Ok y) l ys /\ minmax_list dbg (comp_of p) false ys = Ok z) as (ys & F & Hm).
  { destruct p; cbn [join compute] in Hz; apply bind_ok_inv in Hz as (ys & H1 & H2); apply compute_list_inv in H1; exists ys; auto. }
  assert (exists ops, Forall2 fine_op l ops /\ map (fun o => fst (fst o)) ops = ys) as (ops & FO & EO).
  { clear - F IH. induction F as [|e y l ys E F IHF]; [exists []; split; [constructor|reflexivity]|].
    destruct (IH e y (or_introl eq_refl) E) as (f & Hf). destruct IHF as (ops & A1 & A2); [intros e' y' He' E'; apply (IH e' y'); [right; exact He'|exact E']|].
    exists ((y, f, length (names e)) :: ops). split; [constructor; assumption|cbn; rewrite A2; reflexivity]. }
  assert (CNT : length (names (join p l)) = count ops).
  { rewrite names_join. clear - FO. induction FO as [|e o l ops (_ & E & _) FO IHo]; [reflexivity|]. cbn [flat_map count fold_right]. rewrite app_length, IHo, E. reflexivity. }
  assert (FI : Forall (fits (4 * V) S H) ops) by (clear - FO; induction FO as [|e o l ops (A & _) FO IHo]; constructor; auto).
  destruct (moderate_parts V S H 4 MO ltac:(lra)) as (M1 & M2 & M3 & M4 & M5). destruct (many_scale V S H MO) as (W0 & _ & _ & _ & EU & _).
  assert (RV : unit * 10 ^ (count ops - 1) <= 4 * V).
  { rewrite <- CNT. unfold unit. rewrite EU. replace (4 * (bpow radix2 (-42) * V * S / H) * 10 ^ (length (names (join p l)) - 1)) with (4 * error_of (length (names (join p l))) V S H) by (unfold error_of, Rdiv; ring). lra. }
  destruct FO as [|e0 o0 l ops O0 FO]; [congruence|]. inversion FI as [|? ? I0 FI']; subst. destruct o0 as ((y0, f0), n0). cbn [map fst snd] in Hm, F.
  rewrite list_fold in Hm. destruct O0 as ((_ & _) & E0 & D0 & R0). cbn [fst snd] in E0, D0, R0.
  destruct (tree_fold (4 * V) S H M1 M2 M3 M4 M5 dbg p ops f0 n0 y0 z) as (NZ & DZ); [apply I0|apply I0|exact FI'|exact RV| |exact Hm|].
  { intros k y Hy. apply (SP (Datatypes.S k) y); [lia|]. inversion F as [|? ? ? ? C0 F']; subst. cbn [firstn].
    assert (CL : compute_list (compute dbg fuel r0) (e0 :: firstn k l) = Ok (y0 :: firstn k (map (fun o => fst (fst o)) ops))).
    { apply compute_list_runs. constructor; [exact C0|]. clear - F'. revert k. induction F' as [|e y l ys E F IHf]; intros [|k]; cbn [firstn]; constructor; auto. }
    rewrite <- list_fold in Hy. destruct p; cbn [join compute]; rewrite CL; exact Hy. }
  eexists. split; [|split; [reflexivity|]]; [split; cbn [fst snd]; [|rewrite CNT; exact NZ]|]; cbn [fst snd].
  { rewrite CNT. cbn [count fold_right snd]. destruct I0 as (I0 & _). cbn [snd] in I0. lia. }
  split.
  { intros t n Ht Hn. apply DZ in Ht as (Ht & Hts). rewrite names_join in Hn. cbn [flat_map] in Hn. apply in_app_or in Hn as [Hn|Hn]; [exact (D0 t n Ht Hn)|].
    clear - FO Hts Hn. induction FO as [|e o l ops (_ & _ & D & _) FO IHo]; [destruct Hn|]. inversion Hts; subst. cbn [flat_map] in Hn. apply in_app_or in Hn as [Hn|Hn]; [exact (D t n H2 Hn)|exact (IHo H3 Hn)]. }
  intros t r1 Hr. destruct (fold_best (QuantFacts.sgp p) (fun o : operand => snd (fst o) t) (sgp_cases p) ops (f0 t)) as (Q1 & Q2 & Q3). set (m := fold_left _ ops (f0 t)) in *.
  rewrite real_join in Hr. apply rob_node in Hr as ((P & HP & HPr) & K). cbn [map] in *.
  destruct (K _ (or_introl eq_refl)) as (w0 & Hw0 & Lw0). destruct (R0 t w0 Hw0) as (Dt & Ew0). split.
  { apply DZ. split; [exact Dt|]. assert (K' : forall e, In e l -> exists w, rob lt (real_formula e) t w). { intros e He. destruct (K (rob lt (real_formula e))) as (w & Hw & _); [right; apply in_map, in_map, He|]. eauto. }
    clear - FO K'. induction FO as [|e o l ops (_ & _ & _ & R) FO IHo]; constructor; [|apply IHo; intros e' He'; apply K'; right; exact He']. destruct (K' e (or_introl eq_refl)) as (w & Hw). apply (R t w Hw). }
  assert (A1 : QuantFacts.sgp p * m <= QuantFacts.sgp p * r1 + 4 * uu * V).
  { destruct HP as [<-|HP].
    - destruct (R0 t r1 HPr) as (_ & E). apply Rabs_le_inv in E. destruct p; cbn [QuantFacts.sgp] in *; lra.
    - apply in_map_iff in HP as (g & <- & HP). apply in_map_iff in HP as (e & <- & He).
      assert (exists o, In o ops /\ Rabs (snd (fst o) t - r1) <= 4 * uu * V) as (o & Ho & E).
      { clear - FO He HPr. induction FO as [|e' o l ops (_ & _ & _ & M) FO IHo]; [destruct He|]. destruct He as [->|He]; [exists o; split; [left; reflexivity|apply M, HPr]|]. destruct (IHo He) as (o' & Ho' & E'). exists o'. split; [right; exact Ho'|exact E']. }
      specialize (Q3 o Ho). cbv beta in Q3. apply Rabs_le_inv in E. destruct p; cbn [QuantFacts.sgp] in *; lra. }
  assert (A2 : QuantFacts.sgp p * r1 <= QuantFacts.sgp p * m + 4 * uu * V).
  { destruct Q1 as [->|(o & Ho & ->)].
    - apply Rabs_le_inv in Ew0. destruct p; cbn [QuantFacts.sgp] in *; lra.
    - assert (exists e, In e l /\ forall v, rob lt (real_formula e) t v -> Rabs (snd (fst o) t - v) <= 4 * uu * V) as (e & He & M).
      { clear - FO Ho. induction FO as [|e' o' l ops (_ & _ & _ & M) FO IHo]; [destruct Ho|]. destruct Ho as [->|Ho]; [exists e'; split; [left; reflexivity|intros v Hv; apply (M t v Hv)]|]. destruct (IHo Ho) as (e & He & E'). exists e. split; [right; exact He|exact E']. }
      destruct (K (rob lt (real_formula e))) as (w & Hw & Lw). { right. apply in_map, in_map, He. }
      specialize (M w Hw). apply Rabs_le_inv in M. destruct p; cbn [QuantFacts.sgp] in *; lra. }
  change (Rabs (m - r1) <= 4 * uu * V). apply Rabs_le. destruct p; cbn [QuantFacts.sgp] in A1, A2; lra.
Qed.

Lemma boolean_follows : forall e, boolean e = true -> forall z, in_trace V tr e -> error_of (length (names e)) V S H <= V -> separated dbg fuel tr e -> compute dbg fuel r0 e = Ok z -> follows e z.
Proof.
  assert (JOIN : forall p l, Forall (fun e => boolean e = true -> forall z, in_trace V tr e -> error_of (length (names e)) V S H <= V -> separated dbg fuel tr e -> compute dbg fuel r0 e = Ok z -> follows e z) l ->
    boolean (join p l) = true -> forall z, in_trace V tr (join p l) -> error_of (length (names (join p l))) V S H <= V -> separated dbg fuel tr (join p l) -> compute dbg fuel r0 (join p l) = Ok z -> follows (join p l) z).
  { intros p l F B z IT EV SP Hz. pose proof (boolean_join p l B) as (N & Bl). apply (follows_join p l z B EV); [| |exact Hz].
    - intros k y K Hy. apply (SP (join p (firstn k l)) y false); [apply stages_prefix; assumption|exact Hy].
    - intros e y He Hy. rewrite Forall_forall in F. apply (F e He (Bl e He)); auto.
      + apply (in_trace_join tr V p l); assumption.
      + eapply Rle_trans; [|exact EV]. apply (error_mono V S H MO). rewrite names_join. clear - He. induction l as [|a l IH]; [destruct He|]. cbn [flat_map]. rewrite app_length. destruct He as [->|He]; [lia|]. specialize (IH He). lia.
      + intros f w s Hf Hw. apply (SP f w s); [apply (stages_sub p l e); assumption|exact Hw]. }
  induction e using expr_rec; intros B z IT EV SP Hz; try discriminate.
  - assert (Lt : literal (EPred n o c) = true) by reflexivity. destruct (chain_spaced dbg fuel tr V S H OR U G WH _ (literal_chain _ Lt) (literal_intervals _ Lt) IT) as (n' & x & y & N & Hx & R & Wy & Ny & T & Sy & Py & _).
    assert (y = z). { unfold runs in R. unfold r0 in Hz. rewrite R in Hz. injection Hz as ->. reflexivity. } subst y.
    exists (pw (reals z)). split; [|split; [reflexivity|split]]; cbn [fst snd].
    + split; [cbn; lia|]. cbn [fst snd names length Nat.sub pow]. rewrite Rmult_1_r. apply near_base; assumption.
    + intros t m Ht Hm. rewrite N in Hm. destruct Hm as [<-|[]]. exists x. split; [exact Hx|]. rewrite <- (first_times x z T), <- (final_times x z T). exact Ht.
    + intros t v Hv. destruct (literal_near dbg fuel tr V S H OR U G WH _ z Lt IT R t v Hv) as (u & Pu & Eu).
      apply pwl_pw in Pu as (D & ->); [|apply reals_rincr; [exact Wy|eapply sized_finite; eauto]|destruct z; [congruence|discriminate]]. split; [exact D|exact Eu].
  - cbn [compute] in Hz. apply bind_ok_inv in Hz as (y & Hy & Hz). assert (IT' : in_trace V tr e). { destruct IT as (A & B'). split; [|exact B']. intros g Hg. apply A. right. exact Hg. }
    destruct (IHe B y IT' EV) as (f & (F1 & F2) & _ & D & Rf); [intros f w s Hf Hw; apply (SP f w s); [right; exact Hf|exact Hw]|exact Hy|]. cbn [fst snd] in *.
    destruct (near_not _ _ _ f _ y z F2 Hz) as (NZ & TZ).
    exists (fun t => - f t). split; [split; cbn [fst snd names]; [exact F1|exact NZ]|]. split; [reflexivity|]. cbn [fst snd names]. unfold reaches in *. rewrite (first_times y z TZ), (final_times y z TZ). split; [exact D|].
    intros t r Hr. cbn [real_formula rob] in Hr. destruct (Rf t (- r) Hr) as (D' & E). split; [exact D'|].
    replace (- f t - r) with (- (f t - - r)) by ring. rewrite Rabs_Ropp. exact E.
  - apply (JOIN true l); assumption.
  - apply (JOIN false l); assumption.
Qed.

Lemma follows_near e z : follows e z -> wf z /\ z <> [] /\ fins z /\ (forall t w, pwl (reals z) t w -> inside lt (real_formula e) t) /\
  forall t r, rob lt (real_formula e) t r -> exists w, pwl (reals z) t w /\ Rabs (w - r) <= 8 * error_of (length (names e)) V S H.
Proof.
  intros (f & (_ & Z1 & Z2 & Z3 & _ & _ & _ & Z8) & _ & D & Rf). cbn [fst snd] in *. split; [exact Z1|]. split; [exact Z2|]. split; [exact Z3|].
  assert (PW : forall t v, pwl (reals z) t v <-> first_time (reals z) <= t <= final_time (reals z) /\ v = pw (reals z) t) by (intros t v; apply pwl_pw; [apply reals_rincr; assumption|destruct z; [congruence|discriminate]]).
  split. { intros t w Hw. apply PW in Hw as (Hw & _). apply (formula_inside tr V S H U G WH). intros n Hn. exact (D t n Hw Hn). }
  intros t r Hr. destruct (Rf t r Hr) as (D' & E1). destruct (Z8 t D') as (_ & E2). exists (pw (reals z) t). split; [apply PW; split; [exact D'|reflexivity]|].
  eapply Rle_trans; [eapply chain_abs; [exact E2|exact E1]|]. destruct (many_scale V S H MO) as (V0 & H0 & S0 & VS & -> & D2).
  assert (P1 : 1 <= 10 ^ (length (names e) - 1)) by (apply pow_R1_Rle; lra). set (k := 10 ^ (length (names e) - 1)) in *. set (q := bpow radix2 (-42) * V * S / H) in *.
  replace (error_of (length (names e)) V S H) with (q * k) by (unfold error_of, q, k, Rdiv; ring).
  assert (0 <= q) by (pose proof uu_small; assert (0 < uu * V) by (apply Rmult_lt_0_compat; lra); lra). assert (q * 1 <= q * k) by (apply Rmult_le_compat_l; lra). lra.
Qed.

Definition plain (e : expr B64) : Prop :=
  free_of is_temporal (real_formula e) = true /\ free_of is_const (real_formula e) = true /\ free_of (short 1) (real_formula e) = true /\ intervals_made (real_formula e).
Lemma boolean_plain : forall e, boolean e = true -> plain e.
Proof.
  assert (JOIN : forall p l, Forall (fun e => boolean e = true -> plain e) l -> boolean (join p l) = true -> plain (join p l)).
  { intros p l F B. apply boolean_join in B as (N & B). assert (F' : Forall plain l) by (rewrite Forall_forall in *; auto). unfold plain. rewrite real_join. split; [|split; [|split]].
    1-3: apply node_free; [destruct l; [congruence|destruct p; reflexivity]|]; apply Forall_map; eapply Forall_impl; [|exact F']; intros ? K; apply K.
    intros g Hg. assert (K : g = node p (map real_formula l) \/ In g (flat_map subs (map real_formula l))) by (destruct p; destruct Hg as [<-|Hg]; auto).
    destruct K as [->|K]; [destruct p; exact I|]. apply in_flat_map in K as (h & Hh & Hg'). apply in_map_iff in Hh as (e1 & <- & He). rewrite Forall_forall in F'. apply (F' e1 He), Hg'. }
  induction e using expr_rec; cbn [boolean]; intros B; try discriminate.
  - apply literal_temporal. reflexivity.
  - destruct (IHe B) as (A & B' & C & D). split; [exact A|]. split; [exact B'|]. split; [exact C|]. intros f [<-|Hf]; [exact I|]. apply D, Hf.
  - apply (JOIN true l); assumption.
  - apply (JOIN false l); assumption.
Qed.
Lemma boolean_evaluable e : boolean e = true -> in_trace V tr e -> evaluable lt (real_formula e).
Proof.
  intros B IT. destruct (boolean_plain e B) as (A & B' & C & D). repeat (split; [assumption|]). split; [apply literal_consts|].
  intros n Hn. rewrite names_real in Hn. destruct (proj2 IT n Hn) as (x & Hx). exists (reals x). apply in_map_iff. exists (n, x). split; [reflexivity|exact Hx].
Qed.
Lemma begins : same_begin tr -> forall n m x y, has_signal tr n x -> has_signal tr m y -> first_time (reals y) = first_time (reals x).
Proof.
  intros SB n m x1 y1 Hx Hy. pose proof (SB n m x1 y1 Hx Hy) as E. destruct (has_good tr (G3s tr V S H G WH) n x1 Hx) as (_ & Nx). destruct (has_good tr (G3s tr V S H G WH) m y1 Hy) as (_ & Ny).
  destruct (WH n x1 Hx) as (Sx & _). destruct (WH m y1 Hy) as (Sy & _). destruct x1 as [|c x1], y1 as [|d y1]; try congruence. cbn [begin_time] in E.
  symmetry. apply eq_B2R; [apply Sx; left; reflexivity|apply Sy; left; reflexivity|exact E].
Qed.
Lemma tree_temporal p e i z : same_begin tr -> boolean e = true -> in_trace V tr e -> error_of (length (names e)) V S H <= V -> separated dbg fuel tr e -> made_interval i -> compute dbg fuel r0 (tmp p e i) = Ok z ->
    z <> [] /\ forall c, In c z -> exists r, rob lt (real_formula (tmp p e i)) (B2R (s_time c)) r /\ finite (s_value c) = true /\
      Rabs (B2R (s_value c) - r) <= 8 * error_of (length (names e)) V S H /\ (0 < r -> sat lt (real_formula (tmp p e i)) (B2R (s_time c))) /\
      (r < 0 -> ~ sat lt (real_formula (tmp p e i)) (B2R (s_time c))).
Proof.
  intros SB B IT EV SP M Hz. assert (K : exists y, compute dbg fuel r0 e = Ok y).
  { destruct p; cbn [tmp compute] in Hz; destruct (compute dbg fuel r0 e); try discriminate; eauto. }
  destruct K as (y & C). destruct (follows_near e y (boolean_follows e B y IT EV SP C)) as (W & N & F & INS & NEAR). pose proof (boolean_evaluable e B IT) as EE. destruct (boolean_plain e B) as (NT & _).
  assert (X : extreme_exact p (real_formula e) = true). { destruct (real_formula e); cbn [extreme_exact]; rewrite NT; reflexivity. }
  destruct (temporal_near dbg fuel tr U (G3s tr V S H G WH) (begins SB) p e i y _ C W N F INS NEAR EE NT X M) as (z' & Z1 & Z2 & Z3).
  fold r0 in Z1. rewrite Z1 in Hz. injection Hz as <-. auto.
Qed.

(** Late traces. *)
Lemma stage_boolean : forall e, boolean e = true -> forall f, In f (stages e) -> boolean f = true /\ incl (names f) (names e).
Proof.
  assert (JOIN : forall p l, Forall (fun e => boolean e = true -> forall f, In f (stages e) -> boolean f = true /\ incl (names f) (names e)) l -> boolean (join p l) = true -> forall f, In f (stages (join p l)) -> boolean f = true /\ incl (names f) (names (join p l))).
  { intros p l F B f Hf. apply boolean_join in B as (N & B). assert (K : In f (map (join p) (prefixes l)) \/ In f (flat_map stages l)) by (apply in_app_or; destruct p; exact Hf). destruct K as [K|K].
    - apply in_map_iff in K as (q & <- & K). apply in_map_iff in K as (k & <- & K). apply in_seq in K. rewrite !names_join. split.
      + destruct l as [|a l]; [congruence|]. destruct k as [|k]; [lia|]. cbn [firstn]. assert (boolean a = true /\ forallb boolean (firstn k l) = true) as (B1 & B2).
        { split; [apply B; left; reflexivity|]. apply forallb_forall. intros e He. apply B. right. rewrite <- (firstn_skipn k l). apply in_or_app. left. exact He. }
        destruct p; cbn [join boolean]; rewrite B1, B2; reflexivity.
      + intros n Hn. apply in_flat_map in Hn as (e & He & Hn). apply in_flat_map. exists e. split; [|exact Hn]. rewrite <- (firstn_skipn k l). apply in_or_app. left. exact He.
    - apply in_flat_map in K as (e & He & Hf'). rewrite Forall_forall in F. destruct (F e He (B e He) f Hf') as (A1 & A2). split; [exact A1|]. intros n Hn. rewrite names_join. apply in_flat_map. exists e. auto. }
  induction e using expr_rec; intros B f Hf; try discriminate.
  - destruct Hf as [<-|[]]. split; [reflexivity|apply incl_refl].
  - destruct Hf as [<-|Hf]; [split; [exact B|apply incl_refl]|apply IHe; assumption].
  - apply (JOIN true l); assumption.
  - apply (JOIN false l); assumption.
Qed.
Lemma late_separated e : boolean e = true -> in_trace V tr e -> late_trace tr -> separated dbg fuel tr e.
Proof.
  intros B IT LT f y s Hf Hy. destruct (stage_boolean e B f Hf) as (Bf & Nf). pose proof (boolean_names f Bf) as K. destruct (names f) as [|n l] eqn:En; [cbn in K; lia|]. clear K.
  destruct (proj2 IT n) as (x & Hx); [apply Nf; left; reflexivity|].
  destruct (C90_lemma dbg fuel f tr s y G U Hy n x) as (B1 & B2 & _); [rewrite En; left; reflexivity|exact Hx|].
  destruct (has_good tr (G3s tr V S H G WH) n x Hx) as (Wx & Nx). destruct (WH n x Hx) as (Sx & _). pose proof (sized_finite _ _ _ Sx) as Fx.
  destruct (begin_first x Nx Fx) as (Fb & _). destruct (end_final x Nx Fx) as (Fe & _).
  assert (Wy : wf y). { pose proof (good_compute b64_win b64_hv dbg fuel tr f G) as GC. unfold compute_robustness in Hy. destruct (GC y Hy) as (Wy & _). exact Wy. }
  assert (K : forall c, In c y -> finite (s_time c) = true /\ tau <= B2R (s_time c)).
  { intros c Hc. destruct (in_bounds y c Wy Hc) as (C1 & C2). assert (D1 : nleb (begin_time x) (s_time c) = true) by num. assert (D2 : nleb (s_time c) (end_time x) = true) by num.
    assert (Fc : finite (s_time c) = true) by (eapply (between_finite (begin_time x) _ (end_time x)); assumption). split; [exact Fc|]. apply le_B2R in D1; [|assumption|assumption]. eapply Rle_trans; [|exact D1].
    destruct (begin_in x Nx) as (a & Ha & <-). exact (LT n x a Hx Ha). }
  intros y1 a b y2 E. assert (Ha : In a y) by (rewrite E; apply in_or_app; right; left; reflexivity). assert (Hb : In b y) by (rewrite E; apply in_or_app; right; right; left; reflexivity).
  destruct (K a Ha) as (Fa & Ta). destruct (K b Hb) as (Fb' & Tb). apply (double_gap _ _ Ta). apply lt_B2R; [exact Fa|exact Fb'|]. destruct Wy as (_ & I & _). rewrite E in I. eapply later; [exact I|left; reflexivity].
Qed.
End T.

Lemma C122_separated_lemma dbg fuel (tr : trace B64) phi V S H : spread_trace V S H tr -> late_trace tr -> boolean phi = true -> in_trace V tr phi -> separated dbg fuel tr phi.
Proof. intros (U & G & WH) LT B IT. apply (late_separated dbg fuel tr V S H); assumption. Qed.
Lemma C122_boolean_lemma dbg fuel (tr : trace B64) s phi V S H z : spread_trace V S H tr -> moderate V S H -> boolean phi = true -> in_trace V tr phi ->
  error_of (length (names phi)) V S H <= V -> separated dbg fuel tr phi -> compute_robustness dbg fuel phi tr s = Ok z ->
  forall t r, rob (real_trace tr) (real_formula phi) t r -> exists v, pwl (reals z) t v /\ Rabs (v - r) <= 8 * error_of (length (names phi)) V S H.
Proof.
  intros (U & G & WH) MO B IT EV SP Hz. apply (follows_near tr V S H MO U G WH phi z). apply (boolean_follows dbg fuel tr V S H MO U G WH); assumption.
Qed.
Lemma C122_temporal_lemma dbg fuel (tr : trace B64) s outer phi i V S H z : spread_trace V S H tr -> same_begin tr -> moderate V S H ->
  outer = EAlways \/ outer = EEventually -> boolean phi = true -> in_trace V tr phi -> error_of (length (names phi)) V S H <= V -> separated dbg fuel tr phi -> made_interval i ->
  compute_robustness dbg fuel (outer phi i) tr s = Ok z ->
  z <> [] /\ forall c, In c z -> exists r, rob (real_trace tr) (real_formula (outer phi i)) (B2R (s_time c)) r /\ finite (s_value c) = true /\
      Rabs (B2R (s_value c) - r) <= 8 * error_of (length (names phi)) V S H /\
      (8 * error_of (length (names phi)) V S H < B2R (s_value c) -> sat (real_trace tr) (real_formula (outer phi i)) (B2R (s_time c))) /\
      (B2R (s_value c) < - (8 * error_of (length (names phi)) V S H) -> ~ sat (real_trace tr) (real_formula (outer phi i)) (B2R (s_time c))).
Proof.
  intros (U & G & WH) SB MO Ho B IT EV SP M Hz. apply is_tmp in Ho as (p & Ho). rewrite Ho in *.
  destruct (tree_temporal dbg fuel tr V S H MO U G WH p phi i z SB B IT EV SP M Hz) as (N & K). split; [exact N|]. intros c Hc. destruct (K c Hc) as (r & R1 & R2 & R3 & R4 & R5).
  exists r. split; [exact R1|]. split; [exact R2|]. split; [exact R3|]. exact (near_sign _ _ _ _ _ R3 R4 R5).
Qed.
