(** And and Or of operands in general position return (C121). *)
From Coq Require Import Reals Lra Lia.
From Flocq Require Import Core.Core IEEE754.BinarySingleNaN.
From Verif Require Import Base Num NumXR NumB64.
From Verif.Model Require Import Signal MinMax Ast Robustness.
From Verif.Spec Require Import SignalSpec Pwl Formula Semantics Quantitative Rounding Accuracy Uniform Whole Apart Spaced Many General.
From Verif.Proofs Require Import NumFacts SignalFacts PwlFacts RobFacts RobWf B64Facts SeqFacts MinMaxProps InterpError CrossingError SyncError Rounding ChainFacts LayerFacts RobExact QuantFacts PairBound UniformFacts PerturbFacts WholeFacts DualB64 JoinFormula PairError SpacedFormula SlopeError ManyError ManyFormula GeneralFacts.
Local Open Scope R_scope.

Lemma C121_list_lemma dbg (xs : list (signal B64)) V S H : xs <> [] -> Forall (fun x => wf x /\ x <> [] /\ sized V S x /\ spaced H x) xs ->
  (forall x y, In x xs -> In y xs -> Forall2 (fun a b => neqb (s_time a) (s_time b) = true) x y) -> moderate V S H -> error_of (length xs) V S H <= V ->
  general (error_of (length xs) V S H) xs ->
  (exists z, elementwise_min_list dbg false xs = Ok z) /\ (exists z, elementwise_max_list dbg false xs = Ok z).
Proof.
  intros N F T MO EV GP. destruct (moderate_parts V S H 1 MO ltac:(lra)) as (M1 & M2 & M3 & M4 & M5). rewrite Rmult_1_l in M1, M2. pose proof lo_hi as (L0 & _).
  pose proof (unit_is V S H 1 ltac:(lra)) as EU. rewrite !Rmult_1_l in EU. destruct xs as [|x xs]; [congruence|]. cbn [length] in *.
  assert (EE : error_of (Datatypes.S (length xs)) V S H = unit_error V S H * 10 ^ length xs).
  { unfold error_of. rewrite EU. replace (Datatypes.S (length xs) - 1)%nat with (length xs) by lia. unfold Rdiv. ring. }
  rewrite EE in *. inversion F as [|? ? (Wx & Nx & Sx & Px) F']; subst.
  assert (MEM : Forall (member V S H x) xs).
  { rewrite Forall_forall in F' |- *. intros y Hy. destruct (F' y Hy) as (Wy & Ny & Sy & Py). repeat (split; [assumption|]). apply T; [left; reflexivity|right; exact Hy]. }
  split; [exact (list_general V S H M1 M2 M3 M4 M5 dbg true x xs Wx Nx Sx Px MEM EV GP)|exact (list_general V S H M1 M2 M3 M4 M5 dbg false x xs Wx Nx Sx Px MEM EV GP)].
Qed.

Lemma compute_list_runs (f : expr B64 -> outcome (signal B64)) l ys : Forall2 (fun e y => f e = Ok y) l ys -> compute_list f l = Ok ys.
Proof.
  induction 1 as [|e y l ys E _ IH]; [reflexivity|]. change (compute_list f (e :: l)) with (y <- f e ;; ys <- compute_list f l ;; Ok (y :: ys)). rewrite E, IH. reflexivity.
Qed.
Lemma Forall2_at {A B} (P : A -> B -> Prop) l ys : Forall2 P l ys -> forall i y, nth_error ys i = Some y -> exists a, nth_error l i = Some a /\ P a y.
Proof.
  induction 1 as [|a y l ys E _ IH]; intros [|i] y0; cbn; intros K; try discriminate; [injection K as <-; eauto|apply IH, K].
Qed.
Lemma same_trans (x u w : signal B64) : same x u -> same x w -> same u w.
Proof. intros A B. unfold same in *. revert w B. induction A as [|c d x u E A IH]; intros w B; inversion B; subst; constructor; [clear - E H1; num_hyps; num|apply IH; assumption]. Qed.

Section T.
Variables (dbg : bool) (fuel : nat) (tr : trace B64) (V S H : R).
Hypothesis MO : moderate V S H.
Hypothesis U : keys_unique tr.
Hypothesis G : Forall (fun e => wf (snd e) /\ snd e <> []) tr.
Hypothesis WH : forall n x, has_signal tr n x -> sized V S x /\ spaced H x.
Hypothesis TO : forall n m x y, has_signal tr n x -> has_signal tr m y -> same x y.
Let lt := real_trace tr.
Let r0 := mkRob (trace_begin tr) (trace_end tr) tr.
Let OR := moderate_ordinary V S H MO.
Variables (n0 : string) (x0 : signal B64).
Hypothesis B0 : has_signal tr n0 x0.

Lemma chains_members l : Forall (fun a => chain a = true /\ intervals_made a /\ in_trace V tr a) l ->
  exists ys, Forall2 (fun e y => runs dbg fuel tr e y) l ys /\ Forall (member (4 * V) S H x0) ys.
Proof.
  induction 1 as [|a l (C & I & W) _ (ys & IH1 & IH2)]; [exists []; auto|].
  destruct (chain_member dbg fuel tr V S H MO U G WH TO n0 x0 B0 a C I W) as (y & R & M). exists (y :: ys). auto.
Qed.

Lemma many_return p l ys : l <> [] -> Forall2 (fun e y => runs dbg fuel tr e y) l ys -> Forall (member (4 * V) S H x0) ys -> error_of (length l) V S H <= V ->
  general (4 * error_of (length l) V S H) ys -> exists z, compute dbg fuel r0 (join p l) = Ok z.
Proof.
  intros N FY MEM EV GP. assert (LE : length l = length ys) by (clear - FY; induction FY; cbn; congruence).
  assert (J : compute dbg fuel r0 (join p l) = minmax_list dbg (comp_of p) false ys).
  { apply compute_list_runs in FY. unfold r0. destruct p; cbn [join compute]; rewrite FY; reflexivity. }
  rewrite J. clear J FY. rewrite LE in *. destruct ys as [|y ys]; [destruct l; [congruence|discriminate]|].
  inversion MEM as [|? ? (Wy & Ny & Sy & Py & Ty) MEM']; subst.
  destruct (moderate_parts V S H 4 MO ltac:(lra)) as (M1 & M2 & M3 & M4 & M5). destruct (many_scale V S H MO) as (V0 & H0 & S0 & _ & EU & _).
  assert (MEMy : Forall (member (4 * V) S H y) ys).
  { eapply Forall_impl; [|exact MEM']. intros w (A1 & A2 & A3 & A4 & A5). repeat (split; [assumption|]). apply (same_trans x0); assumption. }
  assert (EE : unit_error (4 * V) S H * 10 ^ length ys = 4 * error_of (length (y :: ys)) V S H).
  { rewrite EU. unfold error_of. cbn [length]. replace (Datatypes.S (length ys) - 1)%nat with (length ys) by lia. unfold Rdiv. ring. }
  apply (list_general (4 * V) S H M1 M2 M3 M4 M5 dbg p y ys Wy Ny Sy Py MEMy); rewrite EE; [lra|exact GP].
Qed.

(** The samples computed for predicates lie close to their exact robustness. *)
Lemma literal_defined e y t u : literal e = true -> in_trace V tr e -> runs dbg fuel tr e y -> member (4 * V) S H x0 y -> pwl (reals y) t u ->
  exists v, rob lt (real_formula e) t v /\ Rabs (u - v) <= 4 * uu * V.
Proof.
  intros L W R M Pu. destruct (literal_affine tr e L) as (n & s & o & N & _ & _ & K).
  destruct (proj2 W n ltac:(rewrite N; left; reflexivity)) as (x & Hx). destruct (has_good tr (G3s tr V S H G WH) n x Hx) as (Wx & Nx).
  destruct (ends_agree x0 x) as (E1 & E2); [eapply has_finite; [exact (G3s tr V S H G WH)|exact B0]|eapply has_finite; [exact (G3s tr V S H G WH)|exact Hx]|eapply TO; eauto|].
  pose proof M as (Wy & Ny & Sy & Py & Ty). apply pwl_pw in Pu as (D & Eu); [|apply reals_rincr; [exact Wy|eapply sized_finite; eauto]|destruct y; [congruence|discriminate]].
  destruct (base_parts tr V S H MO G WH n0 x0 B0) as (_ & _ & Sx & _). destruct (same_ends (4 * V) S x0 y Sx Sy Ty) as (F1 & F2).
  exists (s * pw (reals x) t + o). assert (RB : rob lt (real_formula e) t (s * pw (reals x) t + o)).
  { apply K. exists (pw (reals x) t). split; [|reflexivity]. apply (values_of tr U n x Hx).
    apply pwl_pw; [apply reals_rincr; [exact Wx|eapply sized_finite, WH; eauto]|destruct x; [congruence|discriminate]|]. split; [lra|reflexivity]. }
  split; [exact RB|]. destruct (member_near dbg fuel tr V S H MO U G WH n0 x0 B0 e y L W R M t _ RB) as (_ & Q). rewrite Eu. exact Q.
Qed.

Lemma close_bridge l ys d i j t : Forall (fun a => literal a = true /\ in_trace V tr a) l -> Forall2 (fun e y => runs dbg fuel tr e y) l ys -> Forall (member (4 * V) S H x0) ys ->
  close_at d ys i j t -> close_formulas (d + 2 * (4 * uu * V)) tr l i j t.
Proof.
  intros F FY MEM (x & y & u & v & Hx & Hy & Pu & Pv & D). rewrite Forall_forall in F, MEM.
  destruct (Forall2_at _ _ _ FY i x Hx) as (a & Ha & Ra). destruct (Forall2_at _ _ _ FY j y Hy) as (b & Hb & Rb).
  destruct (F a (nth_error_In _ _ Ha)) as (La & Wa). destruct (F b (nth_error_In _ _ Hb)) as (Lb & Wb).
  destruct (literal_defined a x t u La Wa Ra (MEM x (nth_error_In _ _ Hx)) Pu) as (u' & Ru & Du).
  destruct (literal_defined b y t v Lb Wb Rb (MEM y (nth_error_In _ _ Hy)) Pv) as (v' & Rv & Dv).
  exists a, b, u', v'. repeat (split; [assumption|]). clear - D Du Dv. revert D Du Dv. unfold Rabs. repeat destruct Rcase_abs; lra.
Qed.

Lemma general_bridge l ys : l <> [] -> Forall (fun a => literal a = true /\ in_trace V tr a) l -> Forall2 (fun e y => runs dbg fuel tr e y) l ys -> Forall (member (4 * V) S H x0) ys ->
  general_formulas (8 * error_of (length l) V S H) tr l -> general (4 * error_of (length l) V S H) ys.
Proof.
  intros N F FY MEM (G1 & G2). set (E := error_of (length l) V S H) in *.
  assert (W : forall i j t, close_at (4 * E) ys i j t -> close_formulas (8 * E) tr l i j t).
  { intros i j t K. apply (close_bridge l ys _ i j t F FY MEM) in K. destruct K as (a & b & u & v & A & B & C & D & Q). exists a, b, u, v. repeat (split; [assumption|]).
    eapply Rlt_le_trans; [exact Q|]. destruct (many_scale V S H MO) as (V0 & H0 & S0 & VS & _ & D2). unfold E, error_of.
    assert (P1 : 1 <= 10 ^ (length l - 1)) by (apply pow_R1_Rle; lra). set (k := 10 ^ (length l - 1)) in *. set (q := bpow radix2 (-42) * V * S / H) in *.
    replace (bpow radix2 (-42) * k * V * S / H) with (q * k) by (unfold q, Rdiv; ring).
    assert (0 <= q) by (pose proof uu_small; assert (0 < uu * V) by (apply Rmult_lt_0_compat; lra); lra). assert (q * 1 <= q * k) by (apply Rmult_le_compat_l; lra). lra. }
  split.
  - intros i j x a ij Hx Ha K. apply W in K. rewrite Forall_forall in MEM. destruct (MEM x Hx) as (Wx & Nx & Sx & _ & Tx).
    destruct (base_parts tr V S H MO G WH n0 x0 B0) as (_ & _ & S0 & _).
    assert (exists b, In b x0 /\ B2R (s_time a) = B2R (s_time b)) as (b & Hb & Eb).
    { clear - Tx Sx S0 Ha. unfold same in Tx. destruct Sx as (Fx & _), S0 as (F0 & _). revert Fx F0 Ha.
      induction Tx as [|c d x0 x E T IH]; intros Fx F0 Ha; [destruct Ha|]. destruct Ha as [<-|Ha].
      - exists c. split; [left; reflexivity|]. symmetry. apply eq_B2R; [apply F0; left; reflexivity|apply Fx; left; reflexivity|exact E].
      - destruct IH as (b & Hb & Eb); auto; [intros q Hq; apply Fx; right; exact Hq|intros q Hq; apply F0; right; exact Hq|]. exists b. split; [right; exact Hb|exact Eb]. }
    rewrite Eb in K. exact (G1 i j n0 x0 b ij B0 Hb K).
  - intros i j k m t ij km NE A B. exact (G2 i j k m t ij km NE (W _ _ _ A) (W _ _ _ B)).
Qed.

Lemma literals_return p l : l <> [] -> Forall (fun a => literal a = true /\ in_trace V tr a) l -> error_of (length l) V S H <= V ->
  general_formulas (8 * error_of (length l) V S H) tr l -> exists z, compute dbg fuel r0 (join p l) = Ok z.
Proof.
  intros N F EV GP. destruct (chains_members l) as (ys & FY & MEM).
  { eapply Forall_impl; [|exact F]. intros a (L & W). split; [apply literal_chain, L|]. split; [apply literal_intervals, L|exact W]. }
  apply (many_return p l ys N FY MEM EV). eapply general_bridge; eassumption.
Qed.
End T.

Lemma literals_ladder p V tr l : l <> [] -> Forall (fun a => literal a = true /\ in_trace V tr a) l -> ladder (join p l) = true /\ in_trace V tr (join p l) /\ length (names (join p l)) = length l.
Proof.
  intros N F. assert (NJ : names (join p l) = flat_map names l) by (destruct p; reflexivity). assert (FL : forallb literal l = true) by (apply forallb_forall; rewrite Forall_forall in F; intros a Ha; apply F, Ha).
  split; [|split].
  - destruct l as [|a l]; [congruence|]. cbn [forallb] in FL. apply andb_prop in FL as (L1 & L2). destruct p; cbn [join ladder]; rewrite L2, andb_true_r.
    all: clear - L1; induction a using expr_rec; cbn [literal ladder] in *; try discriminate; auto.
  - rewrite Forall_forall in F. split.
    + intros e He. assert (K : e = join p l \/ exists a, In a l /\ In e (subs a)).
      { destruct p; cbn [join subs] in He; (destruct He as [<-|He]; [left; reflexivity|right; apply in_flat_map in He; exact He]). }
      destruct K as [-> |(a & Ha & Hs)]; [destruct p; exact I|]. exact (proj1 (proj2 (F a Ha)) e Hs).
    + intros n Hn. rewrite NJ in Hn. apply in_flat_map in Hn as (a & Ha & Hn). exact (proj2 (proj2 (F a Ha)) n Hn).
  - rewrite NJ. apply (literals_names tr), FL.
Qed.

Lemma C121_chains_lemma dbg fuel (tr : trace B64) s op l V S H : spaced_trace V S H tr -> moderate V S H -> op = EAnd \/ op = EOr -> l <> [] ->
  Forall (fun a => chain a = true /\ intervals_made a /\ in_trace V tr a) l -> error_of (length l) V S H <= V ->
  exists xs, Forall2 (fun a x => compute_robustness dbg fuel a tr s = Ok x) l xs /\
    (general (4 * error_of (length l) V S H) xs -> exists z, compute_robustness dbg fuel (op l) tr s = Ok z).
Proof.
  intros (U & G & WH & TO) MO Hop N F EV. apply is_join in Hop as (p & Hp & _). rewrite Hp.
  assert (exists n x0, has_signal tr n x0) as (n & x0 & B0).
  { destruct l as [|a l]; [congruence|]. inversion F as [|? ? (Ca & Ia & Wa) _]; subst.
    destruct (chain_spaced dbg fuel tr V S H (moderate_ordinary V S H MO) U G WH a Ca Ia Wa) as (n & x0 & _ & _ & B0 & _). eauto. }
  destruct (chains_members dbg fuel tr V S H MO U G WH TO n x0 B0 l F) as (ys & FY & MEM). exists ys. split; [exact FY|]. intros GP.
  exact (many_return dbg fuel tr V S H MO x0 p l ys N FY MEM EV GP).
Qed.

Lemma C121_boolean_lemma dbg fuel (tr : trace B64) s op l V S H : spaced_trace V S H tr -> moderate V S H -> op = EAnd \/ op = EOr -> l <> [] ->
  Forall (fun a => literal a = true /\ in_trace V tr a) l -> error_of (length l) V S H <= V -> general_formulas (8 * error_of (length l) V S H) tr l ->
  exists z, compute_robustness dbg fuel (op l) tr s = Ok z /\
    forall t r, rob (real_trace tr) (real_formula (op l)) t r -> exists v, pwl (reals z) t v /\ Rabs (v - r) <= 8 * error_of (length l) V S H.
Proof.
  intros SP MO Hop N F EV GP. apply is_join in Hop as (p & Hp & _). rewrite Hp. destruct (literals_ladder p V tr l N F) as (L & IT & LN).
  destruct (ladder_base V tr _ L IT) as (n & x & B0). pose proof SP as (U & G & WH & TO).
  destruct (literals_return dbg fuel tr V S H MO U G WH TO n x B0 p l N F EV GP) as (z & Hz). exists z. split; [exact Hz|].
  rewrite <- LN in *. exact (C120_boolean_lemma dbg fuel tr s (join p l) V S H z SP MO L IT EV Hz).
Qed.
Lemma C121_temporal_lemma dbg fuel (tr : trace B64) s outer op l i V S H : spaced_trace V S H tr -> moderate V S H ->
  outer = EAlways \/ outer = EEventually -> op = EAnd \/ op = EOr -> l <> [] ->
  Forall (fun a => literal a = true /\ in_trace V tr a) l -> error_of (length l) V S H <= V -> general_formulas (8 * error_of (length l) V S H) tr l -> made_interval i ->
  exists z, compute_robustness dbg fuel (outer (op l) i) tr s = Ok z /\ z <> [] /\
    forall c, In c z -> exists r, rob (real_trace tr) (real_formula (outer (op l) i)) (B2R (s_time c)) r /\ finite (s_value c) = true /\
      Rabs (B2R (s_value c) - r) <= 8 * error_of (length l) V S H /\
      (8 * error_of (length l) V S H < B2R (s_value c) -> sat (real_trace tr) (real_formula (outer (op l) i)) (B2R (s_time c))) /\
      (B2R (s_value c) < - (8 * error_of (length l) V S H) -> ~ sat (real_trace tr) (real_formula (outer (op l) i)) (B2R (s_time c))).
Proof.
  intros SP MO Ho Hop N F EV GP MI. pose proof Ho as Ho'. apply is_join in Hop as (p & Hp & _). rewrite Hp in *. destruct (literals_ladder p V tr l N F) as (L & IT & LN).
  destruct (ladder_base V tr _ L IT) as (n & x & B0). pose proof SP as (U & G & WH & TO).
  destruct (literals_return dbg fuel tr V S H MO U G WH TO n x B0 p l N F EV GP) as (y & C).
  rewrite <- LN in *. destruct (tracks_near tr V S H MO x _ y (ladder_tracks dbg fuel tr V S H MO U G WH TO n x B0 _ L y IT EV C)) as (W & Ny & Fy & _).
  assert (exists z, compute_robustness dbg fuel (outer (join p l) i) tr s = Ok z) as (z & Hz).
  { apply is_tmp in Ho' as (q & Hq). rewrite Hq. unfold compute_robustness. assert (FT : ftime y) by (eapply Forall_impl; [|exact Fy]; intros c (K & _); exact K).
    exists (sig_of (rollp (comp_of q) y)). rewrite <- (minmax_seq_roll (comp_of q) y W Ny).
    destruct q; cbn [tmp compute]; rewrite C; cbn [bind]; [apply (temporal_seq fuel sample_le i y (conj W Ny) FT MI)|apply (temporal_seq fuel sample_ge i y (conj W Ny) FT MI)]. }
  exists z. split; [exact Hz|]. exact (C120_temporal_lemma dbg fuel tr s outer (join p l) i V S H z SP MO Ho L IT EV MI Hz).
Qed.
