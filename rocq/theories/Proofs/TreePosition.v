(** Formulas of predicates in general position under Not, And and Or return (C123). *)
From Coq Require Import Reals Lra Lia.
From Flocq Require Import Core.Core IEEE754.BinarySingleNaN.
From Verif Require Import Base Num NumXR NumB64.
From Verif.Model Require Import Signal MinMax Ast Robustness.
From Verif.Spec Require Import SignalSpec Pwl Formula Semantics Quantitative Rounding Accuracy Uniform Whole Apart Spaced Many General Tree.
From Verif.Proofs Require Import NumFacts SignalFacts PwlFacts RobFacts RobWf B64Facts SeqFacts MinMaxProps InterpError CrossingError SyncError Rounding ChainFacts LayerFacts RobExact QuantFacts PairBound UniformFacts PerturbFacts WholeFacts DualB64 JoinFormula PairError SpacedFormula SlopeError ManyError ManyFormula GeneralFormula TreeError TreeFormula TreeGeneral.
Local Open Scope R_scope.

Lemma leaves_join neg p l : signed_predicates neg (join p l) = flat_map (signed_predicates neg) l.
Proof. destruct p; reflexivity. Qed.
Lemma leaves_length : forall e, boolean e = true -> forall neg, length (signed_predicates neg e) = length (names e).
Proof.
  assert (J : forall p l, Forall (fun e => boolean e = true -> forall neg, length (signed_predicates neg e) = length (names e)) l -> boolean (join p l) = true -> forall neg, length (signed_predicates neg (join p l)) = length (names (join p l))).
  { intros p l F B neg. apply boolean_join in B as (_ & B). rewrite leaves_join, names_join. rewrite Forall_forall in F. induction l as [|a l IH]; [reflexivity|]. cbn [flat_map]. rewrite !app_length.
    rewrite (F a (or_introl eq_refl) (B a (or_introl eq_refl))), IH; [reflexivity|intros; apply F; [right|]; assumption|intros; apply B; right; assumption]. }
  induction e using expr_rec; intros B neg; try discriminate; [destruct neg; reflexivity|exact (IHe B (negb neg))|apply (J true), B; assumption|apply (J false), B; assumption].
Qed.
Lemma in_times (x y : signal B64) c : times y = times x -> In c y -> exists a, In a x /\ B2R (s_time c) = B2R (s_time a).
Proof.
  intros T Hc. assert (K : In (s_time c) (times x)) by (rewrite <- T; apply in_map, Hc). apply in_map_iff in K as (a & E & Ha). exists a. split; [exact Ha|]. rewrite E. reflexivity.
Qed.

Section T.
Variables (dbg : bool) (fuel : nat) (tr : trace B64) (V S H : R).
Hypothesis MO : moderate V S H.
Hypothesis U : keys_unique tr.
Hypothesis G : Forall (fun e => wf (snd e) /\ snd e <> []) tr.
Hypothesis WH : forall n x, has_signal tr n x -> sized V S x /\ spaced H x.
Hypothesis SB : same_begin tr.
Let lt := real_trace tr.
Let r0 := mkRob (trace_begin tr) (trace_end tr) tr.
Let OR := moderate_ordinary V S H MO.
Let unit := unit_error (4 * V) S H.

Lemma leaves_in : forall e, boolean e = true -> in_trace V tr e -> forall neg a, In a (signed_predicates neg e) -> exists n o c, (a = EPred n o c \/ a = ENot (EPred n o c)) /\ in_trace V tr (EPred n o c).
Proof.
  assert (J : forall p l, Forall (fun e => boolean e = true -> in_trace V tr e -> forall neg a, In a (signed_predicates neg e) -> exists n o c, (a = EPred n o c \/ a = ENot (EPred n o c)) /\ in_trace V tr (EPred n o c)) l ->
    boolean (join p l) = true -> in_trace V tr (join p l) -> forall neg a, In a (signed_predicates neg (join p l)) -> exists n o c, (a = EPred n o c \/ a = ENot (EPred n o c)) /\ in_trace V tr (EPred n o c)).
  { intros p l F B IT neg a Ha. apply boolean_join in B as (_ & B). rewrite leaves_join in Ha. apply in_flat_map in Ha as (e & He & Ha). rewrite Forall_forall in F. apply (F e He (B e He)) with (neg := neg); [|exact Ha].
    apply (in_trace_join tr V p l); assumption. }
  induction e using expr_rec; intros B IT neg a Ha; try discriminate.
  - exists n, o, c. split; [|exact IT]. destruct neg, Ha as [<-|[]]; auto.
  - apply (IHe B) with (neg := negb neg); [|exact Ha]. destruct IT as (A & B'). split; [|exact B']. intros g Hg. apply A. right. exact Hg.
  - exact (J true l H0 B IT neg a Ha).
  - exact (J false l H0 B IT neg a Ha).
Qed.

(** The value of the signal computed for a predicate, and of the negated one. *)
Definition sig (e : expr B64) : list (R * R) := match compute dbg fuel r0 e with Ok y => reals y | _ => [] end.
Definition leaf_value (e : expr B64) (t : R) : R := match e with ENot p => - pw (sig p) t | _ => pw (sig e) t end.
Definition present (e : expr B64) (t : R) : Prop := forall n, In n (names e) -> exists x, has_signal tr n x /\ first_time (reals x) <= t <= final_time (reals x).

Lemma leaf_exact a n o c t : a = EPred n o c \/ a = ENot (EPred n o c) -> in_trace V tr (EPred n o c) -> present a t ->
  exists v, rob lt (real_formula a) t v /\ Rabs (leaf_value a t - v) <= 4 * uu * V.
Proof.
  intros Ea IT P. assert (Lt : literal (EPred n o c) = true) by reflexivity. destruct (chain_spaced dbg fuel tr V S H OR U G WH _ (literal_chain _ Lt) (literal_intervals _ Lt) IT) as (n' & x & y & N & Hx & R & Wy & Ny & T & Sy & Py & _).
  assert (K : exists v, rob lt (real_formula (EPred n o c)) t v /\ Rabs (pw (sig (EPred n o c)) t - v) <= 4 * uu * V).
  { destruct (literal_affine tr _ Lt) as (n2 & s & k & N2 & _ & _ & K). assert (Pn : In n2 (names a)) by (destruct Ea as [-> | ->]; cbn [names]; injection N2 as <-; left; reflexivity).
    destruct (P n2 Pn) as (x2 & Hx2 & D). destruct (has_good tr (G3s tr V S H G WH) n2 x2 Hx2) as (Wx & Nx).
    assert (RB : rob lt (real_formula (EPred n o c)) t (s * pw (reals x2) t + k)).
    { apply K. exists (pw (reals x2) t). split; [|reflexivity]. apply (values_of tr U n2 x2 Hx2).
      apply pwl_pw; [apply reals_rincr; [exact Wx|eapply sized_finite, WH; eauto]|destruct x2; [congruence|discriminate]|]. split; [exact D|reflexivity]. }
    exists (s * pw (reals x2) t + k). split; [exact RB|]. destruct (literal_near dbg fuel tr V S H OR U G WH _ y Lt IT R t _ RB) as (u & Pu & Eu).
    apply pwl_pw in Pu as (_ & ->); [|apply reals_rincr; [exact Wy|eapply sized_finite; eauto]|destruct y; [congruence|discriminate]]. unfold sig. unfold runs in R. fold r0 in R. rewrite R. exact Eu. }
  destruct K as (v & Hv & Ev). destruct Ea as [-> | ->]; cbn [leaf_value]; [exists v; auto|]. exists (- v). split.
  - cbn [real_formula rob]. rewrite Ropp_involutive. exact Hv.
  - replace (- pw (sig (EPred n o c)) t - - v) with (- (pw (sig (EPred n o c)) t - v)) by ring. rewrite Rabs_Ropp. exact Ev.
Qed.

Variable phi : expr B64.
Hypothesis BP : boolean phi = true.
Hypothesis IP : in_trace V tr phi.
Let ls := signed_predicates false phi.
Let E := error_of (length (names phi)) V S H.
Hypothesis EV : E <= V.
Hypothesis GP : general_formulas (8 * E) tr ls.
Let N := length (names phi).
Let d := 4 * E.

Definition leaf (i : nat) (t : R) : R := match nth_error ls i with Some a => leaf_value a t | None => 0 end.
Definition defd (i : nat) (t : R) : Prop := exists a, nth_error ls i = Some a /\ present a t.
Definition stamp (t : R) : Prop := exists n x a, has_signal tr n x /\ In a x /\ t = B2R (s_time a).

Lemma leaf_close i j t : defd i t -> defd j t -> Rabs (leaf i t - leaf j t) < d -> close_formulas (8 * E) tr ls i j t.
Proof.
  intros (a & Ha & Pa) (b & Hb & Pb) D. unfold leaf in D. rewrite Ha, Hb in D.
  destruct (leaves_in phi BP IP false a (nth_error_In _ _ Ha)) as (n & o & c & Ea & Ia). destruct (leaves_in phi BP IP false b (nth_error_In _ _ Hb)) as (n' & o' & c' & Eb & Ib).
  destruct (leaf_exact a n o c t Ea Ia Pa) as (u & Hu & Du). destruct (leaf_exact b n' o' c' t Eb Ib Pb) as (v & Hv & Dv). exists a, b, u, v. repeat (split; [assumption|]).
  destruct (many_scale V S H MO) as (V0 & H0 & S0 & VS & _ & D2). unfold d in D.
  assert (LE : 2 * (4 * uu * V) <= 4 * E).
  { unfold E, error_of. assert (P1 : 1 <= 10 ^ (length (names phi) - 1)) by (apply pow_R1_Rle; lra). set (k := 10 ^ (length (names phi) - 1)) in *. set (q := bpow radix2 (-42) * V * S / H) in *.
    replace (bpow radix2 (-42) * k * V * S / H) with (q * k) by (unfold q, Rdiv; ring).
    assert (0 <= q) by (pose proof uu_small; assert (0 < uu * V) by (apply Rmult_lt_0_compat; lra); lra). assert (q * 1 <= q * k) by (apply Rmult_le_compat_l; lra). lra. }
  clear - D Du Dv LE. revert D Du Dv. unfold Rabs. repeat destruct Rcase_abs; lra.
Qed.
Lemma leaf_GP1 i j t : (i < j < N)%nat -> stamp t -> defd i t -> defd j t -> d <= Rabs (leaf i t - leaf j t).
Proof.
  intros L (n & x & a & Hx & Ha & ->) Di Dj. destruct (Rle_or_lt d (Rabs (leaf i (B2R (s_time a)) - leaf j (B2R (s_time a))))) as [C|C]; [exact C|exfalso].
  exact (proj1 GP i j n x a (proj1 L) Hx Ha (leaf_close i j _ Di Dj C)).
Qed.
Lemma leaf_GP2 i j k l t : (i < j < N)%nat -> (k < l < N)%nat -> (i, j) <> (k, l) -> defd i t -> defd j t -> defd k t -> defd l t -> Rabs (leaf i t - leaf j t) < d -> d <= Rabs (leaf k t - leaf l t).
Proof.
  intros L1 L2 NE Di Dj Dk Dl C. destruct (Rle_or_lt d (Rabs (leaf k t - leaf l t))) as [C'|C']; [exact C'|exfalso].
  exact (proj2 GP i j k l t (proj1 L1) (proj1 L2) NE (leaf_close i j t Di Dj C) (leaf_close k l t Dk Dl C')).
Qed.

(** Sample times apart, and leaves of bounded slope. *)
Lemma apart_input : times_apart tr -> input_apart (4 * V) H leaf defd stamp.
Proof.
  intros TA. split.
  - intros t u (n & x & a & Hx & Ha & ->) (m & y & b & Hy & Hb & ->) Ltu. exact (TA n m x y a b Hx Hy Ha Hb Ltu).
  - assert (K : forall i t u, t <= u -> defd i t -> defd i u -> Rabs (leaf i u - leaf i t) <= ManyError.L (4 * V) H * (u - t)).
    { intros i t u Ltu (a & Ha & Pt) (a' & Ha' & Pu). rewrite Ha in Ha'. injection Ha' as <-. unfold leaf. rewrite Ha.
      destruct (leaves_in phi BP IP false a (nth_error_In _ _ Ha)) as (n & o & c & Ea & Ia). assert (Lt : literal (EPred n o c) = true) by reflexivity.
      destruct (chain_spaced dbg fuel tr V S H OR U G WH _ (literal_chain _ Lt) (literal_intervals _ Lt) Ia) as (n' & x & y & Nn & Hx & R & Wy & Ny & T & Sy & Py & _).
      destruct (near_base V S H MO y Wy Ny Sy Py) as (_ & _ & _ & _ & _ & Lk & _). unfold runs in R. fold r0 in R.
      assert (In1 : In n' (names a)) by (destruct Ea as [-> | ->]; cbn [names] in *; rewrite Nn; left; reflexivity).
      assert (SM : forall x', has_signal tr n' x' -> x' = x) by (intros x' Hx'; exact (sig_unique tr U n' x' x Hx' Hx)).
      destruct (Pt n' In1) as (x1 & H1 & D1). destruct (Pu n' In1) as (x2 & H2 & D2). rewrite (SM x1 H1) in D1. rewrite (SM x2 H2) in D2. rewrite <- (first_times x y T), <- (final_times x y T) in D1, D2.
      specialize (Lk t u ltac:(lra) Ltu ltac:(lra)). destruct Ea as [-> | ->]; cbn [leaf_value]; unfold sig; rewrite R; [exact Lk|].
      replace (- pw (reals y) u - - pw (reals y) t) with (- (pw (reals y) u - pw (reals y) t)) by ring. rewrite Rabs_Ropp. exact Lk. }
    intros i t u Dt Du. destruct (Rle_or_lt t u) as [C|C]; [rewrite (Rabs_pos_eq (u - t)) by lra; apply K; assumption|].
    rewrite Rabs_minus_sym, (Rabs_minus_sym u t), (Rabs_pos_eq (t - u)) by lra. apply K; [lra|assumption|assumption].
Qed.
Lemma gap_unit : gap <= 1024 * uu * S.
Proof.
  pose proof MO as (_ & (A & B) & _). assert (C : gap <= 1024 * uu * bpow radix2 (-200)). { unfold gap, uu. change 1024 with (bpow radix2 10). rewrite <- !bpow_plus. apply bpow_le. lia. }
  pose proof uu_small. assert (1024 * uu * bpow radix2 (-200) <= 1024 * uu * S) by (apply Rmult_le_compat_l; lra). lra.
Qed.

Definition sgn (neg : bool) : R := if neg then -1 else 1.
Lemma sgn_cases neg : sgn neg = 1 \/ sgn neg = -1.
Proof. destruct neg; auto. Qed.
Variable b0 : R.
Hypothesis HB : forall n x, has_signal tr n x -> first_time (reals x) = b0.
Let good := node (4 * V) S H leaf defd stamp d b0.

Definition placed (b : nat) (neg : bool) (e : list (expr B64)) : Prop := forall i a, nth_error e i = Some a -> nth_error ls (b + i) = Some a.
Lemma placed_app b neg l m : placed b neg (l ++ m) -> placed b neg l /\ placed (b + length l) neg m.
Proof.
  intros P. split; intros i a Ha.
  - apply P. rewrite nth_error_app1; [exact Ha|]. apply nth_error_Some. congruence.
  - rewrite <- Nat.add_assoc. apply P. rewrite nth_error_app2 by lia. replace (length l + i - length l)%nat with i by lia. exact Ha.
Qed.
Lemma placed_bound b neg l : placed b neg l -> l <> [] -> (b + length l <= N)%nat.
Proof.
  intros P NL. assert (EN : N = length ls) by (unfold N, ls; rewrite leaves_length by exact BP; reflexivity). rewrite EN.
  assert (HL : (length l - 1 < length l)%nat) by (destruct l; [congruence|cbn; lia]). destruct (nth_error l (length l - 1)) as [a|] eqn:Ea; [|apply nth_error_None in Ea; lia].
  apply P in Ea. assert (b + (length l - 1) < length ls)%nat by (apply nth_error_Some; congruence). lia.
Qed.

Definition returns (e : expr B64) (b : nat) (neg : bool) : Prop :=
  exists z f, compute dbg fuel r0 e = Ok z /\ good (sgn neg) f (unit * 10 ^ (length (names e) - 1)) z b (length (names e)).

Lemma nodes_of neg l : forall b, (forall e, In e l -> boolean e = true) -> (forall e b, In e l -> placed b neg (signed_predicates neg e) -> returns e b neg) -> placed b neg (flat_map (signed_predicates neg) l) ->
  exists ops, Forall2 (fun e y => compute dbg fuel r0 e = Ok y) l (map (fun o => fst (fst o)) ops) /\ nodes (4 * V) S H leaf defd stamp d b0 (sgn neg) b ops /\ count ops = length (flat_map names l).
Proof.
  induction l as [|e l IH]; intros b B R P; [exists []; cbn; auto|]. cbn [flat_map] in P. apply placed_app in P as (P1 & P2).
  assert (Be := B e (or_introl eq_refl)). rewrite (leaves_length e Be) in P2. destruct (R e b (or_introl eq_refl) P1) as (z & f & Hz & Gz).
  destruct (IH (b + length (names e))%nat) as (ops & A1 & A2 & A3); [intros; apply B; right; assumption|intros; apply R; [right|]; assumption|exact P2|].
  exists ((z, f, length (names e)) :: ops). cbn [map fst snd nodes count fold_right flat_map]. fold (count ops). rewrite app_length, A3. split; [constructor; assumption|]. split; [|reflexivity].
  split; [apply boolean_names, Be|]. split; [exact Gz|exact A2].
Qed.

Lemma boolean_returns : forall e, boolean e = true -> in_trace V tr e -> times_apart tr \/ separated dbg fuel tr e -> forall b neg, placed b neg (signed_predicates neg e) -> returns e b neg.
Proof.
  assert (JOIN : forall p l, Forall (fun e => boolean e = true -> in_trace V tr e -> times_apart tr \/ separated dbg fuel tr e -> forall b neg, placed b neg (signed_predicates neg e) -> returns e b neg) l ->
    boolean (join p l) = true -> in_trace V tr (join p l) -> times_apart tr \/ separated dbg fuel tr (join p l) -> forall b neg, placed b neg (signed_predicates neg (join p l)) -> returns (join p l) b neg).
  { intros p l F B IT SP b neg PL. pose proof (leaves_length _ B neg) as LL. pose proof (boolean_names _ B) as LN. assert (PB := placed_bound b neg _ PL). rewrite LL in PB. specialize (PB ltac:(intros K; rewrite K in LL; cbn in LL; lia)).
    pose proof (boolean_join p l B) as (NE & Bl). rewrite leaves_join in PL. rewrite names_join in *. rewrite Forall_forall in F.
    destruct (nodes_of neg l b Bl) as (ops & FC & NO & CT); [|exact PL|].
    { intros e b' He P'. apply (F e He (Bl e He)); [apply (in_trace_join tr V p l); assumption| |exact P']. destruct SP as [SP|SP]; [left; exact SP|right]. intros f w s Hf Hw. apply (SP f w s); [apply (stages_sub p l e); assumption|exact Hw]. }
    destruct (moderate_parts V S H 4 MO ltac:(lra)) as (M1 & M2 & M3 & M4 & M5). destruct (many_scale V S H MO) as (W0 & _ & _ & _ & EU & _).
    assert (RV : unit * 10 ^ (count ops - 1) <= d).
    { unfold unit. rewrite EU. replace (4 * (bpow radix2 (-42) * V * S / H) * 10 ^ (count ops - 1)) with (4 * error_of (count ops) V S H) by (unfold error_of, Rdiv; ring). unfold d, E. apply Rmult_le_compat_l; [lra|]. apply (error_mono V S H MO). rewrite CT. unfold N in PB. lia. }
    rewrite <- CT in *. destruct ops as [|((y0, f0), n0) ops]; [cbn in LN; lia|]. destruct l as [|e0 l]; [congruence|]. cbn [map fst snd] in FC. inversion FC as [|? ? ? ? C0 FC']; subst.
    cbn [nodes] in NO. destruct NO as (K0 & N0 & NO). cbn [count fold_right snd] in RV, PB, LN, CT |- *. fold (count ops) in RV, PB, LN, CT |- *.
    destruct (fold_nodes (4 * V) S H M1 M2 M3 M4 M5 gap_unit leaf defd stamp N d b0 leaf_GP1 leaf_GP2 dbg p (sgn neg) (sgn_cases neg) ops b n0 f0 y0 K0 N0 NO) as (z & f & Hz & Nz); [lia| |exact RV| |].
    { eapply Rle_trans; [exact RV|]. unfold d. lra. }
    { destruct SP as [SP|SP]; [left; apply apart_input, SP|right]. intros k y Hy. apply (SP (join p (firstn (Datatypes.S k) (e0 :: l))) y false); [apply stages_prefix; [lia|discriminate]|]. cbn [firstn].
      assert (CL : compute_list (compute dbg fuel r0) (e0 :: firstn k l) = Ok (y0 :: firstn k (map (fun o => fst (fst o)) ops))).
      { apply compute_list_runs. constructor; [exact C0|]. clear - FC'. revert k. induction FC' as [|e y l ys E F IHf]; intros [|k]; cbn [firstn]; constructor; auto. }
      unfold compute_robustness. fold r0. rewrite <- list_fold in Hy. destruct p; cbn [join compute]; rewrite CL; exact Hy. }
    exists z, f. split.
    - assert (CL : compute_list (compute dbg fuel r0) (e0 :: l) = Ok (y0 :: map (fun o => fst (fst o)) ops)) by (apply compute_list_runs; exact FC). rewrite <- list_fold in Hz. destruct p; cbn [join compute]; rewrite CL; exact Hz.
    - rewrite names_join, <- CT. exact Nz. }
  induction e using expr_rec; intros B; try discriminate; intros IT SP b neg PL.
  - assert (Lt : literal (EPred n o c) = true) by reflexivity. destruct (chain_spaced dbg fuel tr V S H OR U G WH _ (literal_chain _ Lt) (literal_intervals _ Lt) IT) as (n' & x & y & Nn & Hx & R & Wy & Ny & T & Sy & Py & _).
    unfold runs in R. fold r0 in R. exists y, (pw (reals y)). split; [exact R|]. cbn [names length Nat.sub pow]. rewrite Rmult_1_r.
    assert (PLb : nth_error ls b = Some (if neg then ENot (EPred n o c) else EPred n o c)) by (rewrite <- (Nat.add_0_r b); apply PL; reflexivity).
    split; [apply near_base; assumption|]. split; [rewrite (first_times x y T); apply (HB n' x Hx)|]. split; [|split].
    + intros t _. exists b. split; [lia|]. unfold leaf. rewrite PLb. destruct neg; cbn [leaf_value sgn]; unfold sig; rewrite R; ring.
    + intros t k Ht Hk. assert (k = b) by lia. subst k. exists (if neg then ENot (EPred n o c) else EPred n o c). split; [exact PLb|]. intros m Hm.
      assert (m = n') by (replace (names (if neg then ENot (EPred n o c) else EPred n o c)) with [n'] in Hm by (destruct neg; symmetry; exact Nn); destruct Hm as [<-|[]]; reflexivity). subst m.
      exists x. split; [exact Hx|]. rewrite <- (first_times x y T), <- (final_times x y T). exact Ht.
    + intros a Ha. left. destruct (in_times x y a T Ha) as (a' & Ha' & Ea). exists n', x, a'. auto.
  - assert (IT' : in_trace V tr e). { destruct IT as (A & B'). split; [|exact B']. intros g Hg. apply A. right. exact Hg. }
    destruct (IHe B IT') with (b := b) (neg := negb neg) as (y & f & Hy & Gy & G2 & G3 & G4 & G5); [destruct SP as [SP|SP]; [left; exact SP|right]; intros f w s Hf Hw; apply (SP f w s); [right; exact Hf|exact Hw]|exact PL|].
    pose proof Gy as (Wy & Ny & _). destruct (not_points y (conj Wy Ny)) as (z & Hz & _). destruct (near_not _ _ _ f _ y z Gy Hz) as (NZ & TZ).
    exists z, (fun t => - f t). split; [cbn [compute]; rewrite Hy; exact Hz|]. cbn [names].
    assert (RZ : forall t, reaches z t -> reaches y t) by (intros t; unfold reaches; rewrite (first_times y z TZ), (final_times y z TZ); auto).
    split; [exact NZ|]. split; [rewrite (first_times y z TZ); exact G2|]. split; [|split].
    + intros t Ht. destruct (G3 t (RZ t Ht)) as (k & Hk & Ek). exists k. split; [exact Hk|]. rewrite Ek. destruct neg; cbn [sgn negb]; ring.
    + intros t k Ht. apply G4, RZ, Ht.
    + intros a Ha. destruct (in_times y z a TZ Ha) as (a' & Ha' & Ea). rewrite Ea. apply G5, Ha'.
  - exact (JOIN true l H0 B IT SP b neg PL).
  - exact (JOIN false l H0 B IT SP b neg PL).
Qed.
(** Intermediate results are results of formulas of the same kind. *)
Lemma stage_placed : forall e, boolean e = true -> in_trace V tr e -> forall b neg, placed b neg (signed_predicates neg e) ->
  forall f, In f (stages e) -> boolean f = true /\ in_trace V tr f /\ exists b' neg', placed b' neg' (signed_predicates neg' f).
Proof.
  assert (JOIN : forall p l, Forall (fun e => boolean e = true -> in_trace V tr e -> forall b neg, placed b neg (signed_predicates neg e) ->
      forall f, In f (stages e) -> boolean f = true /\ in_trace V tr f /\ exists b' neg', placed b' neg' (signed_predicates neg' f)) l ->
    boolean (join p l) = true -> in_trace V tr (join p l) -> forall b neg, placed b neg (signed_predicates neg (join p l)) ->
    forall f, In f (stages (join p l)) -> boolean f = true /\ in_trace V tr f /\ exists b' neg', placed b' neg' (signed_predicates neg' f)).
  { intros p l F B IT b neg PL f Hf. pose proof (stage_boolean (join p l) B f Hf) as (Bf & Nf). pose proof (boolean_join p l B) as (NE & Bl). rewrite leaves_join in PL.
    assert (K : In f (map (join p) (prefixes l)) \/ In f (flat_map stages l)) by (apply in_app_or; destruct p; exact Hf). destruct K as [K|K].
    - split; [exact Bf|]. apply in_map_iff in K as (q & <- & K). apply in_map_iff in K as (k & <- & _). split; [split|].
      + intros g Hg. assert (Hg' : g = join p (firstn k l) \/ In g (flat_map subs (firstn k l))) by (destruct p; destruct Hg as [<-|Hg]; auto). destruct Hg' as [-> |Hg']; [destruct p; exact I|].
        apply in_flat_map in Hg' as (e & He & Hg'). apply (proj1 IT). assert (In g (flat_map subs l)) by (apply in_flat_map; exists e; split; [rewrite <- (firstn_skipn k l); apply in_or_app; left; exact He|exact Hg']). destruct p; right; assumption.
      + intros n Hn. apply (proj2 IT), Nf, Hn.
      + exists b, neg. rewrite leaves_join. rewrite <- (firstn_skipn k l), flat_map_app in PL. apply placed_app in PL as (PL & _). exact PL.
    - apply in_flat_map in K as (e & He & Hf'). rewrite Forall_forall in F. apply in_split in He as (l1 & l2 & ->). rewrite flat_map_app in PL. cbn [flat_map] in PL. apply placed_app in PL as (_ & PL). apply placed_app in PL as (PL & _).
      assert (He : In e (l1 ++ e :: l2)) by (apply in_or_app; right; left; reflexivity). apply (F e He (Bl e He)) with (b := (b + length (flat_map (signed_predicates neg) l1))%nat) (neg := neg); [apply (in_trace_join tr V p (l1 ++ e :: l2)); assumption|exact PL|exact Hf']. }
  induction e using expr_rec; intros B; try discriminate; intros IT b neg PL f Hf.
  - destruct Hf as [<-|[]]. split; [exact B|]. split; [exact IT|]. exists b, neg. exact PL.
  - destruct Hf as [<-|Hf]; [split; [exact B|]; split; [exact IT|]; exists b, neg; exact PL|]. apply (IHe B) with (b := b) (neg := negb neg); [|exact PL|exact Hf]. destruct IT as (A & B'). split; [|exact B']. intros g Hg. apply A. right. exact Hg.
  - exact (JOIN true l H0 B IT b neg PL f Hf).
  - exact (JOIN false l H0 B IT b neg PL f Hf).
Qed.
Lemma apart_separated : times_apart tr -> separated dbg fuel tr phi.
Proof.
  intros TA f y s Hf Hy. destruct (stage_placed phi BP IP 0%nat false ltac:(intros i a Ha; exact Ha) f Hf) as (Bf & If & b & neg & PL).
  destruct (boolean_returns f Bf If (or_introl TA) b neg PL) as (z & g & Hz & Nz & _). unfold compute_robustness in Hy. fold r0 in Hy. rewrite Hz in Hy. injection Hy as ->. destruct Nz as (_ & _ & _ & _ & Pz & _). exact Pz.
Qed.
End T.

Lemma tree_returns dbg fuel (tr : trace B64) s phi V S H : spread_trace V S H tr -> same_begin tr -> moderate V S H -> boolean phi = true -> in_trace V tr phi ->
  error_of (length (names phi)) V S H <= V -> times_apart tr \/ separated dbg fuel tr phi -> general_formulas (8 * error_of (length (names phi)) V S H) tr (signed_predicates false phi) ->
  exists z, compute_robustness dbg fuel phi tr s = Ok z.
Proof.
  intros (U & G & WH) SB MO B IT EV SP GP. pose proof (boolean_names phi B) as LN. destruct (names phi) as [|n l] eqn:En; [cbn in LN; lia|]. destruct (proj2 IT n) as (x & Hx); [rewrite En; left; reflexivity|]. rewrite <- En in *.
  destruct (boolean_returns dbg fuel tr V S H MO U G WH phi B IT EV GP (first_time (reals x))) with (e := phi) (b := 0%nat) (neg := false) as (z & _ & Hz & _); auto.
  - intros m y Hy. exact (begins tr V S H G WH SB n m x y Hx Hy).
  - intros i a Ha. exact Ha.
  - exists z. exact Hz.
Qed.

Lemma C123_boolean_lemma dbg fuel (tr : trace B64) s phi V S H : spread_trace V S H tr -> same_begin tr -> moderate V S H -> boolean phi = true -> in_trace V tr phi ->
  error_of (length (names phi)) V S H <= V -> separated dbg fuel tr phi -> general_formulas (8 * error_of (length (names phi)) V S H) tr (signed_predicates false phi) ->
  exists z, compute_robustness dbg fuel phi tr s = Ok z /\
    forall t r, rob (real_trace tr) (real_formula phi) t r -> exists v, pwl (reals z) t v /\ Rabs (v - r) <= 8 * error_of (length (names phi)) V S H.
Proof.
  intros ST SB MO B IT EV SP GP. destruct (tree_returns dbg fuel tr s phi V S H ST SB MO B IT EV (or_intror SP) GP) as (z & Hz). exists z. split; [exact Hz|].
  exact (C122_boolean_lemma dbg fuel tr s phi V S H z ST MO B IT EV SP Hz).
Qed.
Lemma C123_temporal_lemma dbg fuel (tr : trace B64) s outer phi i V S H : spread_trace V S H tr -> same_begin tr -> moderate V S H ->
  outer = EAlways \/ outer = EEventually -> boolean phi = true -> in_trace V tr phi -> error_of (length (names phi)) V S H <= V -> separated dbg fuel tr phi ->
  general_formulas (8 * error_of (length (names phi)) V S H) tr (signed_predicates false phi) -> made_interval i ->
  exists z, compute_robustness dbg fuel (outer phi i) tr s = Ok z /\ z <> [] /\
    forall c, In c z -> exists r, rob (real_trace tr) (real_formula (outer phi i)) (B2R (s_time c)) r /\ finite (s_value c) = true /\
      Rabs (B2R (s_value c) - r) <= 8 * error_of (length (names phi)) V S H /\
      (8 * error_of (length (names phi)) V S H < B2R (s_value c) -> sat (real_trace tr) (real_formula (outer phi i)) (B2R (s_time c))) /\
      (B2R (s_value c) < - (8 * error_of (length (names phi)) V S H) -> ~ sat (real_trace tr) (real_formula (outer phi i)) (B2R (s_time c))).
Proof.
  intros ST SB MO Ho B IT EV SP GP MI. destruct (tree_returns dbg fuel tr s phi V S H ST SB MO B IT EV (or_intror SP) GP) as (y & C). unfold compute_robustness in C. pose proof ST as (U & G & WH).
  destruct (follows_near tr V S H MO U G WH phi y (boolean_follows dbg fuel tr V S H MO U G WH phi B y IT EV SP C)) as (W & Ny & Fy & _).
  assert (exists z, compute_robustness dbg fuel (outer phi i) tr s = Ok z) as (z & Hz).
  { pose proof Ho as Ho'. apply is_tmp in Ho' as (q & Hq). rewrite Hq. unfold compute_robustness. assert (FT : ftime y) by (eapply Forall_impl; [|exact Fy]; intros c (K & _); exact K).
    exists (sig_of (rollp (comp_of q) y)). rewrite <- (minmax_seq_roll (comp_of q) y W Ny).
    destruct q; cbn [tmp compute]; rewrite C; cbn [bind]; [apply (temporal_seq fuel sample_le i y (conj W Ny) FT MI)|apply (temporal_seq fuel sample_ge i y (conj W Ny) FT MI)]. }
  exists z. split; [exact Hz|]. exact (C122_temporal_lemma dbg fuel tr s outer phi i V S H z ST SB MO Ho B IT EV SP MI Hz).
Qed.

(** ** C124 *)
Lemma C124_separated_lemma dbg fuel (tr : trace B64) phi V S H : spread_trace V S H tr -> same_begin tr -> times_apart tr -> moderate V S H -> boolean phi = true -> in_trace V tr phi ->
  error_of (length (names phi)) V S H <= V -> general_formulas (8 * error_of (length (names phi)) V S H) tr (signed_predicates false phi) -> separated dbg fuel tr phi.
Proof.
  intros (U & G & WH) SB TA MO B IT EV GP. pose proof (boolean_names phi B) as LN. destruct (names phi) as [|n l] eqn:En; [cbn in LN; lia|]. destruct (proj2 IT n) as (x & Hx); [rewrite En; left; reflexivity|]. rewrite <- En in *.
  apply (apart_separated dbg fuel tr V S H MO U G WH phi B IT EV GP (first_time (reals x))); [|exact TA]. intros m y Hy. exact (begins tr V S H G WH SB n m x y Hx Hy).
Qed.
Lemma C124_boolean_lemma dbg fuel (tr : trace B64) s phi V S H : spread_trace V S H tr -> same_begin tr -> times_apart tr -> moderate V S H -> boolean phi = true -> in_trace V tr phi ->
  error_of (length (names phi)) V S H <= V -> general_formulas (8 * error_of (length (names phi)) V S H) tr (signed_predicates false phi) ->
  exists z, compute_robustness dbg fuel phi tr s = Ok z /\
    forall t r, rob (real_trace tr) (real_formula phi) t r -> exists v, pwl (reals z) t v /\ Rabs (v - r) <= 8 * error_of (length (names phi)) V S H.
Proof.
  intros ST SB TA MO B IT EV GP. apply C123_boolean_lemma; try assumption. apply (C124_separated_lemma dbg fuel tr phi V S H); assumption.
Qed.
Lemma C124_temporal_lemma dbg fuel (tr : trace B64) s outer phi i V S H : spread_trace V S H tr -> same_begin tr -> times_apart tr -> moderate V S H ->
  outer = EAlways \/ outer = EEventually -> boolean phi = true -> in_trace V tr phi -> error_of (length (names phi)) V S H <= V ->
  general_formulas (8 * error_of (length (names phi)) V S H) tr (signed_predicates false phi) -> made_interval i ->
  exists z, compute_robustness dbg fuel (outer phi i) tr s = Ok z /\ z <> [] /\
    forall c, In c z -> exists r, rob (real_trace tr) (real_formula (outer phi i)) (B2R (s_time c)) r /\ finite (s_value c) = true /\
      Rabs (B2R (s_value c) - r) <= 8 * error_of (length (names phi)) V S H /\
      (8 * error_of (length (names phi)) V S H < B2R (s_value c) -> sat (real_trace tr) (real_formula (outer phi i)) (B2R (s_time c))) /\
      (B2R (s_value c) < - (8 * error_of (length (names phi)) V S H) -> ~ sat (real_trace tr) (real_formula (outer phi i)) (B2R (s_time c))).
Proof.
  intros ST SB TA MO Ho B IT EV GP MI. apply C123_temporal_lemma; try assumption. apply (C124_separated_lemma dbg fuel tr phi V S H); assumption.
Qed.
