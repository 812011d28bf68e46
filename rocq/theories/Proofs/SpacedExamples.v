(** C118: the statements about [compute_robustness], and instances. *)
From Coq Require Import Reals Lra Lia.
From Flocq Require Import Core.Core IEEE754.BinarySingleNaN.
From Verif Require Import Base Num NumXR NumB64.
From Verif.Model Require Import Signal MinMax Ast Robustness.
From Verif.Spec Require Import SignalSpec Pwl Formula Semantics Quantitative Accuracy Uniform Whole Apart Spaced.
From Verif.Proofs Require Import NumFacts SignalFacts SignalProps MinMaxExamples UntilFacts RobExamples AccuracyExamples SyncError UniformFacts JoinFormula WholeExamples PairError SpacedFormula.
Local Open Scope R_scope.

Lemma C118_chains_lemma dbg fuel (tr : trace B64) s op a b V S H z : spaced_trace V S H tr -> ordinary V S H -> op = EAnd \/ op = EOr ->
  chain a = true -> chain b = true -> intervals_made a -> intervals_made b -> in_trace V tr a -> in_trace V tr b -> compute_robustness dbg fuel (op [a; b]) tr s = Ok z ->
  exists x y, compute_robustness dbg fuel a tr s = Ok x /\ compute_robustness dbg fuel b tr s = Ok y /\
    forall t u v, pwl (reals x) t u -> pwl (reals y) t v ->
      exists w, pwl (reals z) t w /\ (op = EAnd -> Rabs (w - Rmin u v) <= bpow radix2 (-42) * V * S / H) /\ (op = EOr -> Rabs (w - Rmax u v) <= bpow radix2 (-42) * V * S / H).
Proof.
  intros (U & G & WH & TO) OR HO Ca Cb Ia Ib Wa Wb Hz.
  assert (K : forall p, (forall l, op l = join p l) -> exists x y, compute_robustness dbg fuel a tr s = Ok x /\ compute_robustness dbg fuel b tr s = Ok y /\
    forall t u v, pwl (reals x) t u -> pwl (reals y) t v -> exists w, pwl (reals z) t w /\ Rabs (w - if p then Rmin u v else Rmax u v) <= bpow radix2 (-42) * V * S / H).
  { intros p E. rewrite E in Hz. destruct (two_chains_spaced dbg fuel tr V S H OR U G WH TO p a b z Ca Cb Ia Ib Wa Wb Hz) as (_ & _ & x & y & _ & Rx & Ry & _ & _ & _ & _ & _ & _ & N).
    exists x, y. split; [exact Rx|]. split; [exact Ry|exact N]. }
  assert (NE : @EAnd B64 <> EOr). { intros E. apply (f_equal (fun f => f [])) in E. discriminate. }
  destruct HO as [-> | ->]; [destruct (K true (fun _ => eq_refl)) as (x & y & Rx & Ry & N)|destruct (K false (fun _ => eq_refl)) as (x & y & Rx & Ry & N)]; exists x, y; (split; [exact Rx|]); (split; [exact Ry|]);
    intros t u v Hu Hv; destruct (N t u v Hu Hv) as (w & P & Q); exists w; (split; [exact P|]); split; intros E; try exact Q; exfalso; [exact (NE E)|exact (NE (eq_sym E))].
Qed.

Lemma C118_boolean_lemma dbg fuel (tr : trace B64) s op a b V S H z : spaced_trace V S H tr -> ordinary V S H -> op = EAnd \/ op = EOr ->
  literal a = true -> literal b = true -> in_trace V tr a -> in_trace V tr b -> compute_robustness dbg fuel (op [a; b]) tr s = Ok z ->
  forall t r, rob (real_trace tr) (real_formula (op [a; b])) t r -> exists v, pwl (reals z) t v /\ Rabs (v - r) <= bpow radix2 (-41) * V * S / H.
Proof.
  intros (U & G & WH & TO) OR HO La Lb Wa Wb Hz. destruct (is_join op HO) as (p & E). rewrite !E in *.
  apply (two_literals_spaced dbg fuel tr V S H OR U G WH TO p a b z La Lb Wa Wb Hz).
Qed.

Lemma C118_temporal_lemma dbg fuel (tr : trace B64) s outer op a b i V S H z : spaced_trace V S H tr -> ordinary V S H ->
  outer = EAlways \/ outer = EEventually -> op = EAnd \/ op = EOr -> literal a = true -> literal b = true -> in_trace V tr a -> in_trace V tr b -> made_interval i ->
  compute_robustness dbg fuel (outer (op [a; b]) i) tr s = Ok z ->
  z <> [] /\ forall c, In c z -> exists r, rob (real_trace tr) (real_formula (outer (op [a; b]) i)) (B2R (s_time c)) r /\ finite (s_value c) = true /\
      Rabs (B2R (s_value c) - r) <= bpow radix2 (-41) * V * S / H /\
      (bpow radix2 (-41) * V * S / H < B2R (s_value c) -> sat (real_trace tr) (real_formula (outer (op [a; b]) i)) (B2R (s_time c))) /\
      (B2R (s_value c) < - (bpow radix2 (-41) * V * S / H) -> ~ sat (real_trace tr) (real_formula (outer (op [a; b]) i)) (B2R (s_time c))).
Proof.
  intros (U & G & WH & TO) OR HO HJ La Lb Wa Wb M Hz. destruct (is_join op HJ) as (q & E). destruct (is_tmp outer HO) as (p & E'). rewrite !E, !E' in *.
  destruct (temporal_spaced dbg fuel tr V S H OR U G WH TO p q a b i z La Lb Wa Wb M Hz) as (N & K). split; [exact N|].
  intros c Hc. destruct (K c Hc) as (r & R1 & R2 & R3 & R4 & R5). exists r. split; [exact R1|]. split; [exact R2|]. split; [exact R3|].
  unfold err in R3. apply Rabs_le_inv in R3. split; intros L; [apply R4|apply R5]; lra.
Qed.

(** ** Instances *)
(** Decimal fractions: 0.1, 0.7, 0.2 and 0.5, 0.25, 0.9 at times 0, 0.3, 1. *)
Definition s_x : signal B64 := sig_of [(dbl 0 0, dbl 3602879701896397 (-55)); (dbl 5404319552844595 (-54), dbl 6305039478318694 (-53)); (dbl 1 0, dbl 3602879701896397 (-54))].
Definition s_y : signal B64 := sig_of [(dbl 0 0, dbl 1 (-1)); (dbl 5404319552844595 (-54), dbl 1 (-2)); (dbl 1 0, dbl 8106479329266893 (-53))].
Definition s_tr : trace B64 := [(sx, s_x); (sy, s_y)].
(** x > 0.1, not (y > 0.8), Eventually (x > 0.3). *)
Definition s_a : expr B64 := EPred sx GT (dbl 3602879701896397 (-55)).
Definition s_b : expr B64 := ENot (EPred sy GT (dbl 3602879701896397 (-52))).
Definition s_c : expr B64 := EEventually (EPred sx GT (dbl 5404319552844595 (-54))) interval_default.
Lemma s_cases n x : has_signal s_tr n x -> x = s_x \/ x = s_y.
Proof. intros [E|[E|[]]]; injection E as _ <-; auto. Qed.
Lemma small_dbl (v : B64) : finite v = true -> nleb (dbl (-1) 0) v = true -> nleb v (dbl 1 0) = true -> Rabs (B2R v) <= 1.
Proof.
  intros F A B. apply le_B2R in A; [|reflexivity|exact F]. apply le_B2R in B; [|exact F|reflexivity]. assert (B2R (dbl 1 0) = 1) by small. assert (B2R (dbl (-1) 0) = -1) by small.
  apply Rabs_le. lra.
Qed.
Lemma s_sized x : x = s_x \/ x = s_y -> sized 1 1 x /\ spaced (1 / 4) x.
Proof.
  intros Hx. assert (K : forallb (fun c => finite (s_time c) && finite (s_value c) && nleb (dbl (-1) 0) (s_time c) && nleb (s_time c) (dbl 1 0) &&
        nleb (dbl (-1) 0) (s_value c) && nleb (s_value c) (dbl 1 0)) x = true) by (destruct Hx as [-> | ->]; vm_compute; reflexivity).
  assert (A : forall a, In a x -> finite (s_time a) = true /\ finite (s_value a) = true /\ Rabs (B2R (s_time a)) <= 1 /\ Rabs (B2R (s_value a)) <= 1).
  { intros c Hc. rewrite forallb_forall in K. specialize (K _ Hc). repeat (apply andb_prop in K as [K ?]). repeat (split; [assumption || (apply small_dbl; assumption)|]). apply small_dbl; assumption. }
  assert (B : spaced (1 / 4) x).
  { assert (T : match x with [a; b; c] => finite (s_time a) && finite (s_time b) && finite (s_time c) && neqb (s_time a) (dbl 0 0) && neqb (s_time c) (dbl 1 0) &&
        nleb (dbl 1 (-2)) (s_time b) && nleb (s_time b) (dbl 3 (-2)) | _ => false end = true) by (destruct Hx as [-> | ->]; vm_compute; reflexivity).
    clear - T. destruct x as [|a [|b [|c [|]]]]; try discriminate T. repeat (apply andb_prop in T as [T ?]).
    assert (L1 : B2R (dbl 1 (-2)) <= B2R (s_time b)) by (apply le_B2R; [reflexivity|assumption|assumption]).
    assert (L2 : B2R (s_time b) <= B2R (dbl 3 (-2))) by (apply le_B2R; [assumption|reflexivity|assumption]).
    assert (Ea : B2R (s_time a) = B2R (dbl 0 0)) by (apply eq_B2R; [assumption|reflexivity|assumption]).
    assert (Ec : B2R (s_time c) = B2R (dbl 1 0)) by (apply eq_B2R; [assumption|reflexivity|assumption]).
    assert (B2R (dbl 1 (-2)) = 1 / 4) by (rewrite (proj1 (B2R_dbl 1 (-2) ltac:(lia) ltac:(lia))); simpl; lra).
    assert (B2R (dbl 3 (-2)) = 3 / 4) by (rewrite (proj1 (B2R_dbl 3 (-2) ltac:(lia) ltac:(lia))); simpl; lra).
    assert (B2R (s_time a) = 0) by (rewrite Ea; small). assert (B2R (s_time c) = 1) by (rewrite Ec; small).
    intros [|w [|w' x1]] u v x2 E.
    + injection E as <- <- _. lra.
    + injection E as _ <- <- _. lra.
    + apply (f_equal (@length _)) in E. cbn in E. rewrite app_length in E. cbn in E. lia. }
  split; [split; [exact A|]|exact B]. intros x1 a b x2 E. eapply Rle_trans; [|apply (B x1 a b x2 E)].
  apply Rle_trans with (bpow radix2 (-2)); [apply bpow_le; lia|simpl; lra].
Qed.
Lemma s_ordinary : ordinary 1 1 (1 / 4).
Proof.
  assert (bpow radix2 (-300) <= bpow radix2 (-2)) by (apply bpow_le; lia). assert (bpow radix2 0 <= bpow radix2 298) by (apply bpow_le; lia). assert (bpow radix2 0 <= bpow radix2 300) by (apply bpow_le; lia).
  replace (bpow radix2 (-2)) with (1 / 4) in * by (simpl; lra). replace (bpow radix2 0) with 1 in * by (simpl; lra). unfold ordinary. lra.
Qed.
Lemma s_trace : spaced_trace 1 1 (1 / 4) s_tr.
Proof.
  split; [repeat constructor; cbn; intuition discriminate|]. split; [repeat constructor; try discriminate; apply b64_wf; vm_compute; reflexivity|]. split.
  - intros n x H. apply s_sized, (s_cases n), H.
  - intros n m x y Hx Hy. destruct (s_cases n x Hx) as [-> | ->]; destruct (s_cases m y Hy) as [-> | ->]; repeat (constructor; [vm_compute; reflexivity|]); constructor.
Qed.
Lemma s_formulas : in_trace 1 s_tr s_a /\ in_trace 1 s_tr s_b /\ in_trace 1 s_tr s_c.
Proof.
  split; [|split]; (split; [|intros n [<-|[]]; eexists; first [left; reflexivity|right; left; reflexivity]]).
  - intros e [<-|[]]. split; [reflexivity|]. apply small_dbl; vm_compute; reflexivity.
  - intros e [<-|[<-|[]]]; [exact I|]. split; [reflexivity|]. apply small_dbl; vm_compute; reflexivity.
  - intros e [<-|[<-|[]]]; [exact I|]. split; [reflexivity|]. apply small_dbl; vm_compute; reflexivity.
Qed.
Lemma C118_pair_case_lemma : wf s_x /\ wf s_y /\ s_x <> [] /\ Forall2 (fun a b => neqb (s_time a) (s_time b) = true) s_x s_y /\ ordinary 1 1 (1 / 4) /\
  sized 1 1 s_x /\ sized 1 1 s_y /\ spaced (1 / 4) s_x /\ exists z, elementwise_min true false s_x s_y = Ok z /\ length z = 5%nat.
Proof.
  split; [apply b64_wf; vm_compute; reflexivity|]. split; [apply b64_wf; vm_compute; reflexivity|]. split; [discriminate|].
  split; [repeat (constructor; [vm_compute; reflexivity|]); constructor|]. split; [exact s_ordinary|]. split; [apply s_sized; auto|]. split; [apply s_sized; auto|]. split; [apply s_sized; auto|].
  destruct (one_ok (elementwise_min true false s_x s_y) (fun z => Nat.eqb (length z) 5)) as (z & E & L); [vm_compute; reflexivity|]. exists z. split; [exact E|]. apply Nat.eqb_eq, L.
Qed.
Lemma C118_chains_case_lemma : spaced_trace 1 1 (1 / 4) s_tr /\ ordinary 1 1 (1 / 4) /\ chain s_b = true /\ chain s_c = true /\ intervals_made s_b /\ intervals_made s_c /\
  in_trace 1 s_tr s_b /\ in_trace 1 s_tr s_c /\ exists z, compute_robustness true 0 (EOr [s_b; s_c]) s_tr false = Ok z /\ length z = 4%nat.
Proof.
  split; [exact s_trace|]. split; [exact s_ordinary|]. split; [reflexivity|]. split; [reflexivity|]. split; [intros e [<-|[<-|[]]]; exact I|].
  split; [intros e [<-|[<-|[]]]; [left; reflexivity|exact I]|]. split; [apply s_formulas|]. split; [apply s_formulas|].
  destruct (one_ok (compute_robustness true 0 (EOr [s_b; s_c]) s_tr false) (fun z => Nat.eqb (length z) 4)) as (z & E & L); [vm_compute; reflexivity|]. exists z. split; [exact E|]. apply Nat.eqb_eq, L.
Qed.
Lemma C118_boolean_case_lemma : literal s_a = true /\ literal s_b = true /\ in_trace 1 s_tr s_a /\ in_trace 1 s_tr s_b /\
  exists z, compute_robustness true 0 (EAnd [s_a; s_b]) s_tr false = Ok z /\ length z = 4%nat.
Proof.
  split; [reflexivity|]. split; [reflexivity|]. split; [apply s_formulas|]. split; [apply s_formulas|].
  destruct (one_ok (compute_robustness true 0 (EAnd [s_a; s_b]) s_tr false) (fun z => Nat.eqb (length z) 4)) as (z & E & H); [vm_compute; reflexivity|].
  exists z. split; [exact E|]. apply Nat.eqb_eq, H.
Qed.
Lemma C118_temporal_case_lemma : made_interval (F := B64) interval_default /\
  exists z, compute_robustness true 0 (EEventually (EAnd [s_a; s_b]) interval_default) s_tr false = Ok z /\ exists c, In c z /\ nltb nzero (s_value c) = true.
Proof.
  split; [left; reflexivity|]. destruct (one_ok (compute_robustness true 0 (EEventually (EAnd [s_a; s_b]) interval_default) s_tr false) (existsb (fun c => nltb nzero (s_value c)))) as (z & E & K); [vm_compute; reflexivity|].
  exists z. split; [exact E|]. apply existsb_exists in K. exact K.
Qed.
