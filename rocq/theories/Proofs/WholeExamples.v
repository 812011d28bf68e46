(** C117: the statements about [compute_robustness], and instances. *)
From Coq Require Import Reals Lra Lia.
From Flocq Require Import Core.Core IEEE754.BinarySingleNaN.
From Verif Require Import Base Num NumXR NumB64.
From Verif.Model Require Import Signal MinMax Ast Robustness.
From Verif.Spec Require Import SignalSpec Pwl Formula Semantics Quantitative Accuracy Uniform Whole.
From Verif.Proofs Require Import NumFacts SignalFacts SignalProps MinMaxExamples UntilFacts RobExamples AccuracyExamples UniformFacts UniformExamples ApartFacts WholeFacts JoinFormula WholeFormula.
Local Open Scope R_scope.

Lemma is_join op : op = EAnd \/ op = EOr -> exists p, forall l, op l = join p l.
Proof. intros [-> | ->]; [exists true|exists false]; reflexivity. Qed.
Lemma is_tmp op : op = EAlways \/ op = EEventually -> exists p, forall e i, op e i = tmp p e i.
Proof. intros [-> | ->]; [exists true|exists false]; reflexivity. Qed.

Lemma C117_chains_lemma dbg fuel (tr : trace B64) s a b V S : whole_trace V S tr -> 1 <= V -> 1 <= S -> 2 * V * S <= bpow radix2 50 ->
  chain a = true -> chain b = true -> intervals_made a -> intervals_made b -> whole_formula V tr a -> whole_formula V tr b ->
  exists x y z w, compute_robustness dbg fuel a tr s = Ok x /\ compute_robustness dbg fuel b tr s = Ok y /\
    compute_robustness dbg fuel (EAnd [a; b]) tr s = Ok z /\ compute_robustness dbg fuel (EOr [a; b]) tr s = Ok w /\
    forall t u v, pwl (reals x) t u -> pwl (reals y) t v ->
      (exists r, pwl (reals z) t r /\ Rabs (r - Rmin u v) <= bpow radix2 (-48) * V * S) /\
      (exists r, pwl (reals w) t r /\ Rabs (r - Rmax u v) <= bpow radix2 (-48) * V * S).
Proof.
  intros (U & G & WH & TO) HV HS HVS Ca Cb Ia Ib Wa Wb.
  destruct (two_chains dbg fuel tr V S HV HS HVS U G WH TO true a b Ca Cb Ia Ib Wa Wb) as (x & y & z & Rx & Ry & _ & _ & _ & _ & _ & _ & C & _ & _ & _ & _ & _ & H).
  destruct (two_chains dbg fuel tr V S HV HS HVS U G WH TO false a b Ca Cb Ia Ib Wa Wb) as (x' & y' & w & Rx' & Ry' & _ & _ & _ & _ & _ & _ & C' & _ & _ & _ & _ & _ & H').
  unfold runs in *. rewrite Rx in Rx'. injection Rx' as <-. rewrite Ry in Ry'. injection Ry' as <-.
  exists x, y, z, w. split; [exact Rx|]. split; [exact Ry|]. split; [exact C|]. split; [exact C'|]. intros t u v Hu Hv. split; [exact (H t u v Hu Hv)|exact (H' t u v Hu Hv)].
Qed.

Lemma C117_boolean_lemma dbg fuel (tr : trace B64) s op a b V S : whole_trace V S tr -> 1 <= V -> 1 <= S -> 2 * V * S <= bpow radix2 50 ->
  op = EAnd \/ op = EOr -> literal a = true -> literal b = true -> whole_formula V tr a -> whole_formula V tr b ->
  exists z, compute_robustness dbg fuel (op [a; b]) tr s = Ok z /\
    forall t r, rob (real_trace tr) (real_formula (op [a; b])) t r -> exists v, pwl (reals z) t v /\ Rabs (v - r) <= bpow radix2 (-48) * V * S.
Proof.
  intros (U & G & WH & TO) HV HS HVS HO La Lb Wa Wb. destruct (is_join op HO) as (p & E). rewrite !E.
  destruct (two_literals dbg fuel tr V S HV HS HVS U G WH TO p a b La Lb Wa Wb) as (z & C & _ & _ & _ & _ & N). exists z. split; [exact C|exact N].
Qed.

Lemma C117_temporal_lemma dbg fuel (tr : trace B64) s outer op a b i V S : whole_trace V S tr -> 1 <= V -> 1 <= S -> 2 * V * S <= bpow radix2 50 ->
  outer = EAlways \/ outer = EEventually -> op = EAnd \/ op = EOr -> literal a = true -> literal b = true -> whole_formula V tr a -> whole_formula V tr b -> made_interval i ->
  exists z, compute_robustness dbg fuel (outer (op [a; b]) i) tr s = Ok z /\ z <> [] /\
    forall c, In c z -> exists r, rob (real_trace tr) (real_formula (outer (op [a; b]) i)) (B2R (s_time c)) r /\ finite (s_value c) = true /\
      Rabs (B2R (s_value c) - r) <= bpow radix2 (-48) * V * S /\
      (bpow radix2 (-48) * V * S < B2R (s_value c) -> sat (real_trace tr) (real_formula (outer (op [a; b]) i)) (B2R (s_time c))) /\
      (B2R (s_value c) < - (bpow radix2 (-48) * V * S) -> ~ sat (real_trace tr) (real_formula (outer (op [a; b]) i)) (B2R (s_time c))).
Proof.
  intros (U & G & WH & TO) HV HS HVS HO HJ La Lb Wa Wb M. destruct (is_join op HJ) as (q & E). destruct (is_tmp outer HO) as (p & E'). rewrite !E, !E'.
  destruct (temporal_two dbg fuel tr V S HV HS HVS U G WH TO p q a b i La Lb Wa Wb M) as (z & C & N & H). exists z. split; [exact C|]. split; [exact N|].
  intros c Hc. destruct (H c Hc) as (r & R1 & R2 & R3 & R4 & R5). exists r. split; [exact R1|]. split; [exact R2|]. split; [exact R3|].
  apply Rabs_le_inv in R3. split; intros K; [apply R4|apply R5]; lra.
Qed.

(** ** Instances *)
Lemma whole_three V S (a b c : sample B64) : (forall d, In d [a; b; c] -> finite (s_time d) = true /\ finite (s_value d) = true /\
     exists k v : Z, B2R (s_time d) = IZR k /\ B2R (s_value d) = IZR v /\ Rabs (IZR k) <= S /\ Rabs (IZR v) <= V) ->
  B2R (s_time b) = B2R (s_time a) + 1 -> B2R (s_time c) = B2R (s_time b) + 1 -> whole V S [a; b; c].
Proof.
  intros H E1 E2. split; [exact H|]. intros [|w [|w' x1]] u v x2 E.
  - injection E as <- <- _. exact E1.
  - injection E as _ <- <- _. exact E2.
  - apply (f_equal (@length _)) in E. cbn in E. rewrite app_length in E. cbn in E. lia.
Qed.
Lemma whole_two V S (a b : sample B64) : (forall d, In d [a; b] -> finite (s_time d) = true /\ finite (s_value d) = true /\
     exists k v : Z, B2R (s_time d) = IZR k /\ B2R (s_value d) = IZR v /\ Rabs (IZR k) <= S /\ Rabs (IZR v) <= V) ->
  B2R (s_time b) = B2R (s_time a) + 1 -> whole V S [a; b].
Proof.
  intros H E1. split; [exact H|]. intros [|w x1] u v x2 E.
  - injection E as <- <- _. exact E1.
  - apply (f_equal (@length _)) in E. cbn in E. rewrite app_length in E. cbn in E. lia.
Qed.
Ltac int_sample := split; [apply fin_int; vm_compute; reflexivity|]; split; [apply fin_int; vm_compute; reflexivity|];
  eexists _, _; split; [apply B2R_int; vm_compute; reflexivity|]; split; [apply B2R_int; vm_compute; reflexivity|]; split; apply Rabs_le; lra.

(** 1 and 1, 3 and 0, 2 and 0 at times 0 and 1. *)
Definition w_x : signal B64 := sig_of [(dbl 0 0, dbl 1 0); (dbl 1 0, dbl 1 0)].
Definition w_y : signal B64 := sig_of [(dbl 0 0, dbl 3 0); (dbl 1 0, dbl 0 0)].
Definition w_z : signal B64 := sig_of [(dbl 0 0, dbl 2 0); (dbl 1 0, dbl 0 0)].
Definition sz : string := "z"%string.
Definition w_tr : trace B64 := [(sx, w_x); (sy, w_y); (sz, w_z)].
Lemma w_cases n x : has_signal w_tr n x -> x = w_x \/ x = w_y \/ x = w_z.
Proof. intros [E|[E|[E|[]]]]; injection E as _ <-; [left; reflexivity|right; left; reflexivity|right; right; reflexivity]. Qed.
Lemma w_whole : whole_trace 3 1 w_tr.
Proof.
  split; [repeat constructor; cbn; intuition discriminate|]. split; [repeat constructor; try discriminate; apply b64_wf; vm_compute; reflexivity|]. split.
  - intros n x H. destruct (w_cases n x H) as [->|[-> | ->]]; (apply whole_two; [|small]); intros d [<-|[<-|[]]]; int_sample.
  - intros n m x y Hx Hy. destruct (w_cases n x Hx) as [->|[-> | ->]]; destruct (w_cases m y Hy) as [->|[-> | ->]]; repeat (constructor; [vm_compute; reflexivity|]); constructor.
Qed.
Lemma C117_witness : exists (tr : trace B64) a b c, whole_trace 3 1 tr /\ forall dbg fuel s,
  compute_robustness dbg fuel (EAnd [EPred a GE nzero; EPred b GE nzero; EPred c GE nzero]) tr s = Throw InvalidArgument /\
  exists z, compute_robustness dbg fuel (EAnd [EPred b GE nzero; EPred c GE nzero; EPred a GE nzero]) tr s = Ok z.
Proof.
  exists w_tr, sx, sy, sz. split; [exact w_whole|]. intros dbg fuel s. split; [destruct dbg; vm_compute; reflexivity|].
  destruct (one_ok (compute_robustness dbg fuel (EAnd [EPred sy GE nzero; EPred sz GE nzero; EPred sx GE nzero]) w_tr s) (fun _ => true)) as (z & E & _); [destruct dbg; vm_compute; reflexivity|].
  exists z. exact E.
Qed.

Lemma u_whole : whole_trace 8 2 u_tr.
Proof.
  split; [repeat constructor; cbn; intuition discriminate|]. split; [exact u_wf|]. split.
  - intros n x H. destruct (u_cases n x H) as [-> | ->]; (apply whole_three; [|small|small]); intros d [<-|[<-|[<-|[]]]]; int_sample.
  - intros n m x y Hx Hy. destruct (u_cases n x Hx) as [-> | ->]; destruct (u_cases m y Hy) as [-> | ->]; repeat (constructor; [vm_compute; reflexivity|]); constructor.
Qed.
Definition w_a : expr B64 := EPred sx GT (dbl 0 0).
Definition w_b : expr B64 := ENot (EPred sy GT (dbl 6 0)).
Definition w_c : expr B64 := EEventually (EPred sx GT (dbl 3 0)) interval_default.
Lemma dbl_whole V k : (Z.abs k < 2 ^ 53)%Z -> Rabs (IZR k) <= V -> finite (dbl k 0) = true /\ exists k' : Z, B2R (dbl k 0) = IZR k' /\ Rabs (IZR k') <= V.
Proof. intros H K. split; [apply fin_int, H|]. exists k. split; [apply B2R_int, H|exact K]. Qed.
Lemma w_formulas : whole_formula 8 u_tr w_a /\ whole_formula 8 u_tr w_b /\ whole_formula 8 u_tr w_c.
Proof.
  split; [|split]; (split; [|intros n [<-|[]]; eexists; first [left; reflexivity|right; left; reflexivity]]).
  - intros e [<-|[]]. apply dbl_whole; [vm_compute; reflexivity|apply Rabs_le; lra].
  - intros e [<-|[<-|[]]]; [exact I|]. apply dbl_whole; [vm_compute; reflexivity|apply Rabs_le; lra].
  - intros e [<-|[<-|[]]]; [exact I|]. apply dbl_whole; [vm_compute; reflexivity|apply Rabs_le; lra].
Qed.
Lemma w_bounds : 1 <= 8 /\ 1 <= 2 /\ 2 * 8 * 2 <= bpow radix2 50.
Proof. split; [lra|]. split; [lra|]. apply Rle_trans with (bpow radix2 5); [simpl; lra|apply bpow_le; lia]. Qed.

Lemma C117_pair_case_lemma : wf u_x /\ wf u_y /\ u_x <> [] /\ Forall2 (fun a b => neqb (s_time a) (s_time b) = true) u_x u_y /\ whole 8 2 u_x /\ whole 8 2 u_y.
Proof.
  destruct u_whole as (_ & _ & W & _). split; [apply b64_wf; vm_compute; reflexivity|]. split; [apply b64_wf; vm_compute; reflexivity|]. split; [discriminate|]. split; [exact u_same|].
  split; [apply (W sx); left; reflexivity|apply (W sy); right; left; reflexivity].
Qed.
Lemma C117_chains_case_lemma : whole_trace 8 2 u_tr /\ (1 <= 8 /\ 1 <= 2 /\ 2 * 8 * 2 <= bpow radix2 50) /\ chain w_b = true /\ chain w_c = true /\ intervals_made w_b /\ intervals_made w_c /\
  whole_formula 8 u_tr w_b /\ whole_formula 8 u_tr w_c.
Proof.
  split; [exact u_whole|]. split; [exact w_bounds|]. split; [reflexivity|]. split; [reflexivity|]. split; [intros e [<-|[<-|[]]]; exact I|].
  split; [|split; apply w_formulas]. intros e [<-|[<-|[]]]; [left; reflexivity|exact I].
Qed.
Lemma C117_boolean_case_lemma : literal w_a = true /\ literal w_b = true /\ whole_formula 8 u_tr w_a /\ whole_formula 8 u_tr w_b /\
  exists z, compute_robustness true 0 (EAnd [w_a; w_b]) u_tr false = Ok z /\ (4 <= length z)%nat.
Proof.
  split; [reflexivity|]. split; [reflexivity|]. split; [apply w_formulas|]. split; [apply w_formulas|].
  destruct (one_ok (compute_robustness true 0 (EAnd [w_a; w_b]) u_tr false) (fun z => Nat.leb 4 (length z))) as (z & E & H); [vm_compute; reflexivity|].
  exists z. split; [exact E|]. apply Nat.leb_le, H.
Qed.
Lemma C117_temporal_case_lemma : made_interval (F := B64) interval_default /\
  exists z, compute_robustness true 0 (EAlways (EAnd [w_a; w_b]) interval_default) u_tr false = Ok z /\ forallb (fun c => nltb nzero (s_value c)) z = true.
Proof.
  split; [left; reflexivity|]. apply one_ok. vm_compute. reflexivity.
Qed.
