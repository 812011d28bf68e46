(** Witnesses and concrete cases for Props/Robustness.v. *)
From Coq Require Import Sorted Reals Lra.
From Flocq Require Import IEEE754.BinarySingleNaN.
From Verif Require Import Base Num NumXR NumB64.
From Verif.Model Require Import Signal MonoWedge MinMax Ast Robustness.
From Verif.Spec Require Import SignalSpec Pwl Formula Semantics UntilSpec.
From Verif.Proofs Require Import NumFacts SignalFacts PwlFacts SyncExact SyncProps SignalProps SyncCases PairExact MinMaxProps MinMaxCases MinMaxExamples SeqExact RobFacts RobWf RobTransport Duality RobExact UntilFacts.

(** ** Exact traces *)
Section Exact.
Local Open Scope R_scope.
Definition lx1 : list (R * R) := [(0, -1); (1, 10); (2, 1)].
Definition ly1 : list (R * R) := [(0, 3); (3, -1)].
Lemma lx1_incr : rincr lx1. Proof. unfold lx1. rincr_tac. Qed.
Lemma ly1_incr : rincr ly1. Proof. unfold ly1. rincr_tac. Qed.
Definition lt1 : ptrace := [(sx, lx1); (sy, ly1)].
Definition tr1 : trace XR := [(sx, fsig lx1); (sy, fsig ly1)].
Definition gx : expr XR := EPred sx GT (Fin 0).
Definition ey : expr XR := EPred sy LE (Fin 1).
Definition phi1 : expr XR := EAnd [ENot ey; EOr [gx; ey; ENot gx]].
Definition phi2 : expr XR := EAnd [EAlways gx interval_default; EOr [ENot ey; EEventually gx interval_default]].

Lemma tr1_of : trace_of lt1 tr1.
Proof.
  constructor; [split; [reflexivity|]; apply built_iff; split; [exact lx1_incr|reflexivity]|].
  constructor; [split; [reflexivity|]; apply built_iff; split; [exact ly1_incr|reflexivity]|constructor].
Qed.
Lemma tr1_keys : keys_unique tr1.
Proof. unfold keys_unique. cbn. constructor; [intros [H|[]]; discriminate H|]. constructor; [intros []|constructor]. Qed.
Lemma tr1_start : all_start lt1 0.
Proof. repeat constructor; discriminate. Qed.
Lemma lt1_names n : n = sx \/ n = sy -> exists l, In (n, l) lt1.
Proof. intros [-> | ->]; eexists; cbn; eauto. Qed.
Lemma phi1_ev : evaluable lt1 phi1.
Proof.
  split; [reflexivity|]. split; [reflexivity|]. split; [|split].
  - intros e He. cbn in He. repeat (destruct He as [<-|He]; [exact I|]). destruct He.
  - intros e He. cbn in He. repeat (destruct He as [<-|He]; [first [exact I|eexists; reflexivity]|]). destruct He.
  - intros n Hn. apply lt1_names. cbn in Hn. repeat (destruct Hn as [<-|Hn]; [auto|]). destruct Hn.
Qed.
Lemma phi2_ev : evaluable lt1 phi2.
Proof.
  split; [reflexivity|]. split; [reflexivity|]. split; [|split].
  - intros e He. cbn in He. repeat (destruct He as [<-|He]; [first [exact I|left; reflexivity]|]). destruct He.
  - intros e He. cbn in He. repeat (destruct He as [<-|He]; [first [exact I|eexists; reflexivity]|]). destruct He.
  - intros n Hn. apply lt1_names. cbn in Hn. repeat (destruct Hn as [<-|Hn]; [auto|]). destruct Hn.
Qed.
Lemma C35_case_lemma : trace_of lt1 tr1 /\ keys_unique tr1 /\ all_start lt1 0 /\ evaluable lt1 phi1 /\ free_of is_temporal phi1 = true.
Proof. split; [exact tr1_of|]. split; [exact tr1_keys|]. split; [exact tr1_start|]. split; [exact phi1_ev|reflexivity]. Qed.
Lemma C36_case_lemma : trace_of lt1 tr1 /\ keys_unique tr1 /\ all_start lt1 0 /\ evaluable lt1 phi2 /\
  sound_first true phi2 = true /\ sound_first false phi2 = true /\
  sound_for true (EAnd [EAlways gx interval_default; ENot ey]) = true /\ sound_for false (EOr [EEventually gx interval_default; ENot ey]) = true.
Proof. split; [exact tr1_of|]. split; [exact tr1_keys|]. split; [exact tr1_start|]. split; [exact phi2_ev|]. repeat split; reflexivity. Qed.

(** C36: Always x > 0 at t = 1/5: reported -3/5 although x > 0 from there on. *)
Lemma lx1_pos t v : 1/5 <= t -> pwl lx1 t v -> 0 < v.
Proof.
  intros T [(p & Hp & E1 & E2)|(l1 & p & q & l2 & E & Ht & ->)].
  - unfold lx1 in Hp. cbn in Hp. destruct Hp as [<-|[<-|[<-|[]]]]; cbn in E1, E2; lra.
  - unfold lx1 in E. destruct l1 as [|a [|b [|c l1]]]; cbn in E; injection E; intros.
    + subst p q. cbn [fst snd] in *. lra.
    + subst p q. cbn [fst snd] in *. lra.
    + discriminate.
    + destruct l1; discriminate.
Qed.
Lemma gx_compute dbg fuel r : r_trace r = [(sx, fsig lx1)] -> compute dbg fuel r gx = Ok (fsig lx1).
Proof.
  intros Hr. unfold gx. rewrite (pred_fsig sx GT 0 fuel dbg r lx1); [|rewrite Hr; reflexivity|exact lx1_incr]. do 2 f_equal.
  unfold lx1. cbn [map fst snd]. repeat (f_equal; try lra).
Qed.
Lemma C36_witness : exists lt tr l z t v, trace_of lt tr /\ keys_unique tr /\ all_start lt 0 /\
  compute_robustness true 0 (EAlways gx interval_default) tr false = Ok z /\ built l z /\
  pwl l t v /\ v < 0 /\ sat lt (EAlways gx interval_default) t.
Proof.
  exists [(sx, lx1)], [(sx, fsig lx1)], (rroll 1 lx1), (fsig (rroll 1 lx1)), (1/5), (-(3/5)).
  split. { constructor; [split; [reflexivity|]; apply built_iff; split; [exact lx1_incr|reflexivity]|constructor]. }
  split. { unfold keys_unique. cbn. constructor; [intros []|constructor]. }
  split; [repeat constructor; discriminate|].
  split. { unfold compute_robustness. cbn [compute]. change (EPred sx GT (Fin 0)) with gx.
    change (rob_pred _ sx GT (Fin 0)) with (compute true 0 (mkRob (trace_begin [(sx, fsig lx1)]) (trace_end [(sx, fsig lx1)]) [(sx, fsig lx1)]) gx).
    rewrite gx_compute by reflexivity. cbn [bind]. rewrite temporal_xr; [|exact lx1_incr|discriminate|left; reflexivity].
    apply (seq_fsig 1 sample_le sg_le); [exact lx1_incr|discriminate]. }
  split; [apply built_iff; split; [apply rincr_rroll, lx1_incr|reflexivity]|].
  assert (V1 : vb 1 (1, 10) [(2, 1)] = 1). { apply (vb_unique 1 sample_le sg_le); cbn; [exists (2, 1); cbn; auto|]. intros c [<-|[<-|[]]]; cbn; lra. }
  assert (V0 : vb 1 (0, -1) [(1, 10); (2, 1)] = -1). { apply (vb_unique 1 sample_le sg_le); cbn; [exists (0, -1); cbn; auto|]. intros c [<-|[<-|[<-|[]]]]; cbn; lra. }
  split. { apply (roll_mid 1 [] (0, -1) (1, 10) [(2, 1)]); [exact lx1_incr|cbn; lra|]. rewrite V0, V1. unfold line. cbn. field. }
  split; [lra|]. intros t' T In. destruct (In sx (or_introl eq_refl)) as (v & l & [[= <-]|[]] & P).
  exists v, 0. split; [exists lx1; split; [left; reflexivity|exact P]|]. split; [reflexivity|]. cbn. pose proof (lx1_pos t' v T P). lra.
Qed.

Lemma tr1_good : Forall (fun e => wf (snd e) /\ snd e <> []) tr1.
Proof.
  constructor; [split; [apply fsig_wf, lx1_incr|discriminate]|]. constructor; [split; [apply fsig_wf, ly1_incr|discriminate]|constructor].
Qed.
Lemma C31_case_lemma : Forall (fun e => wf (snd e) /\ snd e <> [] /\ Forall (fun t => exists r, t = Fin r) (times (snd e))) tr1 /\
  exists z, compute_robustness true 0 (ENot (EAnd [phi1; phi2])) tr1 false = Ok z.
Proof.
  split.
  { constructor; [split; [apply fsig_wf, lx1_incr|]|constructor; [split; [apply fsig_wf, ly1_incr|]|constructor]];
      (split; [discriminate|]); cbn [snd]; unfold times; rewrite Forall_map; apply fsig_fin. }
  assert (E : evaluable lt1 (ENot (EAnd [phi1; phi2]))).
  { destruct phi1_ev as (A1 & A2 & A3 & A4 & A5). destruct phi2_ev as (B1 & B2 & B3 & B4 & B5).
    split; [reflexivity|]. split; [reflexivity|]. split; [|split].
    - intros e [<-|[<-|He]]; [exact I|exact I|]. change (In e (subs phi1 ++ subs phi2 ++ [])) in He. rewrite app_nil_r in He. apply in_app_or in He as [He|He]; [apply (A3 e He)|apply (B3 e He)].
    - intros e [<-|[<-|He]]; [exact I|exact I|]. change (In e (subs phi1 ++ subs phi2 ++ [])) in He. rewrite app_nil_r in He. apply in_app_or in He as [He|He]; [apply (A4 e He)|apply (B4 e He)].
    - intros n Hn. cbn [names] in Hn. change (flat_map names [phi1; phi2]) with (names phi1 ++ names phi2 ++ []) in Hn. rewrite app_nil_r in Hn. apply in_app_or in Hn as [Hn|Hn]; auto. }
  destruct (C47_lemma true 0 lt1 tr1 0 _ false tr1_of tr1_keys tr1_start E) as (l & z & Ez & _). eauto.
Qed.
Lemma C45_case_lemma : Forall (fun e => wf (snd e) /\ snd e <> []) tr1 /\ free_of (short 1) phi2 = true /\
  exists z, compute_robustness true 0 phi2 tr1 false = Ok z.
Proof.
  split; [exact tr1_good|]. split; [reflexivity|]. destruct (C47_lemma true 0 lt1 tr1 0 _ false tr1_of tr1_keys tr1_start phi2_ev) as (l & z & Ez & _). eauto.
Qed.
Lemma C46_case_lemma : Forall (fun e => wf (snd e) /\ snd e <> []) tr1 /\ 0 < 1/3 /\ exists z, compute_robustness true 0 phi2 tr1 false = Ok z.
Proof. destruct C45_case_lemma as (A & _ & B). split; [exact A|]. split; [lra|exact B]. Qed.
Lemma C47_case_lemma : trace_of lt1 tr1 /\ keys_unique tr1 /\ all_start lt1 0 /\ evaluable lt1 (EUntil phi1 phi2 interval_default).
Proof.
  split; [exact tr1_of|]. split; [exact tr1_keys|]. split; [exact tr1_start|].
  destruct phi1_ev as (A1 & A2 & A3 & A4 & A5). destruct phi2_ev as (B1 & B2 & B3 & B4 & B5).
  split; [reflexivity|]. split; [reflexivity|]. split; [|split].
  - intros e [<-|He]; [left; reflexivity|]. change (In e (subs phi1 ++ subs phi2)) in He. apply in_app_or in He as [He|He]; [apply (A3 e He)|apply (B3 e He)].
  - intros e [<-|He]; [exact I|]. change (In e (subs phi1 ++ subs phi2)) in He. apply in_app_or in He as [He|He]; [apply (A4 e He)|apply (B4 e He)].
  - intros n Hn. change (In n (names phi1 ++ names phi2)) in Hn. apply in_app_or in Hn as [Hn|Hn]; auto.
Qed.
End Exact.

(** ** binary64 traces *)
Local Open Scope nat_scope.
Definition bx : signal B64 := sig_of [(dbl 0 0, dbl 1 0); (dbl 2 0, dbl 3 0); (dbl 4 0, dbl (-1) 0)].
Definition by_ : signal B64 := sig_of [(dbl 0 0, dbl (-2) 0); (dbl 1 0, dbl 2 0); (dbl 4 0, dbl 5 0)].
Definition btr : trace B64 := [(sx, bx); (sy, by_)].
Lemma bx_wf : wf bx. Proof. apply b64_wf; vm_compute; reflexivity. Qed.
Lemma by_wf : wf by_. Proof. apply b64_wf; vm_compute; reflexivity. Qed.
Definition bp : expr B64 := EPred sx GT (dbl 1 (-1)).
Definition bq : expr B64 := EPred sy LE nzero.
Definition bphi : expr B64 := EAnd [EEventually bp interval_default; EOr [bq; ENot bp]; EUntil bq bp interval_default].
Lemma btr_good : Forall (fun e => wf (snd e) /\ snd e <> []) btr.
Proof. constructor; [split; [exact bx_wf|discriminate]|]. constructor; [split; [exact by_wf|discriminate]|constructor]. Qed.
Lemma btr_keys : keys_unique btr.
Proof. unfold keys_unique. cbn [map fst btr]. constructor; [intros [H|[]]; discriminate H|]. constructor; [intros []|constructor]. Qed.
Definition all_finite (s : signal B64) : bool := forallb (fun a => finite (s_time a) && finite (s_value a)) s.
Lemma all_finite_spec s : all_finite s = true -> Forall (fun a => finite (s_time a) = true) s /\ Forall (fun a => finite (s_value a) = true) s.
Proof.
  unfold all_finite. intros K. rewrite forallb_forall in K. split; apply Forall_forall; intros a Ha; specialize (K a Ha); apply andb_prop in K; apply K.
Qed.

Lemma C34_case_lemma : keys_unique btr /\ has_signal btr sx bx /\ wf bx /\ Forall (fun a => finite (s_value a) = true) bx /\ finite (dbl 1 (-1)) = true.
Proof.
  split; [exact btr_keys|]. split; [left; reflexivity|]. split; [exact bx_wf|]. split; [|vm_compute; reflexivity].
  apply all_finite_spec. vm_compute; reflexivity.
Qed.
Lemma C37_case_lemma : Forall (fun e => wf (snd e) /\ snd e <> []) btr /\ exists x y x' y',
  compute_robustness true 0 bq btr false = Ok x /\ compute_robustness true 0 bp btr false = Ok y /\
  synchronize x y = Ok (x', y') /\ all_num (values x') /\ all_num (values y') /\ length x' = 4.
Proof.
  split; [exact btr_good|].
  destruct (two_ok (compute_robustness true 0 bq btr false) (compute_robustness true 0 bp btr false)
    (fun x y => match synchronize x y with Ok (x', y') => forallb isnum (values x') && forallb isnum (values y') && Nat.eqb (length x') 4 | _ => false end)) as (x & y & E1 & E2 & H).
  { vm_compute; reflexivity. }
  exists x, y. destruct (synchronize x y) as [[x' y']| | | |] eqn:E3; try discriminate H. apply andb_prop in H as [H H3]. apply andb_prop in H as [H1 H2].
  exists x', y'. split; [exact E1|]. split; [exact E2|]. split; [reflexivity|]. split; [apply Forall_forall, forallb_forall, H1|].
  split; [apply Forall_forall, forallb_forall, H2|]. apply Nat.eqb_eq, H3.
Qed.
Lemma C38_case_lemma : Forall (fun e => wf (snd e) /\ snd e <> []) btr /\ made_interval c38_i /\ exists y,
  compute_robustness true 0 bphi btr false = Ok y /\ 2 <= length y /\ finite (begin_time y) = true.
Proof.
  split; [exact btr_good|]. split; [right; right; exists nzero, (dbl 1 0); reflexivity|].
  destruct (one_ok (compute_robustness true 0 bphi btr false) (fun y => Nat.leb 2 (length y) && finite (begin_time y))) as (y & E & H).
  { vm_compute; reflexivity. }
  apply andb_prop in H as [H1 H2]. apply Nat.leb_le in H1. eauto.
Qed.
Lemma C39_case_lemma : Forall (fun e => wf (snd e) /\ snd e <> []) btr /\ spans btr (dbl 0 0) (dbl 4 0) /\ nltb (dbl 0 0) (dbl 4 0) = true /\
  exists y, compute_robustness true 0 bphi btr false = Ok y /\ neqb (begin_time y) (dbl 0 0) = true /\ nleb (end_time y) (dbl 4 0) = true /\ 3 <= length y.
Proof.
  split; [exact btr_good|]. split.
  { split; [|split].
    - intros n x [[= <- <-]|[[= <- <-]|[]]]; split; vm_compute; reflexivity.
    - exists sx, bx. split; [left; reflexivity|vm_compute; reflexivity].
    - exists sx, bx. split; [left; reflexivity|vm_compute; reflexivity]. }
  split; [vm_compute; reflexivity|].
  destruct (one_ok (compute_robustness true 0 bphi btr false) (fun y => neqb (begin_time y) (dbl 0 0) && nleb (end_time y) (dbl 4 0) && Nat.leb 3 (length y))) as (y & E & H).
  { vm_compute; reflexivity. }
  apply andb_prop in H as [H H3]. apply andb_prop in H as [H1 H2]. apply Nat.leb_le in H3. eauto.
Qed.
Lemma C43_case_lemma : Forall (fun e => wf (snd e) /\ snd e <> []) btr /\ exists z, compute_robustness true 0 bphi btr false = Ok z.
Proof.
  split; [exact btr_good|]. destruct (one_ok (compute_robustness true 0 bphi btr false) (fun y => true)) as (y & E & H); [vm_compute; reflexivity|eauto].
Qed.
Definition btr' : trace B64 := [(sx, bx); ("w"%string, by_); (sy, by_)].
Lemma C41_case_lemma : free_of is_const bphi = true /\ keys_unique btr /\ keys_unique btr' /\
  (forall n x, In n (names bphi) -> (has_signal btr n x <-> has_signal btr' n x)) /\ btr <> btr'.
Proof.
  split; [reflexivity|]. split; [exact btr_keys|]. split.
  { unfold keys_unique. cbn [map fst btr']. constructor; [intros [H|[H|[]]]; discriminate H|]. constructor; [intros [H|[]]; discriminate H|]. constructor; [intros []|constructor]. }
  split; [|discriminate]. intros n x Hn. assert (K : n = sx \/ n = sy) by (cbn in Hn; repeat (destruct Hn as [<-|Hn]; [auto|]); destruct Hn).
  unfold has_signal, btr, btr'. destruct K as [-> | ->]; split; intros H.
  - destruct H as [H|[H|[]]]; [left; exact H|apply (f_equal fst) in H; discriminate H].
  - destruct H as [H|[H|[H|[]]]]; [left; exact H|apply (f_equal fst) in H; discriminate H|apply (f_equal fst) in H; discriminate H].
  - destruct H as [H|[H|[]]]; [apply (f_equal fst) in H; discriminate H|right; right; left; exact H].
  - destruct H as [H|[H|[H|[]]]]; [apply (f_equal fst) in H; discriminate H|apply (f_equal fst) in H; discriminate H|right; left; exact H].
Qed.
Definition bun : expr B64 := EAlways (ENot (EEventually bp interval_default)) c38_i.

(** ** C47, C48 (binary64) *)
Lemma C48_lemma dbg fuel (tr : trace B64) s phi : keys_unique tr ->
  free_of is_const phi = true -> free_of is_andor phi = true -> free_of is_until phi = true ->
  (forall e, In e (subs phi) -> match e with EPred _ _ c => finite c = true | _ => True end) -> intervals_made phi ->
  (forall n, In n (names phi) -> exists x, has_signal tr n x) ->
  Forall (fun e => wf (snd e) /\ snd e <> [] /\ Forall (fun a => finite (s_time a) = true /\ finite (s_value a) = true) (snd e)) tr ->
  exists n x z, names phi = [n] /\ has_signal tr n x /\ compute_robustness dbg fuel phi tr s = Ok z /\
    times z = times x /\ all_num (values z) /\
    forall x1 a x2 z1 c z2, x = x1 ++ a :: x2 -> z = z1 ++ c :: z2 -> length x1 = length z1 ->
      (nltb nzero (s_value c) = true -> sampled_sat phi (a :: x2)) /\
      (nltb (s_value c) nzero = true -> ~ sampled_sat phi (a :: x2)).
Proof.
  intros U F1 F2 F3 FC IM HN G. rewrite Forall_forall in G.
  destruct (discrete dbg fuel (mkRob (trace_begin tr) (trace_end tr) tr) phi) as (n & x & z & A & B & C & _ & D & E & K).
  - repeat split; assumption.
  - clear -FC. revert FC. induction phi using expr_rec; intros FC; cbn [free_of bad_const negb andb]; auto.
    + rewrite (FC _ (or_introl eq_refl)). reflexivity.
    + apply IHphi. intros e He. apply (FC e). right. exact He.
    + apply forallb_forall. intros e He. rewrite Forall_forall in H. apply H; [exact He|]. intros e' He'. apply FC. right. apply in_flat_map. eauto.
    + apply forallb_forall. intros e He. rewrite Forall_forall in H. apply H; [exact He|]. intros e' He'. apply FC. right. apply in_flat_map. eauto.
    + apply IHphi. intros e He. apply (FC e). right. exact He.
    + apply IHphi. intros e He. apply (FC e). right. exact He.
    + rewrite IHphi1, IHphi2; [reflexivity| |]; intros e He; apply (FC e); right; apply in_or_app; auto.
  - exact IM.
  - cbn [r_trace]. intros n Hn. destruct (HN n Hn) as (x & Hx). exists x. apply trace_find_iff; assumption.
  - cbn [r_trace]. intros n x Hx. apply trace_find_In in Hx. destruct (G _ Hx) as (W & N & Q). cbn [snd] in *. split; [split; assumption|].
    rewrite Forall_forall in Q. split; apply Forall_forall; intros a Ha; apply Q, Ha.
  - exists n, x, z. split; [exact A|]. split; [apply trace_find_In, B|]. split; [exact C|]. auto.
Qed.
Lemma C48_case_lemma : keys_unique btr /\ free_of is_const bun = true /\ free_of is_andor bun = true /\ free_of is_until bun = true /\
  (forall e, In e (subs bun) -> match e with EPred _ _ c => finite c = true | _ => True end) /\
  intervals_made bun /\ (forall n, In n (names bun) -> exists x, has_signal btr n x) /\
  Forall (fun e => wf (snd e) /\ snd e <> [] /\ Forall (fun a => finite (s_time a) = true /\ finite (s_value a) = true) (snd e)) btr.
Proof.
  split; [exact btr_keys|]. split; [reflexivity|]. split; [reflexivity|]. split; [reflexivity|].
  split. { intros e He. cbn in He. destruct He as [<-|[<-|[<-|[<-|[]]]]]; try exact I. vm_compute; reflexivity. } split.
  { intros e He. cbn in He. destruct He as [<-|[<-|[<-|[<-|[]]]]]; cbn; auto; [right; right; exists nzero, (dbl 1 0); reflexivity|left; reflexivity]. }
  split. { intros n [<-|[]]. exists bx. left. reflexivity. }
  assert (K : forall s, all_finite s = true -> Forall (fun a => finite (s_time a) = true /\ finite (s_value a) = true) s).
  { intros s H. destruct (all_finite_spec s H) as [A B]. rewrite Forall_forall in *. auto. }
  constructor; [split; [exact bx_wf|split; [discriminate|apply K; vm_compute; reflexivity]]|].
  constructor; [split; [exact by_wf|split; [discriminate|apply K; vm_compute; reflexivity]]|constructor].
Qed.

Lemma C47_b64_lemma dbg fuel (tr : trace B64) s phi : keys_unique tr ->
  free_of is_const phi = true -> free_of is_andor phi = true -> free_of is_until phi = true ->
  (forall e, In e (subs phi) -> match e with EPred _ _ c => finite c = true | _ => True end) -> intervals_made phi ->
  (forall n, In n (names phi) -> exists x, has_signal tr n x) ->
  Forall (fun e => wf (snd e) /\ snd e <> [] /\ Forall (fun a => finite (s_time a) = true /\ finite (s_value a) = true) (snd e)) tr ->
  exists z, compute_robustness dbg fuel phi tr s = Ok z.
Proof. intros. destruct (C48_lemma dbg fuel tr s phi) as (n & x & z & _ & _ & E & _); eauto. Qed.
Lemma C42_case_lemma : In sy (names bphi) /\ ~ In sy (map fst [(sx, bx)]).
Proof. split; [right; left; reflexivity|]. cbn [map fst]. intros [H|[]]; discriminate H. Qed.
Lemma C44_lemma dbg fuel phi (tr : trace B64) : compute_robustness dbg fuel phi tr true = compute_robustness dbg fuel phi tr false.
Proof. reflexivity. Qed.
Lemma C44_case_lemma : times bx <> times by_ /\ exists z, compute_robustness true 0 bphi btr true = Ok z.
Proof.
  split; [|exact (proj2 C43_case_lemma)]. intros H. apply (f_equal (fun l => match l with _ :: u :: _ => nltb u (dbl 2 0) | _ => true end)) in H. vm_compute in H. discriminate H.
Qed.
