(** C105: from the text of a specification to the verdict on a trace. *)
From Coq Require Import Ascii Reals Lra Classical_Prop.
From Verif Require Import Base Num NumXR.
From Verif.Model Require Import Signal Ast Robustness Peg Parser.
From Verif.Proofs Require Import WriteOut PwlFacts MinMaxProps RobFacts RobExact QuantFacts PerturbFacts BoolLaws TokenEval SpecFacts InlineFacts ParserExamples RobExamples PerturbExamples.
From Verif.Spec Require Import Pwl Formula Semantics Quantitative Perturb AstSpec Text Syntax Monitor.
Open Scope R_scope.

Section Facts.
Variable stod : list ascii -> option XR.
Variable lt : ptrace.
Hypothesis FIN : forall w v, stod w = Some v -> exists r, v = Fin r.

(** ** Operands of And and Or *)
Definition parts (p : bool) (x : expr XR) (l : list (expr XR)) : Prop := x = node p l \/ l = [x].
Lemma parts_all p x l (b : expr XR -> bool) : (forall m, b (node p m) = forallb b m) -> parts p x l -> b x = true -> forallb b l = true.
Proof. intros H [->| ->] B; [rewrite <- H; exact B|]. cbn. rewrite B. reflexivity. Qed.
Lemma parts_evaluable p x l : parts p x l -> evaluable lt x -> l <> [] /\ forall e, In e l -> evaluable lt e.
Proof.
  intros [->| ->] E.
  - split; [intros ->; destruct p, E as (_ & E & _); discriminate E|]. intros e. apply ev_node with (p := p), E.
  - split; [discriminate|]. intros e [<-|[]]. exact E.
Qed.
Lemma sat_node p l t : sat lt (node p l) t <-> if p then (forall e, In e l -> sat lt e t) else exists e, In e l /\ sat lt e t.
Proof.
  destruct p; cbn [node sat].
  - rewrite Forall_forall. split; [intros H e He; apply (H (sat lt e)), in_map, He|]. intros H P HP. apply in_map_iff in HP as (e & <- & He). auto.
  - rewrite Exists_exists. split; [intros (P & HP & H); apply in_map_iff in HP as (e & <- & He); eauto|]. intros (e & He & H). exists (sat lt e). split; [apply in_map, He|exact H].
Qed.
Lemma parts_sat p x l t : parts p x l -> (sat lt x t <-> sat lt (node p l) t).
Proof.
  intros [->| ->]; [reflexivity|]. rewrite sat_node. destruct p; [|split; [intros H; exists x; split; [left; reflexivity|exact H]|intros (e & [<-|[]] & H); exact H]].
  split; [intros H e [<-|[]]; exact H|]. intros H. apply H. left. reflexivity.
Qed.
Lemma parts_names p x l n : parts p x l -> (In n (names x) <-> In n (flat_map names l)).
Proof. intros [->| ->]; [destruct p; reflexivity|]. cbn. rewrite app_nil_r. reflexivity. Qed.
Lemma extreme_free p (e : expr XR) : free_of is_temporal e = true -> extreme_exact p e = true.
Proof. intros H. destruct e; cbn [extreme_exact]; rewrite ?H; reflexivity. Qed.
Lemma free_node p (l : list (expr XR)) : free_of is_temporal (node p l) = forallb (free_of is_temporal) l.
Proof. destruct p; reflexivity. Qed.
Lemma extreme_node p (l : list (expr XR)) : extreme_exact p (node p l) = forallb (extreme_exact p) l.
Proof.
  assert (E : extreme_exact p (node p l) = forallb (free_of is_temporal) l || forallb (extreme_exact p) l) by (destruct p; reflexivity).
  rewrite E. destruct (forallb (free_of is_temporal) l) eqn:F; [|reflexivity]. symmetry. apply forallb_forall. intros e He. rewrite forallb_forall in F. apply extreme_free, F, He.
Qed.

Definition op (p : bool) (x y : expr XR) : outcome (expr XR) := if p then op_and x y else op_or x y.
Lemma two_node (p : bool) (l : list (expr XR)) e : (if p then And_ l else Or_ l) = Ok e -> e = node p l.
Proof. destruct p, l as [|a [|b l]]; cbn; try discriminate; intros H; injection H as <-; reflexivity. Qed.
Lemma op_parts p x y e : is_const x = false -> is_const y = false -> op p x y = Ok e -> exists l m, e = node p (l ++ m) /\ parts p x l /\ parts p y m.
Proof.
  intros Nx Ny H. assert (D : (if p then And_ [x; y] else Or_ [x; y]) = Ok e -> exists l m, e = node p (l ++ m) /\ parts p x l /\ parts p y m).
  { intros K. apply two_node in K. exists [x], [y]. split; [exact K|]. split; right; reflexivity. }
  destruct p.
  - destruct x; try discriminate; try exact (D H). cbn [op op_and] in H. unfold and_helper in H.
    destruct y; try discriminate Ny; apply (two_node true) in H; (eexists args, _; split; [exact H|]; split; [left; reflexivity|]; (right; reflexivity) || (left; reflexivity)).
  - destruct x; try discriminate; try exact (D H). cbn [op op_or] in H. unfold or_helper in H.
    destruct y; try discriminate Ny; apply (two_node false) in H; (eexists args, _; split; [exact H|]; split; [left; reflexivity|]; (right; reflexivity) || (left; reflexivity)).
Qed.

(** ** A formula and what is known of it *)
Record known := mkKnown { k_names : list string; k_sat : R -> Prop; k_plain : bool; k_exact : bool; k_extreme : bool -> bool; k_sound : bool -> bool; k_first : bool -> bool }.
Record good (e : expr XR) (k : known) : Prop := {
  g_ev : evaluable lt e;
  g_names : forall n, In n (names e) <-> In n (k_names k);
  g_sat : forall t, sat lt e t <-> k_sat k t;
  g_plain : k_plain k = true -> free_of is_temporal e = true;
  g_exact : k_exact k = true -> first_exact e = true;
  g_extreme : forall p, k_extreme k p = true -> extreme_exact p e = true;
  g_sound : forall p, k_sound k p = true -> sound_for p e = true;
  g_first : forall p, k_first k p = true -> sound_first p e = true }.
Lemma good_weaken e k k' : good e k -> (forall n, In n (k_names k) <-> In n (k_names k')) -> (forall t, k_sat k t <-> k_sat k' t) ->
  (k_plain k' = true -> k_plain k = true) -> (k_exact k' = true -> k_exact k = true) -> (forall p, k_extreme k' p = true -> k_plain k = true \/ k_extreme k p = true) ->
  (forall p, k_sound k' p = true -> k_sound k p = true) -> (forall p, k_first k' p = true -> k_first k p = true) -> good e k'.
Proof.
  intros [A B C D E F G H] H1 H2 H3 H4 H5 H6 H7. split; auto.
  - intros n. rewrite B. apply H1.
  - intros t. rewrite C. apply H2.
  - intros p K. destruct (H5 p K) as [K'|K']; [apply extreme_free|]; auto.
Qed.
Lemma good_const e k : good e k -> is_const e = false.
Proof. intros [(A & _) _ _ _ _ _ _ _]. destruct e; try reflexivity. discriminate A. Qed.

Definition k_not (k : known) : known :=
  mkKnown (k_names k) (fun t => ~ k_sat k t) (k_plain k) (k_exact k) (fun p => k_extreme k (negb p)) (fun p => k_sound k (negb p)) (fun p => k_first k (negb p)).
Definition k_op (q : bool) (k l : known) : known :=
  mkKnown (k_names k ++ k_names l) (fun t => if q then k_sat k t /\ k_sat l t else k_sat k t \/ k_sat l t) (k_plain k && k_plain l) (k_exact k && k_exact l)
    (fun p => Bool.eqb p q && (k_extreme k p && k_extreme l p)) (fun p => k_sound k p && k_sound l p) (fun p => k_first k p && k_first l p).

Lemma good_not e k : good e k -> good (Not_ e) (k_not k).
Proof.
  intros H. pose proof (good_const _ _ H) as N. replace (Not_ e) with (ENot e) by (destruct e; try reflexivity; discriminate N). clear N.
  destruct H as [A B C D E F G H]. split; cbn [k_not k_names k_sat k_plain k_exact k_extreme k_sound k_first]; auto.
  - destruct A as (A1 & A2 & A3 & A4 & A5). split; [exact A1|]. split; [exact A2|]. split; [|split; [|exact A5]]; intros e' [<-|He]; try exact I; [apply A3, He|apply A4, He].
  - intros t. cbn [sat]. rewrite C. reflexivity.
  - intros p K. cbn [extreme_exact]. rewrite (F _ K). apply orb_true_r.
  - intros p. apply G.
  - intros p. apply H.
Qed.
Lemma good_op q x y k l e : good x k -> good y l -> op q x y = Ok e -> good e (k_op q k l).
Proof.
  intros X Y H. apply op_parts in H as (a & b & -> & Pa & Pb); [|eapply good_const; eauto|eapply good_const; eauto].
  destruct X as [A1 B1 C1 D1 E1 F1 G1 H1], Y as [A2 B2 C2 D2 E2 F2 G2 H2].
  assert (ALL : forall f : expr XR -> bool, (forall m, f (node q m) = forallb f m) -> f x = true -> f y = true -> f (node q (a ++ b)) = true).
  { intros f Hf Fx Fy. rewrite Hf, forallb_app, (parts_all q x a f), (parts_all q y b f) by assumption. reflexivity. }
  split; cbn [k_op k_names k_sat k_plain k_exact k_extreme k_sound k_first].
  - destruct (parts_evaluable q x a Pa A1) as [Na Ea], (parts_evaluable q y b Pb A2) as [_ Eb]. apply evaluable_node.
    split; [intros K; apply app_eq_nil in K as [K _]; contradiction|]. intros e K. apply in_app_or in K as [K|K]; auto.
  - intros n. rewrite in_app_iff, <- B1, <- B2, (parts_names q x a n Pa), (parts_names q y b n Pb), <- in_app_iff, <- flat_map_app. destruct q; reflexivity.
  - intros t. specialize (C1 t). specialize (C2 t). rewrite (parts_sat q x a t Pa), sat_node in C1. rewrite (parts_sat q y b t Pb), sat_node in C2. rewrite sat_node.
    destruct q; rewrite <- C1, <- C2.
    + split; [intros K; split; intros e He; apply K, in_or_app; auto|]. intros [K1 K2] e He. apply in_app_or in He as [He|He]; auto.
    + split; [intros (e & He & K); apply in_app_or in He as [He|He]; eauto|]. intros [(e & He & K)|(e & He & K)]; exists e; (split; [apply in_or_app; auto|exact K]).
  - intros K. apply andb_prop in K as [K1 K2]. apply ALL; auto. apply free_node.
  - intros K. apply andb_prop in K as [K1 K2]. apply ALL; auto. destruct q; reflexivity.
  - intros p K. apply andb_prop in K as [K K']. apply Bool.eqb_prop in K as ->. apply andb_prop in K' as [K1 K2]. apply ALL; auto. apply extreme_node.
  - intros p K. apply andb_prop in K as [K1 K2]. apply ALL; auto. destruct q; reflexivity.
  - intros p K. apply andb_prop in K as [K1 K2]. apply ALL; auto. destruct q; reflexivity.
Qed.

(** ** Terms *)
Definition k_of (t : term) : known := mkKnown (signals t) (holds (real_literal stod) lt t) (timeless t) (monitorable t) (fun p => monotone p t) (fun p => trusted p t) (fun p => trusted_first p t).
Lemma literal_real w v : literal_value stod w = Ok v -> exists r, v = Fin r.
Proof.
  unfold literal_value. destruct (forallb digit w).
  - destruct (_ <=? _)%Z; [|discriminate]. intros H. injection H as <-. eexists. reflexivity.
  - destruct (stod w) as [u|] eqn:E; [|discriminate]. intros H. injection H as <-. eapply FIN; eauto.
Qed.
Lemma inside_defined e u t : (forall n, In n (names e) <-> In n (signals u)) -> (inside lt e t <-> defined lt u t).
Proof. intros H. split; intros K n Hn; apply K, H, Hn. Qed.

Lemma good_list two em env ts : Forall (fun t => leaves is_pred t = true -> (forall n, In n (signals t) -> exists l, In (n, l) lt) ->
    forall e, term_value stod two em env t = Ok e -> good e (k_of t)) ts ->
  forallb (leaves is_pred) ts = true -> (forall n, In n (flat_map signals ts) -> exists l, In (n, l) lt) ->
  forall es, list_values (term_value stod two em env) ts = Ok es -> Forall2 (fun e t => good e (k_of t)) es ts.
Proof.
  induction 1 as [|t ts Ht _ IH]; intros L N es E; cbn [list_values] in E; [injection E as <-; constructor|].
  apply bind_ok_inv in E as (e & He & E). apply bind_ok_inv in E as (es' & Hes & E). injection E as <-. cbn in L. apply andb_prop in L as [L1 L2].
  constructor; [apply Ht; auto; intros n Hn; apply N; cbn; apply in_or_app; auto|]. apply IH; auto. intros n Hn. apply N. cbn. apply in_or_app. auto.
Qed.
Lemma F2_in {A B} (P : A -> B -> Prop) l m a : Forall2 P l m -> In a l -> exists b, In b m /\ P a b.
Proof. induction 1 as [|x y l m H0 _ IH]; [intros []|]. intros [<-|H']; [eexists; split; [left; reflexivity|assumption]|]. destruct IH as (b & Hb & K); auto. exists b. split; [right|]; assumption. Qed.
Lemma F2_in_r {A B} (P : A -> B -> Prop) l m b : Forall2 P l m -> In b m -> exists a, In a l /\ P a b.
Proof. induction 1 as [|x y l m H0 _ IH]; [intros []|]. intros [<-|H']; [eexists; split; [left; reflexivity|assumption]|]. destruct IH as (a & Ha & K); auto. exists a. split; [right|]; assumption. Qed.
Definition tnode (p : bool) (ts : list term) : term := if p then TAnd ts else TOr ts.
Lemma good_node q es ts : Forall2 (fun e t => good e (k_of t)) es ts -> (2 <= length es)%nat -> good (node q es) (k_of (tnode q ts)).
Proof.
  intros H L.
  assert (ALL : forall (f : expr XR -> bool) (g : term -> bool), (forall e t, good e (k_of t) -> g t = true -> f e = true) -> forallb g ts = true -> forallb f es = true).
  { intros f g Hfg K. apply forallb_forall. intros e He. destruct (F2_in _ _ _ e H He) as (t & Ht & G). apply (Hfg e t G). rewrite forallb_forall in K. auto. }
  split; cbn [k_of k_names k_sat k_plain k_exact k_extreme k_sound k_first].
  - apply evaluable_node. split; [intros ->; cbn in L; lia|]. intros e He. destruct (F2_in _ _ _ e H He) as (t & _ & G). apply G.
  - intros n. assert (E : In n (flat_map names es) <-> In n (flat_map signals ts)); [|destruct q; exact E]. rewrite !in_flat_map. split.
    + intros (e & He & Hn). destruct (F2_in _ _ _ e H He) as (t & Ht & G). exists t. split; [exact Ht|]. apply (g_names _ _ G n), Hn.
    + intros (t & Ht & Hn). destruct (F2_in_r _ _ _ t H Ht) as (e & He & G). exists e. split; [exact He|]. apply (g_names _ _ G n), Hn.
  - intros t. rewrite sat_node. destruct q; cbn [tnode holds].
    + rewrite Forall_forall. split.
      * intros K P HP. apply in_map_iff in HP as (u & <- & Hu). destruct (F2_in_r _ _ _ u H Hu) as (e & He & G). apply (g_sat _ _ G t), K, He.
      * intros K e He. destruct (F2_in _ _ _ e H He) as (u & Hu & G). apply (g_sat _ _ G t), (K (holds (real_literal stod) lt u)), in_map, Hu.
    + rewrite Exists_exists. split.
      * intros (e & He & K). destruct (F2_in _ _ _ e H He) as (u & Hu & G). exists (holds (real_literal stod) lt u). split; [apply in_map, Hu|apply (g_sat _ _ G t), K].
      * intros (P & HP & K). apply in_map_iff in HP as (u & <- & Hu). destruct (F2_in_r _ _ _ u H Hu) as (e & He & G). exists e. split; [exact He|apply (g_sat _ _ G t), K].
  - intros K. rewrite free_node. apply (ALL _ timeless); [intros e t G; apply G|destruct q; exact K].
  - intros K. assert (E : forallb first_exact es = true); [|destruct q; exact E]. apply (ALL _ monitorable); [intros e t G; apply G|destruct q; exact K].
  - intros p K. assert (E : forallb timeless ts = true \/ p = q /\ forallb (monotone p) ts = true).
    { destruct q; cbn [tnode monotone timeless] in K; destruct p; cbn [negb andb] in K; apply orb_prop in K as [K|K]; auto; discriminate K. }
    destruct E as [E|[-> E]].
    + apply extreme_free. rewrite free_node. apply (ALL _ timeless); [intros e t G; apply G|exact E].
    + rewrite extreme_node. apply (ALL _ (monotone q)); [intros e t G; apply (g_extreme _ _ G)|exact E].
  - intros p K. assert (E : forallb (sound_for p) es = true); [|destruct q; exact E]. apply (ALL _ (trusted p)); [intros e t G; apply (g_sound _ _ G)|destruct q; exact K].
  - intros p K. assert (E : forallb (sound_first p) es = true); [|destruct q; exact E]. apply (ALL _ (trusted_first p)); [intros e t G; apply (g_first _ _ G)|destruct q; exact K].
Qed.

Lemma good_unbounded (q : bool) e u : good e (k_of u) -> good (if q then EAlways e interval_default else EEventually e interval_default) (k_of (if q then TAlways u else TEventually u)).
Proof.
  intros [A B C D E F G H]. cbn [k_of k_names k_sat k_plain k_exact k_extreme k_sound k_first] in *. split; cbn [k_of k_names k_sat k_plain k_exact k_extreme k_sound k_first].
  - destruct A as (A1 & A2 & A3 & A4 & A5). split; [destruct q; exact A1|]. split; [destruct q; exact A2|]. split; [|split; [|destruct q; exact A5]];
      intros e' He; (assert (K : e' = (if q then EAlways e interval_default else EEventually e interval_default) \/ In e' (subs e)) by (destruct q; destruct He as [<-|He]; auto));
      destruct K as [->|K]; try (destruct q; (exact I || left; reflexivity)); [apply A3, K|apply A4, K].
  - destruct q; exact B.
  - intros t. assert (I' : forall x, inside lt e x <-> defined lt u x) by (intros x; apply inside_defined, B). destruct q; cbn [sat holds].
    + split; intros K t' L M; apply C, K, I', M; exact L.
    + split; intros (t' & L & M & K); exists t'; (split; [exact L|]); split; [apply I', M|apply C, K|apply I', M|apply C, K].
  - destruct q; discriminate.
  - destruct q; cbn; apply F.
  - intros p K. destruct q; cbn [monotone timeless orb] in K; apply andb_prop in K as [K1 K2]; cbn [extreme_exact free_of is_temporal negb andb orb]; apply andb_true_intro; (split; [exact K1|apply F, K2]).
  - intros p K. destruct q; cbn [trusted] in K; apply andb_prop in K as [K1 K2]; cbn [sound_for]; apply andb_true_intro; (split; [exact K1|apply G, K2]).
  - intros p K. destruct q; cbn in *; apply G, K.
Qed.
Lemma good_until e f u v : good e (k_of u) -> good f (k_of v) -> good (EUntil e f interval_default) (k_of (TUntil u v)).
Proof.
  intros [(A1 & A2 & A3 & A4 & A5) B C D E F G H] [(A1' & A2' & A3' & A4' & A5') B' C' D' E' F' G' H']. cbn [k_of k_names k_sat k_plain k_exact k_extreme k_sound k_first] in *. split; cbn [k_of k_names k_sat k_plain k_exact k_extreme k_sound k_first].
  - split; [cbn; rewrite A1, A1'; reflexivity|]. split; [cbn; rewrite A2, A2'; reflexivity|]. split; [|split].
    + intros x [<-|He]; [left; reflexivity|]. apply in_app_or in He as [He|He]; [apply A3, He|apply A3', He].
    + intros x [<-|He]; [exact I|]. apply in_app_or in He as [He|He]; [apply A4, He|apply A4', He].
    + intros n Hn. apply in_app_or in Hn as [Hn|Hn]; auto.
  - intros n. cbn [names signals]. rewrite !in_app_iff, B, B'. reflexivity.
  - intros t. cbn [sat holds]. assert (I1 : forall x, inside lt e x <-> defined lt u x) by (intros x; apply inside_defined, B).
    assert (I2 : forall x, inside lt f x <-> defined lt v x) by (intros x; apply inside_defined, B').
    split; intros (t' & L & M & M' & K & K'); exists t'; (split; [exact L|]); (split; [apply I1, M|]); (split; [apply I2, M'|]); (split; [apply C', K|]); intros x Hx; apply C, K', Hx.
  - discriminate.
  - discriminate.
  - intros p K. discriminate K.
  - intros p K. discriminate K.
  - intros p K. cbn [trusted_first] in K. apply andb_prop in K as [K K3]. apply andb_prop in K as [K1 K2]. cbn [sound_first]. rewrite K1, (G _ K2), (G' _ K3). reflexivity.
Qed.

Ltac tidy := cbn [k_of k_op k_not k_names k_sat k_plain k_exact k_extreme k_sound k_first signals holds timeless monitorable monotone trusted trusted_first].
Ltac split_bools := repeat match goal with
  | H : (_ && _)%bool = true |- _ => apply andb_prop in H as [? ?]
  | H : (_ || _)%bool = true |- _ => apply orb_prop in H as [H|H]
  | H : false = true |- _ => discriminate H end.
Ltac have := repeat match goal with H : ?x = true |- context [?x] => rewrite H end.
Lemma good_term two em env t : leaves is_pred t = true -> (forall n, In n (signals t) -> exists l, In (n, l) lt) ->
  forall e, term_value stod two em env t = Ok e -> good e (k_of t).
Proof.
  induction t as [b|x|o x w|o w x| |t IH|ts IH|ts IH|t v IHt IHu|t v IHt IHu|t v IHt IHu|t IH|t IH|t v IHt IHu] using term_induction; intros L N e E; cbn [term_value leaves] in *; try discriminate.
  - apply bind_ok_inv in E as (c & Hc & E). injection E as <-. destruct (literal_real w c Hc) as (r & ->). split; tidy; try reflexivity; auto.
    + split; [reflexivity|]. split; [reflexivity|]. split; [intros e' [<-|[]]; exact I|]. split; [intros e' [<-|[]]; eexists; reflexivity|]. intros n [<-|[]]. apply N. left. reflexivity.
    + intros t. cbn [sat]. split; intros (v & r' & V & K & R); exists v, r'; (split; [exact V|]); (split; [|exact R]).
      * unfold real_literal. rewrite Hc. injection K as <-. reflexivity.
      * unfold real_literal in K. rewrite Hc in K. injection K as ->. reflexivity.
  - apply bind_ok_inv in E as (f & Hf & E). injection E as <-. eapply good_weaken; [apply good_not, IH; eauto| | | | | | |]; tidy; try reflexivity; auto.
    intros p K. apply orb_prop in K as [K|K]; auto.
  - apply bind_ok_inv in E as (es & Hes & E). destruct (length es <? 2)%nat eqn:LE; [discriminate|]. injection E as <-. apply Nat.ltb_ge in LE.
    apply (good_node true es ts); [eapply good_list; eauto|exact LE].
  - apply bind_ok_inv in E as (es & Hes & E). destruct (length es <? 2)%nat eqn:LE; [discriminate|]. injection E as <-. apply Nat.ltb_ge in LE.
    apply (good_node false es ts); [eapply good_list; eauto|exact LE].
  - apply andb_prop in L as [L1 L2]. apply bind_ok_inv in E as (x & Hx & E). apply bind_ok_inv in E as (y & Hy & E).
    assert (X : good x (k_of t)) by (apply IHt; auto; intros n Hn; apply N, in_or_app; auto). assert (Y : good y (k_of v)) by (apply IHu; auto; intros n Hn; apply N, in_or_app; auto).
    eapply good_weaken; [exact (good_op false _ _ _ _ e (good_not _ _ X) Y E)| | | | | | |]; tidy; try reflexivity; auto.
    + intros s. split; [tauto|]. intros K. destruct (classic (holds (real_literal stod) lt t s)); tauto.
    + intros p K. apply orb_prop in K as [K|K]; [left; exact K|right]. apply andb_prop in K as [K K2]. apply andb_prop in K as [K1 K3].
      destruct p; [discriminate K1|]. cbn. rewrite K3, K2. reflexivity.
  - apply andb_prop in L as [L1 L2]. apply bind_ok_inv in E as (x & Hx & E). apply bind_ok_inv in E as (y & Hy & E). unfold Iff_ in E. apply bind_ok_inv in E as (a & Ha & E). apply bind_ok_inv in E as (b & Hb & E).
    assert (X : good x (k_of t)) by (apply IHt; auto; intros n Hn; apply N, in_or_app; auto). assert (Y : good y (k_of v)) by (apply IHu; auto; intros n Hn; apply N, in_or_app; auto).
    eapply good_weaken; [exact (good_op false _ _ _ _ e (good_op true _ _ _ _ a X Y Ha) (good_op true _ _ _ _ b (good_not _ _ X) (good_not _ _ Y) Hb) E)| | | | | | |]; tidy.
    + intros n. rewrite !in_app_iff. tauto.
    + intros s. destruct (classic (holds (real_literal stod) lt t s)), (classic (holds (real_literal stod) lt v s)); tauto.
    + intros K; split_bools; have; reflexivity.
    + intros K; split_bools; have; reflexivity.
    + intros p K. left. split_bools; have; reflexivity.
    + intros p K. destruct p; split_bools; cbn; have; reflexivity.
    + intros p K. destruct p; split_bools; cbn; have; reflexivity.
  - apply andb_prop in L as [L1 L2]. apply bind_ok_inv in E as (x & Hx & E). apply bind_ok_inv in E as (y & Hy & E). unfold Xor_ in E. apply bind_ok_inv in E as (a & Ha & E). apply bind_ok_inv in E as (b & Hb & E).
    assert (X : good x (k_of t)) by (apply IHt; auto; intros n Hn; apply N, in_or_app; auto). assert (Y : good y (k_of v)) by (apply IHu; auto; intros n Hn; apply N, in_or_app; auto).
    eapply good_weaken; [exact (good_op true _ _ _ _ e (good_op false _ _ _ _ a X Y Ha) (good_op false _ _ _ _ b (good_not _ _ X) (good_not _ _ Y) Hb) E)| | | | | | |]; tidy.
    + intros n. rewrite !in_app_iff. tauto.
    + intros s. destruct (classic (holds (real_literal stod) lt t s)), (classic (holds (real_literal stod) lt v s)); tauto.
    + intros K; split_bools; have; reflexivity.
    + intros K; split_bools; have; reflexivity.
    + intros p K. left. split_bools; have; reflexivity.
    + intros p K. destruct p; split_bools; cbn; have; reflexivity.
    + intros p K. destruct p; split_bools; cbn; have; reflexivity.
  - apply bind_ok_inv in E as (f & Hf & E). injection E as <-. apply (good_unbounded true f t). auto.
  - apply bind_ok_inv in E as (f & Hf & E). injection E as <-. apply (good_unbounded false f t). auto.
  - apply andb_prop in L as [L1 L2]. apply bind_ok_inv in E as (x & Hx & E). apply bind_ok_inv in E as (y & Hy & E). injection E as <-.
    apply good_until; [apply IHt|apply IHu]; auto; intros n Hn; apply N, in_or_app; auto.
Qed.

End Facts.

Section Verdict.
Variable stod : list ascii -> option XR.
Hypothesis FIN : forall w v, stod w = Some v -> exists r, v = Fin r.
Lemma C105_lemma dbg fuel cs txt g lt tr t0 s x u :
  all_leaves ref_ok cs = true -> spec_text cs txt -> from_string dbg stod txt = Ok g -> In (x, u) (asserted [] cs) -> leaves is_pred u = true ->
  (forall n, In n (signals u) -> exists l, In (n, l) lt) -> trace_of lt tr -> keys_unique tr -> all_start lt t0 ->
  exists e l z v, lookup (assertions g) x = Some e /\ compute_robustness dbg fuel e tr s = Ok z /\ built l z /\
    (forall t, (exists w, pwl l t w) <-> defined lt u t) /\ pwl l t0 v /\
    (monitorable u = true \/ trusted_first true u = true -> 0 < v -> holds (real_literal stod) lt u t0) /\
    (monitorable u = true \/ trusted_first false u = true -> v < 0 -> ~ holds (real_literal stod) lt u t0).
Proof.
  intros R H G K L N T KU AS. destruct (asserted_formula stod dbg cs txt g x u R H G K) as (e & Le & Ve).
  pose proof (good_term stod lt FIN _ _ _ u L N e Ve) as Ge. pose proof (g_ev _ _ _ Ge) as Ev.
  destruct (C36_lemma dbg fuel lt tr t0 e s T KU AS Ev) as (l & z & C & B & D & _ & _ & P1 & P2).
  assert (X : exists v, pwl l t0 v).
  { apply D. intros n Hn. destruct Ev as (_ & _ & _ & _ & Ev). destruct (Ev n Hn) as (p & Hp). unfold all_start in AS. rewrite Forall_forall in AS. destruct (AS _ Hp) as [NE ST]. cbn [snd] in NE, ST.
    destruct p as [|[a1 b1] p]; [congruence|]. exists b1, ((a1, b1) :: p). split; [exact Hp|]. left. exists (a1, b1). split; [left; reflexivity|]. split; [exact ST|reflexivity]. }
  destruct X as (v & Pv). exists e, l, z, v. split; [exact Le|]. split; [exact C|]. split; [exact B|].
  split; [intros t; rewrite D; apply inside_defined, (g_names _ _ _ Ge)|]. split; [exact Pv|].
  assert (M : monitorable u = true -> (0 < v -> sat lt e t0) /\ (v < 0 -> ~ sat lt e t0)).
  { intros M. destruct (C77_sign_lemma dbg fuel lt tr t0 e s T KU AS Ev (g_exact _ _ _ Ge M)) as (l' & z' & v' & C' & B' & P' & Q1 & Q2).
    rewrite C in C'. injection C' as <-. apply built_iff in B as [I Z], B' as [_ Z']. rewrite Z in Z'. apply fsig_inj in Z' as <-. rewrite (pwl_fun l t0 v v' I Pv P'). auto. }
  pose proof (g_sat _ _ _ Ge t0) as ST. cbn in ST. split; intros [Q|Q] S.
  - apply ST, (M Q), S.
  - apply ST, (P1 (g_first _ _ _ Ge true Q) v Pv S).
  - rewrite <- ST. apply (M Q), S.
  - rewrite <- ST. apply (P2 (g_first _ _ _ Ge false Q) v Pv S).
Qed.
Lemma C105_margin_lemma dbg fuel cs txt g lt tr lt' tr' t0 s x u d :
  all_leaves ref_ok cs = true -> spec_text cs txt -> from_string dbg stod txt = Ok g -> In (x, u) (asserted [] cs) -> leaves is_pred u = true -> monitorable u = true ->
  (forall n, In n (signals u) -> exists l, In (n, l) lt) -> trace_of lt tr -> keys_unique tr -> all_start lt t0 ->
  trace_of lt' tr' -> keys_unique tr' -> all_start lt' t0 -> close d lt lt' ->
  exists e l z v, lookup (assertions g) x = Some e /\ compute_robustness dbg fuel e tr s = Ok z /\ built l z /\ pwl l t0 v /\
    (d < v -> holds (real_literal stod) lt' u t0) /\ (v < - d -> ~ holds (real_literal stod) lt' u t0).
Proof.
  intros R H G K L M N T KU AS T' KU' AS' CL. destruct (asserted_formula stod dbg cs txt g x u R H G K) as (e & Le & Ve).
  pose proof (good_term stod lt FIN _ _ _ u L N e Ve) as Ge. pose proof (g_ev _ _ _ Ge) as Ev.
  assert (N' : forall n, In n (signals u) -> exists l, In (n, l) lt').
  { intros n Hn. pose proof (proj1 (ev_same lt lt' _ CL e) Ev) as (_ & _ & _ & _ & Q). apply Q, (g_names _ _ _ Ge), Hn. }
  pose proof (g_sat _ _ _ (good_term stod lt' FIN _ _ _ u L N' e Ve) t0) as ST. cbn in ST.
  destruct (C77_lemma dbg fuel lt tr lt' tr' t0 e s d T KU AS T' KU' AS' Ev (g_exact _ _ _ Ge M) CL) as (l & z & v & C & B & P & Q1 & Q2).
  exists e, l, z, v. rewrite <- ST. repeat (split; [assumption|]). exact Q2.
Qed.
End Verdict.

(** ** A case *)
Local Open Scope string_scope.
Definition c105_double : list ascii -> option XR := fun _ => Some (Fin (1 / 2)).
Definition c105_cs : list command :=
  [Def "a" (TPred GT "x" (chars "0.5"));
   Assert "m" (TXor (TAlways (TImplies (TRef "a") (TPred LE "y" (chars "2")))) (TEventually (TRef "a")));
   Assert "n" (TUntil (TRef "a") (TAlways (TEventually (TPred LT "y" (chars "1")))));
   Assert "o" (TUntil (TRef "a") (TNot (TAlways (TPred LT "y" (chars "1")))))].
Definition c105_m : term := TXor (TAlways (TImplies (TPred GT "x" (chars "0.5")) (TPred LE "y" (chars "2")))) (TEventually (TPred GT "x" (chars "0.5"))).
Definition c105_o : term := TUntil (TPred GT "x" (chars "0.5")) (TNot (TAlways (TPred LT "y" (chars "1")))).
Definition c105_text : string := "(define-formula a (> x 0.5)) (assert m (xor (always (implies a (<= y 2))) (eventually a)))
(assert n (until a (always (eventually (< y 1))))) (assert o (until a (not (always (< y 1)))))".
Lemma C105_case_lemma : (forall w v, c105_double w = Some v -> exists r, v = Fin r) /\ all_leaves ref_ok c105_cs = true /\ spec_text c105_cs c105_text /\
  (exists g, from_string false c105_double c105_text = Ok g) /\
  In ("m", c105_m) (asserted [] c105_cs) /\ leaves is_pred c105_m = true /\ monitorable c105_m = true /\ (forall n, In n (signals c105_m) -> exists l, In (n, l) lt1) /\
  In ("o", c105_o) (asserted [] c105_cs) /\ leaves is_pred c105_o = true /\ trusted_first false c105_o = true /\ (forall n, In n (signals c105_o) -> exists l, In (n, l) lt1) /\
  trace_of lt1 tr1 /\ keys_unique tr1 /\ all_start lt1 0 /\ trace_of lt3 tr3 /\ keys_unique tr3 /\ all_start lt3 0 /\ close 1 lt1 lt3.
Proof.
  assert (T : spec_text c105_cs c105_text).
  { apply (render_text "" [(LPar, ""); (Define, " "); (Word "a", " "); (LPar, ""); (Cmp GT, " "); (Word "x", " "); (Number (chars "0.5"), ""); (RPar, ""); (RPar, " ");
      (LPar, ""); (Word "assert", " "); (Word "m", " "); (LPar, ""); (Word "xor", " "); (LPar, ""); (Word "always", " "); (LPar, ""); (Word "implies", " "); (Word "a", " ");
      (LPar, ""); (Cmp LE, " "); (Word "y", " "); (Number (chars "2"), ""); (RPar, ""); (RPar, ""); (RPar, " "); (LPar, ""); (Word "eventually", " "); (Word "a", ""); (RPar, ""); (RPar, ""); (RPar, nl);
      (LPar, ""); (Word "assert", " "); (Word "n", " "); (LPar, ""); (Word "until", " "); (Word "a", " "); (LPar, ""); (Word "always", " "); (LPar, ""); (Word "eventually", " ");
      (LPar, ""); (Cmp LT, " "); (Word "y", " "); (Number (chars "1"), ""); (RPar, ""); (RPar, ""); (RPar, ""); (RPar, ""); (RPar, " ");
      (LPar, ""); (Word "assert", " "); (Word "o", " "); (LPar, ""); (Word "until", " "); (Word "a", " "); (LPar, ""); (Word "not", " "); (LPar, ""); (Word "always", " ");
      (LPar, ""); (Cmp LT, " "); (Word "y", " "); (Number (chars "1"), ""); (RPar, ""); (RPar, ""); (RPar, ""); (RPar, ""); (RPar, "")]); reflexivity. }
  split; [intros w v E; injection E as <-; eexists; reflexivity|]. split; [reflexivity|]. split; [exact T|].
  split; [rewrite (code_spec false c105_double c105_cs _ eq_refl T); eexists; reflexivity|].
  assert (N : forall n l, incl l ["x"; "y"] -> In n l -> exists p, In (n, p) lt1).
  { intros n l I Hn. apply lt1_names. apply I in Hn. destruct Hn as [<-|[<-|[]]]; [left|right]; reflexivity. }
  split; [left; reflexivity|]. split; [reflexivity|]. split; [reflexivity|]. split; [intros n; apply N; cbn; intros y K; cbn in *; tauto|].
  split; [right; right; left; reflexivity|]. split; [reflexivity|]. split; [reflexivity|]. split; [intros n; apply N; cbn; intros y K; cbn in *; tauto|].
  split; [exact tr1_of|]. split; [exact tr1_keys|]. split; [exact tr1_start|]. split; [exact tr3_of|]. split; [exact tr3_keys|]. split; [exact tr3_start|]. exact close13.
Qed.
