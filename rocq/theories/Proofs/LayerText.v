(** C109 from the text of a specification. *)
From Coq Require Import Ascii Reals Lra.
From Flocq Require Import Core.Core IEEE754.BinarySingleNaN.
From Verif Require Import Base Num NumXR NumB64.
From Verif.Model Require Import Signal Ast Robustness Peg Parser.
From Verif.Proofs Require Import NumFacts B64Facts RobFacts RobExact QuantFacts BoolLaws AstFacts TokenEval SpecFacts InlineFacts WriteOut MonitorFacts LayerFacts ParserExamples UntilFacts MinMaxExamples SafeExamples RobExamples.
From Verif.Spec Require Import SignalSpec Pwl Formula Semantics Accuracy AstSpec Text Syntax Monitor.
Local Open Scope R_scope.

Section Facts.
Variable stod : list ascii -> option B64.
Hypothesis FIN : forall w v, stod w = Some v -> finite v = true.

Lemma digits_nonneg w : forallb digit w = true -> forall acc, (0 <= acc)%Z -> (0 <= digits_value acc w)%Z.
Proof.
  induction w as [|c w IH]; intros D acc A; [exact A|]. cbn [forallb digits_value] in *. apply andb_prop in D as [Dc D]. apply IH; [exact D|].
  unfold digit in Dc. apply andb_prop in Dc as [Dc _]. apply Nat.leb_le in Dc. lia.
Qed.
Lemma literal_finite w v : literal_value stod w = Ok v -> finite v = true.
Proof.
  unfold literal_value. destruct (forallb digit w) eqn:D.
  - destruct (_ <=? _)%Z eqn:L; [|discriminate]. intros H. injection H as <-. apply Z.leb_le in L. pose proof (digits_nonneg w D 0 (Z.le_refl 0)) as P.
    change (is_finite (dbl (digits_value 0 w) 0) = true). rewrite <- (Z2N.id _ P). apply normalize_ull. unfold ull. lia.
  - destruct (stod w) as [u|] eqn:E; [|discriminate]. intros H. injection H as <-. eapply FIN; eauto.
Qed.

(** The real numbers of the literals, as literals that are not integers. *)
Definition stod' (w : list ascii) : option XR :=
  match w with
  | c :: w' => match literal_value stod w' with Ok v => Some (Fin (B2R v)) | _ => None end
  | [] => None
  end.
Fixpoint mark (t : term) : term :=
  match t with
  | TBool _ | TRef _ | TPred2 _ _ _ | TEmpty => t
  | TPred o x w => TPred o x ("."%char :: w)
  | TNot t => TNot (mark t)
  | TAnd ts => TAnd (map mark ts)
  | TOr ts => TOr (map mark ts)
  | TImplies t u => TImplies (mark t) (mark u)
  | TIff t u => TIff (mark t) (mark u)
  | TXor t u => TXor (mark t) (mark u)
  | TAlways t => TAlways (mark t)
  | TEventually t => TEventually (mark t)
  | TUntil t u => TUntil (mark t) (mark u)
  end.
Lemma stod'_real w v : stod' w = Some v -> exists r, v = Fin r.
Proof. destruct w as [|c w]; cbn; [discriminate|]. destruct (literal_value stod w); try discriminate. intros H. injection H as <-. eauto. Qed.
Lemma mark_signals t : signals (mark t) = signals t.
Proof.
  induction t as [b|x|o x w|o w x| |t IH|ts IH|ts IH|t v IHt IHu|t v IHt IHu|t v IHt IHu|t IH|t IH|t v IHt IHu] using term_induction; cbn [mark signals]; try reflexivity; try assumption; try congruence.
  - induction IH as [|t ts Ht _ IH']; [reflexivity|]. cbn [map flat_map]. rewrite Ht, IH'. reflexivity.
  - induction IH as [|t ts Ht _ IH']; [reflexivity|]. cbn [map flat_map]. rewrite Ht, IH'. reflexivity.
Qed.
Lemma mark_leaves t : leaves is_pred (mark t) = leaves is_pred t.
Proof.
  induction t as [b|x|o x w|o w x| |t IH|ts IH|ts IH|t v IHt IHu|t v IHt IHu|t v IHt IHu|t IH|t IH|t v IHt IHu] using term_induction; cbn [mark leaves]; try reflexivity; try assumption; try congruence.
  - induction IH as [|t ts Ht _ IH']; [reflexivity|]. cbn [map forallb]. rewrite Ht, IH'. reflexivity.
  - induction IH as [|t ts Ht _ IH']; [reflexivity|]. cbn [map forallb]. rewrite Ht, IH'. reflexivity.
Qed.
Lemma mark_literal w r : real_literal stod' ("."%char :: w) = Some r <-> double_literal stod w = Some r.
Proof.
  unfold real_literal, double_literal, literal_value at 1. cbn [forallb]. change (digit "."%char) with false. cbn [andb stod'].
  destruct (literal_value stod w) as [v| | | |] eqn:E; try reflexivity. rewrite (literal_finite w v E). reflexivity.
Qed.
Lemma mark_holds lt t : forall tm, holds (real_literal stod') lt (mark t) tm <-> holds (double_literal stod) lt t tm.
Proof.
  assert (D : forall t1 tm, defined lt (mark t1) tm <-> defined lt t1 tm) by (intros t1 tm; unfold defined; rewrite mark_signals; reflexivity).
  induction t as [b|x|o x w|o w x| |t IH|ts IH|ts IH|t v IHt IHu|t v IHt IHu|t v IHt IHu|t IH|t IH|t v IHt IHu] using term_induction; intros tm; cbn [mark holds]; try reflexivity.
  - split; intros (v & r & H1 & H2 & H3); exists v, r; (split; [exact H1|]); (split; [apply mark_literal, H2|exact H3]).
  - rewrite IH. reflexivity.
  - rewrite !Forall_forall. split; intros H P HP.
    + apply in_map_iff in HP as (t & <- & Ht). apply (proj1 (Forall_forall _ _) IH t Ht). apply H. apply in_map, in_map, Ht.
    + apply in_map_iff in HP as (t' & <- & Ht). apply in_map_iff in Ht as (t & <- & Ht). apply (proj1 (Forall_forall _ _) IH t Ht). apply H. apply in_map, Ht.
  - rewrite !Exists_exists. split; intros (P & HP & H).
    + apply in_map_iff in HP as (t' & <- & Ht). apply in_map_iff in Ht as (t & <- & Ht). exists (holds (double_literal stod) lt t). split; [apply in_map, Ht|]. apply (proj1 (Forall_forall _ _) IH t Ht), H.
    + apply in_map_iff in HP as (t & <- & Ht). exists (holds (real_literal stod') lt (mark t)). split; [apply in_map, in_map, Ht|]. apply (proj1 (Forall_forall _ _) IH t Ht), H.
  - rewrite IHt, IHu. reflexivity.
  - rewrite IHt, IHu. reflexivity.
  - rewrite IHt, IHu. reflexivity.
  - split; intros H tm' L K; apply IH, H; auto; apply D, K.
  - split; intros (tm' & L & K & H); exists tm'; (split; [exact L|]); (split; [apply D, K|apply IH, H]).
  - split; intros (tm' & L & K1 & K2 & H & H'); exists tm'; (split; [exact L|]); (split; [apply D, K1|]); (split; [apply D, K2|]); (split; [apply IHu, H|]);
      intros y Hy; apply IHt, H', Hy.
Qed.

(** ** The parsed formula over the real numbers *)
Lemma real_and (l : list (expr B64)) : And_ (map real_formula l) = omap real_formula (And_ l).
Proof. destruct l as [|a [|b l]]; reflexivity. Qed.
Lemma real_or (l : list (expr B64)) : Or_ (map real_formula l) = omap real_formula (Or_ l).
Proof. destruct l as [|a [|b l]]; reflexivity. Qed.
Lemma real_Not (e : expr B64) : Not_ (real_formula e) = real_formula (Not_ e).
Proof. destruct e; reflexivity. Qed.
Lemma real_not (e : expr B64) : op_not (real_formula e) = real_formula (op_not e).
Proof. destruct e; reflexivity. Qed.
Lemma real_op_and (x y : expr B64) : op_and (real_formula x) (real_formula y) = omap real_formula (op_and x y).
Proof.
  destruct x; cbn [op_and real_formula]; try reflexivity.
  - destruct b; reflexivity.
  - unfold and_helper. rewrite <- real_and. f_equal. destruct y; cbn [real_formula]; rewrite ?map_app; try reflexivity. destruct b; reflexivity.
Qed.
Lemma real_op_or (x y : expr B64) : op_or (real_formula x) (real_formula y) = omap real_formula (op_or x y).
Proof.
  destruct x; cbn [op_or real_formula]; try reflexivity.
  - destruct b; reflexivity.
  - unfold or_helper. rewrite <- real_or. f_equal. destruct y; cbn [real_formula]; rewrite ?map_app; try reflexivity. destruct b; reflexivity.
Qed.
Lemma real_term t : leaves is_pred t = true -> forall e, term_value stod code_two code_empty (fun _ => None) t = Ok e ->
  term_value stod' code_two code_empty (fun _ => None) (mark t) = Ok (real_formula e).
Proof.
  assert (LIST : forall ts es, Forall (fun t => leaves is_pred t = true -> forall e, term_value stod code_two code_empty (fun _ => None) t = Ok e ->
      term_value stod' code_two code_empty (fun _ => None) (mark t) = Ok (real_formula e)) ts -> forallb (leaves is_pred) ts = true ->
    list_values (term_value stod code_two code_empty (fun _ => None)) ts = Ok es ->
    list_values (term_value stod' code_two code_empty (fun _ => None)) (map mark ts) = Ok (map real_formula es)).
  { intros ts es IH. revert es. induction IH as [|t1 ts Ht _ IH']; intros es L Hes; cbn [map list_values forallb] in *; [injection Hes as <-; reflexivity|].
    apply andb_prop in L as [L1 L2]. apply bind_ok_inv in Hes as (f & Hf & Hes). apply bind_ok_inv in Hes as (fs & Hfs & Hes). injection Hes as <-.
    rewrite (Ht L1 f Hf). cbn [bind]. rewrite (IH' fs L2 Hfs). reflexivity. }
  induction t as [b|x|o x w|o w x| |t IH|ts IH|ts IH|t v IHt IHu|t v IHt IHu|t v IHt IHu|t IH|t IH|t v IHt IHu] using term_induction; intros L e E; cbn [term_value leaves mark] in *; try discriminate.
  - apply bind_ok_inv in E as (c & Hc & E). injection E as <-.
    assert (K : literal_value stod' ("."%char :: w) = Ok (Fin (B2R c))); [|rewrite K; reflexivity].
    unfold literal_value. cbn [forallb]. change (digit "."%char) with false. cbn [andb stod']. rewrite Hc. reflexivity.
  - apply bind_ok_inv in E as (f & Hf & E). injection E as <-. rewrite (IH L f Hf). cbn [bind]. rewrite real_Not. reflexivity.
  - apply bind_ok_inv in E as (es & Hes & E). rewrite (LIST ts es IH L Hes). cbn [bind]. rewrite map_length. destruct (length es <? 2)%nat; [discriminate|]. injection E as <-. reflexivity.
  - apply bind_ok_inv in E as (es & Hes & E). rewrite (LIST ts es IH L Hes). cbn [bind]. rewrite map_length. destruct (length es <? 2)%nat; [discriminate|]. injection E as <-. reflexivity.
  - apply andb_prop in L as [L1 L2]. apply bind_ok_inv in E as (x & Hx & E). apply bind_ok_inv in E as (y & Hy & E).
    rewrite (IHt L1 x Hx), (IHu L2 y Hy). cbn [bind]. unfold Implies_ in *. rewrite real_not, real_op_or, E. reflexivity.
  - apply andb_prop in L as [L1 L2]. apply bind_ok_inv in E as (x & Hx & E). apply bind_ok_inv in E as (y & Hy & E).
    rewrite (IHt L1 x Hx), (IHu L2 y Hy). cbn [bind]. unfold Iff_ in *. apply bind_ok_inv in E as (a & Ha & E). apply bind_ok_inv in E as (b & Hb & E).
    rewrite !real_not, !real_op_and, Ha, Hb. cbn [omap bind]. rewrite real_op_or, E. reflexivity.
  - apply andb_prop in L as [L1 L2]. apply bind_ok_inv in E as (x & Hx & E). apply bind_ok_inv in E as (y & Hy & E).
    rewrite (IHt L1 x Hx), (IHu L2 y Hy). cbn [bind]. unfold Xor_ in *. apply bind_ok_inv in E as (a & Ha & E). apply bind_ok_inv in E as (b & Hb & E).
    rewrite !real_not, !real_op_or, Ha, Hb. cbn [omap bind]. rewrite real_op_and, E. reflexivity.
  - apply bind_ok_inv in E as (f & Hf & E). injection E as <-. rewrite (IH L f Hf). reflexivity.
  - apply bind_ok_inv in E as (f & Hf & E). injection E as <-. rewrite (IH L f Hf). reflexivity.
  - apply andb_prop in L as [L1 L2]. apply bind_ok_inv in E as (x & Hx & E). apply bind_ok_inv in E as (y & Hy & E). injection E as <-.
    rewrite (IHt L1 x Hx), (IHu L2 y Hy). reflexivity.
Qed.

(** ** Its shape *)
Definition shaped (e : expr B64) : Prop := layered e = true /\
  (forall f, In f (subs e) -> match f with EPred _ _ c => finite c = true | _ => True end) /\ intervals_made e.
Lemma shaped_const e : shaped e -> is_const e = false.
Proof. intros (L & _). destruct e; try reflexivity. discriminate L. Qed.
Lemma shaped_not e : shaped e -> shaped (Not_ e).
Proof.
  intros H. pose proof (shaped_const e H) as N. destruct H as (A & B & C). replace (Not_ e) with (ENot e) by (destruct e; try reflexivity; discriminate N).
  split; [exact A|]. split; intros f [<-|Hf]; try exact I; [apply B, Hf|apply C, Hf].
Qed.
Definition bnode (p : bool) (l : list (expr B64)) : expr B64 := if p then EAnd l else EOr l.
Lemma shaped_node p l : (l <> [] /\ forall e, In e l -> shaped e) <-> shaped (bnode p l).
Proof.
  split.
  - intros (N & H). split; [|split].
    + assert (forallb layered l = true) as K by (apply forallb_forall; intros e He; apply H, He). destruct l as [|a l]; [congruence|]. destruct p; cbn [bnode layered length Nat.eqb negb andb]; exact K.
    + intros f Hf. destruct p, Hf as [<-|Hf]; try exact I; apply in_flat_map in Hf as (e & He & Hf); apply (H e He), Hf.
    + intros f Hf. destruct p, Hf as [<-|Hf]; try exact I; apply in_flat_map in Hf as (e & He & Hf); apply (H e He), Hf.
  - intros (A & B & C). assert (K : negb (Nat.eqb (length l) 0) && forallb layered l = true) by (destruct p; exact A). apply andb_prop in K as [K1 K2].
    split; [intros ->; discriminate K1|]. intros e He. rewrite forallb_forall in K2. split; [apply K2, He|].
    split; [intros f Hf; apply B|intros f Hf; apply C]; destruct p; right; apply in_flat_map; eauto.
Qed.
Definition bparts (p : bool) (x : expr B64) (l : list (expr B64)) : Prop := x = bnode p l \/ l = [x].
Lemma bparts_shaped p x l : bparts p x l -> shaped x -> l <> [] /\ forall e, In e l -> shaped e.
Proof. intros [->| ->] S; [apply shaped_node in S; exact S|]. split; [discriminate|]. intros e [<-|[]]. exact S. Qed.
Lemma btwo_node (p : bool) (l : list (expr B64)) e : (if p then And_ l else Or_ l) = Ok e -> e = bnode p l.
Proof. destruct p, l as [|a [|b l]]; cbn; try discriminate; intros H; injection H as <-; reflexivity. Qed.
Lemma bop_parts (p : bool) (x y : expr B64) e : is_const x = false -> is_const y = false -> (if p then op_and x y else op_or x y) = Ok e ->
  exists l m, e = bnode p (l ++ m) /\ bparts p x l /\ bparts p y m.
Proof.
  intros Nx Ny H. assert (D : (if p then And_ [x; y] else Or_ [x; y]) = Ok e -> exists l m, e = bnode p (l ++ m) /\ bparts p x l /\ bparts p y m).
  { intros K. apply btwo_node in K. exists [x], [y]. split; [exact K|]. split; right; reflexivity. }
  destruct p.
  - destruct x; try discriminate; try exact (D H). cbn [op_and] in H. unfold and_helper in H.
    destruct y; try discriminate Ny; apply (btwo_node true) in H; (eexists args, _; split; [exact H|]; split; [left; reflexivity|]; (right; reflexivity) || (left; reflexivity)).
  - destruct x; try discriminate; try exact (D H). cbn [op_or] in H. unfold or_helper in H.
    destruct y; try discriminate Ny; apply (btwo_node false) in H; (eexists args, _; split; [exact H|]; split; [left; reflexivity|]; (right; reflexivity) || (left; reflexivity)).
Qed.
Lemma shaped_op (p : bool) x y e : shaped x -> shaped y -> (if p then op_and x y else op_or x y) = Ok e -> shaped e.
Proof.
  intros X Y H. apply bop_parts in H as (l & m & -> & P & Q); [|apply shaped_const, X|apply shaped_const, Y].
  destruct (bparts_shaped p x l P X) as [N A], (bparts_shaped p y m Q Y) as [_ B]. apply shaped_node. split.
  - intros K. apply app_eq_nil in K as [K _]. contradiction.
  - intros f Hf. apply in_app_or in Hf as [Hf|Hf]; auto.
Qed.

Definition chained (e : expr B64) : Prop := free_of is_const e = true /\ free_of is_andor e = true /\ free_of is_until e = true /\
  (forall f, In f (subs e) -> match f with EPred _ _ c => finite c = true | _ => True end) /\ intervals_made e.
Lemma chained_unary k e : (k = (fun x => ENot x) \/ k = (fun x => EAlways x interval_default) \/ k = (fun x => EEventually x interval_default)) -> chained e -> chained (k e).
Proof.
  intros K (A & B & C & D & E). destruct K as [->|[->| ->]]; repeat (split; [assumption|]); split; intros f [<-|Hf]; try exact I; try (left; reflexivity); try (apply D, Hf); apply E, Hf.
Qed.
Lemma chained_const e : chained e -> is_const e = false.
Proof. intros (L & _). destruct e; try reflexivity. discriminate L. Qed.
Lemma one_signal_value t : one_signal t = true -> forall e, term_value stod code_two code_empty (fun _ => None) t = Ok e -> chained e.
Proof.
  induction t as [b|x|o x w|o w x| |t IH|ts IH|ts IH|t v IHt IHu|t v IHt IHu|t v IHt IHu|t IH|t IH|t v IHt IHu] using term_induction; intros L e E; cbn [term_value one_signal] in *; try discriminate.
  - apply bind_ok_inv in E as (c & Hc & E). injection E as <-. repeat (split; [reflexivity|]). split; intros f [<-|[]]; [apply (literal_finite w c Hc)|exact I].
  - apply bind_ok_inv in E as (f & Hf & E). injection E as <-. pose proof (IH L f Hf) as K.
    replace (Not_ f) with (ENot f) by (pose proof (chained_const f K); destruct f; try reflexivity; discriminate). apply (chained_unary (fun x => ENot x)); auto.
  - apply bind_ok_inv in E as (f & Hf & E). injection E as <-. apply (chained_unary (fun x => EAlways x interval_default)); auto.
  - apply bind_ok_inv in E as (f & Hf & E). injection E as <-. apply (chained_unary (fun x => EEventually x interval_default)); auto.
Qed.
Lemma chained_shaped k e : (k = (fun x => EAlways x interval_default) \/ k = (fun x => EEventually x interval_default)) -> chained e -> shaped (k e).
Proof.
  intros K C. pose proof (chained_unary k e (or_intror K) C) as (_ & _ & _ & D & E). destruct C as (A1 & A2 & A3 & _).
  split; [|split; assumption]. destruct K as [->| ->]; cbn [layered]; rewrite A1, A2, A3; reflexivity.
Qed.
Lemma layered_value t : layered_term t = true -> forall e, term_value stod code_two code_empty (fun _ => None) t = Ok e -> shaped e.
Proof.
  assert (LIST : forall ts es, Forall (fun t => layered_term t = true -> forall e, term_value stod code_two code_empty (fun _ => None) t = Ok e -> shaped e) ts ->
    forallb layered_term ts = true -> list_values (term_value stod code_two code_empty (fun _ => None)) ts = Ok es -> forall e, In e es -> shaped e).
  { intros ts es IH. revert es. induction IH as [|t1 ts Ht _ IH']; intros es L Hes; cbn [map list_values forallb] in *; [injection Hes as <-; intros e []|].
    apply andb_prop in L as [L1 L2]. apply bind_ok_inv in Hes as (f & Hf & Hes). apply bind_ok_inv in Hes as (fs & Hfs & Hes). injection Hes as <-.
    intros e [<-|He]; [apply (Ht L1 f Hf)|apply (IH' fs L2 Hfs e He)]. }
  induction t as [b|x|o x w|o w x| |t IH|ts IH|ts IH|t v IHt IHu|t v IHt IHu|t v IHt IHu|t IH|t IH|t v IHt IHu] using term_induction; intros L e E; cbn [term_value layered_term] in *; try discriminate.
  - apply bind_ok_inv in E as (c & Hc & E). injection E as <-. split; [reflexivity|]. split; intros f [<-|[]]; [apply (literal_finite w c Hc)|exact I].
  - apply bind_ok_inv in E as (f & Hf & E). injection E as <-. apply shaped_not, (IH L f Hf).
  - apply bind_ok_inv in E as (es & Hes & E). destruct (length es <? 2)%nat eqn:K; [discriminate|]. injection E as <-. apply (shaped_node true). split; [intros ->; discriminate K|]. exact (LIST ts es IH L Hes).
  - apply bind_ok_inv in E as (es & Hes & E). destruct (length es <? 2)%nat eqn:K; [discriminate|]. injection E as <-. apply (shaped_node false). split; [intros ->; discriminate K|]. exact (LIST ts es IH L Hes).
  - apply andb_prop in L as [L1 L2]. apply bind_ok_inv in E as (x & Hx & E). apply bind_ok_inv in E as (y & Hy & E).
    exact (shaped_op false _ _ _ (shaped_not _ (IHt L1 x Hx)) (IHu L2 y Hy) E).
  - apply andb_prop in L as [L1 L2]. apply bind_ok_inv in E as (x & Hx & E). apply bind_ok_inv in E as (y & Hy & E).
    unfold Iff_ in E. apply bind_ok_inv in E as (a & Ha & E). apply bind_ok_inv in E as (b & Hb & E). pose proof (IHt L1 x Hx) as X. pose proof (IHu L2 y Hy) as Y.
    exact (shaped_op false _ _ _ (shaped_op true _ _ _ X Y Ha) (shaped_op true _ _ _ (shaped_not _ X) (shaped_not _ Y) Hb) E).
  - apply andb_prop in L as [L1 L2]. apply bind_ok_inv in E as (x & Hx & E). apply bind_ok_inv in E as (y & Hy & E).
    unfold Xor_ in E. apply bind_ok_inv in E as (a & Ha & E). apply bind_ok_inv in E as (b & Hb & E). pose proof (IHt L1 x Hx) as X. pose proof (IHu L2 y Hy) as Y.
    exact (shaped_op true _ _ _ (shaped_op false _ _ _ X Y Ha) (shaped_op false _ _ _ (shaped_not _ X) (shaped_not _ Y) Hb) E).
  - apply bind_ok_inv in E as (f & Hf & E). injection E as <-. apply (chained_shaped (fun x => EAlways x interval_default)); auto. apply (one_signal_value t L f Hf).
  - apply bind_ok_inv in E as (f & Hf & E). injection E as <-. apply (chained_shaped (fun x => EEventually x interval_default)); auto. apply (one_signal_value t L f Hf).
Qed.
Lemma layered_leaves t : layered_term t = true -> leaves is_pred t = true.
Proof.
  assert (ONE : forall t, one_signal t = true -> leaves is_pred t = true).
  { induction t0 as [b|x|o x w|o w x| |t0 IH|ts IH|ts IH|t0 v IHt IHu|t0 v IHt IHu|t0 v IHt IHu|t0 IH|t0 IH|t0 v IHt IHu] using term_induction; intros L; cbn [one_signal leaves] in *; try discriminate; auto. }
  induction t as [b|x|o x w|o w x| |t IH|ts IH|ts IH|t v IHt IHu|t v IHt IHu|t v IHt IHu|t IH|t IH|t v IHt IHu] using term_induction; intros L; cbn [layered_term leaves] in *; try discriminate; auto;
    try (apply andb_prop in L as [L1 L2]; rewrite (IHt L1), (IHu L2); reflexivity).
  - apply forallb_forall. intros t Ht. rewrite forallb_forall in L. apply (proj1 (Forall_forall _ _) IH t Ht), L, Ht.
  - apply forallb_forall. intros t Ht. rewrite forallb_forall in L. apply (proj1 (Forall_forall _ _) IH t Ht), L, Ht.
Qed.

Lemma C109_text_lemma dbg fuel cs txt g (tr : trace B64) s x u t :
  all_leaves ref_ok cs = true -> spec_text cs txt -> from_string dbg stod txt = Ok g -> In (x, u) (asserted [] cs) -> layered_term u = true ->
  keys_unique tr ->
  Forall (fun e => wf (snd e) /\ snd e <> [] /\ Forall (fun a => finite (s_time a) = true /\ finite (s_value a) = true) (snd e)) tr ->
  (forall n, In n (signals u) -> exists y a, has_signal tr n y /\ In a y /\ neqb (s_time a) t = true) ->
  exists e, lookup (assertions g) x = Some e /\ forall z, compute_robustness dbg fuel e tr s = Ok z ->
    exists c, In c z /\ neqb (s_time c) t = true /\ isnum (s_value c) = true /\
      (nltb nzero (s_value c) = true -> holds (double_literal stod) (real_trace tr) u (B2R t)) /\
      (nltb (s_value c) nzero = true -> ~ holds (double_literal stod) (real_trace tr) u (B2R t)).
Proof.
  intros R H G K L U W S. destruct (asserted_formula stod dbg cs txt g x u R H G K) as (e & Le & Ve).
  exists e. split; [exact Le|]. intros z C. destruct (layered_value u L e Ve) as (A1 & A2 & A3).
  pose proof (real_term u (layered_leaves u L) e Ve) as Vr.
  assert (N : forall n, In n (signals (mark u)) -> exists l, In (n, l) (real_trace tr)).
  { rewrite mark_signals. intros n Hn. destruct (S n Hn) as (y & _ & Hy & _). exists (reals y). apply in_map_iff. exists (n, y). split; [reflexivity|exact Hy]. }
  pose proof (good_term stod' (real_trace tr) stod'_real _ _ _ (mark u) (eq_trans (mark_leaves u) (layered_leaves u L)) N _ Vr) as Ge.
  assert (S' : forall n, In n (names e) -> exists y a, has_signal tr n y /\ In a y /\ neqb (s_time a) t = true).
  { intros n Hn. apply S. rewrite <- mark_signals. apply (g_names _ _ _ Ge). rewrite names_real. exact Hn. }
  destruct (C109_lemma dbg fuel tr s e t z U W A1 A2 A3 S' C) as (c & r & Hc & Ec & _ & Rr & _ & P & Q).
  pose proof (g_sat _ _ _ Ge (B2R t)) as ST. cbn [k_of k_sat] in ST. rewrite mark_holds in ST.
  exists c. split; [exact Hc|]. split; [exact Ec|]. split; [apply Rounding.near_rounds in Rr; apply Rr|]. rewrite <- ST. auto.
Qed.
End Facts.

(** ** Cases *)
Definition c109_phi : expr B64 := EAnd [EOr [ENot (EAlways bp interval_default); EEventually (ENot (EAlways bq interval_default)) interval_default]; bp].
Lemma btr_fin : Forall (fun e => wf (snd e) /\ snd e <> [] /\ Forall (fun a => finite (s_time a) = true /\ finite (s_value a) = true) (snd e)) btr.
Proof.
  constructor; [|constructor; [|constructor]]; cbn [snd].
  - split; [exact bx_wf|]. split; [discriminate|]. repeat constructor; vm_compute; reflexivity.
  - split; [exact by_wf|]. split; [discriminate|]. repeat constructor; vm_compute; reflexivity.
Qed.
Lemma btr_four n : n = sx \/ n = sy -> exists x a, has_signal btr n x /\ In a x /\ neqb (s_time a) (dbl 4 0) = true.
Proof.
  intros [-> | ->].
  - exists bx, (nth 2 bx (mkSample nzero nzero nzero)). split; [left; reflexivity|]. split; [right; right; left; reflexivity|]. vm_compute. reflexivity.
  - exists by_, (nth 2 by_ (mkSample nzero nzero nzero)). split; [right; left; reflexivity|]. split; [right; right; left; reflexivity|]. vm_compute. reflexivity.
Qed.
Lemma C109_case_lemma : keys_unique btr /\
  Forall (fun e => wf (snd e) /\ snd e <> [] /\ Forall (fun a => finite (s_time a) = true /\ finite (s_value a) = true) (snd e)) btr /\
  layered c109_phi = true /\
  (forall e, In e (subs c109_phi) -> match e with EPred _ _ c => finite c = true | _ => True end) /\ intervals_made c109_phi /\
  (forall n, In n (names c109_phi) -> exists x a, has_signal btr n x /\ In a x /\ neqb (s_time a) (dbl 4 0) = true) /\
  exists z, compute_robustness true 0 c109_phi btr false = Ok z.
Proof.
  split; [exact btr_keys|]. split; [exact btr_fin|]. split; [reflexivity|].
  split. { intros e He. cbn in He. repeat (destruct He as [<-|He]; [first [exact I|vm_compute; reflexivity]|]). destruct He. }
  split. { intros e He. cbn in He. repeat (destruct He as [<-|He]; [first [exact I|left; reflexivity]|]). destruct He. }
  split. { intros n Hn. apply btr_four. cbn in Hn. repeat (destruct Hn as [<-|Hn]; [auto|]); destruct Hn. }
  destruct (one_ok (compute_robustness true 0 c109_phi btr false) (fun y => true)) as (y & E & H); [vm_compute; reflexivity|eauto].
Qed.

Local Open Scope string_scope.
Definition c109_cs : list command :=
  [Def "a" (TPred GT "x" (chars "1")); Assert "m" (TXor (TAlways (TRef "a")) (TAnd [TEventually (TNot (TPred LE "y" (chars "2"))); TRef "a"]))].
Definition c109_m : term := TXor (TAlways (TPred GT "x" (chars "1"))) (TAnd [TEventually (TNot (TPred LE "y" (chars "2"))); TPred GT "x" (chars "1")]).
Definition c109_text : string := "(define-formula a (> x 1)) (assert m (xor (always a) (and (eventually (not (<= y 2))) a)))".
Lemma C109_text_case_lemma : (forall w v, no_double w = Some v -> finite v = true) /\ all_leaves ref_ok c109_cs = true /\ spec_text c109_cs c109_text /\
  In ("m", c109_m) (asserted [] c109_cs) /\ layered_term c109_m = true /\ keys_unique btr /\
  Forall (fun e => wf (snd e) /\ snd e <> [] /\ Forall (fun a => finite (s_time a) = true /\ finite (s_value a) = true) (snd e)) btr /\
  (forall n, In n (signals c109_m) -> exists y a, has_signal btr n y /\ In a y /\ neqb (s_time a) (dbl 4 0) = true) /\
  exists g e z, from_string true no_double c109_text = Ok g /\ lookup (assertions g) "m" = Some e /\ compute_robustness true 0 e btr false = Ok z.
Proof.
  assert (T : spec_text c109_cs c109_text).
  { apply (render_text "" [(LPar, ""); (Define, " "); (Word "a", " "); (LPar, ""); (Cmp GT, " "); (Word "x", " "); (Number (chars "1"), ""); (RPar, ""); (RPar, " ");
      (LPar, ""); (Word "assert", " "); (Word "m", " "); (LPar, ""); (Word "xor", " "); (LPar, ""); (Word "always", " "); (Word "a", ""); (RPar, " "); (LPar, ""); (Word "and", " ");
      (LPar, ""); (Word "eventually", " "); (LPar, ""); (Word "not", " "); (LPar, ""); (Cmp LE, " "); (Word "y", " "); (Number (chars "2"), ""); (RPar, ""); (RPar, ""); (RPar, " ");
      (Word "a", ""); (RPar, ""); (RPar, ""); (RPar, "")]); reflexivity. }
  split; [intros w v E; discriminate E|]. split; [reflexivity|]. split; [exact T|]. split; [left; reflexivity|]. split; [reflexivity|]. split; [exact btr_keys|]. split; [exact btr_fin|].
  split. { intros n Hn. apply btr_four. cbn in Hn. repeat (destruct Hn as [<-|Hn]; [auto|]); destruct Hn. }
  rewrite (code_spec true no_double c109_cs _ eq_refl T).
  set (a := EPred "x" GT (dbl 1 0)). set (e := EAnd [EOr [EAlways a interval_default; EAnd [EEventually (ENot (EPred "y" LE (dbl 2 0))) interval_default; a]];
    EOr [ENot (EAlways a interval_default); ENot (EAnd [EEventually (ENot (EPred "y" LE (dbl 2 0))) interval_default; a])]]).
  destruct (one_ok (compute_robustness true 0 e btr false) (fun y => true)) as (z & E & H); [vm_compute; reflexivity|].
  exists (mkSpec [("a", a)] [("m", e)]), e, z. split; [reflexivity|]. split; [reflexivity|exact E].
Qed.
