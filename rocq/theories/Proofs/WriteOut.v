(** Assertions with the definitions before them written out. *)
From Coq Require Import Ascii.
From Verif Require Import Base Num.
From Verif.Model Require Import Ast Peg Parser.
From Verif.Proofs Require Import TokenEval SpecFacts InlineFacts.
From Verif.Spec Require Import Text Syntax Monitor.

Section Facts.
Context {F : Type} `{NF : Num F}.
Variable stod : list ascii -> option F.

Definition agree two em env (d : list (string * term)) (m : @entries F) : Prop :=
  forall x e, lookup m x = Some e -> exists u, find_term d x = Some u /\ term_value stod two em env u = Ok e.
Lemma write_out_value two em env d (m : @entries F) : agree two em env d m -> forall t e, term_value stod two em (lookup m) t = Ok e ->
  term_value stod two em env (write_out d t) = Ok e.
Proof.
  intros A. induction t as [b|x|o x w|o w x| |t IH|ts IH|ts IH|t v IHt IHu|t v IHt IHu|t v IHt IHu|t IH|t IH|t v IHt IHu] using term_induction; intros e E; cbn [write_out term_value] in *; try exact E;
    try (apply bind_ok_inv in E as (f & Hf & E); rewrite (IH f Hf); exact E);
    try (apply bind_ok_inv in E as (f & Hf & E); apply bind_ok_inv in E as (g & Hg & E); rewrite (IHt f Hf); cbn [bind]; rewrite (IHu g Hg); exact E).
  - destruct (lookup m x) as [f|] eqn:K; [|discriminate]. injection E as <-. destruct (A x f K) as (u & -> & U). exact U.
  - apply bind_ok_inv in E as (es & Hes & E).
    assert (L : list_values (term_value stod two em env) (map (write_out d) ts) = Ok es); [|rewrite L; exact E].
    clear E. revert es Hes. induction IH as [|t ts Ht _ IH']; intros es Hes; [exact Hes|]. cbn [map list_values] in *. apply bind_ok_inv in Hes as (f & Hf & Hes).
    apply bind_ok_inv in Hes as (fs & Hfs & Hes). rewrite (Ht f Hf). cbn [bind]. rewrite (IH' fs Hfs). exact Hes.
  - apply bind_ok_inv in E as (es & Hes & E).
    assert (L : list_values (term_value stod two em env) (map (write_out d) ts) = Ok es); [|rewrite L; exact E].
    clear E. revert es Hes. induction IH as [|t ts Ht _ IH']; intros es Hes; [exact Hes|]. cbn [map list_values] in *. apply bind_ok_inv in Hes as (f & Hf & Hes).
    apply bind_ok_inv in Hes as (fs & Hfs & Hes). rewrite (Ht f Hf). cbn [bind]. rewrite (IH' fs Hfs). exact Hes.
Qed.
Lemma find_app d d' x u : find_term d x = Some u -> find_term (d ++ d') x = Some u.
Proof. induction d as [|[y v] d IH]; cbn; [discriminate|]. destruct (string_dec x y); auto. Qed.
Lemma find_new (d : list (string * term)) x u : find_term d x = None -> find_term (d ++ [(x, u)]) x = Some u.
Proof. induction d as [|[y v] d IH]; cbn; [destruct (string_dec x x); congruence|]. destruct (string_dec x y); [discriminate|auto]. Qed.
Definition covers (d : list (string * term)) (m : @entries F) : Prop := forall x, lookup m x = None -> find_term d x = None.
Lemma lookup_snoc (m : @entries F) x e y : lookup (m ++ [(x, e)]) y = match lookup m y with Some f => Some f | None => if string_dec y x then Some e else None end.
Proof. induction m as [|[z f] m IH]; cbn; [reflexivity|]. destruct (string_dec y z); auto. Qed.
Lemma find_snoc d x (u : term) y : find_term (d ++ [(x, u)]) y = match find_term d y with Some f => Some f | None => if string_dec y x then Some u else None end.
Proof. induction d as [|[z f] d IH]; cbn; [reflexivity|]. destruct (string_dec y z); auto. Qed.

Lemma asserted_value two em env cs : forall d m a m' a', agree two em env d m -> covers d m -> spec_value stod two em m a cs = Ok (m', a') ->
  forall x u, In (x, u) (asserted d cs) -> exists e, lookup a' x = Some e /\ term_value stod two em env u = Ok e.
Proof.
  induction cs as [|[y t|y t] cs IH]; intros d m a m' a' A C E x u K; cbn [asserted spec_value] in *; [destruct K|..].
  - apply bind_ok_inv in E as (e & He & E). apply bind_ok_inv in E as (m1 & Hm & E). pose proof (write_out_value two em env d m A t e He) as W.
    apply (IH (d ++ [(y, write_out d t)]) m1 a m' a'); auto; unfold add in Hm; destruct (lookup m y) eqn:Ly; try discriminate; injection Hm as <-.
    + intros z f. rewrite lookup_snoc, find_snoc. destruct (lookup m z) eqn:Lz.
      * intros H. injection H as <-. destruct (A z _ Lz) as (v & -> & V). eauto.
      * rewrite (C z Lz). destruct (string_dec z y); [|discriminate]. intros H. injection H as <-. eauto.
    + intros z. rewrite lookup_snoc, find_snoc. destruct (lookup m z) eqn:Lz; [discriminate|]. rewrite (C z Lz). destruct (string_dec z y); [discriminate|reflexivity].
  - apply bind_ok_inv in E as (e & He & E). apply bind_ok_inv in E as (a1 & Ha & E). pose proof (write_out_value two em env d m A t e He) as W.
    destruct K as [K|K]; [|eapply IH; eauto]. injection K as <- <-. exists e. split; [|exact W].
    apply add_app in Ha as [_ L]. destruct (spec_extends _ _ _ _ _ _ _ _ E) as (m2 & a2 & _ & ->). apply lookup_app, L.
Qed.
Lemma asserted_formula dbg cs txt g x u : all_leaves ref_ok cs = true -> spec_text cs txt -> from_string dbg stod txt = Ok g -> In (x, u) (asserted [] cs) ->
  exists e, lookup (assertions g) x = Some e /\ term_value stod code_two code_empty (fun _ => None) u = Ok e.
Proof.
  intros R H G K. pose proof (code_spec dbg stod cs txt R H) as V. rewrite G in V.
  destruct (spec_value stod code_two code_empty [] [] cs) as [[m a]| | | |] eqn:E; try discriminate V. cbn in V. injection V as ->.
  apply (asserted_value code_two code_empty (fun _ => None) cs [] [] [] m a); [intros ? ? Q; discriminate Q|intros ? _; reflexivity|exact E|exact K].
Qed.
End Facts.
