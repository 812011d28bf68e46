(** C94: printed formulas are read as what they are. *)
From Coq Require Import Lia.
From Flocq Require Import IEEE754.BinarySingleNaN.
From Verif Require Import Base Num NumB64.
From Verif.Model Require Import Signal Ast Fmt.
From Verif.Spec Require Import Formula AstSpec FmtSpec Discrete Reading.
From Verif.Proofs Require Import RobFacts FmtInj.
Local Open Scope string_scope.

Scheme means_mut := Minimality for means Sort Prop with each_mut := Minimality for each Sort Prop.

Lemma sep_join sep ws : separated sep ws = join sep ws.
Proof. induction ws as [|w [|v ws] IH]; [reflexivity|reflexivity|]. cbn [separated join] in *. rewrite IH. reflexivity. Qed.
Lemma app_assoc_s (a b c : string) : (a ++ b) ++ c = a ++ (b ++ c).
Proof. induction a as [|x a IH]; [reflexivity|]. cbn. rewrite IH. reflexivity. Qed.

Definition flat (e : expr B64) : Prop :=
  free_of is_temporal_op e = true /\ free_of (short 2) e = true /\ (forall n, In n (names e) -> plain_name n).
Lemma flat_list (l : list (expr B64)) : Forall flat l ->
  forallb (free_of is_temporal_op) l = true /\ forallb (free_of (short 2)) l = true /\ (forall n, In n (flat_map names l) -> plain_name n).
Proof.
  induction 1 as [|e l (A & B & C) _ (A' & B' & C')]; cbn; [repeat split; intros n []|]. rewrite A, B, A', B'. repeat split.
  intros n Hn. apply in_app_or in Hn as [Hn|Hn]; auto.
Qed.

Section R.
Variable fdbl : B64 -> string.

Lemma means_expr w P : means fdbl w P -> exists e, flat e /\ w = fmt_expr fdbl e /\ forall env, P env <-> holds env e.
Proof.
  revert w P. apply (means_mut B64 _ fdbl (fun w P => exists e, flat e /\ w = fmt_expr fdbl e /\ forall env, P env <-> holds env e)
    (fun ws Ps => exists l, Forall flat l /\ ws = map (fmt_expr fdbl) l /\ forall env, Forall2 (fun (P : (string -> B64) -> Prop) e => P env <-> holds env e) Ps l)).
  - exists (EConst true). split; [repeat split; intros n []|]. split; [reflexivity|]. cbn. tauto.
  - exists (EConst false). split; [repeat split; intros n []|]. split; [reflexivity|]. cbn. intuition discriminate.
  - intros n c Hn. exists (EPred n GT c). split; [repeat split; intros m [<-|[]]; exact Hn|]. split; [reflexivity|]. reflexivity.
  - intros n c Hn. exists (EPred n GE c). split; [repeat split; intros m [<-|[]]; exact Hn|]. split; [reflexivity|]. reflexivity.
  - intros n c Hn. exists (EPred n LT c). split; [repeat split; intros m [<-|[]]; exact Hn|]. split; [reflexivity|]. reflexivity.
  - intros n c Hn. exists (EPred n LE c). split; [repeat split; intros m [<-|[]]; exact Hn|]. split; [reflexivity|]. reflexivity.
  - intros w P _ (e & G & -> & H). exists (ENot e). split; [exact G|]. split; [reflexivity|]. intros env. cbn [holds]. rewrite (H env). reflexivity.
  - intros ws Ps L _ (l & G & -> & H). rewrite map_length in L. exists (EAnd l). split; [|split].
    + destruct (flat_list l G) as (A & B & C). repeat split; [exact A| |exact C].
      cbn [free_of short]. rewrite (proj2 (Nat.ltb_ge _ _) L). exact B.
    + rewrite sep_join. reflexivity.
    + intros env. cbn [holds]. specialize (H env). clear - H. induction H as [|P e Ps l HP _ IH]; cbn [map]; [split; constructor|].
      rewrite !Forall_cons_iff, HP, IH. reflexivity.
  - intros ws Ps L _ (l & G & -> & H). rewrite map_length in L. exists (EOr l). split; [|split].
    + destruct (flat_list l G) as (A & B & C). repeat split; [exact A| |exact C].
      cbn [free_of short]. rewrite (proj2 (Nat.ltb_ge _ _) L). exact B.
    + rewrite sep_join. reflexivity.
    + intros env. cbn [holds]. specialize (H env). clear - H. induction H as [|P e Ps l HP _ IH]; cbn [map].
      * split; intros K; inversion K.
      * rewrite !Exists_cons, HP, IH. reflexivity.
  - exists []. split; [constructor|]. split; [reflexivity|]. intros env. constructor.
  - intros w P ws Ps _ (e & G & -> & H) _ (l & Gl & -> & Hl). exists (e :: l). split; [constructor; assumption|]. split; [reflexivity|].
    intros env. constructor; auto.
Qed.

Lemma free_no_until (e : expr B64) : free_of is_temporal_op e = true -> free_of is_until e = true.
Proof.
  induction e using expr_rec; cbn [free_of is_temporal_op is_until negb andb]; auto; try discriminate.
  - intros K. induction H; [reflexivity|]. cbn [forallb] in *. apply andb_prop in K as [K1 K2]. rewrite H by assumption. apply IHForall, K2.
  - intros K. induction H; [reflexivity|]. cbn [forallb] in *. apply andb_prop in K as [K1 K2]. rewrite H by assumption. apply IHForall, K2.
Qed.
Lemma free_subs (e : expr B64) : free_of is_temporal_op e = true ->
  forall x, In x (subs e) -> match x with EAlways _ i | EEventually _ i | EUntil _ _ i => ctor_interval i | _ => True end.
Proof.
  induction e using expr_rec; cbn [free_of is_temporal_op negb andb subs]; try discriminate.
  - intros _ x [<-|[]]. exact I.
  - intros _ x [<-|[]]. exact I.
  - intros K x [<-|Hx]; [exact I|]. apply IHe; assumption.
  - intros K x [<-|Hx]; [exact I|]. apply in_flat_map in Hx as (e & He & Hx). rewrite Forall_forall in H. rewrite forallb_forall in K. apply (H e He (K e He) x Hx).
  - intros K x [<-|Hx]; [exact I|]. apply in_flat_map in Hx as (e & He & Hx). rewrite Forall_forall in H. rewrite forallb_forall in K. apply (H e He (K e He) x Hx).
Qed.
Lemma alike_eq (e e' : expr B64) : free_of is_temporal_op e = true -> alike e e' -> e = e'.
Proof.
  revert e'. induction e using expr_rec; cbn [free_of is_temporal_op negb andb]; intros e' K A; inversion A; subst; try discriminate; auto.
  - f_equal. apply IHe; assumption.
  - f_equal. match goal with F : Forall2 alike _ _ |- _ => revert F end. clear A. revert l'. induction H as [|e l He _ IH]; intros l' F; inversion F; subst; [reflexivity|].
    cbn [forallb] in K. apply andb_prop in K as [K1 K2]. f_equal; [apply He; assumption|apply IH; assumption].
  - f_equal. match goal with F : Forall2 alike _ _ |- _ => revert F end. clear A. revert l'. induction H as [|e l He _ IH]; intros l' F; inversion F; subst; [reflexivity|].
    cbn [forallb] in K. apply andb_prop in K as [K1 K2]. f_equal; [apply He; assumption|apply IH; assumption].
Qed.

Lemma expr_means (e : expr B64) : flat e -> exists P, means fdbl (fmt_expr fdbl e) P.
Proof.
  induction e using expr_rec; intros (A & B & C); cbn [free_of is_temporal_op negb andb] in A; try discriminate.
  - destruct b; eexists; constructor.
  - assert (Hn : plain_name n) by (apply C; left; reflexivity). destruct o; eexists; [apply (M_gt fdbl n c Hn)|apply (M_ge fdbl n c Hn)|apply (M_lt fdbl n c Hn)|apply (M_le fdbl n c Hn)].
  - destruct IHe as (P & HP); [repeat split; assumption|]. eexists. apply M_not, HP.
  - cbn [free_of] in B. apply andb_prop in B as [B0 B]. cbn [short] in B0. apply negb_true_iff, Nat.ltb_ge in B0.
    assert (K : exists Ps, each fdbl (map (fmt_expr fdbl) l) Ps).
    { clear B0. cbn [names] in C. induction H as [|e l He _ IH]; [eexists; constructor|]. cbn [forallb flat_map] in *. apply andb_prop in A as [A1 A2], B as [B1 B2].
      destruct IH as (Ps & HPs); auto. { intros n Hn. apply C, in_or_app; auto. }
      destruct He as (P & HP). { repeat split; auto. intros n Hn. apply C, in_or_app; auto. } eexists. cbn [map]. constructor; eassumption. }
    destruct K as (Ps & HPs). eexists. cbn [fmt_expr]. rewrite <- sep_join. apply M_and; [rewrite map_length; exact B0|exact HPs].
  - cbn [free_of] in B. apply andb_prop in B as [B0 B]. cbn [short] in B0. apply negb_true_iff, Nat.ltb_ge in B0.
    assert (K : exists Ps, each fdbl (map (fmt_expr fdbl) l) Ps).
    { clear B0. cbn [names] in C. induction H as [|e l He _ IH]; [eexists; constructor|]. cbn [forallb flat_map] in *. apply andb_prop in A as [A1 A2], B as [B1 B2].
      destruct IH as (Ps & HPs); auto. { intros n Hn. apply C, in_or_app; auto. }
      destruct He as (P & HP). { repeat split; auto. intros n Hn. apply C, in_or_app; auto. } eexists. cbn [map]. constructor; eassumption. }
    destruct K as (Ps & HPs). eexists. cbn [fmt_expr]. rewrite <- sep_join. apply M_or; [rewrite map_length; exact B0|exact HPs].
Qed.

Lemma C94_lemma (e : expr B64) : printer fdbl -> free_of is_temporal_op e = true -> free_of (short 2) e = true ->
  (forall n, In n (names e) -> plain_name n) ->
  (exists P, means fdbl (fmt_expr fdbl e) P) /\ (forall P, means fdbl (fmt_expr fdbl e) P -> forall env, P env <-> holds env e).
Proof.
  intros FD A B C. split; [apply expr_means; repeat split; assumption|]. intros P M env. apply means_expr in M as (e' & (A' & B' & C') & E & H).
  assert (K : e = e'); [|rewrite K; apply H]. apply alike_eq; [exact A|]. apply (C64_lemma fdbl e e' FD); auto using free_no_until.
  - intros n Hn. apply in_app_or in Hn as [Hn|Hn]; auto.
  - intros x Hx. apply in_app_or in Hx as [Hx|Hx]; [apply (free_subs e A x Hx)|apply (free_subs e' A' x Hx)].
Qed.
End R.

Definition c94_e : expr B64 := EOr [ENot (EAnd [EPred "x" GE (dbl 3 0); EConst true]); EPred "y" LT (dbl 1 0)].
Lemma C94_case_lemma : printer bits_text /\ free_of is_temporal_op c94_e = true /\ free_of (short 2) c94_e = true /\
  (forall n, In n (names c94_e) -> plain_name n).
Proof.
  split; [exact bits_printer|]. split; [reflexivity|]. split; [reflexivity|].
  intros n Hn. cbn in Hn. destruct Hn as [<-|[<-|[]]]; repeat constructor; intros H; cbn in H; destruct H as [H|[]]; discriminate.
Qed.
