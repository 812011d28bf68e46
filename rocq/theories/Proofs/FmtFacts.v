(** C54, C64. *)
From Flocq Require Import IEEE754.BinarySingleNaN.
From Verif Require Import Base Num NumB64.
From Verif.Model Require Import Signal Ast Fmt.
From Verif.Spec Require Import AstSpec FmtSpec.
From Verif.Proofs Require Import AstFacts.
Local Open Scope string_scope.

Lemma append_nil_r s : s ++ "" = s.
Proof. induction s; cbn; congruence. Qed.
Lemma append_assoc (a b c : string) : (a ++ b) ++ c = a ++ b ++ c.
Proof. induction a; cbn; congruence. Qed.
Lemma append_inj_l a b c : a ++ b = a ++ c -> b = c.
Proof. induction a; cbn; [auto|]. intros [= H]. auto. Qed.
Lemma length_append a b : String.length (a ++ b) = (String.length a + String.length b)%nat.
Proof. induction a; cbn; congruence. Qed.
Lemma append_inj_r a b c : b ++ a = c ++ a -> b = c.
Proof.
  revert c. induction b as [|x b IH]; intros [|y c] H; cbn in H.
  - reflexivity.
  - apply (f_equal String.length) in H. cbn in H. rewrite length_append in H. lia.
  - apply (f_equal String.length) in H. cbn in H. rewrite length_append in H. lia.
  - injection H as -> H. f_equal. apply IH, H.
Qed.

Section Fmt.
Context {F : Type} `{NF : Num F}.
Variable fdbl : F -> string.
Notation f := (fmt_expr fdbl).

Lemma join_around sep l a l' : exists p q, forall b, join sep (l ++ b :: l')%list = p ++ b ++ q /\ (b = a -> join sep (l ++ a :: l')%list = p ++ a ++ q).
Proof.
  assert (H : exists p q, forall b, join sep (l ++ b :: l')%list = p ++ b ++ q).
  { induction l as [|x l (p & q & IH)].
    - destruct l' as [|y l']; [exists "", ""|exists "", (sep ++ join sep (y :: l'))]; intros b; cbn; rewrite ?append_nil_r; reflexivity.
    - exists (x ++ sep ++ p), q. intros b. cbn [app]. rewrite !append_assoc, <- IH.
      destruct (l ++ b :: l')%list eqn:E; [destruct l; discriminate|]. reflexivity. }
  destruct H as (p & q & H). exists p, q. intros b. split; [apply H|]. intros _. apply H.
Qed.
(** A difference is surrounded by the same text. *)
Lemma differ_context i j e e' : differ i j e e' ->
  exists p q (g g' : string), f e = p ++ g ++ q /\ f e' = p ++ g' ++ q /\
    exists close, g = fmt_interval fdbl close i /\ g' = fmt_interval fdbl close j.
Proof.
  intros D. induction D as [e|e|e1 e2|e e' D IH|l e e' l' D IH|l e e' l' D IH|e e' k D IH|e e' k D IH|e e' u k D IH|u e e' k D IH].
  - exists "G", (f e), (fmt_interval fdbl "int)" i), (fmt_interval fdbl "int)" j). repeat split. eauto.
  - exists "F", (f e), (fmt_interval fdbl "inf]" i), (fmt_interval fdbl "inf]" j). repeat split. eauto.
  - exists (f e1 ++ " U"), (f e2), (fmt_interval fdbl "inf)" i), (fmt_interval fdbl "inf)" j). cbn [fmt_expr]. rewrite !append_assoc. repeat split. eauto.
  - destruct IH as (p & q & g & g' & E & E' & H). exists ("~" ++ p), q, g, g'. cbn [fmt_expr]. rewrite E, E', !append_assoc. auto.
  - destruct IH as (p & q & g & g' & E & E' & H). destruct (join_around " & " (map f l) "" (map f l')) as (p1 & q1 & J).
    exists ("(" ++ p1 ++ p), (q ++ q1 ++ ")"), g, g'. cbn [fmt_expr]. rewrite !map_app. cbn [map]. rewrite !(proj1 (J _)), E, E', !append_assoc. auto.
  - destruct IH as (p & q & g & g' & E & E' & H). destruct (join_around " | " (map f l) "" (map f l')) as (p1 & q1 & J).
    exists ("(" ++ p1 ++ p), (q ++ q1 ++ ")"), g, g'. cbn [fmt_expr]. rewrite !map_app. cbn [map]. rewrite !(proj1 (J _)), E, E', !append_assoc. auto.
  - destruct IH as (p & q & g & g' & E & E' & H). exists ("G" ++ fmt_interval fdbl "int)" k ++ p), q, g, g'. cbn [fmt_expr]. rewrite E, E', !append_assoc. auto.
  - destruct IH as (p & q & g & g' & E & E' & H). exists ("F" ++ fmt_interval fdbl "inf]" k ++ p), q, g, g'. cbn [fmt_expr]. rewrite E, E', !append_assoc. auto.
  - destruct IH as (p & q & g & g' & E & E' & H). exists p, (q ++ " U" ++ fmt_interval fdbl "inf)" k ++ f u), g, g'. cbn [fmt_expr]. rewrite E, E', !append_assoc. auto.
  - destruct IH as (p & q & g & g' & E & E' & H). exists (f u ++ " U" ++ fmt_interval fdbl "inf)" k ++ p), q, g, g'. cbn [fmt_expr]. rewrite E, E', !append_assoc. auto.
Qed.
Lemma bounded_same i j e e' : has_value i = false -> has_value j = false -> differ i j e e' -> f e = f e'.
Proof.
  intros Hi Hj D. apply differ_context in D as (p & q & g & g' & -> & -> & close & -> & ->). unfold fmt_interval. rewrite Hi, Hj. reflexivity.
Qed.
Lemma shown_differs i j e e' : has_value i <> has_value j -> differ i j e e' -> f e <> f e'.
Proof.
  intros N D E. apply differ_context in D as (p & q & g & g' & E1 & E2 & close & -> & ->). rewrite E1, E2 in E.
  apply append_inj_l, append_inj_r in E. unfold fmt_interval in E.
  destruct (as_double i) as [a b], (as_double j) as [c d].
  destruct (has_value i), (has_value j); try congruence; [destruct (nisinf b)|destruct (nisinf d)]; discriminate E.
Qed.
End Fmt.

Lemma unbounded_has_value (i : interval B64) : ctor_interval i -> has_value i = unbounded i.
Proof. intros C. destruct (C53_lemma i C) as [A B]. rewrite B, A. reflexivity. Qed.
Lemma C54_lemma (fdbl : B64 -> string) i j e e' : ctor_interval i -> ctor_interval j -> unbounded i <> unbounded j ->
  differ i j e e' -> fmt_expr fdbl e <> fmt_expr fdbl e'.
Proof. intros Ci Cj N. apply shown_differs. rewrite (unbounded_has_value i Ci), (unbounded_has_value j Cj). exact N. Qed.
Lemma C54_bounded (fdbl : B64 -> string) i j e e' : ctor_interval i -> ctor_interval j -> unbounded i = false -> unbounded j = false ->
  differ i j e e' -> fmt_expr fdbl e = fmt_expr fdbl e'.
Proof. intros Ci Cj Ni Nj. apply bounded_same; [rewrite (unbounded_has_value i Ci); exact Ni|rewrite (unbounded_has_value j Cj); exact Nj]. Qed.
Definition i01 : interval B64 := interval_ull 0 1.
Definition i29 : interval B64 := interval_ull 2 9.
Lemma C54_case_lemma : ctor_interval i01 /\ ctor_interval i29 /\ ctor_interval (interval_default : interval B64) /\
  unbounded i01 = false /\ unbounded i29 = false /\ unbounded (interval_default : interval B64) = true /\
  differ i01 i29 (ENot (EAlways ea i01)) (ENot (EAlways ea i29)) /\
  differ i01 interval_default (EAnd [eb; EUntil ea eb i01]) (EAnd [eb; EUntil ea eb interval_default]).
Proof.
  split; [right; left; exists 0%N, 1%N; repeat split|]. split; [right; left; exists 2%N, 9%N; repeat split|]. split; [left; reflexivity|].
  split; [vm_compute; reflexivity|]. split; [vm_compute; reflexivity|]. split; [vm_compute; reflexivity|]. split; [apply D_not, D_always|].
  apply (D_and i01 interval_default [eb]), D_until.
Qed.
Lemma C64_witness : exists e e' : expr B64, constructed e /\ constructed e' /\ e <> e' /\ forall fdbl, fmt_expr fdbl e = fmt_expr fdbl e'.
Proof.
  exists (EAlways (EUntil ea eb interval_default) interval_default), (EUntil (EAlways ea interval_default) eb interval_default).
  assert (A : constructed ea) by (apply (C_gt "x")). assert (B : constructed eb) by (apply (C_le "y")).
  split; [apply C_always, C_until; assumption|]. split; [apply C_until; [apply C_always|]; assumption|]. split; [discriminate|].
  intros fdbl. cbn [fmt_expr]. rewrite !append_assoc. reflexivity.
Qed.
