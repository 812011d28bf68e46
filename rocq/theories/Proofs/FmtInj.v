(** C64 without Until, C74: printed text determines what was printed. *)
From Coq Require Import Ascii.
From Flocq Require Import IEEE754.BinarySingleNaN.
From Verif Require Import Base Num NumB64.
From Verif.Model Require Import Signal Ast Fmt.
From Verif.Spec Require Import SignalSpec Formula AstSpec FmtSpec.
From Verif.Proofs Require Import RobFacts AstFacts FmtFacts.
Local Open Scope string_scope.

Lemma lacks_cons c a w : lacks c (String a w) -> c <> a /\ lacks c w.
Proof. unfold lacks. cbn. intros H. split; [intros ->|intros Hw]; apply H; auto. Qed.
Lemma split_at c (a b r r' : string) : lacks c a -> lacks c b -> a ++ String c r = b ++ String c r' -> a = b /\ r = r'.
Proof.
  revert b. induction a as [|x a IH]; intros [|y b] Ha Hb E; cbn in E.
  - injection E as ->. auto.
  - injection E as -> E. apply lacks_cons in Hb as [Hb _]. congruence.
  - injection E as <- E. apply lacks_cons in Ha as [Ha _]. congruence.
  - injection E as -> E. apply lacks_cons in Ha as [_ Ha], Hb as [_ Hb]. destruct (IH b Ha Hb E) as [-> ->]. auto.
Qed.

Section Inj.
Context {F : Type} `{NF : Num F}.
Variable fdbl : F -> string.
Hypothesis FD : printer fdbl.
Notation f := (fmt_expr fdbl).

Definition good_interval (i : interval F) : Prop := has_value i = unbounded i /\ (has_value i = true -> nisinf (snd (as_double i)) = true).
(** What is assumed of a formula. *)
Definition good (e : expr F) : Prop :=
  free_of is_until e = true /\ free_of (short 2) e = true /\ (forall n, In n (names e) -> plain_name n) /\
  (forall x, In x (subs e) -> match x with EAlways _ i | EEventually _ i | EUntil _ _ i => good_interval i | _ => True end).

Lemma good_not e : good (ENot e) -> good e.
Proof. intros (A & B & C & D). split; [exact A|]. split; [exact B|]. split; [exact C|]. intros x Hx. apply D. right. exact Hx. Qed.
Lemma good_always e i : good (EAlways e i) -> good e /\ good_interval i.
Proof. intros (A & B & C & D). split; [|apply (D _ (or_introl eq_refl))]. split; [exact A|]. split; [exact B|]. split; [exact C|]. intros x Hx. apply D. right. exact Hx. Qed.
Lemma good_eventually e i : good (EEventually e i) -> good e /\ good_interval i.
Proof. intros (A & B & C & D). split; [|apply (D _ (or_introl eq_refl))]. split; [exact A|]. split; [exact B|]. split; [exact C|]. intros x Hx. apply D. right. exact Hx. Qed.
Lemma good_and l : good (EAnd l) -> (2 <= length l)%nat /\ Forall good l.
Proof.
  intros (A & B & C & D). cbn [free_of is_until short negb andb] in A, B. apply andb_prop in B as [B1 B2]. split; [apply negb_true_iff, Nat.ltb_ge in B1; exact B1|].
  rewrite forallb_forall in A, B2. apply Forall_forall. intros e He. split; [auto|]. split; [auto|]. split.
  - intros n Hn. apply C. cbn [names]. apply in_flat_map. eauto.
  - intros x Hx. apply D. right. apply in_flat_map. eauto.
Qed.
Lemma good_or l : good (EOr l) -> (2 <= length l)%nat /\ Forall good l.
Proof.
  intros (A & B & C & D). cbn [free_of is_until short negb andb] in A, B. apply andb_prop in B as [B1 B2]. split; [apply negb_true_iff, Nat.ltb_ge in B1; exact B1|].
  rewrite forallb_forall in A, B2. apply Forall_forall. intros e He. split; [auto|]. split; [auto|]. split.
  - intros n Hn. apply C. cbn [names]. apply in_flat_map. eauto.
  - intros x Hx. apply D. right. apply in_flat_map. eauto.
Qed.

(** An operand list never looks like a predicate. *)
Lemma cmp_head op : exists c w, fmt_cmp op = String c w /\ (c = "<" \/ c = ">")%char.
Proof. destruct op; cbn; eauto. Qed.
Lemma head_of e : good e -> exists c w, f e = String c w /\ In c ["t"; "f"; "("; "~"; "G"; "F"]%char.
Proof. destruct e as [[]| | | | | | |]; intros G; cbn; try (eexists _, _; split; [reflexivity|]; cbn; tauto). destruct G as [G _]. discriminate. Qed.

Lemma interval_cases close i : good_interval i ->
  (unbounded i = true /\ fmt_interval fdbl close i = "[" ++ fdbl (fst (as_double i)) ++ ", " ++ close ++ " ") \/ (unbounded i = false /\ fmt_interval fdbl close i = " ").
Proof.
  intros [A B]. unfold fmt_interval. rewrite <- A. destruct (has_value i); [left|right; auto]. split; [reflexivity|].
  specialize (B eq_refl). destruct (as_double i) as [a b]. cbn [fst snd] in *. rewrite B. reflexivity.
Qed.

(** [n cmp ...] against [a & ...] or [a | ...]. *)
Lemma pred_vs_operand n op x a y : plain_name n -> good a -> (exists k y', y = String " " (String k y') /\ (k = "&" \/ k = "|")%char) ->
  n ++ " " ++ fmt_cmp op ++ x = f a ++ y -> False.
Proof.
  intros PN G (k & y' & -> & K) E. destruct (cmp_head op) as (c & w & EC & HC). rewrite EC in E. cbn [append] in E.
  unfold plain_name in PN. inversion_clear PN as [|? ? P1 PN']. inversion_clear PN' as [|? ? P2 PN]. inversion_clear PN as [|? ? P3 PN']. inversion_clear PN' as [|? ? P4 _].
  assert (SP : forall u r, lacks " " u -> n ++ String " " (String c (w ++ x)) = u ++ String " " r -> exists r', r = String c r').
  { intros u r Hu H. apply split_at in H as [_ <-]; eauto. }
  assert (LT : forall u, u = "true" \/ u = "false" \/ u = "G" \/ u = "F" -> lacks " " u).
  { intros u [-> |[-> |[-> | ->]]] H; cbn in H; intuition discriminate. }
  assert (KC : forall r, String k y' = String c r -> False) by (intros r [= -> _]; destruct K, HC; congruence).
  assert (UN : forall g close i b, (g = "G" \/ g = "F") -> good b -> good_interval i -> n ++ String " " (String c (w ++ x)) = (g ++ fmt_interval fdbl close i ++ f b) ++ String " " (String k y') -> False).
  { intros g close i b Hg Gb Gi H. destruct (interval_cases close i Gi) as [[_ Q]|[_ Q]]; rewrite Q in H.
    - rewrite !append_assoc in H. destruct n as [|n0 n]; [destruct Hg as [-> | ->]; discriminate H|].
      assert (exists z, n ++ String " " (String c (w ++ x)) = String "[" z) as (z & Hz).
      { destruct Hg as [-> | ->]; cbn [append] in H; injection H as _ H; eauto. }
      destruct n as [|n1 n]; [discriminate Hz|]. injection Hz as -> _. apply P4. right. left. reflexivity.
    - rewrite !append_assoc in H. cbn [append] in H. destruct (SP g _ (LT g ltac:(tauto)) H) as (r' & R).
      destruct (head_of b Gb) as (c' & w' & Eb & Hc). rewrite Eb in R. injection R as <- _. destruct HC as [-> | ->]; cbn in Hc; intuition discriminate. }
  destruct a as [b|m o r|a|l|l|a i|a i|a1 a2 i].
  - destruct (SP (fmt_bool b) (String k y')) as (r' & R); [apply LT; destruct b; auto|exact E|]. eapply KC, R.
  - destruct n as [|n0 n]; [discriminate E|]. injection E as -> _. apply P2. left. reflexivity.
  - destruct n as [|n0 n]; [discriminate E|]. injection E as -> _. apply P3. left. reflexivity.
  - destruct n as [|n0 n]; [discriminate E|]. injection E as -> _. apply P2. left. reflexivity.
  - destruct n as [|n0 n]; [discriminate E|]. injection E as -> _. apply P2. left. reflexivity.
  - apply good_always in G as [Ga Gi]. apply (UN "G" "int)" i a); auto.
  - apply good_eventually in G as [Ga Gi]. apply (UN "F" "inf]" i a); auto.
  - destruct G as [G _]. discriminate.
Qed.

(** Operand lists. *)
Lemma join_cons sep a b l : join sep (a :: b :: l) = a ++ sep ++ join sep (b :: l).
Proof. reflexivity. Qed.
Lemma join_one sep a : join sep [a] = a.
Proof. reflexivity. Qed.
Definition inj_at (e : expr F) : Prop := good e -> forall e' r r', good e' -> f e ++ r = f e' ++ r' -> alike e e' /\ r = r'.
Lemma list_inj sep : (exists w, sep = String " " w) -> forall l, Forall inj_at l -> forall l' r r', Forall good l -> Forall good l' -> l <> [] -> l' <> [] ->
  join sep (map f l) ++ ")" ++ r = join sep (map f l') ++ ")" ++ r' -> Forall2 alike l l' /\ r = r'.
Proof.
  intros (w & ->). induction 1 as [|a l Ha Hl IH]; intros l' r r' G G' N N' E; [congruence|]. destruct l' as [|a' l']; [congruence|].
  inversion_clear G as [|? ? Ga Gl]. inversion_clear G' as [|? ? Ga' Gl'].
  destruct l as [|b l], l' as [|b' l']; cbn [map] in E; rewrite ?join_cons in E; cbn [join] in E; rewrite ?append_assoc in E; apply Ha in E as [A E]; auto; try discriminate E.
  - injection E as ->. auto.
  - apply append_inj_l in E. destruct (IH (b' :: l') r r' Gl Gl' ltac:(discriminate) ltac:(discriminate) E) as [A' ->]. auto.
Qed.
Lemma list_head sep l (r : string) : (2 <= length l)%nat -> Forall good l -> exists a k, good a /\ In a l /\ join sep (map f l) ++ r = f a ++ sep ++ k.
Proof.
  intros L G. destruct l as [|a [|b l]]; cbn in L; try lia. inversion_clear G as [|? ? Ga _]. cbn [map]. rewrite join_cons, !append_assoc.
  exists a. eexists. split; [exact Ga|]. split; [left; reflexivity|reflexivity].
Qed.

Lemma interval_inj close i j (r r' : string) : good_interval i -> good_interval j -> (exists c w, r = String c w /\ In c ["t"; "f"; "("; "~"; "G"; "F"]%char) ->
  (exists c w, r' = String c w /\ In c ["t"; "f"; "("; "~"; "G"; "F"]%char) -> fmt_interval fdbl close i ++ r = fmt_interval fdbl close j ++ r' -> unbounded i = unbounded j /\ r = r'.
Proof.
  intros Gi Gj _ _ E. destruct FD as [_ FL].
  destruct (interval_cases close i Gi) as [[-> Q]|[-> Q]], (interval_cases close j Gj) as [[-> Q']|[-> Q']]; rewrite Q, Q' in E; rewrite ?append_assoc in E; cbn [append] in E; try discriminate E; injection E as E; auto.
  split; [reflexivity|]. apply split_at in E as [_ E]; [|apply FL|apply FL]. injection E as E. apply append_inj_l in E. injection E as E. exact E.
Qed.

Lemma fmt_inj e : inj_at e.
Proof.
  induction e as [b|n op c|e IH|l IH|l IH|e i IH|e i IH|e1 e2 i IH1 IH2] using expr_rec; intros G e' r r' G' E.
  - destruct e' as [b'|n' op' c'|e'|l'|l'|e' i'|e' i'|e1' e2' i']; try (destruct b; discriminate E); [|destruct G' as [G' _]; discriminate].
    destruct b, b'; try discriminate E; cbn in E; injection E as ->; (split; [constructor|reflexivity]).
  - destruct e' as [b'|n' op' c'|e'|l'|l'|e' i'|e' i'|e1' e2' i']; try discriminate E; [destruct b'; discriminate E| | | |destruct G' as [G' _]; discriminate].
    + cbn [fmt_expr] in E. rewrite !append_assoc in E. cbn [append] in E. injection E as E.
      assert (P1 : lacks " " n) by (apply (Forall_inv (proj1 (proj2 (proj2 G)) n (or_introl eq_refl)))).
      assert (P2 : lacks " " n') by (apply (Forall_inv (proj1 (proj2 (proj2 G')) n' (or_introl eq_refl)))).
      apply split_at in E as [-> E]; auto. destruct FD as [FI FL].
      assert (Q : forall o o' u u', fmt_cmp o ++ String " " u = fmt_cmp o' ++ String " " u' -> o = o' /\ u = u').
      { intros [] [] u u' H; cbn in H; try discriminate H; injection H as ->; auto. }
      apply Q in E as [-> E]. apply split_at in E as [E ->]; [|apply FL|apply FL]. apply FI in E as ->. split; [constructor|reflexivity].
    + exfalso. apply good_and in G' as [L G']. cbn [fmt_expr] in E. rewrite !append_assoc in E. cbn [append] in E. injection E as E.
      destruct (list_head " & " l' (")" ++ r') L G') as (a & k & Ga & _ & Q). cbn [append] in Q. rewrite Q in E.
      apply (pred_vs_operand n op (" " ++ fdbl c ++ ")" ++ r) a (" & " ++ k)); [apply G; left; reflexivity|exact Ga|cbn; eauto|exact E].
    + exfalso. apply good_or in G' as [L G']. cbn [fmt_expr] in E. rewrite !append_assoc in E. cbn [append] in E. injection E as E.
      destruct (list_head " | " l' (")" ++ r') L G') as (a & k & Ga & _ & Q). cbn [append] in Q. rewrite Q in E.
      apply (pred_vs_operand n op (" " ++ fdbl c ++ ")" ++ r) a (" | " ++ k)); [apply G; left; reflexivity|exact Ga|cbn; eauto|exact E].
  - destruct e' as [b'|n' op' c'|e'|l'|l'|e' i'|e' i'|e1' e2' i']; try discriminate E; [destruct b'; discriminate E| |destruct G' as [G' _]; discriminate].
    cbn [fmt_expr append] in E. injection E as E. apply IH in E as [A ->]; [|apply good_not, G|apply good_not, G']. split; [constructor; exact A|reflexivity].
  - destruct e' as [b'|n' op' c'|e'|l'|l'|e' i'|e' i'|e1' e2' i']; try discriminate E; [destruct b'; discriminate E| | | |destruct G' as [G' _]; discriminate].
    + exfalso. apply good_and in G as [L G]. cbn [fmt_expr] in E. rewrite !append_assoc in E. cbn [append] in E. injection E as E.
      destruct (list_head " & " l (")" ++ r) L G) as (a & k & Ga & _ & Q). cbn [append] in Q. rewrite Q in E. symmetry in E.
      apply (pred_vs_operand n' op' (" " ++ fdbl c' ++ ")" ++ r') a (" & " ++ k)); [apply G'; left; reflexivity|exact Ga|cbn; eauto|exact E].
    + apply good_and in G as [L G], G' as [L' G']. cbn [fmt_expr] in E. rewrite !append_assoc in E. cbn [append] in E. injection E as E.
      apply (list_inj " & " ltac:(eexists; reflexivity) l IH l' r r' G G') in E as [A ->]; [split; [constructor; exact A|reflexivity]|destruct l; [cbn in L; lia|discriminate]|destruct l'; [cbn in L'; lia|discriminate]].
    + exfalso. apply good_and in G as [L G]. apply good_or in G' as [L' G']. cbn [fmt_expr] in E. rewrite !append_assoc in E. cbn [append] in E. injection E as E.
      destruct (list_head " & " l (")" ++ r) L G) as (a & k & Ga & Ia & Q). cbn [append] in Q. rewrite Q in E.
      destruct (list_head " | " l' (")" ++ r') L' G') as (a' & k' & Ga' & _ & Q'). cbn [append] in Q'. rewrite Q' in E.
      rewrite Forall_forall in IH. apply (IH a Ia Ga a' _ _ Ga') in E as [_ E]. discriminate E.
  - destruct e' as [b'|n' op' c'|e'|l'|l'|e' i'|e' i'|e1' e2' i']; try discriminate E; [destruct b'; discriminate E| | | |destruct G' as [G' _]; discriminate].
    + exfalso. apply good_or in G as [L G]. cbn [fmt_expr] in E. rewrite !append_assoc in E. cbn [append] in E. injection E as E.
      destruct (list_head " | " l (")" ++ r) L G) as (a & k & Ga & _ & Q). cbn [append] in Q. rewrite Q in E. symmetry in E.
      apply (pred_vs_operand n' op' (" " ++ fdbl c' ++ ")" ++ r') a (" | " ++ k)); [apply G'; left; reflexivity|exact Ga|cbn; eauto|exact E].
    + exfalso. apply good_or in G as [L G]. apply good_and in G' as [L' G']. cbn [fmt_expr] in E. rewrite !append_assoc in E. cbn [append] in E. injection E as E.
      destruct (list_head " | " l (")" ++ r) L G) as (a & k & Ga & Ia & Q). cbn [append] in Q. rewrite Q in E.
      destruct (list_head " & " l' (")" ++ r') L' G') as (a' & k' & Ga' & _ & Q'). cbn [append] in Q'. rewrite Q' in E.
      rewrite Forall_forall in IH. apply (IH a Ia Ga a' _ _ Ga') in E as [_ E]. discriminate E.
    + apply good_or in G as [L G], G' as [L' G']. cbn [fmt_expr] in E. rewrite !append_assoc in E. cbn [append] in E. injection E as E.
      apply (list_inj " | " ltac:(eexists; reflexivity) l IH l' r r' G G') in E as [A ->]; [split; [constructor; exact A|reflexivity]|destruct l; [cbn in L; lia|discriminate]|destruct l'; [cbn in L'; lia|discriminate]].
  - destruct e' as [b'|n' op' c'|e'|l'|l'|e' i'|e' i'|e1' e2' i']; try discriminate E; [destruct b'; discriminate E| |destruct G' as [G' _]; discriminate].
    apply good_always in G as [G Gi], G' as [G' Gi']. cbn [fmt_expr] in E. rewrite !append_assoc in E. cbn [append] in E. injection E as E.
    apply interval_inj in E as [U E]; [|exact Gi|exact Gi'|destruct (head_of e G) as (c & w & -> & H); cbn; eauto|destruct (head_of e' G') as (c & w & -> & H); cbn; eauto].
    apply IH in E as [A ->]; auto. split; [constructor; assumption|reflexivity].
  - destruct e' as [b'|n' op' c'|e'|l'|l'|e' i'|e' i'|e1' e2' i']; try discriminate E; [destruct b'; discriminate E| |destruct G' as [G' _]; discriminate].
    apply good_eventually in G as [G Gi], G' as [G' Gi']. cbn [fmt_expr] in E. rewrite !append_assoc in E. cbn [append] in E. injection E as E.
    apply interval_inj in E as [U E]; [|exact Gi|exact Gi'|destruct (head_of e G) as (c & w & -> & H); cbn; eauto|destruct (head_of e' G') as (c & w & -> & H); cbn; eauto].
    apply IH in E as [A ->]; auto. split; [constructor; assumption|reflexivity].
  - destruct G as [G _]. discriminate.
Qed.

(** Signals. *)
Lemma sample_inj a b r r' : fmt_sample fdbl a ++ r = fmt_sample fdbl b ++ r' -> s_time a = s_time b /\ s_value a = s_value b /\ r = r'.
Proof.
  destruct FD as [FI FL]. unfold fmt_sample. rewrite !append_assoc. cbn [append]. intros E. injection E as E.
  apply split_at in E as [E1 E]; [|apply FL|apply FL]. injection E as E. apply split_at in E as [E2 ->]; [|apply FL|apply FL]. auto.
Qed.
Lemma signal_inj x y : fmt_signal fdbl x = fmt_signal fdbl y -> points x = points y.
Proof.
  assert (H : forall x y, join ", " (map (fmt_sample fdbl) x) ++ "]" = join ", " (map (fmt_sample fdbl) y) ++ "]" -> points x = points y).
  { clear x y. induction x as [|a x IH]; intros [|b y] E; [reflexivity| | |].
    - destruct y; discriminate E.
    - destruct x; discriminate E.
    - destruct x as [|a' x], y as [|b' y]; cbn [map] in E; rewrite ?join_cons, ?join_one, ?append_assoc in E; apply sample_inj in E as (E1 & E2 & E); try discriminate E.
      + cbn. congruence.
      + apply append_inj_l in E. apply (IH (b' :: y)) in E. change (points (a :: a' :: x)) with ((s_time a, s_value a) :: points (a' :: x)). change (points (b :: b' :: y)) with ((s_time b, s_value b) :: points (b' :: y)). congruence. }
  unfold fmt_signal. cbn [append]. intros E. injection E as E. apply H, E.
Qed.
End Inj.

Lemma ctor_good (i : interval B64) : ctor_interval i -> good_interval i.
Proof.
  intros C. split; [apply unbounded_has_value, C|]. rewrite (unbounded_has_value i C). unfold unbounded. intros H.
  apply andb_prop in H as [_ H]. destruct (snd (as_double i)) as [[]|[]| |]; try discriminate H; reflexivity.
Qed.
Lemma C64_lemma (fdbl : B64 -> string) e e' : printer fdbl ->
  free_of is_until e = true -> free_of is_until e' = true -> free_of (short 2) e = true -> free_of (short 2) e' = true ->
  (forall n, In n (names e ++ names e')%list -> plain_name n) ->
  (forall x, In x (subs e ++ subs e')%list -> match x with EAlways _ i | EEventually _ i | EUntil _ _ i => ctor_interval i | _ => True end) ->
  fmt_expr fdbl e = fmt_expr fdbl e' -> alike e e'.
Proof.
  intros FD U U' S S' N C E. assert (G : good e /\ good e').
  { split; (split; [assumption|]; split; [assumption|]; split; [intros n Hn; apply N, in_or_app; auto|]);
      intros x Hx; (assert (In x (subs e ++ subs e')%list) as Hin by (apply in_or_app; auto)); specialize (C x Hin); destruct x; auto using ctor_good. }
  destruct G as [G G']. apply (fmt_inj fdbl FD e G e' "" "" G'). rewrite !append_nil_r. exact E.
Qed.
Lemma C74_lemma (fdbl : B64 -> string) x y : printer fdbl -> (fmt_signal fdbl x = fmt_signal fdbl y <-> points x = points y).
Proof.
  intros FD. split; [apply signal_inj, FD|]. intros H. unfold fmt_signal. do 3 f_equal.
  revert y H. induction x as [|a x IH]; intros [|b y] H; try discriminate H; [reflexivity|]. cbn in H. injection H as H1 H2 H3. cbn [map]. f_equal; [unfold fmt_sample; congruence|apply IH, H3].
Qed.

(** ** There are such printers *)
Fixpoint pos_text (p : positive) : string :=
  match p with xH => "1" | xO p => "0" ++ pos_text p | xI p => "I" ++ pos_text p end.
Definition int_text (z : Z) : string := match z with Z0 => "0" | Zpos p => "+" ++ pos_text p | Zneg p => "-" ++ pos_text p end.
Definition bits_text (x : B64) : string :=
  match x with
  | B754_zero s => if s then "z" else "Z"
  | B754_infinity s => if s then "i" else "Y"
  | B754_nan => "n"
  | B754_finite s m e _ => (if s then "m" else "M") ++ pos_text m ++ "e" ++ int_text e
  end.
Lemma pos_text_inj p : forall q r r', pos_text p ++ "e" ++ r = pos_text q ++ "e" ++ r' -> p = q /\ r = r'.
Proof.
  induction p as [p IH|p IH|]; intros [q|q|] r r' E; cbn in E; try discriminate E; injection E as E; try (apply IH in E as [-> ->]); subst; auto.
Qed.
Lemma pos_text_inj1 p : forall q, pos_text p = pos_text q -> p = q.
Proof. intros q E. apply (pos_text_inj p q "" ""). rewrite E. reflexivity. Qed.
Lemma int_text_inj a b : int_text a = int_text b -> a = b.
Proof. destruct a, b; cbn; intros E; try discriminate E; try reflexivity; injection E as E; apply pos_text_inj1 in E as ->; reflexivity. Qed.
Lemma bits_inj x y : bits_text x = bits_text y -> x = y.
Proof.
  destruct x as [s|s| |s m e H], y as [s'|s'| |s' m' e' H']; cbn [bits_text]; intros E;
    try (destruct s; discriminate E); try (destruct s'; discriminate E); try (destruct s, s'; try discriminate E; reflexivity); try reflexivity.
  assert (s = s' /\ pos_text m ++ "e" ++ int_text e = pos_text m' ++ "e" ++ int_text e') as [-> E1].
  { destruct s, s'; try discriminate E; injection E as E; auto. }
  apply pos_text_inj in E1 as [-> E1]. apply int_text_inj in E1 as ->. f_equal. apply Eqdep_dec.UIP_dec, Bool.bool_dec.
Qed.
Lemma lacks_app c a b : lacks c a -> lacks c b -> lacks c (a ++ b).
Proof. unfold lacks. induction a as [|x a IH]; cbn; [auto|]. intros A B [H|H]; [apply A; auto|]. apply IH; auto. Qed.
Lemma pos_text_lacks c p : In c [","; ")"]%char -> lacks c (pos_text p).
Proof. intros Hc. induction p; cbn [pos_text]; [apply lacks_app|apply lacks_app|]; auto; destruct Hc as [<-|[<-|[]]]; intros H; cbn in H; intuition discriminate. Qed.
Lemma bits_printer : printer bits_text.
Proof.
  split; [exact bits_inj|]. intros x. assert (H : forall c, In c [","; ")"]%char -> lacks c (bits_text x)); [|split; apply H; cbn; auto].
  intros c Hc. assert (Q : forall w, (w = "" \/ w = "z" \/ w = "Z" \/ w = "i" \/ w = "Y" \/ w = "n" \/ w = "m" \/ w = "M" \/ w = "e" \/ w = "0" \/ w = "+" \/ w = "-") -> lacks c w).
  { intros w Hw. destruct Hc as [<-|[<-|[]]]; intros H; repeat (destruct Hw as [-> |Hw]; [cbn in H; intuition discriminate|]); subst w; cbn in H; intuition discriminate. }
  destruct x as [s|s| |s m e B]; cbn [bits_text].
  - destruct s; apply Q; tauto.
  - destruct s; apply Q; tauto.
  - apply Q; tauto.
  - apply lacks_app; [destruct s; apply Q; tauto|]. apply lacks_app; [apply pos_text_lacks, Hc|]. apply lacks_app; [apply Q; tauto|].
    destruct e; cbn [int_text]; [apply Q; tauto| |]; (apply lacks_app; [apply Q; tauto|apply pos_text_lacks, Hc]).
Qed.

Definition c64_e (i : interval B64) : expr B64 := EOr [ENot (EAlways (EAnd [ea; eb]) i); EEventually ea interval_default; EConst true].
Lemma C64_case_lemma : printer bits_text /\
  (free_of is_until (c64_e i01) = true /\ free_of is_until (c64_e i29) = true /\ free_of (short 2) (c64_e i01) = true /\ free_of (short 2) (c64_e i29) = true /\
  (forall n, In n (names (c64_e i01) ++ names (c64_e i29))%list -> plain_name n) /\
  (forall x, In x (subs (c64_e i01) ++ subs (c64_e i29))%list -> match x with EAlways _ i | EEventually _ i | EUntil _ _ i => ctor_interval i | _ => True end)) /\
  fmt_expr bits_text (c64_e i01) = fmt_expr bits_text (c64_e i29).
Proof.
  destruct C54_case_lemma as (C1 & C2 & C3 & U1 & U2 & U3 & _).
  split; [exact bits_printer|]. split; [|apply (C54_bounded bits_text i01 i29); auto; apply (D_or i01 i29 []), D_not, D_always].
  split; [reflexivity|]. split; [reflexivity|]. split; [reflexivity|]. split; [reflexivity|]. split.
  - intros n Hn. assert (n = "x" \/ n = "y") as [-> | ->] by (cbn in Hn; intuition auto);
      (apply Forall_forall; intros c Hc H; cbn in Hc, H; intuition (subst; discriminate)).
  - intros x Hx. cbn [subs c64_e flat_map app] in Hx. repeat (destruct Hx as [<-|Hx]; [first [exact I|assumption]|]). destruct Hx.
Qed.
