(** A parser on tokens, and the proof that the parser on characters does the same on every
    layout of the tokens. *)
From Coq Require Import Ascii.
From Verif Require Import Base Num.
From Verif.Spec Require Import Text.
From Verif.Model Require Import Ast Peg Parser.
From Verif.Proofs Require Import PegFacts.
Local Open Scope nat_scope.

(** ** Characters *)
(** Characters that may follow a word or number, or a comparison. *)
Definition delim (c : ascii) : bool := white c || existsb (Ascii.eqb c) (chars "();<>").
Definition cmp_delim (c : ascii) : bool := white c || letter c || digit c || existsb (Ascii.eqb c) (chars "();").
Definition starts (f : ascii -> bool) (j : input) : Prop := match j with [] => True | c :: _ => f c = true end.
Definition follow (t : token) (j : input) : Prop :=
  if wordy t then starts delim j else if is_cmp t then starts cmp_delim j else True.

(** First character of a token. *)
Definition head_ok (t : token) (c : ascii) : bool :=
  match t with
  | LPar => Ascii.eqb c "(" | RPar => Ascii.eqb c ")"
  | Cmp LT | Cmp LE => Ascii.eqb c "<"
  | Cmp GT | Cmp GE => Ascii.eqb c ">"
  | Word _ => letter c
  | Define => Ascii.eqb c "d"
  | Number _ => digit c
  | Bad => bad_start c
  end.

Lemma integer_head w : integer w -> exists a r, w = a :: r /\ digit a = true.
Proof. intros [A B]. destruct w as [|a r]; [congruence|]. inversion B; subst. eauto. Qed.
Lemma token_head t : token_ok t -> t <> Bad -> exists a r, token_text t = a :: r /\ head_ok t a = true.
Proof.
  destruct t as [| |op|w| |w|]; intros T NB; try (eexists _, _; split; reflexivity); [..|congruence].
  - destruct op; eexists _, _; split; reflexivity.
  - destruct w as [|a w]; [destruct T|]. exists a, (chars w). split; [reflexivity|apply T].
  - cbn. destruct T as [T|(a & b & x & -> & T & _)].
    + destruct (integer_head w T) as (c & r & -> & E). eauto.
    + destruct (integer_head a T) as (c & r & -> & E). exists c, (r ++ b ++ x). split; [reflexivity|exact E].
Qed.
Lemma layout_head t ts i : layout (t :: ts) i -> exists a r, i = a :: r /\ head_ok t a = true.
Proof.
  intros H. inversion H; subst.
  - eauto.
  - destruct (token_head t) as (a & r & -> & E); auto. exists a, (r ++ g). auto.
  - destruct (token_head t) as (a & r & -> & E); auto. exists a, (r ++ g ++ i0). auto.
Qed.

(** ** Gaps *)
Lemma newline_eq : lf = newline. Proof. reflexivity. Qed.
Lemma skip_line w i : one_line w -> skip true (w ++ newline :: i) = skip false i.
Proof.
  induction w as [|c w IH]; intros H; cbn [skip app].
  - rewrite newline_eq, Ascii.eqb_refl. reflexivity.
  - rewrite newline_eq. destruct (Ascii.eqb_spec c newline); [subst; exfalso; apply H; left; reflexivity|].
    apply IH. intros K. apply H. right. exact K.
Qed.
Lemma skip_open w : one_line w -> skip true w = [].
Proof.
  induction w as [|c w IH]; intros H; cbn [skip]; [reflexivity|].
  rewrite newline_eq. destruct (Ascii.eqb_spec c newline); [subst; exfalso; apply H; left; reflexivity|].
  apply IH. intros K. apply H. right. exact K.
Qed.
Lemma skip_gap g i : gap g -> skip false (g ++ i) = skip false i.
Proof.
  induction 1 as [|c g W G IH|w g W G IH]; [reflexivity| |].
  - cbn [app skip]. rewrite white_eq, W. exact IH.
  - cbn [app skip]. change (is_space ";") with false. change (Ascii.eqb ";" ";") with true. cbn iota.
    rewrite <- app_assoc. cbn [app]. rewrite skip_line by exact W. exact IH.
Qed.
Lemma skip_last g : last_gap g -> skip false g = [].
Proof.
  destruct 1 as [g G|g w G W].
  - rewrite <- (app_nil_r g), skip_gap by exact G. reflexivity.
  - rewrite skip_gap by exact G. cbn [skip]. change (is_space ";") with false. change (Ascii.eqb ";" ";") with true. cbn iota.
    apply skip_open, W.
Qed.
Lemma head_no_skip t a : head_ok t a = true -> white a = false /\ Ascii.eqb ";" a = false.
Proof.
  intros H. split.
  - revert a H. apply imp_asciin. destruct t as [| |[]| | | |]; vm_compute; reflexivity.
  - revert a H. apply imp_asciin. destruct t as [| |[]| | | |]; vm_compute; reflexivity.
Qed.
Lemma skip_layout ts i : layout ts i -> skip false i = i.
Proof.
  destruct ts as [|t ts]; intros H; [inversion H; reflexivity|].
  destruct (layout_head _ _ _ H) as (a & r & -> & E). cbn [skip]. apply head_no_skip in E as [E1 E2].
  rewrite white_eq, E1, E2. reflexivity.
Qed.
Lemma gap_starts g i : gap g -> g <> [] -> starts (fun c => white c || Ascii.eqb c ";") (g ++ i).
Proof. destruct 1 as [|c g W G|w g W G]; [congruence| |]; intros _; cbn; [rewrite W; reflexivity|reflexivity]. Qed.
Lemma last_gap_starts g : last_gap g -> starts (fun c => white c || Ascii.eqb c ";") g.
Proof.
  destruct 1 as [g G|g w G W].
  - destruct g; [exact I|]. rewrite <- (app_nil_r (a :: g)). apply gap_starts; [exact G|discriminate].
  - destruct g; [reflexivity|]. apply gap_starts; [exact G|discriminate].
Qed.
Lemma starts_imp (f g : ascii -> bool) j : forallb (fun c => implb (f c) (g c)) all_ascii = true -> starts f j -> starts g j.
Proof. intros H. destruct j as [|c j]; [auto|]. cbn. apply imp_ascii, H. Qed.

Lemma layout_next t ts i : layout (t :: ts) i -> t <> Bad ->
  token_ok t /\ exists j, i = token_text t ++ j /\ follow t j /\ layout ts (skip false j).
Proof.
  intros H NB. inversion H as [|c0 i0 ts0 B|t0 g TO NB' LG|t0 u ts' g i0 TO NB' G SEP LY]; subst; [congruence| |].
  - split; [assumption|]. exists g. split; [reflexivity|]. rewrite skip_last by assumption. split; [|constructor].
    assert (S : starts (fun c => white c || Ascii.eqb c ";") g) by (apply last_gap_starts; assumption).
    unfold follow. destruct (wordy t); [|destruct (is_cmp t); [|exact I]];
      (revert S; apply starts_imp; vm_compute; reflexivity).
  - split; [assumption|]. exists (g ++ i0). split; [reflexivity|]. rewrite skip_gap by assumption. rewrite (skip_layout _ _ LY).
    split; [|assumption].
    destruct g as [|c g].
    + assert (AP : apart t u = false) by (destruct (apart t u); [exfalso; apply SEP; reflexivity|reflexivity]).
      destruct (layout_head _ _ _ LY) as (a & r & -> & E). cbn [app].
      unfold follow. destruct (wordy t) eqn:W; [|destruct (is_cmp t) eqn:C; [|exact I]]; cbn.
      * destruct u as [| |[]| | | |]; cbn in AP; rewrite ?W in AP; try discriminate;
          clear - E; revert a E; apply imp_ascii; vm_compute; reflexivity.
      * destruct u as [| |op| | | |]; cbn in AP; rewrite ?C, ?W in AP; try discriminate;
          clear - E; revert a E; apply imp_ascii; vm_compute; reflexivity.
    + assert (S : starts (fun c => white c || Ascii.eqb c ";") ((c :: g) ++ i0)) by (apply gap_starts; [assumption|discriminate]).
      unfold follow. destruct (wordy t); [|destruct (is_cmp t); [|exact I]];
        (revert S; apply starts_imp; vm_compute; reflexivity).
Qed.

(** ** The lexical rules on a layout *)
Section Sim.
Context {F : Type} `{NF : Num F}.
Variable dbg : bool.
Variable stod : input -> option F.
Notation st := (state F).

Definition rel (x : result token st) (y : result ascii st) : Prop :=
  match x, y with
  | Ok (Some ts, s), Ok (Some i, s') => layout ts i /\ s = s'
  | Ok (None, s), Ok (None, s') => s = s'
  | Throw e, Throw e' => e = e'
  | UB, UB | Hang, Hang | AssertFail, AssertFail => True
  | _, _ => False
  end.
Definition sim (q : rule token st) (p : rule ascii st) : Prop := forall ts i s, layout ts i -> rel (q ts s) (p i s).

Lemma sim_seq q1 q2 p1 p2 : sim q1 p1 -> sim q2 p2 -> sim (seq q1 q2) (seq p1 p2).
Proof.
  intros A B ts i s L. specialize (A ts i s L). unfold seq.
  destruct (q1 ts s) as [[[ts1|] s1]|e| | |], (p1 i s) as [[[i1|] s1']|e'| | |]; cbn in *; try contradiction; auto.
  destruct A as [L1 <-]. apply B, L1.
Qed.
Lemma sim_sor q1 q2 p1 p2 : sim q1 p1 -> sim q2 p2 -> sim (sor q1 q2) (sor p1 p2).
Proof.
  intros A B ts i s L. specialize (A ts i s L). unfold sor.
  destruct (q1 ts s) as [[[ts1|] s1]|e| | |], (p1 i s) as [[[i1|] s1']|e'| | |]; cbn in *; try contradiction; auto.
  subst. apply B, L.
Qed.
Lemma sim_must m q p : sim q p -> sim (must m q) (must m p).
Proof.
  intros A ts i s L. specialize (A ts i s L). unfold must.
  destruct (q ts s) as [[[ts1|] s1]|e| | |], (p i s) as [[[i1|] s1']|e'| | |]; cbn in *; try contradiction; auto.
Qed.
Lemma sim_if_must m q1 q2 p1 p2 : sim q1 p1 -> sim q2 p2 -> sim (if_must m q1 q2) (if_must m p1 p2).
Proof. intros A B. apply sim_seq; [exact A|]. apply sim_must, B. Qed.
Lemma sim_act0 f q p : sim q p -> sim (act0 f q) (act0 f p).
Proof.
  intros A ts i s L. specialize (A ts i s L). unfold act0, act.
  destruct (q ts s) as [[[ts1|] s1]|e| | |], (p i s) as [[[i1|] s1']|e'| | |]; cbn in *; try contradiction; auto.
  destruct A as [L1 <-]. destruct (f s1); cbn; auto.
Qed.
Lemma sim_star n q p : sim q p -> sim (star_n n q) (star_n n p).
Proof.
  intros A. induction n as [|n IH]; intros ts i s L; [exact I|]. cbn [star_n]. specialize (A ts i s L).
  destruct (q ts s) as [[[ts1|] s1]|e| | |], (p i s) as [[[i1|] s1']|e'| | |]; cbn in *; try contradiction; auto.
  destruct A as [L1 <-]. apply IH, L1.
Qed.
Lemma sim_until n q1 q2 p1 p2 : sim q1 p1 -> sim q2 p2 -> sim (until_n n q1 q2) (until_n n p1 p2).
Proof.
  intros A B. induction n as [|n IH]; intros ts i s L; [exact I|]. cbn [until_n]. specialize (A ts i s L).
  destruct (q1 ts s) as [[[ts1|] s1]|e| | |], (p1 i s) as [[[i1|] s1']|e'| | |]; cbn in *; try contradiction; auto.
  subst. specialize (B ts i s1' L).
  destruct (q2 ts s1') as [[[ts1|] s1]|e| | |], (p2 i s1') as [[[i1|] s1'']|e'| | |]; cbn in *; try contradiction; auto.
  destruct B as [L1 <-]. apply IH, L1.
Qed.
Lemma sim_eof : sim eof eof.
Proof.
  intros ts i s L. unfold eof. destruct ts as [|t ts]; [inversion L; subst; cbn; auto|].
  destruct (layout_head _ _ _ L) as (a & r & -> & _). reflexivity.
Qed.
Lemma sim_skip : sim succeed Skip.
Proof. intros ts i s L. rewrite Skip_eq. cbn. rewrite (skip_layout _ _ L). auto. Qed.

(** Symbols. *)
Definition tok (t : token) : rule token st := one (fun u =>
  match t, u with
  | LPar, LPar | RPar, RPar => true
  | Cmp a, Cmp b => match a, b with LT, LT | LE, LE | GT, GT | GE, GE => true | _, _ => false end
  | _, _ => false
  end).
Lemma Symbol_eq (f : ascii -> bool) i (s : st) : Symbol_ (one f) i s =
  Ok (match i with a :: i' => if f a then Some (skip false i') else None | [] => None end, s).
Proof. unfold Symbol_, seq, one. cbn [bind]. destruct i as [|a i]; [reflexivity|]. destruct (f a); [apply Skip_eq|reflexivity]. Qed.

Ltac head_false H := let E := fresh "E" in
  match type of H with head_ok ?t ?a = true => match goal with |- context [if ?b then _ else _] =>
    assert (E : b = false) by (clear - H; revert a H; apply imp_asciin; vm_compute; reflexivity); rewrite E; clear E end end.

Lemma sim_paren t a : t = LPar /\ a = "("%char \/ t = RPar /\ a = ")"%char -> sim (tok t) (Symbol_ (one (Ascii.eqb a))).
Proof.
  intros T ts i s L. rewrite Symbol_eq. destruct ts as [|u ts]; [inversion L; reflexivity|].
  destruct (layout_head _ _ _ L) as (b & r & -> & E).
  assert (D : u = t \/ u <> t) by (destruct T as [[-> _]|[-> _]]; destruct u; (left; reflexivity) || (right; discriminate)).
  destruct D as [->|NE].
  - assert (NB : t <> Bad) by (destruct T as [[-> _]|[-> _]]; discriminate).
    destruct (layout_next _ _ _ L NB) as (_ & j & Ej & _ & Lj).
    destruct T as [[-> ->]|[-> ->]]; injection Ej as -> ->; cbn; auto.
  - destruct T as [[-> ->]|[-> ->]]; destruct u as [| |[]| | | |]; try congruence; head_false E; reflexivity.
Qed.

Lemma cmp_next c : cmp_delim c = true -> among "<=" c = false /\ among ">=" c = false /\ Ascii.eqb "=" c = false.
Proof. intros H. repeat split; revert c H; apply imp_asciin; vm_compute; reflexivity. Qed.

Lemma head_other t a c : head_ok t a = true -> forallb (fun x => implb (head_ok t x) (negb (Ascii.eqb c x))) all_ascii = true -> Ascii.eqb c a = false.
Proof. intros H K. revert a H. apply imp_asciin, K. Qed.

Definition cmp_rule (op : cmp_op) : rule ascii st :=
  match op with
  | LT => seq (one (Ascii.eqb "<")) (not_at (one (among "<=")))
  | LE => str "<="
  | GT => seq (one (Ascii.eqb ">")) (not_at (one (among ">=")))
  | GE => str ">="
  end.
Lemma sim_cmp op : sim (tok (Cmp op)) (Symbol_ (cmp_rule op)).
Proof.
  intros ts i s L. destruct ts as [|t ts]; [inversion L; destruct op; reflexivity|].
  destruct (layout_head _ _ _ L) as (a & r & -> & E).
  assert (D : (exists op', t = Cmp op') \/ ~ exists op', t = Cmp op') by (destruct t; try (right; intros [? K]; discriminate K); eauto).
  destruct D as [[op' ->]|ND].
  - destruct (layout_next _ _ _ L) as (_ & j & Ej & Fj & Lj); [discriminate|].
    cbn in Fj.
    assert (K : match j with [] => True | c :: _ => among "<=" c = false /\ among ">=" c = false /\ Ascii.eqb "=" c = false end)
      by (destruct j; [exact I|apply cmp_next, Fj]).
    destruct op, op'; injection Ej as -> ->;
      (destruct j as [|c j]; [|destruct K as (K1 & K2 & K3)]);
      unfold Symbol_, cmp_rule, seq, not_at, one, str;
      cbn [strip list_ascii_of_string bind app]; rewrite ?K1, ?K2, ?K3;
      try (change (Ascii.eqb ">" ">") with true); try (change (Ascii.eqb "<" "<") with true);
      try (change (Ascii.eqb ">" "<") with false); try (change (Ascii.eqb "<" ">") with false);
      try (change (Ascii.eqb "=" "=") with true); cbn [strip bind];
      rewrite ?K1, ?K2, ?K3; rewrite ?Skip_eq; cbn; auto.
  - assert (H1 : Ascii.eqb "<" a = false /\ Ascii.eqb ">" a = false).
    { split; apply (head_other t _ _ E); destruct t as [| |op'| | | |]; try (vm_compute; reflexivity); exfalso; apply ND; eauto. }
    destruct H1 as [H1 H2].
    assert (R : tok (Cmp op) (t :: ts) s = Ok (None, s)).
    { unfold tok, one. destruct t; try reflexivity. exfalso. apply ND. eauto. }
    rewrite R. destruct op; unfold Symbol_, cmp_rule, seq, not_at, one, str; cbn [strip list_ascii_of_string bind app]; rewrite ?H1, ?H2; reflexivity.
Qed.
(** Keywords and identifiers. *)
Lemma strip_prefix w v j r : Forall (fun c => delim c = false) w -> starts delim j -> strip w (v ++ j) = Some r ->
  exists v', v = w ++ v' /\ r = v' ++ j.
Proof.
  revert v. induction w as [|c w IH]; intros v W J H; [exists v; cbn in H; injection H as <-; auto|].
  inversion W as [|? ? C W']; subst. destruct v as [|d v].
  - destruct j as [|d j]; [discriminate|]. cbn [strip app] in H. cbn in J.
    destruct (Ascii.eqb c d) eqn:E; [|discriminate]. apply Ascii.eqb_eq in E. congruence.
  - cbn [strip app] in H. destruct (Ascii.eqb c d) eqn:E; [|discriminate]. apply Ascii.eqb_eq in E. subst d.
    destruct (IH v W' J H) as (v' & -> & ->). exists v'. auto.
Qed.
Lemma chars_inj v w : chars v = chars w -> v = w.
Proof. intros H. rewrite <- (string_of_list_ascii_of_string v), <- (string_of_list_ascii_of_string w). f_equal. exact H. Qed.
Lemma word_chars w : is_word w -> Forall (fun c => letter c || digit c = true) (chars w) /\ exists a r, chars w = a :: r /\ letter a = true.
Proof.
  destruct w as [|a w]; [intros []|]. intros [A B]. split; [|exists a, (chars w); auto].
  constructor; [rewrite A; reflexivity|exact B].
Qed.
Lemma word_nodelim w : is_word w -> Forall (fun c => delim c = false) (chars w).
Proof.
  intros W. apply word_chars in W as [W _]. eapply Forall_impl; [|exact W]. cbn. intros c. revert c.
  apply imp_asciin. vm_compute. reflexivity.
Qed.
Lemma eow_delim j (s : st) : starts delim j -> EndOfWord j s = Ok (Some (skip false j), s).
Proof.
  intros J. rewrite EndOfWord_eq. destruct j as [|c j]; [reflexivity|].
  assert (E : is_id_other c = false); [|rewrite E; reflexivity]. cbn in J. rewrite other_eq. revert c J. apply imp_asciin. vm_compute. reflexivity.
Qed.

Definition tkw (w : string) : rule token st := one (fun t =>
  match t with Word v => String.eqb v w | Define => String.eqb w "define-formula" | _ => false end).
Definition keyword_ok (w : string) : Prop :=
  w = "define-formula"%string \/ is_word w /\ strip (chars w) (chars "define-formula") = None.

Lemma strip_head c w a i : Ascii.eqb c a = false -> strip (c :: w) (a :: i) = None.
Proof. intros E. cbn. rewrite E. reflexivity. Qed.

Lemma sim_keyword w : keyword_ok w -> sim (tkw w) (Keyword w).
Proof.
  intros K ts i s L. unfold Keyword, seq, str. change (list_ascii_of_string w) with (chars w). cbn [bind].
  assert (W : Forall (fun c => delim c = false) (chars w) /\ exists a r, chars w = a :: r /\ letter a = true).
  { destruct K as [->|[K _]]; [split; [repeat constructor|eexists _, _; split; reflexivity]|split; [apply word_nodelim, K|apply word_chars, K]]. }
  destruct W as [W (a & r & Ew & La)].
  destruct ts as [|t ts]; [inversion L; rewrite Ew; reflexivity|].
  assert (B : forall u, u = t -> (match u with Word _ | Define => False | _ => True end) -> rel (tkw w (t :: ts) s)
              ('(r0, st1) <- Ok (strip (chars w) i, s);; match r0 with Some i1 => EndOfWord i1 st1 | None => Ok (None, st1) end)).
  { intros u Eu Hu. destruct (layout_head _ _ _ L) as (b & q & -> & E).
    assert (N : Ascii.eqb a b = false).
    { destruct (Ascii.eqb a b) eqn:X; [|reflexivity]. apply Ascii.eqb_eq in X. subst b u.
      assert (N : letter a = false); [|congruence].
      clear - E Hu. destruct t as [| |[]| | | |]; try contradiction; revert a E; apply imp_asciin; vm_compute; reflexivity. }
    rewrite Ew, strip_head by exact N. cbn. subst u. destruct t; try contradiction; reflexivity. }
  cbn [bind] in B.
  destruct t as [| |op|v| |v|]; try (eapply B; [reflexivity|exact I]); clear B.
  - destruct (layout_next _ _ _ L) as (T & j & -> & Fj & Lj); [discriminate|]. cbn in Fj. cbn [token_text].
    unfold tkw, one. destruct (String.eqb_spec v w) as [->|NE].
    + rewrite strip_app. rewrite eow_delim by exact Fj. cbn. auto.
    + destruct (strip (chars w) (chars v ++ j)) as [r0|] eqn:S; [|reflexivity].
      destruct (strip_prefix _ _ _ _ W Fj S) as (v' & Ev & ->).
      destruct v' as [|c v']; [rewrite app_nil_r in Ev; apply chars_inj in Ev; congruence|].
      rewrite EndOfWord_eq. cbn [app].
      assert (C : is_id_other c = true).
      { rewrite other_eq. apply word_chars in T as [T _]. rewrite Ev, Forall_app in T. destruct T as [_ T]. inversion T; assumption. }
      rewrite C. reflexivity.
  - destruct (layout_next _ _ _ L) as (T & j & -> & Fj & Lj); [discriminate|]. cbn in Fj. cbn [token_text].
    unfold tkw, one. destruct (String.eqb_spec w "define-formula") as [->|NE].
    + rewrite strip_app. rewrite eow_delim by exact Fj. cbn. auto.
    + destruct K as [K|[K1 K2]]; [congruence|].
      destruct (strip (chars w) (chars "define-formula" ++ j)) as [r0|] eqn:S; [|reflexivity].
      destruct (strip_prefix _ _ _ _ W Fj S) as (v' & Ev & ->). rewrite Ev, strip_app in K2. discriminate.
Qed.

(** An identifier; of "define-formula" it takes "define". *)
Definition tident : rule token st := fun ts s =>
  match ts with
  | Word v :: ts' => Ok (Some ts', (fst s, push v (snd s)))
  | Define :: ts' => Ok (Some (Bad :: ts'), (fst s, push "define" (snd s)))
  | _ => Ok (None, s)
  end.
Lemma drop_app {A} (f : A -> bool) v j : Forall (fun c => f c = true) v -> match j with [] => True | c :: _ => f c = false end ->
  drop_while f (v ++ j) = j /\ take_while f (v ++ j) = v.
Proof.
  intros V J. induction V as [|a v E V IH]; cbn.
  - destruct j as [|c j]; [auto|]. cbn. rewrite J. auto.
  - rewrite E. destruct IH as [-> ->]. auto.
Qed.
Lemma delim_not (f : ascii -> bool) j : forallb (fun c => implb (delim c) (negb (f c))) all_ascii = true -> starts delim j ->
  match j with [] => True | c :: _ => f c = false end.
Proof. intros H. destruct j as [|c j]; [auto|]. cbn. revert c. apply imp_asciin, H. Qed.

Lemma sim_ident : sim tident Identifier.
Proof.
  intros ts i s L. rewrite Identifier_eq. destruct ts as [|t ts]; [inversion L; reflexivity|].
  destruct (layout_head _ _ _ L) as (a & r & -> & E).
  assert (B : (match t with Word _ | Define => False | _ => True end) -> rel (tident (t :: ts) s)
      (if is_id_first a then Ok (Some (skip false (drop_while is_id_other r)), (fst s, push (string_of_list_ascii (a :: take_while is_id_other r)) (snd s))) else Ok (None, s))).
  { intros H. rewrite letter_eq.
    assert (N : letter a = false) by (clear - E H; destruct t as [| |[]| | | |]; try contradiction; revert a E; apply imp_asciin; vm_compute; reflexivity).
    rewrite N. destruct t; try contradiction; reflexivity. }
  destruct t as [| |op|v| |v|]; try (apply B; exact I); clear B.
  - cbn in E. rewrite letter_eq, E. destruct (layout_next _ _ _ L) as (T & j & Ej & Fj & Lj); [discriminate|].
    cbn in Fj. destruct v as [|b v]; [destruct T|]. cbn [token_text chars list_ascii_of_string app] in Ej. injection Ej as <- ->.
    destruct (drop_app is_id_other (chars v) j) as [D TK].
    + destruct T as [_ T]. eapply Forall_impl; [|exact T]. intros c. rewrite other_eq. auto.
    + apply delim_not; [vm_compute; reflexivity|exact Fj].
    + fold (chars v). rewrite D, TK. cbn. split; [exact Lj|]. repeat f_equal. unfold chars. rewrite string_of_list_ascii_of_string. reflexivity.
  - destruct (layout_next _ _ _ L) as (T & j & Ej & Fj & Lj); [discriminate|].
    cbn [token_text chars list_ascii_of_string app] in Ej. injection Ej as -> ->. cbn. split; [|reflexivity]. constructor. reflexivity.
Qed.

(** Numbers. *)
Definition is_integer (w : input) : bool := forallb digit w.
Definition tnum : rule token st := fun ts s =>
  match ts with
  | Number w :: ts' =>
      if is_integer w
      then z <- stol w ;; Ok (Some ts', (fst s, with_primitive (Some (PInt z)) (snd s)))
      else match stod w with
           | Some d => Ok (Some ts', (fst s, with_primitive (Some (PDouble d)) (snd s)))
           | None => Throw OutOfRange
           end
  | _ => Ok (None, s)
  end.

Definition nodigit (j : input) : Prop := match j with [] => True | c :: _ => digit c = false end.
Lemma digits_eat w j (s : st) : integer w -> nodigit j -> decimal_seq (w ++ j) s = Ok (Some j, s).
Proof.
  intros W J. unfold decimal_seq. rewrite plus_one. destruct W as [NE W]. destruct w as [|a w]; [congruence|].
  inversion W as [|? ? A W']; subst. cbn [app]. rewrite digit_eq, A.
  destruct (drop_app is_digit w j) as [-> _]; [|destruct j; [exact I|rewrite digit_eq; exact J]|reflexivity].
  eapply Forall_impl; [|exact W']. intros c. rewrite digit_eq. auto.
Qed.
Lemma digits_fail j (s : st) : nodigit j -> decimal_seq j s = Ok (None, s).
Proof. intros J. unfold decimal_seq. rewrite plus_one. destruct j as [|c j]; [reflexivity|]. rewrite digit_eq, J. reflexivity. Qed.
Lemma exponent_eat x j (s : st) : exponent_part x -> nodigit j -> exponent (x ++ j) s = Ok (Some j, s).
Proof.
  intros (e & sg & ds & -> & E & SG & D) J. unfold exponent, if_must, seq, must, one at 1. cbn [app bind].
  assert (E' : among "eE" e = true) by (destruct E as [<-|[<-|[]]]; reflexivity). rewrite E'. cbn [bind].
  assert (X : plus (one is_digit) (ds ++ j) s = Ok (Some j, s)) by (apply digits_eat; assumption).
  destruct (integer_head ds D) as (a & r & Ea & A).
  assert (SG' : (sg = [] \/ exists c, sg = [c] /\ among "+-" c = true)) by (destruct SG as [->|[->| ->]]; [left; reflexivity|right; eexists; split; reflexivity..]).
  destruct SG' as [->|(c & -> & C)].
  - assert (O : opt (one (among "+-")) (ds ++ j) s = Ok (Some (ds ++ j), s)).
    { unfold opt, sor, one, succeed. rewrite Ea. cbn [app].
      assert (N : among "+-" a = false) by (clear - A; revert a A; apply imp_asciin; vm_compute; reflexivity).
      rewrite N. reflexivity. }
    cbn [app]. rewrite O. cbn [bind]. rewrite X. reflexivity.
  - rewrite <- app_assoc. cbn [app]. unfold opt, sor, one at 1. rewrite C. cbn [bind]. rewrite X. reflexivity.
Qed.
Lemma exponent_fail j (s : st) : match j with [] => True | c :: _ => among "eE" c = false end -> exponent j s = Ok (None, s).
Proof. intros J. unfold exponent, if_must, seq, one at 1. destruct j as [|c j]; [reflexivity|]. rewrite J. reflexivity. Qed.

Definition double_rule : rule ascii st :=
  sor (seq decimal_seq (seq (one (Ascii.eqb ".")) (seq decimal_seq (opt exponent))))
      (seq decimal_seq (seq (opt (one (Ascii.eqb "."))) exponent)).
Lemma exponent_head x : exponent_part x -> exists e r, x = e :: r /\ digit e = false /\ Ascii.eqb "." e = false.
Proof. intros (e & sg & ds & -> & E & _). eexists _, _. split; [reflexivity|]. destruct E as [<-|[<-|[]]]; split; reflexivity. Qed.

Lemma double_eat w j (s : st) : decimal w -> starts delim j -> double_rule (w ++ j) s = Ok (Some j, s).
Proof.
  intros (a & b & x & -> & A & H) J.
  assert (Jd : nodigit j) by (apply delim_not; [vm_compute; reflexivity|exact J]).
  assert (Je : match j with [] => True | c :: _ => among "eE" c = false end) by (apply delim_not; [vm_compute; reflexivity|exact J]).
  unfold double_rule, sor. rewrite <- !app_assoc.
  destruct H as [(ds & -> & D & X)|[B X]].
  - unfold seq at 1. rewrite digits_eat; [|exact A|reflexivity]. cbn [bind app]. unfold seq at 1, one at 1.
    change (Ascii.eqb "." ".") with true. cbn [bind]. unfold seq at 1.
    destruct X as [->|X].
    + cbn [app]. rewrite digits_eat by assumption. cbn [bind]. unfold opt, sor. rewrite exponent_fail by exact Je. reflexivity.
    + destruct (exponent_head x X) as (e & r & Ex & E1 & E2).
      rewrite digits_eat; [|exact D|rewrite Ex; exact E1]. cbn [bind]. unfold opt, sor. rewrite exponent_eat by assumption. reflexivity.
  - destruct (exponent_head x X) as (e & r & Ex & E1 & E2).
    assert (Nb : nodigit (b ++ x ++ j)) by (destruct B as [->| ->]; cbn; [rewrite Ex; exact E1|reflexivity]).
    assert (F1 : seq decimal_seq (seq (one (Ascii.eqb ".")) (seq decimal_seq (opt exponent))) (a ++ b ++ x ++ j) s = Ok (None, s)).
    { unfold seq at 1. rewrite digits_eat by assumption. cbn [bind]. unfold seq at 1, one at 1. destruct B as [->| ->]; cbn [app chars list_ascii_of_string].
      - rewrite Ex. cbn [app]. rewrite E2. reflexivity.
      - change (Ascii.eqb "." ".") with true. cbn [bind]. unfold seq. rewrite digits_fail; [reflexivity|]. rewrite Ex. exact E1. }
    rewrite F1. cbn [bind]. unfold seq. rewrite digits_eat by assumption. cbn [bind].
    assert (O : opt (one (Ascii.eqb ".")) (b ++ x ++ j) s = Ok (Some (x ++ j), s)).
    { unfold opt, sor, one, succeed. destruct B as [->| ->]; cbn [app chars list_ascii_of_string].
      - rewrite Ex. cbn [app]. rewrite E2. reflexivity.
      - reflexivity. }
    rewrite O. cbn [bind]. rewrite exponent_eat by assumption. reflexivity.
Qed.
Lemma double_fail w j (s : st) : integer w -> starts delim j -> double_rule (w ++ j) s = Ok (None, s).
Proof.
  intros A J.
  assert (Jd : nodigit j) by (apply delim_not; [vm_compute; reflexivity|exact J]).
  assert (Je : match j with [] => True | c :: _ => among "eE" c = false end) by (apply delim_not; [vm_compute; reflexivity|exact J]).
  assert (Jp : match j with [] => True | c :: _ => Ascii.eqb "." c = false end) by (apply delim_not; [vm_compute; reflexivity|exact J]).
  unfold double_rule, sor, seq at 1. rewrite digits_eat by assumption. cbn [bind].
  assert (P : @one _ st (Ascii.eqb ".") j s = Ok (None, s)) by (unfold one; destruct j as [|c j]; [reflexivity|rewrite Jp; reflexivity]).
  unfold seq at 1. rewrite P. cbn [bind]. unfold seq at 1. rewrite digits_eat by assumption. cbn [bind]. unfold seq, opt, sor. rewrite P. cbn [bind].
  unfold succeed. cbn [bind]. rewrite exponent_fail by exact Je. reflexivity.
Qed.
Lemma firstn_eat (w j : input) : firstn (length (w ++ j) - length j) (w ++ j) = w.
Proof. rewrite app_length. replace (length w + length j - length j) with (length w) by lia. rewrite firstn_app, Nat.sub_diag, firstn_all. apply app_nil_r. Qed.

Lemma decimal_not_integer w : decimal w -> is_integer w = false.
Proof.
  intros (a & b & x & -> & A & H).
  assert (E : exists c v, b ++ x = c :: v /\ digit c = false).
  { destruct H as [(ds & -> & D & X)|[B X]]; [eexists _, _; split; reflexivity|].
    destruct (exponent_head x X) as (e & r & -> & E1 & _). destruct B as [->| ->]; eexists _, _; split; try reflexivity; exact E1. }
  destruct E as (c & v & -> & E). unfold is_integer. rewrite forallb_app. cbn. rewrite E. apply andb_false_r.
Qed.
Lemma integer_is w : integer w -> is_integer w = true.
Proof. intros [_ H]. apply forallb_forall. apply Forall_forall, H. Qed.

Lemma sim_num : sim tnum (Numeral stod).
Proof.
  intros ts i s L. unfold Numeral, DoubleLiteral. fold double_rule. unfold sor at 1, seq at 1, act.
  destruct ts as [|t ts]; [inversion L; reflexivity|].
  assert (B : (match t with Number _ => False | _ => True end) -> rel (tnum (t :: ts) s) (Numeral stod i s)).
  { intros H. destruct (layout_head _ _ _ L) as (a & r & -> & E).
    assert (N : nodigit (a :: r)) by (cbn; clear - E H; destruct t as [| |[]| | | |]; try contradiction; revert a E; apply imp_asciin; vm_compute; reflexivity).
    assert (R : Numeral stod (a :: r) s = Ok (None, s)).
    { unfold Numeral, sor at 1, DoubleLiteral. unfold seq at 1, act. unfold sor at 1, seq at 1. rewrite digits_fail by exact N. cbn [bind].
      unfold seq at 1. rewrite digits_fail by exact N. cbn [bind]. unfold IntegerLiteral, seq, act. rewrite digits_fail by exact N. reflexivity. }
    rewrite R. destruct t; try contradiction; reflexivity. }
  destruct t as [| |op|v| |w|]; try (apply B; exact I); clear B.
  destruct (layout_next _ _ _ L) as (T & j & -> & Fj & Lj); [discriminate|]. cbn in Fj. cbn [token_text tnum].
  destruct T as [T|T].
  - rewrite (integer_is w T), double_fail by assumption. cbn [bind]. unfold IntegerLiteral, seq, act.
    rewrite digits_eat; [|exact T|apply delim_not; [vm_compute; reflexivity|exact Fj]]. cbn [bind]. rewrite firstn_eat.
    unfold local. destruct (stol w); cbn [bind]; try exact I; [|reflexivity]. rewrite Skip_eq. cbn. auto.
  - rewrite (decimal_not_integer w T), double_eat by assumption. cbn [bind]. rewrite firstn_eat. unfold local.
    destruct (stod w); [|reflexivity]. cbn [bind]. rewrite Skip_eq. cbn. auto.
Qed.
End Sim.
