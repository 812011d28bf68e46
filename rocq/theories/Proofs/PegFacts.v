(** Closed forms of the lexical rules and a weakest-precondition style calculus for rules. *)
From Coq Require Import Ascii.
From Verif Require Import Base Num.
From Verif.Spec Require Export Messages.
From Verif.Spec Require Import Text.
From Verif.Model Require Import Ast Peg Parser.
Local Open Scope nat_scope.

(** ** Characters *)
Definition all_ascii : list ascii := map ascii_of_nat (List.seq 0 256).
Lemma all_ascii_all c : In c all_ascii.
Proof.
  unfold all_ascii. apply in_map_iff. exists (nat_of_ascii c). split; [apply ascii_nat_embedding|].
  apply in_seq. pose proof (nat_ascii_bounded c). lia.
Qed.
Lemma for_ascii (f : ascii -> bool) : forallb f all_ascii = true -> forall c, f c = true.
Proof. intros H c. rewrite forallb_forall in H. apply H, all_ascii_all. Qed.
Lemma imp_ascii (f g : ascii -> bool) : forallb (fun c => implb (f c) (g c)) all_ascii = true ->
  forall c, f c = true -> g c = true.
Proof. intros H c Hf. pose proof (for_ascii _ H c) as E. cbn in E. rewrite Hf in E. exact E. Qed.
Lemma imp_asciin (f g : ascii -> bool) : forallb (fun c => implb (f c) (negb (g c))) all_ascii = true ->
  forall c, f c = true -> g c = false.
Proof. intros H c Hf. pose proof (for_ascii _ H c) as E. cbn in E. rewrite Hf in E. destruct (g c); [discriminate|reflexivity]. Qed.

Lemma letter_eq c : is_id_first c = letter c.
Proof. apply Bool.eqb_prop. revert c. apply for_ascii. vm_compute. reflexivity. Qed.
Lemma other_eq c : is_id_other c = letter c || digit c.
Proof. apply Bool.eqb_prop. revert c. apply for_ascii. vm_compute. reflexivity. Qed.
Lemma digit_eq c : is_digit c = digit c.
Proof. apply Bool.eqb_prop. revert c. apply for_ascii. vm_compute. reflexivity. Qed.
Lemma white_eq c : is_space c = white c.
Proof. apply Bool.eqb_prop. revert c. apply for_ascii. vm_compute. reflexivity. Qed.

(** ** Lexical rules *)
(** What Skip leaves of the input; [c]: inside a comment. *)
Fixpoint skip (c : bool) (i : input) : input :=
  match i with
  | [] => []
  | a :: i' => if c then (if Ascii.eqb a lf then skip false i' else skip true i')
               else if is_space a then skip false i'
               else if Ascii.eqb ";" a then skip true i' else i
  end.
Fixpoint drop_while {A} (f : A -> bool) (l : list A) : list A :=
  match l with
  | [] => []
  | a :: l' => if f a then drop_while f l' else l
  end.

Lemma skip_length c i : length (skip c i) <= length i.
Proof.
  revert c. induction i as [|a i IH]; intros c; cbn [skip]; [reflexivity|].
  pose proof (IH true). pose proof (IH false).
  destruct c; [destruct (Ascii.eqb a lf)|destruct (is_space a); [|destruct (Ascii.eqb ";" a)]]; cbn [length]; lia.
Qed.
Lemma drop_length {A} (f : A -> bool) l : length (drop_while f l) <= length l.
Proof. induction l as [|a l IH]; cbn; [lia|]. destruct (f a); cbn; lia. Qed.
Lemma take_drop {A} (f : A -> bool) l : take_while f l ++ drop_while f l = l.
Proof. induction l as [|a l IH]; cbn; [reflexivity|]. destruct (f a); cbn; congruence. Qed.
Lemma take_all (f g : ascii -> bool) i : (forall c, f c = true -> g c = true) -> Forall (fun c => g c = true) (take_while f i).
Proof. intros H. induction i as [|a i IH]; cbn; [constructor|]. destruct (f a) eqn:E; [constructor; auto|constructor]. Qed.

Section Closed.
Context {F : Type}.
Notation st := (state F).

Lemma star_one {A St} (f : A -> bool) (i : list A) (s : St) : star (one f) i s = Ok (Some (drop_while f i), s).
Proof.
  unfold star. assert (H : forall n, length i < n -> star_n n (one f) i s = Ok (Some (drop_while f i), s)); [|apply H; lia].
  induction i as [|a i IH]; intros [|n] L; cbn in L; try lia; cbn; [reflexivity|].
  destruct (f a); cbn; [|reflexivity]. apply IH. lia.
Qed.
Lemma plus_one {A St} (f : A -> bool) (i : list A) (s : St) :
  plus (one f) i s = Ok (match i with a :: i' => if f a then Some (drop_while f i') else None | [] => None end, s).
Proof.
  unfold plus, seq, one at 1. destruct i as [|a i]; [reflexivity|]. cbn. destruct (f a); [|reflexivity]. apply star_one.
Qed.

(** What a comment leaves: the text after the first line feed. *)
Fixpoint after_lf (i : input) : input :=
  match i with [] => [] | a :: i' => if Ascii.eqb a lf then i' else after_lf i' end.
Lemma after_lf_length i : length (after_lf i) <= length i.
Proof. induction i as [|a i IH]; cbn [after_lf length]; [lia|]. destruct (Ascii.eqb a lf); lia. Qed.

Lemma until_eolf i (s : st) : until_any eolf i s = Ok (Some (after_lf i), s).
Proof.
  unfold until_any. assert (H : forall n, length i < n -> until_any_n n eolf i s = Ok (Some (after_lf i), s)); [|apply H; lia].
  induction i as [|a i IH]; intros [|n] L; cbn in L; try lia; [reflexivity|].
  cbn [until_any_n after_lf]. unfold eolf, sor at 1, eof at 1, eol. cbn [bind].
  destruct (Ascii.eqb a lf) eqn:E; [reflexivity|].
  destruct i as [|b i]; cbn [bind]; [apply IH; cbn in *; lia|].
  destruct (Ascii.eqb a cr && Ascii.eqb b lf) eqn:E2.
  - apply andb_true_iff in E2 as [_ E2]. cbn [after_lf]. rewrite E2. reflexivity.
  - apply IH. cbn in *. lia.
Qed.
Lemma skip_comment i : skip true i = skip false (after_lf i).
Proof. induction i as [|a i IH]; cbn [skip after_lf]; [reflexivity|]. destruct (Ascii.eqb a lf); auto. Qed.

Lemma Skip_eq i (s : st) : Skip i s = Ok (Some (skip false i), s).
Proof.
  unfold Skip, star.
  assert (H : forall n i, length i < n -> star_n n Sep i s = Ok (Some (skip false i), s)); [|apply H; lia].
  clear i. induction n as [|n IH]; intros i L; [lia|].
  destruct i as [|a i]; cbn [length] in L; [reflexivity|].
  cbn [star_n skip]. unfold Sep, LineComment, sor at 1, one at 1. cbn [bind].
  destruct (is_space a); cbn [bind]; [apply IH; lia|].
  unfold seq, one. cbn [bind]. destruct (Ascii.eqb ";" a) eqn:E; cbn [bind].
  - rewrite until_eolf. cbn [bind]. rewrite skip_comment. apply IH. pose proof (after_lf_length i). lia.
  - reflexivity.
Qed.

Lemma EndOfWord_eq i (s : st) : EndOfWord i s =
  Ok (match i with a :: _ => if is_id_other a then None else Some (skip false i) | [] => Some [] end, s).
Proof.
  unfold EndOfWord, seq, not_at, one. cbn [bind]. destruct i as [|a i]; [apply Skip_eq|].
  destruct (is_id_other a); [reflexivity|apply Skip_eq].
Qed.

Lemma drop_while_head {A} (f : A -> bool) l b j : drop_while f l = b :: j -> f b = false.
Proof. induction l as [|c l IH]; cbn; [discriminate|]. destruct (f c) eqn:E; [auto|]. intros [= -> _]. exact E. Qed.
Lemma firstn_take (f : ascii -> bool) a i :
  firstn (length (a :: i) - length (drop_while f i)) (a :: i) = a :: take_while f i.
Proof.
  pose proof (take_drop f i) as E. revert E. generalize (take_while f i) (drop_while f i). intros t d <-.
  replace (length (a :: t ++ d) - length d) with (S (length t)) by (cbn [length]; rewrite app_length; lia).
  cbn [firstn]. f_equal. rewrite firstn_app, Nat.sub_diag, firstn_all. apply app_nil_r.
Qed.
Definition push (w : string) (l : local_state F) := with_identifiers (l_identifiers l ++ [w]) l.
(** EndOfWord cannot fail after an identifier, which takes all identifier characters. *)
Lemma Identifier_eq i (s : st) : Identifier i s =
  match i with
  | a :: i' => if is_id_first a
               then Ok (Some (skip false (drop_while is_id_other i')), (fst s, push (string_of_list_ascii (a :: take_while is_id_other i')) (snd s)))
               else Ok (None, s)
  | [] => Ok (None, s)
  end.
Proof.
  unfold Identifier, seq at 1, identifier, act, seq, one at 1.
  destruct i as [|a i]; [reflexivity|]. cbn [bind]. destruct (is_id_first a); [|reflexivity].
  rewrite star_one. cbn [bind]. rewrite firstn_take. unfold local. cbn [bind fst snd]. rewrite EndOfWord_eq.
  destruct (drop_while is_id_other i) as [|b j] eqn:E; [reflexivity|]. rewrite (drop_while_head _ _ _ _ E). reflexivity.
Qed.

Lemma strip_some w i r : strip w i = Some r -> i = w ++ r.
Proof.
  revert i. induction w as [|a w IH]; intros [|b i]; cbn; intros H; try congruence.
  destruct (Ascii.eqb a b) eqn:E; [|discriminate]. apply Ascii.eqb_eq in E. subst. f_equal. auto.
Qed.
Lemma strip_app w r : strip w (w ++ r) = Some r.
Proof. induction w as [|a w IH]; cbn; [reflexivity|]. rewrite Ascii.eqb_refl. exact IH. Qed.

(** ** Calculus *)
(** [dbg]: assertions are active, and may fail. *)
Variable dbg : bool.
Definition thrown (e : exn) : Prop :=
  match e with
  | ParseError m => reported m
  | OutOfRange | LogicError LE_TermEmpty | BadOptionalAccess | InvalidArgument => True
  | _ => False
  end.
Definition ends {X} (Q : X -> Prop) (m : outcome X) : Prop :=
  match m with Ok x => Q x | Throw e => thrown e | AssertFail => dbg = true | UB | Hang => False end.
Lemma ends_mono {X} (Q Q' : X -> Prop) m : (forall x, Q x -> Q' x) -> ends Q m -> ends Q' m.
Proof. destruct m; cbn; auto. Qed.
Lemma ends_bind {X Y} (Q : Y -> Prop) (m : outcome X) f : ends (fun x => ends Q (f x)) m -> ends Q (bind m f).
Proof. destruct m; cbn; auto. Qed.
Lemma ends_and {X} (Q Q' : X -> Prop) m : ends Q m -> ends Q' m -> ends (fun x => Q x /\ Q' x) m.
Proof. destruct m; cbn; auto. Qed.

Definition post (S : list ascii -> st -> Prop) (N : st -> Prop) : option input * st -> Prop :=
  fun x => match fst x with Some i => S i (snd x) | None => N (snd x) end.
(** [ends (post S N)]: on a match [S], on a local failure [N]. *)
Definition run (S : input -> st -> Prop) (N : st -> Prop) (m : result ascii st) : Prop := ends (post S N) m.

Lemma run_mono (S S' : input -> st -> Prop) (N N' : st -> Prop) m :
  (forall i s, S i s -> S' i s) -> (forall s, N s -> N' s) -> run S N m -> run S' N' m.
Proof. intros A B. apply ends_mono. intros [[i|] s]; cbn; auto. Qed.
Lemma run_seq (S : input -> st -> Prop) N p q i s :
  run (fun i1 s1 => run S N (q i1 s1)) N (p i s) -> run S N (seq p q i s).
Proof. unfold seq. intros H. apply ends_bind. revert H. apply ends_mono. intros [[i1|] s1]; cbn; auto. Qed.
Lemma run_sor S N p q i s : run S (fun s1 => run S N (q i s1)) (p i s) -> run S N (sor p q i s).
Proof. unfold sor. intros H. apply ends_bind. revert H. apply ends_mono. intros [[i1|] s1]; cbn; auto. Qed.
Lemma run_opt S N p i s : run S (fun s1 => S i s1) (p i s) -> run S N (opt p i s).
Proof. intros H. apply run_sor. exact H. Qed.
Lemma run_must (S : input -> st -> Prop) N m p i s : run S (fun _ => reported m) (p i s) -> run S N (must m p i s).
Proof. unfold must. intros H. apply ends_bind. revert H. apply ends_mono. intros [[i1|] s1]; cbn; auto. Qed.
Lemma run_if_must S N m c p i s :
  run (fun i1 s1 => run S (fun _ => reported m) (p i1 s1)) N (c i s) -> run S N (if_must m c p i s).
Proof. intros H. apply run_seq. revert H. apply run_mono; [|auto]. intros i1 s1. apply run_must. Qed.
Lemma run_act (S : input -> st -> Prop) N f p i s :
  run (fun i1 s1 => ends (S i1) (f (firstn (length i - length i1) i) s1)) N (p i s) -> run S N (act f p i s).
Proof.
  unfold act. intros H. apply ends_bind. revert H. apply ends_mono. intros [[i1|] s1]; cbn; [|auto].
  intros H. apply ends_bind. exact H.
Qed.
Lemma run_act0 (S : input -> st -> Prop) N f p i s :
  run (fun i1 s1 => ends (S i1) (f s1)) N (p i s) -> run S N (act0 f p i s).
Proof. exact (run_act S N (fun _ => f) p i s). Qed.
Lemma run_local (Q : st -> Prop) f s : ends (fun l => Q (fst s, l)) (f (snd s)) -> ends Q (local f s).
Proof. intros H. apply ends_bind. exact H. Qed.
Lemma run_pure (S : input -> st -> Prop) (N : st -> Prop) (p : rule ascii st) f i s : p i s = Ok (f, s) -> match f with Some i' => S i' s | None => N s end -> run S N (p i s).
Proof. intros ->. destruct f; auto. Qed.

(** Loops, with an invariant. *)
Lemma run_star (I : input -> st -> Prop) N p n i s : length i < n -> I i s ->
  (forall i s, I i s -> run (fun i1 s1 => I i1 s1 /\ length i1 < length i) (I i) (p i s)) ->
  run I N (star_n n p i s).
Proof.
  intros L H0 H. revert i s L H0. induction n as [|n IH]; intros i s L H0; [lia|].
  cbn [star_n]. apply ends_bind. specialize (H i s H0). revert H. apply ends_mono.
  intros [[i1|] s1]; cbn; [|auto]. intros [A B]. apply IH; [lia|exact A].
Qed.
Lemma run_until (I S : input -> st -> Prop) (N : st -> Prop) c p n i s : length i < n -> I i s ->
  (forall i s, I i s -> run S (fun s1 => run (fun i1 s1 => I i1 s1 /\ length i1 < length i) N (p i s1)) (c i s)) ->
  run S N (until_n n c p i s).
Proof.
  intros L H0 H. revert i s L H0. induction n as [|n IH]; intros i s L H0; [lia|].
  cbn [until_n]. apply ends_bind. specialize (H i s H0). revert H. apply ends_mono.
  intros [[i1|] s1]; cbn; [auto|]. intros H. apply ends_bind. revert H. apply ends_mono.
  intros [[i2|] s2]; cbn; [|auto]. intros [A B]. apply IH; [lia|exact A].
Qed.
End Closed.
