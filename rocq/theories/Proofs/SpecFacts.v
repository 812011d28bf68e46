(** C51 (parsed formulas), C55-C61. *)
From Coq Require Import Ascii.
From Verif Require Import Base Num.
From Verif.Spec Require Import Formula AstSpec Text Syntax.
From Verif.Model Require Import Ast Peg Parser.
From Verif.Proofs Require Import AstFacts PegFacts ParserSafe TokenSim TokenParser TokenEval.
Local Open Scope nat_scope.

Section Facts.
Context {F : Type} `{NF : Num F}.
Variable dbg : bool.
Variable stod : input -> option F.
Notation from := (from_string dbg stod).

(** ** C55 *)
Lemma C55_lemma t : match from t with
  | Ok _ => True
  | Throw e => thrown e
  | AssertFail => dbg = true
  | UB | Hang => False
  end.
Proof.
  pose proof (from_string_safe dbg stod (fun _ => True) ltac:(split; auto) t) as H.
  destruct (from t); cbn in *; auto.
Qed.

(** ** C51, C61 *)
Lemma constructed_closed : closed stod (@constructed F NF).
Proof.
  split.
  - apply C_const.
  - intros n op c _; destruct op; [apply C_gt|apply C_ge|apply C_lt|apply C_le].
  - apply C_Not.
  - intros l e H. apply C_And. apply Forall_forall, H.
  - intros l e H. apply C_Or. apply Forall_forall, H.
  - apply C_implies.
  - apply C_iff.
  - apply C_xor.
  - apply C_always.
  - apply C_eventually.
  - apply C_until.
Qed.
Definition entries_of (g : spec F) : list (string * expr F) := formulas g ++ assertions g.
Lemma parsed_all P : closed stod P -> forall t g x e, from t = Ok g -> In (x, e) (entries_of g) -> P e.
Proof.
  intros CL t g x e H K. pose proof (from_string_safe dbg stod P CL t) as S. rewrite H in S. destruct S as [[S1 _] [S2 _]].
  apply in_app_or in K as [K|K]; [rewrite Forall_forall in S1; exact (S1 _ K)|rewrite Forall_forall in S2; exact (S2 _ K)].
Qed.
Lemma parsed_constructed t g x e : from t = Ok g -> In (x, e) (entries_of g) -> constructed e.
Proof. apply (parsed_all _ constructed_closed). Qed.

Definition default_here (e : expr F) : Prop :=
  match e with EAlways _ i | EEventually _ i | EUntil _ _ i => i = interval_default | EPred _ _ v => of_numeral stod v | _ => True end.
Definition defaults (e : expr F) : Prop := Forall default_here (subs e).
Lemma subs_list (l : list (expr F)) : Forall default_here (flat_map subs l) <-> Forall defaults l.
Proof.
  induction l as [|x l IH]; cbn; [split; constructor|]. rewrite Forall_app, IH. split.
  - intros [A B]. constructor; assumption.
  - intros H. inversion H; subst. split; assumption.
Qed.
Lemma defaults_and l : defaults (EAnd l) <-> Forall defaults l.
Proof. unfold defaults at 1. cbn. rewrite <- subs_list. split; [intros H; inversion H; assumption|intros H; constructor; [exact I|exact H]]. Qed.
Lemma defaults_or l : defaults (EOr l) <-> Forall defaults l.
Proof. unfold defaults at 1. cbn. rewrite <- subs_list. split; [intros H; inversion H; assumption|intros H; constructor; [exact I|exact H]]. Qed.
Lemma defaults_not e : defaults e -> defaults (Not_ e).
Proof. intros H. destruct e; try (constructor; [exact I|exact H]). repeat constructor. Qed.
Lemma defaults_op_and x y e : defaults x -> defaults y -> op_and x y = Ok e -> defaults e.
Proof.
  intros Hx Hy E. destruct x; cbn in E;
    try (injection E as <-; apply defaults_and, Forall_cons; [|apply Forall_cons; [|apply Forall_nil]]; assumption).
  - destruct b; injection E as <-; assumption.
  - apply defaults_and in Hx.
    assert (K : forall l, And_ l = Ok e -> Forall defaults l -> defaults e) by (intros l A B; apply And_inv in A as [-> _]; apply defaults_and, B).
    apply (K _ E). destruct y as [c| | | | | | |]; try (apply Forall_app; split; [exact Hx|apply Forall_cons; [exact Hy|apply Forall_nil]]).
    + destruct (negb c); [repeat constructor|exact Hx].
    + apply Forall_app; split; [exact Hx|apply defaults_and, Hy].
Qed.
Lemma defaults_op_or x y e : defaults x -> defaults y -> op_or x y = Ok e -> defaults e.
Proof.
  intros Hx Hy E. destruct x; cbn in E;
    try (injection E as <-; apply defaults_or, Forall_cons; [|apply Forall_cons; [|apply Forall_nil]]; assumption).
  - destruct b; injection E as <-; assumption.
  - apply defaults_or in Hx.
    assert (K : forall l, Or_ l = Ok e -> Forall defaults l -> defaults e) by (intros l A B; apply Or_inv in A as [-> _]; apply defaults_or, B).
    apply (K _ E). destruct y as [c| | | | | | |]; try (apply Forall_app; split; [exact Hx|apply Forall_cons; [exact Hy|apply Forall_nil]]).
    + destruct c; [repeat constructor|exact Hx].
    + apply Forall_app; split; [exact Hx|apply defaults_or, Hy].
Qed.
Lemma defaults_closed : closed stod defaults.
Proof.
  split.
  - repeat constructor.
  - intros x c v V. constructor; [exact V|constructor].
  - apply defaults_not.
  - intros l e H E. apply And_inv in E as [-> _]. apply defaults_and, H.
  - intros l e H E. apply Or_inv in E as [-> _]. apply defaults_or, H.
  - intros x y e Hx Hy. apply defaults_op_or; [apply defaults_not, Hx|exact Hy].
  - intros x y e Hx Hy E. apply bind_ok_inv in E as (a & Ha & E). apply bind_ok_inv in E as (b & Hb & E).
    apply (defaults_op_or a b); [exact (defaults_op_and _ _ _ Hx Hy Ha)|exact (defaults_op_and _ _ _ (defaults_not _ Hx) (defaults_not _ Hy) Hb)|exact E].
  - intros x y e Hx Hy E. apply bind_ok_inv in E as (a & Ha & E). apply bind_ok_inv in E as (b & Hb & E).
    apply (defaults_op_and a b); [exact (defaults_op_or _ _ _ Hx Hy Ha)|exact (defaults_op_or _ _ _ (defaults_not _ Hx) (defaults_not _ Hy) Hb)|exact E].
  - intros e H. constructor; [reflexivity|exact H].
  - intros e H. constructor; [reflexivity|exact H].
  - intros x y Hx Hy. constructor; [reflexivity|]. apply Forall_app. split; assumption.
Qed.
Lemma C61_lemma t g x e : from t = Ok g -> In (x, e) (entries_of g) -> forall s, In s (subs e) ->
  match s with EAlways _ i | EEventually _ i | EUntil _ _ i => i = mkInterval (IDbl nzero) (IDbl ninf) | _ => True end.
Proof.
  intros H K s I. pose proof (parsed_all _ defaults_closed t g x e H K) as D. unfold defaults in D. rewrite Forall_forall in D. specialize (D s I). destruct s; auto.
Qed.
Lemma parsed_numbers t g x e : from t = Ok g -> In (x, e) (entries_of g) -> forall y op v, In (EPred y op v) (subs e) -> of_numeral stod v.
Proof.
  intros H K y op v I. pose proof (parsed_all _ defaults_closed t g x e H K) as D. unfold defaults in D. rewrite Forall_forall in D. exact (D _ I).
Qed.

(** ** C56 *)
Lemma value_supported two two' em em' env t : leaves supported t = true ->
  term_value stod two em env t = term_value stod two' em' env t.
Proof.
  induction t as [b|x|op x w|op w x| |t IH|ts IH|ts IH|t u IHt IHu|t u IHt IHu|t u IHt IHu|t IH|t IH|t u IHt IHu] using term_induction;
    intros S; cbn in S; try discriminate; try reflexivity; cbn [term_value];
    try (rewrite (IH S); reflexivity);
    try (apply andb_true_iff in S as [S1 S2]; rewrite (IHt S1), (IHu S2); reflexivity);
    (assert (E : list_values (term_value stod two em env) ts = list_values (term_value stod two' em' env) ts); [|rewrite E; reflexivity];
     induction IH as [|t ts Ht Hts IH']; [reflexivity|]; cbn in S; apply andb_true_iff in S as [S1 S2]; cbn [list_values]; rewrite (Ht S1), (IH' S2); reflexivity).
Qed.
Lemma spec_supported two two' em em' cs : all_leaves supported cs = true -> forall d a,
  spec_value stod two em d a cs = spec_value stod two' em' d a cs.
Proof.
  induction cs as [|c cs IH]; intros S d a; [reflexivity|]. cbn in S. apply andb_true_iff in S as [S1 S2].
  destruct c as [x t|x t]; cbn [spec_value]; rewrite (value_supported two two' em em' _ _ S1); apply bind_ext; intros e; apply bind_ext; intros m; apply IH, S2.
Qed.
Lemma C56_lemma cs t : all_leaves ref_ok cs = true -> all_leaves supported cs = true -> spec_text cs t ->
  omap (fun g => (formulas g, assertions g)) (from t) = spec_value stod swapped no_empty [] [] cs.
Proof.
  intros R S H. rewrite (code_spec dbg stod cs t R H), (spec_supported swapped (@code_two F) no_empty code_empty cs S).
  destruct (spec_value _ _ _ _ _ cs) as [[d a]| | | |]; reflexivity.
Qed.

(** Formulas that are written out. *)
Scheme writes_mind := Induction for writes Sort Prop
  with writes_all_mind := Induction for writes_all Sort Prop.
Combined Scheme writes_mutind from writes_mind, writes_all_mind.
Lemma writes_value two em env :
  (forall t e, writes stod t e -> term_value stod two em env t = Ok e /\ leaves ref_ok t = true /\ leaves supported t = true) /\
  (forall ts es, writes_all stod ts es -> list_values (term_value stod two em env) ts = Ok es /\ forallb (leaves ref_ok) ts = true /\ forallb (leaves supported) ts = true).
Proof.
  apply writes_mutind; try (intros; cbn; auto; fail).
  - intros op x w v E. cbn. rewrite E. auto.
  - intros t e _ (E & R & S) N. cbn. rewrite E, R, S. cbn. split; [|auto]. destruct e; try reflexivity. destruct (N b); reflexivity.
  - intros ts es _ (E & R & S) L. cbn [term_value leaves]. rewrite E. cbn [bind]. rewrite (proj2 (Nat.ltb_ge _ _) L), R, S. auto.
  - intros ts es _ (E & R & S) L. cbn [term_value leaves]. rewrite E. cbn [bind]. rewrite (proj2 (Nat.ltb_ge _ _) L), R, S. auto.
  - intros t e _ (E & R & S). cbn. rewrite E, R, S. auto.
  - intros t e _ (E & R & S). cbn. rewrite E, R, S. auto.
  - intros t u e f _ (E & R & S) _ (E' & R' & S'). cbn. rewrite E, E', R, R', S, S'. auto.
  - intros t ts e es _ (E & R & S) _ (E' & R' & S'). cbn. rewrite E, E', R, R', S, S'. auto.
Qed.
Definition named (b : bool) (ds : list (bool * (string * expr F))) : list (string * expr F) :=
  map snd (filter (fun d => Bool.eqb (fst d) b) ds).
Lemma lookup_none (m : list (string * expr F)) x : ~ In x (map fst m) -> lookup m x = None.
Proof. induction m as [|[y e] m IH]; cbn; [auto|]. intros H. destruct (string_dec x y); [subst; exfalso; auto|]. apply IH. auto. Qed.
Lemma roundtrip_value two em cs ds : Forall2 (writes_command stod) cs ds -> forall d a,
  NoDup (map fst d ++ map fst (named true ds)) -> NoDup (map fst a ++ map fst (named false ds)) ->
  spec_value stod two em d a cs = Ok (d ++ named true ds, a ++ named false ds).
Proof.
  induction 1 as [|c [b [x e]] cs ds (B & N & W) _ IH]; intros d a Nd Na.
  - cbn. rewrite !app_nil_r. reflexivity.
  - cbn in B, N, W. destruct (writes_value two em (lookup d)) as [V _]. destruct (V _ _ W) as [E _].
    destruct c as [y t|y t]; cbn in B, N, W; subst b y; cbn [spec_value body]; cbn [body] in E; rewrite E; cbn [bind].
    + cbn in Nd, Na. apply NoDup_remove_2 in Nd as K. unfold add. rewrite lookup_none by (intros Q; apply K; apply in_or_app; auto). cbn [bind].
      rewrite IH; [rewrite <- app_assoc; reflexivity| |exact Na]. rewrite map_app, <- app_assoc. exact Nd.
    + cbn in Nd, Na. apply NoDup_remove_2 in Na as K. unfold add. rewrite lookup_none by (intros Q; apply K; apply in_or_app; auto). cbn [bind].
      rewrite IH; [rewrite <- app_assoc; reflexivity|exact Nd|]. rewrite map_app, <- app_assoc. exact Na.
Qed.
Lemma C56_written cs ds t : Forall2 (writes_command stod) cs ds ->
  NoDup (map fst (named true ds)) -> NoDup (map fst (named false ds)) -> spec_text cs t ->
  from t = Ok (mkSpec (named true ds) (named false ds)).
Proof.
  intros W N1 N2 H.
  assert (R : all_leaves ref_ok cs = true).
  { unfold all_leaves. apply forallb_forall. intros c K. clear - W K. induction W as [|c' d cs ds (B & N & W1) _ IH]; [destruct K|].
    destruct K as [->|K]; [|apply IH, K]. apply (proj1 (writes_value swapped no_empty (fun _ => None)) _ _ W1). }
  rewrite (code_spec dbg stod cs t R H), (roundtrip_value _ _ cs ds W); [reflexivity|exact N1|exact N2].
Qed.

(** ** C57-C59 *)
Lemma value_ends env t : match term_value stod (@code_two F) code_empty env t with Ok _ | Throw _ => True | _ => False end.
Proof.
  pose (good := fun (A : Type) (m : outcome A) => match m with Ok _ | Throw _ => True | _ => False end).
  assert (GB : forall A B (m : outcome A) (f : A -> outcome B), good A m -> (forall a, good B (f a)) -> good B (bind m f)) by (intros A B m f H K; destruct m; cbn in *; auto).
  assert (GAnd : forall l, good (expr F) (And_ l)) by (intros l; unfold And_; destruct (Nat.ltb _ _); exact I).
  assert (GOr : forall l, good (expr F) (Or_ l)) by (intros l; unfold Or_; destruct (Nat.ltb _ _); exact I).
  assert (Gand : forall x y, good (expr F) (op_and x y)) by (intros x y; destruct x; try apply GAnd; exact I).
  assert (Gor : forall x y, good (expr F) (op_or x y)) by (intros x y; destruct x; try apply GOr; exact I).
  assert (GL : forall w, good F (literal_value stod w)) by (intros w; unfold literal_value; destruct (forallb digit w); [destruct (_ <=? _)%Z|destruct (stod w)]; exact I).
  change (good _ (term_value stod (@code_two F) code_empty env t)).
  induction t as [b|x|op x w|op w x| |t IH|ts IH|ts IH|t u IHt IHu|t u IHt IHu|t u IHt IHu|t IH|t IH|t u IHt IHu] using term_induction; cbn [term_value];
    try exact I; try (apply GB; [exact IH|intros; exact I]).
  - destruct (env x); exact I.
  - apply GB; [apply GL|intros; exact I].
  - apply GB; [apply GL|intros; exact I].
  - apply GB; [|intros es; destruct (_ <? _); exact I]. induction IH as [|t ts Ht Hts IH']; [exact I|]. cbn [list_values]. apply GB; [exact Ht|]. intros e. apply GB; [exact IH'|intros; exact I].
  - apply GB; [|intros es; destruct (_ <? _); exact I]. induction IH as [|t ts Ht Hts IH']; [exact I|]. cbn [list_values]. apply GB; [exact Ht|]. intros e. apply GB; [exact IH'|intros; exact I].
  - apply GB; [exact IHt|]. intros x. apply GB; [exact IHu|]. intros y. apply Gor.
  - apply GB; [exact IHt|]. intros x. apply GB; [exact IHu|]. intros y. apply GB; [apply Gand|]. intros a. apply GB; [apply Gand|]. intros b. apply Gor.
  - apply GB; [exact IHt|]. intros x. apply GB; [exact IHu|]. intros y. apply GB; [apply Gor|]. intros a. apply GB; [apply Gor|]. intros b. apply Gand.
  - apply GB; [exact IHt|]. intros x. apply GB; [exact IHu|]. intros y. exact I.
Qed.
Lemma spec_ends cs : forall d a, match spec_value stod (@code_two F) code_empty d a cs with Ok _ | Throw _ => True | _ => False end.
Proof.
  induction cs as [|[x t|x t] cs IH]; intros d a; [exact I|..]; cbn [spec_value]; pose proof (value_ends (lookup d) t) as V;
    (destruct (term_value _ _ _ _ t) as [e| | | |]; cbn; try contradiction; try exact I); unfold add; (destruct (lookup _ x); [exact I|]; apply IH).
Qed.
Lemma not_ok_throws cs t : all_leaves ref_ok cs = true -> spec_text cs t ->
  (forall r, spec_value stod (@code_two F) code_empty [] [] cs <> Ok r) -> exists e, from t = Throw e.
Proof.
  intros R H N. rewrite (code_spec dbg stod cs t R H). pose proof (spec_ends cs [] []) as S.
  destruct (spec_value stod (@code_two F) code_empty [] [] cs) as [r|e| | |]; try contradiction; [destruct (N r eq_refl)|]. exists e. reflexivity.
Qed.
Lemma lookup_some (m : list (string * expr F)) x e : lookup m x = Some e -> In (x, e) m.
Proof. induction m as [|[y e'] m IH]; cbn; [discriminate|]. destruct (string_dec x y); [intros [= ->]; subst; auto|auto]. Qed.
Lemma lookup_some_iff (m : list (string * expr F)) x : In x (map fst m) -> exists e, lookup m x = Some e.
Proof. induction m as [|[y e'] m IH]; cbn; [intros []|]. destruct (string_dec x y); [eauto|]. intros [K|K]; [congruence|auto]. Qed.

(** Names in the result. *)
Lemma spec_names two em cs : forall d a d' a', spec_value stod two em d a cs = Ok (d', a') ->
  map fst d' = map fst d ++ def_names cs /\ map fst a' = map fst a ++ assert_names cs.
Proof.
  induction cs as [|[x t|x t] cs IH]; intros d a d' a' H; cbn [spec_value] in H.
  - injection H as <- <-. unfold def_names, assert_names. cbn. rewrite !app_nil_r. auto.
  - apply bind_ok_inv in H as (e & _ & H). apply bind_ok_inv in H as (m & Hm & H). apply IH in H as [H1 H2].
    unfold add in Hm. destruct (lookup d x); [discriminate|]. injection Hm as <-. rewrite map_app in H1. cbn in H1. rewrite H1, H2, <- app_assoc. auto.
  - apply bind_ok_inv in H as (e & _ & H). apply bind_ok_inv in H as (m & Hm & H). apply IH in H as [H1 H2].
    unfold add in Hm. destruct (lookup a x); [discriminate|]. injection Hm as <-. rewrite map_app in H2. cbn in H2. rewrite H1, H2, <- app_assoc. auto.
Qed.
Lemma NoDup_snoc {A} (l : list A) x : NoDup l -> ~ In x l -> NoDup (l ++ [x]).
Proof. intros N I. rewrite <- (rev_involutive (l ++ [x])). apply NoDup_rev. rewrite rev_app_distr. cbn. constructor; [rewrite <- in_rev; exact I|apply NoDup_rev, N]. Qed.
Lemma spec_nodup two em cs : forall d a d' a', NoDup (map fst d) -> NoDup (map fst a) -> spec_value stod two em d a cs = Ok (d', a') ->
  NoDup (map fst d') /\ NoDup (map fst a').
Proof.
  assert (AD : forall k m m' x e, NoDup (map fst m) -> @add F k m x e = Ok m' -> NoDup (map fst m')).
  { intros k m m' x e N H. unfold add in H. destruct (lookup m x) eqn:L; [discriminate|]. injection H as <-. rewrite map_app. cbn. apply NoDup_snoc; [exact N|].
    intros K. apply lookup_some_iff in K as [e' K]. congruence. }
  induction cs as [|[x t|x t] cs IH]; intros d a d' a' Nd Na H; cbn [spec_value] in H.
  - injection H as <- <-. auto.
  - apply bind_ok_inv in H as (e & _ & H). apply bind_ok_inv in H as (m & Hm & H). apply IH in H; eauto.
  - apply bind_ok_inv in H as (e & _ & H). apply bind_ok_inv in H as (m & Hm & H). apply IH in H; eauto.
Qed.
Lemma C57_redefined cs t : all_leaves ref_ok cs = true -> spec_text cs t ->
  ~ NoDup (def_names cs) \/ ~ NoDup (assert_names cs) -> exists e, from t = Throw e.
Proof.
  intros R H D. apply (not_ok_throws cs t R H). intros [d a] E. pose proof (spec_names _ _ _ _ _ _ _ E) as [N1 N2].
  pose proof (spec_nodup _ _ _ [] [] _ _ (NoDup_nil _) (NoDup_nil _) E) as [K1 K2]. cbn in N1, N2. rewrite N1 in K1. rewrite N2 in K2. tauto.
Qed.
Lemma C57_unique t g : from t = Ok g -> NoDup (map fst (formulas g)) /\ NoDup (map fst (assertions g)).
Proof.
  intros H. pose proof (from_string_safe dbg stod (fun _ => True) ltac:(split; auto) t) as S. rewrite H in S. destruct S as [[_ S1] [_ S2]]. auto.
Qed.
Lemma C57_names cs t g : all_leaves ref_ok cs = true -> spec_text cs t -> from t = Ok g ->
  map fst (formulas g) = def_names cs /\ map fst (assertions g) = assert_names cs.
Proof.
  intros R H E. rewrite (code_spec dbg stod cs t R H) in E. apply bind_ok_inv in E as ([d a] & E & K). injection K as <-.
  exact (spec_names _ _ _ _ _ _ _ E).
Qed.

(** References. *)
Lemma value_refs two em env t e : term_value stod two em env t = Ok e -> forall y, In y (refs t) -> env y <> None.
Proof.
  revert e. induction t as [b|x|op x w|op w x| |t IH|ts IH|ts IH|t u IHt IHu|t u IHt IHu|t u IHt IHu|t IH|t IH|t u IHt IHu] using term_induction; intros e E y K; cbn [term_value refs] in *; try contradiction;
    try (apply bind_ok_inv in E as (e' & E & _); exact (IH _ E y K));
    try (apply bind_ok_inv in E as (e1 & E1 & E); apply bind_ok_inv in E as (e2 & E2 & _); apply in_app_or in K as [K|K]; [exact (IHt _ E1 y K)|exact (IHu _ E2 y K)]).
  - destruct K as [<-|[]]. destruct (env x); [discriminate|discriminate E].
  - apply bind_ok_inv in E as (es & E & _). revert es E. induction IH as [|t ts Ht Hts IH']; intros es E; [destruct K|]. cbn [list_values] in E.
    apply bind_ok_inv in E as (e1 & E1 & E). apply bind_ok_inv in E as (e2 & E2 & _). cbn in K. apply in_app_or in K as [K|K]; [exact (Ht _ E1 y K)|exact (IH' K _ E2)].
  - apply bind_ok_inv in E as (es & E & _). revert es E. induction IH as [|t ts Ht Hts IH']; intros es E; [destruct K|]. cbn [list_values] in E.
    apply bind_ok_inv in E as (e1 & E1 & E). apply bind_ok_inv in E as (e2 & E2 & _). cbn in K. apply in_app_or in K as [K|K]; [exact (Ht _ E1 y K)|exact (IH' K _ E2)].
Qed.
Lemma value_env two em (env env' : string -> option (expr F)) t : (forall y, In y (refs t) -> env' y = env y) ->
  term_value stod two em env' t = term_value stod two em env t.
Proof.
  induction t as [b|x|op x w|op w x| |t IH|ts IH|ts IH|t u IHt IHu|t u IHt IHu|t u IHt IHu|t IH|t IH|t u IHt IHu] using term_induction; intros H; cbn [term_value refs] in *; try reflexivity;
    try (rewrite (IH H); reflexivity);
    try (rewrite IHt, IHu by (intros y K; apply H, in_or_app; auto); reflexivity).
  - rewrite H by (left; reflexivity). reflexivity.
  - assert (E : list_values (term_value stod two em env') ts = list_values (term_value stod two em env) ts); [|rewrite E; reflexivity].
    induction IH as [|t ts Ht Hts IH']; [reflexivity|]. cbn [list_values]. cbn in H. rewrite Ht, IH' by (intros y K; apply H, in_or_app; auto). reflexivity.
  - assert (E : list_values (term_value stod two em env') ts = list_values (term_value stod two em env) ts); [|rewrite E; reflexivity].
    induction IH as [|t ts Ht Hts IH']; [reflexivity|]. cbn [list_values]. cbn in H. rewrite Ht, IH' by (intros y K; apply H, in_or_app; auto). reflexivity.
Qed.
Lemma spec_value_app two em pre post : forall d a, spec_value stod two em d a (pre ++ post) =
  ('(d', a') <- spec_value stod two em d a pre ;; spec_value stod two em d' a' post).
Proof.
  induction pre as [|[x t|x t] pre IH]; intros d a; [reflexivity|..]; cbn [spec_value app]; rewrite !bind_assoc; apply bind_ext; intros e;
    rewrite !bind_assoc; apply bind_ext; intros m; apply IH.
Qed.
Lemma lookup_app (m m' : list (string * expr F)) x e : lookup m x = Some e -> lookup (m ++ m') x = Some e.
Proof. induction m as [|[y e'] m IH]; cbn; [discriminate|]. destruct (string_dec x y); auto. Qed.
Lemma spec_extends two em cs : forall d a d' a', spec_value stod two em d a cs = Ok (d', a') -> exists u v, d' = d ++ u /\ a' = a ++ v.
Proof.
  induction cs as [|[x t|x t] cs IH]; intros d a d' a' H; cbn [spec_value] in H.
  - injection H as <- <-. exists [], []. rewrite !app_nil_r. auto.
  - apply bind_ok_inv in H as (e & _ & H). apply bind_ok_inv in H as (m & Hm & H). apply IH in H as (u & v & -> & ->).
    unfold add in Hm. destruct (lookup d x); [discriminate|]. injection Hm as <-. exists ([(x, e)] ++ u), v. rewrite <- app_assoc. auto.
  - apply bind_ok_inv in H as (e & _ & H). apply bind_ok_inv in H as (m & Hm & H). apply IH in H as (u & v & -> & ->).
    unfold add in Hm. destruct (lookup a x); [discriminate|]. injection Hm as <-. exists u, ([(x, e)] ++ v). rewrite <- app_assoc. auto.
Qed.
(** One command of a specification that parses. *)
Lemma spec_at two em pre c post d a : spec_value stod two em [] [] (pre ++ c :: post) = Ok (d, a) ->
  (forall y, In y (refs (body c)) -> In y (def_names pre)) /\
  exists e, term_value stod two em (lookup d) (body c) = Ok e /\ lookup (if is_def c then d else a) (name c) = Some e.
Proof.
  intros H. pose proof (spec_nodup _ _ _ [] [] _ _ (NoDup_nil _) (NoDup_nil _) H) as [ND NA].
  rewrite spec_value_app in H. apply bind_ok_inv in H as ([d1 a1] & H1 & H).
  pose proof (spec_names _ _ _ _ _ _ _ H1) as [N1 _]. cbn in N1.
  assert (G : exists e d2 a2, term_value stod two em (lookup d1) (body c) = Ok e /\ spec_value stod two em d2 a2 post = Ok (d, a) /\
     (exists u, d2 = d1 ++ u) /\ lookup (if is_def c then d2 else a2) (name c) = Some e).
  { assert (AD : forall k m m' x e, @add F k m x e = Ok m' -> m' = m ++ [(x, e)] /\ lookup m' x = Some e).
    { intros k m m' x e A. unfold add in A. destruct (lookup m x) eqn:L; [discriminate|]. injection A as <-. split; [reflexivity|].
      clear - L. induction m as [|[y e'] m IH]; cbn in *; [destruct (string_dec x x); congruence|]. destruct (string_dec x y); [discriminate|auto]. }
    destruct c as [x t|x t]; cbn [spec_value is_def name body] in *; apply bind_ok_inv in H as (e & He & H); apply bind_ok_inv in H as (m & Hm & H);
      apply AD in Hm as [Em Lm]; exists e.
    - exists m, a1. split; [exact He|]. split; [exact H|]. split; [exists [(x, e)]; exact Em|exact Lm].
    - exists d1, m. split; [exact He|]. split; [exact H|]. split; [exists []; rewrite app_nil_r; reflexivity|exact Lm]. }
  destruct G as (e & d2 & a2 & He & Hp & [u ->] & Le).
  assert (RF : forall y, In y (refs (body c)) -> exists e', lookup d1 y = Some e').
  { intros y K. pose proof (value_refs _ _ _ _ _ He y K). destruct (lookup d1 y); [eauto|congruence]. }
  split.
  - intros y K. destruct (RF y K) as [e' L]. apply lookup_some in L. rewrite <- N1. apply (in_map fst) in L. exact L.
  - destruct (spec_extends _ _ _ _ _ _ _ Hp) as (u' & v' & -> & ->). exists e. split.
    + rewrite <- He. apply value_env. intros y K. destruct (RF y K) as [e' L]. rewrite L. apply lookup_app, lookup_app, L.
    + destruct (is_def c); apply lookup_app, Le.
Qed.
Lemma C58_undefined pre c post t y : all_leaves ref_ok (pre ++ c :: post) = true -> spec_text (pre ++ c :: post) t ->
  In y (refs (body c)) -> ~ In y (def_names pre) -> exists e, from t = Throw e.
Proof.
  intros R H K N. apply (not_ok_throws _ t R H). intros [d a] E. apply spec_at in E as [E _]. exact (N (E y K)).
Qed.
Lemma C58_resolved pre c post t g : all_leaves ref_ok (pre ++ c :: post) = true -> all_leaves supported (pre ++ c :: post) = true ->
  spec_text (pre ++ c :: post) t -> from t = Ok g ->
  exists e, term_value stod swapped no_empty (lookup (formulas g)) (body c) = Ok e /\
            lookup (if is_def c then formulas g else assertions g) (name c) = Some e.
Proof.
  intros R S H E. rewrite (code_spec dbg stod _ t R H) in E. apply bind_ok_inv in E as ([d a] & E & K). injection K as <-. cbn [formulas assertions].
  rewrite (spec_supported (@code_two F) swapped code_empty no_empty _ S) in E. apply spec_at in E as [_ E]. exact E.
Qed.

(** Predicates of the second form and empty terms. *)
Lemma value_unsupported env t e : term_value stod (@code_two F) code_empty env t = Ok e -> leaves supported t = true.
Proof.
  revert e. induction t as [b|x|op x w|op w x| |t IH|ts IH|ts IH|t u IHt IHu|t u IHt IHu|t u IHt IHu|t IH|t IH|t u IHt IHu] using term_induction; intros e E; cbn [term_value] in *; try reflexivity; try discriminate;
    try (apply bind_ok_inv in E as (e' & E & _); exact (IH _ E));
    try (apply bind_ok_inv in E as (e1 & E1 & E); apply bind_ok_inv in E as (e2 & E2 & _); cbn; rewrite (IHt _ E1), (IHu _ E2); reflexivity).
  - apply bind_ok_inv in E as (v & _ & E). discriminate.
  - apply bind_ok_inv in E as (es & E & _). cbn. revert es E. induction IH as [|t ts Ht Hts IH']; intros es E; [reflexivity|]. cbn [list_values] in E.
    apply bind_ok_inv in E as (e1 & E1 & E). apply bind_ok_inv in E as (e2 & E2 & _). cbn. rewrite (Ht _ E1), (IH' _ E2). reflexivity.
  - apply bind_ok_inv in E as (es & E & _). cbn. revert es E. induction IH as [|t ts Ht Hts IH']; intros es E; [reflexivity|]. cbn [list_values] in E.
    apply bind_ok_inv in E as (e1 & E1 & E). apply bind_ok_inv in E as (e2 & E2 & _). cbn. rewrite (Ht _ E1), (IH' _ E2). reflexivity.
Qed.
Lemma unsupported_throws cs t : all_leaves ref_ok cs = true -> spec_text cs t -> all_leaves supported cs = false -> exists e, from t = Throw e.
Proof.
  intros R H S. apply (not_ok_throws cs t R H). intros [d a] E.
  assert (K : all_leaves supported cs = true); [|congruence].
  unfold all_leaves. apply forallb_forall. intros c I. apply in_split in I as (pre & post & ->). apply spec_at in E as [_ (e & E & _)].
  exact (value_unsupported _ _ _ E).
Qed.
Lemma C59_one x op y w t : spec_text [Assert x (TPred op y w)] t ->
  omap (fun g => (formulas g, assertions g)) (from t) = (v <- literal_value stod w ;; Ok ([], [(x, EPred y op v)])).
Proof.
  intros H. rewrite (C56_lemma [Assert x (TPred op y w)] t eq_refl eq_refl H). cbn. rewrite bind_assoc. reflexivity.
Qed.
Lemma C59_two x op y w t v : spec_text [Assert x (TPred2 op w y)] t -> literal_value stod w = Ok v -> from t = Throw BadOptionalAccess.
Proof. intros H E. rewrite (code_spec dbg stod [Assert x (TPred2 op w y)] t eq_refl H). cbn. rewrite E. reflexivity. Qed.
Lemma C60_empty x t : spec_text [Assert x TEmpty] t -> from t = Throw (LogicError LE_TermEmpty).
Proof. intros H. rewrite (code_spec dbg stod [Assert x TEmpty] t eq_refl H). reflexivity. Qed.
End Facts.
