(** Lemmas for C49-C53. *)
From Coq Require Import Reals Lra.
From Flocq Require Import Core.Core IEEE754.BinarySingleNaN.
From Verif Require Import Base Num NumXR NumB64.
From Verif.Model Require Import Ast.
From Verif.Spec Require Import Formula AstSpec.
From Verif.Proofs Require Import NumFacts B64Facts RobFacts.
Local Open Scope nat_scope.

Section G.
Context {F : Type} `{NF : Num F}.
Implicit Types (e x y : expr F) (I : expr F -> bool).

Lemma And_inv l e : And_ l = Ok e -> e = EAnd l /\ 2 <= length l.
Proof. unfold And_. destruct (Nat.ltb_spec (length l) 2); [discriminate|]. intros [= <-]. auto. Qed.
Lemma Or_inv l e : Or_ l = Ok e -> e = EOr l /\ 2 <= length l.
Proof. unfold Or_. destruct (Nat.ltb_spec (length l) 2); [discriminate|]. intros [= <-]. auto. Qed.

Lemma not_meaning I e : meaning I (op_not e) = negb (meaning I e).
Proof. destruct e; reflexivity. Qed.

Lemma Not_meaning I e : meaning I (Not_ e) = negb (meaning I e).
Proof. destruct e; reflexivity. Qed.

Lemma and_helper_meaning I l y e : and_helper l y = Ok e -> meaning I e = forallb (meaning I) l && meaning I y.
Proof.
  unfold and_helper. intros H. apply And_inv in H as [-> H]. cbn [meaning]. destruct y; try (rewrite forallb_app; cbn [forallb]; rewrite andb_true_r; reflexivity).
  - destruct b; cbn [negb] in *; [cbn [meaning]; rewrite andb_true_r; reflexivity|cbn in H; lia].
  - rewrite forallb_app. reflexivity.
Qed.
Lemma or_helper_meaning I l y e : or_helper l y = Ok e -> meaning I e = existsb (meaning I) l || meaning I y.
Proof.
  unfold or_helper. intros H. apply Or_inv in H as [-> H]. cbn [meaning]. destruct y; try (rewrite existsb_app; cbn [existsb]; rewrite orb_false_r; reflexivity).
  - destruct b; cbn [negb] in *; [cbn in H; lia|cbn [meaning]; rewrite orb_false_r; reflexivity].
  - rewrite existsb_app. reflexivity.
Qed.
Lemma and_meaning I x y e : op_and x y = Ok e -> meaning I e = meaning I x && meaning I y.
Proof.
  destruct x; cbn [op_and]; intros H; try (apply And_inv in H as [-> _]; cbn [meaning forallb]; rewrite andb_true_r; reflexivity).
  - injection H as <-. destruct b; reflexivity.
  - apply and_helper_meaning, H.
Qed.
Lemma or_meaning I x y e : op_or x y = Ok e -> meaning I e = meaning I x || meaning I y.
Proof.
  destruct x; cbn [op_or]; intros H; try (apply Or_inv in H as [-> _]; cbn [meaning existsb]; rewrite orb_false_r; reflexivity).
  - injection H as <-. destruct b; reflexivity.
  - apply or_helper_meaning, H.
Qed.
Lemma C49_lemma I x y :
  meaning I (op_not x) = negb (meaning I x) /\ meaning I (Not_ x) = negb (meaning I x) /\
  (forall e, op_and x y = Ok e -> meaning I e = meaning I x && meaning I y) /\
  (forall e, op_or x y = Ok e -> meaning I e = meaning I x || meaning I y) /\
  (forall e, Implies_ x y = Ok e -> meaning I e = implb (meaning I x) (meaning I y)) /\
  (forall e, Xor_ x y = Ok e -> meaning I e = xorb (meaning I x) (meaning I y)) /\
  (forall e, Iff_ x y = Ok e -> meaning I e = Bool.eqb (meaning I x) (meaning I y)).
Proof.
  split; [apply not_meaning|]. split; [apply Not_meaning|]. split; [apply and_meaning|]. split; [apply or_meaning|]. split; [|split]; intros e H.
  - apply (or_meaning I) in H. rewrite H, not_meaning. destruct (meaning I x); reflexivity.
  - unfold Xor_ in H. apply bind_ok_inv in H as (a & Ha & H). apply bind_ok_inv in H as (b & Hb & H).
    apply (or_meaning I) in Ha. apply (or_meaning I) in Hb. apply (and_meaning I) in H. rewrite H, Ha, Hb, !not_meaning. destruct (meaning I x), (meaning I y); reflexivity.
  - unfold Iff_ in H. apply bind_ok_inv in H as (a & Ha & H). apply bind_ok_inv in H as (b & Hb & H).
    apply (and_meaning I) in Ha. apply (and_meaning I) in Hb. apply (or_meaning I) in H. rewrite H, Ha, Hb, !not_meaning. destruct (meaning I x), (meaning I y); reflexivity.
Qed.
Lemma C49_nary I l :
  (forall e, And_ l = Ok e -> meaning I e = forallb (meaning I) l) /\ (forall e, Or_ l = Ok e -> meaning I e = existsb (meaning I) l).
Proof. split; intros e H; [apply And_inv in H|apply Or_inv in H]; destruct H as [-> _]; reflexivity. Qed.

(** ** C50 *)
Lemma short_and l : free_of (short 2) (EAnd l : expr F) = true -> 2 <= length l.
Proof. cbn [free_of short]. intros H. apply andb_prop in H as [H _]. apply negb_true_iff, Nat.ltb_ge in H. exact H. Qed.
Lemma short_or l : free_of (short 2) (EOr l : expr F) = true -> 2 <= length l.
Proof. cbn [free_of short]. intros H. apply andb_prop in H as [H _]. apply negb_true_iff, Nat.ltb_ge in H. exact H. Qed.
Lemma And_ok l : 2 <= length l -> And_ l = Ok (EAnd l : expr F).
Proof. unfold And_. intros H. apply Nat.ltb_ge in H. rewrite H. reflexivity. Qed.
Lemma Or_ok l : 2 <= length l -> Or_ l = Ok (EOr l : expr F).
Proof. unfold Or_. intros H. apply Nat.ltb_ge in H. rewrite H. reflexivity. Qed.

Lemma and_total x y : free_of (short 2) x = true -> free_of (short 2) y = true ->
  if is_and x && is_false y then op_and x y = Throw InvalidArgument else exists e, op_and x y = Ok e.
Proof.
  intros Sx Sy. destruct x; cbn [is_and op_and andb]; try (eexists; reflexivity).
  apply short_and in Sx. unfold and_helper. destruct y; cbn [is_false]; try (eexists; apply And_ok; rewrite app_length; lia).
  destruct b; cbn [negb]; [eexists; apply And_ok, Sx|reflexivity].
Qed.
Lemma or_total x y : free_of (short 2) x = true -> free_of (short 2) y = true ->
  if is_or x && is_true y then op_or x y = Throw InvalidArgument else exists e, op_or x y = Ok e.
Proof.
  intros Sx Sy. destruct x; cbn [is_or op_or andb]; try (eexists; reflexivity).
  apply short_or in Sx. unfold or_helper. destruct y; cbn [is_true]; try (eexists; apply Or_ok; rewrite app_length; lia).
  destruct b; cbn [negb]; [reflexivity|eexists; apply Or_ok, Sx].
Qed.
Lemma not_short x : free_of (short 2) x = true -> free_of (short 2) (op_not x) = true.
Proof. destruct x; auto. Qed.
Lemma Not_short x : free_of (short 2) x = true -> free_of (short 2) (Not_ x) = true.
Proof. destruct x; auto. Qed.
Lemma not_no_or x : is_or (op_not x) = false. Proof. destruct x; reflexivity. Qed.
Lemma not_no_and x : is_and (op_not x) = false. Proof. destruct x; reflexivity. Qed.
Lemma short_list k l : (forall x, In x l -> free_of (short 2) x = true) -> 2 <= length l ->
  free_of (short 2) (if (k : bool) then EAnd l else EOr l : expr F) = true.
Proof.
  intros H L. destruct k; cbn [free_of short]; apply andb_true_intro; (split; [apply negb_true_iff, Nat.ltb_ge, L|apply forallb_forall, H]).
Qed.
Lemma and_args l : free_of (short 2) (EAnd l : expr F) = true -> forall x, In x l -> free_of (short 2) x = true.
Proof. cbn [free_of]. intros H. apply andb_prop in H as [_ H]. apply forallb_forall, H. Qed.
Lemma or_args l : free_of (short 2) (EOr l : expr F) = true -> forall x, In x l -> free_of (short 2) x = true.
Proof. cbn [free_of]. intros H. apply andb_prop in H as [_ H]. apply forallb_forall, H. Qed.
Lemma and_short x y e : free_of (short 2) x = true -> free_of (short 2) y = true -> op_and x y = Ok e -> free_of (short 2) e = true.
Proof.
  intros Sx Sy H. destruct x; cbn [op_and] in H; try (apply And_inv in H as [-> L]; apply (short_list true); [intros z [<-|[<-|[]]]; assumption|exact L]).
  - injection H as <-. destruct b; auto.
  - pose proof (and_args _ Sx) as A. unfold and_helper in H. apply And_inv in H as [-> L]. apply (short_list true); [|exact L]. intros z Hz.
    destruct y; try (apply in_app_or in Hz as [Hz|[<-|[]]]; auto).
    + destruct b; cbn [negb] in Hz; [auto|destruct Hz as [<-|[]]; reflexivity].
    + apply in_app_or in Hz as [Hz|Hz]; [auto|]. apply (and_args _ Sy), Hz.
Qed.
Lemma or_short x y e : free_of (short 2) x = true -> free_of (short 2) y = true -> op_or x y = Ok e -> free_of (short 2) e = true.
Proof.
  intros Sx Sy H. destruct x; cbn [op_or] in H; try (apply Or_inv in H as [-> L]; apply (short_list false); [intros z [<-|[<-|[]]]; assumption|exact L]).
  - injection H as <-. destruct b; auto.
  - pose proof (or_args _ Sx) as A. unfold or_helper in H. apply Or_inv in H as [-> L]. apply (short_list false); [|exact L]. intros z Hz.
    destruct y; try (apply in_app_or in Hz as [Hz|[<-|[]]]; auto).
    + destruct b; cbn [negb] in Hz; [destruct Hz as [<-|[]]; reflexivity|auto].
    + apply in_app_or in Hz as [Hz|Hz]; [auto|]. apply (or_args _ Sy), Hz.
Qed.

Lemma C50_lemma x y : free_of (short 2) x = true -> free_of (short 2) y = true ->
  (if is_and x && is_false y then op_and x y = Throw InvalidArgument else exists e, op_and x y = Ok e) /\
  (if is_or x && is_true y then op_or x y = Throw InvalidArgument else exists e, op_or x y = Ok e) /\
  (exists e, Implies_ x y = Ok e) /\
  (if is_or x && is_true y then Xor_ x y = Throw InvalidArgument else exists e, Xor_ x y = Ok e) /\
  (if is_and x && is_false y then Iff_ x y = Throw InvalidArgument else exists e, Iff_ x y = Ok e).
Proof.
  intros Sx Sy. split; [apply and_total; auto|]. split; [apply or_total; auto|].
  assert (O : forall u, free_of (short 2) u = true -> exists e, op_or (op_not x) u = Ok e).
  { intros u Su. pose proof (or_total (op_not x) u (not_short x Sx) Su) as K. rewrite not_no_or in K. exact K. }
  assert (A : forall u, free_of (short 2) u = true -> exists e, op_and (op_not x) u = Ok e).
  { intros u Su. pose proof (and_total (op_not x) u (not_short x Sx) Su) as K. rewrite not_no_and in K. exact K. }
  split; [apply O, Sy|]. split.
  - pose proof (or_total x y Sx Sy) as K. unfold Xor_. destruct (is_or x && is_true y); [rewrite K; reflexivity|]. destruct K as (a & Ea). rewrite Ea. cbn [bind].
    destruct (O (op_not y) (not_short y Sy)) as (b & Eb). rewrite Eb. cbn [bind].
    pose proof (and_total a b (or_short _ _ _ Sx Sy Ea) (or_short _ _ _ (not_short x Sx) (not_short y Sy) Eb)) as K.
    destruct (is_and a && is_false b) eqn:Q; [|exact K]. exfalso. apply andb_prop in Q as [Q1 Q2].
    destruct x; cbn [op_or op_not] in Ea, Eb; try (apply Or_inv in Ea as [-> _]; discriminate Q1).
    injection Ea as <-. injection Eb as <-. destruct b0; discriminate.
  - pose proof (and_total x y Sx Sy) as K. unfold Iff_. destruct (is_and x && is_false y); [rewrite K; reflexivity|]. destruct K as (a & Ea). rewrite Ea. cbn [bind].
    destruct (A (op_not y) (not_short y Sy)) as (b & Eb). rewrite Eb. cbn [bind].
    pose proof (or_total a b (and_short _ _ _ Sx Sy Ea) (and_short _ _ _ (not_short x Sx) (not_short y Sy) Eb)) as K.
    destruct (is_or a && is_true b) eqn:Q; [|exact K]. exfalso. apply andb_prop in Q as [Q1 Q2].
    destruct x; cbn [op_and op_not] in Ea, Eb; try (apply And_inv in Ea as [-> _]; discriminate Q1).
    injection Ea as <-. injection Eb as <-. destruct b0; discriminate.
Qed.

(** ** C51 *)
Lemma C51_lemma e : constructed e -> free_of (short 2) e = true.
Proof.
  induction 1; auto.
  - apply not_short; assumption.
  - apply Not_short; assumption.
  - apply And_inv in H1 as [-> L]. apply (short_list true); auto.
  - apply Or_inv in H1 as [-> L]. apply (short_list false); auto.
  - eapply and_short; [| |eassumption]; assumption.
  - eapply or_short; [| |eassumption]; assumption.
  - eapply or_short; [| |eassumption]; auto using not_short.
  - unfold Xor_ in H1. apply bind_ok_inv in H1 as (a & Ha & H1). apply bind_ok_inv in H1 as (b & Hb & H1).
    eapply and_short; [| |eassumption]; eapply or_short; [| |eassumption|..]; [..|eassumption]; auto using not_short.
  - unfold Iff_ in H1. apply bind_ok_inv in H1 as (a & Ha & H1). apply bind_ok_inv in H1 as (b & Hb & H1).
    eapply or_short; [| |eassumption]; eapply and_short; [| |eassumption|..]; [..|eassumption]; auto using not_short.
  - cbn. rewrite IHconstructed1, IHconstructed2. reflexivity.
  - cbn. rewrite IHconstructed1, IHconstructed2. reflexivity.
Qed.
Lemma C51_throw_lemma (l : list (expr F)) : length l < 2 -> And_ l = Throw InvalidArgument /\ Or_ l = Throw InvalidArgument.
Proof. intros H. apply Nat.ltb_lt in H. unfold And_, Or_. rewrite H. auto. Qed.
End G.

(** ** C52 *)
Lemma C52_lemma (a b : B64) : isnum a = true -> isnum b = true ->
  (nleb nzero a = true /\ nltb a b = true /\ interval_dbl a b = Ok (mkInterval (IDbl a) (IDbl b))) \/
  ((nleb nzero a = false \/ nltb a b = false) /\ interval_dbl a b = Throw InvalidArgument).
Proof.
  intros Na Nb. unfold interval_dbl. destruct (nltb a nzero) eqn:E1; cbn [orb]; [right; split; [left; num|reflexivity]|].
  destruct (nltb b nzero) eqn:E2; [right; split; [|reflexivity]; destruct (nltb a b) eqn:E; [|auto]; exfalso; num|].
  destruct (nleb b a) eqn:E3; [right; split; [right; num|reflexivity]|]. left. repeat split; num.
Qed.
Lemma C52_witness : exists (i : interval B64) a b, isnum a = false /\ interval_dbl a b = Ok i.
Proof. exists (mkInterval (IDbl B754_nan) (IDbl (dbl 1 0))), B754_nan, (dbl 1 0). split; reflexivity. Qed.
Lemma C52_ull_witness : exists a b : N, (b < a)%N /\ (as_double (interval_ull a b) : B64 * B64) = (dbl 5 0, dbl 3 0).
Proof. exists 5%N, 3%N. split; reflexivity. Qed.

(** ** C53 *)
Lemma normalize_ull n : ull n -> B2R (dbl (Z.of_N n) 0) = round radix2 (FLT_exp (3 - 1024 - 53) 53) ZnearestE (IZR (Z.of_N n)) /\ is_finite (dbl (Z.of_N n) 0) = true.
Proof.
  intros U. pose proof (binary_normalize_correct 53 1024 b64_prec_gt_0 b64_prec_lt_emax mode_NE (Z.of_N n) 0 false) as K. cbv zeta in K.
  assert (E : F2R (Float radix2 (Z.of_N n) 0) = IZR (Z.of_N n)) by (unfold F2R; cbn; ring). rewrite E in K.
  assert (L : Rlt_bool (Rabs (round radix2 (SpecFloat.fexp 53 1024) (round_mode mode_NE) (IZR (Z.of_N n)))) (bpow radix2 1024) = true).
  { apply Rlt_bool_true. apply Rle_lt_trans with (bpow radix2 64).
    - apply abs_round_le_generic; [apply FLT_exp_valid; reflexivity|apply valid_rnd_N|apply generic_format_bpow; vm_compute; discriminate|].
      rewrite Rabs_pos_eq by (apply IZR_le; lia). change (bpow radix2 64) with (IZR (2 ^ 64)). apply IZR_le. unfold ull in U. lia.
    - apply bpow_lt. reflexivity. }
  rewrite L in K. destruct K as (K1 & K2 & _). split; [exact K1|exact K2].
Qed.
Lemma ull_zero n : ull n -> N.eqb n 0 = neqb (dbl (Z.of_N n) 0 : B64) nzero.
Proof.
  intros U. destruct (N.eqb_spec n 0) as [-> |Z]; [reflexivity|]. destruct (normalize_ull n U) as [A B].
  symmetry. apply not_true_is_false. intros Q. change (Beqb (dbl (Z.of_N n) 0) (B754_zero false) = true) in Q. rewrite Beqb_correct in Q by (auto; reflexivity).
  cbn [B2R] in Q. revert Q. case Req_bool_spec; [intros Q _|discriminate]. rewrite A in Q.
  assert (P : (1 <= round radix2 (FLT_exp (3 - 1024 - 53) 53) ZnearestE (IZR (Z.of_N n)))%R); [|lra].
  apply round_ge_generic; [apply FLT_exp_valid; reflexivity|apply valid_rnd_N| |apply IZR_le; lia].
  change 1%R with (bpow radix2 0). apply generic_format_bpow. vm_compute. discriminate.
Qed.
Lemma ull_isinf n : ull n -> nisinf (dbl (Z.of_N n) 0 : B64) = false.
Proof. intros U. destruct (normalize_ull n U) as [_ B]. cbn [nisinf Num_B64]. unfold b64_isinf. destruct (dbl _ 0); auto; discriminate. Qed.
Lemma isinf_pos (b : B64) : nltb b nzero = false -> nisinf b = neqb b ninf.
Proof. destruct b as [s|s| |s m e H]; try destruct s; try reflexivity; discriminate. Qed.

Lemma C53_lemma (i : interval B64) : ctor_interval i ->
  is_zero_to_inf i = neqb (fst (as_double i)) nzero && neqb (snd (as_double i)) ninf /\ has_value i = is_zero_to_inf i.
Proof.
  intros M. split; [|reflexivity]. unfold is_zero_to_inf, as_double. destruct M as [-> |[(a & b & Ua & Ub & ->)|(a & b & H)]].
  - reflexivity.
  - cbn [interval_ull low high inum_double fst snd]. rewrite (ull_zero a Ua). f_equal. change (nofZ (Z.of_N b)) with (dbl (Z.of_N b) 0).
    rewrite (ull_isinf b Ub). destruct (normalize_ull b Ub) as [_ Fb]. symmetry. apply not_true_is_false. intros Q.
    destruct (dbl (Z.of_N b) 0) as [s|s| |s m e K]; try discriminate; destruct s; discriminate.
  - unfold interval_dbl in H. destruct (nltb a nzero || nltb b nzero) eqn:Q; [discriminate|]. apply orb_false_elim in Q as [_ Q].
    destruct (nleb b a); [discriminate|]. injection H as <-. cbn [low high inum_double fst snd]. f_equal. apply isinf_pos, Q.
Qed.
Lemma C53_witness : exists i j : interval B64, interval_dbl nzero (dbl 1 0) = Ok i /\ has_value i = false /\ j = interval_default /\ has_value j = true.
Proof. exists (mkInterval (IDbl nzero) (IDbl (dbl 1 0))), interval_default. repeat split; reflexivity. Qed.

(** ** Cases *)
Definition ea : expr B64 := EPred "x"%string GT nzero.
Definition eb : expr B64 := EPred "y"%string LE (dbl 1 0).
Lemma C49_case_lemma : exists e1 e2, Xor_ ea eb = Ok e1 /\ Iff_ (EAnd [ea; eb]) (EConst true) = Ok e2 /\
  meaning (fun e => match e with EPred n _ _ => String.eqb n "x"%string | _ => false end) e1 = true.
Proof. do 2 eexists. split; [reflexivity|]. split; reflexivity. Qed.
Lemma C50_case_lemma : free_of (short 2) (EOr [ea; eb]) = true /\ free_of (short 2) (EAnd [ea; EConst true]) = true.
Proof. split; reflexivity. Qed.
Lemma C50_witness : exists x y : expr B64, constructed x /\ constructed y /\ op_and x y = Throw InvalidArgument /\ Iff_ x y = Throw InvalidArgument.
Proof.
  exists (EAnd [ea; eb]), (EConst false). split; [|split; [apply C_const|split; reflexivity]].
  apply (C_and ea eb); [apply (C_gt "x"%string)|apply (C_le "y"%string)|reflexivity].
Qed.
Lemma C50_or_witness : exists x y : expr B64, constructed x /\ constructed y /\ op_or x y = Throw InvalidArgument /\ Xor_ x y = Throw InvalidArgument.
Proof.
  exists (EOr [ea; eb]), (EConst true). split; [|split; [apply C_const|split; reflexivity]].
  apply (C_or ea eb); [apply (C_gt "x"%string)|apply (C_le "y"%string)|reflexivity].
Qed.
Lemma C51_case_lemma : exists e : expr B64, constructed e /\ is_and e = true.
Proof.
  exists (EAnd [ea; eb; ea]). split; [|reflexivity]. apply (C_and (EAnd [ea; eb]) ea); [|apply (C_gt "x"%string)|reflexivity].
  apply (C_and ea eb); [apply (C_gt "x"%string)|apply (C_le "y"%string)|reflexivity].
Qed.
Lemma C53_case_lemma : ctor_interval (interval_ull 0 5 : interval B64) /\ ctor_interval (mkInterval (IDbl nzero) (IDbl ninf) : interval B64).
Proof. split; [right; left; exists 0%N, 5%N; repeat split; reflexivity|left; reflexivity]. Qed.
