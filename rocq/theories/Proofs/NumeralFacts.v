(** C110-C112: the numbers that numerals write. *)
From Coq Require Import Ascii Reals Lra Lia.
From Flocq Require Import Core.Core IEEE754.BinarySingleNaN.
From Verif Require Import Base Num NumB64.
From Verif.Model Require Import Ast Peg Parser Stod.
From Verif.Spec Require Import Formula Text Syntax TermErrors Rounding Numerals.
From Verif.Proofs Require Import PegFacts ParserSafe TokenEval SpecFacts B64Facts AstFacts ParserExamples TermErrorFacts.
Local Open Scope R_scope.

(** ** Scanning *)
Lemma digit_val c : digit c = true -> digit_value c = (Z.of_nat (nat_of_ascii c) - 48)%Z /\ (0 <= digit_value c)%Z.
Proof.
  unfold digit_value, digit, code_in. intros D. apply andb_prop in D as [D _]. apply Nat.leb_le in D. change (nat_of_ascii "0") with 48%nat. lia.
Qed.
Lemma scan_app a : Forall (fun c => digit c = true) a -> forall acc n x, match x with c :: _ => digit c = false | [] => True end ->
  scan_digits acc n (a ++ x) = (digits_value acc a, (n + Z.of_nat (length a))%Z, x).
Proof.
  induction 1 as [|c a Dc Da IH]; intros acc n x X.
  - cbn [app digits_value length]. rewrite Z.add_0_r. destruct x as [|c x]; [reflexivity|]. cbn [scan_digits]. rewrite digit_eq, X. reflexivity.
  - cbn [app scan_digits digits_value length]. rewrite digit_eq, Dc, IH by exact X. destruct (digit_val c Dc) as [-> _]. f_equal. f_equal. lia.
Qed.
Lemma digits_app a b : forall acc, digits_value acc (a ++ b) = digits_value (digits_value acc a) b.
Proof. induction a as [|c a IH]; intros acc; [reflexivity|]. cbn [app digits_value]. apply IH. Qed.
Lemma digits_pos a : Forall (fun c => digit c = true) a -> forall acc, (0 <= acc)%Z -> (0 <= digits_value acc a)%Z.
Proof.
  induction 1 as [|c a Dc Da IH]; intros acc A; [exact A|]. cbn [digits_value]. apply IH. destruct (digit_val c Dc). lia.
Qed.
Lemma exponent_head x e : power_of_ten x e -> match x with c :: _ => digit c = false /\ Ascii.eqb c "." = false /\ among "eE" c = true | [] => True end.
Proof.
  intros [[-> _]|(c & sg & ds & -> & C & _)]; [exact I|]. cbn [app]. destruct C as [<-|[<-|[]]]; repeat split; reflexivity.
Qed.
Lemma integer_all a : integer a -> Forall (fun c => digit c = true) a.
Proof. intros [_ H]. exact H. Qed.
Lemma digit_signs c : digit c = true -> Ascii.eqb c "-" = false /\ Ascii.eqb c "+" = false.
Proof. intros D. split; revert c D; apply imp_asciin; vm_compute; reflexivity. Qed.
Lemma scan_exponent x e (m k : Z) : power_of_ten x e ->
  match x with
  | c :: w3 => if among "eE" c
               then let (s, w4) := scan_sign w3 in let '(e, _, _) := scan_digits 0 0 w4 in (m, (s * e - k)%Z)
               else (m, (- k)%Z)
  | [] => (m, (- k)%Z)
  end = (m, (e - k)%Z).
Proof.
  intros P. pose proof (exponent_head x e P) as Hd. destruct P as [[-> ->]|(c & sg & ds & -> & C & D & S)]; [reflexivity|].
  cbn [app] in Hd |- *. destruct Hd as (_ & _ & ->).
  pose proof (scan_app ds (integer_all ds D) 0 0 [] I) as SC. rewrite app_nil_r in SC.
  destruct S as [[[->| ->] ->]|[-> ->]].
  - cbn [app]. destruct D as [NE D]. destruct ds as [|d ds]; [congruence|]. inversion D as [|? ? Dd _]; subst. destruct (digit_signs d Dd) as [E1 E2].
    unfold scan_sign. rewrite E1, E2, SC. f_equal; lia.
  - change (chars "+" ++ ds) with ("+"%char :: ds). unfold scan_sign. change (Ascii.eqb "+" "-") with false. change (Ascii.eqb "+" "+") with true. cbv iota. rewrite SC. f_equal; lia.
  - change (chars "-" ++ ds) with ("-"%char :: ds). unfold scan_sign. change (Ascii.eqb "-" "-") with true. cbv iota. rewrite SC. f_equal; lia.
Qed.
Lemma scan_numeral w r : numeral w r -> exists m e, scan w = (m, e) /\ (0 <= m)%Z /\ r = IZR m * powerRZ 10 e.
Proof.
  intros (_ & a & ds & x & e & A & D & W & X & R). exists (digits_value 0 (a ++ ds)), (e - Z.of_nat (length ds))%Z. split; [|split; [|exact R]].
  2:{ apply digits_pos; [|lia]. apply Forall_app. split; [apply integer_all, A|exact D]. }
  pose proof (exponent_head x e X) as Hd. unfold scan. destruct W as [[-> ->]| ->].
  - rewrite (scan_app a (integer_all a A) 0 0 x); [|destruct x; [exact I|apply Hd]]. rewrite app_nil_r. cbn [length].
    pose proof (scan_exponent x e (digits_value 0 a) 0 X) as G. destruct x as [|c x]; [exact G|]. destruct Hd as (_ & -> & _). exact G.
  - rewrite (scan_app a (integer_all a A) 0 0 ("."%char :: ds ++ x)) by reflexivity. change (Ascii.eqb "." ".") with true. cbv iota.
    rewrite (scan_app ds D (digits_value 0 a) 0 x) by (destruct x; [exact I|apply Hd]). rewrite digits_app. cbn [Z.add].
    apply (scan_exponent x e _ (Z.of_nat (length ds))), X.
Qed.

(** ** Rounding *)
Lemma quotient_correct p q : if Rlt_bool (Rabs (b64_round (IZR (Zpos p) / IZR (Zpos q)))) (bpow radix2 1024)
  then B2R (quotient64 p q) = b64_round (IZR (Zpos p) / IZR (Zpos q)) /\ finite (quotient64 p q) = true /\ Bsign (quotient64 p q) = false
  else quotient64 p q = B754_infinity false.
Proof.
  unfold quotient64, finite. set (H := Bdiv_correct_aux 53 1024 b64_prec_gt_0 b64_prec_lt_emax mode_NE false p 0 false q 0).
  pose proof (proj2 H) as K. generalize (proj1 H). intros V. clear H. cbv zeta in K, V. cbn [xorb SpecFloat.cond_Zopp] in K, V |- *.
  rewrite !F2R_0_exp in K || (unfold F2R in K; cbn [Fnum Fexp bpow] in K; rewrite !Rmult_1_r in K).
  change (round radix2 (SpecFloat.fexp 53 1024) (round_mode mode_NE) (IZR (Z.pos p) / IZR (Z.pos q))) with (b64_round (IZR (Z.pos p) / IZR (Z.pos q))) in K.
  destruct (Rlt_bool _ _).
  - rewrite B2R_SF2B, is_finite_SF2B, Bsign_SF2B. exact K.
  - apply B2SF_inj. rewrite B2SF_SF2B, K. reflexivity.
Qed.
Lemma b64_round_pos r : 0 <= r -> 0 <= b64_round r.
Proof. intros H. change (b64_round r) with (rnd r). rewrite <- rnd_0. apply rnd_mono, H. Qed.
Lemma pow10 e : (0 <= e)%Z -> powerRZ 10 e = IZR (10 ^ e).
Proof. intros E. rewrite <- (Z2Nat.id e E). rewrite <- pow_powerRZ, <- pow_IZR. reflexivity. Qed.

Lemma stod64_correct : correct_stod stod64.
Proof.
  intros w r _ N. destruct (scan_numeral w r N) as (m & e & S & M & R). unfold stod64. rewrite S.
  destruct m as [|m|m]; [| |lia].
  - rewrite R, Rmult_0_l. repeat split. change (b64_round 0) with (rnd 0). rewrite rnd_0. reflexivity.
  - set (p := if Z.leb 0 e then (m * Z.to_pos (10 ^ e))%positive else m). set (q := if Z.leb 0 e then 1%positive else Z.to_pos (10 ^ (- e))).
    assert (E : r = IZR (Zpos p) / IZR (Zpos q)).
    { rewrite R. unfold p, q. destruct (Z.leb_spec 0 e) as [L|L].
      - rewrite Pos2Z.inj_mul, Z2Pos.id by (apply Z.pow_pos_nonneg; lia). rewrite mult_IZR, <- pow10 by exact L. field.
      - rewrite Z2Pos.id by (apply Z.pow_pos_nonneg; lia). rewrite <- pow10 by lia. replace e with (- (- e))%Z at 1 by lia.
        rewrite (powerRZ_neg' 10 (- e)). reflexivity. }
    clear R M S N. clearbody p q. pose proof (IZR_lt 0 (Zpos p) ltac:(lia)) as Pp. pose proof (IZR_lt 0 (Zpos q) ltac:(lia)) as Pq.
    assert (P : 0 < r) by (rewrite E; apply Rdiv_lt_0_compat; assumption).
    destruct (Z.ltb_spec (Zpos p * 2 ^ 1022) (Zpos q)) as [L|L].
    + left. split; [exact P|]. apply IZR_lt in L. rewrite mult_IZR in L. change (2 ^ 1022)%Z with (Zpower radix2 1022) in L. rewrite IZR_Zpower in L by lia.
      rewrite E. change (-1022)%Z with (- (1022))%Z. rewrite bpow_opp. apply Rmult_lt_reg_r with (IZR (Zpos q)); [exact Pq|].
      unfold Rdiv. rewrite Rmult_assoc, Rinv_l, Rmult_1_r by lra. pose proof (bpow_gt_0 radix2 1022).
      apply Rmult_lt_reg_r with (bpow radix2 1022); [assumption|]. rewrite (Rmult_comm (/ _)), Rmult_assoc, Rinv_l by lra. lra.
    + pose proof (quotient_correct p q) as Q. rewrite <- E in Q. revert Q. case Rlt_bool_spec; intros B Q.
      * destruct Q as (Q1 & Q2 & Q3). destruct (quotient64 p q) as [s|s| |s mm ee Hm]; try discriminate; repeat split; assumption.
      * rewrite Q. right. unfold huge. rewrite Rabs_pos_eq in B; [exact B|]. apply b64_round_pos. lra.
Qed.

(** ** Literals *)
Lemma numeral_exists w : integer w \/ decimal w -> exists r, numeral w r.
Proof.
  intros H. assert (K : exists a ds x e, integer a /\ Forall (fun c => digit c = true) ds /\
    ((w = a ++ x /\ ds = []) \/ w = a ++ "."%char :: ds ++ x) /\ power_of_ten x e).
  { assert (P : forall x, exponent_part x -> exists e, power_of_ten x e).
    { intros x (c & sg & ds & -> & C & S & D). destruct S as [->|[->| ->]].
      - exists (digits_value 0 ds). right. exists c, [], ds. repeat split; auto; apply D.
      - exists (digits_value 0 ds). right. exists c, (chars "+"), ds. repeat split; auto; apply D.
      - exists (- digits_value 0 ds)%Z. right. exists c, (chars "-"), ds. repeat split; auto; apply D. }
    destruct H as [H|(a & b & x & -> & A & [(ds & -> & D & X)|[B X]])].
    - exists w, [], [], 0%Z. split; [exact H|]. split; [constructor|]. split; [left; rewrite app_nil_r; auto|left; auto].
    - assert (exists e, power_of_ten x e) as [e E] by (destruct X as [->|X]; [exists 0%Z; left; auto|apply P, X]).
      exists a, ds, x, e. split; [exact A|]. split; [apply integer_all, D|]. split; [right; reflexivity|exact E].
    - destruct (P x X) as [e E]. exists a, [], x, e. split; [exact A|]. split; [constructor|]. split; [|exact E].
      destruct B as [->| ->]; [left; auto|right; reflexivity]. }
  destruct K as (a & ds & x & e & A & D & W & X). eexists. split; [exact H|]. exists a, ds, x, e. repeat split; try assumption; apply A.
Qed.
Lemma numeral_integer w r : integer w -> numeral w r -> r = IZR (digits_value 0 w).
Proof.
  intros I (_ & a & ds & x & e & A & D & W & X & ->). pose proof (exponent_head x e X) as Hd. apply integer_all in I.
  destruct W as [[-> ->]| ->].
  - apply Forall_app in I as [_ I]. destruct x as [|c x]; [|inversion I; subst; destruct Hd; congruence].
    destruct X as [[_ ->]|(c & sg & ds & E & _)]; [|discriminate]. cbn. rewrite Rmult_1_r. reflexivity.
  - apply Forall_app in I as [_ I]. inversion I; subst. discriminate.
Qed.
Lemma long_nearest z : (0 <= z <= 2 ^ 63 - 1)%Z -> nearest (IZR z) (nofZ z).
Proof.
  intros Hz. change (@nofZ B64 Num_B64 z) with (dbl z 0). pose proof (binary_normalize_correct 53 1024 b64_prec_gt_0 b64_prec_lt_emax mode_NE z 0 false) as K. cbv zeta in K.
  fold (dbl z 0) in K. unfold F2R in K. cbn [Fnum Fexp] in K. change (bpow radix2 0) with 1 in K. rewrite Rmult_1_r in K. fold (rnd (IZR z)) in K.
  rewrite Rlt_bool_true in K.
  - destruct K as (K1 & K2 & K3). split; [exact K2|]. split; [|exact K1]. fold (dbl z 0) in K3. rewrite K3. destruct (Rcompare_spec (IZR z) 0) as [C|C|C]; [|reflexivity..].
    apply (lt_IZR z 0) in C. lia.
  - assert (B : 0 <= rnd (IZR z) <= bpow radix2 63).
    { split; [apply b64_round_pos, (IZR_le 0), Hz|]. unfold rnd. apply round_le_generic; [exact fexp_valid|exact rnd_valid| |].
      - apply generic_format_bpow. vm_compute. congruence.
      - change (bpow radix2 63) with (IZR (2 ^ 63)). apply IZR_le. lia. }
    rewrite Rabs_pos_eq by apply B. apply Rle_lt_trans with (1 := proj2 B). apply bpow_lt. lia.
Qed.
Lemma literal_correct stod w r : correct_stod stod -> numeral w r ->
  match literal_value stod w with
  | Ok v => nearest r v
  | Throw e => e = OutOfRange /\ (decimal w /\ (tiny r \/ huge r) \/ integer w /\ IZR (2 ^ 63) <= r)
  | _ => False
  end.
Proof.
  intros C N. destruct (proj1 N) as [I|D]; unfold literal_value.
  - rewrite (integer_digits w I). rewrite (numeral_integer w r I N). pose proof (digits_pos w (integer_all w I) 0 ltac:(lia)) as P.
    destruct (Z.leb_spec (digits_value 0 w) (2 ^ 63 - 1)) as [L|L]; [apply long_nearest; lia|]. split; [reflexivity|]. right. split; [exact I|]. apply IZR_le. lia.
  - rewrite (decimal_digits_false w D). specialize (C w r D N). destruct (stod w); [exact C|]. split; [reflexivity|]. left. auto.
Qed.
Lemma nearest_unique r v v' : nearest r v -> nearest r v' -> v = v'.
Proof. intros (A & B & C) (A' & B' & C'). apply B2R_Bsign_inj; [exact A|exact A'|congruence|congruence]. Qed.
Lemma nearest_small r v : nearest r v -> ~ huge r.
Proof. intros (A & B & C) H. unfold huge in H. rewrite <- C in H. pose proof (abs_B2R_lt_emax 53 1024 v) as K. apply Rabs_lt_inv in K. lra. Qed.
Lemma nearest_pos r v : 0 <= r -> nearest r v -> 0 <= B2R v.
Proof. intros H (_ & _ & ->). apply b64_round_pos, H. Qed.
Lemma numeral_pos w r : numeral w r -> 0 <= r.
Proof.
  intros N. destruct (scan_numeral w r N) as (m & e & _ & M & ->). apply Rmult_le_pos; [apply (IZR_le 0), M|apply powerRZ_le; lra].
Qed.

(** ** Terms alike *)
Section Alike.
Variable stod : list ascii -> option B64.
Variable rho : forall A, outcome A -> outcome A -> Prop.
Hypothesis rho_refl : forall A (o : outcome A), rho A o o.
Hypothesis rho_bind : forall A B (o o' : outcome A) (f f' : A -> outcome B), rho A o o' -> (forall a, rho B (f a) (f' a)) -> rho B (bind o f) (bind o' f').
Variable K : list ascii -> Prop.
Hypothesis number : forall w w', same_number w w' -> K w -> K w' -> rho B64 (literal_value stod w) (literal_value stod w').
Variables (two : cmp_op -> string -> B64 -> outcome (expr B64)) (em : outcome (expr B64)).
Notation value := (term_value stod two em).

Lemma alike_value env : forall t u, alike t u -> Forall K (numerals t) -> Forall K (numerals u) -> rho _ (value env t) (value env u).
Proof.
  assert (LIST : forall ts, Forall (fun t => forall u, alike t u -> Forall K (numerals t) -> Forall K (numerals u) -> rho _ (value env t) (value env u)) ts -> forall us,
    (fix go (ts us : list term) : Prop := match ts, us with [], [] => True | t :: ts', u :: us' => alike t u /\ go ts' us' | _, _ => False end) ts us ->
    Forall K (flat_map numerals ts) -> Forall K (flat_map numerals us) -> rho _ (list_values (value env) ts) (list_values (value env) us)).
  { induction 1 as [|t ts Ht _ IH]; intros [|u us] H N N'; try contradiction; [apply rho_refl|]. destruct H as [H1 H2]. cbn [flat_map] in N, N'.
    apply Forall_app in N as [N1 N2]. apply Forall_app in N' as [N1' N2']. cbn [list_values]. apply rho_bind; [apply Ht; assumption|]. intros e.
    apply rho_bind; [apply IH; assumption|]. intros es. apply rho_refl. }
  intros t. induction t as [b|x|op x w|op w x| |t IH|ts IH|ts IH|t1 t2 IH1 IH2|t1 t2 IH1 IH2|t1 t2 IH1 IH2|t IH|t IH|t1 t2 IH1 IH2] using term_induction;
    intros u H N N'; destruct u as [b'|x'|op' x' w'|op' w' x'| |u|us|us|u1 u2|u1 u2|u1 u2|u|u|u1 u2]; cbn [alike] in H; try discriminate H;
    cbn [numerals] in N, N'; cbn [term_value];
    try (inversion H; subst; apply rho_refl);
    try (destruct H as (-> & -> & H); inversion N; inversion N'; subst; apply rho_bind; [apply number; assumption|intros v; apply rho_refl]);
    try (apply rho_bind; [apply IH; assumption|intros e; apply rho_refl]);
    try (apply rho_bind; [apply LIST; assumption|intros es; apply rho_refl]);
    try (destruct H as [H1 H2]; apply Forall_app in N as [N1 N2]; apply Forall_app in N' as [N1' N2'];
         apply rho_bind; [apply IH1; assumption|intros e; apply rho_bind; [apply IH2; assumption|intros e'; apply rho_refl]]).
Qed.
Lemma alike_spec cs cs' : Forall2 alike_command cs cs' -> Forall K (flat_map (fun c => numerals (body c)) cs) -> Forall K (flat_map (fun c => numerals (body c)) cs') ->
  forall d a, rho _ (spec_value stod two em d a cs) (spec_value stod two em d a cs').
Proof.
  induction 1 as [|c c' cs cs' (H1 & H2 & H3) _ IH]; intros N N' d a; [apply rho_refl|]. cbn [flat_map] in N, N'.
  apply Forall_app in N as [N1 N2]. apply Forall_app in N' as [N1' N2'].
  destruct c as [x t|x t], c' as [x' t'|x' t']; try discriminate; cbn [body name] in *; subst x'; cbn [spec_value];
    (apply rho_bind; [apply alike_value; assumption|]; intros e; apply rho_bind; [apply rho_refl|]; intros m; apply IH; assumption).
Qed.
End Alike.

Lemma alike_ref_ok : forall t u, alike t u -> leaves ref_ok t = true -> leaves ref_ok u = true.
Proof.
  assert (LIST : forall ts, Forall (fun t => forall u, alike t u -> leaves ref_ok t = true -> leaves ref_ok u = true) ts -> forall us,
    (fix go (ts us : list term) : Prop := match ts, us with [], [] => True | t :: ts', u :: us' => alike t u /\ go ts' us' | _, _ => False end) ts us ->
    forallb (leaves ref_ok) ts = true -> forallb (leaves ref_ok) us = true).
  { induction 1 as [|t ts Ht _ IH]; intros [|u us] H N; try contradiction; [reflexivity|]. destruct H as [H1 H2]. cbn [forallb] in *.
    apply andb_prop in N as [N1 N2]. rewrite (Ht _ H1 N1), (IH _ H2 N2). reflexivity. }
  intros t. induction t as [b|x|op x w|op w x| |t IH|ts IH|ts IH|t1 t2 IH1 IH2|t1 t2 IH1 IH2|t1 t2 IH1 IH2|t IH|t IH|t1 t2 IH1 IH2] using term_induction;
    intros u H N; destruct u as [b'|x'|op' x' w'|op' w' x'| |u|us|us|u1 u2|u1 u2|u1 u2|u|u|u1 u2]; cbn [alike] in H; try discriminate H;
    cbn [leaves] in *; try reflexivity; try (rewrite <- H; exact N); try (apply IH; assumption); try (apply (LIST ts); assumption);
    try (inversion H; subst; exact N);
    (destruct H as [H1 H2]; apply andb_prop in N as [N1 N2]; rewrite (IH1 _ H1 N1), (IH2 _ H2 N2); reflexivity).
Qed.
Lemma alike_leaves cs cs' : Forall2 alike_command cs cs' -> all_leaves ref_ok cs = true -> all_leaves ref_ok cs' = true.
Proof.
  induction 1 as [|c c' cs cs' (_ & _ & H3) _ IH]; intros R; [reflexivity|]. unfold all_leaves in *. cbn [forallb] in *.
  apply andb_prop in R as [R1 R2]. rewrite (alike_ref_ok _ _ H3 R1), (IH R2). reflexivity.
Qed.

Definition agree A (o o' : outcome A) : Prop := o = o' \/ o = Throw OutOfRange \/ o' = Throw OutOfRange.
Lemma agree_bind A B (o o' : outcome A) (f f' : A -> outcome B) : agree A o o' -> (forall a, agree B (f a) (f' a)) -> agree B (bind o f) (bind o' f').
Proof.
  intros [->|[->| ->]] H; [|right; left; reflexivity|right; right; reflexivity].
  destruct o'; cbn; [apply H|left; reflexivity..].
Qed.

Lemma C111_lemma dbg stod cs cs' t t' : correct_stod stod -> all_leaves ref_ok cs = true -> Forall2 alike_command cs cs' ->
  spec_text cs t -> spec_text cs' t' ->
  (from_string dbg stod t = from_string dbg stod t' \/ from_string dbg stod t = Throw OutOfRange \/ from_string dbg stod t' = Throw OutOfRange) /\
  (Forall ordinary (flat_map (fun c => numerals (body c)) (cs ++ cs')) -> from_string dbg stod t = from_string dbg stod t').
Proof.
  intros C R A H H'. rewrite (code_spec dbg stod cs t R H), (code_spec dbg stod cs' t' (alike_leaves _ _ A R) H').
  assert (TR : forall l : list (list ascii), Forall (fun _ => True) l) by (intros l; apply Forall_forall; auto). split.
  - apply agree_bind; [|intros [d a]; left; reflexivity]. apply (alike_spec stod agree) with (K := fun _ => True); auto using agree_bind.
    + intros B o. left. reflexivity.
    + intros w w' (r & N & N') _ _. pose proof (literal_correct stod w r C N) as L. pose proof (literal_correct stod w' r C N') as L'. unfold agree.
      destruct (literal_value stod w) as [v|e| | |]; try contradiction; [|right; left; destruct L as [-> _]; reflexivity].
      destruct (literal_value stod w') as [v'|e'| | |]; try contradiction; [|right; right; destruct L' as [-> _]; reflexivity].
      left. rewrite (nearest_unique r v v' L L'). reflexivity.
  - intros O. rewrite flat_map_app in O. apply Forall_app in O as [O O'].
    rewrite (alike_spec stod (fun A => @eq (outcome A))) with (K := ordinary) (cs' := cs'); auto.
    + intros X Y o o' f f' -> F. destruct o'; cbn; auto.
    + intros w w' (r & N & N') Q Q'. pose proof (literal_correct stod w r C N) as L. pose proof (literal_correct stod w' r C N') as L'.
      specialize (Q r N). specialize (Q' r N').
      destruct (literal_value stod w) as [v|e| | |], (literal_value stod w') as [v'|e'| | |]; try contradiction.
      * rewrite (nearest_unique r v v' L L'). reflexivity.
      * destruct L' as [_ [(_ & [T|G])|(I & B)]]; [tauto|destruct (nearest_small r v L G)|destruct Q' as [_ Q']; specialize (Q' I); lra].
      * destruct L as [_ [(_ & [T|G])|(I & B)]]; [tauto|destruct (nearest_small r v' L' G)|destruct Q as [_ Q]; specialize (Q I); lra].
      * destruct L as [-> _], L' as [-> _]. reflexivity.
Qed.

Lemma C110_constants_lemma dbg stod t g x e : correct_stod stod -> from_string dbg stod t = Ok g -> In (x, e) (formulas g ++ assertions g) ->
  forall y op v, In (EPred y op v) (subs e) -> exists w r, numeral w r /\ nearest r v.
Proof.
  intros C G I y op v P. destruct (parsed_numbers dbg stod t g x e G I y op v P) as (w & W & L). destruct (numeral_exists w W) as [r N].
  exists w, r. split; [exact N|]. pose proof (literal_correct stod w r C N) as Q. rewrite L in Q. exact Q.
Qed.
Lemma C112_lemma dbg stod t g x e : correct_stod stod -> from_string dbg stod t = Ok g -> In (x, e) (formulas g ++ assertions g) ->
  forall y op v, In (EPred y op v) (subs e) -> finite v = true /\ Bsign v = false /\ 0 <= B2R v.
Proof.
  intros C G I y op v P. destruct (C110_constants_lemma dbg stod t g x e C G I y op v P) as (w & r & N & Q).
  split; [apply Q|]. split; [apply Q|]. eapply nearest_pos; [apply (numeral_pos w r N)|exact Q].
Qed.

(** ** One assertion *)
Lemma b64_not_huge r : huge r -> ~ tiny r.
Proof.
  unfold huge, tiny. intros H [T1 T2]. assert (K : b64_round r <= bpow radix2 (-1022)).
  { apply round_le_generic; [exact fexp_valid|exact rnd_valid| |lra]. apply generic_format_bpow. vm_compute. congruence. }
  pose proof (bpow_lt radix2 (-1022) 1024 ltac:(lia)). lra.
Qed.
Lemma long_not_huge r : 0 <= r < IZR (2 ^ 63) -> ~ huge r.
Proof.
  unfold huge. intros [H1 H2] H. assert (K : b64_round r <= bpow radix2 63).
  { apply round_le_generic; [exact fexp_valid|exact rnd_valid| |].
    - apply generic_format_bpow. vm_compute. congruence.
    - change (bpow radix2 63) with (IZR (2 ^ 63)). lra. }
  pose proof (bpow_lt radix2 63 1024 ltac:(lia)). lra.
Qed.
Lemma one_spec dbg stod x op y w t : spec_text [Assert x (TPred op y w)] t ->
  from_string dbg stod t = (v <- literal_value stod w ;; Ok (mkSpec [] [(x, EPred y op v)])).
Proof.
  intros H. rewrite (code_spec dbg stod _ t (eq_refl : all_leaves ref_ok [Assert x (TPred op y w)] = true) H). cbn [spec_value term_value body name]. unfold lookup, find. destruct (literal_value stod w); reflexivity.
Qed.
Lemma C110_lemma dbg stod x op y w r t : correct_stod stod -> numeral w r -> spec_text [Assert x (TPred op y w)] t ->
  ((~ tiny r /\ ~ huge r /\ (integer w -> r < IZR (2 ^ 63))) -> exists v, nearest r v /\ from_string dbg stod t = Ok (mkSpec [] [(x, EPred y op v)])) /\
  (huge r \/ (integer w /\ IZR (2 ^ 63) <= r) -> from_string dbg stod t = Throw OutOfRange).
Proof.
  intros C N H. rewrite (one_spec dbg stod x op y w t H). pose proof (literal_correct stod w r C N) as L. pose proof (numeral_pos w r N) as P. split.
  - intros (T & G & I). destruct (literal_value stod w) as [v|e| | |]; try contradiction; [exists v; split; [exact L|reflexivity]|].
    destruct L as [_ [(_ & [T'|G'])|(J & B)]]; [contradiction..|]. specialize (I J). lra.
  - intros O. destruct (literal_value stod w) as [v|e| | |] eqn:E; try contradiction; [|destruct L as [-> _]; reflexivity]. exfalso.
    destruct O as [G|(I & B)]; [exact (nearest_small r v L G)|]. unfold literal_value in E. rewrite (integer_digits w I) in E.
    rewrite (numeral_integer w r I N) in B. apply le_IZR in B. destruct (Z.leb_spec (digits_value 0 w) (2 ^ 63 - 1)); [lia|discriminate].
Qed.

(** ** Cases *)
Local Open Scope string_scope.
Local Open Scope list_scope.
Definition one_text (w : string) : string := ("(assert m (> x " ++ w ++ "))")%string.
Lemma chars_app a b : chars (a ++ b)%string = chars a ++ chars b.
Proof. unfold chars. induction a as [|c a IH]; [reflexivity|]. cbn. f_equal. exact IH. Qed.
Lemma one_text_ok w : integer (chars w) \/ decimal (chars w) -> spec_text [Assert "m" (TPred GT "x" (chars w))] (one_text w).
Proof.
  intros W. right. exists [], (chars (one_text w)). split; [reflexivity|]. split; [constructor|]. unfold one_text. rewrite !chars_app.
  change (chars "(assert m (> x ") with (token_text LPar ++ chars "" ++ token_text (Word "assert") ++ chars " " ++ token_text (Word "m") ++ chars " " ++ token_text LPar ++ chars "" ++
    token_text (Cmp GT) ++ chars " " ++ token_text (Word "x") ++ chars " "). rewrite <- !app_assoc.
  do 6 (apply layout_cons; [apply tok_okb_ok; reflexivity|discriminate|apply gapb_ok; reflexivity|discriminate|]).
  change (chars w ++ chars "))") with (token_text (Number (chars w)) ++ [] ++ chars "))"). apply layout_cons; [exact W|discriminate|constructor|discriminate|].
  apply (render_layout [(RPar, ""); (RPar, "")]). reflexivity.
Qed.
Ltac by_digits := split; [discriminate|repeat constructor].
Lemma num_1_5e3 : numeral (chars "1.5e3") 1500.
Proof.
  split.
  - right. exists (chars "1"), (chars ".5"), (chars "e3"). split; [reflexivity|]. split; [by_digits|]. left. exists (chars "5"). split; [reflexivity|]. split; [by_digits|].
    right. exists "e"%char, [], (chars "3"). split; [reflexivity|]. split; [left; reflexivity|]. split; [left; reflexivity|by_digits].
  - exists (chars "1"), (chars "5"), (chars "e3"), 3%Z. split; [by_digits|]. split; [repeat constructor|]. split; [right; reflexivity|]. split.
    + right. exists "e"%char, [], (chars "3"). split; [reflexivity|]. split; [left; reflexivity|]. split; [by_digits|]. left. split; [left; reflexivity|reflexivity].
    + change (digits_value 0 (chars "1" ++ chars "5")) with 15%Z. change (powerRZ 10 (3 - Z.of_nat (length (chars "5")))) with (10 * (10 * 1)). lra.
Qed.
Lemma num_int w : integer (chars w) -> numeral (chars w) (IZR (digits_value 0 (chars w))).
Proof.
  intros I. split; [left; exact I|]. exists (chars w), [], [], 0%Z. split; [exact I|]. split; [constructor|]. split; [left; rewrite app_nil_r; split; reflexivity|].
  split; [left; split; reflexivity|]. rewrite app_nil_r. cbn. lra.
Qed.
Definition two63 : string := "9223372036854775808".
Lemma num_two63 : integer (chars two63) /\ numeral (chars two63) (IZR (2 ^ 63)).
Proof. assert (I : integer (chars two63)) by by_digits. split; [exact I|]. exact (num_int two63 I). Qed.
Lemma num_two63_0 : decimal (chars (two63 ++ ".0")) /\ numeral (chars (two63 ++ ".0")) (IZR (2 ^ 63)).
Proof.
  assert (D : decimal (chars (two63 ++ ".0"))).
  { exists (chars two63), (chars ".0"), []. split; [reflexivity|]. split; [by_digits|]. left. exists (chars "0"). split; [reflexivity|]. split; [by_digits|]. left. reflexivity. }
  split; [exact D|]. split; [right; exact D|]. exists (chars two63), (chars "0"), [], 0%Z. split; [by_digits|]. split; [repeat constructor|].
  split; [right; reflexivity|]. split; [left; split; reflexivity|].
  change (digits_value 0 (chars two63 ++ chars "0")) with (2 ^ 63 * 10)%Z. rewrite mult_IZR. cbn [length chars]. change (powerRZ 10 (0 - Z.of_nat (length (chars "0")))) with (/ (10 * 1)).
  field.
Qed.
Lemma not_tiny r : 1 <= r -> ~ tiny r.
Proof. intros H [_ T]. pose proof (bpow_lt radix2 (-1022) 0 ltac:(lia)) as K. change (bpow radix2 0) with 1 in K. lra. Qed.
Lemma two63_not_huge : ~ huge (IZR (2 ^ 63)).
Proof.
  unfold huge. intros H. assert (K : b64_round (IZR (2 ^ 63)) <= bpow radix2 63).
  { apply round_le_generic; [exact fexp_valid|exact rnd_valid| |].
    - apply generic_format_bpow. vm_compute. congruence.
    - change (bpow radix2 63) with (IZR (2 ^ 63)). lra. }
  pose proof (bpow_lt radix2 63 1024 ltac:(lia)). lra.
Qed.
Lemma C110_case_lemma : correct_stod stod64 /\ numeral (chars "1.5e3") 1500 /\ spec_text [Assert "m" (TPred GT "x" (chars "1.5e3"))] (one_text "1.5e3") /\
  (~ tiny 1500 /\ ~ huge 1500 /\ (integer (chars "1.5e3") -> 1500 < IZR (2 ^ 63))) /\
  numeral (chars two63) (IZR (2 ^ 63)) /\ spec_text [Assert "m" (TPred GT "x" (chars two63))] (one_text two63) /\ integer (chars two63).
Proof.
  split; [exact stod64_correct|]. split; [exact num_1_5e3|]. split; [apply one_text_ok, num_1_5e3|].
  assert (B : 0 <= 1500 < IZR (2 ^ 63)) by (split; [lra|apply IZR_lt; vm_compute; reflexivity]).
  split; [split; [apply not_tiny; lra|split; [apply long_not_huge, B|intros _; apply B]]|].
  split; [apply num_two63|]. split; [apply one_text_ok, num_two63|apply num_two63].
Qed.
Lemma C111_refuted_lemma : exists cs cs' t t', Forall2 alike_command cs cs' /\ all_leaves ref_ok cs = true /\ spec_text cs t /\ spec_text cs' t' /\
  forall dbg stod, correct_stod stod -> from_string dbg stod t = Throw OutOfRange /\ exists g, from_string dbg stod t' = Ok g.
Proof.
  exists [Assert "m" (TPred GT "x" (chars two63))], [Assert "m" (TPred GT "x" (chars (two63 ++ ".0")))], (one_text two63), (one_text (two63 ++ ".0")).
  assert (S1 : spec_text [Assert "m" (TPred GT "x" (chars two63))] (one_text two63)) by apply one_text_ok, num_two63.
  assert (S2 : spec_text [Assert "m" (TPred GT "x" (chars (two63 ++ ".0")))] (one_text (two63 ++ ".0"))) by apply one_text_ok, num_two63_0.
  destruct num_two63 as [I1 N1], num_two63_0 as [D2 N2].
  split; [|split; [reflexivity|split; [exact S1|split; [exact S2|]]]].
  - constructor; [|constructor]. split; [reflexivity|]. split; [reflexivity|]. split; [reflexivity|]. split; [reflexivity|]. exists (IZR (2 ^ 63)). split; assumption.
  - intros dbg stod C. split.
    + apply (C110_lemma dbg stod _ _ _ _ _ _ C N1 S1). right. split; [exact I1|lra].
    + destruct (C110_lemma dbg stod _ _ _ _ _ _ C N2 S2) as [K _]. destruct K as (v & _ & E); [|eexists; exact E].
      split; [apply not_tiny; apply (IZR_le 1); vm_compute; discriminate|]. split; [exact two63_not_huge|].
      intros [_ J]. exfalso. vm_compute in J. repeat match goal with H : Forall _ (_ :: _) |- _ => inversion H; clear H; subst end. discriminate.
Qed.
Lemma C111_case_lemma : correct_stod stod64 /\ exists cs cs' t t', cs <> cs' /\ Forall2 alike_command cs cs' /\ all_leaves ref_ok cs = true /\ spec_text cs t /\ spec_text cs' t' /\
  Forall ordinary (flat_map (fun c => numerals (body c)) (cs ++ cs')).
Proof.
  split; [exact stod64_correct|]. assert (I : integer (chars "1500")) by by_digits. pose proof (num_int "1500" I) as N.
  exists [Assert "m" (TPred GT "x" (chars "1.5e3"))], [Assert "m" (TPred GT "x" (chars "1500"))], (one_text "1.5e3"), (one_text "1500").
  split; [discriminate|]. split.
  { constructor; [|constructor]. split; [reflexivity|]. split; [reflexivity|]. split; [reflexivity|]. split; [reflexivity|]. exists 1500. split; [exact num_1_5e3|exact N]. }
  split; [reflexivity|]. split; [apply one_text_ok, num_1_5e3|]. split; [apply one_text_ok; left; exact I|].
  cbn [app flat_map numerals body].
  assert (U : forall w r r', numeral w r -> numeral w r' -> r = r').
  { intros w r r' A B. destruct (scan_numeral w r A) as (m & e & E & _ & ->), (scan_numeral w r' B) as (m' & e' & E' & _ & ->). rewrite E in E'. injection E' as -> ->. reflexivity. }
  assert (B : 1500 < IZR (2 ^ 63)) by (apply IZR_lt; vm_compute; reflexivity).
  constructor; [|constructor; [|constructor]]; intros r R.
  - rewrite <- (U _ _ _ num_1_5e3 R). split; [apply not_tiny; lra|auto].
  - rewrite <- (U _ _ _ N R). split; [apply not_tiny; apply (IZR_le 1); vm_compute; discriminate|intros _; exact B].
Qed.
Lemma C112_case_lemma dbg (stod : list ascii -> option B64) : from_string dbg stod (one_text "-1") = Throw (ParseError "expected an identifier followed by a numeral or vice-versa").
Proof.
  apply (C104_lemma dbg stod [] (Word "assert") "m" ([LPar; Cmp GT; Word "x"; Bad]) _ _ [] []); [reflexivity|reflexivity| |right; reflexivity|reflexivity|apply F_form; exact I].
  right. exists [], (chars (one_text "-1")). split; [reflexivity|]. split; [constructor|].
  change (chars (one_text "-1")) with (token_text LPar ++ chars "" ++ token_text (Word "assert") ++ chars " " ++ token_text (Word "m") ++ chars " " ++ token_text LPar ++ chars "" ++
    token_text (Cmp GT) ++ chars " " ++ token_text (Word "x") ++ chars " " ++ chars "-1))").
  do 6 (apply layout_cons; [apply tok_okb_ok; reflexivity|discriminate|apply gapb_ok; reflexivity|discriminate|]). constructor. reflexivity.
Qed.
Lemma C112_parsed_case : correct_stod stod64 /\ exists v g, from_string true stod64 (one_text "1500") = Ok g /\ assertions g = [("m", EPred "x" GT v)].
Proof.
  split; [exact stod64_correct|]. assert (I : integer (chars "1500")) by by_digits. assert (S : spec_text [Assert "m" (TPred GT "x" (chars "1500"))] (one_text "1500")) by (apply one_text_ok; left; exact I).
  destruct (C110_lemma true stod64 _ _ _ _ _ _ stod64_correct (num_int "1500" I) S) as [K _]. destruct K as (v & _ & E); [|exists v; eexists; split; [exact E|reflexivity]].
  change (digits_value 0 (chars "1500")) with 1500%Z. assert (B : 0 <= 1500 < IZR (2 ^ 63)) by (split; [lra|apply IZR_lt; vm_compute; reflexivity]).
  split; [apply not_tiny; lra|]. split; [apply long_not_huge, B|intros _; apply B].
Qed.
