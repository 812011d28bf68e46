(** C86, C87: the laws of propositional logic. *)
From Coq Require Import Sorted Reals Lra Permutation.
From Verif Require Import Base Num NumXR.
From Verif.Model Require Import Signal MonoWedge MinMax Ast Robustness.
From Verif.Spec Require Import SignalSpec Pwl Formula Semantics Quantitative Laws.
From Verif.Proofs Require Import NumFacts SignalFacts PwlFacts SyncExact SignalProps PairExact MinMaxProps RobFacts RobExact QuantFacts.
Open Scope R_scope.

(** ** For any functional reading of formulas that treats Not, And and Or pointwise *)
Section Generic.
Variable G : expr XR -> R -> Prop.
Hypothesis Gfun : forall e v w, G e v -> G e w -> v = w.
Hypothesis Gnot : forall e v, G (ENot e) v <-> G e (- v).
Hypothesis Gnode : forall p l v, G (node p l) v <->
  (exists e, In e l /\ G e v) /\ forall e, In e l -> exists w, G e w /\ sgp p * v <= sgp p * w.

Definition def (e : expr XR) : Prop := exists v, G e v.
Definition B (p : bool) (v : R) (e : expr XR) : Prop := exists w, G e w /\ sgp p * v <= sgp p * w.

Lemma def_not e : def (ENot e) <-> def e.
Proof. split; intros (v & H); [apply Gnot in H; exists (- v); exact H|exists (- v); apply Gnot; rewrite Ropp_involutive; exact H]. Qed.
Lemma def_node p l : def (node p l) <-> l <> [] /\ forall e, In e l -> def e.
Proof.
  split.
  - intros (v & H). apply Gnode in H as ((e & He & _) & H). split; [intros ->; destruct He|]. intros e' He'. destruct (H e' He') as (w & Hw & _). exists w. exact Hw.
  - intros [N D]. assert (K : exists ms, Forall2 G l ms).
    { clear N. induction l as [|e l IH]; [exists []; constructor|]. destruct (D e (or_introl eq_refl)) as (v & Hv). destruct IH as (ms & H); [intros; apply D; right; assumption|].
      exists (v :: ms). constructor; assumption. }
    destruct K as (ms & K). destruct (best_in p ms) as (v & Hv & M); [inversion K; subst; congruence|]. exists v. apply Gnode. split.
    + destruct (F2_r _ _ _ _ K Hv) as (e & He & Q). eauto.
    + intros e He. destruct (F2_l _ _ _ _ K He) as (m & Hm & Q). eauto.
Qed.

Lemma B_not p v e : B p v (ENot e) <-> B (negb p) (- v) e.
Proof.
  split; intros (w & H & L).
  - apply Gnot in H. exists (- w). split; [exact H|]. destruct p; cbn [sgp negb] in *; lra.
  - exists (- w). split; [apply Gnot; rewrite Ropp_involutive; exact H|]. destruct p; cbn [sgp negb] in *; lra.
Qed.
(** At a fixed threshold an And asks for all operands, an Or for one; and conversely in the other polarity. *)
Lemma B_all p v l : def (node p l) -> (B p v (node p l) <-> forall e, In e l -> B p v e).
Proof.
  intros D. split.
  - intros (w & H & L) e He. apply Gnode in H as [_ H]. destruct (H e He) as (u & Hu & L'). exists u. split; [exact Hu|lra].
  - intros H. destruct D as (w & D). exists w. split; [exact D|]. apply Gnode in D as ((e & He & Q) & _). destruct (H e He) as (u & Hu & L). rewrite (Gfun e w u Q Hu). exact L.
Qed.
Lemma B_some p v l : def (node (negb p) l) -> (B p v (node (negb p) l) <-> exists e, In e l /\ B p v e).
Proof.
  intros D. split.
  - intros (w & H & L). apply Gnode in H as ((e & He & Q) & _). exists e. split; [exact He|]. exists w. split; assumption.
  - intros (e & He & u & Hu & L). destruct D as (w & D). exists w. split; [exact D|]. apply Gnode in D as (_ & D). destruct (D e He) as (u' & Hu' & L').
    rewrite (Gfun e u' u Hu' Hu) in L'. destruct p; cbn [sgp negb] in *; lra.
Qed.
Lemma B_eq e e' : def e -> def e' -> (forall p v, B p v e <-> B p v e') -> forall v, G e v <-> G e' v.
Proof.
  intros (w & D) (w' & D') H. assert (w = w') as ->.
  { destruct (proj1 (H true w)) as (u & Hu & L); [exists w; split; [exact D|lra]|]. rewrite (Gfun e' u w' Hu D') in L.
    destruct (proj1 (H false w)) as (u' & Hu' & L'); [exists w; split; [exact D|lra]|]. rewrite (Gfun e' u' w' Hu' D') in L'. cbn [sgp] in *; lra. }
  intros v. split; intros Q; [rewrite (Gfun e v w' Q D)|rewrite (Gfun e' v w' Q D')]; assumption.
Qed.

Lemma same_node p l m : (forall e, In e l <-> In e m) -> def (node p l) -> def (node p m) -> forall v, G (node p l) v <-> G (node p m) v.
Proof.
  intros H D D'. apply B_eq; auto. intros q v. destruct (Bool.bool_dec q p) as [->|N].
  - rewrite !B_all by assumption. split; intros K e He; apply K, H, He.
  - assert (p = negb q) as -> by (destruct p, q; cbn; congruence). rewrite !B_some by assumption. split; intros (e & He & K); exists e; (split; [apply H, He|exact K]).
Qed.

Ltac by_polarity p q := destruct (Bool.bool_dec q p) as [->|N]; [|assert (p = negb q) as -> by (destruct p, q; cbn; congruence); clear N].

Lemma assoc_node p l m : def (node p (node p m :: l)) -> def (node p (m ++ l)) -> forall v, G (node p (node p m :: l)) v <-> G (node p (m ++ l)) v.
Proof.
  intros D D'. apply B_eq; auto. assert (Dm : def (node p m)) by (apply def_node in D as [_ D]; apply D; left; reflexivity).
  intros q v. by_polarity p q.
  - rewrite !B_all by assumption. split.
    + intros K e He. apply in_app_or in He as [He|He]; [|apply K; right; exact He]. specialize (K _ (or_introl eq_refl)). rewrite B_all in K by assumption. apply K, He.
    + intros K e [<-|He]; [rewrite B_all by assumption; intros e' He'; apply K, in_or_app; auto|apply K, in_or_app; auto].
  - rewrite !B_some by assumption. split.
    + intros (e & [<-|He] & K); [|exists e; split; [apply in_or_app; auto|exact K]]. rewrite B_some in K by assumption. destruct K as (e' & He' & K). exists e'. split; [apply in_or_app; auto|exact K].
    + intros (e & He & K). apply in_app_or in He as [He|He]; [|exists e; split; [right; exact He|exact K]]. exists (node (negb q) m). split; [left; reflexivity|].
      rewrite B_some by assumption. eauto.
Qed.

Lemma negb2 p : p = negb (negb p). Proof. destruct p; reflexivity. Qed.
(** [B] of a node of known kind, for either polarity. *)
Lemma B_all' p q v l : p = q -> def (node q l) -> (B p v (node q l) <-> forall e, In e l -> B p v e).
Proof. intros <-. apply B_all. Qed.
Lemma B_some' p q v l : q = negb p -> def (node q l) -> (B p v (node q l) <-> exists e, In e l /\ B p v e).
Proof. intros ->. apply B_some. Qed.

Lemma demorgan_node p l : def (ENot (node p l)) -> def (node (negb p) (map ENot l)) -> forall v, G (ENot (node p l)) v <-> G (node (negb p) (map ENot l)) v.
Proof.
  intros D D'. apply B_eq; auto. rewrite def_not in D. intros q v. rewrite B_not. destruct p, q; cbn [negb] in *.
  - rewrite (B_some' true false) by (reflexivity || assumption). rewrite (B_some' false true) by (reflexivity || assumption). split.
    + intros (e & He & K). exists (ENot e). split; [apply in_map, He|]. apply B_not, K.
    + intros (e & He & K). apply in_map_iff in He as (e' & <- & He). exists e'. split; [exact He|]. apply B_not in K. exact K.
  - rewrite !B_all by assumption. split.
    + intros K e He. apply in_map_iff in He as (e' & <- & He). apply B_not, K, He.
    + intros K e He. apply (B_not false v e), K, in_map, He.
  - rewrite !B_all by assumption. split.
    + intros K e He. apply in_map_iff in He as (e' & <- & He). apply B_not, K, He.
    + intros K e He. apply (B_not true v e), K, in_map, He.
  - rewrite (B_some' true false) by (reflexivity || assumption). rewrite (B_some' false true) by (reflexivity || assumption). split.
    + intros (e & He & K). exists (ENot e). split; [apply in_map, He|]. apply B_not, K.
    + intros (e & He & K). apply in_map_iff in He as (e' & <- & He). exists e'. split; [exact He|]. apply B_not in K. exact K.
Qed.

Lemma distr_node p l m : def (node p (node (negb p) m :: l)) -> def (node (negb p) (map (fun a => node p (a :: l)) m)) ->
  forall v, G (node p (node (negb p) m :: l)) v <-> G (node (negb p) (map (fun a => node p (a :: l)) m)) v.
Proof.
  intros D D'. apply B_eq; auto.
  assert (Dm : def (node (negb p) m)) by (apply def_node in D as [_ D]; apply D; left; reflexivity).
  assert (Da : forall a, In a m -> def (node p (a :: l))) by (intros a Ha; apply def_node in D' as [_ D']; apply D'; apply (in_map (fun a => node p (a :: l))), Ha).
  intros q v. by_polarity p q.
  - rewrite B_all by assumption. rewrite B_some by assumption. split.
    + intros K. pose proof (K _ (or_introl eq_refl)) as K1. rewrite B_some in K1 by assumption. destruct K1 as (a & Ha & K1). exists (node p (a :: l)).
      split; [apply (in_map (fun a => node p (a :: l))), Ha|]. rewrite B_all by (apply Da, Ha). intros e [<-|He]; [exact K1|apply K; right; exact He].
    + intros (e & He & K). apply in_map_iff in He as (a & <- & Ha). rewrite B_all in K by (apply Da, Ha). intros e [<-|He].
      * rewrite B_some by assumption. exists a. split; [exact Ha|]. apply K. left. reflexivity.
      * apply K. right. exact He.
  - rewrite <- negb2 in *. rewrite B_some by assumption. rewrite B_all by assumption. split.
    + intros (e & [<-|He] & K) e' He'; apply in_map_iff in He' as (a & <- & Ha); rewrite B_some by (apply Da, Ha).
      * rewrite B_all in K by assumption. exists a. split; [left; reflexivity|]. apply K, Ha.
      * exists e. split; [right; exact He|exact K].
    + intros K.
      assert (X : (exists e, In e l /\ B q v e) \/ (forall a, In a m -> B q v a)).
      { clear D D' Dm. induction m as [|a m IH]; [right; intros a []|]. destruct IH as [X|X].
        - intros a' Ha'. apply Da. right. exact Ha'.
        - intros e He. apply K. right. exact He.
        - left. exact X.
        - assert (K1 : B q v (node (negb q) (a :: l))) by (apply K; left; reflexivity). rewrite B_some in K1 by (apply Da; left; reflexivity).
          destruct K1 as (e & [<-|He] & K1); [|left; eauto]. right. intros a' [<-|Ha']; auto. }
      destruct X as [(e & He & X)|X]; [exists e; split; [right; exact He|exact X]|]. exists (node q m). split; [left; reflexivity|]. rewrite B_all by assumption. exact X.
Qed.

Lemma one_node p a v : G (node p [a]) v <-> G a v.
Proof.
  rewrite Gnode. split.
  - intros ((e & [<-|[]] & H) & _). exact H.
  - intros H. split; [exists a; split; [left; reflexivity|exact H]|]. intros e [<-|[]]. exists v. split; [exact H|lra].
Qed.

Lemma law_G a b : law a b -> def a -> def b -> forall v, G a v <-> G b v.
Proof.
  intros L D D'. destruct L.
  - intros v. rewrite !Gnot, Ropp_involutive. reflexivity.
  - apply (one_node true).
  - apply (one_node false).
  - apply (same_node true); auto. intros e. split; apply Permutation_in; [assumption|apply Permutation_sym; assumption].
  - apply (same_node false); auto. intros e. split; apply Permutation_in; [assumption|apply Permutation_sym; assumption].
  - apply (assoc_node true); auto.
  - apply (assoc_node false); auto.
  - apply (same_node true); auto. intros e. cbn [In]. tauto.
  - apply (same_node false); auto. intros e. cbn [In]. tauto.
  - apply (demorgan_node true); auto.
  - apply (demorgan_node false); auto.
  - apply (distr_node true); auto.
  - apply (distr_node false); auto.
Qed.

Lemma absorb_node p a l : def (node p [a; node (negb p) (a :: l)]) -> forall v, G (node p [a; node (negb p) (a :: l)]) v <-> G a v.
Proof.
  intros D. pose proof D as D1. apply def_node in D1 as [_ D1]. assert (Da : def a) by (apply D1; left; reflexivity).
  assert (Dn : def (node (negb p) (a :: l))) by (apply D1; right; left; reflexivity). apply B_eq; auto. intros q v. by_polarity p q.
  - rewrite B_all by assumption. split; [intros K; apply K; left; reflexivity|]. intros K e [<-|[<-|[]]]; [exact K|]. rewrite B_some by assumption. exists a. split; [left; reflexivity|exact K].
  - rewrite <- negb2 in *. rewrite B_some by assumption. split; [|intros K; exists a; split; [left; reflexivity|exact K]].
    intros (e & [<-|[<-|[]]] & K); [exact K|]. rewrite B_all in K by assumption. apply K. left. reflexivity.
Qed.
Lemma absorption_G a b : absorption a b -> def a -> forall v, G a v <-> G b v.
Proof. intros [a' l|a' l] D; [apply (absorb_node true)|apply (absorb_node false)]; exact D. Qed.

(** The two sides of a law without empty And or Or are defined together. *)
Lemma law_def a b : law a b -> free_of (short 1) a = true -> free_of (short 1) b = true -> (def a <-> def b).
Proof.
  assert (PERM : forall p l m, (forall e, In e l <-> In e m) -> def (node p l) -> def (node p m)).
  { intros p l m H. rewrite !def_node. intros [N D]. split; [|intros e He; apply D, H, He]. intros ->. destruct l as [|x l]; [congruence|]. apply (proj1 (H x)). left. reflexivity. }
  assert (NE : forall l : list (expr XR), negb (Nat.ltb (length l) 1) = true -> l <> []) by (intros l H ->; discriminate).
  assert (DM : forall p l, def (ENot (node p l)) <-> def (node (negb p) (map ENot l))).
  { intros p l. rewrite def_not, !def_node. split; intros [N D]; (split; [destruct l; [cbn in N; congruence|discriminate]|]).
    - intros e He. apply in_map_iff in He as (e' & <- & He). apply def_not, D, He.
    - intros e He. apply def_not, D, in_map, He. }
  assert (AS : forall p l m, m <> [] -> def (node p (node p m :: l)) <-> def (node p (m ++ l))).
  { intros p l m N. rewrite !def_node. split; intros [_ D].
    - split; [destruct m; [congruence|discriminate]|]. intros e He. apply in_app_or in He as [He|He]; [|apply D; right; exact He].
      specialize (D _ (or_introl eq_refl)). apply def_node in D as [_ D]. apply D, He.
    - split; [discriminate|]. intros e [<-|He]; [|apply D, in_or_app; auto]. apply def_node. split; [exact N|]. intros e He. apply D, in_or_app. auto. }
  assert (DI : forall p l m, m <> [] -> def (node p (node (negb p) m :: l)) <-> def (node (negb p) (map (fun a => node p (a :: l)) m))).
  { intros p l m N. rewrite !def_node. split; intros [_ D].
    - split; [destruct m; [congruence|discriminate]|]. intros e He. apply in_map_iff in He as (a' & <- & Ha). apply def_node. split; [discriminate|].
      pose proof (D _ (or_introl eq_refl)) as Dm. apply def_node in Dm as [_ Dm]. intros e [<-|He]; [apply Dm, Ha|apply D; right; exact He].
    - split; [discriminate|]. intros e [<-|He].
      + apply def_node. split; [exact N|]. intros e He. specialize (D _ (in_map (fun a => node p (a :: l)) m e He)). apply def_node in D as [_ D]. apply D. left. reflexivity.
      + destruct m as [|x m]; [congruence|]. specialize (D _ (or_introl eq_refl)). apply def_node in D as [_ D]. apply D. right. exact He. }
  intros L S S'. destruct L.
  - rewrite !def_not. reflexivity.
  - unfold def. setoid_rewrite (one_node true). reflexivity.
  - unfold def. setoid_rewrite (one_node false). reflexivity.
  - split; apply (PERM true); intros e; split; apply Permutation_in; auto using Permutation_sym.
  - split; apply (PERM false); intros e; split; apply Permutation_in; auto using Permutation_sym.
  - apply (AS true). cbn [free_of short forallb] in S. apply andb_prop in S as [_ S]. apply andb_prop in S as [S _]. apply andb_prop in S as [S _]. apply NE, S.
  - apply (AS false). cbn [free_of short forallb] in S. apply andb_prop in S as [_ S]. apply andb_prop in S as [S _]. apply andb_prop in S as [S _]. apply NE, S.
  - split; apply (PERM true); intros e; cbn [In]; tauto.
  - split; apply (PERM false); intros e; cbn [In]; tauto.
  - apply (DM true).
  - apply (DM false).
  - apply (DI true). cbn [free_of short forallb] in S. apply andb_prop in S as [_ S]. apply andb_prop in S as [S _]. apply andb_prop in S as [S _]. apply NE, S.
  - apply (DI false). cbn [free_of short forallb] in S. apply andb_prop in S as [_ S]. apply andb_prop in S as [S _]. apply andb_prop in S as [S _]. apply NE, S.
Qed.
End Generic.

(** ** What the code returns *)
Section Code.
Variables (dbg : bool) (fuel : nat) (lt : ptrace) (tr : trace XR) (t0 : R) (s : bool).
Hypotheses (TO : trace_of lt tr) (KU : keys_unique tr) (AS : all_start lt t0).
Let r := mkRob (trace_begin tr) (trace_end tr) tr.

Lemma gives_fsig e l : rincr l -> compute dbg fuel r e = Ok (fsig l) -> forall t v, gives dbg fuel tr s e t v <-> pwl l t v.
Proof.
  intros I C t v. split.
  - intros (l' & z & E & Bz & P). change (compute dbg fuel r e = Ok z) in E. rewrite C in E. injection E as <-. apply built_iff in Bz as [I' E].
    apply fsig_inj in E. subst l'. exact P.
  - intros P. exists l, (fsig l). split; [exact C|]. split; [apply built_iff; auto|exact P].
Qed.

Lemma gives_eval e : evaluable lt e -> exists l, compute dbg fuel r e = Ok (fsig l) /\ evaluated lt t0 e l /\ forall t v, gives dbg fuel tr s e t v <-> pwl l t v.
Proof.
  intros E. destruct (eval_main dbg fuel lt tr t0 r TO KU AS eq_refl e E) as (l & C & EV). exists l. split; [exact C|]. split; [exact EV|].
  apply gives_fsig; [apply EV|exact C].
Qed.
Lemma gives_fun e t v w : gives dbg fuel tr s e t v -> gives dbg fuel tr s e t w -> v = w.
Proof.
  intros (l & z & E & Bz & P) (l' & z' & E' & Bz' & P'). rewrite E in E'. injection E' as <-. apply built_iff in Bz as [I ->], Bz' as [I' Q]. apply fsig_inj in Q. subst l'.
  eapply pwl_fun; eauto.
Qed.
Lemma gives_inside e t : evaluable lt e -> ((exists v, gives dbg fuel tr s e t v) <-> inside lt e t).
Proof. intros E. destruct (gives_eval e E) as (l & _ & EV & G). destruct EV as (_ & _ & D & _). rewrite <- D. split; intros (v & H); exists v; apply G, H. Qed.

Lemma C86_not_lemma e t v : evaluable lt (ENot e) -> (gives dbg fuel tr s (ENot e) t v <-> gives dbg fuel tr s e t (- v)).
Proof.
  intros E. assert (E' : evaluable lt e) by (apply (evaluable_sub lt _ e E); auto; intros x Hx; right; exact Hx).
  destruct (gives_eval e E') as (l & C & EV & G). rewrite (G t (- v)). destruct EV as (I & _). pose (f := fun x => - x).
  assert (P : forall t v, pwl (map (fun p => (fst p, f (snd p))) l) t v <-> pwl l t (- v)).
  { intros t' v'. apply (pwl_map_iff f f); try (exists (-1), 0); intros; unfold f; ring. }
  rewrite <- (P t v). apply gives_fsig; [apply rincr_map, I|]. cbn [compute]. rewrite C. cbn [bind]. apply not_fsig, I.
Qed.

Lemma evaluable_or l : evaluable lt (EOr l) <-> evaluable lt (EAnd l).
Proof.
  split; intros (A & B & C & D & E); (split; [exact A|]; split; [exact B|]; split; [|split; [|exact E]]).
  - intros e [<-|He]; [exact I|]. apply C. right. exact He.
  - intros e [<-|He]; [exact I|]. apply D. right. exact He.
  - intros e [<-|He]; [exact I|]. apply C. right. exact He.
  - intros e [<-|He]; [exact I|]. apply D. right. exact He.
Qed.
Lemma evaluable_node p l : evaluable lt (node p l) <-> l <> [] /\ forall e, In e l -> evaluable lt e.
Proof.
  assert (evaluable lt (node p l) <-> evaluable lt (EAnd l)) as -> by (destruct p; [reflexivity|apply evaluable_or]). split.
  - intros E. split; [intros ->; destruct E as (_ & E & _); discriminate|]. intros e. apply evaluable_in, E.
  - intros [N H]. split; [|split; [|split; [|split]]].
    + cbn [free_of is_const negb andb]. apply forallb_forall. intros e He. apply (H e He).
    + cbn [free_of short]. apply andb_true_intro. split; [destruct l; [congruence|reflexivity]|]. apply forallb_forall. intros e He. apply (H e He).
    + intros e [<-|He]; [exact I|]. apply in_flat_map in He as (e' & He' & He). apply (H e' He'), He.
    + intros e [<-|He]; [exact I|]. apply in_flat_map in He as (e' & He' & He). apply (H e' He'), He.
    + intros n Hn. cbn [names] in Hn. apply in_flat_map in Hn as (e & He & Hn). apply (H e He), Hn.
Qed.

Lemma gives_node p l t v : evaluable lt (node p l) -> (gives dbg fuel tr s (node p l) t v <->
  (exists e, In e l /\ gives dbg fuel tr s e t v) /\ forall e, In e l -> exists w, gives dbg fuel tr s e t w /\ sgp p * v <= sgp p * w).
Proof.
  intros E. apply evaluable_node in E as [N E].
  assert (L : exists ls, Forall2 (fun e l => compute dbg fuel r e = Ok (fsig l)) l ls /\ Forall2 (fun e l => rincr l /\ starts t0 l /\ forall t v, gives dbg fuel tr s e t v <-> pwl l t v) l ls).
  { clear N. induction l as [|e l IH]; [exists []; split; constructor|]. destruct (gives_eval e (E e (or_introl eq_refl))) as (le & C & (I & S & _) & G).
    destruct IH as (ls & H1 & H2); [intros; apply E; right; assumption|]. exists (le :: ls). split; constructor; auto. }
  destruct L as (ls & C & H). assert (Nl : ls <> []) by (inversion H; subst; congruence).
  assert (IS : Forall (fun l => rincr l /\ starts t0 l) ls) by (clear -H; induction H as [|? ? ? ? (? & ? & ?)]; constructor; auto).
  assert (X : exists l', compute dbg fuel r (node p l) = Ok (fsig l') /\ rincr l' /\ forall t v, pwl l' t v <-> extreme (sgp p) ls t v).
  { destruct p; cbn [node sgp compute]; rewrite (eval_list dbg fuel r l ls C); cbn [bind].
    - destruct (list_exact1 1 sample_le Rmin sg_le (fun a b => best_min a b) dbg ls t0 Nl IS) as (l' & EL & I' & S & X). eauto.
    - destruct (list_exact1 (-1) sample_ge Rmax sg_ge (fun a b => best_max a b) dbg ls t0 Nl IS) as (l' & EL & I' & S & X). eauto. }
  destruct X as (l' & C' & I' & X). rewrite (gives_fsig _ l' I' C'), X. unfold extreme. split.
  - intros (D & (l1 & Hl & P) & M). split.
    + destruct (F2_r _ _ _ _ H Hl) as (e & He & _ & _ & G). exists e. split; [exact He|]. apply G, P.
    + intros e He. destruct (F2_l _ _ _ _ H He) as (le & Hle & _ & _ & G). destruct (D le Hle) as (w & Hw). exists w. split; [apply G, Hw|]. apply (M le w Hle Hw).
  - intros ((e & He & P) & M). split; [|split].
    + intros le Hle. destruct (F2_r _ _ _ _ H Hle) as (e' & He' & _ & _ & G). destruct (M e' He') as (w & Hw & _). exists w. apply G, Hw.
    + destruct (F2_l _ _ _ _ H He) as (le & Hle & _ & _ & G). exists le. split; [exact Hle|]. apply G, P.
    + intros le vl Hle Hv. destruct (F2_r _ _ _ _ H Hle) as (e' & He' & _ & _ & G). apply G in Hv. destruct (M e' He') as (w & Hw & Lw). rewrite (gives_fun e' t vl w Hv Hw). exact Lw.
Qed.

Lemma C86_and_lemma l t v : evaluable lt (EAnd l) -> (gives dbg fuel tr s (EAnd l) t v <->
  (exists e, In e l /\ gives dbg fuel tr s e t v) /\ forall e, In e l -> exists w, gives dbg fuel tr s e t w /\ v <= w).
Proof.
  intros E. rewrite (gives_node true l t v E). cbn [sgp]. split; intros [A M]; (split; [exact A|]); intros e He; destruct (M e He) as (w & Hw & L); exists w; (split; [exact Hw|lra]).
Qed.
Lemma C86_or_lemma l t v : evaluable lt (EOr l) -> (gives dbg fuel tr s (EOr l) t v <->
  (exists e, In e l /\ gives dbg fuel tr s e t v) /\ forall e, In e l -> exists w, gives dbg fuel tr s e t w /\ w <= v).
Proof.
  intros E. rewrite (gives_node false l t v E). cbn [sgp]. split; intros [A M]; (split; [exact A|]); intros e He; destruct (M e He) as (w & Hw & L); exists w; (split; [exact Hw|lra]).
Qed.

Definition given (t : R) (e : expr XR) (v : R) : Prop := evaluable lt e /\ gives dbg fuel tr s e t v.
Lemma given_fun t e v w : given t e v -> given t e w -> v = w.
Proof. intros [_ H] [_ H']. eapply gives_fun; eauto. Qed.
Lemma evaluable_not e : evaluable lt (ENot e) <-> evaluable lt e.
Proof.
  split; intros E.
  - apply (evaluable_sub lt _ e E); auto. intros x Hx. right. exact Hx.
  - destruct E as (A & B & C & D & E). split; [exact A|]. split; [exact B|]. split; [|split; [|exact E]]; intros e' [<-|He]; try exact I; [apply C, He|apply D, He].
Qed.
Lemma given_not t e v : given t (ENot e) v <-> given t e (- v).
Proof. unfold given. rewrite evaluable_not. split; intros [E H]; (split; [exact E|]); [apply C86_not_lemma in H|apply C86_not_lemma]; try exact H; apply evaluable_not, E. Qed.
Lemma given_node t p l v : given t (node p l) v <->
  (exists e, In e l /\ given t e v) /\ forall e, In e l -> exists w, given t e w /\ sgp p * v <= sgp p * w.
Proof.
  unfold given. split.
  - intros [E H]. apply gives_node in H as [(e & He & H) M]; [|exact E]. apply evaluable_node in E as [_ E]. split; [eauto|].
    intros e' He'. destruct (M e' He') as (w & Hw & L). eauto.
  - intros ((e & He & _ & H) & M).
    assert (E : evaluable lt (node p l)).
    { apply evaluable_node. split; [intros ->; destruct He|]. intros e' He'. destruct (M e' He') as (w & [Q _] & _). exact Q. }
    split; [exact E|]. apply gives_node; [exact E|]. split; [eauto|]. intros e' He'. destruct (M e' He') as (w & [_ Q] & L). eauto.
Qed.

Lemma given_def t e : evaluable lt e -> inside lt e t -> def (given t) e.
Proof. intros E H. apply gives_inside in H as (v & H); [|exact E]. exists v. split; assumption. Qed.

Lemma C86_law_lemma phi psi t v : law phi psi \/ absorption phi psi -> evaluable lt phi -> evaluable lt psi -> inside lt phi t -> inside lt psi t ->
  (gives dbg fuel tr s phi t v <-> gives dbg fuel tr s psi t v).
Proof.
  intros L E E' H H'. apply given_def in H, H'; [|assumption..].
  assert (K : given t phi v <-> given t psi v).
  { destruct L as [L|L].
    - apply (law_G (given t) (given_fun t) (given_not t) (given_node t)); assumption.
    - apply (absorption_G (given t) (given_fun t) (given_node t)); assumption. }
  split; intros Q; [apply K|apply K]; split; assumption.
Qed.
End Code.

(** ** In a context, for the reference semantics *)
Lemma names_node p l n : In n (names (node p l)) <-> exists e, In e l /\ In n (names e).
Proof. destruct p; cbn [node names]; apply in_flat_map. Qed.

Lemma law_names (a b : expr XR) : law a b -> free_of (short 1) a = true -> forall n, In n (names a) <-> In n (names b).
Proof.
  assert (SAME : forall p l m, (forall e, In e l <-> In e m) -> forall n, In n (names (node p l)) <-> In n (names (node p m))).
  { intros p l m H n. rewrite !names_node. split; intros (e & He & K); exists e; (split; [apply H, He|exact K]). }
  assert (ASS : forall p l m n, In n (names (node p (node p m :: l))) <-> In n (names (node p (m ++ l)))).
  { intros p l m n. rewrite !names_node. split.
    - intros (e & [<-|He] & K); [apply names_node in K as (e' & He' & K); exists e'|exists e]; (split; [apply in_or_app; auto|exact K]).
    - intros (e & He & K). apply in_app_or in He as [He|He]; [exists (node p m); split; [left; reflexivity|]; apply names_node; eauto|exists e; split; [right; exact He|exact K]]. }
  assert (DM : forall p l n, In n (names (ENot (node p l))) <-> In n (names (node (negb p) (map ENot l)))).
  { intros p l n. cbn [names]. rewrite !names_node. split.
    - intros (e & He & K). exists (ENot e). split; [apply in_map, He|exact K].
    - intros (e & He & K). apply in_map_iff in He as (e' & <- & He). exists e'. split; [exact He|exact K]. }
  assert (DI : forall p l m n, m <> [] -> In n (names (node p (node (negb p) m :: l))) <-> In n (names (node (negb p) (map (fun a => node p (a :: l)) m)))).
  { intros p l m n N. rewrite !names_node. split.
    - intros (e & [<-|He] & K).
      + apply names_node in K as (e & He & K). exists (node p (e :: l)). split; [apply (in_map (fun a => node p (a :: l))), He|]. apply names_node. exists e. split; [left; reflexivity|exact K].
      + destruct m as [|x m]; [congruence|]. exists (node p (x :: l)). split; [left; reflexivity|]. apply names_node. exists e. split; [right; exact He|exact K].
    - intros (e & He & K). apply in_map_iff in He as (x & <- & He). apply names_node in K as (e & [<-|He'] & K).
      + exists (node (negb p) m). split; [left; reflexivity|]. apply names_node. eauto.
      + exists e. split; [right; exact He'|exact K]. }
  intros L S n. destruct L.
  - reflexivity.
  - cbn [names flat_map]. rewrite app_nil_r. reflexivity.
  - cbn [names flat_map]. rewrite app_nil_r. reflexivity.
  - apply (SAME true). intros e; split; apply Permutation_in; auto using Permutation_sym.
  - apply (SAME false). intros e; split; apply Permutation_in; auto using Permutation_sym.
  - apply (ASS true).
  - apply (ASS false).
  - apply (SAME true). intros e. cbn [In]. tauto.
  - apply (SAME false). intros e. cbn [In]. tauto.
  - apply (DM true).
  - apply (DM false).
  - apply (DI true). intros ->. discriminate.
  - apply (DI false). intros ->. discriminate.
Qed.

Lemma short_node p l : free_of (short 1) (node p l) = true -> l <> [] /\ forall e, In e l -> free_of (short 1) e = true.
Proof.
  intros H. assert (K : negb (Nat.ltb (length l) 1) && forallb (free_of (short 1)) l = true) by (destruct p; exact H). apply andb_prop in K as [N K].
  split; [intros ->; discriminate|]. intros e. apply (proj1 (forallb_forall _ _) K).
Qed.

Lemma names_rewrite (a b : expr XR) : rewrite1 a b -> free_of (short 1) a = true -> free_of (short 1) b = true -> forall n, In n (names a) <-> In n (names b).
Proof.
  assert (ND : forall p l m a b, (free_of (short 1) a = true -> free_of (short 1) b = true -> forall n, In n (names a) <-> In n (names b)) ->
    free_of (short 1) (node p (l ++ a :: m)) = true -> free_of (short 1) (node p (l ++ b :: m)) = true ->
    forall n, In n (names (node p (l ++ a :: m))) <-> In n (names (node p (l ++ b :: m)))).
  { intros p l m x y IH S S' n. apply short_node in S as [_ S], S' as [_ S'].
    specialize (IH (S x ltac:(apply in_or_app; right; left; reflexivity)) (S' y ltac:(apply in_or_app; right; left; reflexivity)) n).
    rewrite !names_node. split; intros (e & He & K); apply in_app_or in He as [He|[<-|He]].
    - exists e. split; [apply in_or_app; auto|exact K].
    - exists y. split; [apply in_or_app; right; left; reflexivity|apply IH, K].
    - exists e. split; [apply in_or_app; right; right; exact He|exact K].
    - exists e. split; [apply in_or_app; auto|exact K].
    - exists x. split; [apply in_or_app; right; left; reflexivity|apply IH, K].
    - exists e. split; [apply in_or_app; right; right; exact He|exact K]. }
  induction 1 as [a b L|a b L|a b H IH|l a b m H IH|l a b m H IH|a b i H IH|a b i H IH|a b c i H IH|a b c i H IH]; intros S S' n.
  - apply (law_names a b L S).
  - symmetry. apply (law_names b a L S').
  - apply (IH S S').
  - apply (ND true l m a b IH S S').
  - apply (ND false l m a b IH S S').
  - apply (IH S S').
  - apply (IH S S').
  - cbn [free_of short negb andb] in S, S'. apply andb_prop in S as [S _], S' as [S' _]. cbn [names]. rewrite !in_app_iff, (IH S S'). reflexivity.
  - cbn [free_of short negb andb] in S, S'. apply andb_prop in S as [_ S], S' as [_ S']. cbn [names]. rewrite !in_app_iff, (IH S S'). reflexivity.
Qed.

Section Rob.
Variable lt : ptrace.
Hypothesis VF : forall n t v w, value_at lt n t v -> value_at lt n t w -> v = w.

Lemma rob_law a b t v : law a b -> free_of (short 1) a = true -> free_of (short 1) b = true -> (rob lt a t v <-> rob lt b t v).
Proof.
  intros L S S'. set (G := fun e v => rob lt e t v).
  assert (Gf : forall e v w, G e v -> G e w -> v = w) by (intros e x y; apply (rob_fun lt VF)).
  assert (Gn : forall e v, G (ENot e) v <-> G e (- v)) by reflexivity.
  assert (Gd : forall p l v, G (node p l) v <-> (exists e, In e l /\ G e v) /\ forall e, In e l -> exists w, G e w /\ sgp p * v <= sgp p * w).
  { intros p l x. unfold G. rewrite rob_node. unfold family. split; intros [A M]; split.
    - destruct A as (P & HP & Q). apply in_map_iff in HP as (e & <- & He). eauto.
    - intros e He. apply (M (rob lt e)), in_map, He.
    - destruct A as (e & He & Q). exists (rob lt e). split; [apply in_map, He|exact Q].
    - intros P HP. apply in_map_iff in HP as (e & <- & He). apply M, He. }
  pose proof (law_def G Gn Gd a b L S S') as D. change (G a v <-> G b v). split; intros H.
  - apply (law_G G Gf Gn Gd a b L); [exists v; exact H|apply D; exists v; exact H|exact H].
  - apply (law_G G Gf Gn Gd a b L); [apply D; exists v; exact H|exists v; exact H|exact H].
Qed.

Lemma rob_rewrite a b : rewrite1 a b -> free_of (short 1) a = true -> free_of (short 1) b = true -> forall t v, rob lt a t v <-> rob lt b t v.
Proof.
  assert (ND : forall p l m a b, (free_of (short 1) a = true -> free_of (short 1) b = true -> forall t v, rob lt a t v <-> rob lt b t v) ->
    free_of (short 1) (node p (l ++ a :: m)) = true -> free_of (short 1) (node p (l ++ b :: m)) = true ->
    forall t v, rob lt (node p (l ++ a :: m)) t v <-> rob lt (node p (l ++ b :: m)) t v).
  { intros p l m x y IH S S' t v. apply short_node in S as [_ S], S' as [_ S'].
    specialize (IH (S x ltac:(apply in_or_app; right; left; reflexivity)) (S' y ltac:(apply in_or_app; right; left; reflexivity)) t).
    assert (K : forall c d, (forall v, rob lt c t v -> rob lt d t v) -> family p (map (rob lt) (l ++ c :: m)) t v -> family p (map (rob lt) (l ++ d :: m)) t v).
    { intros c d H [(P & HP & Q) M]. rewrite map_app in *. cbn [map] in *. split.
      - apply in_app_or in HP as [HP|[<-|HP]]; [exists P|exists (rob lt d)|exists P]; (split; [apply in_or_app; cbn [In]; auto|auto]).
      - intros P' HP'. apply in_app_or in HP' as [HP'|[<-|HP']].
        + apply M, in_or_app. auto.
        + destruct (M (rob lt c)) as (w & Hw & Lw); [apply in_or_app; right; left; reflexivity|]. exists w. split; [apply H, Hw|exact Lw].
        + apply M, in_or_app. right. right. exact HP'. }
    rewrite !rob_node. split; apply K; intros w; apply IH. }
  assert (UN : forall p a b i, (forall t v, rob lt a t v <-> rob lt b t v) -> (forall n, In n (names a) <-> In n (names b)) ->
    forall t v, rob lt (unbounded p a i) t v <-> rob lt (unbounded p b i) t v).
  { intros p x y i H N t v. rewrite !rob_unbounded. unfold inside. split; intros (A & (u & Hu & Q) & M); (split; [intros n Hn; apply A, N, Hn|]; split;
      [exists u; split; [exact Hu|apply H, Q]|intros t' w Ht Hw; apply (M t' w Ht), H, Hw]). }
  induction 1 as [a b L|a b L|a b H IH|l a b m H IH|l a b m H IH|a b i H IH|a b i H IH|a b c i H IH|a b c i H IH]; intros S S' t v.
  - apply rob_law; assumption.
  - symmetry. apply rob_law; assumption.
  - apply (IH S S').
  - apply (ND true l m a b IH S S').
  - apply (ND false l m a b IH S S').
  - apply (UN true a b i (IH S S') (names_rewrite a b H S S')).
  - apply (UN false a b i (IH S S') (names_rewrite a b H S S')).
  - reflexivity.
  - reflexivity.
Qed.
End Rob.

Lemma C87_lemma dbg fuel lt tr t0 phi psi s v : trace_of lt tr -> keys_unique tr -> all_start lt t0 -> rewrite1 phi psi ->
  evaluable lt phi -> evaluable lt psi -> first_exact phi = true -> first_exact psi = true ->
  (gives dbg fuel tr s phi t0 v <-> gives dbg fuel tr s psi t0 v).
Proof.
  intros T K A RW E E' F F'.
  assert (VF : forall n t v w, value_at lt n t v -> value_at lt n t w -> v = w).
  { intros n t a b Ha Hb. pose proof Ha as (la & La & _). destruct (named lt tr t0 (mkRob (trace_begin tr) (trace_end tr) tr) T K A eq_refl n (ex_intro _ la La)) as (l' & _ & I & _ & V).
    apply V in Ha, Hb. eapply pwl_fun; eauto. }
  destruct (C72_lemma dbg fuel lt tr t0 phi s T K A E F) as (l & z & w & C & Bz & _ & P & R).
  destruct (C72_lemma dbg fuel lt tr t0 psi s T K A E' F') as (l' & z' & w' & C' & Bz' & _ & P' & R').
  assert (w = w') as ->.
  { apply R'. apply (rob_rewrite lt VF phi psi RW); [apply E|apply E'|]. apply R. reflexivity. }
  split; intros H.
  - rewrite (gives_fun dbg fuel tr s phi t0 v w' H) by (exists l, z; auto). exists l', z'. auto.
  - rewrite (gives_fun dbg fuel tr s psi t0 v w' H) by (exists l', z'; auto). exists l, z. auto.
Qed.
