(** Sample-wise transformations commute with the signal, min/max and until operations. *)
From Coq Require Import Sorted Reals Lra.
From Verif Require Import Base Num.
From Verif.Model Require Import Signal MonoWedge MinMax Ast Robustness.
From Verif.Spec Require Import SignalSpec Formula.
From Verif.Proofs Require Import NumFacts SignalFacts LowerBound Reshape Sync SyncProps MinMaxFacts SeqFacts MinMaxCases RobFacts RobWf.
Local Open Scope nat_scope.

Lemma omap_bind {A B C} (f : B -> C) (m : outcome A) (k : A -> outcome B) :
  omap f (bind m k) = bind m (fun a => omap f (k a)).
Proof. destruct m; reflexivity. Qed.
Lemma bind_omap {A B C} (f : A -> B) (m : outcome A) (k : B -> outcome C) :
  bind (omap f m) k = bind m (fun a => k (f a)).
Proof. destruct m; reflexivity. Qed.
Lemma bind_ext {A B} (m : outcome A) (k k' : A -> outcome B) : (forall a, m = Ok a -> k a = k' a) -> bind m k = bind m k'.
Proof. destruct m; cbn; intros H; auto. Qed.

Lemma removelast_map {A B} (f : A -> B) (l : list A) : removelast (map f l) = map f (removelast l).
Proof. induction l as [|a [|b l] IH]; try reflexivity. change (f a :: removelast (map f (b :: l)) = f a :: map f (removelast (b :: l))). f_equal. exact IH. Qed.

Lemma lower_bound_loop_map {A B} (f : A -> B) (p : A -> bool) (p' : B -> bool) l : (forall a, p' (f a) = p a) ->
  forall fuel first len, lower_bound_loop fuel (map f l) p' first len = lower_bound_loop fuel l p first len.
Proof.
  intros E. induction fuel as [|fuel IH]; intros first len; [reflexivity|]. cbn [lower_bound_loop].
  destruct (Nat.eqb len 0); [reflexivity|]. rewrite nth_error_map. destruct (nth_error l _); [|reflexivity]. cbn [option_map].
  rewrite E, !IH. reflexivity.
Qed.
Lemma lower_bound_map {A B} (f : A -> B) (p : A -> bool) (p' : B -> bool) l : (forall a, p' (f a) = p a) ->
  lower_bound (map f l) p' = lower_bound l p.
Proof. intros E. unfold lower_bound. rewrite map_length. apply lower_bound_loop_map, E. Qed.

Section T.
Context {F : Type} `{NF : Num F} {NL : NumLaws F}.
Variables tau sig del : F -> F.
Definition tr_sample (s : sample F) : sample F := mkSample (tau (s_time s)) (sig (s_value s)) (del (s_deriv s)).
Notation T := tr_sample.
Hypothesis Hlt : forall a b, nltb (tau a) (tau b) = nltb a b.
Hypothesis Hle : forall a b, nleb (tau a) (tau b) = nleb a b.
Hypothesis Heq : forall a b, neqb (tau a) (tau b) = neqb a b.
Hypothesis Hd0 : del nzero = nzero.
Hypothesis Hslope : forall a b v w, ndiv (nsub (sig w) (sig v)) (nsub (tau b) (tau a)) = del (ndiv (nsub w v) (nsub b a)).
Hypothesis Hinterp : forall s t, interpolate (T s) (tau t) = sig (interpolate s t).

Lemma T_push s x : push_back (map T s) (T x) = omap (map T) (push_back s x).
Proof.
  unfold push_back, push_back_st. rewrite last_opt_map. destruct (last_opt s) as [l|]; cbn [option_map].
  - cbn [s_time s_value tr_sample]. rewrite Hle. destruct (nleb _ _); [reflexivity|]. cbn. rewrite map_app, removelast_map.
    cbn [map]. unfold tr_sample; cbn [s_time s_value s_deriv]. rewrite Hslope, Hd0. reflexivity.
  - cbn. unfold tr_sample; cbn [s_time s_value s_deriv]. rewrite Hd0. reflexivity.
Qed.
Lemma T_push_plain s t v : push_back (map T s) (mkSample (tau t) (sig v) nzero) = omap (map T) (push_back s (mkSample t v nzero)).
Proof. rewrite <- T_push. unfold tr_sample. cbn. rewrite Hd0. reflexivity. Qed.
Lemma T_push_all l : forall s, push_all (map T s) (map T l) = omap (map T) (push_all s l).
Proof.
  induction l as [|a l IH]; intros s; [reflexivity|]. cbn [map push_all]. rewrite T_push, bind_omap, omap_bind.
  apply bind_ext. intros s' _. apply IH.
Qed.
Lemma T_from l : from_samples (map T l) = omap (map T) (from_samples l).
Proof. apply (T_push_all l []). Qed.

Lemma T_begin s : s <> [] -> begin_time (map T s) = tau (begin_time s).
Proof. destruct s; [congruence|reflexivity]. Qed.
Lemma T_end s : s <> [] -> end_time (map T s) = tau (end_time s).
Proof. intros H. unfold end_time. rewrite last_opt_map. destruct (last_opt s) eqn:E; [reflexivity|]. apply last_opt_none in E. congruence. Qed.
Lemma T_std_max a b : std_max (tau a) (tau b) = tau (std_max a b).
Proof. unfold std_max. rewrite Hlt. destruct (nltb _ _); reflexivity. Qed.
Lemma T_std_min a b : std_min (tau a) (tau b) = tau (std_min a b).
Proof. unfold std_min. rewrite Hlt. destruct (nltb _ _); reflexivity. Qed.

Definition Tit (i : @iter F) : @iter F := (option_map T (fst i), map T (snd i)).
Lemma T_iter s k : iter_at (map T s) k = Tit (iter_at s k).
Proof. unfold iter_at, Tit. cbn [fst snd]. rewrite skipn_map. destruct k; [reflexivity|]. rewrite nth_error_map. reflexivity. Qed.

Lemma T_plain t v : T (mkSample t v nzero) = mkSample (tau t) (sig v) nzero.
Proof. unfold tr_sample. cbn. rewrite Hd0. reflexivity. Qed.
Lemma T_mk t p : mkSample (tau t) (interpolate (T p) (tau t)) nzero = T (mkSample t (interpolate p t) nzero).
Proof. unfold tr_sample at 2. cbn [s_time s_value s_deriv]. rewrite Hinterp, Hd0. reflexivity. Qed.

Lemma T_sync_first bt it d : sync_first (tau bt) (Tit it) (Tit d) = omap (map T) (sync_first bt it d).
Proof.
  unfold sync_first, Tit. cbn [fst snd]. destruct (snd it) as [|a l]; [reflexivity|]. cbn [map]. change (s_time (T a)) with (tau (s_time a)). rewrite Hlt.
  destruct (nltb _ _); [|reflexivity]. destruct (fst it) as [p|]; cbn [option_map]; [|reflexivity].
  destruct (fst d) as [q|]; cbn [option_map]; [|reflexivity]. cbn [omap bind map].
  unfold tr_sample at 3. cbn [s_time s_value s_deriv]. rewrite Hinterp. reflexivity.
Qed.

Definition Tpair (p : list (sample F) * list (sample F)) := (map T (fst p), map T (snd p)).
Lemma map_snoc l a : map T l ++ [T a] = map T (l ++ [a]).
Proof. rewrite map_app. reflexivity. Qed.

Lemma T_sync_loop : forall fuel pi xs pj ys xv yv,
  sync_loop fuel (option_map T pi) (map T xs) (option_map T pj) (map T ys) (map T xv) (map T yv) =
  omap Tpair (sync_loop fuel pi xs pj ys xv yv).
Proof.
  induction fuel as [|fuel IH]; intros pi xs pj ys xv yv; [reflexivity|]. cbn [sync_loop].
  destruct xs as [|i xs]; [reflexivity|]. destruct ys as [|j ys]; [reflexivity|]. cbn [map].
  change (s_time (T i)) with (tau (s_time i)). change (s_time (T j)) with (tau (s_time j)). rewrite Heq, !Hlt.
  destruct (neqb _ _).
  { rewrite !map_snoc. apply (IH (Some i) xs (Some j) ys). }
  destruct (nltb (s_time i) _).
  { destruct pj as [p|]; cbn [option_map]; [|reflexivity]. rewrite T_mk, !map_snoc. apply (IH (Some i) xs (Some p) (j :: ys)). }
  destruct (nltb (s_time j) _).
  { destruct pi as [p|]; cbn [option_map]; [|reflexivity]. rewrite T_mk, !map_snoc. apply (IH (Some p) (i :: xs) (Some j) ys). }
  apply (IH pi (i :: xs) pj (j :: ys)).
Qed.

Lemma T_back s : back (map T s) = omap T (back s).
Proof. unfold back. rewrite last_opt_map. destruct (last_opt s); reflexivity. Qed.

Lemma T_sync_close xv yv : sync_close (map T xv) (map T yv) = omap Tpair (sync_close xv yv).
Proof.
  unfold sync_close. rewrite !T_back. destruct (back xv) as [xb| | | |]; try reflexivity. cbn [omap bind].
  destruct (back yv) as [yb| | | |]; try reflexivity. cbn [omap bind].
  change (s_time (T xb)) with (tau (s_time xb)). change (s_time (T yb)) with (tau (s_time yb)). rewrite Hlt, T_mk.
  assert (E : (if nltb (s_time yb) (s_time xb) then map T yv ++ [T (mkSample (s_time xb) (interpolate yb (s_time xb)) nzero)] else map T yv) =
    map T (if nltb (s_time yb) (s_time xb) then yv ++ [mkSample (s_time xb) (interpolate yb (s_time xb)) nzero] else yv)).
  { rewrite map_snoc. destruct (nltb _ _); reflexivity. }
  rewrite E. set (yv' := if nltb (s_time yb) (s_time xb) then _ else _). rewrite T_back.
  destruct (back yv') as [yb'| | | |]; try reflexivity. cbn [omap bind].
  change (s_time (T yb')) with (tau (s_time yb')). rewrite Hlt, T_mk, map_snoc. unfold Tpair. cbn [fst snd].
  destruct (nltb (s_time xb) _); reflexivity.
Qed.

Lemma T_before t a : before (tau t) (T a) = before t a.
Proof. unfold before. apply Hlt. Qed.

Lemma T_sync_fuel fuel x y : x <> [] -> y <> [] ->
  synchronize_fuel fuel (map T x) (map T y) = omap Tpair (synchronize_fuel fuel x y).
Proof.
  intros Nx Ny. unfold synchronize_fuel. rewrite !T_begin, T_std_max by assumption. set (bt := std_max _ _).
  rewrite !(lower_bound_map T (before bt) (before (tau bt)) _ (T_before bt)), !omap_bind.
  apply bind_ext. intros ki _. rewrite T_iter, T_sync_first, bind_omap, omap_bind.
  apply bind_ext. intros xv0 _. rewrite omap_bind. apply bind_ext. intros kj _. rewrite T_iter, T_sync_first, bind_omap, omap_bind.
  apply bind_ext. intros yv0 _. unfold Tit at 1 2 3 4. cbn [fst snd]. rewrite T_sync_loop, bind_omap, omap_bind.
  apply bind_ext. intros [xv yv] _. unfold Tpair at 1. cbn [fst snd]. rewrite T_sync_close, bind_omap, omap_bind.
  apply bind_ext. intros [xv' yv'] _. unfold Tpair at 1. cbn [fst snd]. rewrite T_from, bind_omap, omap_bind.
  apply bind_ext. intros sx _. rewrite T_from, bind_omap, omap_bind. apply bind_ext. intros sy _. reflexivity.
Qed.
Lemma T_sync x y : x <> [] -> y <> [] -> synchronize (map T x) (map T y) = omap Tpair (synchronize x y).
Proof. intros Nx Ny. unfold synchronize. rewrite !map_length. apply T_sync_fuel; assumption. Qed.

Lemma T_asserts {A B} (f : A -> B) dbg (x y : signal F) (k : outcome A) (k' : outcome B) : x <> [] -> y <> [] -> k' = omap f k ->
  (_ <- assert_ dbg (Nat.eqb (length (map T x)) (length (map T y))) ;;
   _ <- assert_ dbg (neqb (begin_time (map T x)) (begin_time (map T y))) ;;
   _ <- assert_ dbg (neqb (end_time (map T x)) (end_time (map T y))) ;; k') =
  omap f (_ <- assert_ dbg (Nat.eqb (length x) (length y)) ;;
   _ <- assert_ dbg (neqb (begin_time x) (begin_time y)) ;;
   _ <- assert_ dbg (neqb (end_time x) (end_time y)) ;; k).
Proof.
  intros Nx Ny ->. rewrite !map_length, !T_begin, !T_end, !Heq by assumption.
  destruct (assert_ dbg (Nat.eqb _ _)); try reflexivity. destruct (assert_ dbg (neqb (begin_time _) _)); try reflexivity.
  destruct (assert_ dbg (neqb (end_time _) _)); reflexivity.
Qed.

(** ** Pairs *)
Section Comp.
Variables comp comp' : sample F -> sample F -> bool.
Hypothesis Hcomp : forall a b, comp' (T a) (T b) = comp a b.

Definition tint_eq (a b : sample F) : Prop := time_intersect (T a) (T b) = tau (time_intersect a b).
Fixpoint tint_ok (pi pj : option (sample F)) (xs ys : list (sample F)) (last : chosen) : Prop :=
  match xs, ys with
  | i :: xs', j :: ys' =>
      (if comp i j then last = ChY -> match pi, pj with Some a, Some b => tint_eq b a | _, _ => True end
       else last = ChX -> match pi, pj with Some a, Some b => tint_eq a b | _, _ => True end) /\
      tint_ok (Some i) (Some j) xs' ys' (if comp i j then ChX else ChY)
  | _, _ => True
  end.

Lemma T_pair_step out sw pw pl w : (sw = true -> out <> []) ->
  (sw = true -> match pl, pw with Some a, Some b => tint_eq a b | _, _ => True end) ->
  pair_step (map T out) sw (option_map T pw) (option_map T pl) (T w) = omap (map T) (pair_step out sw pw pl w).
Proof.
  intros H1 H2. unfold pair_step. rewrite omap_bind. destruct sw; cbn [bind].
  - destruct pl as [a|]; cbn [option_map]; [|reflexivity]. destruct pw as [b|]; cbn [option_map]; [|reflexivity].
    specialize (H1 eq_refl). specialize (H2 eq_refl). cbn in H2. rewrite H2, T_end, Hlt by exact H1.
    change (s_time (T w)) with (tau (s_time w)). rewrite Heq. destruct (_ && _).
    + rewrite T_mk, T_push, bind_omap. apply bind_ext. intros s _. apply T_push.
    + cbn [bind]. apply T_push.
  - apply T_push.
Qed.
Lemma pair_step_nonempty out sw pw pl (w : sample F) z : pair_step out sw pw pl w = Ok z -> z <> [].
Proof.
  unfold pair_step. intros H. apply bind_ok_inv in H as (o & _ & H). unfold push_back, push_back_st in H.
  destruct (last_opt o); [destruct (nleb _ _); [discriminate|]|]; injection H as <-; [|discriminate].
  intros E. apply (f_equal (@length _)) in E. rewrite app_length in E. cbn in E. lia.
Qed.
Lemma T_pair_loop : forall xs ys pi pj last out, (last <> ChNone -> out <> []) -> tint_ok pi pj xs ys last ->
  pair_loop comp' (option_map T pi) (option_map T pj) (map T xs) (map T ys) last (map T out) =
  omap (map T) (pair_loop comp pi pj xs ys last out).
Proof.
  induction xs as [|i xs IH]; intros [|j ys] pi pj last out Ho Ht; try reflexivity. cbn [pair_loop map]. rewrite Hcomp. cbn [tint_ok] in Ht.
  destruct Ht as [Ht Hr]. destruct (comp i j).
  - rewrite T_pair_step, bind_omap, omap_bind.
    + apply bind_ext. intros o E. apply (IH ys (Some i) (Some j) ChX o); [|exact Hr]. intros _. eapply pair_step_nonempty; eauto.
    + intros Q. apply Ho. destruct last; discriminate.
    + intros Q. destruct last; try discriminate. specialize (Ht eq_refl). destruct pi, pj; auto.
  - rewrite T_pair_step, bind_omap, omap_bind.
    + apply bind_ext. intros o E. apply (IH ys (Some i) (Some j) ChY o); [|exact Hr]. intros _. eapply pair_step_nonempty; eauto.
    + intros Q. apply Ho. destruct last; discriminate.
    + intros Q. destruct last; try discriminate. specialize (Ht eq_refl). destruct pi, pj; auto.
Qed.

Definition sync_tint (x y : signal F) : Prop :=
  forall x' y', synchronize x y = Ok (x', y') -> tint_ok None None x' y' ChNone.

Lemma T_pair dbg x y : good x -> good y -> sync_tint x y ->
  minmax_pair dbg comp' false (map T x) (map T y) = omap (map T) (minmax_pair dbg comp false x y).
Proof.
  intros [Wx Nx] [Wy Ny] H. unfold minmax_pair. rewrite T_sync, bind_omap, omap_bind by assumption. apply bind_ext. intros [x' y'] E.
  destruct (sync_out _ _ _ _ Wx Wy E) as (_ & _ & N1 & N2 & _). cbn [fst snd Tpair]. apply T_asserts; auto.
  apply (T_pair_loop x' y' None None ChNone []); [congruence|]. apply H, E.
Qed.

(** [Inv] is kept by the fold and makes every crossing commute. *)
Variable Inv : signal F -> Prop.
Hypothesis Inv_good : forall x, Inv x -> good x.
Hypothesis Inv_tint : forall x y, Inv x -> Inv y -> sync_tint x y.
Hypothesis Inv_pair : forall dbg x y z, Inv x -> Inv y -> minmax_pair dbg comp false x y = Ok z -> Inv z.

Lemma T_fold dbg xs : Forall Inv xs -> forall acc, Inv acc ->
  minmax_fold dbg comp' false (map T acc) (map (map T) xs) = omap (map T) (minmax_fold dbg comp false acc xs).
Proof.
  induction 1 as [|x xs Gx _ IH]; intros acc Ga; [reflexivity|]. cbn [map minmax_fold]. rewrite T_pair, bind_omap, omap_bind by auto.
  apply bind_ext. intros acc' E. apply IH. eapply Inv_pair; [| |exact E]; assumption.
Qed.
Lemma T_list dbg xs : xs <> [] -> Forall Inv xs ->
  minmax_list dbg comp' false (map (map T) xs) = omap (map T) (minmax_list dbg comp false xs).
Proof.
  intros N C. destruct xs as [|x [|y xs]]; [congruence|reflexivity|]. inversion C as [|? ? G1 C']; subst. inversion C' as [|? ? G2 C'']; subst.
  destruct xs as [|w xs]; [apply T_pair; auto|]. apply (T_fold dbg (y :: w :: xs)); auto.
Qed.

(** ** Rolling *)
Lemma T_seq_loop : forall rl opt z, seq_loop comp' (T opt) (map T z) (map T rl) = map T (seq_loop comp opt z rl).
Proof.
  induction rl as [|i rl IH]; intros opt z; [reflexivity|]. cbn [seq_loop map]. rewrite Hcomp.
  assert (E : (if comp i opt then T i else T opt) = T (if comp i opt then i else opt)) by (destruct (comp i opt); reflexivity).
  rewrite E. rewrite <- IH, map_app. cbn [map]. rewrite T_plain. reflexivity.
Qed.
Lemma T_seq x : minmax_seq comp' (map T x) = omap (map T) (minmax_seq comp x).
Proof.
  unfold minmax_seq. rewrite <- map_rev. destruct (rev x) as [|b rl]; [reflexivity|]. cbn [map].
  change [T b] with (map T [b]). rewrite T_seq_loop, <- map_rev. apply T_from.
Qed.
End Comp.

(** ** Until *)
Hypothesis Hslt : forall a b, nltb (sig a) (sig b) = nltb a b.
Hypothesis Hsopp : forall a, nopp (sig a) = sig (nopp a).
Hypothesis Hsinf : sig ninf = ninf.
Lemma S_std_max a b : std_max (sig a) (sig b) = sig (std_max a b).
Proof. unfold std_max. rewrite Hslt. destruct (nltb _ _); reflexivity. Qed.
Lemma S_std_min a b : std_min (sig a) (sig b) = sig (std_min a b).
Proof. unfold std_min. rewrite Hslt. destruct (nltb _ _); reflexivity. Qed.

Lemma T_until_loop : forall xs ys p m st, until_loop (map T xs) (map T ys) (sig p) (sig m) (map T st) = map T (until_loop xs ys p m st).
Proof.
  induction xs as [|i xs IH]; intros [|j ys] p m st; try reflexivity. cbn [until_loop map].
  change (s_value (T i)) with (sig (s_value i)). change (s_value (T j)) with (sig (s_value j)). change (s_time (T i)) with (tau (s_time i)).
  unfold std_max3. rewrite S_std_max, S_std_min, S_std_max, Hsopp, S_std_max. rewrite <- IH, map_app. cbn [map].
  rewrite T_plain. reflexivity.
Qed.
Lemma T_until dbg x y : good x -> good y -> compute_until dbg (map T x) (map T y) = omap (map T) (compute_until dbg x y).
Proof.
  intros [Wx Nx] [Wy Ny]. unfold compute_until. rewrite T_sync, bind_omap, omap_bind by assumption. apply bind_ext. intros [x' y'] E.
  destruct (sync_out _ _ _ _ Wx Wy E) as (_ & _ & N1 & N2 & _). cbn [fst snd Tpair]. apply T_asserts; auto.
  rewrite <- !map_rev. replace (until_loop (map T (rev x')) (map T (rev y')) ninf (nopp ninf) []) with
    (until_loop (map T (rev x')) (map T (rev y')) (sig ninf) (sig (nopp ninf)) (map T [])) by (rewrite <- Hsopp, Hsinf; reflexivity).
  rewrite T_until_loop, <- map_rev. apply T_from.
Qed.
End T.
