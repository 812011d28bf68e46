(** C66-C69. *)
From Coq Require Import Lia.
From Flocq Require Import IEEE754.BinarySingleNaN.
From Verif Require Import Base Num NumB64.
From Verif.Model Require Import Signal Ast PyBind.
From Verif.Spec Require Import SignalSpec History.
Local Open Scope nat_scope.

Section Access.
Context {F : Type} `{NF : Num F} {NL : NumLaws F}.

(** ** C66 *)
Lemma nth_mid {A} (pre : list A) a post : nth_error (pre ++ a :: post) (length pre) = Some a.
Proof. rewrite nth_error_app2, Nat.sub_diag by lia. reflexivity. Qed.
Lemma last_snoc {A} (l : list A) a : last_opt (l ++ [a]) = Some a.
Proof. induction l as [|x l IH]; [reflexivity|]. cbn. rewrite IH. destruct l; reflexivity. Qed.

Lemma C66_inside_lemma (pre : signal F) a post t p :
  at_idx (pre ++ a :: post) (length pre) = Ok a /\
  interpolate_idx (pre ++ a :: post) t (length pre) = Ok (interpolate a t) /\
  time_intersect_idx (pre ++ a :: post) p (length pre) = Ok (time_intersect a p) /\
  area_idx (pre ++ a :: post) t (length pre) = Ok (area a t).
Proof. unfold interpolate_idx, time_intersect_idx, area_idx, at_idx. rewrite nth_mid. auto. Qed.

Lemma C66_outside_lemma (s : signal F) i t p : length s <= i ->
  at_idx s i = Throw OutOfRange /\ interpolate_idx s t i = Throw OutOfRange /\
  time_intersect_idx s p i = Throw OutOfRange /\ area_idx s t i = Throw OutOfRange.
Proof. intros H. apply nth_error_None in H. unfold interpolate_idx, time_intersect_idx, area_idx, at_idx. rewrite H. auto. Qed.

Lemma C66_ends_lemma (s : signal F) a :
  front (a :: s) = Ok a /\ begin_time (a :: s) = s_time a /\
  back (s ++ [a]) = Ok a /\ end_time (s ++ [a]) = s_time a.
Proof. unfold back, end_time. rewrite last_snoc. auto. Qed.
Lemma C66_empty_lemma : front ([] : signal F) = UB /\ back ([] : signal F) = UB /\
  begin_time ([] : signal F) = nzero /\ end_time ([] : signal F) = nzero.
Proof. repeat split; reflexivity. Qed.

(** ** C67 *)
Lemma cmp_eqb_eq a b : cmp_eqb a b = true <-> a = b.
Proof. destruct a, b; cbn; split; congruence. Qed.
Lemma C67_const_lemma (a b : bool) : (const_eqb a b = true <-> a = b) /\ const_neqb a b = negb (const_eqb a b).
Proof. destruct a, b; cbn; repeat split; congruence. Qed.
Lemma C67_pred_lemma n o (c : F) n' o' c' :
  (pred_eqb n o c n' o' c' = true <-> n = n' /\ o = o' /\ neqb c c' = true) /\
  pred_neqb n o c n' o' c' = negb (pred_eqb n o c n' o' c') /\
  pred_eqb n o c n' o' c' = pred_eqb n' o' c' n o c /\
  pred_eqb n o c n o c = isnum c.
Proof.
  unfold pred_neqb, pred_eqb. split; [|split; [reflexivity|split]].
  - rewrite !andb_true_iff, String.eqb_eq, cmp_eqb_eq. tauto.
  - rewrite String.eqb_sym. f_equal; [f_equal; destruct o, o'; reflexivity|].
    rewrite !neqb_law, (andb_comm (isnum c)). f_equal. unfold Raux.Req_bool.
    case (Raux.Rcompare_spec (rk c) (rk c')); case (Raux.Rcompare_spec (rk c') (rk c)); intros; try reflexivity; exfalso; Lra.lra.
  - rewrite String.eqb_refl. destruct o; reflexivity.
Qed.
End Access.

(** ** C69 *)
Lemma C69_witness : exists (s : signal B64) a, slopes_ok s /\ In a s /\ neqb (py_derivative a) (s_deriv a) = false.
Proof.
  exists [mkSample (dbl 0 0) (dbl 5 0) nzero], (mkSample (dbl 0 0) (dbl 5 0) nzero). split; [|split; [left; reflexivity|reflexivity]].
  cbn. auto.
Qed.
Lemma C69_case_lemma : exists pre a post, [mkSample (dbl 0 0) (dbl 5 0) nzero; mkSample (dbl 1 0) (dbl 7 0) (nzero : B64)] = pre ++ a :: post /\ length pre = 1.
Proof. eexists [_], _, []. split; reflexivity. Qed.

(** ** C68 *)
Lemma C68_cmp_lemma n (c : B64) :
  pred_gt n c = EPred n GT c /\ pred_ge n c = EPred n GE c /\ pred_lt n c = EPred n LT c /\ pred_le n c = EPred n LE c /\
  Predicate_ n = (EPred n GE nzero : expr B64).
Proof. repeat split; reflexivity. Qed.
Lemma C68_nodes_lemma (e f : expr B64) i b (l : list (expr B64)) : 2 <= length l ->
  Const_ b = (EConst b : expr B64) /\ op_not e = Not_ e /\
  Not_ e = (match e with EConst c => EConst (negb c) | _ => ENot e end) /\ And_ l = Ok (EAnd l) /\ Or_ l = Ok (EOr l) /\
  Always_ e = EAlways e (mkInterval (IDbl nzero) (IDbl ninf)) /\ Always_i e i = EAlways e i /\
  Eventually_ e = EEventually e (mkInterval (IDbl nzero) (IDbl ninf)) /\ Eventually_i e i = EEventually e i /\
  Until_ e f = EUntil e f (mkInterval (IDbl nzero) (IDbl ninf)) /\ Until_i e f i = EUntil e f i.
Proof. intros L. unfold And_, Or_. replace (Nat.ltb (length l) 2) with false by (symmetry; apply Nat.ltb_ge, L). repeat split; reflexivity. Qed.
