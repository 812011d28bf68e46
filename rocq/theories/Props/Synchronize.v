(** Properties C15-C20: synchronize.  Vocabulary: Spec/SignalSpec.v, Spec/Pwl.v. *)
From Coq Require Import Sorted Reals Lra.
From Verif Require Import Base Num NumXR NumB64.
From Verif.Model Require Import Signal.
From Verif.Spec Require Import SignalSpec History Subseq Pwl.
From Verif.Proofs Require Import SyncProps SyncCases.

(** ** C15: false of the code.  It returns exactly when one signal begins at a sample time of
    the other; for other overlapping signals it throws or reads before the first sample. *)
Theorem C15_sync_defined_partial : forall x y : signal B64, wf x -> wf y ->
  ((exists r, synchronize x y = Ok r) <-> meets x y).
Proof. exact (sync_iff (F := B64)). Qed.
Print Assumptions C15_sync_defined_partial.

Theorem C15_sync_otherwise : forall x y : signal B64, wf x -> wf y -> x <> [] -> y <> [] -> ~ meets x y ->
  (disjoint x y -> synchronize x y = UB) /\
  (~ disjoint x y -> nltb (begin_time x) (begin_time y) = true -> synchronize x y = Throw InvalidArgument) /\
  (~ disjoint x y -> nltb (begin_time y) (begin_time x) = true -> synchronize x y = UB).
Proof. exact (sync_not_ok (F := B64)). Qed.
Print Assumptions C15_sync_otherwise.

Theorem C15_refuted : exists x y : signal B64, wf x /\ wf y /\ x <> [] /\ y <> [] /\
  nltb (begin_time x) (begin_time y) = true /\ nltb (begin_time y) (end_time x) = true /\
  synchronize x y = Throw InvalidArgument /\ synchronize y x = UB.
Proof. exact C15_witness. Qed.
Print Assumptions C15_refuted.

Example C15_case : wf ex_x /\ wf ex_y /\ meets ex_x ex_y.
Proof. exact C15_case_lemma. Qed.

(** ** C16 *)
Theorem C16_sync_aligns : forall x y x' y' : signal B64, wf x -> wf y -> synchronize x y = Ok (x', y') ->
  (* same timestamps *)
  Forall2 (fun a b => neqb (s_time a) (s_time b) = true) x' y' /\ wf x' /\ wf y' /\
  (* no sample of the common range is lost or changed *)
  (forall a, In a x -> nleb (begin_time y) (s_time a) = true -> nleb (s_time a) (end_time y) = true ->
     exists a', In a' x' /\ s_time a' = s_time a /\ s_value a' = s_value a) /\
  (forall b, In b y -> nleb (begin_time x) (s_time b) = true -> nleb (s_time b) (end_time x) = true ->
     exists b', In b' y' /\ s_time b' = s_time b /\ s_value b' = s_value b) /\
  (* nothing else appears *)
  (forall a', In a' x' \/ In a' y' ->
     (exists c, (In c x \/ In c y) /\ neqb (s_time c) (s_time a') = true) /\
     nleb (begin_time x) (s_time a') = true /\ nleb (begin_time y) (s_time a') = true /\
     nleb (s_time a') (end_time x) = true /\ nleb (s_time a') (end_time y) = true) /\
  (forall a' c, In a' x' -> In c x -> neqb (s_time c) (s_time a') = true -> s_value a' = s_value c) /\
  (forall b' c, In b' y' -> In c y -> neqb (s_time c) (s_time b') = true -> s_value b' = s_value c).
Proof. exact (C16_lemma (F := B64)). Qed.
Print Assumptions C16_sync_aligns.

Example C16_case : wf ex_x /\ wf ex_y /\ exists r, synchronize ex_x ex_y = Ok r.
Proof. exact C16_case_lemma. Qed.

(** ** C17 *)
Theorem C17_sync_same_functions : forall lx ly x y x' y',
  built lx x -> built ly y -> synchronize x y = Ok (x', y') ->
  exists lx' ly', built lx' x' /\ built ly' y' /\ lx' <> [] /\ ly' <> [] /\
    (forall t v, pwl lx' t v <-> pwl lx t v /\ (first_time ly <= t <= final_time ly)%R) /\
    (forall t v, pwl ly' t v <-> pwl ly t v /\ (first_time lx <= t <= final_time lx)%R).
Proof. exact sync_pwl. Qed.
Print Assumptions C17_sync_same_functions.

Example C17_case : exists x y r, built [(0, 1); (2, 3)]%R x /\ built [(0, 5); (1, 0); (3, 3)]%R y /\
  synchronize x y = Ok r.
Proof. exact C17_case_lemma. Qed.

(** ** C18: false of the code once a timestamp is NaN. *)
Theorem C18_sync_terminates_partial : forall x y : signal B64, wf x -> wf y ->
  synchronize x y <> Hang /\ synchronize x y <> AssertFail.
Proof. exact (sync_not_hang (F := B64)). Qed.
Print Assumptions C18_sync_terminates_partial.

Example C18_case : wf ex_x /\ wf ex_y.
Proof. split; apply C15_case_lemma. Qed.

Theorem C18_refuted : exists hx hy : list (sample B64), after hx <> [] /\ after hy <> [] /\
  forall fuel, synchronize_fuel fuel (after hx) (after hy) = Hang.
Proof. exact C18_witness. Qed.
Print Assumptions C18_refuted.

(** ** C19 *)
Theorem C19_sync_symmetric : forall x y x' y' : signal B64, wf x -> wf y ->
  (synchronize x y = Ok (x', y') <-> synchronize y x = Ok (y', x')).
Proof. exact (C19_lemma (F := B64)). Qed.
Print Assumptions C19_sync_symmetric.

Example C19_case : wf ex_x /\ wf ex_y /\ exists x' y', synchronize ex_x ex_y = Ok (x', y').
Proof. exact C19_case_lemma. Qed.

(** ** C20 *)
Theorem C20_sync_idempotent : forall x y x' y' : signal B64, wf x -> wf y ->
  synchronize x y = Ok (x', y') -> synchronize x' y' = Ok (x', y').
Proof. exact (sync_idem (F := B64)). Qed.
Print Assumptions C20_sync_idempotent.

Example C20_case : wf ex_x /\ wf ex_y /\ exists x' y', synchronize ex_x ex_y = Ok (x', y').
Proof. exact C19_case_lemma. Qed.
