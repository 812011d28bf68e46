(** Concrete non-trivial cases for Props/MinMax.v. *)
From Coq Require Import Sorted Reals Lra.
From Flocq Require Import IEEE754.BinarySingleNaN Core.Raux.
From Verif Require Import Base Num NumXR NumB64.
From Verif.Model Require Import Signal MonoWedge MinMax.
From Verif.Spec Require Import SignalSpec Pwl Crossing Wedge.
From Verif.Proofs Require Import NumFacts SignalFacts PwlFacts SyncExact SyncProps SignalProps SyncCases MinMaxFacts MinMaxProps.

Lemma two_ok {A B} (m : outcome A) (n : outcome B) (P : A -> B -> bool) :
  match m, n with Ok a, Ok b => P a b | _, _ => false end = true -> exists a b, m = Ok a /\ n = Ok b /\ P a b = true.
Proof. destruct m, n; intros H; try discriminate. eauto. Qed.

Definition c25_y : signal B64 := sig_of [(dbl 2 0, dbl 2 0); (dbl 3 0, dbl 7 0); (dbl 5 0, dbl 1 0)].
Lemma c25_y_wf : wf c25_y. Proof. apply b64_wf; vm_compute; reflexivity. Qed.
Lemma C25_case_lemma : wf ex_x /\ wf c25_y /\ exists x' y' z, synchronize ex_x c25_y = Ok (x', y') /\
  all_num (values x') /\ all_num (values y') /\ elementwise_min true false ex_x c25_y = Ok z /\ (4 <= length z)%nat.
Proof.
  split; [exact ex_x_wf|]. split; [exact c25_y_wf|].
  destruct (two_ok (synchronize ex_x c25_y) (elementwise_min true false ex_x c25_y)
    (fun xy z => forallb isnum (values (fst xy)) && forallb isnum (values (snd xy)) && Nat.leb 4 (length z))) as ([x' y'] & z & E1 & E2 & H).
  { vm_compute; reflexivity. }
  apply andb_prop in H as [H H3]. apply andb_prop in H as [H1 H2].
  exists x', y', z. split; [exact E1|]. split; [apply Forall_forall; rewrite forallb_forall in H1; exact H1|].
  split; [apply Forall_forall; rewrite forallb_forall in H2; exact H2|]. split; [exact E2|]. apply Nat.leb_le, H3.
Qed.

(** Two crossings, one of them at a sample. *)
Definition c26_x : list (B64 * B64) := [(dbl 0 0, dbl 1 0); (dbl 2 0, dbl 3 0); (dbl 4 0, dbl 0 0)].
Definition c26_y : list (B64 * B64) := [(dbl 0 0, dbl 3 0); (dbl 2 0, dbl 1 0); (dbl 4 0, dbl 0 0)].
Lemma C26_case_lemma : wf (sig_of c26_x) /\ wf (sig_of c26_y) /\
  Forall2 (fun a b => neqb (s_time a) (s_time b) = true) (sig_of c26_x) (sig_of c26_y) /\
  is_ok (elementwise_min true false (sig_of c26_x) (sig_of c26_y)) = true.
Proof.
  split; [apply b64_wf; vm_compute; reflexivity|]. split; [apply b64_wf; vm_compute; reflexivity|].
  split; [|vm_compute; reflexivity].
  unfold c26_x, c26_y; cbn [sig_of]. do 3 (constructor; [vm_compute; reflexivity|]). constructor.
Qed.

Lemma C28_case_lemma : wf ex_x /\ ex_x <> [] /\ all_num (values ex_x).
Proof.
  split; [exact ex_x_wf|]. split; [discriminate|].
  assert (H : forallb isnum (values ex_x) = true) by (vm_compute; reflexivity). apply Forall_forall. rewrite forallb_forall in H. exact H.
Qed.

Lemma C32_case_lemma : wf (ex_x) /\ neqb (dbl 1 0) nzero = false /\ finite (nsub (dbl 2 0) (dbl 1 0)) = true /\
  nltb (nadd (begin_time ex_x) (nsub (dbl 2 0) (dbl 1 0))) (dbl 2 0) = true.
Proof. split; [exact ex_x_wf|]. split; [vm_compute; reflexivity|]. split; vm_compute; reflexivity. Qed.

Definition c33_h : list (wop (sample B64)) :=
  map (fun v => Feed (mkSample nzero (dbl v 0) nzero)) [5; 3; 4; 1]%Z ++ [Pop] ++ map (fun v => Feed (mkSample nzero (dbl v 0) nzero)) [2; 2; 0]%Z.
Lemma C33_case_lemma : Forall (fun a => isnum (s_value a) = true) (fed c33_h) /\
  match wedge_run sample_ge [] c33_h with Ok w => length w = 4%nat | _ => False end.
Proof.
  split; [|vm_compute; reflexivity].
  assert (H : forallb (fun a => isnum (s_value a)) (fed c33_h) = true) by (vm_compute; reflexivity).
  apply Forall_forall. rewrite forallb_forall in H. exact H.
Qed.

Open Scope R_scope.
Lemma C24_case_lemma : exists x y, built [(0, 1); (2, 3); (4, 0)] x /\ built [(0, 3); (3, -1); (5, 2)] y /\ meets x y.
Proof.
  assert (I1 : rincr [(0, 1); (2, 3); (4, 0)]) by rincr_tac. assert (I2 : rincr [(0, 3); (3, -1); (5, 2)]) by rincr_tac.
  eexists _, _. split; [apply built_iff; split; [exact I1|reflexivity]|]. split; [apply built_iff; split; [exact I2|reflexivity]|].
  apply meets_first; try discriminate. reflexivity.
Qed.
Lemma C27_case_lemma : exists x y z, Forall2 built [[(0, 1); (2, 3)]; [(0, 3); (3, -1)]; [(0, 0); (1, 7)]] [x; y; z] /\
  Forall (fun l => l <> [] /\ first_time l = 0) [[(0, 1); (2, 3)]; [(0, 3); (3, -1)]; [(0, 0); (1, 7)]].
Proof.
  assert (I1 : rincr [(0, 1); (2, 3)]) by rincr_tac. assert (I2 : rincr [(0, 3); (3, -1)]) by rincr_tac. assert (I3 : rincr [(0, 0); (1, 7)]) by rincr_tac.
  eexists _, _, _. split.
  - constructor; [apply built_iff; split; [exact I1|reflexivity]|]. constructor; [apply built_iff; split; [exact I2|reflexivity]|].
    constructor; [apply built_iff; split; [exact I3|reflexivity]|constructor].
  - repeat constructor; discriminate.
Qed.
Lemma C29_case_lemma : exists x, built [(0, 1); (2, 3); (4, 0)] x.
Proof. assert (I1 : rincr [(0, 1); (2, 3); (4, 0)]) by rincr_tac. eexists. apply built_iff; split; [exact I1|reflexivity]. Qed.

(** ** C63 *)
Lemma C63_lemma dbg sync :
  elementwise_max_list dbg sync ([] : list (signal B64)) = Ok [mkSample nzero (nopp ninf) nzero] /\
  elementwise_min_list dbg sync ([] : list (signal B64)) = Ok [mkSample nzero (nopp ninf) nzero].
Proof. split; reflexivity. Qed.
Lemma C63_witness : exists z a, elementwise_min_list true false ([] : list (signal B64)) = Ok z /\ In a z /\ nltb (s_value a) nzero = true.
Proof. eexists. eexists. split; [apply C63_lemma|]. split; [left; reflexivity|]. vm_compute; reflexivity. Qed.
