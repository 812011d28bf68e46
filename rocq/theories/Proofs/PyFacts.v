(** C69: the Python view. *)
From Coq Require Import Lia Sorted.
From Flocq Require Import IEEE754.BinarySingleNaN.
From Verif Require Import Base Num NumB64.
From Verif.Model Require Import Signal Ast Fmt Robustness PyBind.
From Verif.Spec Require Import SignalSpec History FmtSpec.
From Verif.Proofs Require Import NumFacts SignalFacts HistoryFacts SignalProps AccessFacts FmtInj.
Local Open Scope nat_scope.

Lemma C69_lemma (s : signal B64) : py_len s = length s /\ py_iter s = s /\
  (forall pre a post, s = pre ++ a :: post -> py_getitem s (length pre) = Ok (s_value a)) /\
  (forall i, length s <= i -> py_getitem s i = Throw OutOfRange) /\
  (forall a : sample B64, py_time a = s_time a /\ py_value a = s_value a) /\
  (forall a post, s = a :: post -> py_begin_time s = s_time a) /\ (forall pre a, s = pre ++ [a] -> py_end_time s = s_time a) /\
  (forall a, wf s -> In a s -> py_at s (s_time a) = Ok (s_value a)).
Proof.
  repeat split.
  - intros pre a post ->. unfold py_getitem, at_idx. rewrite nth_mid. reflexivity.
  - intros i H. apply nth_error_None in H. unfold py_getitem, at_idx. rewrite H. reflexivity.
  - intros a post ->. reflexivity.
  - intros pre a ->. unfold py_end_time, end_time. induction pre as [|b pre IH]; [reflexivity|].
    destruct pre as [|d pre]; [reflexivity|]. exact IH.
  - intros a W H. unfold py_at. rewrite (C05_lemma s a (s_time a) W H); [reflexivity|].
    destruct W as (N & _). unfold all_num in N. rewrite Forall_forall in N. specialize (N _ (in_map _ _ _ H)). num.
Qed.

Lemma C69_construct (ps ts : list B64) : all_num ts ->
  (length ps <> length ts \/ ~ increasing ts -> py_signal_lists ps ts = Throw InvalidArgument) /\
  (length ps = length ts -> increasing ts ->
     exists s, py_signal_lists ps ts = Ok s /\ map py_time (py_iter s) = ts /\ map py_value (py_iter s) = ps /\
       py_signal_samples (py_iter s) = Ok s /\ py_signal_copy s = Ok s) /\
  length (py_signal : signal B64) = 0%nat.
Proof.
  intros N. destruct (C04_lemma ps ts N) as (A & B). split; [exact A|]. split; [|reflexivity]. intros L I. destruct (B L I) as (s & H1 & H2 & H3).
  exists s. split; [exact H1|]. assert (E1 : map fst (points s) = ts).
  { rewrite H2. clear - L. revert ps L. induction ts as [|t ts IH]; intros [|p ps] H; try discriminate; [reflexivity|]. cbn. f_equal. apply IH. injection H; auto. }
  assert (E2 : map snd (points s) = ps).
  { rewrite H2. clear - L. revert ps L. induction ts as [|t ts IH]; intros [|p ps] H; try discriminate; [reflexivity|]. cbn. f_equal. apply IH. injection H; auto. }
  unfold points in E1, E2. rewrite map_map in E1, E2. repeat split; assumption.
Qed.

Lemma C69_compare (a b : sample B64) : isnum (s_value a) = true -> isnum (s_value b) = true ->
  py_lt a b = nltb (s_value a) (s_value b) /\ py_gt a b = nltb (s_value b) (s_value a) /\
  py_le a b = nleb (s_value a) (s_value b) /\ py_ge a b = nleb (s_value b) (s_value a).
Proof.
  intros Na Nb. split; [reflexivity|]. split; [reflexivity|].
  unfold py_le, py_ge, sample_le, sample_ge, sample_gt, sample_lt. split.
  - destruct (nltb (s_value b) (s_value a)) eqn:E; cbn [negb]; symmetry; num.
  - destruct (nltb (s_value a) (s_value b)) eqn:E; cbn [negb]; symmetry; num.
Qed.

Lemma C69_repr (fdbl : B64 -> string) x y a b : printer fdbl -> (py_repr fdbl x = py_repr fdbl y <->
  map (fun a => (py_time a, py_value a)) (py_iter x) = map (fun a => (py_time a, py_value a)) (py_iter y)) /\
  (py_repr_sample fdbl a = py_repr_sample fdbl b <-> py_time a = py_time b /\ py_value a = py_value b).
Proof.
  intros P. split; [exact (C74_lemma fdbl x y P)|]. split.
  - intros E. unfold py_repr_sample in E. destruct (sample_inj fdbl P a b "" "") as (E1 & E2 & _); [rewrite E; reflexivity|auto].
  - unfold py_time, py_value, py_repr_sample, fmt_sample. intros [-> ->]. reflexivity.
Qed.

Lemma C69_calls (s x y : signal B64) a b c dbg fuel phi tr f :
  py_simplify s = simplify s /\ py_resize s a b c = resize s a b c /\ py_shift s a = shift s a /\
  py_synchronize x y = synchronize x y /\ py_compute_robustness dbg fuel phi tr f = compute_robustness dbg fuel phi tr false.
Proof. repeat split. Qed.

Lemma C69_more_case_lemma : all_num [dbl 1 0; dbl 3 0] /\ increasing [dbl 1 0; dbl 3 0] /\ printer bits_text.
Proof. split; [apply C04_case_lemma|]. split; [apply C04_case_lemma|]. exact bits_printer. Qed.
