(** Property C69: the Python view of samples and signals. *)
From Coq Require Import Sorted.
From Flocq Require Import IEEE754.BinarySingleNaN.
From Verif Require Import Base Num NumB64.
From Verif.Model Require Import Signal Ast Robustness PyBind.
From Verif.Spec Require Import SignalSpec FmtSpec.
From Verif.Proofs Require Import AccessFacts PyFacts.
Local Open Scope nat_scope.

(** ** C69.  Everything but [Sample.derivative], which shows the value. *)
Theorem C69_python_view_partial : forall s : signal B64, py_len s = length s /\ py_iter s = s /\
  (forall pre a post, s = pre ++ a :: post -> py_getitem s (length pre) = Ok (s_value a)) /\
  (forall i, length s <= i -> py_getitem s i = Throw OutOfRange) /\
  (forall a : sample B64, py_time a = s_time a /\ py_value a = s_value a) /\
  (forall a post, s = a :: post -> py_begin_time s = s_time a) /\ (forall pre a, s = pre ++ [a] -> py_end_time s = s_time a) /\
  (forall a, wf s -> In a s -> py_at s (s_time a) = Ok (s_value a)).
Proof. exact C69_lemma. Qed.
Print Assumptions C69_python_view_partial.

Theorem C69_construct_partial : forall ps ts : list B64, all_num ts ->
  (length ps <> length ts \/ ~ increasing ts -> py_signal_lists ps ts = Throw InvalidArgument) /\
  (length ps = length ts -> increasing ts ->
     exists s, py_signal_lists ps ts = Ok s /\ map py_time (py_iter s) = ts /\ map py_value (py_iter s) = ps /\
       py_signal_samples (py_iter s) = Ok s /\ py_signal_copy s = Ok s) /\
  py_len (py_signal : signal B64) = 0.
Proof. exact C69_construct. Qed.
Print Assumptions C69_construct_partial.

(** Comparisons are of values. *)
Theorem C69_compare_partial : forall a b : sample B64, isnum (s_value a) = true -> isnum (s_value b) = true ->
  py_lt a b = nltb (s_value a) (s_value b) /\ py_gt a b = nltb (s_value b) (s_value a) /\
  py_le a b = nleb (s_value a) (s_value b) /\ py_ge a b = nleb (s_value b) (s_value a).
Proof. exact C69_compare. Qed.
Print Assumptions C69_compare_partial.

Theorem C69_repr_partial : forall (fdbl : B64 -> string) x y a b, printer fdbl -> (py_repr fdbl x = py_repr fdbl y <->
  map (fun a => (py_time a, py_value a)) (py_iter x) = map (fun a => (py_time a, py_value a)) (py_iter y)) /\
  (py_repr_sample fdbl a = py_repr_sample fdbl b <-> py_time a = py_time b /\ py_value a = py_value b).
Proof. exact C69_repr. Qed.
Print Assumptions C69_repr_partial.

(** Methods and functions do what the C++ ones do; the flag may be left out. *)
Theorem C69_calls_partial : forall (s x y : signal B64) a b c dbg fuel phi tr f,
  py_simplify s = simplify s /\ py_resize s a b c = resize s a b c /\ py_shift s a = shift s a /\
  py_synchronize x y = synchronize x y /\ py_compute_robustness dbg fuel phi tr f = compute_robustness dbg fuel phi tr false.
Proof. exact C69_calls. Qed.
Print Assumptions C69_calls_partial.

Theorem C69_derivative_refuted : exists (s : signal B64) a, slopes_ok s /\ In a s /\ neqb (py_derivative a) (s_deriv a) = false.
Proof. exact C69_witness. Qed.
Print Assumptions C69_derivative_refuted.

Example C69_case : exists pre a post, [mkSample (dbl 0 0) (dbl 5 0) nzero; mkSample (dbl 1 0) (dbl 7 0) (nzero : B64)] = pre ++ a :: post /\ length pre = 1.
Proof. exact C69_case_lemma. Qed.

Example C69_more_case : all_num [dbl 1 0; dbl 3 0] /\ increasing [dbl 1 0; dbl 3 0] /\ printer FmtInj.bits_text.
Proof. exact C69_more_case_lemma. Qed.
