(** Model of python_bindings/pysignal.cc:31-68 and pyrobustness.cc:22-32: what the attributes and methods of
    the Python classes Sample and Signal, [synchronize] and [compute_robustness] return.  pybind11 itself (conversions, ownership, exceptions) is not
    modelled; an attribute is the C++ member or method the binding names.  The bindings of pyast.cc
    are not modelled: they name constructors and overload sets that ast.hpp does not offer. *)
From Verif Require Import Base Num.
From Verif.Model Require Import Signal Ast Fmt Robustness.

Section Py.
Context {F : Type} `{NF : Num F}.

(** [Sample.time], [Sample.value], [Sample.derivative], pysignal.cc:33-35. *)
Definition py_time (s : sample F) : F := s_time s.
Definition py_value (s : sample F) : F := s_value s.
Definition py_derivative (s : sample F) : F := s_value s.

(** [Signal.begin_time], [Signal.end_time], [len], pysignal.cc:50-51,64. *)
Definition py_begin_time (s : signal F) : F := begin_time s.
Definition py_end_time (s : signal F) : F := end_time s.
Definition py_len (s : signal F) : nat := length s.

(** [Signal.__getitem__], pysignal.cc:61-63, and [Signal.at], pysignal.cc:65. *)
Definition py_getitem (s : signal F) (i : nat) : outcome F := omap s_value (at_idx s i).
Definition py_at (s : signal F) (t : F) : outcome F := omap s_value (at_time s t).

(** [list(signal)], pysignal.cc:57-60. *)
Definition py_iter (s : signal F) : list (sample F) := s.

(** Comparison of samples, pysignal.cc:36-39: pybind11 applies the C++ operators. *)
Definition py_lt (a b : sample F) : bool := sample_lt a b.
Definition py_gt (a b : sample F) : bool := sample_gt a b.
Definition py_ge (a b : sample F) : bool := sample_ge a b.
Definition py_le (a b : sample F) : bool := sample_le a b.

(** [Signal()], [Signal(other)], [Signal(samples)], [Signal(points, times)], pysignal.cc:43-49. *)
Definition py_signal : signal F := [].
Definition py_signal_copy (s : signal F) : outcome (signal F) := from_samples s.
Definition py_signal_samples (l : list (sample F)) : outcome (signal F) := from_samples l.
Definition py_signal_lists (points times : list F) : outcome (signal F) := from_vectors points times.

(** [repr], pysignal.cc:40,55. *)
Definition py_repr_sample (fdbl : F -> string) (a : sample F) : string := fmt_sample fdbl a.
Definition py_repr (fdbl : F -> string) (s : signal F) : string := fmt_signal fdbl s.

(** [simplify], [resize(start, end, fill)], [shift(dt)], [synchronize(x, y)], pysignal.cc:52-54,67. *)
Definition py_simplify (s : signal F) : outcome (signal F) := simplify s.
Definition py_resize (s : signal F) (start fin fill : F) : outcome (signal F) := resize s start fin fill.
Definition py_shift (s : signal F) (dt : F) : outcome (signal F) := shift s dt.
Definition py_synchronize (x y : signal F) : outcome (signal F * signal F) := synchronize x y.

(** [compute_robustness(phi, trace, synchronized=False)], pyrobustness.cc:25-32; [None]: argument omitted. *)
Definition py_compute_robustness (dbg : bool) (fuel : nat) (phi : expr F) (tr : trace F) (synchronized : option bool)
  : outcome (signal F) :=
  compute_robustness dbg fuel phi tr (match synchronized with Some b => b | None => false end).
End Py.
