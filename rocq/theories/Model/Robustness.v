(** Model of src/robust_semantics/classic_robustness.cc. *)
From Verif Require Import Base Num.
From Verif.Model Require Import Signal MinMax Ast.

Section Rob.
Context {F : Type} `{NF : Num F}.
Variable dbg : bool.      (* asserts active *)
Variable fuel : nat.      (* bound for the windowed loop, minmax.cc:129 *)

(** [Trace] = std::map<std::string, SignalPtr>, signal.hpp:263: the entries in key order.
    Null pointers in the map are not modelled. *)
Definition trace : Type := list (string * signal F).

Fixpoint trace_find (tr : trace) (n : string) : option (signal F) :=
  match tr with
  | [] => None
  | (k, s) :: tr' => if String.eqb k n then Some s else trace_find tr' n
  end.

(** Fields of [RobustnessOp], classic_robustness.cc:60-65. *)
Record rob_op : Type := mkRob { min_time : F; max_time : F; r_trace : trace }.

(** Loop of [compute_until], classic_robustness.cc:44-50, over the reversed samples. *)
Fixpoint until_loop (xs ys : list (sample F)) (prev max_right : F) (stack : list (sample F))
  : list (sample F) :=
  match xs, ys with
  | i :: xs', j :: ys' =>
      let max_right' := std_max max_right (s_value j) in
      let prev' := std_max3 (s_value j) (std_min (s_value i) prev) (nopp max_right') in
      until_loop xs' ys' prev' max_right' (stack ++ [mkSample (s_time i) prev' nzero])
  | _, _ => stack
  end.

(** [compute_until] (unbounded), classic_robustness.cc:31-54. *)
Definition compute_until (input_x input_y : signal F) : outcome (signal F) :=
  '(x, y) <- synchronize input_x input_y ;;
  _ <- assert_ dbg (Nat.eqb (length x) (length y)) ;;
  _ <- assert_ dbg (neqb (begin_time x) (begin_time y)) ;;
  _ <- assert_ dbg (neqb (end_time x) (end_time y)) ;;
  from_samples (rev (until_loop (rev x) (rev y) ninf (nopp ninf) [])).

(** [compute_until] with bounds, classic_robustness.cc:56-58. *)
Definition compute_until_bounded (x y : signal F) (a b : F) : outcome (signal F) :=
  Throw NotImplemented.

(** Const, classic_robustness.cc:107-111. *)
Definition rob_const (r : rob_op) (b : bool) : outcome (signal F) :=
  let v := if b then ninf else nopp ninf in
  from_samples [mkSample (min_time r) v nzero; mkSample (max_time r) v nzero].

(** The value pushed for one sample, classic_robustness.cc:119-128. *)
Definition pred_value (op : cmp_op) (rhs v : F) : F :=
  match op with GE | GT => nsub v rhs | LE | LT => nsub rhs v end.

Fixpoint pred_loop (op : cmp_op) (rhs : F) (y : signal F) (l : list (sample F))
  : outcome (signal F) :=
  match l with
  | [] => Ok y
  | s :: l' =>
      y' <- push_back_tv y (s_time s) (pred_value op rhs (s_value s)) ;; pred_loop op rhs y' l'
  end.

(** Predicate, classic_robustness.cc:113-131; [map::at] throws [out_of_range]. *)
Definition rob_pred (r : rob_op) (name : string) (op : cmp_op) (rhs : F) : outcome (signal F) :=
  match trace_find (r_trace r) name with
  | None => Throw OutOfRange
  | Some x => pred_loop op rhs [] x
  end.

(** Not, classic_robustness.cc:133-139, given the argument's signal. *)
Definition rob_not (x : signal F) : outcome (signal F) := from_samples (map sample_neg x).

(** Eventually/Always, classic_robustness.cc:163-197, given the argument's signal; [comp] is
    [sample_ge] resp. [sample_le]. *)
Definition rob_temporal (comp : sample F -> sample F -> bool) (i : interval F) (y : signal F)
  : outcome (signal F) :=
  if negb (has_value i) then minmax_seq comp y
  else
    let '(a, b) := as_double i in
    let w := nsub b a in
    if nltb w nzero then Throw (LogicError LE_Interval)
    else if neqb w nzero then Ok y
    else if nleb (nsub (end_time y) (begin_time y)) w then minmax_seq comp y
    else minmax_seq_win comp fuel y a b.

(** Until, classic_robustness.cc:199-212, given the arguments' signals. *)
Definition rob_until (i : interval F) (y1 y2 : signal F) : outcome (signal F) :=
  if negb (has_value i) then compute_until y1 y2
  else
    let '(a, b) := as_double i in
    if nisinf b && neqb a nzero then compute_until y1 y2
    else compute_until_bounded y1 y2 a b.

(** [std::transform(args, compute)], classic_robustness.cc:144-147,155-158. *)
Definition compute_list (f : expr F -> outcome (signal F)) : list (expr F) -> outcome (list (signal F)) :=
  fix go (l : list (expr F)) : outcome (list (signal F)) :=
    match l with
    | [] => Ok []
    | e :: l' => y <- f e ;; ys <- go l' ;; Ok (y :: ys)
    end.

(** [compute] = std::visit of [RobustnessOp::operator()], classic_robustness.cc:77-79 and
    107-212.  The assert on [ys.size()] (148,159) cannot fail and is omitted. *)
Fixpoint compute (r : rob_op) (phi : expr F) : outcome (signal F) :=
  match phi with
  | EConst b => rob_const r b
  | EPred n op c => rob_pred r n op c
  | ENot e => x <- compute r e ;; rob_not x
  | EAnd args => ys <- compute_list (compute r) args ;; elementwise_min_list dbg false ys
  | EOr args => ys <- compute_list (compute r) args ;; elementwise_max_list dbg false ys
  | EEventually e i => y <- compute r e ;; rob_temporal sample_ge i y
  | EAlways e i => y <- compute r e ;; rob_temporal sample_le i y
  | EUntil e1 e2 i => y1 <- compute r e1 ;; y2 <- compute r e2 ;; rob_until i y1 y2
  end.

(** [MinMaxTime] folded over the trace, classic_robustness.cc:85-98. *)
Definition trace_begin (tr : trace) : F :=
  fold_left (fun b e => std_min b (begin_time (snd e))) tr ninf.
Definition trace_end (tr : trace) : F :=
  fold_left (fun b e => std_max b (end_time (snd e))) tr (nopp ninf).

(** [compute_robustness], classic_robustness.cc:83-105; the [bool] parameter is unnamed. *)
Definition compute_robustness (phi : expr F) (tr : trace) (synchronized : bool)
  : outcome (signal F) :=
  compute (mkRob (trace_begin tr) (trace_end tr) tr) phi.

End Rob.
Arguments trace : clear implicits.
Arguments rob_op : clear implicits.
