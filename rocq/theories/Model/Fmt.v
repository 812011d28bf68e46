(** Model of src/include/signal_tl/fmt.hpp.  [fdbl] is fmt's conversion of a double by "{}" (the
    fmt library is not in /repo). *)
From Verif Require Import Base Num.
From Verif.Model Require Import Signal Ast.
Local Open Scope string_scope.

Section Fmt.
Context {F : Type} `{NF : Num F}.
Variable fdbl : F -> string.

(** [fmt::join]. *)
Fixpoint join (sep : string) (l : list string) : string :=
  match l with
  | [] => ""
  | [a] => a
  | a :: l' => a ++ sep ++ join sep l'
  end.
(** "{}" of a bool, as used by fmt.hpp:32. *)
Definition fmt_bool (b : bool) : string := if b then "true" else "false".
(** fmt.hpp:41-55. *)
Definition fmt_cmp (op : cmp_op) : string := match op with GE => ">=" | GT => ">" | LE => "<=" | LT => "<" end.
(** The text between the operator and its (last) argument, fmt.hpp:93-99, 109-115 and 126-132;
    [close]: what is printed after an infinite end. *)
Definition fmt_interval (close : string) (i : interval F) : string :=
  if has_value i then
    let (a, b) := as_double i in
    if nisinf b then "[" ++ fdbl a ++ ", " ++ close ++ " " else "[" ++ fdbl a ++ "," ++ fdbl b ++ "] "
  else " ".
(** The formatters of the nodes, fmt.hpp:27-134, dispatched by fmt.hpp:150-167 (and by
    operator<<, fmt.hpp:136-147). *)
Fixpoint fmt_expr (e : expr F) : string :=
  match e with
  | EConst b => fmt_bool b
  | EPred name op rhs => "(" ++ name ++ " " ++ fmt_cmp op ++ " " ++ fdbl rhs ++ ")"
  | ENot e => "~" ++ fmt_expr e
  | EAnd args => "(" ++ join " & " (map fmt_expr args) ++ ")"
  | EOr args => "(" ++ join " | " (map fmt_expr args) ++ ")"
  | EAlways e i => "G" ++ fmt_interval "int)" i ++ fmt_expr e
  | EEventually e i => "F" ++ fmt_interval "inf]" i ++ fmt_expr e
  | EUntil e1 e2 i => fmt_expr e1 ++ " U" ++ fmt_interval "inf)" i ++ fmt_expr e2
  end.
(** fmt.hpp:169-179. *)
Definition fmt_sample (s : sample F) : string := "(" ++ fdbl (s_time s) ++ ", " ++ fdbl (s_value s) ++ ")".
(** fmt.hpp:181-191. *)
Definition fmt_signal (x : signal F) : string := "[" ++ join ", " (map fmt_sample x) ++ "]".
End Fmt.
