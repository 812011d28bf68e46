(** Vocabulary for C113: the printed form of formulas, samples and signals. *)
From Verif Require Import Base Num.
From Verif.Model Require Import Signal Ast.
From Verif.Spec Require Import FmtSpec Reading.
Local Open Scope string_scope.

Section Printed.
Context {F : Type} `{NF : Num F}.
Variable fdbl : F -> string.
Definition relation (op : cmp_op) : string := match op with LT => "<" | LE => "<=" | GT => ">" | GE => ">=" end.

(** [shown op i w]: [w] may stand between the letter of the operator and its (last) argument. *)
Section Formulas.
Variable shown : string -> interval F -> string -> Prop.
Inductive printed : expr F -> string -> Prop :=
| Pr_true : printed (EConst true) "true"
| Pr_false : printed (EConst false) "false"
| Pr_pred n op c : printed (EPred n op c) ("(" ++ n ++ " " ++ relation op ++ " " ++ fdbl c ++ ")")
| Pr_not e w : printed e w -> printed (ENot e) ("~" ++ w)
| Pr_and l ws : Forall2 printed l ws -> printed (EAnd l) ("(" ++ separated " & " ws ++ ")")
| Pr_or l ws : Forall2 printed l ws -> printed (EOr l) ("(" ++ separated " | " ws ++ ")")
| Pr_always e i iv w : shown "G" i iv -> printed e w -> printed (EAlways e i) ("G" ++ iv ++ w)
| Pr_eventually e i iv w : shown "F" i iv -> printed e w -> printed (EEventually e i) ("F" ++ iv ++ w)
| Pr_until e e' i iv w w' : shown "U" i iv -> printed e w -> printed e' w' -> printed (EUntil e e' i) (w ++ " U" ++ iv ++ w').
End Formulas.

(** As one would print intervals; the unbounded one may be left out. *)
Definition textbook (op : string) (i : interval F) (w : string) : Prop :=
  if unbounded i then w = " " \/ w = "[" ++ fdbl (fst (as_double i)) ++ ", inf) "
  else w = "[" ++ fdbl (fst (as_double i)) ++ "," ++ fdbl (snd (as_double i)) ++ "] ".
(** As the code prints them. *)
Definition as_coded (op : string) (i : interval F) (w : string) : Prop :=
  if unbounded i
  then exists close, w = "[" ++ fdbl (fst (as_double i)) ++ ", " ++ close ++ " " /\ In (op, close) [("G", "int)"); ("F", "inf]"); ("U", "inf)")]
  else w = " ".
End Printed.
