(** Vocabulary for C54, C64 and C74. *)
From Coq Require Import Ascii.
From Verif Require Import Base Num.
From Verif.Model Require Import Signal Ast.

Section FmtSpec.
Context {F : Type} `{NF : Num F}.
(** [differ i j e e']: [e] and [e'] are the same except that one temporal operator has the interval
    [i] in [e] and [j] in [e']. *)
Inductive differ (i j : interval F) : expr F -> expr F -> Prop :=
| D_always e : differ i j (EAlways e i) (EAlways e j)
| D_eventually e : differ i j (EEventually e i) (EEventually e j)
| D_until e1 e2 : differ i j (EUntil e1 e2 i) (EUntil e1 e2 j)
| D_not e e' : differ i j e e' -> differ i j (ENot e) (ENot e')
| D_and l e e' l' : differ i j e e' -> differ i j (EAnd (l ++ e :: l')) (EAnd (l ++ e' :: l'))
| D_or l e e' l' : differ i j e e' -> differ i j (EOr (l ++ e :: l')) (EOr (l ++ e' :: l'))
| D_in_always e e' k : differ i j e e' -> differ i j (EAlways e k) (EAlways e' k)
| D_in_eventually e e' k : differ i j e e' -> differ i j (EEventually e k) (EEventually e' k)
| D_left e e' u k : differ i j e e' -> differ i j (EUntil e u k) (EUntil e' u k)
| D_right u e e' k : differ i j e e' -> differ i j (EUntil u e k) (EUntil u e' k).
(** The unbounded interval, with bounds of either type. *)
Definition unbounded (i : interval F) : bool :=
  neqb (fst (as_double i)) nzero && neqb (snd (as_double i)) ninf.

(** ** Text *)
Definition lacks (c : ascii) (w : string) : Prop := ~ In c (list_ascii_of_string w).
(** Doubles are printed distinctly and without commas and parentheses. *)
Definition printer (fdbl : F -> string) : Prop :=
  (forall x y, fdbl x = fdbl y -> x = y) /\ forall x, lacks "," (fdbl x) /\ lacks ")" (fdbl x).
(** Names that cannot be taken for the beginning of a formula. *)
Definition plain_name (n : string) : Prop := Forall (fun c => lacks c n) [" "; "("; "~"; "["]%char.
(** The same formula but for bounds of bounded intervals. *)
Inductive alike : expr F -> expr F -> Prop :=
| L_const b : alike (EConst b) (EConst b)
| L_pred n op c : alike (EPred n op c) (EPred n op c)
| L_not e e' : alike e e' -> alike (ENot e) (ENot e')
| L_and l l' : Forall2 alike l l' -> alike (EAnd l) (EAnd l')
| L_or l l' : Forall2 alike l l' -> alike (EOr l) (EOr l')
| L_always e e' i j : unbounded i = unbounded j -> alike e e' -> alike (EAlways e i) (EAlways e' j)
| L_eventually e e' i j : unbounded i = unbounded j -> alike e e' -> alike (EEventually e i) (EEventually e' j).
End FmtSpec.
