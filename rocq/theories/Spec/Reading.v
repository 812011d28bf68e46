(** How a printed formula without temporal operators is read. *)
From Verif Require Import Base Num.
From Verif.Model Require Import Ast.
From Verif.Spec Require Import Formula FmtSpec.
Local Open Scope string_scope.

Section Reading.
Context {F : Type} `{NF : Num F}.
Variable fdbl : F -> string.

Fixpoint separated (sep : string) (ws : list string) : string :=
  match ws with [] => "" | [w] => w | w :: ws' => w ++ sep ++ separated sep ws' end.

(** [means w P]: the text [w] can be read as the condition [P] on the values of the signals. *)
Inductive means : string -> ((string -> F) -> Prop) -> Prop :=
| M_true : means "true" (fun _ => True)
| M_false : means "false" (fun _ => False)
| M_gt n c : plain_name n -> means ("(" ++ n ++ " > " ++ fdbl c ++ ")") (fun env => nltb c (env n) = true)
| M_ge n c : plain_name n -> means ("(" ++ n ++ " >= " ++ fdbl c ++ ")") (fun env => nleb c (env n) = true)
| M_lt n c : plain_name n -> means ("(" ++ n ++ " < " ++ fdbl c ++ ")") (fun env => nltb (env n) c = true)
| M_le n c : plain_name n -> means ("(" ++ n ++ " <= " ++ fdbl c ++ ")") (fun env => nleb (env n) c = true)
| M_not w P : means w P -> means ("~" ++ w) (fun env => ~ P env)
| M_and ws Ps : 2 <= length ws -> each ws Ps -> means ("(" ++ separated " & " ws ++ ")") (fun env => Forall (fun P => P env) Ps)
| M_or ws Ps : 2 <= length ws -> each ws Ps -> means ("(" ++ separated " | " ws ++ ")") (fun env => Exists (fun P => P env) Ps)
with each : list string -> list ((string -> F) -> Prop) -> Prop :=
| each_nil : each [] []
| each_cons w P ws Ps : means w P -> each ws Ps -> each (w :: ws) (P :: Ps).

(** Truth of a formula without temporal operators. *)
Fixpoint holds (env : string -> F) (e : expr F) : Prop :=
  match e with
  | EConst b => b = true
  | EPred n GT c => nltb c (env n) = true
  | EPred n GE c => nleb c (env n) = true
  | EPred n LT c => nltb (env n) c = true
  | EPred n LE c => nleb (env n) c = true
  | ENot e => ~ holds env e
  | EAnd l => Forall (fun P => P) (map (holds env) l)
  | EOr l => Exists (fun P => P) (map (holds env) l)
  | EAlways _ _ | EEventually _ _ | EUntil _ _ _ => False
  end.
End Reading.
