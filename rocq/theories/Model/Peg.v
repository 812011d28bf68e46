(** Model of the PEGTL 3 rules used by src/parser/grammar.hpp, as functions.  PEGTL itself is not
    in /repo (fetched by cmake/ThirdPartyDeps.cmake:54-70); these definitions are the documented
    meaning of its rules.

    A rule maps the remaining input and the parser states to
    - [Ok (Some rest, st)]: match, [rest] remains;
    - [Ok (None, st)]: local failure; the input is rewound by the caller, changes that actions
      made to the states are not undone;
    - anything else: an exception (global failure), failed assertion, undefined behaviour.
    Rewind modes are not modelled: they only avoid rewinding where it cannot be observed.
    [Control] is [must_if<error, normal>] with [raise_on_failure = false]
    (error_messages.hpp:66-77), so only [must] turns local into global failures.  The message of the
    parse_error is that of the rule [must] is applied to; the position in the input that PEGTL
    prepends to it is not modelled. *)
From Coq Require Export Ascii.
From Verif Require Import Base.

(** [A]: the type of the input elements, [ascii] for the parser; the structural rules work for
    any. *)
Definition input : Type := list ascii.
Definition result (A St : Type) : Type := outcome (option (list A) * St).
Definition rule (A St : Type) : Type := list A -> St -> result A St.

Section Rules.
Context {A St : Type}.
Implicit Types p q c : rule A St.

Definition succeed : rule A St := fun i st => Ok (Some i, st).
Definition eof : rule A St := fun i st => Ok (match i with [] => Some i | _ => None end, st).
(** [one], [ranges], [digit], [space], [identifier_first], [identifier_other]: one character out
    of a set. *)
Definition one (f : A -> bool) : rule A St := fun i st =>
  Ok (match i with c :: i' => if f c then Some i' else None | [] => None end, st).

Definition seq (p q : rule A St) : rule A St := fun i st =>
  '(r, st1) <- p i st ;;
  match r with Some i1 => q i1 st1 | None => Ok (None, st1) end.
Definition sor (p q : rule A St) : rule A St := fun i st =>
  '(r, st1) <- p i st ;;
  match r with Some i1 => Ok (Some i1, st1) | None => q i st1 end.
Definition opt (p : rule A St) : rule A St := sor p succeed.
(** [not_at]: no consumption, actions disabled. *)
Definition not_at (p : rule A St) : rule A St := fun i st =>
  '(r, _) <- p i st ;;
  Ok (match r with Some _ => None | None => Some i end, st).
(** [must<R>]: local failure becomes a parse_error with the message [m] of [R]. *)
Definition must (m : string) (p : rule A St) : rule A St := fun i st =>
  '(r, st1) <- p i st ;;
  match r with Some i1 => Ok (Some i1, st1) | None => Throw (ParseError m) end.
(** [if_must<C, R>] = [seq<C, must<R>>]. *)
Definition if_must (m : string) (c p : rule A St) : rule A St := seq c (must m p).

(** Loops, with a bound [n] on the number of iterations. *)
Fixpoint star_n (n : nat) (p : rule A St) : rule A St := fun i st =>
  match n with
  | 0 => Hang
  | S n' => '(r, st1) <- p i st ;;
            match r with Some i1 => star_n n' p i1 st1 | None => Ok (Some i, st1) end
  end.
Definition plus_n (n : nat) (p : rule A St) : rule A St := seq p (star_n n p).
(** [until<C>]: skip single characters until [C] matches. *)
Fixpoint until_any_n (n : nat) (c : rule A St) : rule A St := fun i st =>
  match n with
  | 0 => Hang
  | S n' => '(r, st1) <- c i st ;;
            match r with
            | Some i1 => Ok (Some i1, st1)
            | None => match i with [] => Ok (None, st1) | _ :: i' => until_any_n n' c i' st1 end
            end
  end.
(** [until<C, R>]. *)
Fixpoint until_n (n : nat) (c p : rule A St) : rule A St := fun i st =>
  match n with
  | 0 => Hang
  | S n' => '(r, st1) <- c i st ;;
            match r with
            | Some i1 => Ok (Some i1, st1)
            | None => '(r2, st2) <- p i st1 ;;
                      match r2 with Some i2 => until_n n' c p i2 st2 | None => Ok (None, st2) end
            end
  end.
(** The loops of lexical rules consume a character in each iteration, so one more iteration
    than there are characters is enough. *)
Definition star (p : rule A St) : rule A St := fun i => star_n (1 + length i) p i.
Definition plus (p : rule A St) : rule A St := seq p (star p).
Definition until_any (c : rule A St) : rule A St := fun i => until_any_n (1 + length i) c i.

(** [Action<R>::apply] / [apply0]: run on the matched text after a match. *)
Definition act (f : list A -> St -> outcome St) (p : rule A St) : rule A St := fun i st =>
  '(r, st1) <- p i st ;;
  match r with
  | Some i1 => st2 <- f (firstn (length i - length i1) i) st1 ;; Ok (Some i1, st2)
  | None => Ok (None, st1)
  end.
Definition act0 (f : St -> outcome St) (p : rule A St) : rule A St := act (fun _ => f) p.
End Rules.

(** ** Rules for characters *)
Section Chars.
Context {St : Type}.
(** [string]: exactly these characters. *)
Fixpoint strip (w i : input) : option input :=
  match w, i with
  | [], _ => Some i
  | c :: w', d :: i' => if Ascii.eqb c d then strip w' i' else None
  | _ :: _, [] => None
  end.
Definition str (w : string) : rule ascii St := fun i st => Ok (strip (list_ascii_of_string w) i, st).
(** [eol] with the default end-of-line mode lf_crlf; [eolf]. *)
Definition lf : ascii := ascii_of_nat 10.
Definition cr : ascii := ascii_of_nat 13.
Definition eol : rule ascii St := fun i st =>
  Ok (match i with
      | c :: i' => if Ascii.eqb c lf then Some i'
                   else match i' with
                        | d :: i'' => if Ascii.eqb c cr && Ascii.eqb d lf then Some i'' else None
                        | [] => None
                        end
      | [] => None
      end, st).
Definition eolf : rule ascii St := sor eof eol.
End Chars.
