(** Vocabulary for C55-C62: the tokens of a specification text and its layouts. *)
From Verif Require Import Base.
From Verif.Model Require Import Ast.
From Coq Require Import Ascii.
Local Open Scope nat_scope.

Definition code_in (a b : nat) (c : ascii) : bool := (a <=? nat_of_ascii c) && (nat_of_ascii c <=? b).
Definition letter (c : ascii) : bool := code_in 65 90 c || code_in 97 122 c || code_in 95 95 c.
Definition digit (c : ascii) : bool := code_in 48 57 c.
Definition white (c : ascii) : bool := code_in 32 32 c || code_in 9 13 c.
Definition newline : ascii := ascii_of_nat 10.
Definition chars (w : string) : list ascii := list_ascii_of_string w.

(** ** Literals *)
Definition integer (w : list ascii) : Prop := w <> [] /\ Forall (fun c => digit c = true) w.
Definition exponent_part (w : list ascii) : Prop := exists e sign ds,
  w = e :: sign ++ ds /\ In e (chars "eE") /\ (sign = [] \/ sign = chars "+" \/ sign = chars "-") /\ integer ds.
Definition decimal (w : list ascii) : Prop := exists a b x, w = a ++ b ++ x /\ integer a /\
  ((exists ds, b = "."%char :: ds /\ integer ds /\ (x = [] \/ exponent_part x)) \/
   ((b = [] \/ b = chars ".") /\ exponent_part x)).
(** Value of a sequence of digits. *)
Fixpoint digits_value (acc : Z) (w : list ascii) : Z :=
  match w with
  | [] => acc
  | c :: w' => digits_value (10 * acc + (Z.of_nat (nat_of_ascii c) - 48)) w'
  end.

(** ** Tokens *)
Inductive token : Type :=
| LPar | RPar
| Cmp (op : cmp_op)
| Word (w : string)             (* identifiers and the other keywords *)
| Define                        (* define-formula *)
| Number (w : list ascii)
| Bad.                          (* anything that starts with a character no token starts with *)

Definition is_word (w : string) : Prop :=
  match w with EmptyString => False | String a w' => letter a = true /\ Forall (fun c => letter c || digit c = true) (chars w') end.
Definition token_ok (t : token) : Prop :=
  match t with Word w => is_word w | Number w => integer w \/ decimal w | _ => True end.
Definition cmp_text (op : cmp_op) : string := match op with LT => "<" | LE => "<=" | GT => ">" | GE => ">=" end.
Definition token_text (t : token) : list ascii :=
  match t with
  | LPar => chars "(" | RPar => chars ")"
  | Cmp op => chars (cmp_text op)
  | Word w => chars w
  | Define => chars "define-formula"
  | Number w => w
  | Bad => []
  end.
Definition bad_start (c : ascii) : bool :=
  negb (letter c || digit c || white c || existsb (Ascii.eqb c) (chars "();<>")).

(** ** Layouts *)
Definition one_line (w : list ascii) : Prop := ~ In newline w.
(** White space and comments. *)
Inductive gap : list ascii -> Prop :=
| gap_nil : gap []
| gap_white c g : white c = true -> gap g -> gap (c :: g)
| gap_comment w g : one_line w -> gap g -> gap (";"%char :: w ++ newline :: g).
(** The same at the end of the text, where the last comment need not be terminated. *)
Inductive last_gap : list ascii -> Prop :=
| last_closed g : gap g -> last_gap g
| last_open g w : gap g -> one_line w -> last_gap (g ++ ";"%char :: w).
(** Neighbours that would be read differently without a gap. *)
Definition wordy (t : token) : bool := match t with Word _ | Define | Number _ => true | _ => false end.
Definition is_cmp (t : token) : bool := match t with Cmp _ => true | _ => false end.
Definition apart (t u : token) : bool :=
  match u with
  | Bad => wordy t || is_cmp t
  | _ => (wordy t && wordy u) || (is_cmp t && is_cmp u)
  end.
(** [layout toks text]: [text] starts with the first token.  After a [Bad] anything may follow. *)
Inductive layout : list token -> list ascii -> Prop :=
| layout_nil : layout [] []
| layout_bad c i ts : bad_start c = true -> layout (Bad :: ts) (c :: i)
| layout_last t g : token_ok t -> t <> Bad -> last_gap g -> layout [t] (token_text t ++ g)
| layout_cons t u ts g i : token_ok t -> t <> Bad -> gap g -> (apart t u = true -> g <> []) ->
    layout (u :: ts) i -> layout (t :: u :: ts) (token_text t ++ g ++ i).
(** A text with these tokens. *)
Definition text_of (toks : list token) (i : list ascii) : Prop :=
  (toks = [] /\ last_gap i) \/ (exists g j, i = g ++ j /\ gap g /\ layout toks j).
