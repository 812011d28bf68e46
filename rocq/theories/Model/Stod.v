(** A model of [std::stod] as called by actions.hpp:139, in the "C" locale and on the texts of
    DoubleLiteral (grammar.hpp:61-72): [None] stands for std::out_of_range.  The C++ library is not in
    /repo; this follows its documentation, with the correct rounding of glibc.  Numbers below the
    smallest normal double are taken to be out of range, although glibc accepts those that are
    exactly representable; the theorems (Spec/Numerals.v, [correct_stod]) hold either way. *)
From Flocq Require Import Core.Core IEEE754.BinarySingleNaN.
From Verif Require Import Base Num NumB64.
From Verif.Model Require Import Peg Parser.

(** The double nearest to p/q (the function is Flocq's division of significands). *)
Definition quotient64 (p q : positive) : B64 :=
  SF2B _ (proj1 (Bdiv_correct_aux 53 1024 b64_prec_gt_0 b64_prec_lt_emax mode_NE false p 0 false q 0)).

(** Digits: their value after [acc], their number plus [n], and the rest. *)
Fixpoint scan_digits (acc n : Z) (w : input) : Z * Z * input :=
  match w with
  | c :: w' => if is_digit c then scan_digits (10 * acc + digit_value c) (n + 1) w' else (acc, n, w)
  | [] => (acc, n, [])
  end.
Definition scan_sign (w : input) : Z * input :=
  match w with
  | c :: w' => if Ascii.eqb c "-" then ((-1)%Z, w') else if Ascii.eqb c "+" then (1%Z, w') else (1%Z, w)
  | [] => (1%Z, [])
  end.
(** A literal as [m * 10^e]. *)
Definition scan (w : input) : Z * Z :=
  let '(m, _, w1) := scan_digits 0 0 w in
  let '(m, k, w2) :=
    match w1 with c :: w' => if Ascii.eqb c "." then scan_digits m 0 w' else (m, 0%Z, w1) | [] => (m, 0%Z, w1) end in
  match w2 with
  | c :: w3 => if among "eE" c
               then let (s, w4) := scan_sign w3 in let '(e, _, _) := scan_digits 0 0 w4 in (m, (s * e - k)%Z)
               else (m, (- k)%Z)
  | [] => (m, (- k)%Z)
  end.

Definition stod64 (w : input) : option B64 :=
  let (m, e) := scan w in
  match m with
  | Zpos m =>
      let p := if Z.leb 0 e then (m * Z.to_pos (10 ^ e))%positive else m in
      let q := if Z.leb 0 e then 1%positive else Z.to_pos (10 ^ (- e)) in
      if Z.ltb (Zpos p * 2 ^ 1022) (Zpos q) then None
      else match quotient64 p q with
           | B754_infinity _ => None
           | v => Some v
           end
  | _ => Some (B754_zero false)
  end.
