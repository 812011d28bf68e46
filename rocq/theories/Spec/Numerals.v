(** Vocabulary for C110-C112: the number a numeral writes, and what the C++ library must make of
    it. *)
From Coq Require Import Ascii Reals.
From Flocq Require Import Core.Core IEEE754.BinarySingleNaN.
From Verif Require Import Base Num NumB64.
From Verif.Spec Require Import Text Syntax Rounding.
Local Open Scope R_scope.

(** The power of ten an exponent writes. *)
Definition power_of_ten (x : list ascii) (e : Z) : Prop :=
  (x = [] /\ e = 0%Z) \/
  exists c sign ds, x = c :: sign ++ ds /\ In c (chars "eE") /\ integer ds /\
    (((sign = [] \/ sign = chars "+") /\ e = digits_value 0 ds) \/ (sign = chars "-" /\ e = (- digits_value 0 ds)%Z)).
(** [w] writes the number [r]: digits [a], after the point [ds], and an exponent. *)
Definition numeral (w : list ascii) (r : R) : Prop :=
  (integer w \/ decimal w) /\ exists a ds x e, integer a /\ Forall (fun c => digit c = true) ds /\
    ((w = a ++ x /\ ds = []) \/ w = a ++ "."%char :: ds ++ x) /\ power_of_ten x e /\
    r = IZR (digits_value 0 (a ++ ds)) * powerRZ 10 (e - Z.of_nat (length ds)).

(** The double nearest to [r], without a sign. *)
Definition nearest (r : R) (v : B64) : Prop := finite v = true /\ Bsign v = false /\ B2R v = b64_round r.
(** A conversion of decimal literals as std::stod must be: correctly rounded; [None]
    (out_of_range) where the result overflows, and, as the library likes, for numbers smaller than
    every normal double. *)
Definition tiny (r : R) : Prop := 0 < r < bpow radix2 (-1022).
Definition huge (r : R) : Prop := bpow radix2 1024 <= b64_round r.
Definition correct_stod (stod : list ascii -> option B64) : Prop := forall w r, decimal w -> numeral w r ->
  match stod w with Some v => nearest r v | None => tiny r \/ huge r end.

(** ** Specifications that differ in the way numbers are written *)
Definition same_number (w w' : list ascii) : Prop := exists r, numeral w r /\ numeral w' r.
Fixpoint alike (t u : term) : Prop :=
  match t, u with
  | TPred op x w, TPred op' x' w' | TPred2 op w x, TPred2 op' w' x' => op = op' /\ x = x' /\ same_number w w'
  | TNot t, TNot u | TAlways t, TAlways u | TEventually t, TEventually u => alike t u
  | TAnd ts, TAnd us | TOr ts, TOr us =>
      (fix go (ts us : list term) : Prop :=
         match ts, us with
         | [], [] => True
         | t :: ts', u :: us' => alike t u /\ go ts' us'
         | _, _ => False
         end) ts us
  | TImplies t1 t2, TImplies u1 u2 | TIff t1 t2, TIff u1 u2 | TXor t1 t2, TXor u1 u2 | TUntil t1 t2, TUntil u1 u2 =>
      alike t1 u1 /\ alike t2 u2
  | _, _ => t = u
  end.
Definition alike_command (c c' : command) : Prop := is_def c = is_def c' /\ name c = name c' /\ alike (body c) (body c').

(** The numerals of a term, and those that are neither tiny nor beyond the range of a long. *)
Fixpoint numerals (t : term) : list (list ascii) :=
  match t with
  | TBool _ | TRef _ | TEmpty => []
  | TPred _ _ w | TPred2 _ w _ => [w]
  | TNot t | TAlways t | TEventually t => numerals t
  | TAnd ts | TOr ts => flat_map numerals ts
  | TImplies t u | TIff t u | TXor t u | TUntil t u => numerals t ++ numerals u
  end.
Definition ordinary (w : list ascii) : Prop := forall r, numeral w r -> ~ tiny r /\ (integer w -> r < IZR (2 ^ 63)).
