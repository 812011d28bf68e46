(** The double-precision operations used by the code, as a class, and the
    order laws that do not depend on rounding. *)
From Verif Require Import Base.
From Coq Require Import Reals Lra.
From Flocq Require Import Core.Raux.

Class Num (F : Type) : Type := MkNum {
  nzero : F;                  (* 0.0 *)
  ntwo : F;                   (* 2 *)
  ninf : F;                   (* std::numeric_limits<double>::infinity() *)
  nopp : F -> F;              (* unary - *)
  nadd : F -> F -> F;
  nsub : F -> F -> F;
  nmul : F -> F -> F;
  ndiv : F -> F -> F;
  nltb : F -> F -> bool;       (* a < b *)
  nleb : F -> F -> bool;       (* a <= b *)
  neqb : F -> F -> bool;       (* a == b *)
  nisinf : F -> bool;         (* std::isinf *)
  nofZ : Z -> F               (* static_cast<double>(integer) *)
}.

Section Ops.
Context {F : Type} `{Num F}.

(** Not a NaN. *)
Definition isnum (x : F) : bool := neqb x x.

(** [std::max(a,b)], [std::min(a,b)] of libstdc++/[alg.min.max]: NaN-asymmetric. *)
Definition std_max (a b : F) : F := if nltb a b then b else a.
Definition std_min (a b : F) : F := if nltb b a then b else a.

(** [std::max({a,b,c})] = first largest element under operator<. *)
Definition std_max3 (a b c : F) : F := std_max (std_max a b) c.
End Ops.

(** Laws: the comparisons are those of an embedding into the reals on the non-NaN
    values, and false as soon as a NaN is involved.  [B64] and [XR] both satisfy them. *)
Class NumLaws (F : Type) `{Num F} : Type := MkNumLaws {
  rk : F -> R;
  nltb_law : forall x y, nltb x y = isnum x && isnum y && Rlt_bool (rk x) (rk y);
  nleb_law : forall x y, nleb x y = isnum x && isnum y && Rle_bool (rk x) (rk y);
  neqb_law : forall x y, neqb x y = isnum x && isnum y && Req_bool (rk x) (rk y);
  isnum_zero : isnum nzero = true;
  rk_zero : rk nzero = 0%R;
  isnum_inf : isnum ninf = true;
  rk_inf : forall x, isnum x = true -> (rk x <= rk ninf)%R;
  isnum_opp : forall x, isnum (nopp x) = isnum x;
  rk_opp : forall x, rk (nopp x) = (- rk x)%R;
  nopp_opp : forall x, nopp (nopp x) = x
}.
