(** Model of src/robust_semantics/mono_wedge.h. *)
From Verif Require Import Base Num.
From Verif.Model Require Import Signal.

Section Wedge.
Context {A : Type}.
Variable comp : A -> A -> bool.

(** Linear part of [mono_wedge_search], mono_wedge.h:91-98.  [pos] is the index of
    [search_pos], [i] the loop counter.  Result: [inl k] = early return of index [k],
    [inr p] = loop left with [search_pos = p].  The size_t subtraction [size - i] cannot wrap
    ([i < size] whenever the loop continues, because [(size - i) >> i > 0]; at i = size it is 0). *)
Fixpoint wedge_linear (fuel : nat) (w : list A) (v : A) (i pos : nat) : outcome (nat + nat) :=
  match fuel with
  | O => Hang
  | S fuel' =>
      if Nat.ltb 0 (Nat.shiftr (length w - i) i) then
        match nth_error w pos with
        | None => UB
        | Some a =>
            if comp a v then Ok (inl (S pos))
            else match pos with
                 | O => UB                                       (* --begin() *)
                 | S pos' => wedge_linear fuel' w v (S i) pos'
                 end
        end
      else Ok (inr pos)
  end.

(** [mono_wedge_search], mono_wedge.h:85-102. *)
Definition wedge_search (w : list A) (v : A) : outcome nat :=
  match w with
  | [] => Ok 0
  | _ =>
      r <- wedge_linear (S (length w)) w v 1 (length w - 1) ;;
      match r with
      | inl k => Ok k
      | inr p => lower_bound (firstn (S p) w) (fun a => comp a v)
      end
  end.

(** [mono_wedge_update], mono_wedge.h:123-128 and, as selected for non-const arguments,
    169-176: erase from the found position, append the value. *)
Definition wedge_update (w : list A) (v : A) : outcome (list A) :=
  k <- wedge_search w v ;; Ok (firstn k w ++ [v]).

End Wedge.

(** The variants for samples, mono_wedge.h:137-162: std::less and std::greater, i.e. the operators
    on Sample.  (The rvalue versions, 178-186, have a template parameter that cannot be deduced.) *)
Section Variants.
Context {F : Type} `{NF : Num F}.
Definition min_wedge_search (w : list (sample F)) (v : sample F) : outcome nat := wedge_search sample_lt w v.
Definition max_wedge_search (w : list (sample F)) (v : sample F) : outcome nat := wedge_search sample_gt w v.
Definition min_wedge_update (w : list (sample F)) (v : sample F) : outcome (list (sample F)) := wedge_update sample_lt w v.
Definition max_wedge_update (w : list (sample F)) (v : sample F) : outcome (list (sample F)) := wedge_update sample_gt w v.
End Variants.
