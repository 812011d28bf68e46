(** Vocabulary for C37-C39. *)
From Verif Require Import Base Num.
From Verif.Model Require Import Signal Ast Robustness.

Section Spec.
Context {F : Type} `{NF : Num F}.

(** What the code computes for "p until q" at sample [k], given the values [ps], [qs] at the
    samples: at least [c] iff
    - some sample m >= k has q at least c, or from m on q is at most -c, and p is at least c
      from k to before m; or
    - p is at least c from k to the end.
    The textbook semantics has only the first disjunct of the first case. *)
Definition until_reached (ps qs : list F) (k : nat) (c : F) : Prop :=
  exists m q, k <= m /\ nth_error qs m = Some q /\ nleb c q = true /\
    forall l p, k <= l < m -> nth_error ps l = Some p -> nleb c p = true.
Definition until_given_up (ps qs : list F) (k : nat) (c : F) : Prop :=
  exists m, k <= m < length qs /\ (forall l q, m <= l -> nth_error qs l = Some q -> nleb c (nopp q) = true) /\
    forall l p, k <= l < m -> nth_error ps l = Some p -> nleb c p = true.
Definition until_stays (ps : list F) (k : nat) (c : F) : Prop :=
  forall l p, k <= l -> nth_error ps l = Some p -> nleb c p = true.

(** The textbook until at sample [k], given the values of the operands at the samples, read as
    true where positive, resp. where not negative. *)
Definition until_true (pos : F -> bool) (ps qs : list F) (k : nat) : Prop :=
  exists m q, k <= m /\ nth_error qs m = Some q /\ pos q = true /\
    forall l p, k <= l < m -> nth_error ps l = Some p -> pos p = true.

(** The trace begins at [b] and ends at [e]. *)
Definition spans (tr : trace F) (b e : F) : Prop :=
  (forall n x, In (n, x) tr -> nleb b (begin_time x) = true /\ nleb (end_time x) e = true) /\
  (exists n x, In (n, x) tr /\ neqb b (begin_time x) = true) /\
  (exists n x, In (n, x) tr /\ neqb e (end_time x) = true).
(** [t] is neither [b] nor [e]. *)
Definition strictly_inside (b e t : F) : Prop := neqb t b = false /\ neqb t e = false.
End Spec.
