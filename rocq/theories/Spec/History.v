(** Histories of push_back calls on one Signal object. *)
From Verif Require Import Base Num.
From Verif.Model Require Import Signal.

Section History.
Context {F : Type} `{NF : Num F}.

(** The signal after calling [push_back] with each sample of [h] in turn, starting from an
    empty signal; an exception is caught and the history goes on. *)
Definition after (h : list (sample F)) : signal F :=
  fold_left (fun s x => fst (push_back_st s x)) h [].

End History.
