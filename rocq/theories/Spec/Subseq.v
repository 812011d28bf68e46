(** Subsequences. *)
From Verif Require Import Base.

Inductive subseq {A : Type} : list A -> list A -> Prop :=
| sub_nil : subseq [] []
| sub_keep a l l' : subseq l l' -> subseq (a :: l) (a :: l')
| sub_skip a l l' : subseq l l' -> subseq l (a :: l').

Lemma subseq_refl {A} (l : list A) : subseq l l.
Proof. induction l; constructor; assumption. Qed.
Lemma subseq_nil_l {A} (l : list A) : subseq [] l.
Proof. induction l; constructor; assumption. Qed.
Lemma subseq_In {A} (l l' : list A) a : subseq l l' -> In a l -> In a l'.
Proof. induction 1; cbn; intuition. Qed.
Lemma subseq_app {A} (l1 l1' l2 l2' : list A) : subseq l1 l1' -> subseq l2 l2' -> subseq (l1 ++ l2) (l1' ++ l2').
Proof. induction 1; intros; cbn; try constructor; auto. Qed.
Lemma subseq_snoc_skip {A} (l l' : list A) a : subseq l l' -> subseq l (l' ++ [a]).
Proof. intros H. rewrite <- (app_nil_r l). apply subseq_app; [exact H|]. apply subseq_nil_l. Qed.
Lemma subseq_trans {A} (l1 l2 l3 : list A) : subseq l1 l2 -> subseq l2 l3 -> subseq l1 l3.
Proof.
  intros H1 H2. revert l1 H1. induction H2; intros l1 H1; auto.
  - inversion H1; subst; constructor; auto.
  - constructor; auto.
Qed.
Lemma subseq_map {A B} (f : A -> B) l l' : subseq l l' -> subseq (map f l) (map f l').
Proof. induction 1; cbn; constructor; auto. Qed.
Lemma subseq_length {A} (l l' : list A) : subseq l l' -> length l <= length l'.
Proof. induction 1; cbn; lia. Qed.
Lemma subseq_app_cons_inv {A} (l : list A) l1 l2 : subseq l (l1 ++ l2) ->
  exists a b, l = a ++ b /\ subseq a l1 /\ subseq b l2.
Proof.
  revert l. induction l1 as [|x l1 IH]; cbn; intros l H.
  - exists [], l. repeat split; [constructor|exact H].
  - inversion H as [|? l' ? H' |? ? ? H']; subst; apply IH in H' as (a & b & -> & Ha & Hb).
    + exists (x :: a), b. repeat split; [constructor; exact Ha|exact Hb].
    + exists a, b. repeat split; [constructor; exact Ha|exact Hb].
Qed.
