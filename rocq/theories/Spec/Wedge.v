(** Histories of a monotonic wedge: updates with a value and pop_front calls. *)
From Verif Require Import Base.
From Verif.Model Require Import MonoWedge.

Inductive wop (A : Type) : Type := Feed (v : A) | Pop.
Arguments Feed {A} v. Arguments Pop {A}.

(** The wedge after a history, starting empty; [pop_front] on an empty deque is undefined. *)
Fixpoint wedge_run {A} (comp : A -> A -> bool) (w : list A) (h : list (wop A)) : outcome (list A) :=
  match h with
  | [] => Ok w
  | Feed v :: h' => w' <- wedge_update comp w v ;; wedge_run comp w' h'
  | Pop :: h' => match w with [] => UB | _ :: w' => wedge_run comp w' h' end
  end.

(** The same with any update operation. *)
Fixpoint wedge_run_with {A} (upd : list A -> A -> outcome (list A)) (w : list A) (h : list (wop A)) : outcome (list A) :=
  match h with
  | [] => Ok w
  | Feed v :: h' => w' <- upd w v ;; wedge_run_with upd w' h'
  | Pop :: h' => match w with [] => UB | _ :: w' => wedge_run_with upd w' h' end
  end.
(** All values fed, in order. *)
Fixpoint fed {A} (h : list (wop A)) : list A :=
  match h with [] => [] | Feed v :: h' => v :: fed h' | Pop :: h' => fed h' end.

(** What the wedge stands for.  [leaders comp r]: the elements of [r] that compare well with
    everything after them; the first of them is the extreme of [r]. *)
Fixpoint leaders {A} (comp : A -> A -> bool) (r : list A) : list A :=
  match r with [] => [] | a :: r' => if forallb (comp a) r' then a :: leaders comp r' else leaders comp r' end.
(** What is left of [r] when its extreme and everything before it is forgotten. *)
Fixpoint after_extreme {A} (comp : A -> A -> bool) (r : list A) : list A :=
  match r with [] => [] | a :: r' => if forallb (comp a) r' then r' else after_extreme comp r' end.
(** The values still of interest after a history; [None] if the extreme of nothing was popped. *)
Fixpoint window {A} (comp : A -> A -> bool) (r : list A) (h : list (wop A)) : option (list A) :=
  match h with
  | [] => Some r
  | Feed v :: h' => window comp (r ++ [v]) h'
  | Pop :: h' => match r with [] => None | _ => window comp (after_extreme comp r) h' end
  end.
