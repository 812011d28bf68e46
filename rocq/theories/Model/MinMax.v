(** Model of src/robust_semantics/minmax.cc.
    The comparator argument is [sample_le] (std::less_equal, minimum) or [sample_ge]
    (std::greater_equal, maximum).  [dbg] says whether [assert] is active (no NDEBUG). *)
From Verif Require Import Base Num.
From Verif.Model Require Import Signal MonoWedge.

(** [enum struct Chosen], minmax.cc:33. *)
Inductive chosen : Type := ChX | ChY | ChNone.

Definition chosen_eqb (a b : chosen) : bool :=
  match a, b with ChX, ChX | ChY, ChY | ChNone, ChNone => true | _, _ => false end.

(** [assert(b)] from <cassert>. *)
Definition assert_ (dbg b : bool) : outcome unit :=
  if dbg && negb b then AssertFail else Ok tt.

Section MinMax.
Context {F : Type} `{NF : Num F}.
Variable dbg : bool.
Variable comp : sample F -> sample F -> bool.

(** One branch of the loop body, minmax.cc:42-49 (win = i, lose = j) and 52-59 (win = j,
    lose = i).  [plose], [pwin] are the predecessors of the iterators. *)
Definition pair_step (out : signal F) (switched : bool) (pwin plose : option (sample F))
    (win : sample F) : outcome (signal F) :=
  out' <- (if switched then
             match plose, pwin with
             | Some pl, Some pw =>
                 let it := time_intersect pl pw in
                 if nltb (end_time out) it && negb (neqb it (s_time win)) then
                   push_back out (mkSample it (interpolate pl it) nzero)
                 else Ok out
             | _, _ => UB                                       (* prev(begin()) *)
             end
           else Ok out) ;;
  push_back out' win.

(** The loop of [compute_minmax_pair], minmax.cc:38-62. *)
Fixpoint pair_loop (pi pj : option (sample F)) (xs ys : list (sample F)) (last : chosen)
    (out : signal F) : outcome (signal F) :=
  match xs, ys with
  | i :: xs', j :: ys' =>
      if comp i j then
        out' <- pair_step out (chosen_eqb last ChY) pi pj i ;;
        pair_loop (Some i) (Some j) xs' ys' ChX out'
      else
        out' <- pair_step out (chosen_eqb last ChX) pj pi j ;;
        pair_loop (Some i) (Some j) xs' ys' ChY out'
  | _, _ => Ok out
  end.

(** [compute_minmax_pair] on two signals, minmax.cc:19-65. *)
Definition minmax_pair (synchronized : bool) (input_x input_y : signal F) : outcome (signal F) :=
  '(x, y) <- (if synchronized then Ok (input_x, input_y) else synchronize input_x input_y) ;;
  _ <- assert_ dbg (Nat.eqb (length x) (length y)) ;;
  _ <- assert_ dbg (neqb (begin_time x) (begin_time y)) ;;
  _ <- assert_ dbg (neqb (end_time x) (end_time y)) ;;
  pair_loop None None x y ChNone [].

(** [std::accumulate] over the remaining signals, minmax.cc:81-87. *)
Fixpoint minmax_fold (synchronized : bool) (acc : signal F) (xs : list (signal F))
  : outcome (signal F) :=
  match xs with
  | [] => Ok acc
  | x :: xs' => acc' <- minmax_pair synchronized acc x ;; minmax_fold synchronized acc' xs'
  end.

(** [compute_minmax_pair] on a vector of signals, minmax.cc:67-89. *)
Definition minmax_list (synchronized : bool) (xs : list (signal F)) : outcome (signal F) :=
  match xs with
  | [] => push_back_tv [] nzero (nopp ninf)
  | [x] => Ok x
  | [x; y] => minmax_pair synchronized x y
  | x :: xs' => minmax_fold synchronized x xs'
  end.

(** The loop of the rolling [compute_minmax_seq], minmax.cc:98-101, over the reversed samples. *)
Fixpoint seq_loop (opt : sample F) (z : list (sample F)) (rl : list (sample F))
  : list (sample F) :=
  match rl with
  | [] => z
  | i :: rl' =>
      let opt' := if comp i opt then i else opt in
      seq_loop opt' (z ++ [mkSample (s_time i) (s_value opt') nzero]) rl'
  end.

(** Rolling [compute_minmax_seq], minmax.cc:91-105. *)
Definition minmax_seq (x : signal F) : outcome (signal F) :=
  match rev x with
  | [] => UB                                                     (* x->back() of an empty vector *)
  | b :: rl => from_samples (rev (seq_loop b [b] rl))
  end.

(** First phase of the windowed version, minmax.cc:122-126: returns the window, the sample
    before the iterator and the samples from the iterator on. *)
Fixpoint win_fill (limit : F) (window : list (sample F)) (prev : option (sample F))
    (l : list (sample F)) : outcome (list (sample F) * option (sample F) * list (sample F)) :=
  match l with
  | [] => UB                                                     (* end() is dereferenced *)
  | i :: l' =>
      if nltb (s_time i) limit then
        window' <- wedge_update comp window i ;; win_fill limit window' (Some i) l'
      else Ok (window, prev, l)
  end.

(** [while (window.front().time <= i->time - a) window.pop_front();], minmax.cc:140. *)
Fixpoint win_pop (bound : F) (window : list (sample F)) : outcome (list (sample F)) :=
  match window with
  | [] => UB                                                     (* front() of an empty deque *)
  | f :: w' => if nleb (s_time f) bound then win_pop bound w' else Ok window
  end.

(** Second phase, minmax.cc:128-142.  [samples.insert] before [i] returns the inserted
    position, so the same iteration continues with the inserted sample and the next one
    visits the old [i].  Inserting may repeat, hence the fuel. *)
Fixpoint win_stream (fuel : nat) (a : F) (window : list (sample F)) (prev : option (sample F))
    (l : list (sample F)) (z : signal F) : outcome (signal F) :=
  match fuel with
  | O => Hang
  | S fuel' =>
      match l with
      | [] => Ok z
      | i0 :: l0 =>
          match window with
          | [] => UB                                             (* front() of an empty deque *)
          | f :: _ =>
              '(i, l1) <-
                (if nltb (s_time f) (nsub (s_time i0) a) then
                   match prev with
                   | None => UB                                  (* prev(begin()) *)
                   | Some p =>
                       let t := nadd (s_time f) a in
                       Ok (mkSample t (interpolate p t) nzero, l)
                   end
                 else Ok (i0, l0)) ;;
              w1 <- wedge_update comp window i ;;
              w2 <- win_pop (nsub (s_time i) a) w1 ;;
              z' <- push_back_tv z (s_time i) (s_value i) ;;
              win_stream fuel' a w2 (Some i) l1 z'
          end
      end
  end.

(** Windowed [compute_minmax_seq], minmax.cc:107-145. *)
Definition minmax_seq_win (fuel : nat) (x : signal F) (a b : F) : outcome (signal F) :=
  let width := nsub b a in
  let bt := begin_time x in
  let et := end_time x in
  x_ <- (if neqb a nzero then Ok x
         else
           last <- back x ;;
           resize_shift x (nadd bt width) (nadd et width) (s_value last) (nopp width)) ;;
  '(wp, l) <- win_fill (nadd (begin_time x) width) [] None x_ ;;
  let '(window, prev) := wp in
  z <- win_stream fuel a window prev l [] ;;
  simplify z.

End MinMax.

Section Wrappers.
Context {F : Type} `{NF : Num F}.

(** minmax.cc:147-179. *)
Definition elementwise_min (dbg synchronized : bool) (x y : signal F) : outcome (signal F) :=
  minmax_pair dbg sample_le synchronized x y.
Definition elementwise_max (dbg synchronized : bool) (x y : signal F) : outcome (signal F) :=
  minmax_pair dbg sample_ge synchronized x y.
Definition elementwise_min_list (dbg synchronized : bool) (xs : list (signal F)) : outcome (signal F) :=
  minmax_list dbg sample_le synchronized xs.
Definition elementwise_max_list (dbg synchronized : bool) (xs : list (signal F)) : outcome (signal F) :=
  minmax_list dbg sample_ge synchronized xs.
Definition max_seq (x : signal F) : outcome (signal F) := minmax_seq sample_ge x.
Definition min_seq (x : signal F) : outcome (signal F) := minmax_seq sample_le x.
Definition max_seq_win (fuel : nat) (x : signal F) (a b : F) : outcome (signal F) :=
  minmax_seq_win sample_ge fuel x a b.
Definition min_seq_win (fuel : nat) (x : signal F) (a b : F) : outcome (signal F) :=
  minmax_seq_win sample_le fuel x a b.
End Wrappers.
