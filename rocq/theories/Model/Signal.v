(** Model of src/include/signal_tl/signal.hpp and src/core/signal.cc.
    Everything is generic in the number type [F] (doubles in the code). *)
From Verif Require Import Base Num.

(** [struct Sample], signal.hpp:19-22. *)
Record sample (F : Type) : Type := mkSample { s_time : F; s_value : F; s_deriv : F }.
Arguments mkSample {F}. Arguments s_time {F}. Arguments s_value {F}. Arguments s_deriv {F}.

(** [struct Signal] holds [std::vector<Sample> samples], signal.hpp:71-73. *)
Definition signal (F : Type) : Type := list (sample F).

Section Model.
Context {F : Type} `{NF : Num F}.

(** ** Sample, signal.hpp:24-66 *)

(** [Sample::interpolate], signal.hpp:27-29. *)
Definition interpolate (s : sample F) (t : F) : F :=
  nadd (s_value s) (nmul (s_deriv s) (nsub t (s_time s))).

(** [Sample::time_intersect], signal.hpp:35-39.  C++ evaluates
    [value - p.value + p.d*p.t - d*t] left to right. *)
Definition time_intersect (s p : sample F) : F :=
  ndiv (nsub (nadd (nsub (s_value s) (s_value p)) (nmul (s_deriv p) (s_time p)))
             (nmul (s_deriv s) (s_time s)))
       (nsub (s_deriv p) (s_deriv s)).

(** [Sample::area], signal.hpp:41-47. *)
Definition area (s : sample F) (t : F) : F :=
  if nltb (s_time s) t then
    ndiv (nmul (nadd (s_value s) (interpolate s t)) (nsub t (s_time s))) ntwo
  else nzero.

(** Comparison operators on samples, signal.hpp:51-62: by value only; [<=] and [>=]
    are negations of [>] and [<]. *)
Definition sample_lt (l r : sample F) : bool := nltb (s_value l) (s_value r).
Definition sample_gt (l r : sample F) : bool := sample_lt r l.
Definition sample_le (l r : sample F) : bool := negb (sample_gt l r).
Definition sample_ge (l r : sample F) : bool := negb (sample_lt l r).

(** Unary minus, signal.hpp:64-66. *)
Definition sample_neg (s : sample F) : sample F :=
  mkSample (s_time s) (nopp (s_value s)) (nopp (s_deriv s)).

(** ** Signal accessors, signal.hpp:76-178 *)

(** [begin_time], signal.hpp:76-78. *)
Definition begin_time (s : signal F) : F :=
  match s with [] => nzero | a :: _ => s_time a end.

(** [end_time], signal.hpp:80-82. *)
Definition end_time (s : signal F) : F :=
  match last_opt s with None => nzero | Some a => s_time a end.

(** [back], signal.hpp:100-102: [vector::back] of an empty vector is undefined. *)
Definition back (s : signal F) : outcome (sample F) :=
  match last_opt s with None => UB | Some a => Ok a end.

(** [front], signal.hpp:96-98. *)
Definition front (s : signal F) : outcome (sample F) :=
  match s with [] => UB | a :: _ => Ok a end.

(** [at_idx], signal.hpp:104-106: [vector::at] throws [out_of_range]. *)
Definition at_idx (s : signal F) (i : nat) : outcome (sample F) :=
  match nth_error s i with None => Throw OutOfRange | Some a => Ok a end.

(** [Signal::interpolate(t, idx)], [Signal::time_intersect(point, idx)], [Signal::area(t, idx)], signal.hpp:84-94. *)
Definition interpolate_idx (s : signal F) (t : F) (i : nat) : outcome F :=
  omap (fun a => interpolate a t) (at_idx s i).
Definition time_intersect_idx (s : signal F) (p : sample F) (i : nat) : outcome F :=
  omap (fun a => time_intersect a p) (at_idx s i).
Definition area_idx (s : signal F) (t : F) (i : nat) : outcome F :=
  omap (fun a => area a t) (at_idx s i).

(** ** push_back, signal.cc:31-48 *)

(** The method mutates the signal; the result is the new state and the exception, if any.
    The check comes first, so nothing has been changed when the exception is thrown. *)
Definition push_back_st (s : signal F) (x : sample F) : signal F * option exn :=
  match last_opt s with
  | None => ([mkSample (s_time x) (s_value x) nzero], None)
  | Some l =>
      if nleb (s_time x) (s_time l) then (s, Some InvalidArgument)
      else (removelast s ++
              [mkSample (s_time l) (s_value l)
                 (ndiv (nsub (s_value x) (s_value l)) (nsub (s_time x) (s_time l)));
               mkSample (s_time x) (s_value x) nzero], None)
  end.

(** The same call in exception style, for callers that do not catch. *)
Definition push_back (s : signal F) (x : sample F) : outcome (signal F) :=
  match push_back_st s x with
  | (s', None) => Ok s'
  | (_, Some e) => Throw e
  end.

(** [push_back(time, value)], signal.cc:50-52. *)
Definition push_back_tv (s : signal F) (t v : F) : outcome (signal F) :=
  push_back s (mkSample t v nzero).

(** Constructors from a sequence of samples and copy constructor, signal.hpp:209-224,
    243-249: push_back of each element onto an empty signal. *)
Fixpoint push_all (s : signal F) (l : list (sample F)) : outcome (signal F) :=
  match l with
  | [] => Ok s
  | a :: l' => s' <- push_back s a ;; push_all s' l'
  end.
Definition from_samples (l : list (sample F)) : outcome (signal F) := push_all [] l.

(** Constructor from points and times, signal.hpp:229-238. *)
Definition from_vectors (points times : list F) : outcome (signal F) :=
  if negb (Nat.eqb (length points) (length times)) then Throw InvalidArgument
  else from_samples (map (fun tv => mkSample (fst tv) (snd tv) nzero) (combine times points)).

(** ** std::lower_bound (libstdc++ bits/stl_algobase.h, [__lower_bound]) over [l], where
    [p a] is [comp(a, value)].  Positions are indices; reading out of range is UB. *)
Fixpoint lower_bound_loop {A} (fuel : nat) (l : list A) (p : A -> bool) (first len : nat)
  : outcome nat :=
  match fuel with
  | O => Hang
  | S fuel' =>
      if Nat.eqb len 0 then Ok first
      else
        let half := Nat.div2 len in
        let mid := first + half in
        match nth_error l mid with
        | None => UB
        | Some a =>
            if p a then lower_bound_loop fuel' l p (mid + 1) (len - half - 1)
            else lower_bound_loop fuel' l p first half
        end
  end.
Definition lower_bound {A} (l : list A) (p : A -> bool) : outcome nat :=
  lower_bound_loop (S (length l)) l p 0 (length l).

(** The comparator [comp_time]/[comp_op] against [Sample{t, 0.0}], signal.hpp:137-140,
    signal.cc:19-21,128-130. *)
Definition before (t : F) (a : sample F) : bool := nltb (s_time a) t.

(** [Signal::at], signal.cc:14-29. *)
Definition at_time (s : signal F) (t : F) : outcome (sample F) :=
  if nltb t (begin_time s) && nltb (end_time s) t then Throw InvalidArgument
  else
    k <- lower_bound s (before t) ;;
    match nth_error s k with
    | None => UB                                             (* it == end() is dereferenced *)
    | Some it =>
        if neqb (s_time it) t then Ok it
        else Ok (mkSample t (interpolate it t) (s_deriv it))
    end.

(** [begin_at], signal.hpp:133-141; the iterator is an index. *)
Definition begin_at (s : signal F) (t : F) : outcome nat :=
  if nleb t (begin_time s) then Ok 0 else lower_bound s (before t).

(** [end_at], signal.hpp:147-156: [it] starts at end(), which is dereferenced; moving
    before begin() is undefined as well. *)
Fixpoint end_at_loop (s : signal F) (t : F) (k : nat) : outcome nat :=
  match nth_error s k with
  | None => UB
  | Some a =>
      if nltb t (s_time a) then
        match k with O => UB | S k' => end_at_loop s t k' end
      else Ok (S k)
  end.
Definition end_at (s : signal F) (t : F) : outcome nat :=
  if nleb (end_time s) t then Ok (length s) else end_at_loop s t (length s).

(** ** simplify, signal.cc:54-67 *)
Fixpoint simplify_loop (sig : signal F) (l : list (sample F)) : outcome (signal F) :=
  match l with
  | [] => Ok sig
  | a :: l' =>
      let keep :=
        match last_opt sig with
        | None => true
        | Some b =>
            negb (neqb (interpolate b (s_time a)) (s_value a)) ||
            negb (neqb (s_deriv b) (s_deriv a))
        end in
      if keep then sig' <- push_back sig a ;; simplify_loop sig' l'
      else simplify_loop sig l'
  end.
Definition simplify (s : signal F) : outcome (signal F) :=
  sig <- simplify_loop [] s ;;
  if negb (neqb (end_time s) (end_time sig)) then
    b <- back s ;; push_back sig b
  else Ok sig.

(** ** resize, signal.cc:69-100.  [prev] is the sample before [i] (None for i == begin()),
    [l] the samples from [i] on. *)
Fixpoint resize_loop (start fin : F) (sig : signal F) (prev : option (sample F))
    (l : list (sample F)) : outcome (signal F) :=
  match l with
  | [] => Ok sig
  | i :: l' =>
      let t := s_time i in
      let next_after_start :=
        match l' with [] => false | n :: _ => nltb start (s_time n) end in
      if next_after_start then
        sig' <- push_back sig (mkSample start (interpolate i start) nzero) ;;
        resize_loop start fin sig' (Some i) l'
      else if nleb start t && nleb t fin then
        sig' <- push_back sig i ;;
        resize_loop start fin sig' (Some i) l'
      else if nltb fin t then
        match prev with
        | Some p =>
            if nltb (s_time p) fin then
              sig' <- push_back sig (mkSample fin (interpolate p fin) nzero) ;;
              resize_loop start fin sig' (Some i) l'
            else Ok sig                                       (* break *)
        | None => Ok sig                                      (* break *)
        end
      else resize_loop start fin sig (Some i) l'
  end.
Definition resize (s : signal F) (start fin fill : F) : outcome (signal F) :=
  sig0 <- (if nltb start (begin_time s) then push_back [] (mkSample start fill nzero)
           else Ok []) ;;
  resize_loop start fin sig0 None s.

(** Adding [dt] to every timestamp in place, signal.cc:104,111. *)
Definition add_time (dt : F) (a : sample F) : sample F :=
  mkSample (nadd (s_time a) dt) (s_value a) (s_deriv a).

(** [shift], signal.cc:102-107: copy through the constructor, then move the times. *)
Definition shift (s : signal F) (dt : F) : outcome (signal F) :=
  c <- from_samples s ;; Ok (map (add_time dt) c).

(** [resize_shift], signal.cc:109-113. *)
Definition resize_shift (s : signal F) (start fin fill dt : F) : outcome (signal F) :=
  out <- resize s start fin fill ;; Ok (map (add_time dt) out).

(** ** synchronize, signal.cc:115-173.
    An iterator is a pair (sample before it, samples from it on). *)
Definition iter : Type := option (sample F) * list (sample F).

Definition iter_at (s : signal F) (k : nat) : iter :=
  (match k with O => None | S k' => nth_error s k' end, skipn k s).

(** The main loop, signal.cc:143-162.  If no branch applies (NaN times) the loop spins. *)
Fixpoint sync_loop (fuel : nat) (pi : option (sample F)) (xs : list (sample F))
    (pj : option (sample F)) (ys : list (sample F)) (xv yv : list (sample F))
  : outcome (list (sample F) * list (sample F)) :=
  match fuel with
  | O => Hang
  | S fuel' =>
      match xs, ys with
      | [], _ | _, [] => Ok (xv, yv)
      | i :: xs', j :: ys' =>
          if neqb (s_time i) (s_time j) then
            sync_loop fuel' (Some i) xs' (Some j) ys' (xv ++ [i]) (yv ++ [j])
          else if nltb (s_time i) (s_time j) then
            match pj with
            | None => UB                                        (* prev(begin()) *)
            | Some p =>
                sync_loop fuel' (Some i) xs' pj ys
                  (xv ++ [i]) (yv ++ [mkSample (s_time i) (interpolate p (s_time i)) nzero])
            end
          else if nltb (s_time j) (s_time i) then
            match pi with
            | None => UB
            | Some p =>
                sync_loop fuel' pi xs (Some j) ys'
                  (xv ++ [mkSample (s_time j) (interpolate p (s_time j)) nzero]) (yv ++ [j])
            end
          else sync_loop fuel' pi xs pj ys xv yv
      end
  end.

(** Initial sample of a vector when the iterator starts after [begin_time],
    signal.cc:132-135 and 137-140.  [dsrc] is the iterator whose predecessor supplies the
    derivative: [i] in both places of the code. *)
Definition sync_first (bt : F) (it : iter) (dsrc : iter) : outcome (list (sample F)) :=
  match snd it with
  | [] => UB                                                   (* end() is dereferenced *)
  | a :: _ =>
      if nltb bt (s_time a) then
        match fst it with
        | None => Ok []
        | Some p =>
            match fst dsrc with
            | None => UB                                       (* prev(begin()) *)
            | Some q => Ok [mkSample bt (interpolate p bt) (s_deriv q)]
            end
        end
      else Ok []
  end.

(** The two closing conditionals, signal.cc:164-170. *)
Definition sync_close (xv yv : list (sample F)) : outcome (list (sample F) * list (sample F)) :=
  xb <- back xv ;;
  yb <- back yv ;;
  let t := s_time xb in
  let yv' := if nltb (s_time yb) t then yv ++ [mkSample (s_time xb) (interpolate yb t) nzero]
             else yv in
  yb' <- back yv' ;;
  xb' <- back xv ;;
  let t' := s_time yb' in
  let xv' := if nltb (s_time xb') t' then xv ++ [mkSample (s_time yb') (interpolate xb' t') nzero]
             else xv in
  Ok (xv', yv').

Definition synchronize_fuel (fuel : nat) (x y : signal F) : outcome (signal F * signal F) :=
  let bt := std_max (begin_time x) (begin_time y) in
  ki <- lower_bound x (before bt) ;;
  let i := iter_at x ki in
  xv0 <- sync_first bt i i ;;
  kj <- lower_bound y (before bt) ;;
  let j := iter_at y kj in
  yv0 <- sync_first bt j i ;;
  '(xv, yv) <- sync_loop fuel (fst i) (snd i) (fst j) (snd j) xv0 yv0 ;;
  '(xv', yv') <- sync_close xv yv ;;
  sx <- from_samples xv' ;;
  sy <- from_samples yv' ;;
  Ok (sx, sy).

(** Each iteration that makes progress advances one iterator, so this fuel is exhausted only
    by a loop that never ends (see [sync_hang] in the proofs). *)
Definition synchronize (x y : signal F) : outcome (signal F * signal F) :=
  synchronize_fuel (S (length x + length y)) x y.

End Model.
