(** Vocabulary about formulas and traces, independent of the evaluator. *)
From Verif Require Import Base Num.
From Verif.Model Require Import Signal Ast Robustness.

Section Spec.
Context {F : Type} `{NF : Num F}.

(** Names of the signals a formula refers to. *)
Fixpoint names (e : expr F) : list string :=
  match e with
  | EConst _ => []
  | EPred n _ _ => [n]
  | ENot e => names e
  | EAnd l | EOr l => flat_map names l
  | EAlways e _ | EEventually e _ => names e
  | EUntil a b _ => names a ++ names b
  end.

(** No subformula satisfies [p]. *)
Fixpoint free_of (p : expr F -> bool) (e : expr F) : bool :=
  negb (p e) &&
  match e with
  | EConst _ | EPred _ _ _ => true
  | ENot e => free_of p e
  | EAnd l | EOr l => forallb (free_of p) l
  | EAlways e _ | EEventually e _ => free_of p e
  | EUntil a b _ => free_of p a && free_of p b
  end.

Definition is_const (e : expr F) : bool := match e with EConst _ => true | _ => false end.
Definition is_andor (e : expr F) : bool := match e with EAnd _ | EOr _ => true | _ => false end.
Definition is_until (e : expr F) : bool := match e with EUntil _ _ _ => true | _ => false end.

(** And/Or nodes have at least [n] operands. *)
Definition short (n : nat) (e : expr F) : bool :=
  match e with EAnd l | EOr l => Nat.ltb (length l) n | _ => false end.

(** A trace maps each name to at most one signal. *)
Definition keys_unique (tr : trace F) : Prop := NoDup (map fst tr).

(** The trace has signal [s] under name [n]. *)
Definition has_signal (tr : trace F) (n : string) (s : signal F) : Prop := In (n, s) tr.

(** All subformulas, the formula included. *)
Fixpoint subs (e : expr F) : list (expr F) :=
  e :: match e with
       | EConst _ | EPred _ _ _ => []
       | ENot e => subs e
       | EAnd l | EOr l => flat_map subs l
       | EAlways e _ | EEventually e _ => subs e
       | EUntil a b _ => subs a ++ subs b
       end.

(** Intervals that can come from one of the constructors. *)
Definition made_interval (i : interval F) : Prop :=
  i = interval_default \/ (exists a b, i = interval_ull a b) \/ (exists a b, interval_dbl a b = Ok i).
Definition intervals_made (phi : expr F) : Prop :=
  forall e, In e (subs phi) ->
    match e with EAlways _ i | EEventually _ i | EUntil _ _ i => made_interval i | _ => True end.

(** Apply a function to every constant a signal is compared with, and to every signal of a
    trace. *)
Fixpoint map_const (f : F -> F) (e : expr F) : expr F :=
  match e with
  | EConst b => EConst b
  | EPred n op c => EPred n op (f c)
  | ENot e => ENot (map_const f e)
  | EAnd l => EAnd (map (map_const f) l)
  | EOr l => EOr (map (map_const f) l)
  | EAlways e i => EAlways (map_const f e) i
  | EEventually e i => EEventually (map_const f e) i
  | EUntil a b i => EUntil (map_const f a) (map_const f b) i
  end.
Definition map_trace (g : signal F -> signal F) (tr : trace F) : trace F :=
  map (fun e => (fst e, g (snd e))) tr.

(** Every sample [dt] later; every value and slope times [c]. *)
Definition later (dt : F) (s : signal F) : signal F :=
  map (fun a => mkSample (nadd (s_time a) dt) (s_value a) (s_deriv a)) s.
Definition times_const (c : F) (s : signal F) : signal F :=
  map (fun a => mkSample (s_time a) (nmul (s_value a) c) (nmul (s_deriv a) c)) s.

(** Replace every comparison. *)
Fixpoint map_pred (f : string -> cmp_op -> F -> expr F) (e : expr F) : expr F :=
  match e with
  | EConst b => EConst b
  | EPred n op c => f n op c
  | ENot e => ENot (map_pred f e)
  | EAnd l => EAnd (map (map_pred f) l)
  | EOr l => EOr (map (map_pred f) l)
  | EAlways e i => EAlways (map_pred f e) i
  | EEventually e i => EEventually (map_pred f e) i
  | EUntil a b i => EUntil (map_pred f a) (map_pred f b) i
  end.
(** Other names for the signals. *)
Definition renamed (rho : string -> string) : expr F -> expr F := map_pred (fun n op c => EPred (rho n) op c).
(** Change each signal of a trace depending on its name. *)
Definition map_named (g : string -> signal F -> signal F) (tr : trace F) : trace F :=
  map (fun e => (fst e, g (fst e) (snd e))) tr.
(** The opposite signal, and comparisons of it: [x > c] is [-x < -c].  [m] tells which signals are
    replaced by their opposites. *)
Definition opposite (s : signal F) : signal F :=
  map (fun a => mkSample (s_time a) (nopp (s_value a)) (nopp (s_deriv a))) s.
Definition mirrored (m : string -> bool) : expr F -> expr F :=
  map_pred (fun n op c =>
    if m n then EPred n (match op with GT => LT | GE => LE | LT => GT | LE => GE end) (nopp c) else EPred n op c).
(** Every value of the signal [n] larger by [k n], and comparisons with it. *)
Definition raised (k : F) (s : signal F) : signal F :=
  map (fun a => mkSample (s_time a) (nadd (s_value a) k) (s_deriv a)) s.
Definition rebased (k : string -> F) : expr F -> expr F :=
  map_pred (fun n op c => EPred n op (nadd c (k n))).
(** Every time times [c]. *)
Definition slower (c : F) (s : signal F) : signal F :=
  map (fun a => mkSample (nmul (s_time a) c) (s_value a) (ndiv (s_deriv a) c)) s.

(** The samples from time [t] on. *)
Definition since (t : F) (s : signal F) : signal F := filter (fun a => nleb t (s_time a)) s.
Definition sample_at (t : F) (s : signal F) : Prop := Exists (fun a => neqb (s_time a) t = true) s.

(** Boolean meaning of a comparison. *)
Definition cmp_holds (op : cmp_op) (v c : F) : bool :=
  match op with GT => nltb c v | GE => nleb c v | LT => nltb v c | LE => nleb v c end.

(** Satisfaction over the samples: [w] holds the samples from the current one to the end.
    Only for formulas without And, Or, Until and constants, which refer to one signal. *)
Fixpoint sampled_sat (phi : expr F) (w : list (sample F)) : Prop :=
  match phi with
  | EPred _ op c => match w with [] => False | a :: _ => cmp_holds op (s_value a) c = true end
  | ENot e => ~ sampled_sat e w
  | EAlways e _ => forall w1 w2, w = w1 ++ w2 -> w2 <> [] -> sampled_sat e w2
  | EEventually e _ => exists w1 w2, w = w1 ++ w2 /\ w2 <> [] /\ sampled_sat e w2
  | EConst _ | EAnd _ | EOr _ | EUntil _ _ _ => False
  end.
End Spec.
