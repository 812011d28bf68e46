(** Vocabulary for C105: when a written term holds on a piecewise-linear trace.  Nothing here
    speaks of formulas. *)
From Coq Require Import Ascii Reals.
From Flocq Require Import IEEE754.BinarySingleNaN.
From Verif Require Import Base Num NumXR NumB64.
From Verif.Model Require Import Ast.
From Verif.Spec Require Import Pwl Semantics Syntax.
Open Scope R_scope.

(** ** Definitions written out *)
Fixpoint find_term (d : list (string * term)) (x : string) : option term :=
  match d with [] => None | (y, u) :: d' => if string_dec x y then Some u else find_term d' x end.
Fixpoint write_out (d : list (string * term)) (t : term) : term :=
  match t with
  | TBool _ | TPred _ _ _ | TPred2 _ _ _ | TEmpty => t
  | TRef x => match find_term d x with Some u => u | None => t end
  | TNot t => TNot (write_out d t)
  | TAnd ts => TAnd (map (write_out d) ts)
  | TOr ts => TOr (map (write_out d) ts)
  | TImplies t u => TImplies (write_out d t) (write_out d u)
  | TIff t u => TIff (write_out d t) (write_out d u)
  | TXor t u => TXor (write_out d t) (write_out d u)
  | TAlways t => TAlways (write_out d t)
  | TEventually t => TEventually (write_out d t)
  | TUntil t u => TUntil (write_out d t) (write_out d u)
  end.
(** The assertions, with the definitions before them written out. *)
Fixpoint asserted (d : list (string * term)) (cs : list command) : list (string * term) :=
  match cs with
  | [] => []
  | Def x t :: cs' => asserted (d ++ [(x, write_out d t)]) cs'
  | Assert x t :: cs' => (x, write_out d t) :: asserted d cs'
  end.

(** ** Satisfaction *)
(** Names of signals that occur in a term. *)
Fixpoint signals (t : term) : list string :=
  match t with
  | TBool _ | TRef _ | TEmpty => []
  | TPred _ x _ | TPred2 _ _ x => [x]
  | TNot t | TAlways t | TEventually t => signals t
  | TAnd ts | TOr ts => flat_map signals ts
  | TImplies t u | TIff t u | TXor t u | TUntil t u => signals t ++ signals u
  end.
Definition defined (lt : ptrace) (t : term) (tm : R) : Prop := forall n, In n (signals t) -> exists v, value_at lt n tm v.

(** The real number a literal is read as: exactly, or as a finite double. *)
Definition real_literal (stod : list ascii -> option XR) (w : list ascii) : option R :=
  match literal_value stod w with Ok (Fin r) => Some r | _ => None end.
Definition double_literal (stod : list ascii -> option B64) (w : list ascii) : option R :=
  match literal_value stod w with Ok v => if finite v then Some (B2R v) else None | _ => None end.

(** [holds lit lt t tm]: the term without references [t] holds at time [tm]; [lit]: the values of
    literals. *)
Fixpoint holds (lit : list ascii -> option R) (lt : ptrace) (t : term) : R -> Prop :=
  let h := holds lit lt in
  match t with
  | TBool b => fun _ => b = true
  | TRef _ | TPred2 _ _ _ | TEmpty => fun _ => False
  | TPred op x w => fun tm => exists v r, value_at lt x tm v /\ lit w = Some r /\ real_cmp op v r
  | TNot t => fun tm => ~ h t tm
  | TAnd ts => fun tm => Forall (fun P => P tm) (map h ts)
  | TOr ts => fun tm => Exists (fun P => P tm) (map h ts)
  | TImplies t u => fun tm => h t tm -> h u tm
  | TIff t u => fun tm => h t tm <-> h u tm
  | TXor t u => fun tm => h t tm <-> ~ h u tm
  | TAlways t => fun tm => forall tm', tm <= tm' -> defined lt t tm' -> h t tm'
  | TEventually t => fun tm => exists tm', tm <= tm' /\ defined lt t tm' /\ h t tm'
  | TUntil t u => fun tm => exists tm', tm <= tm' /\ defined lt t tm' /\ defined lt u tm' /\ h u tm' /\
                              forall x, tm <= x < tm' -> h t x
  end.

(** ** Which terms *)
Definition is_pred (t : term) : bool := match t with TPred _ _ _ => true | _ => false end.
Fixpoint timeless (t : term) : bool :=
  match t with
  | TBool _ | TRef _ | TPred _ _ _ | TPred2 _ _ _ | TEmpty => true
  | TNot t => timeless t
  | TAnd ts | TOr ts => forallb timeless ts
  | TImplies t u | TIff t u | TXor t u => timeless t && timeless u
  | TAlways _ | TEventually _ | TUntil _ _ => false
  end.
(** Operands of Always ([p = true]) and Eventually ([p = false]). *)
Fixpoint monotone (p : bool) (t : term) : bool :=
  timeless t ||
  match t with
  | TNot t => monotone (negb p) t
  | TAnd ts => p && forallb (monotone p) ts
  | TOr ts => negb p && forallb (monotone p) ts
  | TImplies t u => negb p && monotone true t && monotone false u
  | TAlways t => p && monotone p t
  | TEventually t => negb p && monotone p t
  | _ => false
  end.
(** Terms whose value has the right sign in both directions. *)
Fixpoint monitorable (t : term) : bool :=
  match t with
  | TPred _ _ _ => true
  | TNot t => monitorable t
  | TAnd ts | TOr ts => forallb monitorable ts
  | TImplies t u | TIff t u | TXor t u => monitorable t && monitorable u
  | TAlways t => monotone true t
  | TEventually t => monotone false t
  | TBool _ | TRef _ | TPred2 _ _ _ | TEmpty | TUntil _ _ => false
  end.
(** Terms for which one sign, [p], is right at every time; and at the first time. *)
Fixpoint trusted (p : bool) (t : term) : bool :=
  match t with
  | TPred _ _ _ => true
  | TNot t => trusted (negb p) t
  | TAnd ts | TOr ts => forallb (trusted p) ts
  | TImplies t u => trusted (negb p) t && trusted p u
  | TIff t u | TXor t u => trusted true t && trusted false t && (trusted true u && trusted false u)
  | TAlways t => p && trusted p t
  | TEventually t => negb p && trusted p t
  | TBool _ | TRef _ | TPred2 _ _ _ | TEmpty | TUntil _ _ => false
  end.
Fixpoint trusted_first (p : bool) (t : term) : bool :=
  match t with
  | TPred _ _ _ => true
  | TNot t => trusted_first (negb p) t
  | TAnd ts | TOr ts => forallb (trusted_first p) ts
  | TImplies t u => trusted_first (negb p) t && trusted_first p u
  | TIff t u | TXor t u => trusted_first true t && trusted_first false t && (trusted_first true u && trusted_first false u)
  | TAlways t | TEventually t => trusted p t
  | TUntil t u => negb p && trusted p t && trusted p u
  | TBool _ | TRef _ | TPred2 _ _ _ | TEmpty => false
  end.

(** Boolean combinations of predicates and of temporal operators over one predicate each. *)
Fixpoint one_signal (t : term) : bool :=
  match t with
  | TPred _ _ _ => true
  | TNot t | TAlways t | TEventually t => one_signal t
  | _ => false
  end.
Fixpoint layered_term (t : term) : bool :=
  match t with
  | TPred _ _ _ => true
  | TNot t => layered_term t
  | TAnd ts | TOr ts => forallb layered_term ts
  | TImplies t u | TIff t u | TXor t u => layered_term t && layered_term u
  | TAlways t | TEventually t => one_signal t
  | TBool _ | TRef _ | TPred2 _ _ _ | TEmpty | TUntil _ _ => false
  end.
