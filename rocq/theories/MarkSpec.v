(** What Rust promises of types that cross threads, are subtyped, or borrow. *)
From stdpp Require Import base numbers list relations.
From Verif Require Import MarkModel.

(** ** Threads *)

(** From a value (or a place borrowed mutably, from which [mem::replace] takes
    the value) to what it gives: one safe operation.  (Borrowing what is held
    exclusively shares it with no other thread.) *)
Definition op (c c' : mode * ty) : Prop :=
  (∃ r, c' ∈ gives r c.1 c.2) ∨
  (c.1 = Own ∧ c' = (Mut, c.2)) ∨ (c.1 = Mut ∧ c' = (Own, c.2)).
Definition reaches : mode * ty → mode * ty → Prop := rtc op.

(** Another thread may have a value of a type that is [Send], and a shared
    borrow of one that is [Sync]. *)
Definition may (m : mode) (s y : bool) : Prop := match m with Shr => y = true | _ => s = true end.
Definition harmless (c : mode * ty) : Prop :=
  ∀ m s y cell a, reaches c (m, Any s y cell a) → may m s y.

(** The Rust type a wrapper stands for ([dyn Send + FnMut()] and the like are
    known by their bounds). *)
Fixpoint counterpart (t : ty) : ty :=
  match t with
  | Any _ _ _ _ => t
  | Ref a t => Ref a (counterpart t)
  | RefMut a t => RefMut a (counterpart t)
  | NonNull t | NNRef t | NNMut t | NNOwned t => NonNull (counterpart t)
  | Slice t => Slice (counterpart t)
  | RBox t | CBox t => RBox (counterpart t)
  | RVec t | CVec t => RVec (counterpart t)
  | RArc t => RArc (counterpart t)
  | Pair t u | Tuple t u => Pair (counterpart t) (counterpart u)
  | SRaw t => NonNull (Slice (counterpart t))
  | SRef a t => Ref a (Slice (counterpart t))
  | SMut a t => RefMut a (Slice (counterpart t))
  | SBox t => RBox (Slice (counterpart t))
  | CString => RVec Byte
  | StrRef a | CharRef a => Ref a (Slice Byte)
  | StrBox | CharBox => RBox (Slice Byte)
  | CharRaw => NonNull Byte
  | SharedCStr => RArc (Slice Byte)
  | TOption t => counterpart t
  | ArcFn _ _ _ => RArc (Any true true false None)
  | BoxFn _ _ _ => RBox (Any true false false None)
  | RefFn a _ _ _ => RefMut a (Any true false false a)
  | Bytes a _ => Pair (Ref a (Slice Byte)) (RArc (Any true true false None))
  end.
Fixpoint has_char_raw (t : ty) : bool :=
  match t with
  | CharRaw => true
  | Ref _ t | RefMut _ t | Slice t | RBox t | RVec t | RArc t | CBox t | CVec t
  | SRef _ t | SMut _ t | SBox t | TOption t => has_char_raw t
  | Pair t u | Tuple t u => has_char_raw t || has_char_raw u
  | _ => false
  end.

(** Types without raw pointers and without closures of [&mut self]. *)
Fixpoint open (t : ty) : bool :=
  match t with
  | NonNull _ | NNRef _ | NNMut _ | NNOwned _ | SRaw _ | BoxFn _ _ _ | RefFn _ _ _ _ => false
  | Ref _ t | RefMut _ t | Slice t | RBox t | RVec t | RArc t | CBox t | CVec t
  | SRef _ t | SMut _ t | SBox t | TOption t => open t
  | Pair t u | Tuple t u => open t && open u
  | _ => true
  end.

(** ** Subtyping *)

(** The same operations on one value of which two types are known: the one it
    was made at and the one it is used at.  An argument goes the other way. *)
Record view := View { v_mode : mode; v_made : ty; v_used : ty; v_out : bool }.
Definition op2 (v v' : view) : Prop :=
  (∃ r i m t u, gives r (v_mode v) (v_made v) !! i = Some (m, t) ∧
     gives r (v_mode v) (v_used v) !! i = Some (m, u) ∧ v' = View m t u (v_out v)) ∨
  (∃ a r a' r', calls (v_mode v) (v_made v) = Some (a, r) ∧ calls (v_mode v) (v_used v) = Some (a', r') ∧
     (v' = View Own r r' (v_out v) ∨ v' = View Own a a' (negb (v_out v)))).
(** The lifetime a type starts with, and whether what is there can be
    overwritten through a shared borrow. *)
Definition lifetime (t : ty) : option (lt * bool) :=
  match t with
  | Any _ _ c a => Some (a, c)
  | Ref a _ | RefMut a _ | SRef a _ | SMut a _ | StrRef a | CharRef a | RefFn a _ _ _ | Bytes a _ => Some (a, false)
  | _ => None
  end.
(** Nothing is used for longer than it is there; what is written to a borrowed
    place lasts as long as its owner thinks. *)
Definition fits (v : view) : Prop :=
  ∀ a c b c', lifetime (v_made v) = Some (a, c) → lifetime (v_used v) = Some (b, c') →
  (if v_out v then outl a b else outl b a) = true ∧
  (v_mode v = Mut ∨ c = true → (if v_out v then outl b a else outl a b) = true).

(** ** Borrows *)

(** At time [now], a type can be named only if its lifetimes last. *)
Definition usable (now : nat) (t : ty) : Prop := outlives t (Some now) = true.
(** A borrow made at [now] lasts. *)
Definition op_at (now : nat) (c c' : mode * ty) : Prop :=
  (∃ r, outl r (Some now) = true ∧ c' ∈ gives r c.1 c.2) ∨
  (c.1 = Own ∧ c' = (Mut, c.2)) ∨ (c.1 = Mut ∧ c' = (Own, c.2)).
Definition lives (now : nat) (c : mode * ty) : Prop :=
  ∀ m s y cell a, rtc (op_at now) c (m, Any s y cell a) → outl a (Some now) = true.

(** What a handle borrows is there until then; what is in it is in it. *)
Definition borrows (t : ty) : option lt :=
  match t with
  | Ref a _ | RefMut a _ | SRef a _ | SMut a _ | StrRef a | CharRef a | RefFn a _ _ _ | Bytes a _ => Some a
  | _ => None
  end.
Definition holds (t : ty) : list ty :=
  match t with
  | Slice t | RBox t | RVec t | RArc t | TOption t | BoxFn t _ _ => [t]
  | Pair t u | Tuple t u => [t; u]
  | _ => []
  end.
