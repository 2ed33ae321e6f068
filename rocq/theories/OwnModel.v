(** Model of the life of what dynamic objects and closures point to.

    Sources (all in /repo/src):
    - dyn_traits/_mod.rs 62-113 coercion and clone, 150-187 VirtualPtr and drop
    - proc_macro/derives/dyn_trait/_mod.rs 304-407 vtables, constructors,
      drop_ptr, dyn_clone
    - proc_macro/derives/dyn_trait/coercions.rs 42-228 into_raw, release_vptr,
      retain_vptr
    - proc_macro/derives/dyn_trait/vtable_entry.rs 33-82, 196-214 calls
    - closure/arc.rs 105-226, closure/boxed.rs 100-166, closure/borrowed.rs
      70-127

    The memory has one cell per value; pointers are cell numbers.  The
    functions of the standard library used are modelled by what they document,
    with the violation of their conditions an explicit result.  Left out:
    weak references, overflow of the counts, panics in user code (C31),
    threads (C33).  A program is a list of operations, with calls that begin
    and end at any moment, so that whatever user code does during a call, or
    other threads do, is covered. *)

From Coq Require Import List Bool Arith.
From stdpp Require Import base numbers list.
From Verif Require Import DynModel.

(** ** The standard library *)

(** Where a value lives: a variable, a [Box], an [Rc] ([Arc] if the flag is
    set) with its strong count; [SGone]: destroyed. *)
Inductive store := SLocal | SBox | SRc (thread_safe : bool) (strong : nat) | SGone.

(** What is observable of the life of values. *)
Inductive event :=
| ENew (a : nat)
| EBegin (a : nat) (mut : bool)
| EEnd (a : nat) (mut : bool)
| EDestroy (a : nat).

(** [RPanic]: unwinds before doing anything.  [RStuck]: no such program. *)
Inductive res (A : Type) := ROk (x : A) | RPanic | RUB | RStuck.
Arguments ROk {A} x.
Arguments RPanic {A}.
Arguments RUB {A}.
Arguments RStuck {A}.

(** Memory and what has happened. *)
Definition heap : Type := list store * list event.

Definition alloc (s : store) (h : heap) : heap * nat :=
  ((h.1 ++ [s], h.2 ++ [ENew (length h.1)]), length h.1).
(** Going through a pointer or reference. *)
Definition deref (p : nat) (h : heap) : res unit :=
  match h.1 !! p with
  | Some SGone | None => RUB
  | Some _ => ROk ()
  end.
Definition destroy (p : nat) (h : heap) : heap := (<[p := SGone]> h.1, h.2 ++ [EDestroy p]).
(** End of the scope of a variable. *)
Definition drop_local (p : nat) (h : heap) : res heap :=
  match h.1 !! p with Some SLocal => ROk (destroy p h) | _ => RUB end.
(** [drop(Box::from_raw(p))] *)
Definition box_drop_raw (p : nat) (h : heap) : res heap :=
  match h.1 !! p with Some SBox => ROk (destroy p h) | _ => RUB end.
(** [Rc::decrement_strong_count(p)], [drop(Rc::from_raw(p))] *)
Definition rc_dec (thread_safe : bool) (p : nat) (h : heap) : res heap :=
  match h.1 !! p with
  | Some (SRc b (S n)) =>
      if Bool.eqb b thread_safe then
        match n with
        | O => ROk (destroy p h)
        | S _ => ROk (<[p := SRc b n]> h.1, h.2)
        end
      else RUB
  | _ => RUB
  end.
(** [Rc::increment_strong_count(p)], [forget(Rc::clone(&rc))] *)
Definition rc_inc (thread_safe : bool) (p : nat) (h : heap) : res heap :=
  match h.1 !! p with
  | Some (SRc b (S n)) => if Bool.eqb b thread_safe then ROk (<[p := SRc b (S (S n))]> h.1, h.2) else RUB
  | _ => RUB
  end.
(** [Box::into_raw(Box::new(T::clone(&*p)))] *)
Definition box_clone (p : nat) (h : heap) : res (heap * nat) :=
  match deref p h with
  | ROk _ => ROk (alloc SBox h)
  | RPanic => RPanic | RUB => RUB | RStuck => RStuck
  end.

(** ** Virtual tables *)

Definition release_fn := nat → heap → res heap.
Definition retain_fn := nat → heap → res (heap * nat).

(** coercions.rs 86-150 *)
Definition release_vptr (c : coercible) : release_fn :=
  match c with
  | CBox => box_drop_raw
  | CRc thread_safe => rc_dec thread_safe
  | CRef _ => λ _ h, ROk h
  end.
(** coercions.rs 152-228; [None]: the field is not written. *)
Definition retain_vptr (c : coercible) : option retain_fn :=
  match c with
  | CBox => Some box_clone
  | CRc thread_safe =>
      Some (λ p h, match rc_inc thread_safe p h with
        | ROk h => ROk (h, p)
        | RPanic => RPanic | RUB => RUB | RStuck => RStuck
        end)
  | CRef true => None
  | CRef false => Some (λ p h, ROk (h, p))
  end.
Record vtable := VTable { v_release : release_fn; v_retain : option retain_fn }.
(** _mod.rs 312-322: [None] when a field is missing, which does not compile. *)
Definition vtable_expr (t : trait) (c : coercible) : option vtable :=
  if klone t then
    match retain_vptr c with
    | Some r => Some (VTable (release_vptr c) (Some r))
    | None => None
    end
  else Some (VTable (release_vptr c) None).

(** ** Handles *)

(** The pointers and variables of Rust, and the objects of the library: the
    former's type is known statically, the latter's erased. *)
Inductive raw := PLocal | PBox | PRc (thread_safe : bool) | PRef (mut : bool).
Inductive handle :=
| HRaw (k : raw) (p : nat)
| HVptr (p : nat) (v : vtable)
| HArcFn (p : nat) (release : release_fn) (retain : option (nat → heap → res heap))
| HBoxFn (p : nat) (call : option (nat → heap → res unit)) (free : option release_fn)
| HRefFn (p : nat).
Definition pointee (h : handle) : nat :=
  match h with HRaw _ p | HVptr p _ | HArcFn p _ _ | HBoxFn p _ _ | HRefFn p => p end.

(** coercions.rs 42-84: the raw pointer is that of the source. *)
Definition source (k : raw) : option coercible :=
  match k with
  | PLocal => None
  | PBox => Some CBox
  | PRc b => Some (CRc b)
  | PRef m => Some (CRef m)
  end.
(** _mod.rs 323-372: [into_virtual_ptr]. *)
Definition into_virtual_ptr (t : trait) (k : raw) (p : nat) : option handle :=
  match source k with
  | Some c => match vtable_expr t c with Some v => Some (HVptr p v) | None => None end
  | None => None
  end.
(** arc.rs 105-163, boxed.rs 107-136, borrowed.rs 75-106: [new]. *)
Definition into_fn (k : raw) (p : nat) : option handle :=
  match k with
  | PRc true => Some (HArcFn p (rc_dec true) (Some (rc_inc true)))
  | PBox => Some (HBoxFn p (Some deref) (Some box_drop_raw))
  | PRef true => Some (HRefFn p)
  | _ => None
  end.

(** Drop: of Rust's own; dyn_traits/_mod.rs 155-165 and _mod.rs 378-385;
    arc.rs 166-180; boxed.rs 139-152; a [RefDynFnMut] has none. *)
Definition drop_BoxDynFnMut (p : nat) (free : option release_fn) (m : heap) : res heap :=
  match free with Some f => f p m | None => RPanic end.
Definition drop_handle (h : handle) (m : heap) : res heap :=
  match h with
  | HRaw PLocal p => drop_local p m
  | HRaw PBox p => box_drop_raw p m
  | HRaw (PRc b) p => rc_dec b p m
  | HRaw (PRef _) p => ROk m
  | HVptr p v => v_release v p m
  | HArcFn p release _ => release p m
  | HBoxFn p _ free => drop_BoxDynFnMut p free m
  | HRefFn _ => ROk m
  end.
(** Clone: of an [Rc]; _mod.rs 386-407; arc.rs 182-203. *)
Definition clone_handle (h : handle) (m : heap) : res (heap * handle) :=
  match h with
  | HRaw (PRc b) p =>
      match rc_inc b p m with
      | ROk m => ROk (m, HRaw (PRc b) p)
      | RPanic => RPanic | RUB => RUB | RStuck => RStuck
      end
  | HVptr p v =>
      match v_retain v with
      | Some retain =>
          match retain p m with
          | ROk (m, p') => ROk (m, HVptr p' v)
          | RPanic => RPanic | RUB => RUB | RStuck => RStuck
          end
      | None => RStuck
      end
  | HArcFn p release retain =>
      match retain with
      | Some f =>
          match f p m with
          | ROk m => ROk (m, HArcFn p release retain)
          | RPanic => RPanic | RUB => RUB | RStuck => RStuck
          end
      | None => RPanic
      end
  | _ => RStuck
  end.
(** What a call does first, and relies on until it ends: vtable_entry.rs
    67-79, 196-214, arc.rs 143-160, 213-226, boxed.rs 121-134, 154-166,
    borrowed.rs 87-104, 117-127. *)
Definition call_BoxDynFnMut (p : nat) (call : option (nat → heap → res unit)) (m : heap) : res unit :=
  match call with Some f => f p m | None => RPanic end.
Definition access (h : handle) (m : heap) : res unit :=
  match h with
  | HBoxFn p call _ => call_BoxDynFnMut p call m
  | h => deref (pointee h) m
  end.

(** ** Programs *)

(** What a program does; handles are numbered as they appear.  The types are
    for the type checker, see the specification. *)
Inductive op :=
| ONew (k : raw) (T : ty)                             (* a variable, Box, Rc *)
| OForeign (T : ty)                                   (* from C, [retain] null *)
| OBorrow (i : nat) (mut : bool)
| OCoerce (i : nat) (t : trait) (f : flavour)
| OFn (i : nat)
| OClone (i : nat)
| OBegin (i : nat) (mut : bool)
| OEnd (i : nat) (mut : bool)
| ODrop (i : nat).
Record state := State { s_heap : heap; s_handles : list (option handle) }.
Definition get (s : state) (i : nat) : option handle := mjoin (s_handles s !! i).
Definition say (e : event) (h : heap) : heap := (h.1, h.2 ++ [e]).

Definition step (s : state) (o : op) : res state :=
  match o with
  | ONew k _ =>
      match (match k with PLocal => Some SLocal | PBox => Some SBox | PRc b => Some (SRc b 1) | PRef _ => None end) with
      | Some st =>
          let '(h, p) := alloc st (s_heap s) in ROk (State h (s_handles s ++ [Some (HRaw k p)]))
      | None => RStuck
      end
  | OForeign _ =>
      let '(h, p) := alloc (SRc true 1) (s_heap s) in
      ROk (State h (s_handles s ++ [Some (HArcFn p (rc_dec true) None)]))
  | OBorrow i m =>
      match get s i with
      | Some h => ROk (State (s_heap s) (s_handles s ++ [Some (HRaw (PRef m) (pointee h))]))
      | None => RStuck
      end
  | OCoerce i t _ =>
      match get s i with
      | Some (HRaw k p) =>
          match into_virtual_ptr t k p with
          | Some h => ROk (State (s_heap s) (<[i := None]> (s_handles s) ++ [Some h]))
          | None => RStuck
          end
      | _ => RStuck
      end
  | OFn i =>
      match get s i with
      | Some (HRaw k p) =>
          match into_fn k p with
          | Some h => ROk (State (s_heap s) (<[i := None]> (s_handles s) ++ [Some h]))
          | None => RStuck
          end
      | _ => RStuck
      end
  | OClone i =>
      match get s i with
      | Some h =>
          match clone_handle h (s_heap s) with
          | ROk (m, h') => ROk (State m (s_handles s ++ [Some h']))
          | RPanic => RPanic | RUB => RUB | RStuck => RStuck
          end
      | None => RStuck
      end
  | OBegin i m =>
      match get s i with
      | Some h =>
          match access h (s_heap s) with
          | ROk _ => ROk (State (say (EBegin (pointee h) m) (s_heap s)) (s_handles s))
          | RPanic => RPanic | RUB => RUB | RStuck => RStuck
          end
      | None => RStuck
      end
  | OEnd i m =>
      match get s i with
      | Some h =>
          match deref (pointee h) (s_heap s) with
          | ROk _ => ROk (State (say (EEnd (pointee h) m) (s_heap s)) (s_handles s))
          | RPanic => RPanic | RUB => RUB | RStuck => RStuck
          end
      | None => RStuck
      end
  | ODrop i =>
      match get s i with
      | Some h =>
          match drop_handle h (s_heap s) with
          | ROk m => ROk (State m (<[i := None]> (s_handles s)))
          | RPanic => RPanic | RUB => RUB | RStuck => RStuck
          end
      | None => RStuck
      end
  end.
Fixpoint run (s : state) (os : list op) : res state :=
  match os with
  | [] => ROk s
  | o :: os => match step s o with ROk s => run s os | RPanic => RPanic | RUB => RUB | RStuck => RStuck end
  end.
Definition start : state := State ([], []) [].
