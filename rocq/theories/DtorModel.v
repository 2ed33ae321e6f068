(** * Destructors that panic, and the memory around them

    boxed.rs 16-88, 102-110 ([Box_]); ptr.rs 178-206 ([NonNullOwned::dealloc],
    [drop_in_place_and_dealloc], [drop_in_place]); vec.rs 89-102 and slice.rs
    202-219 (destructors of [Vec] and [slice_boxed]).  VecModel leaves panics in
    destructors out; here they are an oracle: [pan v] says whether the
    destructor of [v] panics.

    Memory is a list of blocks with the layout they were allocated with, the
    values that are initialised in them, and whether they are still allocated.
    A value is a number; that of a zero-sized type is 0.  The destructor of
    Rust's [Box], [Vec] and slices is as documented: values are dropped in
    order; when one panics the others are dropped nevertheless, and so is the
    memory, while unwinding; a second panic meanwhile aborts the process. *)
From Coq Require Import NArith List Bool.
From stdpp Require Import base numbers list.
Import stdpp.list.

Record layout := Layout { lsize : N; lalign : N }.
#[global] Instance layout_eq : EqDecision layout.
Proof. solve_decision. Defined.

Record mblock := Block { blay : layout; vals : list N; live : bool }.
Inductive ptr := Dangling | At (b : nat).
Inductive event := EAlloc (b : nat) | EFree (b : nat) | EDtor (v : N).
Record heap := Heap { blocks : list mblock; trace : list event }.

(** How a function is left. *)
Inductive out (A : Type) := Ok (h : heap) (a : A) | Panic (h : heap) | Abort (h : heap) | Undef.
Arguments Ok {_}. Arguments Panic {_}. Arguments Abort {_}. Arguments Undef {_}.

Definition log (e : event) (h : heap) : heap := Heap (blocks h) (trace h ++ [e]).
Definition set_block (b : nat) (k : mblock) (h : heap) : heap := Heap (<[b := k]> (blocks h)) (trace h).

(** [alloc::dealloc]: the block has to be allocated, with that layout. *)
Definition dealloc (p : ptr) (l : layout) (h : heap) : out unit :=
  match p with
  | At b =>
      match blocks h !! b with
      | Some k =>
          if live k && bool_decide (blay k = l)
          then Ok (log (EFree b) (set_block b (Block l [] false) h)) tt
          else Undef
      | None => Undef
      end
  | Dangling => Undef
  end.

(** [Layout::array::<T>(n)] *)
Definition array (t : layout) (n : N) : layout := Layout (lsize t * n) (lalign t).

Section T.
(** The type of values, and which destructors panic. *)
Context (t : layout) (pan : N → bool).

Definition zst : bool := (lsize t =? 0)%N.

(** The values that [p] points to: [n] of them. *)
Definition read (p : ptr) (n : nat) (h : heap) : option (list N) :=
  if zst then Some (replicate n 0%N)
  else if (n =? 0)%nat then Some []
  else match p with
       | At b => k ← blocks h !! b;
                 if live k && (n <=? length (vals k))%nat then Some (firstn n (vals k)) else None
       | Dangling => None
       end.
(** They are moved out of, or dropped. *)
Definition forget (p : ptr) (n : nat) (h : heap) : heap :=
  match p with
  | At b => match blocks h !! b with
            | Some k => set_block b (Block (blay k) (skipn n (vals k)) (live k)) h
            | None => h end
  | Dangling => h
  end.

(** Destructors of values in order; [unw]: a panic is under way. *)
Fixpoint dtors (unw : bool) (vs : list N) (h : heap) : out unit :=
  match vs with
  | [] => if unw then Panic h else Ok h tt
  | v :: vs =>
      let h := log (EDtor v) h in
      if pan v then if unw then Abort h else dtors true vs h
      else dtors unw vs h
  end.

(** Memory of [cap] values, if there is any. *)
Definition free_buf (p : ptr) (cap : N) (h : heap) : out unit :=
  if (lsize (array t cap) =? 0)%N then Ok h tt else dealloc p (array t cap) h.

(** The destructor of [Vec<T>]: the values, and then the memory, also while
    unwinding. *)
Definition rust_drop (p : ptr) (n : nat) (cap : N) (h : heap) : out unit :=
  match read p n h with
  | None => Undef
  | Some vs =>
      match dtors false vs (forget p n h) with
      | Ok h _ => free_buf p cap h
      | Panic h => match free_buf p cap h with Ok h _ => Panic h | _ => Undef end
      | r => r
      end
  end.

(** ** [Box_] *)

(** [Box::new]; boxed.rs 31-38, 16-27 *)
Definition box_new (v : N) (h : heap) : out ptr :=
  if zst then Ok h Dangling
  else let b := length (blocks h) in
       Ok (Heap (blocks h ++ [Block t [v] true]) (trace h ++ [EAlloc b])) (At b).
(** boxed.rs 40-49: [ManuallyDrop], [Box::from_raw]; and back, 16-27:
    [Box::leak]. *)
Definition box_into (p : ptr) (h : heap) : out ptr := Ok h p.
Definition box_from (p : ptr) (h : heap) : out ptr := Ok h p.
(** boxed.rs 52-63: the destructor of [Box::from_raw(p)]. *)
Definition box_drop (p : ptr) (h : heap) : out unit := rust_drop p 1 1 h.
(** boxed.rs 65-76 *)
Definition box_deref (p : ptr) (h : heap) : out N :=
  match read p 1 h with Some [v] => Ok h v | _ => Undef end.
(** [*b = v] by boxed.rs 78-88: the old value is dropped, and the new one is
    there even if that panics. *)
Definition write (p : ptr) (v : N) (h : heap) : heap :=
  match p with
  | At b => match blocks h !! b with
            | Some k => set_block b (Block (blay k) (v :: skipn 1 (vals k)) (live k)) h
            | None => h end
  | Dangling => h
  end.
Definition box_put (p : ptr) (v : N) (h : heap) : out unit :=
  match read p 1 h with
  | Some [w] => dtors false [w] (write p v h)
  | _ => Undef
  end.
(** boxed.rs 102-110: [Self::new(T::clone(self))]; [T::clone] may panic. *)
Definition box_clone (clonet : N → option N) (p : ptr) (h : heap) : out ptr :=
  match read p 1 h with
  | Some [v] => match clonet v with Some w => box_new w h | None => Panic h end
  | _ => Undef
  end.

(** ** [NonNullOwned], which has no destructor *)

(** ptr.rs 178-191; the type is the caller's. *)
Definition own_dealloc (ty : layout) (p : ptr) (h : heap) : out unit :=
  if (lsize ty =? 0)%N then Ok h tt else dealloc p ty h.
(** ptr.rs 201-206 *)
Definition own_drop_in_place (p : ptr) (h : heap) : out unit :=
  match read p 1 h with
  | Some vs => dtors false vs (forget p 1 h)
  | None => Undef
  end.
(** ptr.rs 193-198: two statements; a panic of the first skips the second. *)
Definition own_drop_and_dealloc (p : ptr) (h : heap) : out unit :=
  match own_drop_in_place p h with
  | Ok h _ => own_dealloc t p h
  | r => r
  end.

(** ** [Vec] and [slice_boxed] *)

(** vec.rs 89-102, by way of 75-86 *)
Definition vec_drop (p : ptr) (len : nat) (cap : N) (h : heap) : out unit := rust_drop p len cap h.
(** slice.rs 202-219 *)
Definition slice_drop (p : ptr) (len : nat) (h : heap) : out unit := rust_drop p len (N.of_nat len) h.
End T.
