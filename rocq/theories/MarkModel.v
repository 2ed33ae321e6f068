(** Model of what the types of the wrappers let Rust code do: cross threads
    ([Send], [Sync]), be taken for another type (variance), reach data.

    Sources (all in /repo/src):
    - ptr.rs 14-40 NonNullRef, NonNullMut, NonNullOwned; utils/markers.rs 5-21
    - slice.rs 46-57 slice_raw, 119-127 slice_boxed, 286-298 slice_ref, 412-428
      slice_mut; their impls 58-95, 132-260, 300-395, 430-559
    - vec.rs 7-18, 20-46, 49-148, 158-172; boxed.rs 7-14, 16-104
    - string/_mod.rs 14-21, 35-58, 100-113; string/slice.rs 8-16, 54-110, 120-192
    - char_p.rs 10-22, 70-88, 273-320, 354-378, 405-421, 574-603
    - shared_cstr.rs 13-31, 77-148; option.rs 20-23, 44-104; tuple.rs 80-153
    - closure/arc.rs 35-83, 85-123, 169-225; boxed.rs 34-80, 82-115, 137-172;
      borrowed.rs 20-49, 51-107, 109-128
    - bytes.rs 24-41, 497-521, 643-668

    A type is a tree; a lifetime says until when ([None]: ['static]).  The type
    a closure or an owner had before it was erased is kept in the tree: rustc
    does not see it, but it is what is called, read and dropped.  Tuples of other
    lengths are as pairs.  Left out: [VirtualPtr] (C33, C34), the closures of
    JavaScript (C45, C68), what [Clone] and [Debug] of a [T] do with a [&T]. *)
From Coq Require Import Bool.
From stdpp Require Import base numbers list.

Definition lt := option nat.
Definition outl (a b : lt) : bool :=
  match a, b with None, _ => true | Some _, None => false | Some x, Some y => Nat.leb y x end.

Inductive ty :=
(** Any other type: is it [Send], [Sync]; does it have interior mutability;
    until when what it borrows is there. *)
| Any (s y cell : bool) (a : lt)
| Ref (a : lt) (t : ty) | RefMut (a : lt) (t : ty) | NonNull (t : ty)
| Slice (t : ty) | RBox (t : ty) | RVec (t : ty) | RArc (t : ty) | Pair (t u : ty)
(** ptr.rs *)
| NNRef (t : ty) | NNMut (t : ty) | NNOwned (t : ty)
| CBox (t : ty) | CVec (t : ty) | SRaw (t : ty) | SRef (a : lt) (t : ty) | SMut (a : lt) (t : ty) | SBox (t : ty)
| CString | StrRef (a : lt) | StrBox
| CharRef (a : lt) | CharBox | CharRaw | SharedCStr
| TOption (t : ty) | Tuple (t u : ty)
(** [f]: the type of the closure, of the owner; [t]: of the argument; [u]: of the result *)
| ArcFn (f t u : ty) | BoxFn (f t u : ty) | RefFn (a : lt) (f t u : ty)
| Bytes (a : lt) (o : ty).
Global Instance ty_eq_dec : EqDecision ty.
Proof. solve_decision. Defined.

Definition Byte : ty := Any true true false None.

(** ** Send and Sync *)

Record marks := Marks { send : bool; sync : bool }.

(** What std implements them for. *)
Definition m_ref (m : marks) : marks := Marks (sync m) (sync m).
Definition m_mut (m : marks) : marks := m.
Definition m_ptr : marks := Marks false false.
Definition m_fn : marks := Marks true true.
Definition m_slice (m : marks) : marks := m.
Definition m_box (m : marks) : marks := m.
Definition m_vec (m : marks) : marks := m.
Definition m_arc (m : marks) : marks := Marks (send m && sync m) (send m && sync m).
Definition m_phantom (m : marks) : marks := m.
Definition m_usize : marks := Marks true true.
(** A struct without an impl of its own. *)
Definition auto (fields : list marks) : marks := Marks (forallb send fields) (forallb sync fields).

(** ptr.rs 14-40 *)
Definition m_nnref : marks := auto [m_ptr].
Definition m_nnmut (m : marks) : marks := auto [m_ptr; m_phantom m_fn].
Definition m_nnowned (m : marks) : marks := auto [m_ptr; m_phantom m].
(** vec.rs 135-148 *)
Definition m_cvec (m : marks) : marks := Marks (send (m_vec m)) (sync (m_vec m)).
(** slice.rs 247-260 *)
Definition m_sbox (m : marks) : marks := Marks (send (m_box (m_slice m))) (sync (m_box (m_slice m))).
(** slice.rs 356-368 *)
Definition m_sref (m : marks) : marks := Marks (send (m_ref (m_slice m))) (sync (m_ref (m_slice m))).
(** slice.rs 527-538 *)
Definition m_smut (m : marks) : marks := Marks (send (m_mut (m_slice m))) (sync (m_mut (m_slice m))).
Definition m_byte : marks := Marks true true.

Fixpoint marks_of (t : ty) : marks :=
  match t with
  | Any s y _ _ => Marks s y
  | Ref _ t => m_ref (marks_of t)
  | RefMut _ t => m_mut (marks_of t)
  | NonNull _ => m_ptr
  | Slice t => m_slice (marks_of t)
  | RBox t => m_box (marks_of t)
  | RVec t => m_vec (marks_of t)
  | RArc t => m_arc (marks_of t)
  | Pair t u => auto [marks_of t; marks_of u]
  | NNRef t => m_nnref
  | NNMut t => m_nnmut (marks_of t)
  | NNOwned t => m_nnowned (marks_of t)
  (* boxed.rs 94-104 *)
  | CBox t => Marks (send (m_box (marks_of t))) (sync (m_box (marks_of t)))
  | CVec t => m_cvec (marks_of t)
  (* slice.rs 46-57 *)
  | SRaw t => auto [m_ptr; m_usize]
  | SRef _ t => m_sref (marks_of t)
  | SMut _ t => m_smut (marks_of t)
  | SBox t => m_sbox (marks_of t)
  (* string/_mod.rs 14-21; string/slice.rs 8-16, 120-127 *)
  | CString => auto [m_cvec m_byte]
  | StrRef _ => auto [m_sref m_byte]
  | StrBox => auto [m_sbox m_byte]
  (* char_p.rs 70-80, 366-378, 82-88; shared_cstr.rs 22-31 *)
  | CharRef _ => Marks (send (m_ref (m_slice m_byte))) (sync (m_ref (m_slice m_byte)))
  | CharBox => Marks (send (m_box (m_slice m_byte))) (sync (m_box (m_slice m_byte)))
  | CharRaw => Marks true true
  | SharedCStr => Marks (send (m_arc (m_slice m_byte))) (sync (m_arc (m_slice m_byte)))
  (* option.rs 20-23; tuple.rs 92-101 *)
  | TOption t => auto [marks_of t]
  | Tuple t u => auto [marks_of t; marks_of u]
  (* closure/arc.rs 67-83 *)
  | ArcFn _ _ _ => Marks true true
  (* closure/boxed.rs 70-80; no impl of Sync: fields 45-58 *)
  | BoxFn _ _ _ => Marks true (sync (auto [m_ptr; m_fn; m_fn]))
  (* closure/borrowed.rs 42-49; no impl of Sync: fields 28-39 *)
  | RefFn _ _ _ _ => Marks true (sync (auto [m_ptr; m_fn; m_phantom (m_ref (Marks true true))]))
  (* bytes.rs 643-662 *)
  | Bytes _ _ => Marks
      (send (m_ref (m_slice m_byte)) && send (m_arc (m_slice m_byte)) && send (m_box (m_slice m_byte)) &&
       send (m_arc (Marks true true)))
      (sync (m_ref (m_slice m_byte)) && sync (m_arc (m_slice m_byte)) && sync (m_box (m_slice m_byte)) &&
       sync (m_arc (Marks true true)))
  end.

(** [t : 'a]: all its lifetimes that rustc sees outlive [a]. *)
Fixpoint outlives (t : ty) (a : lt) : bool :=
  match t with
  | Any _ _ _ b => outl b a
  | Ref b t | RefMut b t | SRef b t | SMut b t => outl b a && outlives t a
  | NonNull t | Slice t | RBox t | RVec t | RArc t | NNRef t | NNMut t | NNOwned t
  | CBox t | CVec t | SRaw t | SBox t | TOption t => outlives t a
  | Pair t u | Tuple t u => outlives t a && outlives u a
  | CString | StrBox | CharBox | CharRaw | SharedCStr => true
  | StrRef b | CharRef b | Bytes b _ => outl b a
  | ArcFn _ t u | BoxFn _ t u => outlives t a && outlives u a
  | RefFn b _ t u => outl b a && outlives t a && outlives u a
  end.

(** What can be built: the bounds of the constructors that erase a type. *)
Fixpoint built (t : ty) : bool :=
  match t with
  | Any _ _ _ _ | CString | StrRef _ | StrBox | CharRef _ | CharBox | CharRaw | SharedCStr => true
  | Ref _ t | RefMut _ t | NonNull t | Slice t | RBox t | RVec t | RArc t | NNRef t | NNMut t | NNOwned t
  | CBox t | CVec t | SRaw t | SRef _ t | SMut _ t | SBox t | TOption t => built t
  | Pair t u | Tuple t u => built t && built u
  (* closure/arc.rs 91-93, 113-116 *)
  | ArcFn f t u => built f && send (marks_of f) && sync (marks_of f) && outlives f None && built t && built u
  (* closure/boxed.rs 88-90, 109-112 *)
  | BoxFn f t u => built f && send (marks_of f) && outlives f None && built t && built u
  (* closure/borrowed.rs 57-60, 78-82 *)
  | RefFn a f t u => built f && send (marks_of f) && outlives f a && built t && built u
  (* bytes.rs 500 *)
  | Bytes _ o => built o && send (marks_of o) && sync (marks_of o) && outlives o None
  end.

(** ** What can be reached *)

(** A value owned; a place of someone else, borrowed mutably; or shared. *)
Inductive mode := Own | Mut | Shr.

(** What the safe methods of a type give; [r] is the lifetime of a borrow.  What
    is held exclusively ([Own], [Mut]) gives more through its [&mut self] methods
    than through those of [&self] (and than a [slice_mut] made a [slice_ref]),
    unless these make a handle of their own, so only the latter are listed. *)
Definition gives (r : lt) (m : mode) (t : ty) : list (mode * ty) :=
  match m, t with
  (* std *)
  | Own, Ref _ t => [(Shr, t)]
  | Mut, Ref _ t => [(Shr, t)]
  | Shr, Ref a t => [(Shr, t); (Own, Ref a t)]
  | Own, RefMut _ t => [(Mut, t)]
  | Mut, RefMut _ t => [(Mut, t)]
  | Shr, RefMut _ t => [(Shr, t)]
  | m, Slice t | m, RBox t | m, RVec t => [(m, t)]
  | Own, RArc t => [(Shr, t); (Own, t)]
  | Mut, RArc t => [(Shr, t); (Mut, t)]
  | Shr, RArc t => [(Shr, t); (Own, RArc t)]
  | m, Pair t u => [(m, t); (m, u)]
  (* boxed.rs 36-45, 48-60 (drop); 81-92; 66-79 *)
  | Own, CBox t => [(Own, RBox t)]
  | Mut, CBox t => [(Mut, t)]
  | Shr, CBox t => [(Shr, t)]
  (* vec.rs 71-102; 34-46, 121-133, 158-172; 20-32, 104-119 *)
  | Own, CVec t => [(Own, RVec t)]
  | Mut, CVec t => [(Own, SMut r t); (Mut, Slice t); (Mut, RVec t)]
  | Shr, CVec t => [(Own, SRef r t); (Shr, Slice t)]
  (* slice.rs 184-219; 141-147, 157-163, 235-245; 132-155, 221-233 *)
  | Own, SBox t => [(Own, RBox (Slice t))]
  | Mut, SBox t => [(Own, SMut r t); (Mut, Slice t)]
  | Shr, SBox t => [(Own, SRef r t); (Shr, Slice t)]
  (* slice.rs 319-328, 381-394; 330-341; 343-354 *)
  | Own, SRef a t => [(Own, Ref a (Slice t)); (Own, SRaw t)]
  | Mut, SRef a t | Shr, SRef a t => [(Own, SRef a t); (Shr, Slice t)]
  (* slice.rs 509-519, 447-456, 551-559; 495-507, 473-480; 482-494, 459-471 *)
  | Own, SMut a t => [(Own, RefMut a (Slice t)); (Own, SRaw t)]
  | Mut, SMut _ t => [(Own, SMut r t); (Mut, Slice t)]
  | Shr, SMut _ t => [(Own, SRef r t); (Shr, Slice t)]
  (* string/_mod.rs 35-45; 104-113; 47-58 *)
  | Own, CString => [(Own, RVec Byte)]
  | Mut, CString => [(Mut, RVec Byte)]
  | Shr, CString => [(Shr, Slice Byte)]
  (* string/slice.rs 92-115; 54-80 *)
  | Own, StrBox => [(Own, RBox (Slice Byte))]
  | Mut, StrBox | Shr, StrBox => [(Own, StrRef r); (Shr, Slice Byte)]
  (* string/slice.rs 142-180 *)
  | Own, StrRef a => [(Own, Ref a (Slice Byte))]
  | Mut, StrRef a | Shr, StrRef a => [(Own, StrRef a); (Shr, Slice Byte)]
  (* char_p.rs 11, 200-240, 310-320 *)
  | Own, CharRef a => [(Own, Ref a (Slice Byte)); (Own, CharRaw)]
  | Mut, CharRef a | Shr, CharRef a => [(Own, CharRef a); (Shr, Slice Byte)]
  (* char_p.rs 574-603; 411-420 *)
  | Own, CharBox => [(Own, RVec Byte)]
  | Mut, CharBox | Shr, CharBox => [(Own, CharRef r); (Shr, Slice Byte)]
  (* shared_cstr.rs 77-94; 96-112, 114-130 *)
  | Own, SharedCStr => [(Own, RArc (Slice Byte))]
  | Mut, SharedCStr | Shr, SharedCStr => [(Own, SharedCStr); (Shr, Slice Byte)]
  (* option.rs 53-60; 81-86; 74-79.  tuple.rs: the fields are public *)
  | m, TOption t => [(m, t)]
  | m, Tuple t u => [(m, t); (m, u)]
  (* closure/arc.rs 169-181 (drop); 183-202 (clone), 204-225 (call) *)
  | Own, ArcFn f _ _ => [(Own, RArc f)]
  | Mut, ArcFn f t u | Shr, ArcFn f t u => [(Shr, f); (Own, ArcFn f t u)]
  (* closure/boxed.rs 137-151 (drop); 153-172 (call) *)
  | Own, BoxFn f _ _ => [(Own, f)]
  | Mut, BoxFn f _ _ => [(Mut, f)]
  (* closure/borrowed.rs 109-128 (call) *)
  | Own, RefFn _ f _ _ | Mut, RefFn _ f _ _ => [(Mut, f)]
  (* bytes.rs: drop; clone, as_slice *)
  | Own, Bytes a o => [(Own, RArc o); (Own, Ref a (Slice Byte))]
  | Mut, Bytes a o | Shr, Bytes a o => [(Own, Bytes a o); (Shr, Slice Byte)]
  (* the rest: raw pointers, of which nothing is had without [unsafe] *)
  | _, _ => []
  end.

(** The argument and the result of a call: arc.rs 213-225, boxed.rs 160-172,
    borrowed.rs 116-128. *)
Definition calls (m : mode) (t : ty) : option (ty * ty) :=
  match m, t with
  | _, ArcFn _ t u | Own, BoxFn _ t u | Mut, BoxFn _ t u | Own, RefFn _ _ t u | Mut, RefFn _ _ t u => Some (t, u)
  | _, _ => None
  end.

(** ** Variance *)

Inductive variance := Bi | Co | Contra | Inv.
Definition flip (v : variance) : variance :=
  match v with Co => Contra | Contra => Co | _ => v end.
(** Under a parameter of variance [v], one of variance [w]. *)
Definition under (v w : variance) : variance :=
  match v with Bi => Bi | Co => w | Contra => flip w
  | Inv => match w with Bi => Bi | _ => Inv end end.
Definition meet (v w : variance) : variance :=
  match v, w with
  | Bi, w => w | v, Bi => v
  | Co, Co => Co | Contra, Contra => Contra
  | _, _ => Inv
  end.

(** std's: [&'a T], [&'a mut T], [NonNull<T>], [PhantomData<T>], [fn(T) -> U]. *)
Definition v_ref := Co.
Definition v_mut := Inv.
Definition v_nonnull := Co.
Definition v_phantom := Co.
Definition v_arg := Contra.
Definition v_ret := Co.
Definition v_box := Co.

(** markers.rs 7-13 ['lt], 16-21 *)
Definition v_covariant_lifetime : variance := under v_phantom v_ref.
Definition v_invariant : variance := under v_phantom (meet (under v_arg v_ref) (under v_ret v_ref)).
(** ptr.rs 14-40 *)
Definition v_nnref : variance := v_nonnull.
Definition v_nnmut : variance := meet v_nonnull v_invariant.
Definition v_nnowned : variance := meet v_nonnull v_phantom.
(** boxed.rs 11-13; vec.rs 12-17; slice.rs 48-56, 121-129, 288-297, 418-427 *)
Definition v_cbox : variance := v_nnowned.
Definition v_cvec : variance := v_nnowned.
Definition v_sraw : variance := v_nonnull.
Definition v_sbox : variance := v_nnowned.
Definition v_sref : variance := v_nnref.
Definition v_sref_lt : variance := v_covariant_lifetime.
Definition v_smut : variance := v_nnmut.
Definition v_smut_lt : variance := v_covariant_lifetime.
(** string/slice.rs 124-126; char_p.rs 18-21; bytes.rs 40 *)
Definition v_strref_lt : variance := v_sref_lt.
Definition v_charref_lt : variance := v_covariant_lifetime.
Definition v_bytes_lt : variance := under v_phantom v_ref.
(** closure/arc.rs 43-51, boxed.rs 42-50, borrowed.rs 28-38 *)
Definition v_fn_arg : variance := v_arg.
Definition v_fn_ret : variance := v_ret.
Definition v_fn_lt : variance := under v_phantom v_ref.

Definition along (v : variance) (f : bool → bool) (d : bool) : bool :=
  match v with Bi => true | Co => f d | Contra => f (negb d) | Inv => f true && f false end.
Definition lt_rel (a b : lt) (d : bool) : bool := if d then outl a b else outl b a.

(** Is [t] taken where [t'] is expected ([d]); or the other way round. *)
Fixpoint rel (t t' : ty) (d : bool) : bool :=
  match t, t' with
  | Any s y c a, Any s' y' c' b =>
      bool_decide ((s, y, c) = (s', y', c')) && along (if c then Inv else Co) (lt_rel a b) d
  | Ref a t, Ref b t' => along v_ref (lt_rel a b) d && along v_ref (rel t t') d
  | RefMut a t, RefMut b t' => along v_ref (lt_rel a b) d && along v_mut (rel t t') d
  | NonNull t, NonNull t' => along v_nonnull (rel t t') d
  | Slice t, Slice t' => rel t t' d
  | RBox t, RBox t' | RVec t, RVec t' | RArc t, RArc t' => along v_box (rel t t') d
  | Pair t u, Pair t' u' | Tuple t u, Tuple t' u' => rel t t' d && rel u u' d
  | NNRef t, NNRef t' => along v_nnref (rel t t') d
  | NNMut t, NNMut t' => along v_nnmut (rel t t') d
  | NNOwned t, NNOwned t' => along v_nnowned (rel t t') d
  | CBox t, CBox t' => along v_cbox (rel t t') d
  | CVec t, CVec t' => along v_cvec (rel t t') d
  | SRaw t, SRaw t' => along v_sraw (rel t t') d
  | SBox t, SBox t' => along v_sbox (rel t t') d
  | SRef a t, SRef b t' => along v_sref_lt (lt_rel a b) d && along v_sref (rel t t') d
  | SMut a t, SMut b t' => along v_smut_lt (lt_rel a b) d && along v_smut (rel t t') d
  | CString, CString | StrBox, StrBox | CharBox, CharBox | CharRaw, CharRaw | SharedCStr, SharedCStr => true
  | StrRef a, StrRef b => along v_strref_lt (lt_rel a b) d
  | CharRef a, CharRef b => along v_charref_lt (lt_rel a b) d
  | TOption t, TOption t' => rel t t' d
  | ArcFn f t u, ArcFn f' t' u' | BoxFn f t u, BoxFn f' t' u' =>
      bool_decide (f = f') && along v_fn_arg (rel t t') d && along v_fn_ret (rel u u') d
  | RefFn a f t u, RefFn b f' t' u' =>
      bool_decide (f = f') && along v_fn_lt (lt_rel a b) d &&
      along v_fn_arg (rel t t') d && along v_fn_ret (rel u u') d
  | Bytes a o, Bytes b o' => bool_decide (o = o') && along v_bytes_lt (lt_rel a b) d
  | _, _ => false
  end.
Definition subtype (t t' : ty) : bool := rel t t' true.
